(** * The imaginary part of the Faddeeva function at large real arguments *)

From Coq Require Import ZArith Reals Bool Lra Lia List.
From Flocq Require Import Core IEEE754.BinarySingleNaN IEEE754.Binary IEEE754.Bits.
From Verif.Model Require Import Base Arith Error Dawson Faddeeva.
From Verif.Float Require Import Bits64 Ieee Exact Platforms.
From Verif.Spec Require Import F64Spec Outcome DawsonSpec LibmSpec.
From Verif.Proofs Require Import F64 F64Ops Lits Ext NuPanic DawsonTrue DawsonLarge ErfcxAsym InvThms FaddeevaAxes.
Open Scope R_scope.
Local Notation sqrt := R_sqrt.sqrt. Local Notation PI := Rtrigo1.PI.
Local Notation u := (/ 2 ^ 53).
Local Notation B := Binary.B2R.

Theorem faddeeva_im_large : forall (P : platform) (D : R -> R) (x y : f64) (k : Z), accurate_exp (p_exp P) ->
  dawson_integral D (val x) -> number x -> (200 <= k <= 2 ^ 30)%Z ->
  8 / 10 * IZR k + 3 / 10 <= val x <= 8 / 10 * IZR k + 39 / 100 -> finite y -> B y = 0 ->
  0 < 2 / sqrt PI * D (val x) /\ exists a b, @faddeeva (ieee P) x y = Ok (a, b) /\ finite b /\ 109 / 100 * (2 / sqrt PI * D (val x)) <= val b.
Proof.
  intros P D x y k EX HD Nx Hk Hx Fy Vy.
  destruct (dawson_too_large P D x k EX HD Nx Hk Hx) as [D0 (r & Er & Fr & Vr)].
  destruct (dawson_large P EX x k Nx Hk Hx) as (r' & Er' & _ & L & U). rewrite Er in Er'. injection Er' as <-.
  assert (K : 200 <= IZR k <= 2 ^ 30) by (split; [apply IZR_le; lia|rewrite pow_IZR; apply IZR_le; change (2 ^ Z.of_nat 30)%Z with (2 ^ 30)%Z; lia]).
  assert (RL : / 2 ^ 40 <= val r).
  { destruct (Rle_or_lt (/ 2 ^ 40) (val r)) as [Q|Q]; [exact Q|]. assert (IZR k * val r <= 2 ^ 30 * / 2 ^ 40) by (apply Rmult_le_compat; lra). lra. }
  pose proof isp_range as R. split; [unfold Rdiv; repeat apply Rmult_lt_0_compat; lra|].
  assert (BX : bpow radix2 (-1000) <= Rabs (val x)).
  { rewrite Rabs_pos_eq by lra. apply Rle_trans with (bpow radix2 0); [apply bpow_le; lia|simpl; lra]. }
  do 2 eexists. split; [apply (im_real_axis P x y r Nx BX Fy Vy Er)|].
  destruct b300 as [L3 U3].
  pose proof (mul_spec P _ _ fin_2 Fr) as R1. rewrite <- (val_fin _ fin_2), val_2, <- (val_fin _ Fr) in R1.
  destruct (fmid _ _ R1) as [F1 V1]; [lra|]. set (t := f64_mul P (f64_lit 2.0) r) in *. clearbody t.
  destruct isp_lit_near as [FI VI]. change (fin (f64_lit 0.564_189_583_547_756_3)) in FI. apply Rabs_le_inv in VI.
  set (q := f64_lit 0.564_189_583_547_756_3) in *. clearbody q.
  change (2 / sqrt PI) with (2 * / sqrt PI). set (S := / sqrt PI) in *. clearbody S.
  assert (Q : 99 / 100 * S <= B q <= 1) by lra.
  assert (M : 199 / 100 * val r * (99 / 100 * S) <= B t * B q) by (apply Rmult_le_compat; try lra; apply Rmult_le_pos; lra).
  assert (M0 : 199 / 100 * val r * (99 / 100 * (11 / 20)) <= 199 / 100 * val r * (99 / 100 * S)) by (apply Rmult_le_compat_l; lra).
  assert (M1 : B t * B q <= 10 ^ 8 * 1) by (apply Rmult_le_compat; lra).
  destruct (fmid _ _ (mul_spec P _ _ F1 FI)) as [F2 V2]; [lra|].
  split; [exact F2|]. rewrite (val_fin _ F2).
  assert (M2 : 2 * val r * (1 - u) * (S - / 2 ^ 52) <= B t * B q) by (apply Rmult_le_compat; lra).
  assert (M3 : 2 * (11 / 10 * D (val x)) * S * (999 / 1000) <= 2 * val r * (1 - u) * (S - / 2 ^ 52)).
  { assert (A1 : S * (9999 / 10000) <= S - / 2 ^ 52) by lra.
    assert (A2 : 2 * (11 / 10 * D (val x)) * (9999 / 10000) <= 2 * val r * (1 - u)) by lra.
    assert (A3 : 2 * (11 / 10 * D (val x)) * (9999 / 10000) * (S * (9999 / 10000)) <= 2 * val r * (1 - u) * (S - / 2 ^ 52)) by (apply Rmult_le_compat; lra).
    assert (A4 : 0 < D (val x) * S) by (apply Rmult_lt_0_compat; lra). lra. }
  assert (A4 : 0 < D (val x) * S) by (apply Rmult_lt_0_compat; lra).
  set (z := B (f64_mul P t q)) in *. clearbody z. replace (109 / 100 * (2 * S * D (val x))) with (218 / 100 * (D (val x) * S)) by field.
  replace (2 * (11 / 10 * D (val x)) * S * (999 / 1000)) with (22 / 10 * (999 / 1000) * (D (val x) * S)) in M3 by field. lra.
Qed.

Lemma ex_zero : finite (f64_lit 0.0) /\ B (f64_lit 0.0) = 0.
Proof. lit_facts 0.0%dec 0%Z 0%Z HF HV. split; [exact HF|]. rewrite <- (val_fin _ HF), HV. lra. Qed.
