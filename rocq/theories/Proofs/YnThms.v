(** * Statement of the accuracy theorem for Yn *)

From Coq Require Import ZArith Reals Bool Lra Lia List.
From Flocq Require Import Core IEEE754.BinarySingleNaN IEEE754.Binary IEEE754.Bits.
From Verif.Model Require Import Base Arith BesselTables Bessel.
From Verif.Float Require Import Bits64 Ieee Exact Platforms.
From Verif.Spec Require Import F64Spec Outcome BesselSpec Bessel2Spec.
From Verif.Proofs Require Import F64 F64Ops Lits Ext FlErr BetaExamples SecondSeries SecondRat KAcc KnAcc YAcc YnAcc.
Import ListNotations.
Open Scope R_scope.

Lemma Yn_acc : forall (P : platform) (n : nat) (x : f64) (v : R), accurate_ln (p_ln P) -> (1 <= n)%nat -> (Z.of_nat n < 2 ^ 32)%Z -> finite x -> 0 < Binary.B2R x <= 1 ->
  is_Y n (Binary.B2R x) v -> Rabs v <= bpow radix2 1020 ->
  let r := @Yn (ieee P) (Z.of_nat n) x in finite r /\ Rabs (Binary.B2R r - v) <= (1 / 10 ^ 12 + 2 * INR n / 10 ^ 15) * Rabs v.
Proof.
  intros P n x v LN H1 Hn Fx Hx Hv HB r. rewrite <- (val_fin x Fx) in Hx, Hv. destruct (Yn_fl P LN n x v Fx Hx H1 Hn Hv HB) as [F E].
  fold r in F, E. rewrite (val_fin _ F) in E. split; [exact F|exact E].
Qed.

Lemma Y1_upper : forall x a, 0 < x <= 1 -> is_Y 1 x a -> - a <= 2 * / x.
Proof.
  intros x a Hx Ha. destruct (y1_ser x a ltac:(lra) Ha) as (b & _ & Bb & S). destruct (tgt_y 1 (x * x) (x * x) ltac:(lia) ltac:(nra) ltac:(nra)) as [T1 _]. pose proof (x_ln x Hx) as XL. destruct pi_near as [_ P2]. pose proof pi_low as P3. pose proof pq as PQ.
  assert (I1 : 1 <= / x) by (rewrite <- Rinv_1; apply Rinv_le_contravar; lra).
  assert (E1 : Rabs (Rpower.ln x * b) <= 1 / 2 * (51 / 100)).
  { rewrite Rabs_mult. apply Rle_trans with (Rabs (Rpower.ln x) * (51 / 100 * x)); [apply Rmult_le_compat_l; [apply Rabs_pos|exact Bb]|]. replace (Rabs (Rpower.ln x) * (51 / 100 * x)) with (x * Rabs (Rpower.ln x) * (51 / 100)) by ring. apply Rmult_le_compat_r; lra. }
  assert (E2 : 2 / Rtrigo1.PI * (/ x - Rpower.ln x * b) <= 637 / 1000 * (126 / 100 * / x)). { apply Rabs_le_inv in E1. apply Rmult_le_compat; lra. }
  assert (E3 : Rabs (x * (IZR pn / IZR pd * tgt (-1) 1 26 (x * x))) <= 1 * (637 / 1000 * 1)).
  { rewrite Rabs_mult, Rabs_mult, (Rabs_pos_eq x), (Rabs_pos_eq (IZR pn / IZR pd)) by lra.
    apply Rmult_le_compat; [lra|apply Rmult_le_pos; [lra|apply Rabs_pos]|lra|]. apply Rmult_le_compat; [lra|apply Rabs_pos|lra|exact T1]. }
  apply Rabs_le_inv in S, E3. replace (2 / Rtrigo1.PI * (Rpower.ln x * b - / x)) with (- (2 / Rtrigo1.PI * (/ x - Rpower.ln x * b))) in S by ring. lra.
Qed.

Lemma ex_yn : accurate_ln (p_ln (ideal true false)) /\ (finite (f64_lit 0.5) /\ Binary.B2R (f64_lit 0.5) = 0.5) /\ exists v, is_Y 3 0.5 v /\ Rabs v <= bpow radix2 1020.
Proof.
  lit_facts 0.5%dec 1%Z 1%Z HF HV. assert (V : Binary.B2R (f64_lit 0.5) = 0.5) by (rewrite <- (val_fin _ HF); lra).
  split; [apply ideal_ln_accurate|]. split; [split; [exact HF|exact V]|].
  destruct (Y_exists 0 0.5 ltac:(lra)) as [a Ha]. destruct (Y_exists 1 0.5 ltac:(lra)) as [b Hb]. destruct (Y_exists 2 0.5 ltac:(lra)) as [c Hc]. destruct (Y_exists 3 0.5 ltac:(lra)) as [d Hd].
  exists d. split; [exact Hd|].
  pose proof (Y0_bound 0.5 a ltac:(lra) Ha) as A. pose proof (Y1_upper 0.5 b ltac:(lra) Hb) as B. pose proof (Y1_bound 0.5 b ltac:(lra) Hb) as B'.
  pose proof (Y_step 0 0.5 a b c ltac:(lra) Ha Hb Hc) as C. pose proof (Y_step 1 0.5 b c d ltac:(lra) Hb Hc Hd) as D.
  assert (I2 : / 0.5 = 2) by lra. rewrite I2 in *. change (INR 1) with 1 in C. replace (INR 2) with 2 in D by (simpl; lra). apply Rabs_le_inv in A.
  apply Rle_trans with (bpow radix2 8); [|apply bpow_le; lia]. change (bpow radix2 8) with 256. apply Rabs_le. lra.
Qed.
