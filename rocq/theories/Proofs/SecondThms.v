(** * Statements of the accuracy theorems for Kn and Yn *)

From Coq Require Import ZArith Reals Bool Lra Lia List.
From Flocq Require Import Core IEEE754.BinarySingleNaN IEEE754.Binary IEEE754.Bits.
From Verif.Model Require Import Base Arith BesselTables Bessel.
From Verif.Float Require Import Bits64 Ieee Exact Platforms.
From Verif.Spec Require Import F64Spec Outcome BesselSpec Bessel2Spec.
From Verif.Proofs Require Import F64 F64Ops Lits Ext FlErr BetaExamples SecondSeries KAcc KnAcc YAcc.
Import ListNotations.
Open Scope R_scope.

Lemma Kn_acc : forall (P : platform) (n : nat) (x : f64) (v : R), accurate_ln (p_ln P) -> (Z.of_nat n < 2 ^ 32)%Z -> finite x -> 0 < Binary.B2R x <= 1 ->
  is_K n (Binary.B2R x) v -> v <= bpow radix2 1020 ->
  let r := @Kn (ieee P) (Z.of_nat n) x in finite r /\ Rabs (Binary.B2R r - v) <= (42 / 10 ^ 15 + INR n / 10 ^ 15) * v.
Proof.
  intros P n x v LN Hn Fx Hx Hv HB r. rewrite <- (val_fin x Fx) in Hx, Hv. destruct (Kn_fl P LN n x v Hn Fx Hx Hv HB) as [F E].
  fold r in F, E. rewrite (val_fin _ F) in E. split; [exact F|exact E].
Qed.
Lemma K0_acc : forall (P : platform) (x : f64) (v : R), accurate_ln (p_ln P) -> finite x -> 0 < Binary.B2R x <= 1 -> is_K 0 (Binary.B2R x) v ->
  let r := @Kn (ieee P) 0 x in finite r /\ Rabs (Binary.B2R r - v) <= 12 / 10 ^ 15 * v.
Proof.
  intros P x v LN Fx Hx Hv r. rewrite <- (val_fin x Fx) in Hx, Hv. destruct (k0_fl P LN x v Fx Hx Hv) as [F E].
  change (@k0 (ieee P) x) with r in F, E. rewrite (val_fin _ F) in E. split; [exact F|exact E].
Qed.
Lemma Y0_acc : forall (P : platform) (x : f64) (v : R), accurate_ln (p_ln P) -> finite x -> 0 < Binary.B2R x < 8 -> is_Y 0 (Binary.B2R x) v ->
  let r := @Yn (ieee P) 0 x in finite r /\ Rabs (Binary.B2R r - v) <= 1 / 10 ^ 13 + 3 / 10 ^ 14 * Rabs (Rpower.ln (Binary.B2R x)).
Proof.
  intros P x v LN Fx Hx Hv r. rewrite <- (val_fin x Fx) in *. destruct (y0_fl P LN x v Fx Hx Hv) as [F E].
  change (@y0 (ieee P) x) with r in F, E. rewrite (val_fin r F) in E. split; [exact F|exact E].
Qed.
Lemma Y1_acc : forall (P : platform) (x : f64) (v : R), accurate_ln (p_ln P) -> finite x -> bpow radix2 (-1022) <= Binary.B2R x < 8 -> is_Y 1 (Binary.B2R x) v ->
  let r := @Yn (ieee P) 1 x in finite r /\
  Rabs (Binary.B2R r - v) <= 2 / 10 ^ 14 * (Binary.B2R x * (1 + Rabs (Rpower.ln (Binary.B2R x)))) + 1 / 10 ^ 15 / Binary.B2R x.
Proof.
  intros P x v LN Fx Hx Hv r. rewrite <- (val_fin x Fx) in *. destruct (y1_fl P LN x v Fx Hx Hv) as [F E].
  change (@y1 (ieee P) x) with r in F, E. rewrite (val_fin r F) in E. split; [exact F|exact E].
Qed.

Lemma ex_second : accurate_ln (p_ln (ideal true false)) /\ (finite (f64_lit 0.5) /\ Binary.B2R (f64_lit 0.5) = 0.5) /\ bpow radix2 (-1022) <= 0.5 /\
  (exists v, is_K 1 0.5 v /\ v <= bpow radix2 1020) /\ forall n, (exists v, is_K n 0.5 v) /\ (exists v, is_Y n 0.5 v).
Proof.
  lit_facts 0.5%dec 1%Z 1%Z HF HV. assert (V : Binary.B2R (f64_lit 0.5) = 0.5) by (rewrite <- (val_fin _ HF); lra).
  assert (M : bpow radix2 (-1022) <= 0.5). { apply Rle_trans with (bpow radix2 (-4)); [apply bpow_le; lia|simpl; lra]. }
  split; [apply ideal_ln_accurate|]. split; [split; [exact HF|exact V]|]. split; [exact M|]. split.
  - destruct (K_exists 1 0.5 ltac:(lra)) as [v Hv]. exists v. split; [exact Hv|].
    assert (Hx : val (f64_lit 0.5) = 0.5) by (rewrite (val_fin _ HF); exact V).
    destruct (k1_fl (ideal true false) (ideal_ln_accurate true false) (f64_lit 0.5) v HF) as (_ & _ & B); [rewrite Hx; lra|rewrite Hx; exact Hv|].
    rewrite Hx in B. apply Rle_trans with 4; [lra|]. replace 4 with (bpow radix2 2) by (simpl; lra). apply bpow_le; lia.
  - intros n. split; [apply K_exists; lra|apply Y_exists; lra].
Qed.
