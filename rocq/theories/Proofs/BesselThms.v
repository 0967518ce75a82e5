(** * Statements of the Bessel accuracy theorems at the level of Jn and In *)

From Coq Require Import ZArith Reals Bool Lra Lia List.
From Flocq Require Import Core IEEE754.BinarySingleNaN IEEE754.Binary IEEE754.Bits.
From Verif.Model Require Import Base Arith BesselTables Bessel.
From Verif.Float Require Import Bits64 Ieee Exact Platforms.
From Verif.Spec Require Import F64Spec Outcome BesselSpec.
From Verif.Proofs Require Import F64 F64Ops Lits Ext FlErr BesselSeries BesselAcc BesselJAcc.
Import ListNotations.
Open Scope R_scope.

Lemma eta_mult : forall (c : R) (k : Z), c <= bpow radix2 k -> c * eta <= bpow radix2 (k - 1000).
Proof.
  intros c k H. replace (k - 1000)%Z with (k + -1000)%Z by ring. rewrite bpow_plus. apply Rmult_le_compat_r; [apply bpow_ge_0|exact H].
Qed.

Lemma In0_acc : forall (P : platform) (x : f64) (v : R), finite x -> Rabs (Binary.B2R x) < 15 -> is_I 0 (Binary.B2R x) v ->
  exists r, @Bessel.In (ieee P) 0 x = Ok r /\ finite r /\ Rabs (Binary.B2R r - v) <= 3 / 10 ^ 14 * v.
Proof.
  intros P x v Fx Hx Hv. exists (@i0 (ieee P) x). split; [reflexivity|]. rewrite <- (val_fin x Fx) in Hx, Hv.
  destruct (i0_fl P x v Fx Hx Hv) as [F E]. rewrite (val_fin _ F) in E. split; [exact F|exact E].
Qed.
Lemma In1_acc : forall (P : platform) (x : f64) (v : R), finite x -> Rabs (Binary.B2R x) < 15 -> is_I 1 (Binary.B2R x) v ->
  exists r, @Bessel.In (ieee P) 1 x = Ok r /\ finite r /\ Rabs (Binary.B2R r - v) <= 3 / 10 ^ 14 * Rabs v + bpow radix2 (-996).
Proof.
  intros P x v Fx Hx Hv. exists (@i1 (ieee P) x). split; [reflexivity|]. rewrite <- (val_fin x Fx) in Hx, Hv.
  destruct (i1_fl P x v Fx Hx Hv) as [F E]. rewrite (val_fin _ F) in E. split; [exact F|]. eapply Rle_trans; [exact E|].
  apply Rplus_le_compat_l. apply (eta_mult 10 4). simpl. lra.
Qed.
Lemma Jn0_acc : forall (P : platform) (x : f64) (v : R), finite x -> Rabs (Binary.B2R x) < 8 -> is_J 0 (Binary.B2R x) v ->
  exists r, @Jn (ieee P) 0 x = Ok r /\ finite r /\ Rabs (Binary.B2R r - v) <= 3 / 10 ^ 14.
Proof.
  intros P x v Fx Hx Hv. exists (@j0 (ieee P) x). split; [reflexivity|]. rewrite <- (val_fin x Fx) in Hx, Hv.
  destruct (j0_fl P x v Fx Hx Hv) as [F E]. rewrite (val_fin _ F) in E. split; [exact F|exact E].
Qed.
Lemma Jn1_acc : forall (P : platform) (x : f64) (v : R), finite x -> Rabs (Binary.B2R x) < 8 -> is_J 1 (Binary.B2R x) v ->
  exists r, @Jn (ieee P) 1 x = Ok r /\ finite r /\ Rabs (Binary.B2R r - v) <= 1 / 10 ^ 14 * Rabs (Binary.B2R x) + bpow radix2 (-987).
Proof.
  intros P x v Fx Hx Hv. exists (@j1 (ieee P) x). split; [reflexivity|]. rewrite <- (val_fin x Fx) in *.
  destruct (j1_fl P x v Fx Hx Hv) as [F E]. rewrite (val_fin _ F) in E. split; [exact F|]. eapply Rle_trans; [exact E|].
  apply Rplus_le_compat_l. apply (eta_mult 5070 13). simpl. lra.
Qed.

Lemma ex_bessel : (finite (f64_lit 2.5) /\ Binary.B2R (f64_lit 2.5) = 2.5) /\ Rabs 2.5 < 8 < 15 /\
  forall n, (exists v, is_I n 2.5 v) /\ (exists v, is_J n 2.5 v).
Proof.
  lit_facts 2.5%dec 5%Z 1%Z HF HV. split; [split; [exact HF|rewrite <- (val_fin _ HF); lra]|].
  split; [rewrite Rabs_pos_eq; lra|]. intros n. split; [apply I_exists|apply J_exists].
Qed.
