(** * The accuracy of gamma, in the form the property states it *)

From Coq Require Import ZArith Reals Lra Lia.
From Flocq Require Import Core IEEE754.BinarySingleNaN IEEE754.Binary IEEE754.Bits.
From Verif.Model Require Import Base Arith Gamma.
From Verif.Float Require Import Bits64 Ieee.
From Verif.Spec Require Import F64Spec Outcome GammaSpec.
From Verif.Proofs Require Import F64 F64Ops Lits GammaAcc GammaExists.
Open Scope R_scope.

Lemma gamma_acc : forall G : R -> R, gamma_function G ->
  forall (P : platform) (z : f64) (fuel : nat), (280 <= fuel)%nat -> finite z -> -165 <= Binary.B2R z <= 171 ->
  bpow radix2 (-1000) <= Rabs (Binary.B2R z) -> (forall n, Binary.B2R z <> - INR n) ->
  exists r, @gamma (ieee P) fuel z = Ok r /\ finite r /\
  Rabs (Binary.B2R r - G (Binary.B2R z)) <= / 2 ^ 45 * Rabs (G (Binary.B2R z)).
Proof.
  intros G HG P z fuel Hf Fz Bz Hz Nz. pose proof (val_fin z Fz) as V. rewrite <- V in *.
  destruct (gamma_accurate G HG P z fuel Hf Fz Bz Hz Nz) as (r & E & Fr & Er).
  exists r. split; [exact E|]. split; [exact Fr|]. rewrite <- (val_fin r Fr).
  replace (/ 2 ^ 45) with (bpow radix2 (-45)); [exact Er|].
  simpl bpow. f_equal. simpl. lra.
Qed.

Lemma not_half : forall k x, x = IZR k + / 2 -> forall n, x <> - INR n.
Proof.
  intros k x E n H. rewrite E, INR_IZR_INZ in H. assert (X : IZR (2 * k + 1) = IZR (-2 * Z.of_nat n)).
  { rewrite plus_IZR, !mult_IZR. lra. }
  apply eq_IZR in X. lia.
Qed.

Lemma ex_gamma_acc : (exists G, gamma_function G)
  /\ (finite (f64_lit (-2.5)) /\ -165 <= Binary.B2R (f64_lit (-2.5)) <= 171 /\
      bpow radix2 (-1000) <= Rabs (Binary.B2R (f64_lit (-2.5))) /\ forall n, Binary.B2R (f64_lit (-2.5)) <> - INR n)
  /\ (finite (f64_lit 170.5) /\ -165 <= Binary.B2R (f64_lit 170.5) <= 171 /\
      bpow radix2 (-1000) <= Rabs (Binary.B2R (f64_lit 170.5)) /\ forall n, Binary.B2R (f64_lit 170.5) <> - INR n).
Proof.
  split; [exists GG; exact gamma_exists|].
  lit_facts (-2.5)%dec (-5)%Z 1%Z HF HV. lit_facts 170.5%dec 341%Z 1%Z HF' HV'.
  rewrite (val_fin _ HF) in HV. rewrite (val_fin _ HF') in HV'.
  assert (B : bpow radix2 (-1000) <= 1) by (change 1 with (bpow radix2 0); apply bpow_le; lia).
  split; (split; [assumption|]); (split; [lra|]); split.
  - rewrite Rabs_left; lra.
  - apply (not_half (-3)). lra.
  - rewrite Rabs_pos_eq; lra.
  - apply (not_half 170). lra.
Qed.
