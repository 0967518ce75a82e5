(** * The platform with a correctly rounded libm *)

From Coq Require Import ZArith Reals Bool Lra Lia.
From Flocq Require Import Core IEEE754.BinarySingleNaN IEEE754.Binary IEEE754.Bits.
From Verif.Model Require Import Base Arith.
From Verif.Float Require Import Bits64 Ieee Platforms.
From Verif.Spec Require Import F64Spec Outcome.
From Verif.Proofs Require Import F64 F64Ops Lits Ext.
Open Scope R_scope.

Lemma round_to_f64_spec : forall r, rounds (round_to_f64 r) r.
Proof.
  intros r. unfold round_to_f64.
  set (m := ZnearestE _). set (e := Generic_fmt.cexp _ _ _).
  assert (E : F2R (Float radix2 m e) = rnd r) by reflexivity.
  pose proof (Binary.binary_normalize_correct 53 1024 prec_gt_0_64 prec_lt_emax_64 mode_NE m e false) as H.
  cbv zeta in H. rewrite E in H.
  change (round radix2 (SpecFloat.fexp 53 1024) (round_mode mode_NE) (rnd r)) with (rnd (rnd r)) in H.
  assert (I : rnd (rnd r) = rnd r) by (apply rnd_fmt, fmt_rnd). rewrite I in H.
  set (z := Binary.binary_normalize _ _ _ _ _ _ _ _) in *. change (bpow radix2 1024) with Om in H.
  pose proof (Rlt_bool_spec (Rabs (rnd r)) Om) as S. destruct (Rlt_bool (Rabs (rnd r)) Om).
  - destruct H as (H1 & H2 & _). inversion S. split; [apply fin_nonnan; exact H2|].
    rewrite (val_fin z H2), H1. symmetry. apply rs_in. lra.
  - inversion S as [|S']. unfold Binary.binary_overflow in H. cbn in H.
    assert (Z : z = B754_infinity (Rlt_bool (rnd r) 0)).
    { apply (Binary.B2FF_inj 53 1024). exact H. }
    rewrite Z. split; [reflexivity|].
    pose proof (Rlt_bool_spec (rnd r) 0) as T. destruct (Rlt_bool (rnd r) 0); inversion T.
    + rewrite val_inf_t. symmetry. apply rs_under. rewrite Rabs_left in S' by assumption. lra.
    + rewrite val_inf_f. symmetry. apply rs_over. rewrite Rabs_pos_eq in S' by assumption. lra.
Qed.

Lemma ideal_exp_finite : forall x : f64, finite x -> rounds (ideal_exp x) (Rtrigo_def.exp (Binary.B2R x)).
Proof. intros [] H; try discriminate H; apply round_to_f64_spec. Qed.

Lemma ideal_exp_ge_1 : forall c f, at_least_1 (p_exp (ideal c f)).
Proof.
  intros c f t [Nt Ht]. cbn [p_exp ideal].
  destruct (fin_or_inf t Nt) as [Ft|[s ->]].
  - destruct (ideal_exp_finite t Ft) as [N V]. split; [exact N|]. rewrite V.
    apply (rs_ge 1); [apply (fmt_IZR 1); lia|pose proof Om_big; lra|].
    rewrite (val_fin t Ft) in Ht. rewrite <- exp_0.
    destruct Ht as [Ht|Ht]; [left; apply exp_increasing; exact Ht|rewrite <- Ht; lra].
  - destruct s; [rewrite val_inf_t in Ht; pose proof Om_pos; lra|].
    split; [reflexivity|]. change (1 <= Om). pose proof Om_big. lra.
Qed.

Lemma ideal_exp_nonneg : forall c f, never_negative (p_exp (ideal c f)).
Proof.
  intros c f t Nt. right. cbn [p_exp ideal].
  destruct (fin_or_inf t Nt) as [Ft|[s ->]].
  - destruct (ideal_exp_finite t Ft) as [N V]. rewrite V. apply rs_pos. left. apply exp_pos.
  - destruct s; [change (0 <= 0); lra|change (0 <= Om); pose proof Om_pos; lra].
Qed.
