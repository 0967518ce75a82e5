(** * Tiny arguments of besseljy and besselik: the reciprocal overflows *)

From Coq Require Import ZArith Reals Bool Lra Lia List String.
From Flocq Require Import Core IEEE754.BinarySingleNaN IEEE754.Binary IEEE754.Bits.
From Verif.Model Require Import Base Arith BesselTables Bessel.
From Verif.Float Require Import Bits64 Ieee Exact Platforms.
From Verif.Spec Require Import F64Spec Outcome.
From Verif.Proofs Require Import F64 F64Ops Lits Ext Boundaries Domains Symmetry BesselInt BesselRec BesselPanics
  NuPanic.
Import ListNotations.
Open Scope R_scope.

Local Notation B := Binary.B2R.
Local Notation pinf := (B754_infinity false : f64).

(** the continued fractions started with an infinite [b] produce NaN at every step *)
Definition stuck (b d c : f64) : Prop := b = pinf /\ (exists s, d = B754_zero s) /\ c = pinf.

Definition stuckJ (st : f64 * f64 * f64 * f64 * Z) : Prop := let '(b, d, c, _, _) := st in stuck b d c.
Definition stuckI (st : f64 * f64 * f64 * f64) : Prop := let '(b, d, c, _) := st in stuck b d c.

Lemma clip_inf : forall P, @clip_fpmin (ieee P) pinf = pinf.
Proof. intros P. vm_compute. reflexivity. Qed.

Lemma jy_inf : forall P nu xi, f64_mul P nu xi = pinf -> f64_mul P pinf nu = pinf ->
  @jy_cf1 (ieee P) nu xi pinf = Panic (PExplicit "x too large in besseljy; try asymptotic expansion").
Proof.
  intros P nu xi H1 H2. unfold jy_cf1.
  match goal with |- context [for_break ?l ?b ?s] =>
    assert (Q : snd (for_break l b s) = false);
    [apply (for_break_never b stuckJ)|destruct (for_break l b s) as [[[[[r v] w] z] y] ok]] end.
  - intros i [[[[b d] c] h] s] (-> & [t ->] & ->). unfold jy_cf1_body. ieee_simpl.
    assert (E1 : f64_add P pinf pinf = pinf) by reflexivity. rewrite E1.
    assert (E2 : f64_sub P pinf (B754_zero t) = pinf) by reflexivity. rewrite E2, clip_inf.
    assert (E3 : f64_sub P pinf (f64_div P (f64_lit 1.0) pinf) = pinf) by (vm_compute; reflexivity). rewrite E3, clip_inf.
    cbn [fst snd]. split; [split; [reflexivity|split; [|reflexivity]]; exists false; vm_compute; reflexivity|].
    apply le_nan_l. apply abs_nan, sub_nan_l. vm_compute. reflexivity.
  - replace (@mul (ieee P) nu xi) with pinf by (symmetry; exact H1). replace (@mul (ieee P) pinf nu) with pinf by (symmetry; exact H2).
    split; [reflexivity|split; [exists false; vm_compute; reflexivity|vm_compute; reflexivity]].
  - cbn [snd] in Q. subst ok. reflexivity.
Qed.

Lemma ik_inf : forall P nu xi, f64_mul P nu xi = pinf -> f64_mul P pinf nu = pinf ->
  @ik_cf1 (ieee P) nu xi pinf = Panic (PExplicit "x too large in besselik; try asymptotic expansion").
Proof.
  intros P nu xi H1 H2. unfold ik_cf1.
  match goal with |- context [for_break ?l ?b ?s] =>
    assert (Q : snd (for_break l b s) = false);
    [apply (for_break_never b stuckI)|destruct (for_break l b s) as [[[[r v] w] z] ok]] end.
  - intros i [[[b d] c] h] (-> & [t ->] & ->). unfold ik_cf1_body. ieee_simpl.
    assert (E1 : f64_add P pinf pinf = pinf) by reflexivity. rewrite E1.
    assert (E2 : f64_add P pinf (B754_zero t) = pinf) by reflexivity. rewrite E2.
    assert (E3 : f64_add P pinf (f64_div P (f64_lit 1.0) pinf) = pinf) by (vm_compute; reflexivity). rewrite E3.
    cbn [fst snd]. split; [split; [reflexivity|split; [|reflexivity]]; exists false; vm_compute; reflexivity|].
    apply le_nan_l. apply abs_nan, sub_nan_l. vm_compute. reflexivity.
  - replace (@mul (ieee P) nu xi) with pinf by (symmetry; exact H1). replace (@mul (ieee P) pinf nu) with pinf by (symmetry; exact H2).
    split; [reflexivity|split; [exists false; vm_compute; reflexivity|vm_compute; reflexivity]].
  - cbn [snd] in Q. subst ok. reflexivity.
Qed.

Lemma recip_over : forall P x, number x -> 0 < val x <= bpow radix2 (-1024) -> f64_div P (f64_lit 1.0) x = pinf.
Proof.
  intros P x Nx Hx. assert (F : fin x).
  { apply fin_iff_val; [exact Nx|]. pose proof (bp (-1024) 0 ltac:(lia)) as Q. rewrite bp1 in Q. pose proof Om_big. rewrite Rabs_pos_eq.  lra. lra. }
  pose proof fin_1 as F1. pose proof val_1 as V1. rewrite val_fin in V1 by exact F1. rewrite val_fin in Hx by exact F.
  destruct (div_spec P _ x F1 F ltac:(lra)) as [N V]. rewrite V1 in V.
  assert (Q : bpow radix2 1024 <= 1 / B x).
  { replace (1 / B x) with (/ B x) by (unfold Rdiv; lra). replace (bpow radix2 1024) with (/ bpow radix2 (-1024)) by (rewrite <- bpow_opp; reflexivity). apply Rinv_le_contravar; lra. }
  assert (W : val (f64_div P (f64_lit 1.0) x) = Om).
  { rewrite V. apply rs_over. unfold Om. rewrite <- (rnd_fmt (bpow radix2 1024)) at 1; [apply rnd_le; exact Q|apply fmt_bpow; lia]. }
  destruct (f64_div P (f64_lit 1.0) x) as [s|[]|s pl Hp|s m e Hb] eqn:E; pose proof Om_pos.
  - cbn in W. lra.
  - cbn in W. lra.
  - reflexivity.
  - discriminate N.
  - exfalso. assert (G : fin (f64_div P (f64_lit 1.0) x)) by (rewrite E; reflexivity).
    rewrite <- E in W. rewrite val_fin in W by exact G. pose proof (B2R_lt_Om (f64_div P (f64_lit 1.0) x)) as L. rewrite W in L. rewrite Rabs_pos_eq in L; lra.
Qed.

Lemma mul2_inf : forall P, f64_mul P (f64_lit 2.0) pinf = pinf.
Proof. intros P. vm_compute. reflexivity. Qed.

Lemma nu_cases : forall nu : f64, number nu -> 0 <= val nu ->
  (exists s, nu = B754_zero s) \/ nu = pinf \/ (exists m e H, nu = B754_finite false m e H).
Proof.
  intros nu N H. destruct nu as [s|[]|s pl Hp|[] m e Hb]; try discriminate N.
  - left. exists s. reflexivity.
  - cbn in H. pose proof Om_pos. lra.
  - right. left. reflexivity.
  - exfalso. rewrite val_fin in H by reflexivity. cbn in H. pose proof (F2R_lt_0 radix2 (Float radix2 (Z.neg m) e) ltac:(cbn; lia)) as L. lra.
  - right. right. exists m, e, Hb. reflexivity.
Qed.

Lemma jy_tiny : forall P nu x, number nu -> 0 <= val nu -> number x -> 0 < val x <= bpow radix2 (-1024) ->
  @besseljy (ieee P) nu x = Panic (PExplicit "x too large in besseljy; try asymptotic expansion").
Proof.
  intros P nu x Nn Hn Nx Hx. unfold besseljy. ieee_simpl. rewrite (bad_false nu x) by (intros [_ H]; lra). cbn [negb].
  rewrite (recip_over P x Nx Hx), mul2_inf.
  enough (Q : @jy_cf1 (ieee P) nu pinf pinf = Panic (PExplicit "x too large in besseljy; try asymptotic expansion")) by (rewrite Q; reflexivity).
  destruct (nu_cases nu Nn Hn) as [[s ->]|[->|(m & e & Hb & ->)]].
  - apply jy_cf1_nan. reflexivity.
  - apply jy_inf; reflexivity.
  - apply jy_inf; reflexivity.
Qed.

Lemma ik_tiny : forall P nu x, number nu -> 0 <= val nu -> number x -> 0 < val x <= bpow radix2 (-1024) ->
  @besselik (ieee P) nu x = Panic (PExplicit "x too large in besselik; try asymptotic expansion").
Proof.
  intros P nu x Nn Hn Nx Hx. unfold besselik. ieee_simpl. rewrite (bad_false nu x) by (intros [_ H]; lra). cbn [negb].
  rewrite (recip_over P x Nx Hx), mul2_inf.
  enough (Q : @ik_cf1 (ieee P) nu pinf pinf = Panic (PExplicit "x too large in besselik; try asymptotic expansion")) by (rewrite Q; reflexivity).
  destruct (nu_cases nu Nn Hn) as [[s ->]|[->|(m & e & Hb & ->)]].
  - apply ik_cf1_nan. reflexivity.
  - apply ik_inf; reflexivity.
  - apply ik_inf; reflexivity.
Qed.

Definition tiny_x : f64 := @B754_finite 53 1024 false 1 (-1074) eq_refl.
Lemma ex_tiny : number tiny_x /\ 0 < val tiny_x <= bpow radix2 (-1024).
Proof.
  split; [reflexivity|]. rewrite val_fin by reflexivity. change (B tiny_x) with (IZR 1 * bpow radix2 (-1074)).
  pose proof (bpow_gt_0 radix2 (-1074)). pose proof (bp (-1074) (-1024) ltac:(lia)). lra.
Qed.
Lemma tiny_refuted : forall P, exists nu x, number nu /\ val nu = 0 /\ number x /\ 0 < val x < 1 /\
  panics (@besseljy (ieee P) nu x) /\ panics (@besselik (ieee P) nu x).
Proof.
  intros P. destruct ex_tiny as [N V]. exists (f64_lit 0.0), tiny_x. pose proof nn_0 as N0. pose proof val_0 as V0.
  pose proof (bp (-1024) (-1) ltac:(lia)) as W. replace (bpow radix2 (-1)) with (1 / 2) in W by (simpl; lra).
  split; [exact N0|split; [exact V0|split; [exact N|split; [lra|]]]].
  rewrite (jy_tiny P) by (assumption || lra). rewrite (ik_tiny P) by (assumption || lra). split; eexists; reflexivity.
Qed.
