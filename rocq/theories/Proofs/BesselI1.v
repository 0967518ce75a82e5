(** * The odd symmetry of I_1 fails for |x| >= 15 *)

From Coq Require Import ZArith Reals Bool Lra Lia List String.
From Flocq Require Import Core IEEE754.BinarySingleNaN IEEE754.Binary IEEE754.Bits.
From Verif.Model Require Import Base Arith BesselTables Bessel.
From Verif.Float Require Import Bits64 Ieee Exact Platforms.
From Verif.Spec Require Import F64Spec Outcome.
From Verif.Proofs Require Import F64 F64Ops Lits Ext Boundaries Domains BesselInt BesselRec BesselPanics.
Open Scope R_scope.

Lemma mul_mono_l : forall P x x' y, fin x -> fin x' -> fin y -> 0 <= val y -> val x <= val x' ->
  val (f64_mul P x y) <= val (f64_mul P x' y).
Proof.
  intros P x x' y Fx Fx' Fy Vy L.
  destruct (mul_spec P x y Fx Fy) as [_ ->]. destruct (mul_spec P x' y Fx' Fy) as [_ ->].
  apply rs_le. rewrite <- !val_fin by assumption. apply Rmult_le_compat_r; assumption.
Qed.

Lemma div_mono_l : forall P x x' y, fin x -> fin x' -> fin y -> 0 < val y -> val x <= val x' ->
  val (f64_div P x y) <= val (f64_div P x' y).
Proof.
  intros P x x' y Fx Fx' Fy Vy L. rewrite val_fin in Vy by exact Fy.
  destruct (div_spec P x y Fx Fy) as [_ ->]; [lra|]. destruct (div_spec P x' y Fx' Fy) as [_ ->]; [lra|].
  apply rs_le. rewrite <- (val_fin x), <- (val_fin x') by assumption. apply Rmult_le_compat_r; [|exact L].
  left. apply Rinv_0_lt_compat. exact Vy.
Qed.

Definition i1_tail (P : platform) (e : f64) : f64 :=
  let z := @sub (ieee P) (lit 1.0) (@div (ieee P) (lit 15.0) (f64_lit 16.0)) in
  f64_div P (f64_mul P e (@poly (ieee P) z I1PP))
    (f64_mul P (f64_sqrt P (f64_lit 16.0)) (@poly (ieee P) z I1QQ)).

Lemma i1_tail_consts : forall P, exists a c, fin a /\ fin c /\ 0 < val a <= 1 /\ 0 < val c
  /\ (forall e, i1_tail P e = f64_div P (f64_mul P e a) c).
Proof.
  intros P. unfold i1_tail. eexists. eexists. split; [|split; [|split; [|split; [|intros e; reflexivity]]]].
  - vm_compute. reflexivity.
  - vm_compute. reflexivity.
  - match goal with |- 0 < val ?a <= 1 =>
      assert (L1 : f64_lt (f64_lit 0.0) a = true) by (vm_compute; reflexivity);
      assert (L2 : f64_le a (f64_lit 1.0) = true) by (vm_compute; reflexivity) end.
    apply lt_true in L1. apply le_true in L2. rewrite val_0 in L1. rewrite val_1 in L2. tauto.
  - match goal with |- 0 < val ?a =>
      assert (L1 : f64_lt (f64_lit 0.0) a = true) by (vm_compute; reflexivity) end.
    apply lt_true in L1. rewrite val_0 in L1. tauto.
Qed.

Lemma i1_tail_lt : forall P, f64_lt (i1_tail P (f64_lit 1.0)) (i1_tail P (f64_lit 2.0)) = true.
Proof. intros P. vm_compute. reflexivity. Qed.
Lemma i1_tail_zero : forall P, f64_le (f64_lit 0.0) (i1_tail P (f64_lit 0.0)) = true.
Proof. intros P. vm_compute. reflexivity. Qed.

Lemma i1_pos16 : forall P, @i1 (ieee P) (f64_lit 16.0) = i1_tail P (libm P (p_exp P) (f64_lit 16.0)).
Proof.
  intros P. unfold i1. ieee_simpl.
  replace (f64_lt (f64_abs (f64_lit 16.0)) (f64_lit 15.0)) with false by (vm_compute; reflexivity).
  replace (f64_lt (f64_lit 16.0) (f64_lit 0.0)) with false by (vm_compute; reflexivity).
  reflexivity.
Qed.

Lemma i1_neg16 : forall P, @i1 (ieee P) (f64_neg (f64_lit 16.0))
  = f64_neg (i1_tail P (libm P (p_exp P) (f64_neg (f64_lit 16.0)))).
Proof.
  intros P. unfold i1. ieee_simpl. rewrite abs_neg.
  replace (f64_lt (f64_abs (f64_lit 16.0)) (f64_lit 15.0)) with false by (vm_compute; reflexivity).
  replace (f64_lt (f64_neg (f64_lit 16.0)) (f64_lit 0.0)) with true by (vm_compute; reflexivity).
  reflexivity.
Qed.

(** [exp 16 = 8886110.5...], [exp (-16) = 1.1e-7] *)
Definition exp_plausible (P : platform) : Prop :=
  between 2 (bpow radix2 100) (p_exp P (f64_lit 16.0))
  /\ between 0 1 (p_exp P (f64_neg (f64_lit 16.0))).

Lemma between_fin : forall lo hi x, between lo hi x -> 0 <= lo -> hi <= bpow radix2 100 -> fin x.
Proof.
  intros lo hi x [N V] Hl Hh. apply (fin_of_bound _ (bpow radix2 100)); [exact N| |apply bpow_lt; lia].
  rewrite Rabs_pos_eq; lra.
Qed.

Lemma i1_not_odd : forall P, exp_plausible P ->
  number (@i1 (ieee P) (f64_lit 16.0)) /\ number (@i1 (ieee P) (f64_neg (f64_lit 16.0)))
  /\ Rabs (val (@i1 (ieee P) (f64_neg (f64_lit 16.0)))) < val (@i1 (ieee P) (f64_lit 16.0)).
Proof.
  intros P [H1 H2]. rewrite i1_pos16, i1_neg16.
  assert (L100 : 1 <= bpow radix2 100) by (apply (bpow_le radix2 0); lia).
  rewrite libm_nonnan by (vm_compute; reflexivity). rewrite libm_nonnan by (vm_compute; reflexivity).
  pose proof (between_fin _ _ _ H1 ltac:(lra) ltac:(lra)) as F1.
  pose proof (between_fin _ _ _ H2 ltac:(lra) ltac:(lra)) as F2.
  destruct H1 as [N1 V1]. destruct H2 as [N2 V2].
  set (e1 := p_exp P (f64_lit 16.0)) in *. set (e2 := p_exp P (f64_neg (f64_lit 16.0))) in *. clearbody e1 e2.
  destruct (i1_tail_consts P) as (a & c & Fa & Fc & Va & Vc & E).
  pose proof (i1_tail_lt P) as L. pose proof (i1_tail_zero P) as L0.
  rewrite !E in *. apply lt_true in L. apply le_true in L0. rewrite val_0 in L0.
  assert (FM : forall e, fin e -> 0 <= val e <= bpow radix2 100 -> fin (f64_mul P e a)).
  { intros e Fe Ve. destruct (mul_spec P e a Fe Fa) as [N V].
    apply (fin_of_bound _ (bpow radix2 100)); [exact N| |apply bpow_lt; lia].
    rewrite V, <- !val_fin by assumption. rewrite Rabs_pos_eq by (apply rs_pos; apply Rmult_le_pos; lra).
    apply rs_le_fmt; [apply fmt_bpow; lia|pose proof Om_pos; lra|]. nra. }
  assert (FD : forall e, fin e -> 0 <= val e <= bpow radix2 100 -> number (f64_div P (f64_mul P e a) c)).
  { intros e Fe Ve. apply div_spec; [apply FM; assumption|exact Fc|rewrite <- val_fin by exact Fc; lra]. }
  assert (MM : forall e e', fin e -> fin e' -> 0 <= val e <= bpow radix2 100 -> 0 <= val e' <= bpow radix2 100 -> val e <= val e' ->
     val (f64_div P (f64_mul P e a) c) <= val (f64_div P (f64_mul P e' a) c)).
  { intros e e' Fe Fe' Ve Ve' Le. apply div_mono_l; auto. apply mul_mono_l; auto; lra. }
  pose proof fin_1. pose proof fin_2. pose proof val_1 as W1. pose proof val_2 as W2. pose proof val_0 as W0.
  assert (L2 : 2 <= bpow radix2 100) by (apply (bpow_le radix2 1); lia).
  split; [apply FD; [exact F1|lra]|].
  split; [unfold number; rewrite nan_neg; apply FD; [exact F2|lra]|].
  rewrite val_neg, Rabs_Ropp.
  assert (A0 : 0 <= val (f64_div P (f64_mul P e2 a) c)).
  { eapply Rle_trans; [apply L0|]. apply MM; [reflexivity|exact F2|rewrite W0; lra|lra|rewrite W0; lra]. }
  rewrite Rabs_pos_eq by exact A0.
  apply Rle_lt_trans with (val (f64_div P (f64_mul P (f64_lit 1.0) a) c)); [apply MM; rewrite ?W1; auto; lra|].
  eapply Rlt_le_trans; [apply L|]. apply MM; rewrite ?W2; auto; lra.
Qed.

Lemma In_parity_refuted : exists n x, (0 <= n < 2 ^ 32)%Z /\ finite x
  /\ forall P, exp_plausible P -> exists r r', @In (ieee P) n x = Ok r /\ @In (ieee P) n (f64_neg x) = Ok r'
     /\ ~ opposite r r'.
Proof.
  exists 1%Z, (f64_lit 16.0). split; [lia|]. split; [vm_compute; reflexivity|].
  intros P H. destruct (i1_not_odd P H) as (N1 & N2 & V).
  exists (@i1 (ieee P) (f64_lit 16.0)), (@i1 (ieee P) (f64_neg (f64_lit 16.0))).
  split; [reflexivity|]. split; [reflexivity|]. intros [[E|[E _]]|(_ & _ & E1 & E2)].
  - rewrite E, val_neg, Rabs_Ropp in V. pose proof (Rle_abs (val (@i1 (ieee P) (f64_lit 16.0)))). lra.
  - unfold number in N2. congruence.
  - rewrite E1, E2, Rabs_R0 in V. lra.
Qed.

(** the hypothesis can be met *)
Lemma ex_exp_plausible : forall P, exp_plausible (step_exp P).
Proof.
  intros P. split; cbn [p_exp step_exp].
  - replace (f64_lt (f64_lit 16.0) f64_zero) with false by (vm_compute; reflexivity).
    split; [apply nn_2|]. rewrite val_2. split; [lra|apply (bpow_le radix2 1); lia].
  - replace (f64_lt (f64_neg (f64_lit 16.0)) f64_zero) with true by (vm_compute; reflexivity).
    split; [reflexivity|]. cbn. lra.
Qed.
