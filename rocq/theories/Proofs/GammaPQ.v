(** * gammp and gammq are complementary *)

From Coq Require Import ZArith Reals Bool Lra Lia.
From Flocq Require Import Core IEEE754.BinarySingleNaN IEEE754.Binary IEEE754.Bits.
From Verif.Model Require Import Base Arith Gamma.
From Verif.Float Require Import Bits64 Ieee.
From Verif.Spec Require Import F64Spec Outcome.
From Verif.Proofs Require Import F64 F64Ops Lits Ext Boundaries.
Open Scope R_scope.

Lemma ulp_below_1 : forall a, 0 <= a < 1 -> ulp radix2 fexp64 a <= bpow radix2 (-53).
Proof.
  intros a Ha.
  set (b := Rmax a (1 / 2)).
  assert (Hb : 1 / 2 <= b < 1) by (unfold b, Rmax; destruct Rle_dec; lra).
  apply Rle_trans with (ulp radix2 fexp64 b).
  - apply ulp_le; [apply FLT_exp_valid; reflexivity|apply FLT_exp_monotone|].
    rewrite !Rabs_pos_eq by lra. apply Rmax_l.
  - rewrite ulp_neq_0 by lra. apply Req_le. unfold Generic_fmt.cexp.
    rewrite (mag_unique_pos radix2 b 0); [reflexivity|].
    change (bpow radix2 0) with 1. change (bpow radix2 (0 - 1)) with (/ 2). lra.
Qed.

Lemma rnd_err_01 : forall a, 0 <= a <= 1 -> Rabs (rnd a - a) <= bpow radix2 (-54).
Proof.
  intros a Ha. destruct (Req_dec a 1) as [->|N].
  - rewrite rnd_fmt. 2:{ change 1 with (bpow radix2 0). apply fmt_bpow. lia. }
    replace (1 - 1) with 0 by ring. rewrite Rabs_R0. apply bpow_ge_0.
  - eapply Rle_trans.
    + unfold rnd. apply error_le_half_ulp. apply FLT_exp_valid. reflexivity.
    + apply Rle_trans with (/ 2 * bpow radix2 (-53)).
      * apply Rmult_le_compat_l; [lra|]. apply ulp_below_1. lra.
      * change (/ 2) with (bpow radix2 (-1)). rewrite <- bpow_plus. apply Rle_refl.
Qed.

Section Approx.
  Context {A : arith}.
  (** the common part of the two directions of [gammpapprox] *)
  Definition approx_ans (a x : F A) : F A :=
    (let a1 := a - $1.0 in
    let lna1 := ln a1 in
    let sqrta1 := sqrt a1 in
    let gln := ln_gamma a in
    let xu :=
      if x > a1 then fmax (a1 + $11.5 * sqrta1) (x + $6.0 * sqrta1)
      else fmax $0.0 (fmin (a1 - $7.5 * sqrta1) (x - $5.0 * sqrta1)) in
    let log_values := gammp_log_terms a1 lna1 x xu in
    let log_max := List.fold_left fmax log_values (- infinity) in
    let sum :=
      List.fold_left (fun sum log_val =>
                   if log_val - log_max > - $700.0
                   then sum + exp (log_val - log_max) else sum)
        log_values $0.0 in
    let log_scale := a1 * (lna1 - $1.0) - gln in
    let log_ans := log_max + ln sum + ln (xu - x) + log_scale in
    if log_ans > $700.0 then infinity
    else if log_ans < - $700.0 then $0.0
    else exp log_ans)%f.

  Lemma approx_P : forall a x : F A,
    gammpapprox a x IncGammaP = clamp (lit 0.0) (lit 1.0) (sub (lit 1.0) (approx_ans a x)).
  Proof. intros. reflexivity. Qed.
  Lemma approx_Q : forall a x : F A, gammpapprox a x IncGammaQ = clamp (lit 0.0) (lit 1.0) (approx_ans a x).
  Proof. intros. reflexivity. Qed.
End Approx.

Section PQ.
  Context (P : platform).
  Notation sub := (f64_sub P).

  Lemma complement : forall v, between 0 1 v ->
    between 0 1 (sub (f64_lit 1.0) v) /\
    Rabs (val v + val (sub (f64_lit 1.0) v) - 1) <= bpow radix2 (-54).
  Proof.
    intros v [N B]. pose proof Om_big as HO.
    assert (Fv : fin v).
    { apply (fin_of_bound v 1 N); [rewrite Rabs_pos_eq by lra; lra|]. lra. }
    destruct (sub_spec P _ v fin_1 Fv) as [Nw Vw].
    rewrite <- (val_fin _ fin_1), <- (val_fin v Fv), val_1 in Vw.
    assert (F1 : fmt 1) by (change 1 with (bpow radix2 0); apply fmt_bpow; lia).
    assert (R0 : 0 <= rnd (1 - val v)) by (apply rnd_pos; lra).
    assert (R1 : rnd (1 - val v) <= 1) by (apply rnd_le_fmt; [exact F1|lra]).
    rewrite rs_in in Vw by (rewrite Rabs_pos_eq by lra; lra).
    split; [split; [exact Nw|lra]|]. rewrite Vw.
    replace (val v + rnd (1 - val v) - 1) with (rnd (1 - val v) - (1 - val v)) by ring.
    apply rnd_err_01. lra.
  Qed.

  Notation clamp01 x := (@clamp (ieee P) (f64_lit 0.0) (f64_lit 1.0) x).

  Lemma clamp_id : forall x, between 0 1 x -> clamp01 x = x.
  Proof.
    intros x [N B]. unfold clamp. ieee_simpl.
    rewrite (lt_val x), val_0, Rlt_bool_false by (auto using nn_0; lra).
    rewrite lt_val, val_1, Rlt_bool_false by (auto using nn_1; lra). reflexivity.
  Qed.
  Lemma clamp_high : forall x, number x -> 1 <= val x -> val (clamp01 x) = 1.
  Proof.
    intros x N B. unfold clamp. ieee_simpl.
    rewrite (lt_val x), val_0, Rlt_bool_false by (auto using nn_0; lra).
    rewrite lt_val, val_1 by (auto using nn_1).
    destruct (Req_dec (val x) 1) as [E|E].
    - rewrite Rlt_bool_false by lra. exact E.
    - rewrite Rlt_bool_true by lra. exact val_1.
  Qed.
  Lemma clamp_low : forall x, number x -> val x <= 0 -> val (clamp01 x) = 0.
  Proof.
    intros x N B. unfold clamp. ieee_simpl.
    rewrite (lt_val x), val_0 by (auto using nn_0).
    destruct (Req_dec (val x) 0) as [E|E].
    - rewrite Rlt_bool_false by lra.
      rewrite lt_val, val_1, Rlt_bool_false by (auto using nn_1; lra). exact E.
    - rewrite Rlt_bool_true by lra.
      rewrite lt_val, val_1, val_0, Rlt_bool_false by (auto using nn_1, nn_0; lra). exact val_0.
  Qed.
  Lemma clamp_nan : forall x, is_NaN x -> clamp01 x = x.
  Proof.
    intros x N. unfold clamp. ieee_simpl. rewrite (lt_nan_l x), (lt_nan_r _ x) by exact N. reflexivity.
  Qed.

  Lemma sub_1_high : forall v, number v -> 1 < val v -> number (sub (f64_lit 1.0) v) /\ val (sub (f64_lit 1.0) v) <= 0.
  Proof.
    intros v N H. pose proof (sub_fin_num P _ v fin_1 N) as Nw. split; [exact Nw|].
    destruct (fin_or_inf v N) as [Fv|[s ->]].
    - destruct (sub_spec P _ v fin_1 Fv) as [_ Vw]. rewrite <- (val_fin _ fin_1), <- (val_fin v Fv), val_1 in Vw.
      rewrite Vw. apply rs_le_fmt; [apply fmt_0|pose proof Om_pos; lra|lra].
    - destruct s; [exfalso; change (1 < - Om) in H; pose proof Om_pos; lra|].
      change (- Om <= 0). pose proof Om_pos; lra.
  Qed.
  Lemma sub_1_low : forall v, number v -> val v < 0 -> number (sub (f64_lit 1.0) v) /\ 1 <= val (sub (f64_lit 1.0) v).
  Proof.
    intros v N H. pose proof (sub_fin_num P _ v fin_1 N) as Nw. split; [exact Nw|].
    pose proof Om_big as HO.
    destruct (fin_or_inf v N) as [Fv|[s ->]].
    - destruct (sub_spec P _ v fin_1 Fv) as [_ Vw]. rewrite <- (val_fin _ fin_1), <- (val_fin v Fv), val_1 in Vw.
      rewrite Vw. apply rs_ge; [change 1 with (bpow radix2 0); apply fmt_bpow; lia|lra|lra].
    - destruct s; [|exfalso; change (Om < 0) in H; lra].
      change (1 <= Om). lra.
  Qed.

  (** a value and the clamped complement of the same value *)
  Lemma compl_one : forall v, between 0 1 v ->
    Rabs (val v + val (clamp01 (sub (f64_lit 1.0) v)) - 1) <= bpow radix2 (-54).
  Proof.
    intros v B. destruct (complement v B) as [B' E]. rewrite clamp_id by exact B'. exact E.
  Qed.

  Lemma compl_both : forall v, number (clamp01 v) ->
    Rabs (val (clamp01 v) + val (clamp01 (sub (f64_lit 1.0) v)) - 1) <= bpow radix2 (-54).
  Proof.
    intros v Nc.
    assert (N : number v).
    { unfold number. destruct (Binary.is_nan v) eqn:E; [|reflexivity].
      rewrite clamp_nan in Nc by exact E. unfold number in Nc. congruence. }
    assert (Z : Rabs 0 <= bpow radix2 (-54)) by (rewrite Rabs_R0; apply bpow_ge_0).
    destruct (Rlt_or_le 1 (val v)) as [H|H].
    - destruct (sub_1_high v N H) as [Nw Vw]. rewrite clamp_high, clamp_low by (auto; lra).
      replace (1 + 0 - 1) with 0 by ring. exact Z.
    - destruct (Rlt_or_le (val v) 0) as [L|L].
      + destruct (sub_1_low v N L) as [Nw Vw]. rewrite clamp_low, clamp_high by (auto; lra).
        replace (0 + 1 - 1) with 0 by ring. exact Z.
      + rewrite (clamp_id v) by (split; [exact N|lra]). apply compl_one. split; [exact N|lra].
  Qed.

  Lemma plus_comm_1 : forall a b, a + b - 1 = b + a - 1. Proof. intros. ring. Qed.

  Theorem gammp_gammq : forall a x p q, @gammp (ieee P) a x = Ok p -> @gammq (ieee P) a x = Ok q ->
    between 0 1 p -> between 0 1 q -> Rabs (val p + val q - 1) <= bpow radix2 (-54).
  Proof.
    intros a x p q. unfold gammp, gammq. ieee_simpl.
    destruct (_ && _)%bool; [|discriminate].
    assert (Z : forall u v, u + v = 1 -> Rabs (u + v - 1) <= bpow radix2 (-54)).
    { intros u v ->. replace (1 - 1) with 0 by ring. rewrite Rabs_R0. apply bpow_ge_0. }
    destruct (f64_eq x _).
    { intros H1 H2 _ _. apply ok_inj in H1, H2. subst p q. apply Z. rewrite val_0, val_1. ring. }
    destruct (f64_lt x _).
    { intros H1 H2 _ _. apply ok_inj in H1, H2. subst p q. apply Z. rewrite val_0, val_1. ring. }
    destruct (f64_lt _ x).
    { intros H1 H2 _ _. apply ok_inj in H1, H2. subst p q. apply Z. rewrite val_0, val_1. ring. }
    destruct (100 <=? _)%Z.
    - destruct (f64_lt x _).
      + intros H1 H2 B1 B2. apply ok_inj in H1, H2. subst p q. apply compl_one. exact B1.
      + intros H1 H2 B1 B2. apply ok_inj in H1, H2. rewrite approx_P in H1. rewrite approx_Q in H2.
        subst p q. rewrite plus_comm_1. apply compl_both. exact (proj1 B2).
    - destruct (f64_lt x _).
      + intros H1 H2 B1 B2. apply ok_inj in H1, H2. subst p q. apply compl_one. exact B1.
      + intros H1 H2 B1 B2. apply ok_inj in H1, H2. subst p q. rewrite plus_comm_1. apply compl_one. exact B2.
  Qed.
End PQ.
