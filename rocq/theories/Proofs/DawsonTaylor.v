(** * The Taylor polynomial of Dawson's integral *)

From Coq Require Import Reals Lra Lia.
From Verif.Spec Require Import DawsonSpec.
Open Scope R_scope.

(** ** The Taylor polynomial of degree 7 against the differential equation *)

Definition dpoly (t : R) : R := t - 2 / 3 * t ^ 3 + 4 / 15 * t ^ 5 - 8 / 105 * t ^ 7.

Lemma derive_sq : forall t, derivable_pt_lim (fun t => exp (t * t)) t (2 * t * exp (t * t)).
Proof.
  intros t.
  replace (2 * t * exp (t * t)) with (exp (t * t) * (1 * t + t * 1)) by ring.
  apply (derivable_pt_lim_comp (fun t => t * t) exp).
  - apply (derivable_pt_lim_mult id id); apply derivable_pt_lim_id.
  - apply derivable_pt_lim_exp.
Qed.

Lemma derive_dpoly : forall t, derivable_pt_lim dpoly t (1 - 2 * t ^ 2 + 4 / 3 * t ^ 4 - 8 / 15 * t ^ 6).
Proof.
  intros t. unfold dpoly.
  replace (1 - 2 * t ^ 2 + 4 / 3 * t ^ 4 - 8 / 15 * t ^ 6) with
    (1 - 2 / 3 * (INR 3 * t ^ 2) + 4 / 15 * (INR 5 * t ^ 4) - 8 / 105 * (INR 7 * t ^ 6)) by (simpl; field).
  apply derivable_pt_lim_minus; [apply derivable_pt_lim_plus; [apply derivable_pt_lim_minus|]|].
  - apply derivable_pt_lim_id.
  - apply derivable_pt_lim_scal. apply derivable_pt_lim_pow.
  - apply derivable_pt_lim_scal. apply derivable_pt_lim_pow.
  - apply derivable_pt_lim_scal. apply derivable_pt_lim_pow.
Qed.

(** a function with nonnegative derivative on [0, b] does not decrease *)
Lemma mono_from_0 : forall (f f' : R -> R) b, 0 <= b ->
  (forall t, 0 <= t <= b -> derivable_pt_lim f t (f' t)) -> (forall t, 0 <= t <= b -> 0 <= f' t) ->
  f 0 <= f b.
Proof.
  intros f f' b Hb D N. destruct Hb as [Hb|<-]; [|lra].
  destruct (MVT_cor2 f f' 0 b Hb) as (c & E & Hc).
  { intros c Hc. apply D. exact Hc. }
  pose proof (N c ltac:(lra)). nra.
Qed.

Section Dawson.
  Context (D : R -> R) (b : R) (Dn : dawson_integral D b).

  Let E t := (D t - dpoly t) * exp (t * t).

  Lemma derive_E : forall t, Rabs t <= b -> derivable_pt_lim E t (16 / 105 * t ^ 8 * exp (t * t)).
  Proof.
    intros t Ht. destruct Dn as [_ Dd]. unfold E.
    replace (16 / 105 * t ^ 8 * exp (t * t)) with
      ((1 - 2 * t * D t - (1 - 2 * t ^ 2 + 4 / 3 * t ^ 4 - 8 / 15 * t ^ 6)) * exp (t * t)
       + (D t - dpoly t) * (2 * t * exp (t * t))) by (unfold dpoly; field).
    apply (derivable_pt_lim_mult (fun t => D t - dpoly t) (fun t => exp (t * t))).
    - apply derivable_pt_lim_minus; [apply Dd; exact Ht|apply derive_dpoly].
    - apply derive_sq.
  Qed.

  Lemma dawson_taylor_pos : forall x, 0 <= x <= b -> 0 <= D x - dpoly x <= 16 / 945 * x ^ 9.
  Proof.
    intros x Hx. assert (E0 : E 0 = 0).
    { unfold E. destruct Dn as [-> _]. unfold dpoly. ring. }
    assert (Dom : forall t, 0 <= t <= x -> Rabs t <= b) by (intros t Ht; rewrite Rabs_pos_eq; lra).
    pose proof (exp_pos (x * x)) as Ep. split.
    - assert (L : E 0 <= E x).
      { apply (mono_from_0 E (fun t => 16 / 105 * t ^ 8 * exp (t * t))); [lra| |].
        - intros t Ht. apply derive_E, Dom, Ht.
        - intros t Ht. apply Rmult_le_pos; [|left; apply exp_pos].
          pose proof (pow_le t 8 ltac:(lra)). lra. }
      rewrite E0 in L. unfold E in L. nra.
    - set (G := fun t => 16 / 945 * t ^ 9 * exp (t * t) - E t).
      assert (L : G 0 <= G x).
      { apply (mono_from_0 G (fun t => 16 / 945 * (INR 9 * t ^ 8) * exp (t * t)
             + 16 / 945 * t ^ 9 * (2 * t * exp (t * t)) - 16 / 105 * t ^ 8 * exp (t * t))); [lra| |].
        - intros t Ht. unfold G. apply derivable_pt_lim_minus; [|apply derive_E, Dom, Ht].
          apply (derivable_pt_lim_mult (fun t => 16 / 945 * t ^ 9) (fun t => exp (t * t))).
          + apply derivable_pt_lim_scal. apply derivable_pt_lim_pow.
          + apply derive_sq.
        - intros t Ht.
          replace (16 / 945 * (INR 9 * t ^ 8) * exp (t * t)
             + 16 / 945 * t ^ 9 * (2 * t * exp (t * t)) - 16 / 105 * t ^ 8 * exp (t * t))
            with (32 / 945 * t ^ 10 * exp (t * t)) by (simpl; field).
          apply Rmult_le_pos; [|left; apply exp_pos]. pose proof (pow_le t 10 ltac:(lra)). lra. }
      unfold G in L. rewrite E0 in L. replace (16 / 945 * 0 ^ 9 * exp (0 * 0) - 0) with 0 in L by (simpl; ring).
      unfold E in L. nra.
  Qed.
End Dawson.

Lemma dawson_integral_odd : forall D b, dawson_integral D b -> dawson_integral (fun t => - D (- t)) b.
Proof.
  intros D b [D0 Dd]. split.
  - rewrite Ropp_0, D0. apply Ropp_0.
  - intros t Ht.
    replace (1 - 2 * t * - D (- t)) with (- ((1 - 2 * (- t) * D (- t)) * (- 1))) by ring.
    apply (derivable_pt_lim_opp (fun t => D (- t))).
    apply (derivable_pt_lim_comp (fun t => - t) D).
    + apply (derivable_pt_lim_opp id). apply derivable_pt_lim_id.
    + apply Dd. rewrite Rabs_Ropp. exact Ht.
Qed.

Lemma dawson_taylor : forall D b x, dawson_integral D b -> Rabs x <= b ->
  Rabs (D x - dpoly x) <= 16 / 945 * Rabs x ^ 9.
Proof.
  intros D b x HD Hx. destruct (Rle_or_lt 0 x) as [S|S].
  - rewrite (Rabs_pos_eq x) in * by exact S.
    destruct (dawson_taylor_pos D b HD x ltac:(lra)). rewrite Rabs_pos_eq; lra.
  - rewrite (Rabs_left x) in * by exact S.
    pose proof (dawson_taylor_pos _ b (dawson_integral_odd D b HD) (- x) ltac:(lra)) as [L U].
    cbv beta in L, U. rewrite Ropp_involutive in L, U.
    assert (O : dpoly (- x) = - dpoly x) by (unfold dpoly; ring).
    rewrite O in L, U. rewrite Rabs_left1; lra.
Qed.

(** Dawson's integral exists *)
Lemma dawson_integral_exists : exists D, dawson_integral D 1.
Proof.
  assert (H : -1 <= 1) by lra.
  assert (C : forall x, -1 <= x <= 1 -> continuity_pt (fun t => exp (t * t)) x).
  { intros x _. apply derivable_continuous_pt. exists (2 * x * exp (x * x)). apply derive_sq. }
  set (pr := primitive H (FTC_P1 H C)).
  assert (Dp : forall t, Rabs t <= 1 -> derivable_pt_lim pr t (exp (t * t))).
  { intros t Ht. assert (Ht2 : -1 <= t <= 1) by (unfold Rabs in Ht; destruct Rcase_abs in Ht; lra). apply (RiemannInt_P28 H C Ht2). }
  exists (fun t => exp (- (t * t)) * (pr t - pr 0)). split; [ring|].
  intros t Ht.
  replace (1 - 2 * t * (exp (- (t * t)) * (pr t - pr 0))) with
    (exp (- (t * t)) * (- (1 * t + t * 1)) * (pr t - pr 0) + exp (- (t * t)) * (exp (t * t) - 0)).
  - apply (derivable_pt_lim_mult (fun t => exp (- (t * t))) (fun t => pr t - pr 0)).
    + apply (derivable_pt_lim_comp (fun t => - (t * t)) exp); [|apply derivable_pt_lim_exp].
      apply (derivable_pt_lim_opp (fun t => t * t)).
      apply (derivable_pt_lim_mult id id); apply derivable_pt_lim_id.
    + apply (derivable_pt_lim_minus pr (fun _ => pr 0)); [apply Dp, Ht|apply derivable_pt_lim_const].
  - assert (Ex : exp (- (t * t)) * exp (t * t) = 1).
    { rewrite <- exp_plus. replace (- (t * t) + t * t) with 0 by ring. apply exp_0. }
    replace (exp (- (t * t)) * (exp (t * t) - 0)) with (exp (- (t * t)) * exp (t * t)) by ring.
    rewrite Ex. ring.
Qed.
