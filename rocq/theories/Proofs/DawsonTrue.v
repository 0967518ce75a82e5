(** * Dawson's integral far from the origin *)

From Coq Require Import Reals Lra.
From Verif.Spec Require Import DawsonSpec.
From Verif.Proofs Require Import DawsonTaylor.
Open Scope R_scope.

Lemma dawson_integral_exists_any : forall b, 0 <= b -> exists D, dawson_integral D b.
Proof.
  intros b Hb. assert (H : - b <= b) by lra.
  assert (C : forall x, - b <= x <= b -> continuity_pt (fun t => exp (t * t)) x).
  { intros x _. apply derivable_continuous_pt. exists (2 * x * exp (x * x)). apply derive_sq. }
  set (pr := primitive H (FTC_P1 H C)).
  assert (Dp : forall t, Rabs t <= b -> derivable_pt_lim pr t (exp (t * t))).
  { intros t Ht. assert (Ht2 : - b <= t <= b) by (unfold Rabs in Ht; destruct Rcase_abs in Ht; lra). apply (RiemannInt_P28 H C Ht2). }
  exists (fun t => exp (- (t * t)) * (pr t - pr 0)). split; [ring|].
  intros t Ht.
  replace (1 - 2 * t * (exp (- (t * t)) * (pr t - pr 0))) with
    (exp (- (t * t)) * (- (1 * t + t * 1)) * (pr t - pr 0) + exp (- (t * t)) * (exp (t * t) - 0)).
  - apply (derivable_pt_lim_mult (fun t => exp (- (t * t))) (fun t => pr t - pr 0)).
    + apply (derivable_pt_lim_comp (fun t => - (t * t)) exp); [|apply derivable_pt_lim_exp].
      apply (derivable_pt_lim_opp (fun t => t * t)).
      apply (derivable_pt_lim_mult id id); apply derivable_pt_lim_id.
    + apply (derivable_pt_lim_minus pr (fun _ => pr 0)); [apply Dp, Ht|apply derivable_pt_lim_const].
  - assert (Ex : exp (- (t * t)) * exp (t * t) = 1).
    { rewrite <- exp_plus. replace (- (t * t) + t * t) with 0 by ring. apply exp_0. }
    replace (exp (- (t * t)) * (exp (t * t) - 0)) with (exp (- (t * t)) * exp (t * t)) by ring.
    rewrite Ex. ring.
Qed.

(** mean value, in the form used below *)
Lemma mvt : forall f f' a c, a < c -> (forall t, a <= t <= c -> derivable_pt_lim f t (f' t)) ->
  exists t, a < t < c /\ f c - f a = f' t * (c - a).
Proof.
  intros f f' a c H D. destruct (MVT_cor2 f f' a c H D) as [t [E I]]. exists t. split; [exact I|exact E].
Qed.

Lemma exp_le : forall s t, s <= t -> exp s <= exp t.
Proof. intros s t [H|H]; [left; apply exp_increasing, H|subst; lra]. Qed.

Section True.
  Context (D : R -> R) (b : R) (HD : dawson_integral D b).

  Let h1 (t : R) := D t * exp (t * t).
  Let h2 (t : R) := (101 / 200 * / t - D t) * exp (t * t).

  Lemma d_h1 : forall t, Rabs t <= b -> derivable_pt_lim h1 t (exp (t * t)).
  Proof.
    intros t Ht. destruct HD as [_ Dd].
    replace (exp (t * t)) with ((1 - 2 * t * D t) * exp (t * t) + D t * (2 * t * exp (t * t))) by ring.
    apply (derivable_pt_lim_mult D (fun t => exp (t * t))); [apply Dd, Ht|apply derive_sq].
  Qed.

  Lemma d_inv : forall t, t <> 0 -> derivable_pt_lim (fun t => / t) t (- / (t * t)).
  Proof.
    intros t Ht. pose proof (derivable_pt_lim_div (fun _ => 1) id t 0 1 (derivable_pt_lim_const 1 t) (derivable_pt_lim_id t) Ht) as Q.
    intros eps He. destruct (Q eps He) as [d Hd]. exists d. intros h Hh Hh2. specialize (Hd h Hh Hh2).
    unfold div_fct, id, Rsqr, Rdiv in Hd. unfold Rdiv.
    replace ((0 * t - 1 * 1) * / (t * t)) with (- / (t * t)) in Hd by ring. rewrite !Rmult_1_l in Hd. exact Hd.
  Qed.

  Lemma d_h2 : forall t, Rabs t <= b -> 0 < t -> derivable_pt_lim h2 t ((1 / 100 - 101 / 200 * / (t * t)) * exp (t * t)).
  Proof.
    intros t Ht Hp. destruct HD as [_ Dd].
    replace ((1 / 100 - 101 / 200 * / (t * t)) * exp (t * t)) with
      ((101 / 200 * (- / (t * t)) - (1 - 2 * t * D t)) * exp (t * t) + (101 / 200 * / t - D t) * (2 * t * exp (t * t))) by (field; lra).
    apply (derivable_pt_lim_mult (fun t => 101 / 200 * / t - D t) (fun t => exp (t * t))); [|apply derive_sq].
    apply (derivable_pt_lim_minus (fun t => 101 / 200 * / t) D); [|apply Dd, Ht].
    apply derivable_pt_lim_scal. apply d_inv. lra.
  Qed.

  Lemma pos_D : forall x, 0 < x <= b -> 0 < D x.
  Proof.
    intros x Hx. destruct (mvt h1 (fun t => exp (t * t)) 0 x) as (t & It & E); [lra| |].
    - intros t Ht. apply d_h1. rewrite Rabs_pos_eq; lra.
    - unfold h1 in E. destruct HD as [D0 _]. rewrite D0 in E. pose proof (exp_pos (t * t)) as P1. pose proof (exp_pos (x * x)) as P2.
      assert (0 < exp (t * t) * (x - 0)) by (apply Rmult_lt_0_compat; lra).
      destruct (Rle_or_lt (D x) 0) as [N|N]; [|exact N]. assert (0 <= - D x * exp (x * x)) by (apply Rmult_le_pos; lra). lra.
  Qed.

  Lemma inv_sq : forall t, 8 <= t -> / (t * t) <= / 64.
  Proof. intros t Ht. apply Rinv_le_contravar; [lra|]. replace 64 with (8 * 8) by lra. apply Rmult_le_compat; lra. Qed.

  Lemma grow_h2 : forall s t, 8 <= s < t -> t <= b -> h2 s <= h2 t.
  Proof.
    intros s t Hs Ht. destruct (mvt h2 (fun t => (1 / 100 - 101 / 200 * / (t * t)) * exp (t * t)) s t) as (r & Ir & E); [lra| |].
    - intros r Hr. apply d_h2; [rewrite Rabs_pos_eq|]; lra.
    - pose proof (inv_sq r ltac:(lra)). assert (0 <= (1 / 100 - 101 / 200 * / (r * r)) * exp (r * r) * (t - s)).
      { apply Rmult_le_pos; [apply Rmult_le_pos; [lra|left; apply exp_pos]|lra]. } lra.
  Qed.

  Theorem dawson_upper : forall x, 81 <= x <= b -> D x <= 101 / 200 * / x.
  Proof.
    intros x Hx.
    assert (A : D 8 * exp (8 * 8) <= 8 * exp (8 * 8)).
    { destruct (mvt h1 (fun t => exp (t * t)) 0 8) as (t & It & E); [lra| |].
      - intros t Ht. apply d_h1. rewrite Rabs_pos_eq; lra.
      - unfold h1 in E. destruct HD as [D0 _]. rewrite D0 in E.
        assert (exp (t * t) <= exp (8 * 8)) by (apply exp_le; apply Rmult_le_compat; lra). lra. }
    assert (B : h2 8 <= h2 79) by (apply grow_h2; lra).
    assert (C : h2 80 <= h2 x) by (apply grow_h2; lra).
    destruct (mvt h2 (fun t => (1 / 100 - 101 / 200 * / (t * t)) * exp (t * t)) 79 80) as (r & Ir & E); [lra| |].
    { intros r Hr. apply d_h2; [rewrite Rabs_pos_eq|]; lra. }
    pose proof (inv_sq r ltac:(lra)) as Q.
    assert (F : exp (79 * 79) <= exp (r * r)) by (apply exp_le; apply Rmult_le_compat; lra).
    assert (G : 1 / 1000 * exp (79 * 79) <= (1 / 100 - 101 / 200 * / (r * r)) * exp (r * r)).
    { apply Rmult_le_compat; try lra. left; apply exp_pos. }
    assert (K : exp (79 * 79) = exp (8 * 8) * (exp 3000 * exp 3177)).
    { rewrite <- !exp_plus. f_equal. lra. }
    pose proof (exp_ineq1_le 3000). pose proof (exp_ineq1_le 3177). pose proof (exp_pos (8 * 8)) as P8.
    assert (L : 3000 * 3000 <= exp 3000 * exp 3177) by (apply Rmult_le_compat; lra).
    assert (M : exp (8 * 8) * (3000 * 3000) <= exp (79 * 79)) by (rewrite K; apply Rmult_le_compat_l; lra).
    assert (N : - (8 * exp (8 * 8)) <= h2 8).
    { unfold h2. assert (0 <= 101 / 200 * / 8 * exp (8 * 8)) by (apply Rmult_le_pos; lra). lra. }
    assert (O : 0 <= h2 x) by lra. unfold h2 in O.
    destruct (Rle_or_lt (D x) (101 / 200 * / x)) as [W|W]; [exact W|]. exfalso.
    pose proof (exp_pos (x * x)). assert (0 < (D x - 101 / 200 * / x) * exp (x * x)) by (apply Rmult_lt_0_compat; lra). lra.
  Qed.
End True.
