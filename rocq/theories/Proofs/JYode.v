(** * The oscillating equation: how far an approximate solution can drift *)

From Coq Require Import ZArith Reals Lra Lia.
From Flocq Require Import Core.
From Verif.Spec Require Import BesselSpec Bessel2Spec.
From Verif.Proofs Require Import BesselReal BesselODE BesselLim ErfcODE ExpBounds.
Open Scope R_scope.

(** [d] solves d'' + (1 + k / x^2) d = r with abs r <= lam f, and f has an
    antiderivative that grows by at most 1/2 on the half-line *)
Lemma osc : forall (d d' rr F f : R -> R) k lam, 0 < lam -> Rabs k <= 3 / 4 ->
  (forall x, 8 <= x -> derivable_pt_lim d x (d' x)) ->
  (forall x, 8 <= x -> derivable_pt_lim d' x (rr x - (1 + k / (x * x)) * d x)) ->
  (forall x, 8 <= x -> derivable_pt_lim F x (f x)) -> (forall x, 8 <= x -> Rabs (rr x) <= lam * f x) ->
  (forall x, 8 <= x -> F x - F 8 <= 1 / 2) ->
  forall x, 8 <= x -> d x * d x + d' x * d' x + lam * lam <= 183 / 100 * (d 8 * d 8 + d' 8 * d' 8 + lam * lam).
Proof.
  intros d d' rr F f k lam L0 Hk D1 D2 DF HR HF x Hx.
  set (G := fun x => d x * d x + d' x * d' x + lam * lam). set (E := fun x => exp (- (F x - F 8) + (3 / 4 / x - 3 / 32))).
  set (G' := fun x => 2 * (d' x * rr x) - 2 * (k / (x * x)) * (d x * d' x)). set (e' := fun x => - f x - 3 / 4 / (x * x)).
  assert (DG : forall t, 8 <= t -> derivable_pt_lim G t (G' t)).
  { intros t Ht. unfold G, G'. replace (2 * (d' t * rr t) - 2 * (k / (t * t)) * (d t * d' t)) with (d' t * d t + d t * d' t + ((rr t - (1 + k / (t * t)) * d t) * d' t + d' t * (rr t - (1 + k / (t * t)) * d t)) + 0) by ring.
    apply (derivable_pt_lim_plus (fun x => d x * d x + d' x * d' x) (fun _ => lam * lam)); [|apply derivable_pt_lim_const].
    apply (derivable_pt_lim_plus (fun x => d x * d x) (fun x => d' x * d' x)); [apply (derivable_pt_lim_mult d d); apply D1, Ht|apply (derivable_pt_lim_mult d' d'); apply D2, Ht]. }
  assert (DE : forall t, 8 <= t -> derivable_pt_lim E t (E t * e' t)).
  { intros t Ht. unfold E, e'. apply (derivable_pt_lim_comp (fun x => - (F x - F 8) + (3 / 4 / x - 3 / 32)) exp); [|apply derivable_pt_lim_exp].
    replace (- f t - 3 / 4 / (t * t)) with (- (f t - 0) + (- (3 / 4) / (t * t) - 0)) by (unfold Rdiv; ring).
    apply (derivable_pt_lim_plus (fun x => - (F x - F 8)) (fun x => 3 / 4 / x - 3 / 32)).
    - apply (derivable_pt_lim_opp (fun x => F x - F 8)). apply (derivable_pt_lim_minus F (fun _ => F 8)); [apply DF, Ht|apply derivable_pt_lim_const].
    - apply (derivable_pt_lim_minus (fun x => 3 / 4 / x) (fun _ => 3 / 32)); [apply derive_inv; lra|apply derivable_pt_lim_const]. }
  assert (M : - (G 8 * E 8) <= - (G x * E x)).
  { apply (mono_on (fun x => - (G x * E x)) (fun x => - (G' x * E x + G x * (E x * e' x)))); [exact Hx| |].
    - intros t Ht. apply (derivable_pt_lim_opp (fun x => G x * E x)). apply (derivable_pt_lim_mult G E); [apply DG; lra|apply DE; lra].
    - intros t Ht. replace (- (G' t * E t + G t * (E t * e' t))) with (E t * (- (G' t) - G t * e' t)) by ring. apply Rmult_le_pos; [left; apply exp_pos|].
      specialize (HR t ltac:(lra)). unfold G', G, e'. set (a := d t) in *. set (b := d' t) in *. set (r := rr t) in *. set (h := f t) in *. clearbody a b r h.
      assert (T : 0 < / (t * t)) by (apply Rinv_0_lt_compat, Rmult_lt_0_compat; lra). unfold Rdiv. set (w := / (t * t)) in *. clearbody w.
      assert (H0 : 0 <= h). { pose proof (Rabs_pos r) as Q. apply Rmult_le_reg_l with lam; [exact L0|]. rewrite Rmult_0_r. eapply Rle_trans; [exact Q|exact HR]. }
      assert (S1 : 2 * (b * r) <= h * (b * b + lam * lam)).
      { assert (b * r <= Rabs b * (lam * h)) by (apply Rle_trans with (Rabs (b * r)); [apply Rle_abs|rewrite Rabs_mult; apply Rmult_le_compat_l; [apply Rabs_pos|exact HR]]).
        assert (b * b = Rabs b * Rabs b) by (unfold Rabs; destruct (Rcase_abs b); ring). pose proof (Rmult_le_pos _ _ H0 (Rle_0_sqr (Rabs b - lam))) as Q. unfold Rsqr in Q. replace (b * b) with (Rabs b * Rabs b) by (symmetry; assumption). lra. }
      assert (S2 : - (2 * (k * w) * (a * b)) <= 3 / 4 * w * (a * a + b * b)).
      { assert (Q : - (2 * k * (a * b)) <= 3 / 4 * (a * a + b * b)). { apply Rabs_le_inv in Hk. pose proof (Rle_0_sqr (a + b)) as Q1. pose proof (Rle_0_sqr (a - b)) as Q2. unfold Rsqr in Q1, Q2. destruct (Rle_or_lt 0 (a * b)) as [N|N]; [assert (0 <= (3 / 4 + k) * (a * b)) by (apply Rmult_le_pos; lra)|assert (0 <= (3 / 4 - k) * - (a * b)) by (apply Rmult_le_pos; lra)]; lra. }
        assert (w * (- (2 * k * (a * b))) <= w * (3 / 4 * (a * a + b * b))) by (apply Rmult_le_compat_l; lra). lra. }
      pose proof (Rmult_le_pos _ _ H0 (Rle_0_sqr a)) as Q1. pose proof (Rmult_le_pos _ _ (Rlt_le _ _ T) (Rle_0_sqr lam)) as Q2. unfold Rsqr in Q1, Q2. lra. }
  assert (E8 : E 8 = 1) by (unfold E; replace (- (F 8 - F 8) + (3 / 4 / 8 - 3 / 32)) with 0 by field; apply exp_0). rewrite E8, Rmult_1_r in M.
  assert (EL : 100 / 183 <= E x).
  { unfold E. specialize (HF x Hx). apply Rle_trans with (exp (- (19 / 32))); [|apply exp_mono]. 
    - pose proof (expn_3 (19 / 32) ltac:(lra)) as X. lra.
    - assert (0 < 3 / 4 / x) by (apply Rdiv_lt_0_compat; lra). lra. }
  fold (G 8) (G x). assert (G0 : 0 <= G x) by (unfold G; nra). assert (G x * (100 / 183) <= G x * E x) by (apply Rmult_le_compat_l; lra). lra.
Qed.
