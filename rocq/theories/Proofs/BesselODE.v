(** * The Bessel series as functions: derivatives and differential equations *)

From Coq Require Import ZArith Reals Bool Lra Lia List Ranalysis5 PSeries_reg.
From Flocq Require Import Core.
From Verif.Spec Require Import BesselSpec Bessel2Spec.
From Verif.Proofs Require Import BesselSeries SecondSeries BesselReal EulerGamma.
Open Scope R_scope.

(** ** sums of series *)
Lemma isum_ext : forall f g a, (forall k, f k = g k) -> infinite_sum f a -> infinite_sum g a.
Proof.
  intros f g a E H e He. destruct (H e He) as [N HN]. exists N. intros n Hn. rewrite <- (sum_eq f g) by (intros; apply E). apply HN, Hn.
Qed.
Lemma isum_scal : forall f a c, infinite_sum f a -> infinite_sum (fun k => c * f k) (c * a).
Proof.
  intros f a c H e He.
  assert (C : Un_cv (fun N => c * sum_f_R0 f N) (c * a)).
  { apply (CV_mult (fun _ => c)); [intros e' He'; exists 0%nat; intros; unfold R_dist; rewrite Rminus_diag_eq, Rabs_R0 by reflexivity; lra|exact H]. }
  destruct (C e He) as [N HN]. exists N. intros m Hm. specialize (HN m Hm). rewrite scal_sum in HN.
  rewrite (sum_eq _ (fun i => f i * c)) by (intros; ring). exact HN.
Qed.
Lemma isum_plus : forall f g a b, infinite_sum f a -> infinite_sum g b -> infinite_sum (fun k => f k + g k) (a + b).
Proof.
  intros f g a b Ha Hb e He. destruct (CV_plus _ _ _ _ Ha Hb e He) as [N HN]. exists N. intros m Hm. specialize (HN m Hm).
  rewrite sum_plus. exact HN.
Qed.
Lemma isum_cons : forall f a, infinite_sum (fun k => f (S k)) a -> infinite_sum f (f O + a).
Proof.
  intros f a H e He. destruct (H e He) as [N HN]. exists (S N). intros [|m] Hm; [lia|]. specialize (HN m ltac:(lia)). unfold R_dist in *.
  rewrite decomp_sum by lia. change (Init.Nat.pred (S m)) with m. replace (f 0%nat + sum_f_R0 (fun i => f (S i)) m - (f 0%nat + a)) with (sum_f_R0 (fun i => f (S i)) m - a) by ring. exact HN.
Qed.
Lemma isum_abs : forall f M a S, infinite_sum f a -> infinite_sum M S -> (forall k, Rabs (f k) <= M k) -> Rabs a <= S.
Proof.
  intros f M a S Ha HS H. apply Rabs_le. split.
  - assert (- a <= 1 * S); [|lra]. apply (sum_cmp (fun k => -1 * f k) M); [replace (- a) with (-1 * a) by ring; apply isum_scal, Ha|exact HS|].
    intros k. specialize (H k). apply Rabs_le_inv in H. lra.
  - assert (a <= 1 * S); [|lra]. apply (sum_cmp f M); [exact Ha|exact HS|]. intros k. specialize (H k). apply Rabs_le_inv in H. lra.
Qed.
Lemma isum_drop : forall f a N, infinite_sum f a -> infinite_sum (fun k => f (N + 1 + k)%nat) (a - sum_f_R0 f N).
Proof.
  intros f a N H e He. destruct (H e He) as [M HM]. exists M. intros m Hm. specialize (HM (N + 1 + m)%nat ltac:(lia)). unfold R_dist in *.
  rewrite (tech2 f N (N + 1 + m)) in HM by lia. replace (N + 1 + m - S N)%nat with m in HM by lia.
  rewrite (sum_eq (fun i => f (S N + i)%nat) (fun k => f (N + 1 + k)%nat)) in HM by (intros; f_equal; lia).
  replace (sum_f_R0 (fun k => f (N + 1 + k)%nat) m - (a - sum_f_R0 f N)) with (sum_f_R0 f N + sum_f_R0 (fun k => f (N + 1 + k)%nat) m - a) by ring. exact HM.
Qed.

(** ** differentiation term by term *)
Lemma series_deriv : forall (f df : nat -> R -> R) (M : nat -> R) (F G : R -> R) (r S : R), 0 < r ->
  (forall k y, Rabs y < r -> derivable_pt_lim (f k) y (df k y)) -> (forall k y, Rabs y < r -> continuity_pt (df k) y) ->
  (forall k y, Rabs y < r -> Rabs (df k y) <= M k) -> infinite_sum M S ->
  (forall y, Rabs y < r -> infinite_sum (fun k => f k y) (F y)) -> (forall y, Rabs y < r -> infinite_sum (fun k => df k y) (G y)) ->
  forall x, Rabs x < r -> derivable_pt_lim F x (G x).
Proof.
  intros f df M F G r S Hr D C B HM HF HG x Hx.
  set (rp := mkposreal r Hr). assert (BB : forall y, Boule 0 rp y -> Rabs y < r) by (intros y Hy; unfold Boule in Hy; rewrite Rminus_0_r in Hy; exact Hy).
  assert (U : CVU (fun n y => sum_f_R0 (fun k => df k y) n) G 0 rp).
  { intros e He. destruct (HM e He) as [N HN]. exists N. intros n y Hn Hy. apply BB in Hy.
    assert (A : Rabs (G y - sum_f_R0 (fun k => df k y) n) <= S - sum_f_R0 M n).
    { apply (isum_abs (fun k => df (n + 1 + k)%nat y) (fun k => M (n + 1 + k)%nat)); [exact (isum_drop (fun k => df k y) _ n (HG y Hy))|exact (isum_drop M _ n HM)|]. intros k. apply B, Hy. }
    specialize (HN n ltac:(lia)). unfold R_dist in HN. apply Rabs_lt_inv in HN. lra. }
  apply (derivable_pt_lim_CVU (fun n y => sum_f_R0 (fun k => f k y) n) (fun n y => sum_f_R0 (fun k => df k y) n) F G x 0 rp).
  - unfold Boule. rewrite Rminus_0_r. exact Hx.
  - intros y n Hy. apply BB in Hy. induction n as [|n IH]; cbn [sum_f_R0].
    + apply D, Hy.
    + apply (derivable_pt_lim_plus (fun y => sum_f_R0 (fun k => f k y) n) (f (Datatypes.S n))); [exact IH|apply D, Hy].
  - intros y Hy. apply BB in Hy. exact (HF y Hy).
  - exact U.
  - apply (CVU_continuity _ _ _ _ U). intros n y Hy. apply BB in Hy. induction n as [|n IH]; cbn [sum_f_R0].
    + apply C, Hy.
    + apply (continuity_pt_plus (fun y => sum_f_R0 (fun k => df k y) n) (df (Datatypes.S n))); [exact IH|apply C, Hy].
Qed.

(** ** the terms *)
Lemma derive_hpow : forall m x, derivable_pt_lim (fun x => (x / 2) ^ m) x (INR m * (x / 2) ^ (Nat.pred m) * / 2).
Proof.
  intros m x. apply (derivable_pt_lim_comp (fun x => x / 2) (fun y => y ^ m)); [|apply derivable_pt_lim_pow].
  replace (/ 2) with ((/ 2) * 1) by ring. apply derivable_pt_lim_ext with (f := fun x => / 2 * x); [intros; field|]. apply derivable_pt_lim_scal, derivable_pt_lim_id.
Qed.
Lemma derive_b0 : forall s k x, derivable_pt_lim (fun x => bterm s 0 x k) x (match k with O => 0 | S j => s * bterm s 1 x j end).
Proof.
  intros s k x. apply derivable_pt_lim_ext with (f := fun x => s ^ k / (INR (fact k) * INR (fact k)) * (x / 2) ^ (2 * k)).
  { intros y. unfold bterm. rewrite !Nat.add_0_r. pose proof (INR_fact_neq_0 k). field. assumption. }
  destruct k as [|j].
  - replace 0 with (s ^ 0 / (INR (fact 0) * INR (fact 0)) * (INR 0 * (x / 2) ^ (Nat.pred 0) * / 2)) by (simpl; field). apply derivable_pt_lim_scal. exact (derive_hpow 0 x).
  - replace (s * bterm s 1 x j) with (s ^ S j / (INR (fact (S j)) * INR (fact (S j))) * (INR (2 * S j) * (x / 2) ^ Nat.pred (2 * S j) * / 2)).
    + apply derivable_pt_lim_scal. apply derive_hpow.
    + unfold bterm. replace (Nat.pred (2 * S j)) with (2 * j + 1)%nat by lia. replace (j + 1)%nat with (S j) by lia. rewrite mult_INR, (INR_fact_S j). change (INR 2) with 2. rewrite S_INR. cbn [pow].
      pose proof (INR_fact_neq_0 j). pose proof (pos_INR j). field; repeat split; (lra || assumption).
Qed.
Lemma derive_b1 : forall s k x, derivable_pt_lim (fun x => x * bterm s 1 x k) x (x * bterm s 0 x k).
Proof.
  intros s k x. apply derivable_pt_lim_ext with (f := fun x => 2 * s ^ k / (INR (fact k) * INR (fact (S k))) * (x / 2) ^ (2 * k + 2)).
  { intros y. unfold bterm. replace (k + 1)%nat with (S k) by lia. replace (2 * k + 2)%nat with (S (2 * k + 1)) by lia. cbn [pow]. pose proof (INR_fact_neq_0 k). pose proof (INR_fact_neq_0 (S k)). field. split; assumption. }
  replace (x * bterm s 0 x k) with (2 * s ^ k / (INR (fact k) * INR (fact (S k))) * (INR (2 * k + 2) * (x / 2) ^ Nat.pred (2 * k + 2) * / 2)).
  - apply derivable_pt_lim_scal, derive_hpow.
  - unfold bterm. rewrite !Nat.add_0_r. replace (Nat.pred (2 * k + 2)) with (S (2 * k)) by lia. rewrite plus_INR, mult_INR, (INR_fact_S k). change (INR 2) with 2. cbn [pow].
    pose proof (INR_fact_neq_0 k). pose proof (pos_INR k). field; repeat split; (lra || assumption).
Qed.
Lemma cont_of_der : forall f x l, derivable_pt_lim f x l -> continuity_pt f x.
Proof. intros f x l H. apply derivable_continuous_pt. exists l. exact H. Qed.
Lemma cont_b0 : forall s k x, continuity_pt (fun x => bterm s 0 x k) x.
Proof. intros. eapply cont_of_der, derive_b0. Qed.
Lemma cont_bt : forall s n k x, continuity_pt (fun x => bterm s n x k) x.
Proof.
  intros s n k x. eapply cont_of_der. apply derivable_pt_lim_ext with (f := fun x => s ^ k / (INR (fact k) * INR (fact (k + n))) * (x / 2) ^ (2 * k + n)).
  { intros y. unfold bterm. pose proof (INR_fact_neq_0 k). pose proof (INR_fact_neq_0 (k + n)). field. split; assumption. }
  apply derivable_pt_lim_scal, derive_hpow.
Qed.

Lemma bterm_abs : forall s n x k, Rabs s = 1 -> Rabs (bterm s n x k) = bterm 1 n (Rabs x) k.
Proof.
  intros s n x k Hs. unfold bterm. pose proof (INR_fact_pos k). pose proof (INR_fact_pos (k + n)). unfold Rdiv. rewrite !Rabs_mult, <- !RPow_abs, Hs, !pow1, !Rmult_1_l.
  rewrite (Rabs_pos_eq (/ (INR (fact k) * INR (fact (k + n))))) by (left; apply Rinv_0_lt_compat, Rmult_lt_0_compat; assumption).
  rewrite Rabs_mult, (Rabs_pos_eq (/ 2)) by lra. reflexivity.
Qed.
Lemma bterm_le : forall n x r k, 0 <= x <= r -> 0 <= bterm 1 n x k <= bterm 1 n r k.
Proof.
  intros n x r k H. unfold bterm. pose proof (INR_fact_pos k). pose proof (INR_fact_pos (k + n)). rewrite pow1, !Rmult_1_l. unfold Rdiv.
  assert (0 < / (INR (fact k) * INR (fact (k + n)))) by (apply Rinv_0_lt_compat, Rmult_lt_0_compat; assumption).
  split; [apply Rmult_le_pos; [apply pow_le|]; lra|]. apply Rmult_le_compat_r; [lra|]. apply pow_incr. lra.
Qed.
Lemma bterm_double : forall n r k, bterm 1 n (2 * r) k = 2 ^ n * 4 ^ k * bterm 1 n r k.
Proof.
  intros n r k. unfold bterm. replace (2 * r / 2) with (2 * (r / 2)) by field. rewrite Rpow_mult_distr.
  replace (2 ^ (2 * k + n)) with (4 ^ k * 2 ^ n) by (rewrite pow_add, pow_mult; f_equal; f_equal; simpl; ring).
  pose proof (INR_fact_neq_0 k). pose proof (INR_fact_neq_0 (k + n)). field. split; assumption.
Qed.

(** ** weighted series *)
Definition wsum (c : nat -> R) (s : R) (n : nat) (x v : R) : Prop := infinite_sum (fun k => c k * bterm s n x k) v.
Definition tame (c : nat -> R) : Prop := exists C, 0 <= C /\ forall k, Rabs (c k) <= C * 4 ^ k.

Lemma wsum_ex : forall c s n x, Rabs s = 1 -> tame c -> exists v, wsum c s n x v.
Proof.
  intros c s n x Hs (C & C0 & T). unfold wsum.
  assert (X : { l : R | Un_cv (fun N => sum_f_R0 (fun k => Rabs (c k * bterm s n x k)) N) l }).
  { apply (Rseries_CV_comp _ (fun k => C / 2 ^ n * bterm 1 n (2 * Rabs x) k)).
    - intros k. split; [apply Rabs_pos|]. rewrite Rabs_mult, bterm_abs by exact Hs. rewrite bterm_double. specialize (T k).
      assert (0 <= bterm 1 n (Rabs x) k) by (apply (bterm_le n (Rabs x) (Rabs x)); split; [apply Rabs_pos|lra]).
      assert (0 < 2 ^ n) by (apply pow_lt; lra). replace (C / 2 ^ n * (2 ^ n * 4 ^ k * bterm 1 n (Rabs x) k)) with (C * 4 ^ k * bterm 1 n (Rabs x) k) by (field; lra).
      apply Rmult_le_compat_r; assumption.
    - destruct (bseries_sig 1 n (2 * Rabs x) Rabs_R1) as [w Hw]. exists (C / 2 ^ n * w). apply (isum_scal _ w (C / 2 ^ n)) in Hw. exact Hw. }
  apply cv_cauchy_1 in X. apply cauchy_abs in X. apply cv_cauchy_2 in X. destruct X as [l Hl]. exists l. exact Hl.
Qed.
Lemma wsum_sig : forall c s n x, Rabs s = 1 -> tame c -> {v | wsum c s n x v}.
Proof.
  intros c s n x Hs T. destruct (R_complete (sum_f_R0 (fun k => c k * bterm s n x k))) as [v Hv]; [|exists v; exact Hv].
  destruct (wsum_ex c s n x Hs T) as [v Hv]. apply CV_Cauchy. exists v. exact Hv.
Qed.

Lemma tame_one : tame (fun _ => 1).
Proof. exists 1. split; [lra|]. intros k. rewrite Rabs_R1, Rmult_1_l. apply pow_R1_Rle. lra. Qed.
Lemma tame_harm : tame harmonic.
Proof.
  exists 2. split; [lra|]. intros k. rewrite Rabs_pos_eq by apply harmonic_nonneg. pose proof (harmonic_le k). pose proof (lin_pow4 0 k) as L. simpl (INR 0) in L. pose proof (pos_INR k). lra.
Qed.
Lemma tame_shift : forall c, tame c -> tame (fun k => c (S k)).
Proof. intros c (C & C0 & T). exists (4 * C). split; [lra|]. intros k. specialize (T (S k)). cbn [pow] in T. lra. Qed.
Lemma tame_plus : forall c d, tame c -> tame d -> tame (fun k => c k + d k).
Proof.
  intros c d (C & C0 & T) (D & D0 & U). exists (C + D). split; [lra|]. intros k. eapply Rle_trans; [apply Rabs_triang|]. specialize (T k). specialize (U k). lra.
Qed.

Theorem derive_w0 : forall c s (F G : R -> R), Rabs s = 1 -> tame c -> (forall x, wsum c s 0 x (F x)) -> (forall x, wsum (fun k => c (S k)) s 1 x (G x)) ->
  forall x, derivable_pt_lim F x (s * G x).
Proof.
  intros c s F G Hs T HF HG x. destruct T as (C & C0 & T). set (r := Rabs x + 1). assert (R0 : 0 < r) by (unfold r; pose proof (Rabs_pos x); lra).
  apply (series_deriv (fun k y => c k * bterm s 0 y k) (fun k y => c k * match k with O => 0 | S j => s * bterm s 1 y j end)
    (fun k => match k with O => 0 | S j => 4 * C / 2 * bterm 1 1 (2 * r) j end) F (fun y => s * G y) r (0 + 4 * C / 2 * BI (2 * r) 1) R0).
  - intros k y _. apply derivable_pt_lim_scal, derive_b0.
  - intros [|j] y _; apply continuity_pt_scal.
    + apply continuity_pt_const. intros a b. reflexivity.
    + apply continuity_pt_scal, cont_bt.
  - intros [|j] y Hy; [rewrite Rmult_0_r, Rabs_R0; lra|]. rewrite !Rabs_mult, Hs, Rmult_1_l, bterm_abs by exact Hs. specialize (T (S j)). cbn [pow] in T.
    pose proof (bterm_le 1 (Rabs y) r j ltac:(pose proof (Rabs_pos y); lra)) as B. rewrite bterm_double.
    replace (4 * C / 2 * (2 ^ 1 * 4 ^ j * bterm 1 1 r j)) with (C * (4 * 4 ^ j) * bterm 1 1 r j) by (simpl; field).
    apply Rmult_le_compat; try apply Rabs_pos; lra.
  - apply (isum_cons (fun k => match k with O => 0 | S j => 4 * C / 2 * bterm 1 1 (2 * r) j end)). apply isum_scal. exact (BI_is (2 * r) 1).
  - intros y _. apply HF.
  - intros y _. replace (s * G y) with (c O * 0 + s * G y) by ring.
    apply (isum_cons (fun k => c k * match k with O => 0 | S j => s * bterm s 1 y j end)). apply isum_ext with (f := fun k => s * (c (S k) * bterm s 1 y k)); [intros; ring|]. apply isum_scal, HG.
  - unfold r. lra.
Qed.

Theorem derive_w1 : forall c s (F G : R -> R), Rabs s = 1 -> tame c -> (forall x, wsum c s 1 x (F x)) -> (forall x, wsum c s 0 x (G x)) ->
  forall x, derivable_pt_lim (fun x => x * F x) x (x * G x).
Proof.
  intros c s F G Hs T HF HG x. destruct T as (C & C0 & T). set (r := Rabs x + 1). assert (R0 : 0 < r) by (unfold r; pose proof (Rabs_pos x); lra).
  apply (series_deriv (fun k y => c k * (y * bterm s 1 y k)) (fun k y => c k * (y * bterm s 0 y k)) (fun k => C * r * bterm 1 0 (2 * r) k)
    (fun x => x * F x) (fun y => y * G y) r (C * r * BI (2 * r) 0) R0).
  - intros k y _. apply derivable_pt_lim_scal, derive_b1.
  - intros k y _. apply continuity_pt_scal. apply (continuity_pt_mult id); [apply derivable_continuous_pt, derivable_pt_id|apply cont_bt].
  - intros k y Hy. rewrite !Rabs_mult, bterm_abs by exact Hs. specialize (T k).
    pose proof (bterm_le 0 (Rabs y) r k ltac:(pose proof (Rabs_pos y); lra)) as B. rewrite bterm_double.
    replace (C * r * (2 ^ 0 * 4 ^ k * bterm 1 0 r k)) with (C * 4 ^ k * (r * bterm 1 0 r k)) by (simpl; ring).
    apply Rmult_le_compat; [apply Rabs_pos|apply Rmult_le_pos; [apply Rabs_pos|lra]|lra|]. apply Rmult_le_compat; try apply Rabs_pos; lra.
  - apply isum_scal. exact (BI_is (2 * r) 0).
  - intros y _. apply isum_ext with (f := fun k => y * (c k * bterm s 1 y k)); [intros; ring|]. apply isum_scal, HF.
  - intros y _. apply isum_ext with (f := fun k => y * (c k * bterm s 0 y k)); [intros; ring|]. apply isum_scal, HG.
  - unfold r. lra.
Qed.

(** ** functions of the first kind *)
Lemma wsum_one : forall s n x v, infinite_sum (bterm s n x) v -> wsum (fun _ => 1) s n x v.
Proof. intros s n x v H. apply isum_ext with (f := bterm s n x); [intros; ring|exact H]. Qed.

Lemma derive_BI0 : forall x, derivable_pt_lim (fun x => BI x 0) x (BI x 1).
Proof.
  intros x. replace (BI x 1) with (1 * BI x 1) by ring. apply (derive_w0 (fun _ => 1) 1 (fun x => BI x 0) (fun x => BI x 1) Rabs_R1 tame_one); intros y; apply wsum_one, BI_is.
Qed.
Lemma derive_xBI1 : forall x, derivable_pt_lim (fun x => x * BI x 1) x (x * BI x 0).
Proof.
  intros x. apply (derive_w1 (fun _ => 1) 1 (fun x => BI x 1) (fun x => BI x 0) Rabs_R1 tame_one); intros y; apply wsum_one, BI_is.
Qed.
Lemma derive_BJ0 : forall x, derivable_pt_lim (fun x => BJ x 0) x (- BJ x 1).
Proof.
  intros x. replace (- BJ x 1) with (-1 * BJ x 1) by ring. apply (derive_w0 (fun _ => 1) (-1) (fun x => BJ x 0) (fun x => BJ x 1) abs_m1 tame_one); intros y; apply wsum_one, BJ_is.
Qed.
Lemma derive_xBJ1 : forall x, derivable_pt_lim (fun x => x * BJ x 1) x (x * BJ x 0).
Proof.
  intros x. apply (derive_w1 (fun _ => 1) (-1) (fun x => BJ x 1) (fun x => BJ x 0) abs_m1 tame_one); intros y; apply wsum_one, BJ_is.
Qed.

(** ** functions of the second kind *)
Section Second.
  Context (s g : R) (Hs : Rabs s = 1) (Hss : s * s = 1).
  Context (b0 b1 : R -> R) (H0 : forall x, infinite_sum (bterm s 0 x) (b0 x)) (H1 : forall x, infinite_sum (bterm s 1 x) (b1 x)).

  Definition wh : nat -> R := fun k => harmonic (S k).
  Definition W00 (x : R) : R := proj1_sig (wsum_sig harmonic s 0 x Hs tame_harm).
  Definition W10 (x : R) : R := proj1_sig (wsum_sig wh s 0 x Hs (tame_shift _ tame_harm)).
  Definition W01 (x : R) : R := proj1_sig (wsum_sig harmonic s 1 x Hs tame_harm).
  Definition W11 (x : R) : R := proj1_sig (wsum_sig wh s 1 x Hs (tame_shift _ tame_harm)).
  Lemma W00_is : forall x, wsum harmonic s 0 x (W00 x). Proof. intros x. unfold W00. destruct wsum_sig. assumption. Qed.
  Lemma W10_is : forall x, wsum wh s 0 x (W10 x). Proof. intros x. unfold W10. destruct wsum_sig. assumption. Qed.
  Lemma W01_is : forall x, wsum harmonic s 1 x (W01 x). Proof. intros x. unfold W01. destruct wsum_sig. assumption. Qed.
  Lemma W11_is : forall x, wsum wh s 1 x (W11 x). Proof. intros x. unfold W11. destruct wsum_sig. assumption. Qed.

  (** sum b_1,k / (k + 1), through the next term of b_0 *)
  Lemma diff1 : forall x, 0 < x -> W11 x - W01 x = 2 * s / x * (b0 x - 1).
  Proof.
    intros x Hx. apply (infinite_sum_unique (fun k => / INR (S k) * bterm s 1 x k)).
    - apply isum_ext with (f := fun k => wh k * bterm s 1 x k + -1 * (harmonic k * bterm s 1 x k)).
      { intros k. unfold wh. rewrite harmonic_S. ring. }
      unfold Rminus. replace (- W01 x) with (-1 * W01 x) by ring. apply isum_plus; [apply W11_is|]. apply isum_scal, W01_is.
    - apply isum_ext with (f := fun k => 2 * s / x * bterm s 0 x (S k)).
      { intros k. unfold bterm. rewrite !Nat.add_0_r. replace (k + 1)%nat with (S k) by lia. replace (2 * S k)%nat with (S (2 * k + 1)) by lia. rewrite (INR_fact_S k), S_INR. cbn [pow].
        pose proof (INR_fact_neq_0 k). pose proof (pos_INR k).
        match goal with |- ?L = ?R => transitivity (s * s * R) end; [field; repeat split; (lra || assumption)|rewrite Hss; ring]. }
      apply isum_scal. assert (B : b0 x - 1 = b0 x - sum_f_R0 (bterm s 0 x) 0) by (cbn [sum_f_R0]; rewrite bterm_0; simpl; field). rewrite B.
      apply isum_ext with (f := fun k => bterm s 0 x (0 + 1 + k)); [intros; f_equal|]. apply (isum_drop _ _ 0), H0.
  Qed.
  (** sum b_0,k / (k + 1) *)
  Lemma diff0 : forall x, 0 < x -> W10 x - W00 x = 2 / x * b1 x.
  Proof.
    intros x Hx. apply (infinite_sum_unique (fun k => / INR (S k) * bterm s 0 x k)).
    - apply isum_ext with (f := fun k => wh k * bterm s 0 x k + -1 * (harmonic k * bterm s 0 x k)).
      { intros k. unfold wh. rewrite harmonic_S. ring. }
      unfold Rminus. replace (- W00 x) with (-1 * W00 x) by ring. apply isum_plus; [apply W10_is|]. apply isum_scal, W00_is.
    - apply isum_ext with (f := fun k => 2 / x * bterm s 1 x k); [|apply isum_scal, H1].
      intros k. unfold bterm. rewrite !Nat.add_0_r. replace (k + 1)%nat with (S k) by lia. replace (2 * k + 1)%nat with (S (2 * k)) by lia. rewrite (INR_fact_S k), S_INR. cbn [pow].
      pose proof (INR_fact_neq_0 k). pose proof (pos_INR k). field. repeat split; lra || assumption.
  Qed.

  Definition V0 (x : R) : R := - ((ln (x / 2) + g) * b0 x - W00 x).
  Definition V1 (x : R) : R := / x + s * ((ln (x / 2) + g) * b1 x - (W01 x + W11 x) / 2).

  Lemma derive_lnh : forall x, 0 < x -> derivable_pt_lim (fun x => ln (x / 2) + g) x (/ x).
  Proof.
    intros x Hx. replace (/ x) with (/ (x / 2) * / 2 + 0) by (field; lra).
    apply (derivable_pt_lim_plus (fun x => ln (x / 2)) (fun _ => g)); [|apply derivable_pt_lim_const].
    apply (derivable_pt_lim_comp (fun x => x / 2) ln); [|apply derivable_pt_lim_ln; lra].
    replace (/ 2) with ((/ 2) * 1) by ring. apply derivable_pt_lim_ext with (f := fun x => / 2 * x); [intros; field|]. apply derivable_pt_lim_scal, derivable_pt_lim_id.
  Qed.

  Lemma derive_V0 : forall x, 0 < x -> derivable_pt_lim V0 x (- V1 x).
  Proof.
    intros x Hx.
    assert (DB : derivable_pt_lim b0 x (s * b1 x)) by (apply (derive_w0 (fun _ => 1) s b0 b1 Hs tame_one); intros y; apply wsum_one; [apply H0|apply H1]).
    assert (DW : derivable_pt_lim W00 x (s * W11 x)) by (apply (derive_w0 harmonic s W00 W11 Hs tame_harm W00_is W11_is)).
    replace (- V1 x) with (- ((/ x * b0 x + (ln (x / 2) + g) * (s * b1 x)) - s * W11 x)).
    - apply (derivable_pt_lim_opp (fun x => (ln (x / 2) + g) * b0 x - W00 x)). apply (derivable_pt_lim_minus (fun x => (ln (x / 2) + g) * b0 x) W00); [|exact DW].
      apply (derivable_pt_lim_mult (fun x => ln (x / 2) + g) b0); [apply derive_lnh, Hx|exact DB].
    - unfold V1. pose proof (diff1 x Hx) as D. assert (E : s * (W11 x - W01 x) = 2 / x * (b0 x - 1)). { rewrite D. replace (s * (2 * s / x * (b0 x - 1))) with (s * s * (2 / x * (b0 x - 1))) by (field; lra). rewrite Hss. ring. }
      assert (E2 : / x * b0 x = s * (W11 x - W01 x) / 2 + / x) by (rewrite E; field; lra). rewrite E2. field. lra.
  Qed.

  Lemma derive_xV1 : forall x, 0 < x -> derivable_pt_lim (fun x => x * V1 x) x (- s * (x * V0 x)).
  Proof.
    intros x Hx.
    assert (DB : derivable_pt_lim (fun x => x * b1 x) x (x * b0 x)) by (apply (derive_w1 (fun _ => 1) s b1 b0 Hs tame_one); intros y; apply wsum_one; [apply H1|apply H0]).
    assert (D0 : derivable_pt_lim (fun x => x * W01 x) x (x * W00 x)) by (apply (derive_w1 harmonic s W01 W00 Hs tame_harm W01_is W00_is)).
    assert (D1 : derivable_pt_lim (fun x => x * W11 x) x (x * W10 x)) by (apply (derive_w1 wh s W11 W10 Hs (tame_shift _ tame_harm) W11_is W10_is)).
    assert (D : derivable_pt_lim (fun x => 1 + s * ((ln (x / 2) + g) * (x * b1 x) - / 2 * (x * W01 x + x * W11 x))) x
      (0 + s * ((/ x * (x * b1 x) + (ln (x / 2) + g) * (x * b0 x)) - / 2 * (x * W00 x + x * W10 x)))).
    { apply (derivable_pt_lim_plus (fun _ => 1)); [apply derivable_pt_lim_const|]. apply (derivable_pt_lim_scal (fun x => (ln (x / 2) + g) * (x * b1 x) - / 2 * (x * W01 x + x * W11 x))).
      apply (derivable_pt_lim_minus (fun x => (ln (x / 2) + g) * (x * b1 x)) (fun x => / 2 * (x * W01 x + x * W11 x))).
      - apply (derivable_pt_lim_mult (fun x => ln (x / 2) + g) (fun x => x * b1 x)); [apply derive_lnh, Hx|exact DB].
      - apply (derivable_pt_lim_scal (fun x => x * W01 x + x * W11 x)). apply (derivable_pt_lim_plus (fun x => x * W01 x) (fun x => x * W11 x)); assumption. }
    replace (- s * (x * V0 x)) with (0 + s * ((/ x * (x * b1 x) + (ln (x / 2) + g) * (x * b0 x)) - / 2 * (x * W00 x + x * W10 x))).
    - intros e He. destruct (D e He) as [d Hd]. assert (M0 : 0 < Rmin d x) by (apply Rmin_glb_lt; [apply cond_pos|lra]). exists (mkposreal _ M0). cbn [pos]. intros h Hh Hl. specialize (Hd h Hh).
      assert (L1 : Rabs h < d) by (eapply Rlt_le_trans; [exact Hl|apply Rmin_l]). assert (L2 : Rabs h < x) by (eapply Rlt_le_trans; [exact Hl|apply Rmin_r]). specialize (Hd L1). apply Rabs_lt_inv in L2.
      assert (Q : forall y, 0 < y -> y * V1 y = 1 + s * ((ln (y / 2) + g) * (y * b1 y) - / 2 * (y * W01 y + y * W11 y))) by (intros y Hy; unfold V1; field; lra).
      rewrite !Q by lra. exact Hd.
    - unfold V0. pose proof (diff0 x Hx) as D2. assert (E : W10 x = W00 x + 2 / x * b1 x) by lra. rewrite E. field. lra.
  Qed.
End Second.
