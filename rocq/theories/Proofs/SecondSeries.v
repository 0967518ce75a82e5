(** * The series of the second kind: recurrence, existence, uniqueness, and the
      partial sums as integer polynomials *)

From Coq Require Import ZArith Reals Lra Lia List.
From Flocq Require Import Core.Raux.
From Verif.Spec Require Import BesselSpec Bessel2Spec.
From Verif.Proofs Require Import Poly PolyZ PolyShift BesselSeries EulerGamma.
Import ListNotations.
Open Scope R_scope.

Lemma INR_fact_S : forall n, INR (fact (S n)) = (INR n + 1) * INR (fact n).
Proof. intros n. rewrite fact_simpl, mult_INR, S_INR. reflexivity. Qed.
Lemma INR_fact_pos : forall n, 0 < INR (fact n).
Proof. intros n. apply lt_0_INR, lt_O_fact. Qed.

(** ** Term by term *)

Lemma b_rec0 : forall s n x, 0 < x -> bterm s n x 0 = INR (S n) / (x / 2) * bterm s (S n) x 0.
Proof.
  intros s n x Hx. rewrite !bterm_0, INR_fact_S, S_INR. cbn [pow]. pose proof (INR_fact_pos n). pose proof (pos_INR n). field. repeat split; lra.
Qed.
Lemma b_recS : forall s n x k, 0 < x ->
  bterm s n x (S k) - s * bterm s (S (S n)) x k = INR (S n) / (x / 2) * bterm s (S n) x (S k).
Proof.
  intros s n x k Hx. unfold bterm.
  replace (2 * S k + n)%nat with (S (S (2 * k + n))) by lia. replace (2 * k + S (S n))%nat with (S (S (2 * k + n))) by lia.
  replace (2 * S k + S n)%nat with (S (S (S (2 * k + n)))) by lia.
  replace (S k + n)%nat with (S (k + n)) by lia. replace (k + S (S n))%nat with (S (S (k + n))) by lia. replace (S k + S n)%nat with (S (S (k + n))) by lia.
  rewrite !INR_fact_S, !S_INR, plus_INR. cbn [pow]. pose proof (INR_fact_pos k). pose proof (INR_fact_pos (k + n)). pose proof (pos_INR n). pose proof (pos_INR k).
  field. repeat split; lra.
Qed.

Lemma h_rec0 : forall s n x, 0 < x -> hterm s n x 0 = INR (S n) / (x / 2) * hterm s (S n) x 0 - (x / 2) ^ n / INR (fact (S n)).
Proof.
  intros s n x Hx. unfold hterm. rewrite !Nat.add_0_r, (harmonic_S n), !bterm_0, INR_fact_S, S_INR. cbn [pow]. pose proof (INR_fact_pos n). pose proof (pos_INR n). field. repeat split; lra.
Qed.
Lemma h_recS : forall s n x k, 0 < x ->
  hterm s n x (S k) - s * hterm s (S (S n)) x k = INR (S n) / (x / 2) * hterm s (S n) x (S k).
Proof.
  intros s n x k Hx. unfold hterm, bterm.
  replace (2 * S k + n)%nat with (S (S (2 * k + n))) by lia. replace (2 * k + S (S n))%nat with (S (S (2 * k + n))) by lia.
  replace (2 * S k + S n)%nat with (S (S (S (2 * k + n)))) by lia.
  replace (S k + n)%nat with (S (k + n)) by lia. replace (k + S (S n))%nat with (S (S (k + n))) by lia. replace (S k + S n)%nat with (S (S (k + n))) by lia.
  replace (n + S k)%nat with (S (k + n)) by lia. replace (S (S n) + k)%nat with (S (S (k + n))) by lia. replace (S n + S k)%nat with (S (S (k + n))) by lia.
  rewrite (harmonic_S k), !(harmonic_S (S (k + n))), (harmonic_S (k + n)).
  rewrite !INR_fact_S, !S_INR, plus_INR. cbn [pow]. pose proof (INR_fact_pos k). pose proof (INR_fact_pos (k + n)). pose proof (pos_INR n). pose proof (pos_INR k).
  field. repeat split; lra.
Qed.

Lemma f_rec0 : forall s n x, 0 < x -> fterm s (S (S n)) x 0 = INR (S n) / (x / 2) * fterm s (S n) x 0.
Proof.
  intros s n x Hx. unfold fterm. replace (S (S n) - 0 - 1)%nat with (S n) by lia. replace (S n - 0 - 1)%nat with n by lia.
  rewrite INR_fact_S, S_INR. rewrite Nat.mul_0_r. cbn [pow fact]. simpl (INR 1). assert (0 < (x / 2) ^ n) by (apply pow_lt; lra). field. repeat split; lra.
Qed.
Lemma f_recS : forall s n x k, 0 < x -> (S k <= n)%nat ->
  fterm s (S (S n)) x (S k) = INR (S n) / (x / 2) * fterm s (S n) x (S k) + s * fterm s n x k.
Proof.
  intros s n x k Hx Hk. unfold fterm. destruct (Nat.le_exists_sub (S k) n Hk) as (j & -> & _).
  replace (S (S (j + S k)) - S k - 1)%nat with (S j) by lia. replace (S (j + S k) - S k - 1)%nat with j by lia. replace (j + S k - k - 1)%nat with j by lia.
  replace (2 * S k)%nat with (S (S (2 * k))) by lia.
  rewrite !INR_fact_S, !S_INR, plus_INR, S_INR. cbn [pow]. assert (0 < (x / 2) ^ (j + S k)) by (apply pow_lt; lra).
  pose proof (INR_fact_pos k). pose proof (INR_fact_pos j). pose proof (pos_INR j). pose proof (pos_INR k). field. repeat split; lra.
Qed.
Lemma f_last : forall s n x, 0 < x -> fterm s (S n) x n = (- s) ^ n * ((x / 2) ^ n / ((x / 2) * INR (fact n))).
Proof.
  intros s n x Hx. unfold fterm. replace (S n - n - 1)%nat with 0%nat by lia. replace (2 * n)%nat with (n + n)%nat by lia. rewrite pow_add. cbn [pow fact]. simpl (INR 1).
  assert (0 < (x / 2) ^ n) by (apply pow_lt; lra). pose proof (INR_fact_pos n). field. repeat split; lra.
Qed.

(** ** Sums *)

Lemma sb_ext : forall f g n, (forall k, (k < n)%nat -> f k = g k) -> sum_below f n = sum_below g n.
Proof.
  intros f g n. induction n as [|n IH]; intros H; [reflexivity|]. cbn [sum_below]. rewrite IH, H by (intros; try apply H; lia). reflexivity.
Qed.
Lemma sb_lin : forall f g a b n, sum_below (fun k => a * f k + b * g k) n = a * sum_below f n + b * sum_below g n.
Proof. intros f g a b n. induction n as [|n IH]; cbn [sum_below]; [ring|]. rewrite IH. ring. Qed.
Lemma sb_first : forall f n, sum_below f (S n) = f O + sum_below (fun k => f (S k)) n.
Proof. intros f n. induction n as [|n IH]; [cbn [sum_below]; ring|]. change (sum_below f (S (S n))) with (sum_below f (S n) + f (S n)). rewrite IH. cbn [sum_below]. ring. Qed.

Lemma F_rec : forall s n x, 0 < x ->
  sum_below (fterm s (S (S n)) x) (S (S n)) = INR (S n) / (x / 2) * sum_below (fterm s (S n) x) (S n) + s * sum_below (fterm s n x) n
    + (- s) ^ S n * ((x / 2) ^ n / INR (fact (S n))).
Proof.
  intros s n x Hx. change (sum_below (fterm s (S (S n)) x) (S (S n))) with (sum_below (fterm s (S (S n)) x) (S n) + fterm s (S (S n)) x (S n)).
  rewrite f_last by exact Hx. rewrite !sb_first, f_rec0 by exact Hx.
  rewrite (sb_ext (fun k => fterm s (S (S n)) x (S k)) (fun k => INR (S n) / (x / 2) * fterm s (S n) x (S k) + s * fterm s n x k)).
  - rewrite (sb_lin (fun k => fterm s (S n) x (S k)) (fterm s n x)). cbn [pow]. pose proof (INR_fact_pos (S n)). field. split; lra.
  - intros k Hk. apply f_recS; [exact Hx|lia].
Qed.

Lemma b_sum : forall s n x N, 0 < x ->
  sum_f_R0 (bterm s n x) (S N) - s * sum_f_R0 (bterm s (S (S n)) x) N = INR (S n) / (x / 2) * sum_f_R0 (bterm s (S n) x) (S N).
Proof.
  intros s n x N Hx. induction N as [|N IH].
  - cbn [sum_f_R0]. pose proof (b_rec0 s n x Hx). pose proof (b_recS s n x 0 Hx). lra.
  - change (sum_f_R0 (bterm s n x) (S (S N))) with (sum_f_R0 (bterm s n x) (S N) + bterm s n x (S (S N))).
    change (sum_f_R0 (bterm s (S (S n)) x) (S N)) with (sum_f_R0 (bterm s (S (S n)) x) N + bterm s (S (S n)) x (S N)).
    change (sum_f_R0 (bterm s (S n) x) (S (S N))) with (sum_f_R0 (bterm s (S n) x) (S N) + bterm s (S n) x (S (S N))).
    pose proof (b_recS s n x (S N) Hx). lra.
Qed.
Lemma h_sum : forall s n x N, 0 < x ->
  sum_f_R0 (hterm s n x) (S N) - s * sum_f_R0 (hterm s (S (S n)) x) N = INR (S n) / (x / 2) * sum_f_R0 (hterm s (S n) x) (S N) - (x / 2) ^ n / INR (fact (S n)).
Proof.
  intros s n x N Hx. induction N as [|N IH].
  - cbn [sum_f_R0]. pose proof (h_rec0 s n x Hx). pose proof (h_recS s n x 0 Hx). lra.
  - change (sum_f_R0 (hterm s n x) (S (S N))) with (sum_f_R0 (hterm s n x) (S N) + hterm s n x (S (S N))).
    change (sum_f_R0 (hterm s (S (S n)) x) (S N)) with (sum_f_R0 (hterm s (S (S n)) x) N + hterm s (S (S n)) x (S N)).
    change (sum_f_R0 (hterm s (S n) x) (S (S N))) with (sum_f_R0 (hterm s (S n) x) (S N) + hterm s (S n) x (S (S N))).
    pose proof (h_recS s n x (S N) Hx). lra.
Qed.

(** limits of linear relations *)
Lemma lim_rel : forall f g h a b c k d s, infinite_sum f a -> infinite_sum g b -> infinite_sum h c ->
  (forall N, sum_f_R0 f (S N) - s * sum_f_R0 g N = k * sum_f_R0 h (S N) - d) -> a - s * b = k * c - d.
Proof.
  intros f g h a b c k d s Hf Hg Hh R.
  assert (S1 : forall f a, infinite_sum f a -> Un_cv (fun N => sum_f_R0 f (S N)) a).
  { intros f0 a0 H e He. destruct (H e He) as [N HN]. exists N. intros n Hn. apply HN. lia. }
  assert (L : Un_cv (fun N => sum_f_R0 f (S N) - s * sum_f_R0 g N) (a - s * b)).
  { apply CV_minus; [apply S1, Hf|]. apply (CV_mult (fun _ => s)); [intros e He; exists 0%nat; intros; unfold R_dist; rewrite Rminus_diag_eq, Rabs_R0 by reflexivity; lra|exact Hg]. }
  assert (L2 : Un_cv (fun N => k * sum_f_R0 h (S N) - d) (k * c - d)).
  { apply (CV_minus (fun N => k * sum_f_R0 h (S N)) (fun _ => d)); [|intros e He; exists 0%nat; intros; unfold R_dist; rewrite Rminus_diag_eq, Rabs_R0 by reflexivity; lra].
    apply (CV_mult (fun _ => k)); [intros e He; exists 0%nat; intros; unfold R_dist; rewrite Rminus_diag_eq, Rabs_R0 by reflexivity; lra|apply S1, Hh]. }
  apply (UL_sequence _ _ _ L). intros e He. destruct (L2 e He) as [N HN]. exists N. intros n Hn. rewrite R. apply HN, Hn.
Qed.

Theorem second_rec : forall s n x a b c, s * s = 1 -> 0 < x -> is_second s n x a -> is_second s (S n) x b -> is_second s (S (S n)) x c ->
  c = INR (S n) / (x / 2) * b + s * a.
Proof.
  intros s n x a b c Hs Hx (g & bn & hn & Hg & Hb & Hh & ->) (g1 & b1 & h1 & Hg1 & Hb1 & Hh1 & ->) (g2 & b2 & h2 & Hg2 & Hb2 & Hh2 & ->).
  rewrite (UL_sequence _ _ _ Hg1 Hg), (UL_sequence _ _ _ Hg2 Hg).
  pose proof (lim_rel _ _ _ _ _ _ (INR (S n) / (x / 2)) 0 s Hb Hb2 Hb1 ltac:(intros N; rewrite Rminus_0_r; apply b_sum, Hx)) as E1.
  pose proof (lim_rel _ _ _ _ _ _ (INR (S n) / (x / 2)) _ s Hh Hh2 Hh1 ltac:(intros N; apply h_sum, Hx)) as E2.
  rewrite (F_rec s n x Hx). cbn [pow].
  set (L := ln (x / 2) + g). set (F0 := sum_below (fterm s n x) n). set (F1 := sum_below (fterm s (S n) x) (S n)). set (m := INR (S n) / (x / 2)) in *.
  set (q := (x / 2) ^ n / INR (fact (S n))) in *. set (p := (- s) ^ n).
  replace (- s * (- s * p)) with p by (replace (- s * (- s * p)) with (s * s * p) by ring; rewrite Hs; ring).
  assert (B : b2 = s * bn - s * (m * b1)).
  { replace (s * bn - s * (m * b1)) with (s * (bn - m * b1)) by ring. replace (bn - m * b1) with (s * b2) by lra. rewrite <- Rmult_assoc, Hs. ring. }
  assert (H : h2 = s * hn - s * (m * h1) + s * q).
  { replace (s * hn - s * (m * h1) + s * q) with (s * (hn - m * h1 + q)) by ring. replace (hn - m * h1 + q) with (s * h2) by lra. rewrite <- Rmult_assoc, Hs. ring. }
  rewrite B, H. field.
Qed.

Lemma second_unique : forall s n x v w, is_second s n x v -> is_second s n x w -> v = w.
Proof.
  intros s n x v w (g & b & h & Hg & Hb & Hh & ->) (g1 & b1 & h1 & Hg1 & Hb1 & Hh1 & ->).
  rewrite (UL_sequence _ _ _ Hg1 Hg), (infinite_sum_unique _ _ _ Hb1 Hb), (infinite_sum_unique _ _ _ Hh1 Hh). reflexivity.
Qed.

(** ** Existence *)

Lemma harmonic_le : forall n, harmonic n <= INR n.
Proof.
  induction n as [|n IH]; [simpl; lra|]. rewrite harmonic_S. rewrite S_INR at 2.
  assert (/ INR (S n) <= 1). { rewrite <- Rinv_1. apply Rinv_le_contravar; [lra|]. rewrite S_INR. pose proof (pos_INR n). lra. }
  lra.
Qed.
Lemma lin_pow4 : forall n k, 2 * INR k + INR n <= (INR n + 2) * 4 ^ k.
Proof.
  intros n k. pose proof (pos_INR n). induction k as [|k IH]; [simpl; lra|]. rewrite S_INR. cbn [pow].
  assert (1 <= 4 ^ k) by (apply pow_R1_Rle; lra). nra.
Qed.

Lemma hterm_dom : forall s n x k, Rabs s = 1 -> 0 <= x -> Rabs (hterm s n x k) <= (INR n + 2) * bterm 1 n (2 * x) k.
Proof.
  intros s n x k Hs Hx. unfold hterm. rewrite Rabs_mult. pose proof (harmonic_nonneg k) as H1. pose proof (harmonic_nonneg (n + k)) as H2.
  rewrite (Rabs_pos_eq (harmonic k + harmonic (n + k))) by lra.
  assert (B : Rabs (bterm s n x k) = (x / 2) ^ (2 * k + n) / (INR (fact k) * INR (fact (k + n)))).
  { unfold bterm. pose proof (INR_fact_pos k). pose proof (INR_fact_pos (k + n)). unfold Rdiv. rewrite !Rabs_mult, <- RPow_abs, Hs, pow1, Rmult_1_l.
    rewrite (Rabs_pos_eq (/ _)) by (left; apply Rinv_0_lt_compat, Rmult_lt_0_compat; assumption). rewrite Rabs_pos_eq; [reflexivity|]. apply pow_le. lra. }
  rewrite B. unfold bterm. rewrite pow1, Rmult_1_l.
  replace (2 * x / 2) with (2 * (x / 2)) by field. rewrite Rpow_mult_distr.
  replace (2 ^ (2 * k + n)) with (4 ^ k * 2 ^ n) by (rewrite pow_add, pow_mult; f_equal; f_equal; simpl; ring).
  set (T := (x / 2) ^ (2 * k + n)). assert (T0 : 0 <= T) by (apply pow_le; lra).
  pose proof (INR_fact_pos k) as P1. pose proof (INR_fact_pos (k + n)) as P2. set (Q := INR (fact k) * INR (fact (k + n))) in *. assert (Q0 : 0 < Q) by (apply Rmult_lt_0_compat; assumption).
  assert (A : harmonic k + harmonic (n + k) <= (INR n + 2) * 4 ^ k).
  { pose proof (harmonic_le k). pose proof (harmonic_le (n + k)). rewrite plus_INR in *. pose proof (lin_pow4 n k). lra. }
  assert (B2 : 1 <= 2 ^ n) by (apply pow_R1_Rle; lra). pose proof (pos_INR n).
  assert (C : (INR n + 2) * 4 ^ k <= (INR n + 2) * (4 ^ k * 2 ^ n)).
  { apply Rmult_le_compat_l; [lra|]. rewrite <- (Rmult_1_r (4 ^ k)) at 1. apply Rmult_le_compat_l; [apply pow_le; lra|exact B2]. }
  replace ((INR n + 2) * (4 ^ k * 2 ^ n * T / Q)) with ((INR n + 2) * (4 ^ k * 2 ^ n) * (T / Q)) by (field; lra).
  apply Rmult_le_compat_r; [|lra]. apply Rmult_le_pos; [exact T0|left; apply Rinv_0_lt_compat, Q0].
Qed.

Lemma h_exists : forall s n x, Rabs s = 1 -> 0 <= x -> exists h, infinite_sum (hterm s n x) h.
Proof.
  intros s n x Hs Hx. destruct (series_exists 1 n (2 * x) Rabs_R1) as [v Hv].
  assert (X : { l : R | Un_cv (fun N => sum_f_R0 (fun k => Rabs (hterm s n x k)) N) l }).
  { apply (Rseries_CV_comp _ (fun k => (INR n + 2) * bterm 1 n (2 * x) k)).
    - intros k. split; [apply Rabs_pos|apply hterm_dom; assumption].
    - exists ((INR n + 2) * v). intros e He.
      assert (C : Un_cv (fun N => (INR n + 2) * sum_f_R0 (bterm 1 n (2 * x)) N) ((INR n + 2) * v)).
      { apply (CV_mult (fun _ => INR n + 2)); [intros e' He'; exists 0%nat; intros; unfold R_dist; rewrite Rminus_diag_eq, Rabs_R0 by reflexivity; lra|exact Hv]. }
      destruct (C e He) as [N HN]. exists N. intros m Hm. specialize (HN m Hm). rewrite scal_sum in HN.
      rewrite (sum_eq _ (fun i => bterm 1 n (2 * x) i * (INR n + 2))) by (intros; ring). exact HN. }
  apply cv_cauchy_1 in X. apply cauchy_abs in X. apply cv_cauchy_2 in X. destruct X as [l Hl]. exists l. exact Hl.
Qed.

Lemma second_exists : forall s n x, Rabs s = 1 -> 0 <= x -> exists v, is_second s n x v.
Proof.
  intros s n x Hs Hx. destruct euler_exists as [g Hg]. destruct (series_exists s n x Hs) as [b Hb]. destruct (h_exists s n x Hs Hx) as [h Hh].
  eexists. exists g, b, h. repeat split; eassumption.
Qed.
Lemma K_exists : forall n x, 0 <= x -> exists v, is_K n x v.
Proof. intros n x Hx. apply second_exists; [apply Rabs_R1|exact Hx]. Qed.
Lemma Y_exists : forall n x, 0 <= x -> exists v, is_Y n x v.
Proof.
  intros n x Hx. destruct (second_exists (-1) n x) as [w Hw]; [rewrite Rabs_left; lra|exact Hx|]. exists (- (2 / PI) * w), w. split; [exact Hw|reflexivity].
Qed.

(** ** Partial sums of the harmonic series *)

Definition hh (n k : nat) : R := harmonic k + harmonic (n + k).

Fixpoint hr (s : R) (n k m : nat) (y : R) : R :=
  match m with
  | O => hh n k
  | S m' => hh n k + s * y / IZR (wz n k) * hr s n (S k) m' y
  end.

Lemma sum_hr : forall s n x m k, sum_f_R0 (fun j => hterm s n x (k + j)) m = bterm s n x k * hr s n k m (x * x).
Proof.
  intros s n x. induction m as [|m IH]; intros k.
  - cbn [sum_f_R0 hr]. rewrite Nat.add_0_r. unfold hterm, hh. ring.
  - rewrite decomp_sum by lia. cbn [pred]. rewrite Nat.add_0_r.
    rewrite (sum_eq _ (fun j => hterm s n x (S k + j))) by (intros i _; f_equal; lia).
    rewrite IH. cbn [hr]. rewrite bterm_S. unfold hterm, hh. field. apply Rgt_not_eq, wz_posR.
Qed.

(** harmonic numbers over a common denominator M *)
Fixpoint hz (M : Z) (k : nat) : Z := match k with O => 0%Z | S k' => (hz M k' + M / Z.of_nat k)%Z end.
Fixpoint hz_ok (M : Z) (k : nat) : bool := match k with O => true | S k' => (hz_ok M k' && (M mod Z.of_nat k =? 0)%Z)%bool end.
Lemma hz_eq : forall M k, hz_ok M k = true -> IZR M * harmonic k = IZR (hz M k).
Proof.
  intros M. induction k as [|k IH]; intros H; [simpl; ring|]. cbn [hz_ok] in H. apply andb_prop in H. destruct H as [H1 H2]. apply Z.eqb_eq in H2.
  cbn [hz]. rewrite harmonic_S, plus_IZR, <- (IH H1). rewrite Rmult_plus_distr_l. f_equal.
  rewrite INR_IZR_INZ. assert (K : (Z.of_nat (S k) <> 0)%Z) by lia. pose proof (Z.div_mod M (Z.of_nat (S k)) K) as E. rewrite H2, Z.add_0_r in E.
  rewrite E at 1. rewrite mult_IZR. field. apply IZR_neq, K.
Qed.
Lemma hz_ok_le : forall M k j, (j <= k)%nat -> hz_ok M k = true -> hz_ok M j = true.
Proof.
  intros M k j H. induction H as [|k H IH]; intros E; [exact E|]. cbn [hz_ok] in E. apply andb_prop in E. apply IH, E.
Qed.

Fixpoint phz (M s : Z) (n k m : nat) : list Z * Z :=
  match m with
  | O => ([(hz M k + hz M (n + k))%Z], 1%Z)
  | S m' => let '(l, d) := phz M s n (S k) m' in ((d * wz n k * (hz M k + hz M (n + k)))%Z :: pscale s l, (d * wz n k)%Z)
  end.
Lemma phz_snd : forall M s n m k, snd (phz M s n k m) = snd (plz s n k m).
Proof.
  intros M s n. induction m as [|m IH]; intros k; [reflexivity|]. cbn [phz plz]. specialize (IH (S k)). destruct (phz M s n (S k) m), (plz s n (S k) m). cbn [snd] in *. congruence.
Qed.
Lemma phz_eq : forall M s n m k y, hz_ok M (n + k + m) = true ->
  peval (fst (phz M s n k m)) y = IZR (snd (phz M s n k m)) * (IZR M * hr (IZR s) n k m y).
Proof.
  intros M s n. induction m as [|m IH]; intros k y Ok.
  - cbn [phz fst snd hr]. rewrite peval_cons. change (peval [] y) with 0. unfold hh. rewrite plus_IZR, <- !hz_eq by (eapply hz_ok_le; [|exact Ok]; lia). simpl. ring.
  - cbn [phz hr]. specialize (IH (S k) y). replace (n + S k + m)%nat with (n + k + S m)%nat in IH by lia. specialize (IH Ok).
    destruct (phz M s n (S k) m) as [l d]. cbn [fst snd] in *. rewrite peval_cons, peval_pscale, IH, !mult_IZR, plus_IZR, <- !hz_eq by (eapply hz_ok_le; [|exact Ok]; lia).
    pose proof (wz_posR n k). unfold hh. field. lra.
Qed.

(** the value of the series is close to the partial sum *)
Lemma hterm_ratio : forall s n x k, Rabs s = 1 -> (1 <= k)%nat -> Rabs (hterm s n x (S k)) <= Rabs (hterm s n x k) * (2 * (x * x) / IZR (wz n k)).
Proof.
  intros s n x k Hs Hk. unfold hterm. rewrite !Rabs_mult, bterm_ratio by exact Hs.
  assert (H1 : 1 <= harmonic k).
  { destruct k as [|k]; [lia|]. clear Hk. induction k as [|k IH]; [simpl; lra|]. rewrite harmonic_S. pose proof (Rinv_0_lt_compat (INR (S (S k))) ltac:(apply lt_0_INR; lia)). lra. }
  pose proof (harmonic_nonneg (n + k)) as H2. pose proof (harmonic_nonneg (S k)) as H3. pose proof (harmonic_nonneg (n + S k)) as H4.
  rewrite !(Rabs_pos_eq (harmonic _ + harmonic _)) by lra.
  assert (A : harmonic (S k) + harmonic (n + S k) <= 2 * (harmonic k + harmonic (n + k))).
  { replace (n + S k)%nat with (S (n + k)) by lia. rewrite !harmonic_S.
    assert (I : forall j, (1 <= j)%nat -> / INR (S j) <= / 2).
    { intros j Hj. apply Rinv_le_contravar; [lra|]. rewrite S_INR. apply le_INR in Hj. simpl in Hj. lra. }
    pose proof (I k Hk). pose proof (I (n + k)%nat ltac:(lia)). lra. }
  pose proof (Rabs_pos (bterm s n x k)) as B. set (b := Rabs (bterm s n x k)) in *.
  assert (W : 0 <= x * x / IZR (wz n k)) by (apply Rmult_le_pos; [nra|left; apply Rinv_0_lt_compat, wz_posR]).
  replace ((harmonic k + harmonic (n + k)) * b * (2 * (x * x) / IZR (wz n k))) with (2 * (harmonic k + harmonic (n + k)) * (b * (x * x / IZR (wz n k)))) by (unfold Rdiv; ring).
  apply Rmult_le_compat_r; [apply Rmult_le_pos; assumption|exact A].
Qed.

Lemma hseries_near : forall Y n s x v m t, (0 <= Y)%Z -> Rabs s = 1 -> x * x <= IZR Y -> (0 < t)%Z -> (1 <= m)%nat ->
  infinite_sum (hterm s n x) v ->
  (4 * Y <=? wz n m)%Z = true -> ((2 * Z.of_nat m + Z.of_nat n) * fst (tz Y n m) * t <=? snd (tz Y n m))%Z = true ->
  Rabs (v - bterm s n x 0 * hr s n 0 m (x * x)) <= Rabs (bterm s n x 0) / IZR t.
Proof.
  intros Y n s x v m t HY Hs Hx Ht Hm Hv W T. apply Z.leb_le in W, T.
  assert (S0 : sum_f_R0 (hterm s n x) m = bterm s n x 0 * hr s n 0 m (x * x)) by exact (sum_hr s n x m 0).
  rewrite <- S0.
  eapply Rle_trans; [apply sum_tail; [exact Hv|]|].
  - intros k Hk. eapply Rle_trans; [apply hterm_ratio; [exact Hs|lia]|]. unfold Rdiv at 2. apply Rmult_le_compat_l; [apply Rabs_pos|].
    pose proof (wz_posR n k). apply Rmult_le_reg_r with (IZR (wz n k)); [lra|]. unfold Rdiv. rewrite Rmult_assoc, Rinv_l by lra.
    pose proof (wz_mono n m k Hk) as Q. assert (Q2 : (4 * Y <= wz n k)%Z) by lia. apply IZR_le in Q2. rewrite mult_IZR in Q2. lra.
  - unfold hterm. rewrite Rabs_mult. pose proof (tz_ok Y n s x HY Hs Hx m) as B.
    destruct (tz_pos Y n m HY) as [U D]. apply IZR_lt in D. apply IZR_le in U. apply IZR_le in T. rewrite !mult_IZR, plus_IZR, mult_IZR, <- !INR_IZR_INZ in T. apply IZR_lt in Ht.
    set (u := IZR (fst (tz Y n m))) in *. set (d := IZR (snd (tz Y n m))) in *. set (b0 := Rabs (bterm s n x 0)) in *. pose proof (Rabs_pos (bterm s n x 0)) as B0. fold b0 in B0.
    assert (H : Rabs (harmonic m + harmonic (n + m)) <= 2 * INR m + INR n).
    { pose proof (harmonic_nonneg m). pose proof (harmonic_nonneg (n + m)). pose proof (harmonic_le m). pose proof (harmonic_le (n + m)). rewrite plus_INR in *. rewrite Rabs_pos_eq; lra. }
    apply Rle_trans with ((2 * INR m + INR n) * (b0 * (u / d))).
    { apply Rmult_le_compat; try apply Rabs_pos; assumption. }
    replace ((2 * INR m + INR n) * (b0 * (u / d))) with (b0 * ((2 * INR m + INR n) * u / d)) by (field; lra). unfold Rdiv at 2. apply Rmult_le_compat_l; [exact B0|].
    apply Rmult_le_reg_r with d; [exact D|]. unfold Rdiv. rewrite Rmult_assoc, Rinv_l by lra.
    apply Rmult_le_reg_r with (IZR t); [exact Ht|]. rewrite (Rmult_comm (/ IZR t)), (Rmult_assoc d), Rinv_l by lra. change (IZR 2) with 2 in T. lra.
Qed.
