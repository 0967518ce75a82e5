(** * erfc 0 = 1: the Gaussian integral, by the Wallis recurrence *)

From Coq Require Import ZArith Reals Lra Lia.
From Flocq Require Import Core.Raux.
From Verif.Spec Require Import ErfSpec.
From Verif.Proofs Require Import ErfcODE ErfcxAcc.
Open Scope R_scope.

(** ** antiderivatives of the powers of sin *)
Fixpoint sn (n : nat) (x : R) : R :=
  match n with
  | O => x
  | S O => 1 - cos x
  | S (S m as k) => (INR k * sn m x - cos x * sin x ^ k) / (INR k + 1)
  end.

Lemma derive_sin_pow : forall n x, derivable_pt_lim (fun t => sin t ^ S n) x (INR (S n) * sin x ^ n * cos x).
Proof.
  intros n x. apply (derivable_pt_lim_comp sin (fun y => y ^ S n)); [apply derivable_pt_lim_sin|].
  exact (derivable_pt_lim_pow (sin x) (S n)).
Qed.

Lemma sn_SS : forall m x, sn (S (S m)) x = (INR (S m) * sn m x - cos x * sin x ^ S m) / (INR (S m) + 1).
Proof. reflexivity. Qed.

Lemma derive_sn2 : forall n x, derivable_pt_lim (sn n) x (sin x ^ n) /\ derivable_pt_lim (sn (S n)) x (sin x ^ S n).
Proof.
  induction n as [|n IH]; intros x.
  - split; [exact (derivable_pt_lim_id x)|].
    replace (sin x ^ 1) with (0 - - sin x) by ring. apply (derivable_pt_lim_minus (fun _ => 1) cos); [apply derivable_pt_lim_const|apply derivable_pt_lim_cos].
  - destruct (IH x) as [H1 H2]. split; [exact H2|].
    assert (K0 : 0 < INR (S n) + 1) by (pose proof (pos_INR (S n)); lra).
    replace (sin x ^ S (S n)) with ((INR (S n) * sin x ^ n - (- sin x * sin x ^ S n + cos x * (INR (S n) * sin x ^ n * cos x))) * / (INR (S n) + 1)).
    2:{ replace (cos x * (INR (S n) * sin x ^ n * cos x)) with (INR (S n) * sin x ^ n * (1 - sin x * sin x)).
        - change (sin x ^ S (S n)) with (sin x * (sin x * sin x ^ n)). change (sin x ^ S n) with (sin x * sin x ^ n). field. lra.
        - pose proof (sin2_cos2 x) as Q. unfold Rsqr in Q. replace (1 - sin x * sin x) with (cos x * cos x) by lra. ring. }
    apply (derivable_pt_lim_ext (fun t => (INR (S n) * sn n t - cos t * sin t ^ S n) * / (INR (S n) + 1))); [intros t; rewrite sn_SS; reflexivity|].
    match goal with |- derivable_pt_lim _ _ (?a * ?b) => replace (a * b) with (a * b + (INR (S n) * sn n x - cos x * sin x ^ S n) * 0) by ring end.
    apply (derivable_pt_lim_mult (fun t => INR (S n) * sn n t - cos t * sin t ^ S n) (fun _ => / (INR (S n) + 1))); [|apply derivable_pt_lim_const].
    apply (derivable_pt_lim_minus (fun t => INR (S n) * sn n t) (fun t => cos t * sin t ^ S n)).
    + apply (derivable_pt_lim_scal (sn n) (INR (S n))). exact H1.
    + apply (derivable_pt_lim_mult cos (fun t => sin t ^ S n)); [apply derivable_pt_lim_cos|apply derive_sin_pow].
Qed.
Lemma derive_sn : forall n x, derivable_pt_lim (sn n) x (sin x ^ n).
Proof. intros. apply derive_sn2. Qed.

Lemma sn_0 : forall n, sn n 0 = 0 /\ sn (S n) 0 = 0.
Proof.
  induction n as [|n [H1 H2]]; [simpl; rewrite cos_0; split; lra|]. split; [exact H2|]. rewrite sn_SS, H1, sin_0.
  change (0 ^ S n) with (0 * 0 ^ n). unfold Rdiv. ring.
Qed.

Definition W (n : nat) : R := sn n (PI / 2).
Lemma W_0 : W 0 = PI / 2. Proof. reflexivity. Qed.
Lemma W_1 : W 1 = 1. Proof. unfold W. simpl. rewrite cos_PI2. lra. Qed.
Lemma W_rec : forall n, (INR n + 2) * W (S (S n)) = (INR n + 1) * W n.
Proof.
  intros n. unfold W. rewrite sn_SS, cos_PI2, S_INR. pose proof (pos_INR n). field. lra.
Qed.
Lemma W_prod : forall n, (INR n + 1) * (W n * W (S n)) = PI / 2.
Proof.
  induction n as [|n IH]; [rewrite W_0, W_1; simpl; ring|].
  rewrite S_INR. replace ((INR n + 1 + 1) * (W (S n) * W (S (S n)))) with (W (S n) * ((INR n + 2) * W (S (S n)))) by ring.
  rewrite W_rec, <- IH. ring.
Qed.
Lemma sin_q : forall t, 0 <= t <= PI / 2 -> 0 <= sin t <= 1.
Proof. intros t Ht. pose proof PI_RGT_0. split; [apply sin_ge_0; lra|apply SIN_bound]. Qed.
Lemma W_decr : forall n, W (S n) <= W n.
Proof.
  intros n. pose proof PI_RGT_0. destruct (sn_0 n) as [Z1 Z2].
  enough (sn n 0 - sn (S n) 0 <= sn n (PI / 2) - sn (S n) (PI / 2)) by (unfold W; lra).
  apply (mono_on (fun t => sn n t - sn (S n) t) (fun t => sin t ^ n - sin t ^ S n)); [lra| |].
  - intros t _. apply (derivable_pt_lim_minus (sn n) (sn (S n))); apply derive_sn.
  - intros t Ht. destruct (sin_q t Ht) as [S0 S1]. change (sin t ^ S n) with (sin t * sin t ^ n). pose proof (pow_le _ n S0). nra.
Qed.
Lemma W_nonneg : forall n, 0 <= W n.
Proof.
  intros n. pose proof PI_RGT_0. destruct (sn_0 n) as [Z _]. unfold W. rewrite <- Z at 1.
  apply (mono_on (sn n) (fun t => sin t ^ n)); [lra|intros t _; apply derive_sn|intros t Ht; apply pow_le, sin_q, Ht].
Qed.
Lemma W_low : forall n, PI / 2 <= (INR n + 1) * (W n * W n).
Proof.
  intros n. rewrite <- (W_prod n). apply Rmult_le_compat_l; [pose proof (pos_INR n); lra|]. apply Rmult_le_compat_l; [apply W_nonneg|apply W_decr].
Qed.
Lemma W_up : forall n, (INR n + 1) * (W (S n) * W (S n)) <= PI / 2.
Proof.
  intros n. rewrite <- (W_prod n). apply Rmult_le_compat_l; [pose proof (pos_INR n); lra|]. apply Rmult_le_compat_r; [apply W_nonneg|apply W_decr].
Qed.

Lemma INR_above : forall v, exists n, v < INR n.
Proof.
  intros v. exists (Z.to_nat (up v)). destruct (archimed v) as [A _]. destruct (Z.le_gt_cases 0 (up v)) as [H|H].
  - rewrite INR_IZR_INZ, Z2Nat.id by exact H. lra.
  - apply IZR_lt in H. pose proof (pos_INR (Z.to_nat (up v))). lra.
Qed.

Lemma exp_pow : forall n v, exp (INR n * v) = exp v ^ n.
Proof.
  induction n as [|n IH]; intros v; [simpl; rewrite Rmult_0_l; apply exp_0|].
  rewrite S_INR, Rmult_plus_distr_r, exp_plus, IH, Rmult_1_l. simpl. ring.
Qed.

Section G.
  Variable E : R -> R.
  Hypothesis HE : erfc_function E.

  Lemma E_nonneg : forall x, 0 <= E x.
  Proof.
    intros x. rewrite (E_w E x). apply Rmult_le_pos; [left; apply exp_pos|left; apply w_pos_all, HE].
  Qed.

  (** x = b cos t *)
  Lemma gauss_low : forall n, K * (sqrt (INR n) * W (2 * n + 1)) <= E 0 - E (sqrt (INR n)).
  Proof.
    intros n. pose proof PI_RGT_0. destruct HE as [D _]. pose proof K_pos. set (b := sqrt (INR n)).
    assert (B0 : 0 <= b) by apply sqrt_pos. assert (B2 : b * b = INR n) by apply sqrt_sqrt, pos_INR.
    destruct (sn_0 (2 * n + 1)) as [Z _].
    assert (M : E (b * cos 0) - K * (b * sn (2 * n + 1) 0) <= E (b * cos (PI / 2)) - K * (b * sn (2 * n + 1) (PI / 2))).
    2:{ rewrite cos_0, cos_PI2, Z, Rmult_1_r, !Rmult_0_r in M. unfold W. lra. }
    apply (mono_on (fun t => E (b * cos t) - K * (b * sn (2 * n + 1) t)) (fun t => - K * exp (- (b * cos t * (b * cos t))) * (b * - sin t) - K * (b * sin t ^ (2 * n + 1)))); [lra| |].
    - intros t _. apply (derivable_pt_lim_minus (fun t => E (b * cos t)) (fun t => K * (b * sn (2 * n + 1) t))).
      + apply (derivable_pt_lim_comp (fun t => b * cos t) E); [apply (derivable_pt_lim_scal cos b), derivable_pt_lim_cos|apply D].
      + apply (derivable_pt_lim_scal (fun t => b * sn (2 * n + 1) t) K), (derivable_pt_lim_scal (sn (2 * n + 1)) b), derive_sn.
    - intros t Ht. destruct (sin_q t Ht) as [S0 S1].
      replace (b * cos t * (b * cos t)) with (INR n * (cos t * cos t)) by (rewrite <- B2; ring).
      replace (- (INR n * (cos t * cos t))) with (INR n * - (cos t * cos t)) by ring. rewrite exp_pow.
      rewrite pow_add, pow_mult, pow_1.
      assert (Q : sin t ^ 2 <= exp (- (cos t * cos t))).
      { pose proof (exp_ineq1_le (- (cos t * cos t))). pose proof (sin2_cos2 t) as Q. unfold Rsqr in Q. simpl pow. lra. }
      assert (Q2 : (sin t ^ 2) ^ n <= exp (- (cos t * cos t)) ^ n) by (apply pow_incr; split; [apply pow_le, S0|exact Q]).
      replace (- K * exp (- (cos t * cos t)) ^ n * (b * - sin t) - K * (b * ((sin t ^ 2) ^ n * sin t))) with (K * (b * sin t) * (exp (- (cos t * cos t)) ^ n - (sin t ^ 2) ^ n)) by ring.
      apply Rmult_le_pos; [|lra]. apply Rmult_le_pos; [lra|apply Rmult_le_pos; assumption].
  Qed.

  Lemma derive_cot : forall t, sin t <> 0 -> derivable_pt_lim (fun t => cos t / sin t) t (- / (sin t * sin t)).
  Proof.
    intros t H. replace (- / (sin t * sin t)) with ((- sin t * sin t - cos t * cos t) / Rsqr (sin t)).
    - apply (derivable_pt_lim_div cos sin); [apply derivable_pt_lim_cos|apply derivable_pt_lim_sin|exact H].
    - pose proof (sin2_cos2 t) as Q. unfold Rsqr in *. replace (- sin t * sin t - cos t * cos t) with (- (1)) by lra. field. exact H.
  Qed.

  (** x = b cot t *)
  Lemma gauss_up : forall n th, 0 < th <= PI / 2 -> E 0 - E (sqrt (INR (S n)) * (cos th / sin th)) <= K * (sqrt (INR (S n)) * W (2 * n)).
  Proof.
    intros n th Hth. pose proof PI_RGT_0. destruct HE as [D _]. pose proof K_pos. set (b := sqrt (INR (S n))).
    assert (B0 : 0 <= b) by apply sqrt_pos. assert (B2 : b * b = INR (S n)) by apply sqrt_sqrt, pos_INR.
    assert (SP : forall t, th <= t <= PI / 2 -> 0 < sin t <= 1) by (intros t Ht; split; [apply sin_gt_0; lra|apply SIN_bound]).
    assert (M : K * (b * sn (2 * n) th) - E (b * (cos th / sin th)) <= K * (b * sn (2 * n) (PI / 2)) - E (b * (cos (PI / 2) / sin (PI / 2)))).
    2:{ rewrite cos_PI2, sin_PI2 in M. replace (b * (0 / 1)) with 0 in M by field.
        assert (0 <= sn (2 * n) th).
        { destruct (sn_0 (2 * n)) as [Z _]. rewrite <- Z at 1. apply (mono_on (sn (2 * n)) (fun t => sin t ^ (2 * n))); [lra|intros t _; apply derive_sn|].
          intros t Ht. apply pow_le, sin_q. lra. }
        assert (0 <= K * (b * sn (2 * n) th)) by (apply Rmult_le_pos; [lra|apply Rmult_le_pos; assumption]). unfold W. lra. }
    apply (mono_on (fun t => K * (b * sn (2 * n) t) - E (b * (cos t / sin t))) (fun t => K * (b * sin t ^ (2 * n)) - - K * exp (- (b * (cos t / sin t) * (b * (cos t / sin t)))) * (b * - / (sin t * sin t)))); [lra| |].
    - intros t Ht. specialize (SP t Ht). apply (derivable_pt_lim_minus (fun t => K * (b * sn (2 * n) t)) (fun t => E (b * (cos t / sin t)))).
      + apply (derivable_pt_lim_scal (fun t => b * sn (2 * n) t) K), (derivable_pt_lim_scal (sn (2 * n)) b), derive_sn.
      + apply (derivable_pt_lim_comp (fun t => b * (cos t / sin t)) E); [apply (derivable_pt_lim_scal (fun t => cos t / sin t) b), derive_cot; lra|apply D].
    - intros t Ht. specialize (SP t Ht). destruct SP as [S0 S1]. set (c := cos t / sin t).
      assert (C : 1 + c * c = / (sin t * sin t)).
      { unfold c. pose proof (sin2_cos2 t) as Q. unfold Rsqr in Q. apply Rmult_eq_reg_r with (sin t * sin t); [|nra].
        rewrite Rinv_l by nra. replace ((1 + cos t / sin t * (cos t / sin t)) * (sin t * sin t)) with (sin t * sin t + cos t * cos t) by (field; lra). lra. }
      replace (- (b * c * (b * c))) with (INR (S n) * - (c * c)) by (rewrite <- B2; ring). rewrite exp_pow.
      assert (Q : exp (- (c * c)) <= sin t * sin t).
      { rewrite exp_Ropp. replace (sin t * sin t) with (/ / (sin t * sin t)) by (field; lra). rewrite <- C.
        apply Rinv_le_contravar; [nra|]. pose proof (exp_ineq1_le (c * c)). lra. }
      assert (Q2 : exp (- (c * c)) ^ S n <= (sin t * sin t) ^ S n) by (apply pow_incr; split; [left; apply exp_pos|exact Q]).
      replace (sin t ^ (2 * n)) with ((sin t * sin t) ^ S n * / (sin t * sin t)).
      2:{ rewrite pow_mult. replace (sin t ^ 2) with (sin t * sin t) by ring. change ((sin t * sin t) ^ S n) with (sin t * sin t * (sin t * sin t) ^ n). field. lra. }
      replace (K * (b * ((sin t * sin t) ^ S n * / (sin t * sin t))) - - K * exp (- (c * c)) ^ S n * (b * - / (sin t * sin t))) with
        (K * b * / (sin t * sin t) * ((sin t * sin t) ^ S n - exp (- (c * c)) ^ S n)) by ring.
      apply Rmult_le_pos; [|lra]. apply Rmult_le_pos; [apply Rmult_le_pos; lra|]. left. apply Rinv_0_lt_compat. nra.
  Qed.

  Lemma K_sq : K * K = 4 / PI.
  Proof. pose proof sqrtPI_pos. pose proof PI_RGT_0. rewrite <- (sqrt_sqrt PI) at 3 by lra. field. lra. Qed.

  Lemma E0_ge : 1 <= E 0.
  Proof.
    destruct (Rle_or_lt 1 (E 0)) as [L|L]; [exact L|exfalso].
    pose proof (E_nonneg 0) as E0. pose proof PI_RGT_0 as PP.
    assert (G : forall n, INR n <= (INR n + 1) * (E 0 * E 0)).
    { intros n. pose proof (gauss_low n) as G. pose proof (E_nonneg (sqrt (INR n))) as N. pose proof (pos_INR n) as N0.
      pose proof (W_low (2 * n + 1)) as Wl. pose proof (W_nonneg (2 * n + 1)) as W0. set (w := W (2 * n + 1)) in *. pose proof K_pos as KP.
      set (b := sqrt (INR n)) in *. assert (B0 : 0 <= b) by apply sqrt_pos. assert (B2 : b * b = INR n) by (apply sqrt_sqrt, pos_INR).
      assert (H : (K * (b * w)) * (K * (b * w)) <= E 0 * E 0).
      { assert (0 <= K * (b * w)) by (apply Rmult_le_pos; [lra|apply Rmult_le_pos; assumption]). apply Rmult_le_compat; lra. }
      replace (K * (b * w) * (K * (b * w))) with (K * K * ((b * b) * (w * w))) in H by ring. rewrite K_sq, B2 in H.
      rewrite plus_INR, mult_INR in Wl. simpl (INR 2) in Wl. simpl (INR 1) in Wl.
      assert (Wl' : PI <= 4 * (INR n + 1) * (w * w)) by lra.
      apply Rmult_le_reg_l with PI; [exact PP|].
      apply Rle_trans with (INR n * (4 * (INR n + 1) * (w * w))); [rewrite Rmult_comm; apply Rmult_le_compat_l; assumption|].
      replace (INR n * (4 * (INR n + 1) * (w * w))) with (PI * ((INR n + 1) * (4 / PI * (INR n * (w * w))))) by (field; lra).
      apply Rmult_le_compat_l; [lra|]. apply Rmult_le_compat_l; lra. }
    set (q := E 0 * E 0) in *. assert (q < 1) by (unfold q; nra).
    destruct (INR_above (q / (1 - q) + 1)) as [n Hn]. specialize (G n).
    assert (q < INR n * (1 - q)).
    { apply Rmult_lt_reg_r with (/ (1 - q)); [apply Rinv_0_lt_compat; lra|]. rewrite Rmult_assoc, Rinv_r by lra. fold (q / (1 - q)). lra. }
    lra.
  Qed.

  Lemma cot_onto : forall v, 0 <= v -> exists th, 0 < th <= PI / 2 /\ cos th / sin th = v.
  Proof.
    intros v Hv. pose proof (atan_bound v) as [A1 A2]. pose proof PI_RGT_0 as PP.
    assert (A0 : 0 <= atan v). { destruct Hv as [Hv|<-]; [left; rewrite <- atan_0; apply atan_increasing, Hv|rewrite atan_0; lra]. }
    exists (PI / 2 - atan v). split; [lra|]. rewrite cos_shift, sin_shift. exact (atan_right_inv v).
  Qed.

  Lemma E0_le : E 0 <= 1.
  Proof.
    destruct (Rle_or_lt (E 0) 1) as [L|L]; [exact L|exfalso].
    destruct HE as [_ Lim]. destruct (Lim ((E 0 - 1) / 2) ltac:(lra)) as [B HB].
    set (B1 := Rmax B 1). assert (B1p : 1 <= B1) by apply Rmax_r. specialize (HB B1 (Rmax_l _ _)). apply Rabs_le_inv in HB.
    set (d := (E 0 + 1) / 2). assert (D1 : 1 < d) by (unfold d; lra). pose proof PI_RGT_0 as PP. pose proof K_pos as KP.
    assert (G : forall n, (1 <= n)%nat -> INR n * (d * d) <= INR n + 1).
    { intros n Hn. pose proof (le_INR 1 n Hn) as N1. simpl (INR 1) in N1.
      set (b := sqrt (INR (S n))). assert (B0 : 0 < b) by (apply sqrt_lt_R0; rewrite S_INR; lra). assert (B2 : b * b = INR n + 1) by (unfold b; rewrite sqrt_sqrt, S_INR by apply pos_INR; reflexivity).
      destruct (cot_onto (B1 / b)) as (th & Hth & Ct); [apply Rmult_le_pos; [lra|left; apply Rinv_0_lt_compat, B0]|].
      pose proof (gauss_up n th Hth) as G. rewrite Ct in G. fold b in G. replace (b * (B1 / b)) with B1 in G by (field; lra).
      destruct n as [|m]; [lia|]. pose proof (W_up (2 * m + 1)) as Wu. replace (S (2 * m + 1)) with (2 * S m)%nat in Wu by lia.
      set (w := W (2 * S m)) in *. pose proof (W_nonneg (2 * S m)) as W0. fold w in W0.
      assert (Q : d <= K * (b * w)) by (unfold d; lra).
      assert (H : d * d <= (K * (b * w)) * (K * (b * w))) by (apply Rmult_le_compat; lra).
      replace (K * (b * w) * (K * (b * w))) with (K * K * ((b * b) * (w * w))) in H by ring. rewrite K_sq, B2 in H.
      rewrite plus_INR, mult_INR in Wu. simpl (INR 2) in Wu. simpl (INR 1) in Wu. rewrite S_INR in *.
      set (N := INR m + 1) in *. assert (Wu' : 4 * N * (w * w) <= PI) by (unfold N; lra).
      apply Rle_trans with (N * (4 / PI * ((N + 1) * (w * w)))); [apply Rmult_le_compat_l; lra|].
      replace (N * (4 / PI * ((N + 1) * (w * w)))) with ((N + 1) * ((4 * N * (w * w)) / PI)) by (field; lra).
      rewrite <- (Rmult_1_r (N + 1)) at 2. apply Rmult_le_compat_l; [lra|].
      apply Rmult_le_reg_r with PI; [exact PP|]. unfold Rdiv. rewrite Rmult_assoc, Rinv_l by lra. lra. }
    assert (DD : 1 < d * d) by nra.
    destruct (INR_above (/ (d * d - 1) + 1)) as [n Hn].
    assert (I0 : 0 < / (d * d - 1)) by (apply Rinv_0_lt_compat; lra).
    assert (N1 : (1 <= n)%nat) by (destruct n; [simpl in Hn; lra|lia]). specialize (G n N1).
    assert (1 < INR n * (d * d - 1)).
    { apply Rmult_lt_reg_r with (/ (d * d - 1)); [exact I0|]. rewrite Rmult_assoc, Rinv_r by lra. lra. }
    lra.
  Qed.

  Theorem erfc_0 : E 0 = 1.
  Proof. apply Rle_antisym; [apply E0_le|apply E0_ge]. Qed.
End G.
