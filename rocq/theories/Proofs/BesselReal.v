(** * The ascending series of J_n and I_n as functions of the order *)

From Coq Require Import ZArith Reals Bool Lra Lia List.
From Flocq Require Import Core.
From Verif.Spec Require Import BesselSpec.
From Verif.Proofs Require Import ExpBounds BesselSeries SecondSeries.
Open Scope R_scope.

Local Notation exp := Rtrigo_def.exp.

Lemma bseries_sig : forall s n x, Rabs s = 1 -> {v : R | infinite_sum (bterm s n x) v}.
Proof.
  intros s n x Hs. destruct (R_complete (sum_f_R0 (bterm s n x))) as [v Hv].
  - destruct (series_exists s n x Hs) as [v Hv]. apply CV_Cauchy. exists v. exact Hv.
  - exists v. exact Hv.
Qed.

Definition BI (x : R) (n : nat) : R := proj1_sig (bseries_sig 1 n x Rabs_R1).
Lemma abs_m1 : Rabs (-1) = 1. Proof. replace (-1) with (- (1)) by ring. rewrite Rabs_Ropp. apply Rabs_R1. Qed.
Definition BJ (x : R) (n : nat) : R := proj1_sig (bseries_sig (-1) n x abs_m1).
Lemma BI_is : forall x n, is_I n x (BI x n). Proof. intros. unfold BI. destruct (bseries_sig 1 n x Rabs_R1) as [v H]. exact H. Qed.
Lemma BJ_is : forall x n, is_J n x (BJ x n). Proof. intros. unfold BJ. destruct (bseries_sig (-1) n x abs_m1) as [v H]. exact H. Qed.

Lemma b_rec_sum : forall s n x a b c, 0 < x -> infinite_sum (bterm s n x) a -> infinite_sum (bterm s (S n) x) b -> infinite_sum (bterm s (S (S n)) x) c ->
  a = INR (S n) * (2 * / x) * b + s * c.
Proof.
  intros s n x a b c Hx Ha Hb Hc.
  pose proof (lim_rel _ _ _ a c b (INR (S n) / (x / 2)) 0 s Ha Hc Hb) as R.
  assert (Q : a - s * c = INR (S n) / (x / 2) * b - 0) by (apply R; intros N; rewrite b_sum by exact Hx; ring).
  replace (INR (S n) * (2 * / x)) with (INR (S n) / (x / 2)) by (field; lra). lra.
Qed.

Lemma BI_rec : forall x n, 0 < x -> BI x n = INR (S n) * (2 * / x) * BI x (S n) + 1 * BI x (S (S n)).
Proof. intros x n Hx. apply (b_rec_sum 1 n x _ _ _ Hx); apply BI_is. Qed.
Lemma BJ_rec : forall x n, 0 < x -> BJ x n = INR (S n) * (2 * / x) * BJ x (S n) + -1 * BJ x (S (S n)).
Proof. intros x n Hx. apply (b_rec_sum (-1) n x _ _ _ Hx); apply BJ_is. Qed.

Lemma bterm_pos : forall n x k, 0 < x -> 0 < bterm 1 n x k.
Proof.
  intros n x k Hx. unfold bterm. rewrite pow1. apply Rdiv_lt_0_compat; [|apply Rmult_lt_0_compat; apply INR_fact_pos].
  rewrite Rmult_1_l. apply pow_lt. lra.
Qed.

Lemma BI_ge : forall x n, 0 < x -> (x / 2) ^ n / INR (fact n) <= BI x n.
Proof.
  intros x n Hx. rewrite <- (bterm_0 1 n x). change (bterm 1 n x 0) with (sum_f_R0 (bterm 1 n x) 0).
  apply sum_incr; [exact (BI_is x n)|]. intros k. apply Rlt_le, bterm_pos, Hx.
Qed.
Lemma BI_pos : forall x n, 0 < x -> 0 < BI x n.
Proof. intros x n Hx. eapply Rlt_le_trans; [|apply BI_ge, Hx]. apply Rdiv_lt_0_compat; [apply pow_lt; lra|apply INR_fact_pos]. Qed.

(** term by term comparison of series *)
Lemma sum_cmp : forall f g a b c, infinite_sum f a -> infinite_sum g b -> (forall k, f k <= c * g k) -> a <= c * b.
Proof.
  intros f g a b c Ha Hb H. apply Rle_cv_lim with (Un := sum_f_R0 f) (Vn := fun N => c * sum_f_R0 g N).
  - intros N. rewrite scal_sum. apply sum_Rle. intros k _. rewrite Rmult_comm. apply H.
  - exact Ha.
  - apply CV_mult; [|exact Hb]. intros e He. exists 0%nat. intros n _. unfold R_dist. rewrite Rminus_diag_eq, Rabs_R0 by reflexivity. exact He.
Qed.

Lemma bterm_up : forall s n x k, bterm s (S n) x k = bterm s n x k * (x / 2 / (INR k + INR n + 1)).
Proof.
  intros s n x k. unfold bterm. replace (2 * k + S n)%nat with (S (2 * k + n))%nat by lia. replace (k + S n)%nat with (S (k + n))%nat by lia.
  rewrite INR_fact_S, plus_INR. cbn [pow]. pose proof (INR_fact_pos k). pose proof (INR_fact_pos (k + n)). pose proof (pos_INR k). pose proof (pos_INR n). field. lra.
Qed.

Lemma BI_ratio : forall x n, 0 < x -> INR (S n) * (2 * / x) * BI x (S n) <= BI x n.
Proof.
  intros x n Hx. rewrite (BI_rec x n Hx). pose proof (BI_pos x (S (S n)) Hx). lra.
Qed.

Lemma BI_two : forall x n, 0 < x -> BI x (S (S n)) <= BI x n.
Proof.
  intros x n Hx. rewrite (BI_rec x n Hx). pose proof (BI_pos x (S n) Hx). pose proof (pos_INR n) as N0.
  assert (0 <= INR (S n) * (2 * / x) * BI x (S n)). { apply Rmult_le_pos; [|lra]. apply Rmult_le_pos; [rewrite S_INR; lra|]. apply Rmult_le_pos; [lra|apply Rlt_le, Rinv_0_lt_compat; lra]. }
  lra.
Qed.

Lemma BI_four : forall x n, 0 < x < 15 -> (14 <= n)%nat -> 4 * BI x (S (S n)) <= BI x n.
Proof.
  intros x n Hx Hn. pose proof (BI_ratio x n ltac:(lra)) as R1. pose proof (BI_ratio x (S n) ltac:(lra)) as R2. pose proof (BI_pos x (S (S n)) ltac:(lra)) as P.
  assert (N0 : 14 <= INR n) by (apply (le_INR 14) in Hn; simpl (INR 14) in Hn; lra). rewrite !S_INR in *.
  assert (I0 : / 15 <= / x) by (apply Rinv_le_contravar; lra).
  assert (A : 2 * BI x (S (S n)) <= BI x (S n)). { eapply Rle_trans; [|exact R2]. apply Rmult_le_compat_r; [lra|]. replace 2 with ((14 + 1 + 1) * (2 * / 16)) by field. apply Rmult_le_compat; lra. }
  assert (B : 2 * BI x (S n) <= BI x n). { eapply Rle_trans; [|exact R1]. apply Rmult_le_compat_r; [pose proof (BI_pos x (S n) ltac:(lra)); lra|]. replace 2 with ((14 + 1) * (2 * / 15)) by field. apply Rmult_le_compat; lra. }
  lra.
Qed.

(** crude bounds for x < 15 *)
Lemma exp_57 : exp (225 / 4) <= bpow radix2 91.
Proof.
  assert (E1 : exp 1 <= 3) by apply exp_le_3.
  apply Rle_trans with (exp 57). { destruct (Req_dec (225 / 4) 57) as [->|N]; [lra|]. left. apply exp_increasing. lra. }
  replace (exp 57) with (exp 1 ^ 57). 2: { rewrite <- exp_pow. f_equal. simpl. lra. }
  apply Rle_trans with (3 ^ 57); [apply pow_incr; split; [apply Rlt_le, exp_pos|exact E1]|].
  change (bpow radix2 91) with (IZR (2 ^ 91)). rewrite pow_IZR. apply IZR_le, Z.leb_le. vm_compute. reflexivity.
Qed.

Lemma BI0_le : forall x, 0 < x < 15 -> BI x 0 <= bpow radix2 91.
Proof.
  intros x Hx. eapply Rle_trans; [|exact exp_57].
  assert (E : exp (x * x / 4) <= exp (225 / 4)). { destruct (Rle_lt_or_eq_dec (x * x / 4) (225 / 4)) as [L|L]; [nra|left; apply exp_increasing, L|rewrite L; lra]. }
  eapply Rle_trans; [|exact E].
  unfold Rtrigo_def.exp. destruct (exist_exp (x * x / 4)) as [e He]. unfold exp_in in He. cbn [proj1_sig].
  replace e with (1 * e) by ring. eapply sum_cmp; [exact (BI_is x 0)|exact He|]. intros k. cbv beta. rewrite Rmult_1_l. unfold bterm. rewrite pow1, Rmult_1_l, !Nat.add_0_r.
  assert (P : (x / 2) ^ (2 * k) = (x * x / 4) ^ k) by (rewrite pow_mult; f_equal; field). rewrite P.
  pose proof (INR_fact_pos k) as F0. assert (F1 : 1 <= INR (fact k)) by (apply (le_INR 1), lt_O_fact). assert (Q0 : 0 <= (x * x / 4) ^ k) by (apply pow_le; nra).
  unfold Rdiv. rewrite (Rmult_comm (/ INR (fact k))). apply Rmult_le_compat_l; [exact Q0|]. apply Rinv_le_contravar; [exact F0|]. replace (INR (fact k)) with (INR (fact k) * 1) at 1 by ring. apply Rmult_le_compat_l; lra.
Qed.

Lemma BI_le : forall x n, 0 < x < 15 -> BI x n <= bpow radix2 94.
Proof.
  intros x n Hx. pose proof (BI0_le x Hx) as H0. pose proof (BI_pos x 0 ltac:(lra)) as P0.
  assert (H1 : BI x 1 <= 8 * BI x 0).
  { pose proof (BI_ratio x 0 ltac:(lra)) as R. pose proof (BI_pos x 1 ltac:(lra)). simpl (INR 1) in R. assert (/ 15 <= / x) by (apply Rinv_le_contravar; lra).
    assert (2 / 15 * BI x 1 <= 1 * (2 * / x) * BI x 1) by (apply Rmult_le_compat_r; lra). lra. }
  assert (G : forall k, BI x (2 * k) <= BI x 0 /\ BI x (S (2 * k)) <= 8 * BI x 0).
  { induction k as [|k [I1 I2]]; [split; [simpl; lra|exact H1]|]. replace (2 * S k)%nat with (S (S (2 * k))) by lia.
    pose proof (BI_two x (2 * k) ltac:(lra)). pose proof (BI_two x (S (2 * k)) ltac:(lra)). lra. }
  assert (B : bpow radix2 94 = 8 * bpow radix2 91) by (change 8 with (bpow radix2 3); rewrite <- bpow_plus; reflexivity). rewrite B.
  destruct (G (Nat.div2 n)) as [G1 G2]. destruct (Nat.Even_or_Odd n) as [E|O].
  - rewrite (Nat.Even_double n E). unfold Nat.double. replace (Nat.div2 n + Nat.div2 n)%nat with (2 * Nat.div2 n)%nat by lia. pose proof (bpow_gt_0 radix2 91). lra.
  - rewrite (Nat.Odd_double n O). unfold Nat.double. replace (Nat.div2 n + Nat.div2 n)%nat with (2 * Nat.div2 n)%nat by lia. lra.
Qed.
