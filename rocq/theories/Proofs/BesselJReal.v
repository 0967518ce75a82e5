(** * J_n on (0, 1] as a function of the order *)

From Coq Require Import ZArith Reals Bool Lra Lia List AltSeries.
From Flocq Require Import Core.
From Verif.Spec Require Import BesselSpec.
From Verif.Proofs Require Import ExpBounds BesselSeries SecondSeries BesselReal.
Open Scope R_scope.

(** ** the series alternates with decreasing terms *)
Lemma bterm_abs : forall n x k, bterm (-1) n x k = (-1) ^ k * bterm 1 n x k.
Proof. intros n x k. unfold bterm, Rdiv. rewrite pow1. ring. Qed.

Lemma bterm_S : forall n x k, bterm 1 n x (S k) = bterm 1 n x k * (x * x / 4 / (INR (S k) * INR (S (k + n)))).
Proof.
  intros n x k. unfold bterm. replace (2 * S k + n)%nat with (S (S (2 * k + n)))%nat by lia. rewrite !Nat.add_succ_l, !INR_fact_S, !pow1. cbn [pow].
  rewrite !S_INR, plus_INR. pose proof (INR_fact_pos k). pose proof (INR_fact_pos (k + n)). pose proof (pos_INR k). pose proof (pos_INR n). field. lra.
Qed.

Lemma bterm_dec : forall n x k, 0 < x <= 1 -> bterm 1 n x (S k) <= / 4 * bterm 1 n x k.
Proof.
  intros n x k Hx. rewrite bterm_S. pose proof (bterm_pos n x k ltac:(lra)) as B. rewrite (Rmult_comm (/ 4)). apply Rmult_le_compat_l; [lra|].
  pose proof (pos_INR k). pose proof (pos_INR (k + n)). rewrite !S_INR.
  assert (D : 1 <= (INR k + 1) * (INR (k + n) + 1)) by (replace 1 with (1 * 1) at 1 by ring; apply Rmult_le_compat; lra).
  unfold Rdiv. assert (I : / ((INR k + 1) * (INR (k + n) + 1)) <= 1) by (rewrite <- Rinv_1; apply Rinv_le_contravar; lra).
  assert (0 < / ((INR k + 1) * (INR (k + n) + 1))) by (apply Rinv_0_lt_compat; lra).
  assert (x * x <= 1) by nra. assert (0 <= x * x) by nra. replace (/ 4) with (1 * / 4 * 1) at 2 by ring. apply Rmult_le_compat; lra.
Qed.

Lemma bterm_geo : forall n x k, 0 < x <= 1 -> bterm 1 n x k <= (/ 4) ^ k * bterm 1 n x 0.
Proof.
  intros n x k Hx. induction k as [|k IH]; [simpl; lra|]. pose proof (bterm_dec n x k Hx). cbn [pow]. lra.
Qed.

Lemma bterm_cv0 : forall n x, 0 < x <= 1 -> Un_cv (bterm 1 n x) 0.
Proof.
  intros n x Hx e He. destruct (pow_lt_1_zero (/ 4) ltac:(rewrite Rabs_pos_eq; lra) (e / (bterm 1 n x 0 + 1))) as [N HN].
  { apply Rdiv_lt_0_compat; [exact He|]. pose proof (bterm_pos n x 0 ltac:(lra)). lra. }
  exists N. intros k Hk. specialize (HN k Hk). unfold R_dist. rewrite Rminus_0_r. pose proof (bterm_pos n x 0 ltac:(lra)) as B0. pose proof (bterm_pos n x k ltac:(lra)) as Bk.
  rewrite Rabs_pos_eq by lra. eapply Rle_lt_trans; [apply bterm_geo, Hx|]. rewrite Rabs_pos_eq in HN by (apply pow_le; lra).
  apply Rle_lt_trans with ((/ 4) ^ k * (bterm 1 n x 0 + 1)); [apply Rmult_le_compat_l; [apply pow_le|]; lra|].
  apply Rmult_lt_compat_r with (r := bterm 1 n x 0 + 1) in HN; [|lra]. unfold Rdiv in HN. rewrite Rmult_assoc, Rinv_l, Rmult_1_r in HN by lra. exact HN.
Qed.

Lemma BJ_alt : forall n x N, 0 < x <= 1 -> sum_f_R0 (bterm (-1) n x) (S (2 * N)) <= BJ x n <= sum_f_R0 (bterm (-1) n x) (2 * N).
Proof.
  intros n x N Hx. assert (E : forall M, sum_f_R0 (bterm (-1) n x) M = sum_f_R0 (tg_alt (bterm 1 n x)) M) by (intros M; apply sum_eq; intros i _; apply bterm_abs).
  rewrite !E. apply alternated_series_ineq.
  - intros k. pose proof (bterm_dec n x k Hx). pose proof (bterm_pos n x k ltac:(lra)). lra.
  - apply bterm_cv0, Hx.
  - intros e He. destruct (BJ_is x n e He) as [M HM]. exists M. intros k Hk. rewrite <- E. exact (HM k Hk).
Qed.

(** truncation after the term k = N *)
Lemma BJ_trunc : forall n x N, 0 < x <= 1 -> Rabs (BJ x n - sum_f_R0 (bterm (-1) n x) N) <= bterm 1 n x (S N).
Proof.
  intros n x N Hx. assert (Q : forall M, (-1) ^ (2 * M) = 1) by (intros; apply pow_1_even). destruct (Nat.Even_or_Odd N) as [[M E]|[M E]].
  - pose proof (BJ_alt n x M Hx) as A. rewrite <- E in A. cbn [sum_f_R0] in A. rewrite (bterm_abs n x (S N)) in A. cbn [pow] in A. rewrite E, Q, <- E in A. apply Rabs_le. pose proof (bterm_pos n x (S N) ltac:(lra)). lra.
  - pose proof (BJ_alt n x M Hx) as [A _]. pose proof (BJ_alt n x (S M) Hx) as [_ A2]. replace (S (2 * M)) with N in A by lia. replace (2 * S M)%nat with (S N) in A2 by lia.
    cbn [sum_f_R0] in A2. rewrite (bterm_abs n x (S N)) in A2. assert (Q1 : (-1) ^ S N = 1) by (replace (S N) with (2 * S M)%nat by lia; apply Q). rewrite Q1 in A2. apply Rabs_le. pose proof (bterm_pos n x (S N) ltac:(lra)). lra.
Qed.

Lemma BJ_rng : forall x n, 0 < x <= 1 -> 3 / 4 * ((x / 2) ^ n / INR (fact n)) <= BJ x n <= (x / 2) ^ n / INR (fact n).
Proof.
  intros x n Hx. pose proof (BJ_alt n x 0 Hx) as A. change (2 * 0)%nat with 0%nat in A. cbn [sum_f_R0] in A. rewrite (bterm_abs n x 1), bterm_0 in A.
  pose proof (bterm_dec n x 0 Hx) as D. rewrite (bterm_0 1) in D. simpl ((-1) ^ 1) in A. lra.
Qed.

Lemma lead_pos : forall x n, 0 < x -> 0 < (x / 2) ^ n / INR (fact n).
Proof. intros x n Hx. apply Rdiv_lt_0_compat; [apply pow_lt; lra|apply INR_fact_pos]. Qed.

Lemma lead_S : forall x n, (x / 2) ^ S n / INR (fact (S n)) = x / 2 / (INR n + 1) * ((x / 2) ^ n / INR (fact n)).
Proof. intros x n. rewrite INR_fact_S. cbn [pow]. pose proof (INR_fact_pos n). pose proof (pos_INR n). field. lra. Qed.

Lemma BJ_pos : forall x n, 0 < x <= 1 -> 0 < BJ x n.
Proof. intros x n Hx. pose proof (BJ_rng x n Hx). pose proof (lead_pos x n ltac:(lra)). lra. Qed.

(** next order: a third less at most *)
Lemma BJ_next : forall x n, 0 < x <= 1 -> (INR n + 1) * BJ x (S n) <= 2 / 3 * x * BJ x n.
Proof.
  intros x n Hx. pose proof (BJ_rng x n Hx) as [A _]. pose proof (BJ_rng x (S n) Hx) as [_ B]. rewrite lead_S in B. pose proof (lead_pos x n ltac:(lra)) as L. pose proof (pos_INR n).
  set (t := (x / 2) ^ n / INR (fact n)) in *. clearbody t.
  apply Rle_trans with ((INR n + 1) * (x / 2 / (INR n + 1) * t)); [apply Rmult_le_compat_l; lra|].
  replace ((INR n + 1) * (x / 2 / (INR n + 1) * t)) with (2 / 3 * x * (3 / 4 * t)) by (field; lra). apply Rmult_le_compat_l; lra.
Qed.

Lemma BJ_dec : forall x n, 0 < x <= 1 -> BJ x (S n) <= 2 / 3 * BJ x n.
Proof.
  intros x n Hx. pose proof (BJ_next x n Hx) as N. pose proof (BJ_pos x n Hx). pose proof (BJ_pos x (S n) Hx). pose proof (pos_INR n).
  assert (1 * BJ x (S n) <= (INR n + 1) * BJ x (S n)) by (apply Rmult_le_compat_r; lra). assert (2 / 3 * x * BJ x n <= 2 / 3 * 1 * BJ x n) by (apply Rmult_le_compat_r; lra). lra.
Qed.

Lemma BJ_four : forall x n, 0 < x <= 1 -> 4 * BJ x (S (S n)) <= BJ x n.
Proof.
  intros x n Hx. pose proof (BJ_dec x n Hx) as D. pose proof (BJ_next x (S n) Hx) as N. pose proof (BJ_pos x n Hx). pose proof (BJ_pos x (S n) Hx). pose proof (BJ_pos x (S (S n)) Hx). pose proof (pos_INR n).
  rewrite S_INR in N. assert (2 * BJ x (S (S n)) <= (INR n + 1 + 1) * BJ x (S (S n))) by (apply Rmult_le_compat_r; lra). assert (2 / 3 * x * BJ x (S n) <= 2 / 3 * 1 * BJ x (S n)) by (apply Rmult_le_compat_r; lra).
  (* B(n+2) <= 1/3 B(n+1) <= 2/9 B(n) *) lra.
Qed.

Lemma BJ_mono : forall x n k, 0 < x <= 1 -> BJ x (n + k) <= BJ x n.
Proof.
  intros x n k Hx. induction k as [|k IH]; [rewrite Nat.add_0_r; lra|]. replace (n + S k)%nat with (S (n + k)) by lia. pose proof (BJ_dec x (n + k) Hx). pose proof (BJ_pos x (n + k) Hx). lra.
Qed.

(** five-fold decrease from order 2 on: 2/3/(n+1) *)
Lemma BJ_four_n : forall x n k, 0 < x <= 1 -> (2 <= n)%nat -> BJ x (n + k) <= (/ 4) ^ k * BJ x n.
Proof.
  intros x n k Hx Hn. induction k as [|k IH]; [rewrite Nat.add_0_r; simpl; lra|]. replace (n + S k)%nat with (S (n + k)) by lia. pose proof (BJ_next x (n + k) Hx) as N.
  pose proof (BJ_pos x (n + k) Hx). pose proof (BJ_pos x (S (n + k)) Hx). assert (2 <= INR (n + k)) by (replace 2 with (INR 2) by (simpl; lra); apply le_INR; lia).
  assert (3 * BJ x (S (n + k)) <= (INR (n + k) + 1) * BJ x (S (n + k))) by (apply Rmult_le_compat_r; lra). assert (2 / 3 * x * BJ x (n + k) <= 2 / 3 * 1 * BJ x (n + k)) by (apply Rmult_le_compat_r; lra).
  cbn [pow]. lra.
Qed.

Lemma BJ_half : forall x n, 0 < x <= 1 -> BJ x n <= bpow radix2 (- Z.of_nat n).
Proof.
  intros x n Hx. eapply Rle_trans; [apply BJ_rng, Hx|]. assert (E : bpow radix2 (- Z.of_nat n) = (/ 2) ^ n).
  { induction n as [|n IH]; [reflexivity|]. cbn [pow]. rewrite <- IH. replace (- Z.of_nat (S n))%Z with (-1 + - Z.of_nat n)%Z by lia. rewrite bpow_plus. reflexivity. }
  rewrite E. assert (F1 : 1 <= INR (fact n)) by (apply (le_INR 1), lt_O_fact). assert (P : (x / 2) ^ n <= (/ 2) ^ n) by (apply pow_incr; lra). assert (P0 : 0 < (x / 2) ^ n) by (apply pow_lt; lra).
  apply Rle_trans with ((x / 2) ^ n * 1); [|lra]. unfold Rdiv. apply Rmult_le_compat_l; [lra|]. rewrite <- Rinv_1. apply Rinv_le_contravar; lra.
Qed.

Lemma BJ_order : forall x n, 0 < x <= 1 -> bpow radix2 (-900) <= BJ x n -> (n <= 900)%nat.
Proof.
  intros x n Hx H. destruct (le_lt_dec n 900) as [L|L]; [exact L|exfalso]. pose proof (BJ_half x n Hx) as B. assert (bpow radix2 (- Z.of_nat n) < bpow radix2 (-900)) by (apply bpow_lt; lia). lra.
Qed.

(** ** the normalization J_0 + 2 J_2 + 2 J_4 + ... = 1 *)
Fixpoint zf (n : nat) : Z := match n with O => 1 | S k => Z.of_nat n * zf k end.
Lemma zf_fact : forall n, INR (fact n) = IZR (zf n).
Proof. induction n as [|n IH]; [reflexivity|]. rewrite fact_simpl, mult_INR, IH, INR_IZR_INZ, <- mult_IZR. reflexivity. Qed.

Lemma bterm_z : forall s n x k, bterm s n x k = s ^ k * (x / 2) ^ (2 * k + n) * / IZR (zf k * zf (k + n)).
Proof. intros s n x k. unfold bterm, Rdiv. rewrite !zf_fact, mult_IZR. reflexivity. Qed.

Definition wt (k : nat) : R := match k with O => 1 | _ => 2 end.
Definition NS (x : R) (K : nat) : R := sum_f_R0 (fun k => wt k * BJ x (2 * k)) K.
Definition PS (x : R) (k : nat) : R := sum_f_R0 (bterm (-1) (2 * k) x) (8 - k).

Lemma poly_one : forall x, sum_f_R0 (fun k => wt k * PS x k) 8 = 1.
Proof.
  intros x. unfold PS. cbn [sum_f_R0 Nat.sub Nat.mul Nat.add wt]. rewrite !bterm_z. set (h := x / 2). clearbody h.
  repeat match goal with |- context [IZR (zf ?a * zf ?b)] => let v := eval vm_compute in (zf a * zf b)%Z in change (zf a * zf b)%Z with v end.
  cbn [Nat.mul Nat.add pow]. field.
Qed.

Lemma poly_err : forall x, 0 < x <= 1 -> sum_f_R0 (fun k => wt k * bterm 1 (2 * k) x (S (8 - k))) 8 <= 2 / 10 ^ 16.
Proof.
  intros x Hx. cbn [sum_f_R0 Nat.sub Nat.mul Nat.add wt]. rewrite !bterm_z, !pow1. set (h := x / 2).
  assert (H18 : 0 <= h ^ 18 <= / 2 ^ 18). { unfold h. split; [apply pow_le; lra|]. rewrite <- pow_inv. apply pow_incr. lra. } clearbody h.
  repeat match goal with |- context [IZR (zf ?a * zf ?b)] => let v := eval vm_compute in (zf a * zf b)%Z in change (zf a * zf b)%Z with v end.
  cbn [Nat.mul Nat.add]. set (y := h ^ 18) in *. clearbody y. lra.
Qed.

Lemma NS_8 : forall x, 0 < x <= 1 -> Rabs (NS x 8 - 1) <= 2 / 10 ^ 16.
Proof.
  intros x Hx. rewrite <- (poly_one x). unfold NS. rewrite <- minus_sum. eapply Rle_trans; [apply Rsum_abs|]. eapply Rle_trans; [|apply (poly_err x Hx)].
  apply sum_Rle. intros k _. rewrite <- Rmult_minus_distr_l, Rabs_mult. rewrite (Rabs_pos_eq (wt k)) by (destruct k; simpl; lra). apply Rmult_le_compat_l; [destruct k; simpl; lra|].
  unfold PS. apply BJ_trunc, Hx.
Qed.

Lemma NS_tail : forall x d, 0 < x <= 1 -> NS x 8 <= NS x (8 + d) <= NS x 8 + 4 * BJ x 18 - 4 * BJ x (18 + 2 * d).
Proof.
  intros x d Hx. induction d as [|d IH]; [rewrite Nat.add_0_r; rewrite Nat.mul_0_r, Nat.add_0_r; lra|].
  replace (8 + S d)%nat with (S (8 + d)) by lia. change (NS x (S (8 + d))) with (NS x (8 + d) + 2 * BJ x (2 * S (8 + d))).
  replace (2 * S (8 + d))%nat with (18 + 2 * d)%nat by lia. replace (18 + 2 * S d)%nat with (S (S (18 + 2 * d))) by lia.
  pose proof (BJ_four x (18 + 2 * d) Hx). pose proof (BJ_pos x (18 + 2 * d) Hx). lra.
Qed.

Lemma BJ_18 : forall x, 0 < x <= 1 -> BJ x 18 <= 1 / 10 ^ 20.
Proof.
  intros x Hx. eapply Rle_trans; [apply BJ_rng, Hx|]. rewrite zf_fact. assert (H18 : 0 <= (x / 2) ^ 18 <= / 2 ^ 18). { split; [apply pow_le; lra|]. rewrite <- pow_inv. apply pow_incr. lra. }
  let v := eval vm_compute in (zf 18) in change (zf 18) with v. set (y := (x / 2) ^ 18) in *. clearbody y. lra.
Qed.

Lemma NS_one : forall x K, 0 < x <= 1 -> (8 <= K)%nat -> Rabs (NS x K - 1) <= 3 / 10 ^ 16.
Proof.
  intros x K Hx HK. pose proof (NS_tail x (K - 8) Hx) as T. replace (8 + (K - 8))%nat with K in T by lia. pose proof (NS_8 x Hx) as N. pose proof (BJ_18 x Hx) as B. pose proof (BJ_pos x (18 + 2 * (K - 8)) Hx).
  apply Rabs_le_inv in N. apply Rabs_le. lra.
Qed.
