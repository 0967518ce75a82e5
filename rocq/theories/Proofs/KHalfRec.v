(** * The recurrence of the closed form of K at half-integer orders *)

From Coq Require Import Reals Lra Lia Arith.
From Verif.Spec Require Import KHalfSpec.
Open Scope R_scope.

Definition hb (n k : nat) : R := if (k <=? n)%nat then half_coef n k else 0.
Definition hs (n : nat) (y : R) : R := sum_f_R0 (fun k => half_coef n k * y ^ k) n.

Lemma fact_S : forall n, INR (fact (S n)) = (INR n + 1) * INR (fact n).
Proof. intros n. change (fact (S n)) with (S n * fact n)%nat. rewrite mult_INR, S_INR. reflexivity. Qed.
Lemma fact_pos : forall n, 0 < INR (fact n).
Proof. intros n. apply lt_0_INR, lt_O_fact. Qed.

Lemma hb_0 : forall n, hb n 0 = 1.
Proof.
  intros n. unfold hb, half_coef. cbn [Nat.leb]. rewrite Nat.add_0_r, Nat.sub_0_r. simpl. pose proof (fact_pos n). field. lra.
Qed.

Lemma hb_S : forall n j, (j <= S n)%nat -> hb (S (S n)) (S j) = hb n (S j) + (2 * INR n + 3) * hb (S n) j.
Proof.
  intros n j Hj. unfold hb.
  rewrite (proj2 (Nat.leb_le (S j) (S (S n)))) by lia. rewrite (proj2 (Nat.leb_le j (S n))) by lia.
  pose proof (fact_pos j) as Pj. pose proof (pos_INR j) as Ij. pose proof (pow_lt 2 j ltac:(lra)) as P2. pose proof (pos_INR n) as In.
  destruct (le_lt_dec (S j) n) as [H|H].
  - rewrite (proj2 (Nat.leb_le (S j) n)) by lia. destruct (Nat.le_exists_sub (S j) n H) as (m & E & _). subst n.
    unfold half_coef.
    replace (S (S (m + S j)) + S j)%nat with (S (S (m + S j + S j))) by lia.
    replace (S (m + S j) + j)%nat with (m + S j + S j)%nat by lia.
    replace (S (S (m + S j)) - S j)%nat with (S (S m)) by lia. replace (m + S j - S j)%nat with m by lia.
    replace (S (m + S j) - j)%nat with (S (S m)) by lia.
    rewrite !fact_S. rewrite !S_INR, !plus_INR, !S_INR. cbn [pow].
    pose proof (fact_pos m). pose proof (fact_pos (m + S j + S j)). pose proof (pos_INR m).
    set (M := INR m) in *. set (J := INR j) in *. set (Fm := INR (fact m)) in *. set (Fj := INR (fact j)) in *. set (G := INR (fact (m + S j + S j))) in *.
    field. repeat split; lra.
  - rewrite (proj2 (Nat.leb_gt (S j) n)) by lia. assert (C : (j = n \/ j = S n)%nat) by lia. unfold half_coef. destruct C as [-> | ->].
    + replace (S (S n) + S n)%nat with (S (S (S n + n))) by lia. replace (S (S n) - S n)%nat with 1%nat by lia.
      replace (S n - n)%nat with 1%nat by lia. rewrite !(fact_S (S (S n + n))), !(fact_S (S n + n)), (fact_S n).
      rewrite !S_INR, !plus_INR, !S_INR. change (fact 1) with 1%nat. cbn [pow INR].
      set (G := INR (fact (S n + n))). set (J := INR n) in *. set (Fj := INR (fact n)) in *. field. repeat split; lra.
    + replace (S (S n) + S (S n))%nat with (S (S (S n + S n))) by lia. rewrite !Nat.sub_diag.
      rewrite (fact_S (S (S n + S n))), (fact_S (S n + S n)), (fact_S (S n)).
      rewrite !S_INR, !plus_INR, !S_INR. change (fact 0) with 1%nat. cbn [pow INR].
      rewrite S_INR in Ij.
      set (G := INR (fact (S n + S n))). set (J := INR n) in *. set (Fj := INR (fact (S n))) in *. cbn [pow] in P2. field. repeat split; lra.
Qed.

Lemma hs_b : forall n y N, (n <= N)%nat -> sum_f_R0 (fun k => hb n k * y ^ k) N = hs n y.
Proof.
  intros n y N H. induction H as [|N H IH].
  - unfold hs. apply sum_eq. intros i Hi. unfold hb. rewrite (proj2 (Nat.leb_le i n)) by lia. reflexivity.
  - rewrite tech5, IH. unfold hb. rewrite (proj2 (Nat.leb_gt (S N) n)) by lia. ring.
Qed.

Lemma hs_step : forall n y, hs (S (S n)) y = hs n y + (2 * INR n + 3) * y * hs (S n) y.
Proof.
  intros n y. rewrite <- (hs_b (S (S n)) y (S (S n))), <- (hs_b n y (S (S n))), <- (hs_b (S n) y (S n)) by lia.
  rewrite !(decomp_sum _ (S (S n))) by lia. cbn [pred]. rewrite !hb_0.
  rewrite scal_sum, Rplus_assoc, <- plus_sum. f_equal. apply sum_eq. intros j Hj.
  rewrite hb_S by lia. cbn [pow]. ring.
Qed.

Lemma hs_0 : forall y, hs 0 y = 1.
Proof. intros y. rewrite <- (hs_b 0 y 0) by lia. cbn [sum_f_R0]. rewrite hb_0. simpl. ring. Qed.
Lemma hs_1 : forall y, hs 1 y = 1 + y.
Proof. intros y. unfold hs, half_coef. simpl. field. Qed.

Lemma hs_ge1 : forall n y, 0 < y -> 1 <= hs n y /\ 1 <= hs (S n) y.
Proof.
  intros n y Hy. induction n as [|n [IH1 IH2]]; [rewrite hs_0, hs_1; lra|]. split; [exact IH2|]. rewrite hs_step.
  pose proof (pos_INR n). assert (0 <= (2 * INR n + 3) * y * hs (S n) y) by (apply Rmult_le_pos; [apply Rmult_le_pos; lra|lra]). lra.
Qed.

(** the previous one is not much larger *)
Lemma hs_prev : forall n y, / 700 <= y -> hs n y <= 700 * hs (S n) y.
Proof.
  intros n y Hy. destruct n as [|n]; [rewrite hs_0, hs_1; lra|]. rewrite hs_step.
  destruct (hs_ge1 n y ltac:(lra)) as [A B]. pose proof (pos_INR n).
  assert (3 * / 700 * hs (S n) y <= (2 * INR n + 3) * y * hs (S n) y) by (apply Rmult_le_compat_r; [lra|apply Rmult_le_compat; lra]). lra.
Qed.
