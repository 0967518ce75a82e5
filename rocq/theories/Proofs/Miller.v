(** * Miller's downward recurrence over the real numbers *)

From Coq Require Import ZArith Reals Lra Lia.
From Flocq Require Import Core.
Open Scope R_scope.

Section Rec.
  Context (s kt : R) (m : nat).

  (** the recurrence started with 0 at order m and 1 at order m - 1 *)
  Fixpoint milh (i : nat) : R * R :=
    match i with O => (0, 1) | S i => (snd (milh i), INR (m - 1 - i) * kt * snd (milh i) + s * fst (milh i)) end.
  Definition mil (j : nat) : R := fst (milh (m - j)).

  Lemma mil_top : mil m = 0.
  Proof. unfold mil. rewrite Nat.sub_diag. reflexivity. Qed.
  Lemma mil_one : (1 <= m)%nat -> mil (m - 1) = 1.
  Proof. intros H. unfold mil. replace (m - (m - 1))%nat with 1%nat by lia. reflexivity. Qed.
  Lemma mil_rec : forall j, (S j < m)%nat -> mil j = INR (S j) * kt * mil (S j) + s * mil (S (S j)).
  Proof.
    intros j H. unfold mil. replace (m - j)%nat with (S (S (m - S (S j)))) by lia. replace (m - S j)%nat with (S (m - S (S j))) by lia.
    cbn [milh fst snd]. replace (m - 1 - (m - S (S j)))%nat with (S j) by lia. reflexivity.
  Qed.

  Context (B : nat -> R) (Hs : Rabs s = 1) (B0 : forall j, 0 < B j)
    (BR : forall j, B j = INR (S j) * kt * B (S j) + s * B (S (S j)))
    (B1 : forall j, B (S (S j)) <= B j) (J0 : nat) (B4 : forall j, (J0 <= j)%nat -> 4 * B (S (S j)) <= B j)
    (HM : (J0 + 10 <= m)%nat) (HJ : (J0 <= 16)%nat).

  Definition mq (j : nat) : R := mil j / B j.
  Definition mQ : R := / B (m - 1).

  Lemma mQ_pos : 0 < mQ. Proof. apply Rinv_0_lt_compat, B0. Qed.
  Lemma mq_top : mq (m - 1) = mQ.
  Proof. unfold mq, mQ. rewrite mil_one by lia. unfold Rdiv. ring. Qed.
  Lemma mq_m : mq m = 0.
  Proof. unfold mq. rewrite mil_top. unfold Rdiv. ring. Qed.

  Lemma mD_step : forall j, (S j < m)%nat -> Rabs (mq j - mq (S j)) = B (S (S j)) / B j * Rabs (mq (S j) - mq (S (S j))).
  Proof.
    intros j H. pose proof (B0 j) as P0. pose proof (B0 (S j)) as P1. pose proof (B0 (S (S j))) as P2.
    replace (mq j - mq (S j)) with (- s * (B (S (S j)) / B j * (mq (S j) - mq (S (S j))))).
    - rewrite !Rabs_mult, Rabs_Ropp, Hs, Rmult_1_l. f_equal. apply Rabs_pos_eq, Rlt_le, Rdiv_lt_0_compat; assumption.
    - unfold mq. rewrite (mil_rec j H). apply Rmult_eq_reg_r with (B j); [|lra].
      replace (INR (S j) * kt) with ((B j - s * B (S (S j))) / B (S j)) by (rewrite (BR j); field; lra). field. lra.
  Qed.

  Lemma mD4 : forall i, (J0 + i <= m - 1)%nat -> Rabs (mq (m - 1 - i) - mq (S (m - 1 - i))) <= mQ * (/ 4) ^ i.
  Proof.
    induction i as [|i IH]; intros Hi.
    - replace (m - 1 - 0)%nat with (m - 1)%nat by lia. replace (S (m - 1)) with m by lia. rewrite mq_top, mq_m, Rminus_0_r, Rabs_pos_eq; [simpl; lra|apply Rlt_le, mQ_pos].
    - specialize (IH ltac:(lia)). set (j := (m - 1 - S i)%nat). replace (m - 1 - i)%nat with (S j) in IH by lia.
      rewrite mD_step by lia. pose proof (B4 j ltac:(lia)) as W. pose proof (B0 j) as P0. pose proof (B0 (S (S j))) as P2.
      assert (W4 : B (S (S j)) / B j <= / 4). { apply Rmult_le_reg_r with (B j); [exact P0|]. unfold Rdiv. rewrite Rmult_assoc, Rinv_l by lra. lra. }
      assert (0 <= B (S (S j)) / B j) by (apply Rlt_le, Rdiv_lt_0_compat; assumption).
      cbn [pow]. replace (mQ * (/ 4 * (/ 4) ^ i)) with (/ 4 * (mQ * (/ 4) ^ i)) by ring. apply Rmult_le_compat; [assumption|apply Rabs_pos|exact W4|exact IH].
  Qed.

  (** also below J0 *)
  Lemma mD1 : forall j, (j <= J0)%nat -> Rabs (mq j - mq (S j)) <= Rabs (mq J0 - mq (S J0)).
  Proof.
    intros j Hj. remember (J0 - j)%nat as d eqn:E. revert j Hj E. induction d as [|d IH]; intros j Hj E; [replace j with J0 by lia; lra|].
    eapply Rle_trans; [|apply (IH (S j)); lia]. rewrite mD_step by lia. pose proof (B0 j) as P0. pose proof (B1 j) as W.
    assert (W1 : B (S (S j)) / B j <= 1). { apply Rmult_le_reg_r with (B j); [exact P0|]. unfold Rdiv. rewrite Rmult_assoc, Rinv_l by lra. lra. }
    replace (Rabs (mq (S j) - mq (S (S j)))) with (1 * Rabs (mq (S j) - mq (S (S j)))) at 2 by ring. apply Rmult_le_compat_r; [apply Rabs_pos|exact W1].
  Qed.

  Lemma mD : forall j, (j < m)%nat -> Rabs (mq j - mq (S j)) <= mQ * (/ 4) ^ (m - 1 - Nat.max j J0).
  Proof.
    intros j Hj. destruct (le_lt_dec J0 j) as [L|L].
    - rewrite Nat.max_l by exact L. replace j with (m - 1 - (m - 1 - j))%nat at 1 2 by lia. apply mD4. lia.
    - rewrite Nat.max_r by lia. eapply Rle_trans; [apply mD1; lia|]. replace J0 with (m - 1 - (m - 1 - J0))%nat at 1 2 by lia. apply mD4. lia.
  Qed.

  (** every quotient is close to the first one ... *)
  Lemma mq_near4 : forall i, (J0 + i <= m - 1)%nat -> Rabs (mq (m - 1 - i) - mQ) <= mQ * (1 / 3 * (1 - (/ 4) ^ i)).
  Proof.
    induction i as [|i IH]; intros Hi.
    - replace (m - 1 - 0)%nat with (m - 1)%nat by lia. rewrite mq_top, Rminus_diag_eq, Rabs_R0 by reflexivity. simpl. lra.
    - specialize (IH ltac:(lia)). pose proof (mD4 (S i) Hi) as D. replace (S (m - 1 - S i)) with (m - 1 - i)%nat in D by lia.
      replace (mq (m - 1 - S i) - mQ) with ((mq (m - 1 - S i) - mq (m - 1 - i)) + (mq (m - 1 - i) - mQ)) by ring. eapply Rle_trans; [apply Rabs_triang|].
      cbn [pow] in *. set (a := (/ 4) ^ i) in *. clearbody a.
      replace (mQ * (1 / 3 * (1 - / 4 * a))) with (mQ * (/ 4 * a) + mQ * (1 / 3 * (1 - a))) by field. lra.
  Qed.

  (** ... within a factor of two *)
  Lemma mq_half : forall j, (j < m)%nat -> mQ / 2 <= mq j <= 2 * mQ.
  Proof.
    assert (G : forall i, (i <= J0)%nat -> Rabs (mq (J0 - i) - mQ) <= mQ * (1 / 3 + INR i / 1000)).
    { pose proof mQ_pos as Q0. induction i as [|i IH]; intros Hi.
      - rewrite Nat.sub_0_r. pose proof (mq_near4 (m - 1 - J0) ltac:(lia)) as H. replace (m - 1 - (m - 1 - J0))%nat with J0 in H by lia. eapply Rle_trans; [exact H|].
        apply Rmult_le_compat_l; [lra|]. pose proof (pow_lt (/ 4) (m - 1 - J0) ltac:(lra)). simpl (INR 0). lra.
      - specialize (IH ltac:(lia)). pose proof (mD (J0 - S i) ltac:(lia)) as D. replace (S (J0 - S i)) with (J0 - i)%nat in D by lia. rewrite Nat.max_r in D by lia.
        assert (P9 : (/ 4) ^ (m - 1 - J0) <= / 1000). { apply Rle_trans with ((/ 4) ^ 9); [|simpl; lra]. replace (m - 1 - J0)%nat with (9 + (m - 1 - J0 - 9))%nat by lia. rewrite pow_add. replace ((/ 4) ^ 9) with ((/ 4) ^ 9 * 1) at 2 by ring. apply Rmult_le_compat_l; [apply pow_le; lra|]. rewrite <- (pow1 (m - 1 - J0 - 9)). apply pow_incr; lra. }
        assert (D' : Rabs (mq (J0 - S i) - mq (J0 - i)) <= mQ * / 1000) by (eapply Rle_trans; [exact D|apply Rmult_le_compat_l; lra]).
        replace (mq (J0 - S i) - mQ) with ((mq (J0 - S i) - mq (J0 - i)) + (mq (J0 - i) - mQ)) by ring. eapply Rle_trans; [apply Rabs_triang|]. rewrite S_INR.
        replace (mQ * (1 / 3 + (INR i + 1) / 1000)) with (mQ * / 1000 + mQ * (1 / 3 + INR i / 1000)) by field. lra. }
    intros j Hj. pose proof mQ_pos as Q0.
    assert (A : Rabs (mq j - mQ) <= mQ / 2).
    { destruct (le_lt_dec J0 j) as [L|L].
      - pose proof (mq_near4 (m - 1 - j) ltac:(lia)) as H. replace (m - 1 - (m - 1 - j))%nat with j in H by lia. eapply Rle_trans; [exact H|].
        pose proof (pow_lt (/ 4) (m - 1 - j) ltac:(lra)). unfold Rdiv at 2. apply Rmult_le_compat_l; lra.
      - pose proof (G (J0 - j)%nat ltac:(lia)) as H. replace (J0 - (J0 - j))%nat with j in H by lia. eapply Rle_trans; [exact H|]. unfold Rdiv at 3. apply Rmult_le_compat_l; [lra|].
        assert (INR (J0 - j) <= INR 16) by (apply le_INR; lia). simpl (INR 16) in *. lra. }
    apply Rabs_le_inv in A. lra.
  Qed.

  (** and the quotient at order n differs little from the one at order 0 *)
  Lemma mq_diff : forall n, (n <= m - 1)%nat -> (J0 <= m - 1)%nat -> Rabs (mq 0 - mq n) <= INR n * (mQ * (/ 4) ^ (m - 1 - Nat.max n J0)).
  Proof.
    assert (G : forall n i, (i <= n)%nat -> (n <= m - 1)%nat -> Rabs (mq 0 - mq i) <= INR i * (mQ * (/ 4) ^ (m - 1 - Nat.max n J0))).
    { intros n. pose proof mQ_pos as Q0. induction i as [|i IH]; intros H1 H2; [rewrite Rminus_diag_eq, Rabs_R0 by reflexivity; simpl; lra|].
      specialize (IH ltac:(lia) H2). pose proof (mD i ltac:(lia)) as D.
      assert (L : (/ 4) ^ (m - 1 - Nat.max i J0) <= (/ 4) ^ (m - 1 - Nat.max n J0)).
      { replace (m - 1 - Nat.max i J0)%nat with ((m - 1 - Nat.max n J0) + (Nat.max n J0 - Nat.max i J0))%nat by lia. rewrite pow_add.
        replace ((/ 4) ^ (m - 1 - Nat.max n J0)) with ((/ 4) ^ (m - 1 - Nat.max n J0) * 1) at 2 by ring. apply Rmult_le_compat_l; [apply pow_le; lra|]. rewrite <- (pow1 (Nat.max n J0 - Nat.max i J0)). apply pow_incr; lra. }
      set (a := (/ 4) ^ (m - 1 - Nat.max n J0)) in *. clearbody a.
      assert (D' : Rabs (mq i - mq (S i)) <= mQ * a) by (eapply Rle_trans; [exact D|apply Rmult_le_compat_l; lra]).
      replace (mq 0 - mq (S i)) with ((mq 0 - mq i) + (mq i - mq (S i))) by ring. eapply Rle_trans; [apply Rabs_triang|]. rewrite S_INR.
      replace ((INR i + 1) * (mQ * a)) with (INR i * (mQ * a) + mQ * a) by ring. lra. }
    intros n Hn _. apply G; lia.
  Qed.

  Lemma mil_mq : forall j, mil j = mq j * B j.
  Proof. intros j. unfold mq. field. pose proof (B0 j). lra. Qed.
  Lemma mil_pos : forall j, (j < m)%nat -> 0 < mil j.
  Proof. intros j Hj. rewrite mil_mq. pose proof (mq_half j Hj). pose proof mQ_pos. apply Rmult_lt_0_compat; [lra|apply B0]. Qed.
  (** sizes of two orders compared *)
  Lemma mil_ratio : forall i j, (i < m)%nat -> (j < m)%nat -> mil i * B j <= 4 * mil j * B i.
  Proof.
    intros i j Hi Hj. rewrite !mil_mq. pose proof (mq_half i Hi) as Qi. pose proof (mq_half j Hj) as Qj. pose proof mQ_pos. pose proof (B0 i). pose proof (B0 j).
    replace (mq i * B i * B j) with (mq i * (B i * B j)) by ring. replace (4 * (mq j * B j) * B i) with (4 * mq j * (B i * B j)) by ring. apply Rmult_le_compat_r; [apply Rmult_le_pos; lra|lra].
  Qed.
  (** the normalized quotient: relative error *)
  Lemma mil_quot : forall n, (n <= m - 1)%nat -> Rabs (mil n * B 0 / mil 0 - B n) <= 2 * INR n * (/ 4) ^ (m - 1 - Nat.max n J0) * B n.
  Proof.
    intros n Hn. pose proof (mq_diff n Hn ltac:(lia)) as D. pose proof (mq_half 0 ltac:(lia)) as Q. pose proof mQ_pos as Q0. pose proof (B0 0) as P0. pose proof (B0 n) as Pn.
    rewrite !mil_mq. replace (mq n * B n * B 0 / (mq 0 * B 0) - B n) with (- ((mq 0 - mq n) / mq 0) * B n) by (field; lra).
    rewrite Rabs_mult, (Rabs_pos_eq (B n)) by lra. apply Rmult_le_compat_r; [lra|]. rewrite Rabs_Ropp. unfold Rdiv. rewrite Rabs_mult, Rabs_inv, (Rabs_pos_eq (mq 0)) by lra.
    set (a := (/ 4) ^ (m - 1 - Nat.max n J0)) in *. assert (A0 : 0 <= a) by (apply pow_le; lra). clearbody a. pose proof (pos_INR n) as N0.
    apply Rmult_le_reg_r with (mq 0); [lra|]. rewrite Rmult_assoc, Rinv_l, Rmult_1_r by lra. eapply Rle_trans; [exact D|].
    replace (INR n * (mQ * a)) with (INR n * a * mQ) by ring. replace (2 * INR n * a * mq 0) with (INR n * a * (2 * mq 0)) by ring. apply Rmult_le_compat_l; [apply Rmult_le_pos; lra|lra].
  Qed.
End Rec.
