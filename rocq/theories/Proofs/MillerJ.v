(** * The downward recurrence of J_n and its normalization, over the real numbers *)

From Coq Require Import ZArith Reals Bool Lra Lia List.
From Flocq Require Import Core.
From Verif.Spec Require Import BesselSpec.
From Verif.Proofs Require Import BesselSeries SecondSeries BesselReal BesselJReal Miller.
Open Scope R_scope.

Section J.
  Context (x : R) (m h : nat) (Hx : 0 < x <= 1) (Hm : m = (2 * h)%nat) (Hm1 : (18 <= m)%nat).
  Local Notation kt := (2 * / x).
  Local Notation f := (mil (-1) kt (S m)).
  Local Notation B := (BJ x).
  Local Notation q := (mq (-1) kt (S m) B).
  Local Notation Q := (mQ (S m) B).

  Lemma jB0 : forall j, 0 < B j. Proof. intros; apply BJ_pos, Hx. Qed.
  Lemma jBR : forall j, B j = INR (S j) * kt * B (S j) + -1 * B (S (S j)). Proof. intros j; apply BJ_rec; lra. Qed.
  Lemma jB1 : forall j, B (S (S j)) <= B j. Proof. intros j. pose proof (BJ_four x j Hx). pose proof (jB0 j). lra. Qed.
  Lemma jB4 : forall j, (0 <= j)%nat -> 4 * B (S (S j)) <= B j. Proof. intros j _; apply BJ_four, Hx. Qed.

  Lemma q_half : forall j, (j <= m)%nat -> Q / 2 <= q j <= 2 * Q.
  Proof. intros j Hj. apply (mq_half (-1) kt (S m) B abs_m1 jB0 jBR jB1 0 jB4); lia. Qed.
  Lemma jf_pos : forall j, (j <= m)%nat -> 0 < f j.
  Proof. intros j Hj. apply (mil_pos (-1) kt (S m) B abs_m1 jB0 jBR jB1 0 jB4); lia. Qed.
  Lemma jf_ratio : forall i j, (i <= m)%nat -> (j <= m)%nat -> f i * B j <= 4 * f j * B i.
  Proof. intros i j Hi Hj. apply (mil_ratio (-1) kt (S m) B abs_m1 jB0 jBR jB1 0 jB4); lia. Qed.
  Lemma jf_q : forall j, f j = q j * B j.
  Proof. intros j. apply mil_mq, jB0. Qed.
  Lemma jQ : Q = / B m. Proof. unfold mQ. replace (S m - 1)%nat with m by lia. reflexivity. Qed.

  Lemma kt2 : 2 <= kt. Proof. assert (1 <= / x) by (rewrite <- Rinv_1; apply Rinv_le_contravar; lra). lra. Qed.

  (** the next order is smaller by 2j + 1 *)
  Lemma jf_next : forall j, (j <= m)%nat -> (2 * INR j + 1) * f (S j) <= f j.
  Proof.
    assert (G : forall i, (i <= m)%nat -> (2 * INR (m - i) + 1) * f (S (m - i)) <= f (m - i)).
    { induction i as [|i IH]; intros Hi.
      - rewrite Nat.sub_0_r, mil_top, Rmult_0_r. apply Rlt_le, jf_pos. lia.
      - specialize (IH ltac:(lia)). set (j := (m - S i)%nat). replace (m - i)%nat with (S j) in IH by lia. rewrite (mil_rec (-1) kt (S m) j ltac:(lia)).
        pose proof (jf_pos (S j) ltac:(lia)) as F1. pose proof kt2 as K. pose proof (pos_INR j) as N0. rewrite S_INR in *.
        assert (A : (INR j + 1) * 2 * f (S j) <= (INR j + 1) * kt * f (S j)) by (apply Rmult_le_compat_r; [lra|]; apply Rmult_le_compat_l; lra).
        assert (F2 : 0 <= f (S (S j))) by (destruct (Nat.eq_dec (S (S j)) (S m)) as [->|E]; [rewrite mil_top; lra|apply Rlt_le, jf_pos; lia]).
        assert (1 * f (S (S j)) <= (2 * (INR j + 1) + 1) * f (S (S j))) by (apply Rmult_le_compat_r; lra). lra. }
    intros j Hj. specialize (G (m - j)%nat ltac:(lia)). replace (m - (m - j))%nat with j in G by lia. exact G.
  Qed.

  (** ** the Casorati determinant *)
  Lemma cas : forall j, (j <= m)%nat -> Rabs (q j - q (S j)) * (B j * B (S j)) = B (S m).
  Proof.
    assert (G : forall i, (i <= m)%nat -> Rabs (q (m - i) - q (S (m - i))) * (B (m - i) * B (S (m - i))) = B (S m)).
    { induction i as [|i IH]; intros Hi.
      - rewrite Nat.sub_0_r. pose proof (mq_top (-1) kt (S m) B 0 ltac:(lia) ltac:(lia)) as T. replace (S m - 1)%nat with m in T by lia. rewrite T, (mq_m (-1) kt (S m) B), Rminus_0_r. pose proof (jB0 m). rewrite jQ, Rabs_pos_eq by (left; apply Rinv_0_lt_compat; lra). field. lra.
      - specialize (IH ltac:(lia)). set (j := (m - S i)%nat). replace (m - i)%nat with (S j) in IH by lia. rewrite (mD_step (-1) kt (S m) B abs_m1 jB0 jBR j ltac:(lia)). rewrite <- IH. field. pose proof (jB0 j). lra. }
    intros j Hj. specialize (G (m - j)%nat ltac:(lia)). replace (m - (m - j))%nat with j in G by lia. exact G.
  Qed.

  Lemma q_diff : forall i, (1 <= i <= m)%nat -> Rabs (q 0 - q i) * (B i * B (i - 1)) <= INR i * B (S m).
  Proof.
    intros i [H1 Hi]. induction i as [|i IH]; [lia|]. replace (S i - 1)%nat with i by lia. rewrite (Rmult_comm (B (S i))). pose proof (jB0 i) as Pi. pose proof (jB0 (S i)) as Ps. pose proof (jB0 (S m)) as PM.
    pose proof (cas i ltac:(lia)) as C. destruct (Nat.eq_dec i 0) as [->|E]; [rewrite C; simpl; lra|]. specialize (IH ltac:(lia) ltac:(lia)).
    assert (T : Rabs (q 0 - q (S i)) <= Rabs (q 0 - q i) + Rabs (q i - q (S i))) by (replace (q 0 - q (S i)) with ((q 0 - q i) + (q i - q (S i))) by ring; apply Rabs_triang).
    apply Rle_trans with ((Rabs (q 0 - q i) + Rabs (q i - q (S i))) * (B i * B (S i))); [apply Rmult_le_compat_r; [apply Rmult_le_pos; lra|exact T]|].
    rewrite Rmult_plus_distr_r, C, S_INR, Rmult_plus_distr_r, Rmult_1_l. apply Rplus_le_compat_r. eapply Rle_trans; [|exact IH].
    apply Rmult_le_compat_l; [apply Rabs_pos|]. apply Rmult_le_compat_l; [lra|]. pose proof (BJ_dec x i Hx). pose proof (BJ_dec x (i - 1) Hx) as D. replace (S (i - 1)) with i in D by lia. pose proof (jB0 (i - 1)). lra.
  Qed.

  (** relative to the quotient at order 0 *)
  Lemma q_rel : forall i, (1 <= i <= m)%nat -> Rabs (q i - q 0) * B i <= 2 * INR i * B (S m) * q 0.
  Proof.
    intros i Hi. pose proof (q_diff i Hi) as D. rewrite Rabs_minus_sym. pose proof (jB0 (i - 1)) as P1. pose proof (jB0 m) as Pm. pose proof (jB0 (S m)) as PM. pose proof (jB0 i) as Pi. pose proof (pos_INR i) as N0.
    pose proof (q_half 0 ltac:(lia)) as [QH _]. rewrite jQ in QH. pose proof (BJ_mono x (i - 1) (m - (i - 1)) Hx) as M. replace (i - 1 + (m - (i - 1)))%nat with m in M by lia.
    set (a := Rabs (q 0 - q i) * B i) in *. assert (A0 : 0 <= a) by (apply Rmult_le_pos; [apply Rabs_pos|lra]).
    assert (A : a * B m <= INR i * B (S m)). { eapply Rle_trans; [|exact D]. replace (Rabs (q 0 - q i) * (B i * B (i - 1))) with (a * B (i - 1)) by (unfold a; ring). apply Rmult_le_compat_l; assumption. }
    assert (C : a <= INR i * B (S m) * / B m). { apply Rmult_le_reg_r with (B m); [exact Pm|]. rewrite (Rmult_assoc (INR i * B (S m))), Rinv_l, Rmult_1_r by lra. exact A. }
    eapply Rle_trans; [exact C|]. replace (2 * INR i * B (S m) * q 0) with (INR i * B (S m) * (2 * q 0)) by ring. apply Rmult_le_compat_l; [apply Rmult_le_pos; lra|lra].
  Qed.

  (** sharper for the order itself *)
  Lemma q_rel_n : forall n, (2 <= n)%nat -> (n + 16 <= m)%nat -> (n <= 900)%nat -> Rabs (q n - q 0) * B n <= 2 / 10 ^ 16 * (q 0 * B n).
  Proof.
    intros n Hn Hnm Hn9. pose proof (q_diff n ltac:(lia)) as D. rewrite Rabs_minus_sym. pose proof (jB0 (n - 1)) as P1. pose proof (jB0 m) as Pm. pose proof (jB0 (S m)) as PM. pose proof (jB0 n) as Pn.
    pose proof (q_half 0 ltac:(lia)) as [QH _]. rewrite jQ in QH.
    assert (K : forall k, (16 <= k)%nat -> (/ 4) ^ k <= (/ 4) ^ 16). { intros k Hk. replace k with (16 + (k - 16))%nat by lia. rewrite pow_add. rewrite <- (Rmult_1_r ((/ 4) ^ 16)) at 2. apply Rmult_le_compat_l; [apply pow_le; lra|]. rewrite <- (pow1 (k - 16)). apply pow_incr. lra. }
    pose proof (BJ_four_n x n (S m - n) Hx Hn) as M1. replace (n + (S m - n))%nat with (S m) in M1 by lia.
    pose proof (BJ_four_n x n (m - n) Hx Hn) as M2. replace (n + (m - n))%nat with m in M2 by lia.
    pose proof (K (S m - n)%nat ltac:(lia)) as K1. pose proof (K (m - n)%nat ltac:(lia)) as K2.
    pose proof (BJ_dec x (n - 1) Hx) as DN. replace (S (n - 1)) with n in DN by lia.
    assert (N9 : INR n <= 900) by (replace 900 with (INR 900) by (rewrite INR_IZR_INZ; reflexivity); apply le_INR; lia). pose proof (pos_INR n) as N0.
    assert (C16 : (/ 4) ^ 16 <= 3 / 10 ^ 10) by (cbn [pow]; lra). assert (Z16 : 0 < (/ 4) ^ 16) by (apply pow_lt; lra). set (c := (/ 4) ^ 16) in *. clearbody c.
    assert (M1' : B (S m) <= 3 / 10 ^ 10 * B n) by (eapply Rle_trans; [exact M1|apply Rmult_le_compat_r; lra]).
    assert (M2' : B m <= 3 / 10 ^ 10 * B (n - 1)). { eapply Rle_trans; [exact M2|]. apply Rle_trans with (3 / 10 ^ 10 * B n); [apply Rmult_le_compat_r; lra|apply Rmult_le_compat_l; lra]. }
    set (a := Rabs (q 0 - q n)) in *. assert (A0 : 0 <= a) by apply Rabs_pos.
    assert (A1 : a * (B n * B (n - 1)) <= 900 * (3 / 10 ^ 10 * B n)). { eapply Rle_trans; [exact D|]. apply Rmult_le_compat; lra. }
    assert (A2 : a * B (n - 1) <= 900 * (3 / 10 ^ 10)). { apply Rmult_le_reg_r with (B n); [exact Pn|]. replace (a * B (n - 1) * B n) with (a * (B n * B (n - 1))) by ring. lra. }
    assert (A3 : a * B m <= 3 / 10 ^ 10 * (900 * (3 / 10 ^ 10))). { apply Rle_trans with (a * (3 / 10 ^ 10 * B (n - 1))); [apply Rmult_le_compat_l; assumption|]. replace (a * (3 / 10 ^ 10 * B (n - 1))) with (3 / 10 ^ 10 * (a * B (n - 1))) by ring. apply Rmult_le_compat_l; lra. }
    assert (A4 : a <= 3 / 10 ^ 10 * (900 * (3 / 10 ^ 10)) * / B m). { apply Rmult_le_reg_r with (B m); [exact Pm|]. rewrite (Rmult_assoc _ (/ B m)), Rinv_l, Rmult_1_r by lra. exact A3. }
    rewrite <- Rmult_assoc. apply Rmult_le_compat_r; [lra|]. lra.
  Qed.

  (** ** the normalizing sum *)
  Fixpoint evs (i : nat) : R := match i with O => 0 | S i' => evs i' + (if Nat.even (m - S i') then f (m - S i') else 0) end.
  Fixpoint tsum (a : nat) : R := match a with O => 0 | S b => tsum b + f (2 * b) end.

  Lemma evs_tsum : forall i, (i <= h)%nat -> evs (2 * i) + tsum (h - i) = tsum h.
  Proof.
    induction i as [|i IH]; intros Hi; [rewrite Nat.sub_0_r; simpl; ring|]. specialize (IH ltac:(lia)). rewrite <- IH.
    replace (2 * S i)%nat with (S (S (2 * i))) by lia. cbn [evs]. replace (h - i)%nat with (S (h - S i)) by lia. cbn [tsum].
    replace (m - S (2 * i))%nat with (1 + 2 * (h - S i))%nat by lia. replace (m - S (S (2 * i)))%nat with (2 * (h - S i))%nat by lia.
    rewrite Nat.even_add_mul_2, Nat.even_mul. cbn [Nat.even orb]. ring.
  Qed.
  Lemma evs_all : evs m = tsum h.
  Proof. pose proof (evs_tsum h ltac:(lia)) as E. rewrite Nat.sub_diag in E. cbn [tsum] in E. rewrite Hm. lra. Qed.

  Lemma tsum_wt : forall a, 2 * tsum (S a) - f 0 = sum_f_R0 (fun k => wt k * f (2 * k)) a.
  Proof.
    induction a as [|a IH]; [simpl; ring|]. change (sum_f_R0 (fun k => wt k * f (2 * k)) (S a)) with (sum_f_R0 (fun k => wt k * f (2 * k)) a + 2 * f (2 * S a)). rewrite <- IH.
    change (tsum (S (S a))) with (tsum (S a) + f (2 * S a)). ring.
  Qed.

  Definition NN : R := 2 * evs m - f 0.

  Lemma sq_pow : forall d, INR (18 + d) * INR (18 + d) <= 324 * 4 ^ d.
  Proof.
    induction d as [|d IH]; [simpl; lra|]. replace (18 + S d)%nat with (S (18 + d)) by lia. rewrite S_INR. cbn [pow]. assert (18 <= INR (18 + d)) by (replace 18 with (INR 18) by (simpl; lra); apply le_INR; lia). nra.
  Qed.

  Lemma BM_small : INR m * INR m * B (S m) <= 1 / 10 ^ 17.
  Proof.
    pose proof (sq_pow (m - 18)) as S2. replace (18 + (m - 18))%nat with m in S2 by lia. pose proof (BJ_four_n x 18 (m - 17) Hx ltac:(lia)) as F. replace (18 + (m - 17))%nat with (S m) in F by lia.
    pose proof (BJ_18 x Hx) as E. pose proof (jB0 18) as P18. pose proof (jB0 (S m)). replace (m - 17)%nat with (S (m - 18)) in F by lia. cbn [pow] in F.
    assert (I : 4 ^ (m - 18) * (/ 4) ^ (m - 18) = 1) by (rewrite <- Rpow_mult_distr; replace (4 * / 4) with 1 by field; apply pow1).
    set (u := 4 ^ (m - 18)) in *. set (w := (/ 4) ^ (m - 18)) in *. assert (U : 0 < u) by (apply pow_lt; lra). clearbody u w.
    apply Rle_trans with (324 * u * (/ 4 * w * B 18)); [apply Rmult_le_compat; [apply Rmult_le_pos; apply pos_INR|lra|exact S2|exact F]|].
    replace (324 * u * (/ 4 * w * B 18)) with (81 * (u * w) * B 18) by field. rewrite I. lra.
  Qed.

  Lemma NN_near : Rabs (NN - q 0) <= 4 / 10 ^ 16 * q 0.
  Proof.
    unfold NN. rewrite evs_all. replace h with (S (h - 1)) by lia. rewrite tsum_wt. pose proof (q_half 0 ltac:(lia)) as [Q0 _]. rewrite jQ in Q0. assert (QP : 0 < q 0). { pose proof (Rinv_0_lt_compat _ (jB0 m)). lra. }
    pose proof (NS_one x (h - 1) Hx ltac:(lia)) as N1. pose proof (jB0 (S m)) as PM.
    assert (D : Rabs (sum_f_R0 (fun k => wt k * f (2 * k)) (h - 1) - q 0 * NS x (h - 1)) <= 8 * (INR h * INR h) * B (S m) * q 0).
    { unfold NS. rewrite scal_sum, <- minus_sum. eapply Rle_trans; [apply Rsum_abs|].
      apply Rle_trans with (sum_f_R0 (fun _ => 8 * INR h * B (S m) * q 0) (h - 1)).
      - apply sum_Rle. intros k Hk. rewrite jf_q. replace (wt k * (q (2 * k) * B (2 * k)) - wt k * B (2 * k) * q 0) with (wt k * ((q (2 * k) - q 0) * B (2 * k))) by ring.
        rewrite !Rabs_mult, (Rabs_pos_eq (B (2 * k))) by (left; apply jB0). destruct k as [|k].
        + rewrite Rminus_diag_eq, Rabs_R0, Rmult_0_l, Rmult_0_r by reflexivity. pose proof (pos_INR h). apply Rmult_le_pos; [|lra]. apply Rmult_le_pos; lra.
        + change (wt (S k)) with 2. rewrite (Rabs_pos_eq 2) by lra. pose proof (q_rel (2 * S k) ltac:(lia)) as R. rewrite mult_INR in R. simpl (INR 2) in R.
          assert (KH : INR (S k) <= INR h) by (apply le_INR; lia). assert (INR (S k) * (B (S m) * q 0) <= INR h * (B (S m) * q 0)) by (apply Rmult_le_compat_r; [apply Rmult_le_pos; lra|exact KH]). lra.
      - rewrite sum_cte. replace (S (h - 1)) with h by lia. right. ring. }
    pose proof BM_small as BS. assert (HH : INR m = 2 * INR h) by (rewrite Hm, mult_INR; reflexivity). rewrite HH in BS.
    assert (D' : 8 * (INR h * INR h) * B (S m) * q 0 <= 2 / 10 ^ 17 * q 0) by (apply Rmult_le_compat_r; lra).
    assert (N2 : Rabs (q 0 * NS x (h - 1) - q 0) <= 3 / 10 ^ 16 * q 0). { replace (q 0 * NS x (h - 1) - q 0) with ((NS x (h - 1) - 1) * q 0) by ring. rewrite Rabs_mult, (Rabs_pos_eq (q 0)) by lra. apply Rmult_le_compat_r; lra. }
    apply Rabs_le_inv in D, N2. apply Rabs_le. lra.
  Qed.

  Lemma NN_pos : 0 < NN.
  Proof.
    pose proof NN_near as N. pose proof (q_half 0 ltac:(lia)) as [Q0 _]. rewrite jQ in Q0. pose proof (Rinv_0_lt_compat _ (jB0 m)). apply Rabs_le_inv in N. lra.
  Qed.

  (** the quotient the code returns *)
  Theorem jquot : forall n, (2 <= n)%nat -> (n + 16 <= m)%nat -> (n <= 900)%nat -> Rabs (f n / NN - B n) <= 7 / 10 ^ 16 * B n.
  Proof.
    intros n Hn Hnm Hn9. pose proof NN_near as N. pose proof NN_pos as NP. pose proof (q_rel_n n Hn Hnm Hn9) as R. pose proof (q_half 0 ltac:(lia)) as [Q0 _]. rewrite jQ in Q0. pose proof (Rinv_0_lt_compat _ (jB0 m)) as I0. assert (QP : 0 < q 0) by lra.
    pose proof (jB0 n) as Pn. rewrite jf_q. set (NV := NN) in *. clearbody NV. set (a := q 0) in *. set (b := q n) in *. clearbody a b. set (c := B n) in *. clearbody c.
    replace (b * c / NV - c) with (((b - a) * c + (a - NV) * c) / NV) by (field; lra). unfold Rdiv. rewrite Rabs_mult, Rabs_inv, (Rabs_pos_eq NV) by lra.
    apply Rmult_le_reg_r with NV; [exact NP|]. rewrite Rmult_assoc, Rinv_l, Rmult_1_r by lra. eapply Rle_trans; [apply Rabs_triang|]. rewrite !Rabs_mult, (Rabs_pos_eq c) by lra. rewrite (Rabs_minus_sym a).
    assert (Rabs (NV - a) * c <= 4 * / 10 ^ 16 * a * c) by (apply Rmult_le_compat_r; lra).
    assert (NV1 : 99 / 100 * a <= NV) by (apply Rabs_le_inv in N; lra).
    assert (c * (99 / 100 * a) <= c * NV) by (apply Rmult_le_compat_l; [lra|exact NV1]).
    assert (0 < a * c) by (apply Rmult_lt_0_compat; assumption). lra.
  Qed.
End J.
