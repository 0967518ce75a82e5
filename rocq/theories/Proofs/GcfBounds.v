(** * Truncation and contraction of the continued fraction *)

From Coq Require Import ZArith Reals Lra Lia.
From Flocq Require Import Core.Raux.
From Verif.Spec Require Import GammaSpec IncGammaSpec.
From Verif.Proofs Require Import ErfcODE ErfcExists ExpBounds Stirling IncGamma IncGammaTotal GcfReal.
Open Scope R_scope.

Lemma div_le : forall n d c, 0 < d -> n <= c * d -> n / d <= c.
Proof. intros n d c Hd H. apply Rmult_le_reg_r with d; [exact Hd|]. unfold Rdiv. rewrite Rmult_assoc, Rinv_l by lra. lra. Qed.

Lemma exp_m47 : exp (- (47)) <= / 10 ^ 20.
Proof.
  replace (- (47)) with (INR 47 * (- (1))) by (simpl; lra). rewrite exp_pow.
  apply Rle_trans with ((3684 / 10000) ^ 47); [|simpl; lra]. apply pow_incr. split; [left; apply exp_pos|].
  replace (- (1)) with (INR 16 * - (/ 16)) by (simpl; lra). rewrite exp_pow.
  apply Rle_trans with ((1 - / 16 + (/ 16) ^ 2 / 2) ^ 16); [|simpl; lra]. apply pow_incr. split; [left; apply exp_pos|apply expn_2; lra].
Qed.

Section Bounds.
  Variables (a x : R).
  Hypothesis Ha : 0 < a < 100.
  Hypothesis Hx : a + 99 / 100 <= x.

  (** ** Truncation *)
  Definition rr (j : nat) : R := (INR j + 1) * Rabs (INR j + 1 - a) / (D a x j * D a x j).

  Lemma D_ge : forall j, INR j + 1 < D a x j /\ (INR j <= a -> 2 * INR j + 199 / 100 <= D a x j).
  Proof. intros j. destruct (D_good a x (proj1 Ha) Hx j) as [_ (T0 & T1 & _)]. split; [lra|]. intros H. specialize (T1 H). lra. Qed.

  Lemma eps_0 : Rabs (eps a 0 x) = rr 0.
  Proof.
    pose proof (D_ge 0) as [D1 _]. simpl (INR 0) in D1. destruct (D_good a x (proj1 Ha) Hx 1) as [B _]. unfold rr, eps. cbn [PP]. rewrite Rmult_1_l. simpl (INR 1). simpl (INR 0).
    rewrite !Rmult_1_l, !Rplus_0_l, !Rmult_1_l. replace (D a x 0) with (BB a 1 x) by (unfold D; cbn [BB]; field).
    unfold Rdiv. rewrite Rabs_mult, (Rabs_pos_eq (/ _)); [reflexivity|]. left. apply Rinv_0_lt_compat, Rmult_lt_0_compat; assumption.
  Qed.
  Lemma eps_S : forall n, Rabs (eps a (S n) x) = Rabs (eps a n x) * rr (S n).
  Proof.
    intros n. destruct (D_good a x (proj1 Ha) Hx (S n)) as [B1 _]. destruct (D_good a x (proj1 Ha) Hx (S (S n))) as [B2 _].
    pose proof (pos_INR n) as I0. assert (SI : INR (S (S n)) = INR (S n) + 1) by apply S_INR. pose proof (S_INR n) as SI1.
    assert (E : eps a (S n) x = eps a n x * ((INR (S n) + 1) * (INR (S n) + 1 - a) / (D a x (S n) * D a x (S n)))).
    { unfold eps, D. change (PP a (S (S n))) with (PP a (S n) * (INR (S (S n)) * (INR (S (S n)) - a))). rewrite SI. field. lra. }
    rewrite E, Rabs_mult. f_equal. unfold rr, Rdiv. rewrite !Rabs_mult, (Rabs_pos_eq (INR (S n) + 1)) by lra. f_equal. apply Rabs_pos_eq.
    pose proof (D_ge (S n)) as [D1 _]. left. apply Rinv_0_lt_compat, Rmult_lt_0_compat; lra.
  Qed.

  Lemma rr_0 : forall j, 0 <= rr j.
  Proof.
    intros j. pose proof (D_ge j) as [D1 _]. pose proof (pos_INR j). apply Rmult_le_pos; [apply Rmult_le_pos; [lra|apply Rabs_pos]|].
    left. apply Rinv_0_lt_compat, Rmult_lt_0_compat; lra.
  Qed.
  Lemma rr_le : forall j, rr j <= Rmax 1 (25 / (INR j + 1)).
  Proof.
    intros j. pose proof (D_ge j) as [D1 D2]. pose proof (pos_INR j) as I0. unfold rr. set (n := INR j) in *. set (d := D a x j) in *.
    assert (d2 : 0 < d * d) by (apply Rmult_lt_0_compat; lra).
    destruct (Rle_lt_dec (n + 1) a) as [L|L].
    - specialize (D2 ltac:(lra)). eapply Rle_trans; [|apply Rmax_r]. rewrite Rabs_left1 by lra. apply div_le; [exact d2|].
      apply Rmult_le_reg_l with (n + 1); [lra|]. replace ((n + 1) * (25 / (n + 1) * (d * d))) with (25 * (d * d)) by (field; lra).
      assert (E : (2 * n + 199 / 100) * (2 * n + 199 / 100) <= d * d) by (apply Rmult_le_compat; lra).
      assert (F : (n + 1) * - (n + 1 - a) <= (n + 1) * 99) by (apply Rmult_le_compat_l; lra).
      assert (F2 : (n + 1) * ((n + 1) * - (n + 1 - a)) <= (n + 1) * ((n + 1) * 99)) by (apply Rmult_le_compat_l; lra).
      assert (0 <= n * n) by (apply Rmult_le_pos; lra). lra.
    - eapply Rle_trans; [|apply Rmax_l]. rewrite Rabs_pos_eq by lra. apply div_le; [exact d2|]. rewrite Rmult_1_l.
      apply Rmult_le_compat; lra.
  Qed.

  Definition KK : R := 6 * 10 ^ 9.
  Lemma eps_K : forall n, Rabs (eps a n x) <= KK.
  Proof.
    assert (S : forall n, (n <= 24)%nat -> Rabs (eps a n x) <= 25 ^ (n + 1) / INR (fact (n + 1))).
    { induction n as [|n IH]; intros H.
      - rewrite eps_0. eapply Rle_trans; [apply rr_le|]. simpl. apply Rmax_lub; lra.
      - rewrite eps_S. specialize (IH ltac:(lia)). assert (N : INR (S n) + 1 <= 25) by (rewrite <- S_INR; replace 25 with (INR 25) by (simpl; lra); apply le_INR; lia).
        assert (R : rr (S n) <= 25 / (INR (S n) + 1)).
        { eapply Rle_trans; [apply rr_le|]. apply Rmax_lub; [|lra]. pose proof (pos_INR (S n)). apply Rmult_le_reg_r with (INR (S n) + 1); [lra|]. replace (25 / (INR (S n) + 1) * (INR (S n) + 1)) with 25 by (field; lra). lra. }
        replace (S n + 1)%nat with (S (n + 1)) by lia. rewrite fact_simpl, mult_INR. cbn [pow]. replace (INR (S (n + 1))) with (INR (S n) + 1) by (rewrite <- S_INR; f_equal; lia).
        pose proof (pos_INR (S n)). pose proof (INR_fact_lt_0 (n + 1)).
        replace (25 * 25 ^ (n + 1) / ((INR (S n) + 1) * INR (fact (n + 1)))) with (25 ^ (n + 1) / INR (fact (n + 1)) * (25 / (INR (S n) + 1))) by (field; lra).
        apply Rmult_le_compat; [apply Rabs_pos|apply rr_0|exact IH|exact R]. }
    assert (M : forall k n, (n + k <= 24)%nat -> 25 ^ (n + 1) / INR (fact (n + 1)) <= 25 ^ (n + k + 1) / INR (fact (n + k + 1))).
    { induction k as [|k IH]; intros n H; [rewrite Nat.add_0_r; lra|]. eapply Rle_trans; [apply IH; lia|].
      replace (n + Datatypes.S k + 1)%nat with (Datatypes.S (n + k + 1)) by lia. rewrite fact_simpl, mult_INR. cbn [pow].
      assert (N : INR (Datatypes.S (n + k + 1)) <= 25) by (replace 25 with (INR 25) by (simpl; lra); apply le_INR; lia).
      assert (N0 : 0 < INR (Datatypes.S (n + k + 1))) by (apply lt_0_INR; lia). pose proof (INR_fact_lt_0 (n + k + 1)) as F0.
      assert (P0 : 0 < 25 ^ (n + k + 1)) by (apply pow_lt; lra).
      replace (25 * 25 ^ (n + k + 1) / (INR (Datatypes.S (n + k + 1)) * INR (fact (n + k + 1)))) with (25 ^ (n + k + 1) / INR (fact (n + k + 1)) * (25 / INR (Datatypes.S (n + k + 1)))) by (field; lra).
      rewrite <- (Rmult_1_r (25 ^ (n + k + 1) / INR (fact (n + k + 1)))) at 1. apply Rmult_le_compat_l; [left; apply Rdiv_lt_0_compat; assumption|].
      apply Rmult_le_reg_r with (INR (Datatypes.S (n + k + 1))); [exact N0|]. unfold Rdiv. rewrite Rmult_assoc, Rinv_l by lra. lra. }
    assert (K24 : 25 ^ (24 + 1) / INR (fact (24 + 1)) <= KK).
    { unfold KK. change (24 + 1)%nat with 25%nat.
        replace (INR (fact 25)) with 15511210043330985984000000; [apply div_le; [lra|]; simpl; lra|].
        repeat (rewrite fact_simpl, mult_INR; rewrite (INR_IZR_INZ (Datatypes.S _)); cbv beta iota delta [Z.of_nat Pos.of_succ_nat Pos.succ]). simpl (fact 0). simpl (INR 1). lra. }
    assert (L : forall n, Rabs (eps a (24 + n) x) <= KK).
    { induction n as [|n IH].
      - eapply Rle_trans; [apply (S 24%nat); lia|exact K24].
      - replace (24 + Datatypes.S n)%nat with (Datatypes.S (24 + n)) by lia. rewrite eps_S. rewrite <- (Rmult_1_r KK). apply Rmult_le_compat; [apply Rabs_pos|apply rr_0|exact IH|].
        eapply Rle_trans; [apply rr_le|]. apply Rmax_lub; [lra|]. rewrite S_INR, plus_INR. pose proof (pos_INR n). replace (INR 24) with 24 by (simpl; lra). apply div_le; lra. }
    intros n. destruct (Nat.le_gt_cases 24 n) as [H|H]; [replace n with (24 + (n - 24))%nat by lia; apply L|].
    eapply Rle_trans; [apply S; lia|]. eapply Rle_trans; [apply (M (24 - n)%nat); lia|]. replace (n + (24 - n) + 1)%nat with (24 + 1)%nat by lia. exact K24.
  Qed.
  Lemma eps_dec : forall n, 24 <= INR n -> Rabs (eps a (S n) x) <= Rabs (eps a n x).
  Proof.
    intros n Hn. rewrite eps_S. rewrite <- (Rmult_1_r (Rabs (eps a n x))) at 2. apply Rmult_le_compat_l; [apply Rabs_pos|].
    eapply Rle_trans; [apply rr_le|]. apply Rmax_lub; [lra|]. rewrite S_INR. apply div_le; lra.
  Qed.
  Lemma eps_step : forall n, 2000 <= INR n -> INR n <= 4998 -> Rabs (eps a (S n) x) <= Rabs (eps a n x) * exp (- (16 / 1000)).
  Proof.
    intros n H1 H2. rewrite eps_S. apply Rmult_le_compat_l; [apply Rabs_pos|]. unfold rr.
    destruct (D_good a x (proj1 Ha) Hx (S n)) as [_ (T0 & _ & T2)]. rewrite S_INR in *. destruct (T2 ltac:(lra)) as [_ T3]. set (m := INR n) in *.
    set (t := D a x (S n) - (m + 1 + 1)) in *. assert (T4 : 41 <= t).
    { apply Rnot_lt_le. intros N. assert (t * t < 41 * 41) by (apply Rmult_le_0_lt_compat; lra).
      assert (9 / 10 * (99 / 100) * 1900 <= 9 / 10 * x * (m + 1 - a)) by (apply Rmult_le_compat; lra). lra. }
    replace (D a x (S n)) with (m + 1 + 1 + t) by (unfold t; ring).
    apply Rle_trans with (1 - 16 / 1000); [|pose proof (exp_ineq1_le (- (16 / 1000))); lra].
    apply div_le; [apply Rmult_lt_0_compat; lra|]. rewrite Rabs_pos_eq by lra. set (k := m + 1 + 1) in *.
    apply Rle_trans with (k * k); [apply Rmult_le_compat_l; unfold k in *; lra|].
    assert (K1 : k * (1 + 41 / 5000) <= k + t) by (unfold k; lra).
    assert (K2 : (k * (1 + 41 / 5000)) * (k * (1 + 41 / 5000)) <= (k + t) * (k + t)) by (apply Rmult_le_compat; unfold k in *; lra).
    assert (0 <= k * k) by (apply Rmult_le_pos; unfold k; lra). lra.
  Qed.
  Lemma eps_steps : forall k n, 2000 <= INR n -> INR (n + k) <= 4999 -> Rabs (eps a (n + k) x) <= Rabs (eps a n x) * exp (- (16 / 1000) * INR k).
  Proof.
    induction k as [|k IH]; intros n H1 H2.
    - rewrite Nat.add_0_r. simpl (INR 0). rewrite Rmult_0_r, exp_0. lra.
    - replace (n + S k)%nat with (S (n + k)) in * by lia. rewrite S_INR in H2. specialize (IH n H1 ltac:(lra)).
      eapply Rle_trans; [apply eps_step; [rewrite plus_INR; pose proof (pos_INR k); lra|lra]|].
      replace (- (16 / 1000) * INR (S k)) with (- (16 / 1000) * INR k + - (16 / 1000)) by (rewrite S_INR; ring). rewrite exp_plus, <- Rmult_assoc.
      apply Rmult_le_compat_r; [left; apply exp_pos|exact IH].
  Qed.
  Lemma eps_late : forall n, 4999 <= INR n -> Rabs (eps a n x) <= / 10 ^ 10.
  Proof.
    assert (E0 : Rabs (eps a (Z.to_nat 2000 + Z.to_nat 2999) x) <= / 10 ^ 10).
    { eapply Rle_trans; [apply eps_steps|].
      - rewrite INR_IZR_INZ, Z2Nat.id by lia. lra.
      - rewrite plus_INR, !INR_IZR_INZ, !Z2Nat.id by lia. lra.
      - rewrite (INR_IZR_INZ (Z.to_nat 2999)), Z2Nat.id by lia.
        apply Rle_trans with (KK * exp (- (47))).
        + apply Rmult_le_compat; [apply Rabs_pos|left; apply exp_pos|apply eps_K|]. apply exp_mono; lra.
        + pose proof exp_m47. unfold KK. lra. }
    assert (L : forall k, Rabs (eps a (Z.to_nat 2000 + Z.to_nat 2999 + k) x) <= / 10 ^ 10).
    { induction k as [|k IH]; [rewrite Nat.add_0_r; exact E0|]. replace (Z.to_nat 2000 + Z.to_nat 2999 + S k)%nat with (S (Z.to_nat 2000 + Z.to_nat 2999 + k)) by lia.
      eapply Rle_trans; [apply eps_dec|exact IH]. rewrite plus_INR, plus_INR, !(INR_IZR_INZ (Z.to_nat _)), !Z2Nat.id by lia. pose proof (pos_INR k). lra. }
    intros n Hn. specialize (L (n - (Z.to_nat 2000 + Z.to_nat 2999))%nat).
    replace (Z.to_nat 2000 + Z.to_nat 2999 + (n - (Z.to_nat 2000 + Z.to_nat 2999)))%nat with n in L; [exact L|].
    enough (Z.to_nat 2000 + Z.to_nat 2999 <= n)%nat by lia. apply INR_le. rewrite plus_INR, !(INR_IZR_INZ (Z.to_nat _)), !Z2Nat.id by lia. lra.
  Qed.
  (** ** Contraction: an error in one partial denominator shrinks on the way to the next *)
  Lemma rho : forall n t, good a x n t -> INR n + 1 <= 10000 ->
    (INR n + 1) * Rabs (INR n + 1 - a) / (INR n + 1 + t) <= 982 / 1000 * (bb a (S n) x + an a (S n) / (INR n + 1 + t)).
  Proof.
    intros n t Gd Hn. pose proof (good_next a x (proj1 Ha) Hx n t Gd) as (U0 & U1 & U2). destruct Gd as (T0 & T1 & T2). pose proof (pos_INR n) as I0.
    assert (E : bb a (S n) x + an a (S n) / (INR n + 1 + t) = INR n + 2 + next a (S n) x t).
    { unfold bb, an, next. rewrite S_INR. field. lra. }
    rewrite S_INR in *. set (i := INR n + 1) in *. assert (i1 : 1 <= i) by (unfold i; lra).
    destruct (Rle_lt_dec a i) as [L|L].
    - (* i >= a *) rewrite E. clear E. destruct (U2 L) as [V1 V2]. set (u := next a (S n) x t) in *. rewrite Rabs_pos_eq by lra.
      assert (T9 : 99 / 100 <= t) by (destruct (Rle_lt_dec (INR n) a) as [M|M]; [specialize (T1 M); lra|destruct (T2 ltac:(lra)); lra]).
      apply div_le; [lra|]. destruct (Rle_lt_dec i 100) as [S1|S1].
      + apply Rle_trans with (i * i); [apply Rmult_le_compat_l; lra|].
        assert (P : (i + 199 / 100) * (i + 99 / 100) <= (INR n + 2 + u) * (i + t)) by (apply Rmult_le_compat; unfold i in *; lra).
        assert (i * i <= 100 * i) by (apply Rmult_le_compat_r; lra). lra.
      + destruct (Rle_lt_dec (2 / 100 * i) a) as [S2|S2].
        * apply Rle_trans with (i * (98 / 100 * i)); [apply Rmult_le_compat_l; lra|].
          assert (P : i * i <= (INR n + 2 + u) * (i + t)) by (apply Rmult_le_compat; unfold i in *; lra). assert (0 <= i * i) by (apply Rmult_le_pos; lra). lra.
        * assert (T8 : 92 / 10000 * i <= t).
          { destruct (T2 ltac:(unfold i in *; lra)) as [_ T3]. apply Rnot_lt_le. intros N. assert (t * t < (92 / 10000 * i) * (92 / 10000 * i)) by (apply Rmult_le_0_lt_compat; lra).
            assert (9 / 10 * (99 / 100) * (97 / 100 * i) <= 9 / 10 * x * (INR n - a)) by (apply Rmult_le_compat; unfold i in *; lra).
            assert (i * i <= 10000 * i) by (apply Rmult_le_compat_r; lra). lra. }
          assert (U8 : 92 / 10000 * i <= u).
          { apply Rnot_lt_le. intros N. assert (u * u < (92 / 10000 * i) * (92 / 10000 * i)) by (apply Rmult_le_0_lt_compat; lra).
            assert (9 / 10 * (99 / 100) * (97 / 100 * i) <= 9 / 10 * x * (i - a)) by (apply Rmult_le_compat; unfold i in *; lra).
            assert (i * i <= 10000 * i) by (apply Rmult_le_compat_r; lra). lra. }
          apply Rle_trans with (i * i); [apply Rmult_le_compat_l; lra|].
          assert (P : (i * (10092 / 10000)) * (i * (10092 / 10000)) <= (INR n + 2 + u) * (i + t)) by (apply Rmult_le_compat; unfold i in *; lra).
          assert (0 <= i * i) by (apply Rmult_le_pos; lra). lra.
    - (* i < a *) clear E. specialize (T1 ltac:(unfold i in *; lra)). rewrite Rabs_left1 by lra. unfold an, bb. rewrite S_INR. fold i.
      set (q := i * - (i - a) / (i + t)). replace (- (i * (i - a)) / (i + t)) with q by (unfold q, Rdiv; ring).
      assert (Q : q <= 50). { apply div_le; [lra|]. assert (i * - (i - a) <= i * 99) by (apply Rmult_le_compat_l; unfold i in *; lra). unfold i in *; lra. }
      unfold i in *; lra.
  Qed.

  Lemma size : forall n t, good a x n t -> (INR n + 1) * Rabs (INR n + 1 - a) / (INR n + 1 + t) <= INR n + 1 + 100.
  Proof.
    intros n t (T0 & _). pose proof (pos_INR n). apply div_le; [lra|]. rewrite (Rmult_comm (INR n + 1)). apply Rmult_le_compat; try lra; try apply Rabs_pos.
    apply Rabs_le. lra.
  Qed.

  (** ** The error when the loop stops *)
  Lemma ww_S : forall n, ww a (S n) x = ww a n x * (C a x (S n) / D a x (S n)).
  Proof.
    intros n. destruct (D_good a x (proj1 Ha) Hx (S n)) as [B1 _]. destruct (D_good a x (proj1 Ha) Hx (S (S n))) as [B2 _]. destruct (C_good a x (proj1 Ha) Hx n) as [A1 _].
    unfold ww, C, D. field. lra.
  Qed.
  Lemma eps_ww : forall n, Rabs (eps a (S n) x) <= Rabs (ww a (S n) x - ww a n x) * Rabs (INR n + 2 - a).
  Proof.
    intros n. destruct (D_good a x (proj1 Ha) Hx (S n)) as [B1 _]. destruct (D_good a x (proj1 Ha) Hx (S (S n))) as [B2 _].
    pose proof (D_ge (S n)) as [D1 _]. rewrite S_INR in D1. pose proof (pos_INR n).
    assert (E : eps a (S n) x = (ww a (S n) x - ww a n x) * (INR n + 2 - a) * ((INR n + 2) / D a x (S n))).
    { rewrite ww_diff by (try exact (proj1 Ha); exact Hx). unfold eps, D. change (PP a (S (S n))) with (PP a (S n) * (INR (S (S n)) * (INR (S (S n)) - a))). rewrite !S_INR. field. lra. }
    rewrite E, !Rabs_mult. rewrite <- (Rmult_1_r (Rabs _ * Rabs _)) at 2. apply Rmult_le_compat_l; [apply Rmult_le_pos; apply Rabs_pos|].
    rewrite Rabs_pos_eq; [apply div_le; lra|]. left. apply Rdiv_lt_0_compat; lra.
  Qed.

  (** ** Sizes *)
  Definition Wt (n : nat) (t : R) : R := (t * AA a (S n) x + an a (S n) * AA a n x) / (t * BB a (S n) x + an a (S n) * BB a n x).
  Lemma Wt_ge : forall n t, x <= 390 -> INR n + 1 <= t -> 0 < t * BB a (S n) x + an a (S n) * BB a n x /\ / 500 <= Wt n t.
  Proof.
    intros n t X. revert t. induction n as [|n IH]; intros t Ht.
    - simpl (INR 0) in Ht. unfold Wt. cbn [AA BB]. unfold bb, an. simpl (INR 0). simpl (INR 1).
      assert (H : 0 < t * (x + 2 * 0 + 1 - a) + - (1 * (1 - a)) * 1 <= 500 * t).
      { destruct (Rle_lt_dec a 1).
        - assert (t * x <= t * (x + 2 * 0 + 1 - a) + - (1 * (1 - a)) * 1). { assert (1 * (1 - a) <= t * (1 - a)) by (apply Rmult_le_compat_r; lra). lra. }
          assert (0 < t * x) by (apply Rmult_lt_0_compat; lra). assert (t * (x + 1 - a) <= t * 500) by (apply Rmult_le_compat_l; lra). lra.
        - assert (0 < t * (x + 1 - a)) by (apply Rmult_lt_0_compat; lra). assert (t * (x + 1 - a) <= t * 390) by (apply Rmult_le_compat_l; lra). lra. }
      split; [apply H|]. apply Rmult_le_reg_r with (t * (x + 2 * 0 + 1 - a) + - (1 * (1 - a)) * 1); [apply H|]. unfold Rdiv. rewrite Rmult_assoc, Rinv_l by lra. lra.
    - rewrite S_INR in Ht. pose proof (pos_INR n) as I0. set (t2 := bb a (S n) x + an a (S (S n)) / t).
      assert (T2 : INR n + 1 <= t2).
      { unfold t2, bb, an. rewrite !S_INR. set (m := INR n + 1 + 1) in *. destruct (Rle_lt_dec m a).
        - assert (0 <= - (m * (m - a)) / t) by (apply Rmult_le_pos; [|left; apply Rinv_0_lt_compat; unfold m in *; lra]; rewrite Ropp_mult_distr_r; apply Rmult_le_pos; unfold m in *; lra). lra.
        - assert (m * (m - a) / t <= m - a) by (apply div_le; [unfold m in *; lra|]; rewrite Rmult_comm; apply Rmult_le_compat_l; unfold m in *; lra).
          replace (- (m * (m - a)) / t) with (- (m * (m - a) / t)) by (unfold Rdiv; ring). unfold m in *. lra. }
      destruct (IH t2 T2) as [P1 P2]. assert (t0 : 0 < t) by lra.
      assert (E1 : t * BB a (S (S n)) x + an a (S (S n)) * BB a (S n) x = t * (t2 * BB a (S n) x + an a (S n) * BB a n x)) by (rewrite BB_SS; unfold t2; field; lra).
      assert (E2 : t * AA a (S (S n)) x + an a (S (S n)) * AA a (S n) x = t * (t2 * AA a (S n) x + an a (S n) * AA a n x)) by (rewrite AA_SS; unfold t2; field; lra).
      split; [rewrite E1; apply Rmult_lt_0_compat; assumption|]. unfold Wt. rewrite E1, E2.
      replace (t * (t2 * AA a (S n) x + an a (S n) * AA a n x) / (t * (t2 * BB a (S n) x + an a (S n) * BB a n x))) with (Wt n t2) by (unfold Wt; field; lra). exact P2.
  Qed.
  Lemma ww_ge : forall n, x <= 390 -> / 500 <= ww a n x.
  Proof.
    intros [|n] X.
    - unfold ww. cbn [AA BB]. unfold bb. simpl (INR 0). unfold Rdiv. rewrite Rmult_1_l. apply Rinv_le_contravar; lra.
    - replace (ww a (S n) x) with (Wt n (bb a (S n) x)) by (unfold Wt, ww; rewrite BB_SS, AA_SS; reflexivity).
      apply Wt_ge; [exact X|]. unfold bb. rewrite S_INR. pose proof (pos_INR n). lra.
  Qed.
  Lemma D_size : forall n, x <= 390 -> INR n <= 10000 -> D a x n <= 50000.
  Proof.
    intros [|n] X Hn.
    - unfold D. cbn [BB]. unfold bb. simpl (INR 0). lra.
    - rewrite D_rec by lra. destruct (D_good a x (proj1 Ha) Hx n) as [_ Gd]. pose proof (size n _ Gd) as Z. destruct Gd as [Gd _].
      replace (INR n + 1 + (D a x n - (INR n + 1))) with (D a x n) in Z by ring. unfold an, bb. rewrite !S_INR in *. set (i := INR n + 1) in *.
      assert (- (i * (i - a)) / D a x n <= i * Rabs (i - a) / D a x n).
      { apply Rmult_le_compat_r; [left; apply Rinv_0_lt_compat; pose proof (pos_INR n); unfold i in *; lra|]. rewrite Ropp_mult_distr_r. apply Rmult_le_compat_l; [pose proof (pos_INR n); unfold i; lra|]. rewrite <- Rabs_Ropp. apply Rle_abs. }
      lra.
  Qed.
  Lemma C_size : forall n, x <= 390 -> INR (S n) <= 10000 -> C a x (S n) <= 50000.
  Proof.
    intros [|n] X Hn.
    - unfold C. cbn [AA]. unfold bb. simpl (INR 1). lra.
    - rewrite C_rec by lra. destruct (C_good a x (proj1 Ha) Hx n) as [_ Gd]. pose proof (size (S n) _ Gd) as Z. destruct Gd as [Gd _].
      replace (INR (S n) + 1 + (C a x (S n) - (INR (S n) + 1))) with (C a x (S n)) in Z by ring. unfold an, bb. rewrite (S_INR (S n)) in *. set (i := INR (S n) + 1) in *.
      assert (- (i * (i - a)) / C a x (S n) <= i * Rabs (i - a) / C a x (S n)).
      { pose proof (pos_INR (S n)). apply Rmult_le_compat_r; [left; apply Rinv_0_lt_compat; unfold i in *; lra|]. rewrite Ropp_mult_distr_r. apply Rmult_le_compat_l; [unfold i; lra|]. rewrite <- Rabs_Ropp. apply Rle_abs. }
      lra.
  Qed.
  Lemma C_ge : forall n, INR (S n) + 1 < C a x (S n).
  Proof. intros n. destruct (C_good a x (proj1 Ha) Hx n) as [_ (C1 & _)]. lra. Qed.
  Lemma D_rho : forall n, INR n + 1 <= 10000 -> Rabs (an a (S n)) / D a x n <= 982 / 1000 * D a x (S n).
  Proof.
    intros n Hn. rewrite D_rec by (try exact (proj1 Ha); exact Hx). destruct (D_good a x (proj1 Ha) Hx n) as [_ Gd]. pose proof (rho n _ Gd Hn) as Z.
    replace (INR n + 1 + (D a x n - (INR n + 1))) with (D a x n) in Z by ring. pose proof (pos_INR n). unfold an at 1. rewrite Rabs_Ropp, Rabs_mult, S_INR, (Rabs_pos_eq (INR n + 1)) by lra. exact Z.
  Qed.
  Lemma C_rho : forall n, INR (S n) + 1 <= 10000 -> Rabs (an a (S (S n))) / C a x (S n) <= 982 / 1000 * C a x (S (S n)).
  Proof.
    intros n Hn. rewrite C_rec by (try exact (proj1 Ha); exact Hx). destruct (C_good a x (proj1 Ha) Hx n) as [_ Gd]. pose proof (rho (S n) _ Gd Hn) as Z.
    replace (INR (S n) + 1 + (C a x (S n) - (INR (S n) + 1))) with (C a x (S n)) in Z by ring. pose proof (pos_INR (S n)). unfold an at 1. rewrite Rabs_Ropp, Rabs_mult, (S_INR (S n)), (Rabs_pos_eq (INR (S n) + 1)) by lra. exact Z.
  Qed.
End Bounds.

Section Stop.
  Variables (G : R -> R) (a : R) (p : R -> R).
  Hypothesis HG : gamma_function G.
  Hypothesis Ha : 0 < a < 100.
  Hypothesis Hp : lower_inc_gamma G a p.
  Let Gp := G_pos G HG.
  Lemma Q_pos : forall x, a + 99 / 100 <= x -> 0 < 1 - p x.
  Proof. intros x Hx. pose proof (dens_le_Q G a p HG (proj1 Ha) Hp x Hx). pose proof (dens_pos G a (Gp a (proj1 Ha)) x). lra. Qed.

  Lemma ww_le : forall n x, a + 99 / 100 <= x -> ww a n x <= 102 / 100 * (1 + Rabs (eps a n x)).
  Proof.
    intros n x Hx. pose proof (trunc G a p HG (proj1 Ha) Hp n x Hx) as T. pose proof (Q_le_xa G a p HG (proj1 Ha) Hp x Hx) as Q. pose proof (xa_pos G a (Gp a (proj1 Ha)) x) as X.
    pose proof (Q_pos x Hx) as Q0. apply Rabs_le_inv in T. pose proof (Rabs_pos (eps a n x)) as e0. set (e := Rabs (eps a n x)) in *.
    apply Rmult_le_reg_l with (xa G a x); [exact X|]. apply Rle_trans with ((1 - p x) * (1 + e)); [lra|].
    replace (xa G a x * (102 / 100 * (1 + e))) with (102 / 100 * xa G a x * (1 + e)) by ring. apply Rmult_le_compat_r; lra.
  Qed.
  Lemma stop_early : forall n x f, a + 99 / 100 <= x -> INR n + 2 <= 5001 -> f <= / 10 ^ 8 ->
    Rabs (1 - D a x (S n) / C a x (S n)) <= f -> Rabs (eps a (S n) x) <= 5102 * f.
  Proof.
    intros n x f Hx Hn Hf H. pose proof (eps_ww a x Ha Hx n) as E. pose proof (ww_le (S n) x Hx) as W. pose proof (ww_pos a (proj1 Ha) (S n) x Hx) as W0.
    pose proof (D_ge a x Ha Hx (S n)) as [D1 _]. destruct (C_good a x (proj1 Ha) Hx n) as [_ (C1 & _)]. rewrite S_INR in *. pose proof (pos_INR n) as I0.
    assert (E1 : ww a (S n) x - ww a n x = ww a (S n) x * (1 - D a x (S n) / C a x (S n))) by (rewrite ww_S by assumption; field; lra).
    rewrite E1, Rabs_mult, (Rabs_pos_eq (ww a (S n) x)) in E by lra. set (e := Rabs (eps a (S n) x)) in *.
    assert (B : Rabs (INR n + 2 - a) <= 5001) by (apply Rabs_le; lra).
    assert (F0 : 0 <= f) by (eapply Rle_trans; [apply Rabs_pos|exact H]).
    assert (P1 : ww a (S n) x * Rabs (1 - D a x (S n) / C a x (S n)) <= 102 / 100 * (1 + e) * f) by (apply Rmult_le_compat; try lra; apply Rabs_pos).
    assert (P2 : e <= 102 / 100 * (1 + e) * f * 5001). { eapply Rle_trans; [exact E|]. apply Rmult_le_compat; [apply Rmult_le_pos; [lra|apply Rabs_pos]|apply Rabs_pos|exact P1|exact B]. }
    assert (e0 : 0 <= e) by apply Rabs_pos. assert (P3 : e * f <= e * / 10 ^ 8) by (apply Rmult_le_compat_l; lra).
    assert (P4 : e <= 6000 * f) by (simpl in *; lra). assert (P5 : e * f <= (6000 * / 10 ^ 8) * f) by (apply Rmult_le_compat_r; [exact F0|]; simpl in *; lra). simpl in *; lra.
  Qed.

  (** ** Moving the argument *)
  Lemma Q_move : forall x y, a + 99 / 100 <= x -> x <= y -> 1 - p y <= 1 - p x <= (1 - p y) * exp (3 * (y - x)).
  Proof.
    intros x y Hx Hy. split; [pose proof (inc_mono G HG a p x y (proj1 Ha) Hp ltac:(lra) Hy); lra|].
    pose proof (mono_on (fun t => (1 - p t) * exp (3 * t)) (fun t => - dens G a t * exp (3 * t) + (1 - p t) * (3 * exp (3 * t))) x y Hy) as M. cbv beta in M.
    assert (M1 : (1 - p x) * exp (3 * x) <= (1 - p y) * exp (3 * y)).
    { apply M; clear M.
      - intros t Ht. apply (derivable_pt_lim_mult (fun t => 1 - p t) (fun t => exp (3 * t))).
        + apply (derivable_pt_lim_ext (fun t => 1 + - p t)); [intros; ring|]. replace (- dens G a t) with (0 + - dens G a t) by ring.
          apply (derivable_pt_lim_plus (fun _ => 1) (fun t => - p t)); [apply derivable_pt_lim_const|apply (derivable_pt_lim_opp p), (proj1 Hp); lra].
        + replace (3 * exp (3 * t)) with (exp (3 * t) * (3 * 1)) by ring. apply (derivable_pt_lim_comp (fun t => 3 * t) exp); [apply derive_scal_l, derivable_pt_lim_id|apply derivable_pt_lim_exp].
      - intros t Ht. pose proof (dens_le_Q G a p HG (proj1 Ha) Hp t ltac:(lra)) as Dq. pose proof (exp_pos (3 * t)).
        replace (- dens G a t * exp (3 * t) + (1 - p t) * (3 * exp (3 * t))) with ((3 * (1 - p t) - dens G a t) * exp (3 * t)) by ring. apply Rmult_le_pos; lra. }
    replace (3 * (y - x)) with (3 * y + - (3 * x)) by ring. rewrite exp_plus, exp_Ropp. pose proof (exp_pos (3 * x)).
    apply Rmult_le_reg_r with (exp (3 * x)); [assumption|]. replace ((1 - p y) * (exp (3 * y) * / exp (3 * x)) * exp (3 * x)) with ((1 - p y) * exp (3 * y)) by (field; lra). exact M1.
  Qed.
  Lemma xa_move : forall x y, a <= x -> x <= y -> xa G a y <= xa G a x <= xa G a y * exp (y - x).
  Proof.
    intros x y Hx Hy. assert (Ga := Gp a (proj1 Ha)). split.
    - pose proof (mono_on (fun t => - xa G a t) (fun t => - (dens G a t * (a - t))) x y Hy) as M. cbv beta in M.
      enough (- xa G a x <= - xa G a y) by lra. apply M.
      + intros t Ht. apply (derivable_pt_lim_opp (xa G a)), derive_xa; try assumption; lra.
      + intros t Ht. pose proof (dens_pos G a Ga t). replace (- (dens G a t * (a - t))) with (dens G a t * (t - a)) by ring. apply Rmult_le_pos; lra.
    - unfold xa. replace (Rpower y a * exp (- y) / G a * exp (y - x)) with (Rpower y a * exp (- x) / G a) by (replace (- x) with (- y + (y - x)) by ring; rewrite exp_plus; field; lra).
      apply Rmult_le_compat_r; [left; apply Rinv_0_lt_compat, Ga|]. apply Rmult_le_compat_r; [left; apply exp_pos|]. apply Rle_Rpower_l; lra.
  Qed.
End Stop.
