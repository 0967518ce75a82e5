(** * The continued fraction of the upper incomplete gamma function, over the reals

    Q(a, x) = x^a exp(-x) / Gamma(a) * 1/(b0 + a1/(b1 + a2/(b2 + ...)))
    with b_i = x + 2i + 1 - a and a_i = - i (i - a).  The convergents are
    compared with Q by their derivatives. *)

From Coq Require Import ZArith Reals Lra Lia.
From Flocq Require Import Core.Raux.
From Verif.Spec Require Import GammaSpec IncGammaSpec.
From Verif.Proofs Require Import ErfcODE ErfcExists ExpBounds Stirling IncGamma IncGammaTotal.
Open Scope R_scope.

Section CF.
  Variable a : R.
  Definition bb (n : nat) (x : R) : R := x + 2 * INR n + 1 - a.
  Definition an (n : nat) : R := - (INR n * (INR n - a)).

  (** denominators and numerators, index shifted by one *)
  Fixpoint BB (n : nat) (x : R) : R :=
    match n with
    | O => 1
    | S O => bb 0 x
    | S (S k as m) => bb m x * BB m x + an m * BB k x
    end.
  Fixpoint AA (n : nat) (x : R) : R :=
    match n with
    | O => 0
    | S O => 1
    | S (S k as m) => bb m x * AA m x + an m * AA k x
    end.
  Lemma BB_SS : forall k x, BB (S (S k)) x = bb (S k) x * BB (S k) x + an (S k) * BB k x.
  Proof. reflexivity. Qed.
  Lemma AA_SS : forall k x, AA (S (S k)) x = bb (S k) x * AA (S k) x + an (S k) * AA k x.
  Proof. reflexivity. Qed.

  Lemma pair_ind : forall P : nat -> Prop, P O -> P 1%nat -> (forall k, P k -> P (S k) -> P (S (S k))) -> forall n, P n.
  Proof. intros P P0 P1 PS n. enough (P n /\ P (S n)) by tauto. induction n as [|n [IH1 IH2]]; [split; assumption|]. split; [exact IH2|apply PS; assumption]. Qed.

  Definition dB (n : nat) (x : R) : R :=
    match n with O => 0 | S k => (INR n * BB n x - INR n * (INR n - a) * BB k x) / x end.
  Definition dA (n : nat) (x : R) : R :=
    match n with O => 0 | S k => ((INR n + x - a) * AA n x - INR n * (INR n - a) * AA k x - BB n x) / x end.

  Lemma derive_bb : forall n x, derivable_pt_lim (bb n) x 1.
  Proof.
    intros n x. apply (derivable_pt_lim_ext (fun t => t + (2 * INR n + 1 - a))); [intros t; unfold bb; ring|].
    pose proof (derivable_pt_lim_plus id (fun _ => 2 * INR n + 1 - a) x 1 0 (derivable_pt_lim_id x) (derivable_pt_lim_const _ x)) as D.
    rewrite Rplus_0_r in D. exact D.
  Qed.

  Lemma derive_BB : forall n x, 0 < x -> derivable_pt_lim (BB n) x (dB n x).
  Proof.
    intros n x Hx. revert n. apply pair_ind.
    - apply derivable_pt_lim_const.
    - replace (dB 1 x) with 1; [apply derive_bb|]. unfold dB. cbn [BB]. unfold bb. simpl. field. lra.
    - intros k D0 D1. apply (derivable_pt_lim_ext (fun t => bb (S k) t * BB (S k) t + an (S k) * BB k t)); [intros t; symmetry; apply BB_SS|].
      replace (dB (S (S k)) x) with ((1 * BB (S k) x + bb (S k) x * dB (S k) x) + an (S k) * dB k x).
      + apply (derivable_pt_lim_plus (fun t => bb (S k) t * BB (S k) t) (fun t => an (S k) * BB k t)).
        * apply (derivable_pt_lim_mult (bb (S k)) (BB (S k))); [apply derive_bb|exact D1].
        * apply (derive_scal_l (an (S k)) (BB k)), D0.
      + unfold dB at 1 3. rewrite (BB_SS k). destruct k as [|j].
        * unfold dB. cbn [BB]. unfold bb, an. simpl. field. lra.
        * unfold dB. rewrite (BB_SS j). unfold bb, an. rewrite !S_INR. field. lra.
  Qed.
  Lemma derive_AA : forall n x, 0 < x -> derivable_pt_lim (AA n) x (dA n x).
  Proof.
    intros n x Hx. revert n. apply pair_ind.
    - apply derivable_pt_lim_const.
    - replace (dA 1 x) with 0; [apply derivable_pt_lim_const|]. unfold dA. cbn [AA BB]. unfold bb. simpl. field. lra.
    - intros k D0 D1. apply (derivable_pt_lim_ext (fun t => bb (S k) t * AA (S k) t + an (S k) * AA k t)); [intros t; symmetry; apply AA_SS|].
      replace (dA (S (S k)) x) with ((1 * AA (S k) x + bb (S k) x * dA (S k) x) + an (S k) * dA k x).
      + apply (derivable_pt_lim_plus (fun t => bb (S k) t * AA (S k) t) (fun t => an (S k) * AA k t)).
        * apply (derivable_pt_lim_mult (bb (S k)) (AA (S k))); [apply derive_bb|exact D1].
        * apply (derive_scal_l (an (S k)) (AA k)), D0.
      + unfold dA at 1 3. rewrite (AA_SS k), (BB_SS k). destruct k as [|j].
        * unfold dA. cbn [AA BB]. unfold bb, an. simpl. field. lra.
        * unfold dA. rewrite (AA_SS j), (BB_SS j). unfold bb, an. rewrite !S_INR. field. lra.
  Qed.

  (** the determinant *)
  Fixpoint PP (n : nat) : R := match n with O => 1 | S k => PP k * (INR n * (INR n - a)) end.
  Lemma det : forall k x, AA (S k) x * BB k x - AA k x * BB (S k) x = PP k.
  Proof.
    induction k as [|k IH]; intros x; [cbn [AA BB PP]; ring|]. rewrite AA_SS, BB_SS. cbn [PP]. rewrite <- (IH x). unfold an. ring.
  Qed.

  (** ** Lower bounds on the quotients of successive denominators *)

  Definition next (i : nat) (x t : R) : R := x + (INR i - a) * t / (INR i + t).
  Definition good (x : R) (i : nat) (t : R) : Prop :=
    0 < t /\ (INR i <= a -> x - a + INR i <= t) /\ (a <= INR i -> x <= t /\ 9 / 10 * x * (INR i - a) <= t * t).

  Section Pos.
    Variable x : R.
    Hypothesis Ha : 0 < a.
    Hypothesis Hx : a + 99 / 100 <= x.

    (** one step keeps t >= sqrt (0.9 x (i - a)) *)
    Lemma sqrt_step : forall i t, 0 <= i -> a <= i -> 0 < t -> 9 / 10 * x * (i - a) <= t * t ->
      let u := x + (i + 1 - a) * t / (i + 1 + t) in 9 / 10 * x * (i + 1 - a) <= u * u.
    Proof.
      intros i t Hi Hai Ht H u. set (M := i - a) in *. assert (HM : 0 <= M) by (unfold M; lra).
      set (c := 9 / 10 * x) in *. assert (Hc : 0 < c) by (unfold c; lra).
      set (S := sqrt (c * (M + 1))). set (s := sqrt (c * M)).
      assert (S2 : S * S = c * (M + 1)) by (apply sqrt_sqrt, Rmult_le_pos; lra).
      assert (s2 : s * s = c * M) by (apply sqrt_sqrt, Rmult_le_pos; lra).
      assert (S0 : 0 < S) by (apply sqrt_lt_R0, Rmult_lt_0_compat; lra). assert (s0 : 0 <= s) by apply sqrt_pos.
      assert (st : s <= t) by (apply Rnot_lt_le; intros N; assert (t * t < s * s) by (apply Rmult_le_0_lt_compat; lra); lra).
      assert (Eu : u = x + (M + 1) * t / (i + 1 + t)) by (unfold u, M; field; lra). clearbody u.
      replace (i + 1 - a) with (M + 1) by (unfold M; ring).
      assert (U0 : 0 <= (M + 1) * t / (i + 1 + t)) by (apply Rmult_le_pos; [apply Rmult_le_pos; lra|left; apply Rinv_0_lt_compat; lra]).
      rewrite <- S2. enough (G : S <= u) by (apply Rmult_le_compat; lra).
      destruct (Rle_lt_dec S x) as [L|L]; [rewrite Eu; lra|].
      assert (E : u - S = ((x - S) * (i + 1 + t) + (M + 1) * t) / (i + 1 + t)) by (rewrite Eu; field; lra).
      enough (N : 0 <= (x - S) * (i + 1 + t) + (M + 1) * t).
      { assert (0 <= u - S) by (rewrite E; apply Rmult_le_pos; [exact N|left; apply Rinv_0_lt_compat; lra]). lra. }
      assert (I1 : (S - x) * (i + 1 + t) <= (S - x) * (M + x + 1 / 100 + t)) by (apply Rmult_le_compat_l; unfold M; lra).
      assert (Sm : c * (S - s) * (S + s) = c * c) by (replace (c * (S - s) * (S + s)) with (c * (S * S - s * s)) by ring; rewrite S2, s2; ring).
      (* coefficient of t *)
      assert (K : 0 <= x - S + (M + 1)).
      { apply Rmult_le_reg_l with c; [exact Hc|]. rewrite Rmult_0_r. replace (c * (x - S + (M + 1))) with (S * S - c * S + c * x) by (rewrite S2; ring).
        assert (0 <= (S - c / 2) * (S - c / 2)) by apply Rle_0_sqr. assert (c * c <= 4 * (c * x)) by (replace (4 * (c * x)) with (c * (4 * x)) by ring; apply Rmult_le_compat_l; unfold c; lra). lra. }
      assert (I2 : (x - S + (M + 1)) * s <= (x - S + (M + 1)) * t) by (apply Rmult_le_compat_l; assumption).
      enough (N2 : 0 <= (x - S) * (M + x + 1 / 100 + s) + (M + 1) * s) by lra.
      (* multiply by c *)
      apply Rmult_le_reg_l with c; [exact Hc|]. rewrite Rmult_0_r.
      replace (c * ((x - S) * (M + x + 1 / 100 + s) + (M + 1) * s)) with ((x - S) * (S * S - c + c * (x + 1 / 100 + s)) + S * S * s) by (rewrite S2; ring).
      (* S^2 - s^2 = c *)
      assert (Hc2 : S * S - s * s = c) by lra.
      assert (D : (S - s) * (S + s) = c) by lra.
      set (d := S - s) in *. assert (d0 : 0 < d) by (apply Rmult_lt_reg_r with (S + s); lra).
      assert (dS : d * S <= c) by (rewrite <- D; apply Rmult_le_compat_l; lra).
      assert (X1 : x = 10 / 9 * c) by (unfold c; field).
      assert (T1 : S * S * x + (x - S) * (c * (x - 99 / 100 + s)) - S * S * d >= 0).
      { replace (S * S * x) with (10 / 9 * c * (S * S)) by (rewrite X1; ring).
        assert (Y1 : S * S * d <= c * S) by (replace (S * S * d) with (d * S * S) by ring; apply Rmult_le_compat_r; lra).
        assert (Y2 : 0 <= 10 / 9 * (S * S) - S + (x - S) * (x - 99 / 100 + s)).
        { replace s with (S - d) by (unfold d; ring).
          replace ((x - S) * (x - 99 / 100 + (S - d))) with (x * x - S * S + 99 / 100 * (S - x) + d * (S - x)) by ring.
          assert (0 <= d * (S - x)) by (apply Rmult_le_pos; lra). assert (99 / 100 * x <= x * x) by (apply Rmult_le_compat_r; lra).
          assert (99 / 100 * S <= S * S) by (apply Rmult_le_compat_r; lra). lra. }
        assert (Y3 : 0 <= c * (10 / 9 * (S * S) - S + (x - S) * (x - 99 / 100 + s))) by (apply Rmult_le_pos; lra). lra. }
      replace ((x - S) * (S * S - c + c * (x + 1 / 100 + s)) + S * S * s) with (S * S * x + (x - S) * (c * (x - 99 / 100 + s)) - S * S * d) by (unfold d; field).
      lra.
    Qed.

    Lemma good_next : forall i t, good x i t -> good x (S i) (next (S i) x t).
    Proof.
      intros i t (T0 & T1 & T2). pose proof (pos_INR i) as I0. unfold good, next. rewrite S_INR.
      set (n := INR i) in *. assert (Dn : 0 < n + 1 + t) by lra.
      assert (Q : 0 < t / (n + 1 + t) < 1).
      { split; [apply Rdiv_lt_0_compat; lra|]. apply Rmult_lt_reg_r with (n + 1 + t); [exact Dn|]. unfold Rdiv. rewrite Rmult_assoc, Rinv_l by lra. lra. }
      replace ((n + 1 - a) * t / (n + 1 + t)) with ((n + 1 - a) * (t / (n + 1 + t))) by (unfold Rdiv; ring).
      set (q := t / (n + 1 + t)) in *.
      destruct (Rle_lt_dec a (n + 1)) as [L|L].
      - assert (0 <= (n + 1 - a) * q) by (apply Rmult_le_pos; lra). split; [lra|]. split.
        + intros H'. assert (n + 1 = a) by lra. replace (n + 1 - a) with 0 by lra. lra.
        + intros _. split; [lra|]. destruct (Rle_lt_dec a n) as [L2|L2].
          * destruct (T2 L2) as [T3 T4]. pose proof (sqrt_step n t I0 L2 T0 T4) as K. cbv zeta in K.
            replace ((n + 1 - a) * t / (n + 1 + t)) with ((n + 1 - a) * q) in K by (unfold q, Rdiv; ring). exact K.
          * apply Rle_trans with (x * x); [|apply Rmult_le_compat; lra]. replace (9 / 10 * x * (n + 1 - a)) with (x * (9 / 10 * (n + 1 - a))) by ring. apply Rmult_le_compat_l; lra.
      - assert (- (a - (n + 1)) <= (n + 1 - a) * q).
        { replace ((n + 1 - a) * q) with (- ((a - (n + 1)) * q)) by ring. apply Ropp_le_contravar. rewrite <- (Rmult_1_r (a - (n + 1))) at 2. apply Rmult_le_compat_l; lra. }
        split; [lra|]. split; [intros _; lra|intros; lra].
    Qed.

    Definition D (n : nat) : R := BB (S n) x / BB n x.
    Definition C (n : nat) : R := AA (S n) x / AA n x.
    Lemma D_good : forall n, 0 < BB n x /\ good x n (D n - (INR n + 1)).
    Proof.
      induction n as [|n [IH G]].
      - unfold D. cbn [BB]. split; [lra|]. unfold bb. simpl (INR 0). replace ((x + 2 * 0 + 1 - a) / 1 - (0 + 1)) with (x - a) by field.
        unfold good. simpl (INR 0). repeat split; intros; lra.
      - pose proof (pos_INR n) as I0. assert (P : 0 < BB (S n) x).
        { replace (BB (S n) x) with (D n * BB n x) by (unfold D; field; lra). apply Rmult_lt_0_compat; [destruct G; lra|exact IH]. }
        split; [exact P|]. replace (D (S n) - (INR (S n) + 1)) with (next (S n) x (D n - (INR n + 1))); [apply good_next, G|].
        assert (DP : 0 < D n) by (destruct G; lra).
        unfold next. replace (INR (S n) + (D n - (INR n + 1))) with (D n) by (rewrite S_INR; ring).
        unfold D at 3. rewrite BB_SS. unfold an, bb. replace ((x + 2 * INR (S n) + 1 - a) * BB (S n) x + - (INR (S n) * (INR (S n) - a)) * BB n x)
          with (((x + 2 * INR (S n) + 1 - a) + - (INR (S n) * (INR (S n) - a)) / D n) * BB (S n) x) by (unfold D; field; lra).
        rewrite S_INR. field. lra.
    Qed.
    Lemma C_good : forall n, 0 < AA (S n) x /\ good x (S n) (C (S n) - (INR (S n) + 1)).
    Proof.
      induction n as [|n [IH G]].
      - unfold C. cbn [AA]. split; [lra|]. unfold bb, an. simpl (INR 1). replace (((x + 2 * 1 + 1 - a) * 1 + - (1 * (1 - a)) * 0) / 1 - (1 + 1)) with (x - a + 1) by field.
        unfold good. simpl (INR 1). repeat split; intros; try lra.
        assert (x <= x - a + 1) by lra. apply Rle_trans with (x * x); [|apply Rmult_le_compat; lra].
        replace (9 / 10 * x * (1 - a)) with (x * (9 / 10 * (1 - a))) by ring. apply Rmult_le_compat_l; lra.
      - pose proof (pos_INR (S n)) as I0. assert (P : 0 < AA (S (S n)) x).
        { replace (AA (S (S n)) x) with (C (S n) * AA (S n) x) by (unfold C; field; lra). apply Rmult_lt_0_compat; [destruct G; lra|exact IH]. }
        split; [exact P|]. replace (C (S (S n)) - (INR (S (S n)) + 1)) with (next (S (S n)) x (C (S n) - (INR (S n) + 1))); [apply good_next, G|].
        assert (DP : 0 < C (S n)) by (destruct G; lra).
        unfold next. replace (INR (S (S n)) + (C (S n) - (INR (S n) + 1))) with (C (S n)) by (rewrite (S_INR (S n)); ring).
        unfold C at 3. rewrite (AA_SS (S n)). unfold an, bb. replace ((x + 2 * INR (S (S n)) + 1 - a) * AA (S (S n)) x + - (INR (S (S n)) * (INR (S (S n)) - a)) * AA (S n) x)
          with (((x + 2 * INR (S (S n)) + 1 - a) + - (INR (S (S n)) * (INR (S (S n)) - a)) / C (S n)) * AA (S (S n)) x) by (unfold C; field; lra).
        rewrite (S_INR (S n)). field. lra.
    Qed.
    Lemma D_rec : forall n, D (S n) = bb (S n) x + an (S n) / D n.
    Proof.
      intros n. destruct (D_good n) as [P _]. destruct (D_good (S n)) as [Q _]. unfold D. rewrite BB_SS. field. lra.
    Qed.
    Lemma C_rec : forall n, C (S (S n)) = bb (S (S n)) x + an (S (S n)) / C (S n).
    Proof.
      intros n. destruct (C_good n) as [P _]. destruct (C_good (S n)) as [Q _]. unfold C. rewrite (AA_SS (S n)). field. lra.
    Qed.
  End Pos.
End CF.

(** ** The convergents against Q *)

Section Trunc.
  Variables (G : R -> R) (a : R) (p : R -> R).
  Hypothesis HG : gamma_function G.
  Hypothesis Ha : 0 < a.
  Hypothesis Hp : lower_inc_gamma G a p.

  Definition ww (n : nat) (x : R) : R := AA a (S n) x / BB a (S n) x.
  Definition eps (n : nat) (x : R) : R := PP a (S n) / (BB a (S n) x * BB a (S n) x).

  Lemma derive_W : forall n x, a + 99 / 100 <= x -> derivable_pt_lim (fun t => xa G a t * ww n t) x (- (dens G a x * (1 - eps n x))).
  Proof.
    intros n x Hx. assert (X0 : 0 < x) by lra. destruct (D_good a x Ha Hx (S n)) as [BP _]. pose proof (G_pos G HG a Ha) as Ga.
    replace (- (dens G a x * (1 - eps n x))) with
      (dens G a x * (a - x) * ww n x + xa G a x * ((dA a (S n) x * BB a (S n) x - dB a (S n) x * AA a (S n) x) / Rsqr (BB a (S n) x))).
    - apply (derivable_pt_lim_mult (xa G a) (ww n)); [apply derive_xa; assumption|].
      apply (derivable_pt_lim_div (AA a (S n)) (BB a (S n))); [apply derive_AA, X0|apply derive_BB, X0|lra].
    - rewrite xa_dens by exact X0. unfold ww, eps, Rsqr. cbn [PP]. rewrite <- (det a n x). unfold dA, dB. field. lra.
  Qed.

  Lemma BB_mono : forall n x y, a + 99 / 100 <= x -> x <= y -> BB a (S n) x <= BB a (S n) y.
  Proof.
    intros n x y Hx Hxy. apply (mono_on (BB a (S n)) (dB a (S n)) x y Hxy).
    - intros t Ht. apply derive_BB. lra.
    - intros t Ht. destruct (D_good a t Ha ltac:(lra) n) as [BP [GT _]]. unfold dB.
      pose proof (pos_INR n) as I0. pose proof (S_INR n) as SI.
      replace (INR (S n) * BB a (S n) t - INR (S n) * (INR (S n) - a) * BB a n t) with (INR (S n) * (BB a n t * (D a t n - (INR (S n) - a)))) by (unfold D; field; lra).
      apply Rmult_le_pos; [apply Rmult_le_pos; [lra|apply Rmult_le_pos; lra]|left; apply Rinv_0_lt_compat; lra].
  Qed.

  Lemma eps_mono : forall n x y, a + 99 / 100 <= x -> x <= y -> Rabs (eps n y) <= Rabs (eps n x).
  Proof.
    intros n x y Hx Hxy. destruct (D_good a x Ha Hx (S n)) as [BP _]. pose proof (BB_mono n x y Hx Hxy) as M.
    unfold eps, Rdiv. rewrite !Rabs_mult. apply Rmult_le_compat_l; [apply Rabs_pos|].
    assert (0 < BB a (S n) x * BB a (S n) x) by (apply Rmult_lt_0_compat; lra).
    assert (BB a (S n) x * BB a (S n) x <= BB a (S n) y * BB a (S n) y) by (apply Rmult_le_compat; lra).
    rewrite !Rabs_pos_eq by (left; apply Rinv_0_lt_compat; lra). apply Rinv_le_contravar; lra.
  Qed.

  Lemma ww_diff : forall n x, a + 99 / 100 <= x -> ww (S n) x - ww n x = PP a (S n) / (BB a (S n) x * BB a (S (S n)) x).
  Proof.
    intros n x Hx. destruct (D_good a x Ha Hx (S n)) as [B1 _]. destruct (D_good a x Ha Hx (S (S n))) as [B2 _].
    unfold ww. rewrite <- (det a (S n) x). field. lra.
  Qed.
  Lemma ww_pos : forall n x, a + 99 / 100 <= x -> 0 < ww n x.
  Proof.
    intros n x Hx. destruct (D_good a x Ha Hx (S n)) as [B1 _]. destruct (C_good a x Ha Hx n) as [A1 _]. apply Rdiv_lt_0_compat; assumption.
  Qed.

  Lemma ww_bounded : forall n x, a + 99 / 100 <= x -> exists K, forall y, x <= y -> ww n y <= K.
  Proof.
    intros n x Hx. induction n as [|n [K IH]].
    - exists 1. intros y Hy. unfold ww. cbn [AA BB]. unfold bb. simpl (INR 0). apply Rmult_le_reg_r with (y + 2 * 0 + 1 - a); [lra|].
      unfold Rdiv. rewrite Rmult_assoc, Rinv_l by lra. lra.
    - exists (K + Rabs (PP a (S n)) / (BB a (S n) x * BB a (S (S n)) x)). intros y Hy. pose proof (ww_diff n y ltac:(lra)) as E. specialize (IH y Hy).
      destruct (D_good a x Ha Hx (S n)) as [B1 _]. destruct (D_good a x Ha Hx (S (S n))) as [B2 _].
      pose proof (BB_mono n x y Hx Hy) as M1. pose proof (BB_mono (S n) x y Hx Hy) as M2.
      assert (P0 : 0 < BB a (S n) x * BB a (S (S n)) x) by (apply Rmult_lt_0_compat; assumption).
      assert (P1 : BB a (S n) x * BB a (S (S n)) x <= BB a (S n) y * BB a (S (S n)) y) by (apply Rmult_le_compat; lra).
      assert (PP a (S n) / (BB a (S n) y * BB a (S (S n)) y) <= Rabs (PP a (S n)) / (BB a (S n) x * BB a (S (S n)) x)).
      { eapply Rle_trans; [apply Rle_abs|]. unfold Rdiv. rewrite Rabs_mult. apply Rmult_le_compat_l; [apply Rabs_pos|].
        rewrite Rabs_pos_eq by (left; apply Rinv_0_lt_compat; lra). apply Rinv_le_contravar; lra. }
      lra.
  Qed.

  (** a function decreasing to 0 on the right is nonnegative: f + c p with limits *)
  Lemma to_infinity : forall (f f' : R -> R) (c k : R) x, a + 99 / 100 <= x -> 0 <= c ->
    (forall t, x <= t -> derivable_pt_lim f t (f' t)) -> (forall t, x <= t -> f' t <= c * dens G a t) ->
    (forall e X, 0 < e -> exists t, X <= t /\ x <= t /\ k - e <= f t) ->
    k - f x <= c * (1 - p x).
  Proof.
    intros f f' c k x Hx Hc Df Le Lim. apply Rnot_lt_le. intros N. set (e := (k - f x - c * (1 - p x)) / 2).
    destruct (Lim e x ltac:(unfold e; lra)) as (t & _ & T2 & T3).
    assert (M : c * p x - f x <= c * p t - f t).
    { apply (mono_on (fun t => c * p t - f t) (fun t => c * dens G a t - f' t) x t T2).
      - intros u Hu. apply (derivable_pt_lim_minus (fun u => c * p u) f); [apply derive_scal_l; apply (proj1 Hp); lra|apply Df; lra].
      - intros u Hu. pose proof (Le u ltac:(lra)). lra. }
    pose proof (inc_le_1 G HG a p Ha Hp t ltac:(lra)) as P1. assert (c * p t <= c * 1) by (apply Rmult_le_compat_l; lra). unfold e in *. lra.
  Qed.

  Lemma W_vanish : forall n x e X, a + 99 / 100 <= x -> 0 < e -> exists t, X <= t /\ x <= t /\ xa G a t * ww n t <= e.
  Proof.
    intros n x e X Hx He. destruct (ww_bounded n x Hx) as [K HK]. pose proof (ww_pos n x Hx) as W0. pose proof (HK x ltac:(lra)) as K0.
    destruct (xa_tail G HG a (e / K) (Rmax X x) Ha ltac:(apply Rdiv_lt_0_compat; lra)) as (t & T1 & T2 & T3).
    pose proof (Rmax_l X x). pose proof (Rmax_r X x). exists t. split; [lra|]. split; [lra|].
    pose proof (T3 t ltac:(lra)) as T4. pose proof (HK t ltac:(lra)) as K1. pose proof (xa_pos G a (G_pos G HG a Ha) t). pose proof (ww_pos n t ltac:(lra)).
    apply Rle_trans with (e / K * K); [apply Rmult_le_compat; lra|]. right. field. lra.
  Qed.

  Theorem trunc : forall n x, a + 99 / 100 <= x -> Rabs (1 - p x - xa G a x * ww n x) <= Rabs (eps n x) * (1 - p x).
  Proof.
    intros n x Hx. set (e := Rabs (eps n x)). assert (e0 : 0 <= e) by apply Rabs_pos. pose proof (G_pos G HG a Ha) as Ga.
    assert (EB : forall t, x <= t -> - (e * dens G a t) <= dens G a t * eps n t <= e * dens G a t).
    { intros t Ht. pose proof (eps_mono n x t Hx Ht) as M. fold e in M. apply Rabs_le_inv in M. pose proof (dens_pos G a Ga t) as D0.
      split; [replace (- (e * dens G a t)) with (dens G a t * - e) by ring|rewrite (Rmult_comm e)]; apply Rmult_le_compat_l; lra. }
    apply Rabs_le. split.
    - (* W - Q <= e Q: f = - (p + W), k = -1 *)
      pose proof (to_infinity (fun t => - (p t + xa G a t * ww n t)) (fun t => - (dens G a t + - (dens G a t * (1 - eps n t)))) e (-1) x Hx e0) as T.
      cbv beta in T. enough (-1 - - (p x + xa G a x * ww n x) <= e * (1 - p x)) by lra. apply T; clear T.
      + intros t Ht. apply (derivable_pt_lim_opp (fun t => p t + xa G a t * ww n t)). apply (derivable_pt_lim_plus p (fun t => xa G a t * ww n t)); [apply (proj1 Hp); lra|apply derive_W; lra].
      + intros t Ht. pose proof (EB t Ht). lra.
      + intros e1 X He. destruct (W_vanish n x e1 X Hx He) as (t & T1 & T2 & T3). exists t. split; [exact T1|]. split; [exact T2|].
        pose proof (inc_le_1 G HG a p Ha Hp t ltac:(lra)). lra.
    - pose proof (to_infinity (fun t => p t + xa G a t * ww n t) (fun t => dens G a t + - (dens G a t * (1 - eps n t))) e 1 x Hx e0) as T.
      cbv beta in T. enough (1 - (p x + xa G a x * ww n x) <= e * (1 - p x)) by lra. apply T; clear T.
      + intros t Ht. apply (derivable_pt_lim_plus p (fun t => xa G a t * ww n t)); [apply (proj1 Hp); lra|apply derive_W; lra].
      + intros t Ht. pose proof (EB t Ht). lra.
      + intros e1 X He. destruct (inc_lim_1 G HG a p Ha Hp e1 He) as (X1 & X0 & HX). exists (Rmax (Rmax X x) X1).
        pose proof (Rmax_l (Rmax X x) X1). pose proof (Rmax_r (Rmax X x) X1). pose proof (Rmax_l X x). pose proof (Rmax_r X x).
        split; [lra|]. split; [lra|]. pose proof (HX (Rmax (Rmax X x) X1) ltac:(lra)) as L.
        pose proof (Rmult_lt_0_compat _ _ (xa_pos G a Ga (Rmax (Rmax X x) X1)) (ww_pos n (Rmax (Rmax X x) X1) ltac:(lra))). lra.
  Qed.

  (** Q <= 1.02 xa *)
  Lemma Q_le_xa : forall x, a + 99 / 100 <= x -> 1 - p x <= 102 / 100 * xa G a x.
  Proof.
    intros x Hx. pose proof (G_pos G HG a Ha) as Ga.
    pose proof (to_infinity (fun t => p t + 102 / 100 * xa G a t) (fun t => dens G a t + 102 / 100 * (dens G a t * (a - t))) 0 1 x Hx ltac:(lra)) as T.
    cbv beta in T. enough (1 - (p x + 102 / 100 * xa G a x) <= 0 * (1 - p x)) by lra. apply T; clear T.
    - intros t Ht. apply (derivable_pt_lim_plus p (fun t => 102 / 100 * xa G a t)); [apply (proj1 Hp); lra|apply derive_scal_l, derive_xa; try assumption; lra].
    - intros t Ht. pose proof (dens_pos G a Ga t) as D0. assert (dens G a t * (t - a) >= dens G a t * (99 / 100)) by (apply Rle_ge, Rmult_le_compat_l; lra). lra.
    - intros e1 X He. destruct (inc_lim_1 G HG a p Ha Hp e1 He) as (X1 & X0 & HX). exists (Rmax (Rmax X x) X1).
      pose proof (Rmax_l (Rmax X x) X1). pose proof (Rmax_r (Rmax X x) X1). pose proof (Rmax_l X x). pose proof (Rmax_r X x).
      split; [lra|]. split; [lra|]. pose proof (HX (Rmax (Rmax X x) X1) ltac:(lra)) as L. pose proof (xa_pos G a Ga (Rmax (Rmax X x) X1)). lra.
  Qed.

  (** dens <= 3 Q *)
  Lemma dens_le_Q : forall x, a + 99 / 100 <= x -> dens G a x <= 3 * (1 - p x).
  Proof.
    intros x Hx. pose proof (G_pos G HG a Ha) as Ga.
    assert (Dd : forall t, 0 < t -> derivable_pt_lim (dens G a) t (dens G a t * ((a - 1) / t - 1))).
    { intros t Ht. apply (derivable_pt_lim_ext (fun u => / G a * (Rpower u (a - 1) * exp (- u)))); [intros u; unfold dens, Rdiv; ring|].
      replace (dens G a t * ((a - 1) / t - 1)) with (/ G a * ((a - 1) * Rpower t (a - 1 - 1) * exp (- t) + Rpower t (a - 1) * (- exp (- t)))).
      - apply (derive_scal_l (/ G a) (fun u => Rpower u (a - 1) * exp (- u))). apply (derivable_pt_lim_mult (fun u => Rpower u (a - 1)) (fun u => exp (- u))); [apply derivable_pt_lim_power, Ht|apply derive_exp_opp].
      - unfold dens. replace (Rpower t (a - 1)) with (t * Rpower t (a - 1 - 1)) by (rewrite <- Rpower_step by exact Ht; f_equal; ring). field. lra. }
    pose proof (to_infinity (fun t => - (p t + 1 / 3 * dens G a t)) (fun t => - (dens G a t + 1 / 3 * (dens G a t * ((a - 1) / t - 1)))) 0 (-1) x Hx ltac:(lra)) as T.
    cbv beta in T. enough (-1 - - (p x + 1 / 3 * dens G a x) <= 0 * (1 - p x)) by lra. apply T; clear T.
    - intros t Ht. apply (derivable_pt_lim_opp (fun t => p t + 1 / 3 * dens G a t)). apply (derivable_pt_lim_plus p (fun t => 1 / 3 * dens G a t)); [apply (proj1 Hp); lra|apply derive_scal_l, Dd; lra].
    - intros t Ht. pose proof (dens_pos G a Ga t) as D0. assert (K : - (21 / 10) <= (a - 1) / t - 1).
      { apply Rmult_le_reg_r with t; [lra|]. replace (((a - 1) / t - 1) * t) with (a - 1 - t) by (field; lra). lra. }
      assert (dens G a t * (- (21 / 10)) <= dens G a t * ((a - 1) / t - 1)) by (apply Rmult_le_compat_l; lra). lra.
    - intros e1 X He. destruct (W_vanish 0 x e1 X Hx He) as (t & T1 & T2 & T3).
      destruct (xa_tail G HG a e1 (Rmax X x) Ha He) as (u & U1 & U2 & U3). pose proof (Rmax_l X x). pose proof (Rmax_r X x).
      exists u. split; [lra|]. split; [lra|]. pose proof (inc_le_1 G HG a p Ha Hp u U2) as P1. pose proof (U3 u ltac:(lra)) as U4.
      rewrite xa_dens in U4 by exact U2. pose proof (dens_pos G a Ga u) as D0. assert (99 / 100 * dens G a u <= u * dens G a u) by (apply Rmult_le_compat_r; lra). lra.
  Qed.
End Trunc.
