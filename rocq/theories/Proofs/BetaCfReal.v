(** * The continued fraction of the incomplete beta function, over the reals

    The convergents A_n / B_n of 1 / (1 - k_1 x / (1 - k_2 x / ...)) for b <= 1/2,
    and their distance from the incomplete beta function. *)

From Coq Require Import ZArith Reals Lra Lia.
From Flocq Require Import Core.Raux.
From Verif.Spec Require Import GammaSpec IncBetaSpec.
From Verif.Proofs Require Import ErfcODE ExpBounds Stirling IncGamma.
Open Scope R_scope.

Lemma par_ind : forall P : nat -> Prop, (forall m, P (2 * m)%nat) -> (forall m, P (S (2 * m))) -> forall n, P n.
Proof. intros P H0 H1 n. destruct (Nat.Even_or_Odd n) as [[m ->]|[m ->]]; [apply H0|replace (2 * m + 1)%nat with (S (2 * m)) by lia; apply H1]. Qed.
Lemma two_ind : forall P : nat -> Prop, P O -> P 1%nat -> (forall k, P k -> P (S k) -> P (S (S k))) -> forall n, P n.
Proof. intros P P0 P1 H n. assert (A : P n /\ P (S n)) by (induction n as [|n [A B]]; split; auto). apply A. Qed.

Section CF.
  Variables (a b : R).
  Hypothesis Ha : 0 < a.
  Hypothesis Hb : 0 < b <= 1 / 2.

  (** chain parameters: k_n = (1 - g_(n-1)) g_n *)
  Definition cg (n : nat) : R := if Nat.even n then INR (Nat.div2 n) / (a + INR n) else (a + b + INR (Nat.div2 n)) / (a + INR n).
  Definition ck (n : nat) : R := (1 - cg (n - 1)) * cg n.

  Lemma cg_even : forall m, cg (2 * m) = INR m / (a + 2 * INR m).
  Proof. intros m. unfold cg. rewrite Nat.even_mul, Nat.div2_double. cbn [Nat.even orb]. rewrite mult_INR. simpl (INR 2). reflexivity. Qed.
  Lemma cg_odd : forall m, cg (S (2 * m)) = (a + b + INR m) / (a + 2 * INR m + 1).
  Proof. intros m. unfold cg. rewrite Nat.even_succ, Nat.odd_mul, Nat.div2_succ_double. cbn [Nat.odd Nat.even negb andb]. rewrite S_INR, mult_INR. simpl (INR 2). f_equal. ring. Qed.
  Lemma cg_0 : cg 0 = 0.
  Proof. pose proof (cg_even 0) as E. simpl (2 * 0)%nat in E. rewrite E. simpl. field. lra. Qed.

  Lemma cg_rng : forall n, 0 <= cg n < 1.
  Proof.
    apply par_ind; intros m; pose proof (pos_INR m); [rewrite cg_even|rewrite cg_odd]; (split; [apply Rmult_le_pos; [lra|left; apply Rinv_0_lt_compat; lra]|]).
    - apply Rmult_lt_reg_r with (a + 2 * INR m); [lra|]. unfold Rdiv. rewrite Rmult_assoc, Rinv_l by lra. lra.
    - apply Rmult_lt_reg_r with (a + 2 * INR m + 1); [lra|]. unfold Rdiv. rewrite Rmult_assoc, Rinv_l by lra. lra.
  Qed.
  Lemma cg_pos : forall n, 0 < cg (S n).
  Proof.
    apply (par_ind (fun n => 0 < cg (S n))); intros m; pose proof (pos_INR m).
    - rewrite cg_odd. apply Rmult_lt_0_compat; [lra|apply Rinv_0_lt_compat; lra].
    - replace (S (S (2 * m))) with (2 * S m)%nat by lia. rewrite cg_even, S_INR. apply Rmult_lt_0_compat; [lra|apply Rinv_0_lt_compat; lra].
  Qed.
  Lemma cg_half : forall m, cg (2 * m) <= 1 / 2.
  Proof.
    intros m. rewrite cg_even. pose proof (pos_INR m). apply Rmult_le_reg_r with (a + 2 * INR m); [lra|]. unfold Rdiv. rewrite Rmult_assoc, Rinv_l by lra. lra.
  Qed.
  (** this is where b <= 1/2 is used *)
  Lemma cg_pair : forall m, cg (S (2 * m)) <= 1 - cg (2 * m).
  Proof.
    intros m. rewrite cg_even, cg_odd. pose proof (pos_INR m) as M0. set (k := INR m) in *. clearbody k.
    assert (E : 1 - k / (a + 2 * k) - (a + b + k) / (a + 2 * k + 1) = ((a + k) - b * (a + 2 * k)) / ((a + 2 * k) * (a + 2 * k + 1))) by (field; lra).
    assert (0 <= ((a + k) - b * (a + 2 * k)) / ((a + 2 * k) * (a + 2 * k + 1))); [|lra].
    apply Rmult_le_pos; [|left; apply Rinv_0_lt_compat, Rmult_lt_0_compat; lra]. assert (b * (a + 2 * k) <= 1 / 2 * (a + 2 * k)) by (apply Rmult_le_compat_r; lra). lra.
  Qed.

  Lemma ck_odd : forall m, ck (S (2 * m)) = (a + INR m) * (a + b + INR m) / ((a + 2 * INR m) * (a + 2 * INR m + 1)).
  Proof. intros m. unfold ck. rewrite cg_odd. replace (S (2 * m) - 1)%nat with (2 * m)%nat by lia. rewrite cg_even. pose proof (pos_INR m). field. lra. Qed.
  Lemma ck_even : forall m, ck (S (S (2 * m))) = (INR m + 1) * (INR m + 1 - b) / ((a + 2 * INR m + 1) * (a + 2 * INR m + 2)).
  Proof.
    intros m. unfold ck. replace (S (S (2 * m)) - 1)%nat with (S (2 * m)) by lia. rewrite cg_odd. replace (S (S (2 * m))) with (2 * S m)%nat by lia. rewrite cg_even, S_INR. pose proof (pos_INR m). field. lra.
  Qed.
  Lemma ck_pos : forall n, 0 < ck (S n).
  Proof. intros n. unfold ck. pose proof (cg_rng (S n - 1)). pose proof (cg_pos n). apply Rmult_lt_0_compat; lra. Qed.

  (** convergents, shifted: cB n = B_(n-1) *)
  Fixpoint cB (n : nat) (x : R) : R := match n with O => 1 | S k => match k with O => 1 | S j => cB k x - ck k * x * cB j x end end.
  Fixpoint cA (n : nat) (x : R) : R := match n with O => 0 | S k => match k with O => 1 | S j => cA k x - ck k * x * cA j x end end.
  Lemma cB_SS : forall n x, cB (S (S n)) x = cB (S n) x - ck (S n) * x * cB n x. Proof. reflexivity. Qed.
  Lemma cA_SS : forall n x, cA (S (S n)) x = cA (S n) x - ck (S n) * x * cA n x. Proof. reflexivity. Qed.

  (** coefficients of the derivative *)
  Definition cbe (n : nat) : R := if Nat.even n then a + b + INR (Nat.div2 n) else INR (Nat.div2 n) + 1.
  Definition cde (n : nat) : R := ck (S n) * (a + INR n + 1).
  Lemma cbe_even : forall m, cbe (2 * m) = a + b + INR m.
  Proof. intros m. unfold cbe. rewrite Nat.even_mul, Nat.div2_double. reflexivity. Qed.
  Lemma cbe_odd : forall m, cbe (S (2 * m)) = INR m + 1.
  Proof. intros m. unfold cbe. rewrite Nat.even_succ, Nat.odd_mul, Nat.div2_succ_double. reflexivity. Qed.
  Lemma cbe_SS : forall n, cbe (S (S n)) = 1 + cbe n.
  Proof.
    apply par_ind; intros m.
    - replace (S (S (2 * m))) with (2 * S m)%nat by lia. rewrite !cbe_even, S_INR. ring.
    - replace (S (S (S (2 * m)))) with (S (2 * S m)) by lia. rewrite !cbe_odd, S_INR. ring.
  Qed.
  Lemma cbe_step : forall n, - cbe n + ck (S n) * (a + INR n) = - cbe (S n) + cde (S n).
  Proof.
    unfold cde. apply par_ind; intros m; pose proof (pos_INR m).
    - rewrite cbe_even, cbe_odd, ck_odd, ck_even, S_INR, mult_INR. simpl (INR 2). field. lra.
    - replace (S (S (S (2 * m)))) with (S (2 * S m)) by lia. rewrite cbe_odd, ck_even, ck_odd. replace (S (S (2 * m))) with (2 * S m)%nat by lia. rewrite cbe_even, ?mult_INR, !S_INR, ?mult_INR, ?S_INR. change (INR 0) with 0. field. lra.
  Qed.

  Definition dcB (n : nat) (x : R) : R := (- cbe n * cB (S n) x + cde n * cB n x) / (1 - x).
  Definition dcA (n : nat) (x : R) : R := ((- cbe n * x - a + (a + b) * x) * cA (S n) x + cde n * x * cA n x + a * cB (S n) x) / (x * (1 - x)).

  Lemma derive_lin : forall c (f : R -> R) x l, derivable_pt_lim f x l -> derivable_pt_lim (fun t => c * t * f t) x (c * f x + c * x * l).
  Proof.
    intros c f x l D. replace (c * f x + c * x * l) with ((c * 1) * f x + (c * x) * l) by ring. apply (derivable_pt_lim_mult (fun t => c * t) f); [|exact D]. apply (derive_scal_l c id), derivable_pt_lim_id.
  Qed.

  Lemma derive_cB : forall n x, x < 1 -> derivable_pt_lim (cB (S n)) x (dcB n x).
  Proof.
    intros n x Hx. revert n. apply two_ind.
    - replace (dcB 0 x) with 0; [apply (derivable_pt_lim_const 1)|]. unfold dcB, cde. pose proof (ck_odd 0) as E. simpl (S (2 * 0)) in E. rewrite E. pose proof (cbe_even 0) as E2. simpl (2 * 0)%nat in E2. rewrite E2. cbn [cB]. simpl. field. lra.
    - replace (dcB 1 x) with (0 - (ck 1 * cB 0 x + ck 1 * x * 0)).
      + apply (derivable_pt_lim_minus (cB 1) (fun t => ck 1 * t * cB 0 t)); [apply (derivable_pt_lim_const 1)|]. apply derive_lin, (derivable_pt_lim_const 1).
      + unfold dcB, cde. pose proof (ck_even 0) as E. simpl (S (S (2 * 0))) in E. rewrite E. pose proof (cbe_odd 0) as E2. simpl (S (2 * 0))%nat in E2. rewrite E2. pose proof (ck_odd 0) as E3. simpl (S (2 * 0)) in E3. cbn [cB]. rewrite E3. simpl. field. lra.
    - intros k IH0 IH1. replace (dcB (S (S k)) x) with (dcB (S k) x - (ck (S (S k)) * cB (S k) x + ck (S (S k)) * x * dcB k x)).
      + apply (derivable_pt_lim_minus (cB (S (S k))) (fun t => ck (S (S k)) * t * cB (S k) t)); [exact IH1|]. apply derive_lin, IH0.
      + unfold dcB. rewrite (cB_SS (S k)). apply Rmult_eq_reg_r with (1 - x); [|lra].
        replace ((((- cbe (S k) * cB (S (S k)) x + cde (S k) * cB (S k) x) / (1 - x) - (ck (S (S k)) * cB (S k) x + ck (S (S k)) * x * ((- cbe k * cB (S k) x + cde k * cB k x) / (1 - x)))) * (1 - x)))
          with (- cbe (S k) * cB (S (S k)) x + cde (S k) * cB (S k) x - ck (S (S k)) * cB (S k) x * (1 - x) - ck (S (S k)) * (x * (- cbe k * cB (S k) x) + (a + INR k + 1) * (ck (S k) * x * cB k x))) by (unfold cde; field; lra).
        replace (ck (S k) * x * cB k x) with (cB (S k) x - cB (S (S k)) x) by (rewrite cB_SS; ring).
        replace ((- cbe (S (S k)) * (cB (S (S k)) x - ck (S (S k)) * x * cB (S k) x) + cde (S (S k)) * cB (S (S k)) x) / (1 - x) * (1 - x))
          with ((- cbe (S (S k)) + cde (S (S k))) * cB (S (S k)) x + cbe (S (S k)) * ck (S (S k)) * x * cB (S k) x) by (field; lra).
        rewrite <- cbe_step, (cbe_SS k). unfold cde. rewrite S_INR. ring.
  Qed.

  Lemma derive_cA : forall n x, 0 < x < 1 -> derivable_pt_lim (cA (S n)) x (dcA n x).
  Proof.
    intros n x Hx. revert n. apply two_ind.
    - replace (dcA 0 x) with 0; [apply (derivable_pt_lim_const 1)|]. unfold dcA, cde. pose proof (cbe_even 0) as E2. simpl (2 * 0)%nat in E2. rewrite E2. cbn [cA cB]. simpl. field. lra.
    - replace (dcA 1 x) with (0 - (ck 1 * cA 0 x + ck 1 * x * 0)).
      + apply (derivable_pt_lim_minus (cA 1) (fun t => ck 1 * t * cA 0 t)); [apply (derivable_pt_lim_const 1)|]. apply derive_lin, (derivable_pt_lim_const 0).
      + unfold dcA, cde. pose proof (ck_even 0) as E. simpl (S (S (2 * 0))) in E. rewrite E. pose proof (cbe_odd 0) as E2. simpl (S (2 * 0))%nat in E2. rewrite E2. pose proof (ck_odd 0) as E3. simpl (S (2 * 0)) in E3. cbn [cA cB]. rewrite E3. simpl. field. lra.
    - intros k IH0 IH1. replace (dcA (S (S k)) x) with (dcA (S k) x - (ck (S (S k)) * cA (S k) x + ck (S (S k)) * x * dcA k x)).
      + apply (derivable_pt_lim_minus (cA (S (S k))) (fun t => ck (S (S k)) * t * cA (S k) t)); [exact IH1|]. apply derive_lin, IH0.
      + assert (X0 : x * (1 - x) <> 0) by (apply Rmult_integral_contrapositive_currified; lra).
        apply Rmult_eq_reg_r with (x * (1 - x)); [|exact X0]. unfold dcA. rewrite (cA_SS (S k)), (cB_SS (S k)).
        set (Z := (a + b) * x - a).
        replace (((((- cbe (S k) * x - a + (a + b) * x) * cA (S (S k)) x + cde (S k) * x * cA (S k) x + a * cB (S (S k)) x) / (x * (1 - x)) - (ck (S (S k)) * cA (S k) x + ck (S (S k)) * x * (((- cbe k * x - a + (a + b) * x) * cA (S k) x + cde k * x * cA k x + a * cB (S k) x) / (x * (1 - x))))) * (x * (1 - x))))
          with ((- cbe (S k) * x + Z) * cA (S (S k)) x + cde (S k) * x * cA (S k) x + a * cB (S (S k)) x - ck (S (S k)) * cA (S k) x * (x * (1 - x)) - ck (S (S k)) * x * ((- cbe k * x + Z) * cA (S k) x + a * cB (S k) x + (a + INR k + 1) * (ck (S k) * x * cA k x))) by (unfold cde, Z; field; lra).
        replace (ck (S k) * x * cA k x) with (cA (S k) x - cA (S (S k)) x) by (rewrite cA_SS; ring).
        replace (((- cbe (S (S k)) * x - a + (a + b) * x) * (cA (S (S k)) x - ck (S (S k)) * x * cA (S k) x) + cde (S (S k)) * x * cA (S (S k)) x + a * (cB (S (S k)) x - ck (S (S k)) * x * cB (S k) x)) / (x * (1 - x)) * (x * (1 - x)))
          with (((- cbe (S (S k)) + cde (S (S k))) * x + Z) * cA (S (S k)) x - (Z - cbe (S (S k)) * x) * ck (S (S k)) * x * cA (S k) x + a * (cB (S (S k)) x - ck (S (S k)) * x * cB (S k) x)) by (unfold Z; field; lra).
        rewrite <- cbe_step, (cbe_SS k). unfold cde. rewrite S_INR. ring.
  Qed.

  (** determinants *)
  Fixpoint cP (n : nat) : R := match n with O => 1 | S k => cP k * ck n end.
  Lemma cdet : forall n x, cA (S n) x * cB n x - cA n x * cB (S n) x = cP n * x ^ n.
  Proof. induction n as [|n IH]; intros x; [simpl; ring|]. rewrite cA_SS, cB_SS. cbn [cP pow]. replace (cP n * ck (S n) * (x * x ^ n)) with (ck (S n) * x * (cP n * x ^ n)) by ring. rewrite <- IH. ring. Qed.
  Lemma cP_pos : forall n, 0 < cP n.
  Proof. induction n as [|n IH]; [simpl; lra|]. cbn [cP]. apply Rmult_lt_0_compat; [exact IH|apply ck_pos]. Qed.

  (** positivity and ratios *)
  Section Pos.
    Variable x : R.
    Hypothesis Hx : 0 <= x < 1.

    Lemma gx_rng : forall n, 0 <= cg n * x <= x.
    Proof. intros n. pose proof (cg_rng n). split; [apply Rmult_le_pos; lra|]. rewrite <- (Rmult_1_l x) at 2. apply Rmult_le_compat_r; lra. Qed.

    Lemma ck_g : forall n t, 1 - cg n * x <= t -> ck (S n) * x / t <= cg (S n) * x /\ 0 <= ck (S n) * x / t.
    Proof.
      intros n t Ht. pose proof (gx_rng n) as G1. pose proof (cg_rng n) as G2. pose proof (cg_rng (S n)) as G3. assert (T0 : 0 < t) by lra. unfold ck. replace (S n - 1)%nat with n by lia.
      split; [|apply Rmult_le_pos; [apply Rmult_le_pos; [apply Rmult_le_pos|]; lra|left; apply Rinv_0_lt_compat; lra]].
      apply Rmult_le_reg_r with t; [exact T0|]. unfold Rdiv. rewrite Rmult_assoc, Rinv_l, Rmult_1_r by lra.
      apply Rle_trans with (cg (S n) * x * (1 - cg n * x)); [|apply Rmult_le_compat_l; [apply Rmult_le_pos|]; lra].
      replace ((1 - cg n) * cg (S n) * x) with (cg (S n) * x * (1 - cg n)) by ring. apply Rmult_le_compat_l; [apply Rmult_le_pos; lra|]. rewrite <- (Rmult_1_r (cg n)) at 1. assert (cg n * x <= cg n * 1) by (apply Rmult_le_compat_l; lra). lra.
    Qed.

    (** E n = B_(n) / B_(n-1), shifted *)
    Lemma cB_pos : forall n, 0 < cB n x /\ (1 - cg n * x) * cB n x <= cB (S n) x <= cB n x.
    Proof.
      induction n as [|n [P0 [L U]]]; [rewrite cg_0; simpl; lra|]. pose proof (gx_rng n). assert (P1 : 0 < cB (S n) x) by (assert (0 < (1 - cg n * x) * cB n x) by (apply Rmult_lt_0_compat; lra); lra).
      split; [exact P1|]. rewrite cB_SS. destruct (ck_g n (cB (S n) x / cB n x)) as [K0 K1].
      { apply Rmult_le_reg_r with (cB n x); [exact P0|]. unfold Rdiv. rewrite Rmult_assoc, Rinv_l by lra. lra. }
      replace (ck (S n) * x * cB n x) with (ck (S n) * x / (cB (S n) x / cB n x) * cB (S n) x) by (field; lra).
      set (q := ck (S n) * x / (cB (S n) x / cB n x)) in *. clearbody q. assert (0 <= q * cB (S n) x) by (apply Rmult_le_pos; lra). assert (q * cB (S n) x <= cg (S n) * x * cB (S n) x) by (apply Rmult_le_compat_r; lra). lra.
    Qed.
    Lemma cA_pos : forall n, 0 < cA (S n) x /\ (1 - cg (S n) * x) * cA (S n) x <= cA (S (S n)) x <= cA (S n) x.
    Proof.
      induction n as [|n [P0 [L U]]]; [pose proof (gx_rng 1); cbn [cA]; lra|]. pose proof (gx_rng (S n)). assert (P1 : 0 < cA (S (S n)) x) by (assert (0 < (1 - cg (S n) * x) * cA (S n) x) by (apply Rmult_lt_0_compat; lra); lra).
      split; [exact P1|]. rewrite (cA_SS (S n)). destruct (ck_g (S n) (cA (S (S n)) x / cA (S n) x)) as [K0 K1].
      { apply Rmult_le_reg_r with (cA (S n) x); [exact P0|]. unfold Rdiv. rewrite Rmult_assoc, Rinv_l by lra. lra. }
      replace (ck (S (S n)) * x * cA (S n) x) with (ck (S (S n)) * x / (cA (S (S n)) x / cA (S n) x) * cA (S (S n)) x) by (field; lra).
      set (q := ck (S (S n)) * x / (cA (S (S n)) x / cA (S n) x)) in *. clearbody q. assert (0 <= q * cA (S (S n)) x) by (apply Rmult_le_pos; lra). assert (q * cA (S (S n)) x <= cg (S (S n)) * x * cA (S (S n)) x) by (apply Rmult_le_compat_r; lra). lra.
    Qed.

    (** the convergents are between 1 and 1 / (1 - x) *)
    Lemma cZ : forall n, 0 <= cB n x / (1 - x) - cA n x /\ (1 - cg n) * x * (cB n x / (1 - x) - cA n x) <= cB (S n) x / (1 - x) - cA (S n) x.
    Proof.
      induction n as [|n [Z0 Z1]].
      - rewrite cg_0. cbn [cA cB]. assert (0 < / (1 - x)) by (apply Rinv_0_lt_compat; lra). split; [unfold Rdiv; lra|]. right. field. lra.
      - pose proof (cg_rng n) as G0. pose proof (cg_rng (S n)) as G1. set (z0 := cB n x / (1 - x) - cA n x) in *. set (z1 := cB (S n) x / (1 - x) - cA (S n) x) in *.
        assert (P1 : 0 <= z1). { eapply Rle_trans; [|exact Z1]. apply Rmult_le_pos; [apply Rmult_le_pos; lra|exact Z0]. } split; [exact P1|].
        replace (cB (S (S n)) x / (1 - x) - cA (S (S n)) x) with (z1 - ck (S n) * x * z0) by (unfold z0, z1; rewrite cB_SS, cA_SS; field; lra).
        unfold ck. replace (S n - 1)%nat with n by lia. replace ((1 - cg n) * cg (S n) * x * z0) with (cg (S n) * ((1 - cg n) * x * z0)) by ring.
        assert (cg (S n) * ((1 - cg n) * x * z0) <= cg (S n) * z1) by (apply Rmult_le_compat_l; lra).
        assert ((1 - cg (S n)) * z1 * x <= (1 - cg (S n)) * z1 * 1) by (apply Rmult_le_compat_l; [apply Rmult_le_pos; lra|lra]). lra.
    Qed.
    Definition cw (n : nat) : R := cA (S n) x / cB (S n) x.
    Lemma cw_up : forall n, cw n <= / (1 - x).
    Proof.
      intros n. destruct (cZ (S n)) as [Z _]. destruct (cB_pos (S n)) as [P _]. unfold cw. apply Rmult_le_reg_r with (cB (S n) x); [exact P|]. unfold Rdiv. rewrite Rmult_assoc, Rinv_l by lra. unfold Rdiv in Z. lra.
    Qed.
    Lemma cw_diff : forall n, cw (S n) - cw n = cP (S n) * x ^ S n / (cB (S n) x * cB (S (S n)) x).
    Proof.
      intros n. destruct (cB_pos (S n)) as [P1 _]. destruct (cB_pos (S (S n))) as [P2 _]. unfold cw. rewrite <- cdet. field. lra.
    Qed.
    Lemma cw_inc : forall n, cw n <= cw (S n).
    Proof.
      intros n. pose proof (cw_diff n) as E. destruct (cB_pos (S n)) as [P1 _]. destruct (cB_pos (S (S n))) as [P2 _]. pose proof (cP_pos (S n)).
      assert (0 <= cP (S n) * x ^ S n / (cB (S n) x * cB (S (S n)) x)); [|lra]. apply Rmult_le_pos; [apply Rmult_le_pos; [lra|apply pow_le; lra]|left; apply Rinv_0_lt_compat, Rmult_lt_0_compat; lra].
    Qed.
    Lemma cw_1 : forall n, 1 <= cw n.
    Proof. induction n as [|n IH]; [unfold cw; simpl; lra|]. pose proof (cw_inc n). lra. Qed.
  End Pos.
End CF.
