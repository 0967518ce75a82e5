(** * The truncation error of the continued fraction of the incomplete beta function *)

From Coq Require Import ZArith Reals Lra Lia.
From Flocq Require Import Core.Raux.
From Verif.Spec Require Import GammaSpec IncBetaSpec.
From Verif.Proofs Require Import ErfcODE ExpBounds Stirling IncGamma BetaCfReal.
Open Scope R_scope.

Lemma derive_pow1 : forall b x, x < 1 -> derivable_pt_lim (fun t => Rpower (1 - t) b) x (- (b * Rpower (1 - x) (b - 1))).
Proof.
  intros b x Hx. replace (- (b * Rpower (1 - x) (b - 1))) with (b * Rpower (1 - x) (b - 1) * (0 - 1)) by ring.
  apply (derivable_pt_lim_comp (fun t => 1 - t) (fun y => Rpower y b)).
  - apply (derivable_pt_lim_minus (fun _ => 1) id); [apply derivable_pt_lim_const|apply derivable_pt_lim_id].
  - apply derivable_pt_lim_power. lra.
Qed.

Lemma Rpower_down : forall x s, 0 < x -> Rpower x s = x * Rpower x (s - 1).
Proof. intros x s Hx. rewrite <- Rpower_step by exact Hx. f_equal. ring. Qed.

Section Mono.
  Variables (a b : R).
  Hypothesis Ha : 0 < a.
  Hypothesis Hb : 0 < b <= 1 / 2.

  Lemma cE_anti : forall n x y, 0 <= x -> x <= y -> y < 1 -> cB a b (S n) y * cB a b n x <= cB a b (S n) x * cB a b n y.
  Proof.
    induction n as [|n IH]; intros x y X0 XY Y1; [simpl; lra|]. specialize (IH x y X0 XY Y1). rewrite !cB_SS.
    destruct (cB_pos a b Ha Hb x ltac:(lra) n) as [Bx _]. destruct (cB_pos a b Ha Hb y ltac:(lra) n) as [By _]. destruct (cB_pos a b Ha Hb x ltac:(lra) (S n)) as [Bx1 _]. destruct (cB_pos a b Ha Hb y ltac:(lra) (S n)) as [By1 _].
    pose proof (ck_pos a b Ha Hb n) as K0.
    assert (H : x * (cB a b (S n) y * cB a b n x) <= y * (cB a b (S n) x * cB a b n y)). { apply Rmult_le_compat; try lra. apply Rmult_le_pos; lra. }
    assert (ck a b (S n) * (x * (cB a b (S n) y * cB a b n x)) <= ck a b (S n) * (y * (cB a b (S n) x * cB a b n y))) by (apply Rmult_le_compat_l; lra). lra.
  Qed.
  Lemma cB_anti : forall n x y, 0 <= x -> x <= y -> y < 1 -> cB a b n y <= cB a b n x.
  Proof.
    induction n as [|n IH]; intros x y X0 XY Y1; [simpl; lra|]. specialize (IH x y X0 XY Y1). pose proof (cE_anti n x y X0 XY Y1) as E.
    destruct (cB_pos a b Ha Hb x ltac:(lra) n) as [Bx _]. destruct (cB_pos a b Ha Hb x ltac:(lra) (S n)) as [Bx1 _].
    apply Rmult_le_reg_r with (cB a b n x); [exact Bx|]. eapply Rle_trans; [exact E|]. apply Rmult_le_compat_l; lra.
  Qed.

  Definition ceps (n : nat) (x : R) : R := cde a b n * x * (cP a b n * x ^ n) / (a * (cB a b (S n) x * cB a b (S n) x)).
  Lemma cde_pos : forall n, 0 < cde a b n.
  Proof. intros n. unfold cde. pose proof (ck_pos a b Ha Hb n). pose proof (pos_INR n). apply Rmult_lt_0_compat; lra. Qed.
  Lemma ceps_pos : forall n x, 0 <= x < 1 -> 0 <= ceps n x.
  Proof.
    intros n x Hx. destruct (cB_pos a b Ha Hb x Hx (S n)) as [B _]. pose proof (cde_pos n). pose proof (cP_pos a b Ha Hb n). unfold ceps.
    apply Rmult_le_pos; [apply Rmult_le_pos; [apply Rmult_le_pos; lra|apply Rmult_le_pos; [lra|apply pow_le; lra]]|]. left. apply Rinv_0_lt_compat. apply Rmult_lt_0_compat; [lra|apply Rmult_lt_0_compat; lra].
  Qed.
  Lemma ceps_mono : forall n x y, 0 <= x -> x <= y -> y < 1 -> ceps n x <= ceps n y.
  Proof.
    intros n x y X0 XY Y1. destruct (cB_pos a b Ha Hb x ltac:(lra) (S n)) as [Bx _]. destruct (cB_pos a b Ha Hb y ltac:(lra) (S n)) as [By _]. pose proof (cB_anti (S n) x y X0 XY Y1) as M.
    pose proof (cde_pos n) as D0. pose proof (cP_pos a b Ha Hb n) as P0. unfold ceps, Rdiv. pose proof (pow_le x n X0) as W0. pose proof (pow_incr x y n (conj X0 XY)) as W1.
    apply Rmult_le_compat.
    - apply Rmult_le_pos; [apply Rmult_le_pos; lra|apply Rmult_le_pos; lra].
    - left. apply Rinv_0_lt_compat. apply Rmult_lt_0_compat; [lra|apply Rmult_lt_0_compat; lra].
    - apply Rmult_le_compat; [apply Rmult_le_pos; lra|apply Rmult_le_pos; lra|apply Rmult_le_compat_l; lra|apply Rmult_le_compat_l; lra].
    - apply Rinv_le_contravar; [apply Rmult_lt_0_compat; [lra|apply Rmult_lt_0_compat; lra]|]. apply Rmult_le_compat_l; [lra|]. apply Rmult_le_compat; lra.
  Qed.

  Definition cW (n : nat) (x : R) : R := Rpower x a * (Rpower (1 - x) b * cw a b x n).
  Definition cdens (x : R) : R := Rpower x (a - 1) * Rpower (1 - x) (b - 1).

  Lemma derive_cW : forall n x, 0 < x < 1 -> derivable_pt_lim (cW n) x (a * cdens x * (1 - ceps n x)).
  Proof.
    intros n x Hx. destruct (cB_pos a b Ha Hb x ltac:(lra) (S n)) as [B _].
    replace (a * cdens x * (1 - ceps n x)) with
      (a * Rpower x (a - 1) * (Rpower (1 - x) b * cw a b x n) + Rpower x a * (- (b * Rpower (1 - x) (b - 1)) * cw a b x n + Rpower (1 - x) b * ((dcA a b n x * cB a b (S n) x - dcB a b n x * cA a b (S n) x) / Rsqr (cB a b (S n) x)))).
    - apply (derivable_pt_lim_mult (fun t => Rpower t a) (fun t => Rpower (1 - t) b * cw a b t n)); [apply derivable_pt_lim_power; lra|].
      apply (derivable_pt_lim_mult (fun t => Rpower (1 - t) b) (fun t => cw a b t n)); [apply derive_pow1; lra|].
      apply (derivable_pt_lim_div (cA a b (S n)) (cB a b (S n))); [apply derive_cA; assumption|apply derive_cB; [assumption|assumption|lra]|lra].
    - unfold cdens, ceps. rewrite <- (cdet a b n x). rewrite (Rpower_down x a) by lra. rewrite (Rpower_down (1 - x) b) by lra. unfold dcA, dcB, cw, Rsqr. field. repeat split; lra.
  Qed.

  Lemma van_cW : forall n, van (cW n).
  Proof.
    intros n. set (f := fun x => if Rlt_dec x (1 / 2) then Rpower (1 - x) b * cw a b x n else 0).
    assert (V : van (fun x => Rpower x a * f x)).
    { apply (van_pow a Ha f 2). intros x Hx. unfold f. destruct (Rlt_dec x (1 / 2)) as [L|L]; [|rewrite Rabs_R0; lra].
      pose proof (cw_up a b Ha Hb x ltac:(lra) n) as U. pose proof (cw_1 a b Ha Hb x ltac:(lra) n) as L1.
      assert (P1 : Rpower (1 - x) b <= 1). { unfold Rpower. apply Rle_trans with (exp 0); [|rewrite exp_0; lra]. apply exp_mono. assert (ln (1 - x) <= 0) by (rewrite <- ln_1; destruct (Rle_lt_or_eq_dec (1 - x) 1) as [Q|Q]; [lra|left; apply ln_increasing; lra|rewrite Q; lra]). assert (b * - ln (1 - x) >= 0) by (apply Rle_ge, Rmult_le_pos; lra). lra. }
      pose proof (Rpower_pos (1 - x) b) as P0. assert (/ (1 - x) <= 2). { replace 2 with (/ (1 / 2)) by field. apply Rinv_le_contravar; lra. }
      rewrite Rabs_pos_eq by (apply Rmult_le_pos; lra). apply Rle_trans with (1 * 2); [apply Rmult_le_compat; lra|lra]. }
    intros e He. destruct (V e He) as (d & D0 & D1). exists (Rmin d (1 / 2)). split; [apply Rmin_pos; lra|]. intros x Hx. pose proof (Rmin_l d (1 / 2)). pose proof (Rmin_r d (1 / 2)).
    specialize (D1 x ltac:(lra)). unfold f in D1. destruct (Rlt_dec x (1 / 2)) as [L|L]; [exact D1|lra].
  Qed.

  Section Trunc.
    Variables (K : R) (I : R -> R).
    Hypothesis HK : 0 < K.
    Hypothesis HI : forall x, 0 < x < 1 -> derivable_pt_lim I x (K * cdens x).
    Hypothesis HV : van I.

    Lemma cdens_pos : forall x, 0 < cdens x.
    Proof. intros x. apply Rmult_lt_0_compat; apply Rpower_pos. Qed.
    Lemma van_0 : van (fun _ => 0).
    Proof. intros e He. exists 1. split; [lra|]. intros x Hx. rewrite Rabs_R0. lra. Qed.
    Lemma van_sc : forall c f, van f -> van (fun x => c * f x).
    Proof.
      intros c f V e He. assert (C0 : 0 < Rabs c + 1) by (pose proof (Rabs_pos c); lra). destruct (V (e / (Rabs c + 1))) as (d & D0 & D1); [apply Rdiv_lt_0_compat; lra|]. exists d. split; [exact D0|]. intros x Hx. specialize (D1 x Hx). rewrite Rabs_mult.
      apply Rle_trans with ((Rabs c + 1) * (e / (Rabs c + 1))); [apply Rmult_le_compat; try apply Rabs_pos; [lra|exact D1]|]. right. field. lra.
    Qed.

    Lemma I_nonneg : forall x, 0 < x < 1 -> 0 <= I x.
    Proof.
      intros x Hx. apply (van_le (fun _ => 0) (fun _ => 0) I (fun t => K * cdens t) x van_0 HV ltac:(lra)).
      - intros t Ht. apply derivable_pt_lim_const.
      - intros t Ht. apply HI. lra.
      - intros t Ht. pose proof (cdens_pos t). apply Rmult_le_pos; lra.
    Qed.

    Theorem ctrunc : forall n x, 0 < x < 1 -> 0 <= I x - K / a * cW n x <= ceps n x * I x.
    Proof.
      intros n x Hx. assert (KA : 0 < K / a) by (apply Rdiv_lt_0_compat; lra).
      assert (D1 : forall t, 0 < t <= x -> derivable_pt_lim (fun u => K / a * cW n u) t (K / a * (a * cdens t * (1 - ceps n t)))) by (intros t Ht; apply derive_scal_l, derive_cW; lra).
      split.
      - enough (K / a * cW n x <= I x) by lra. apply (van_le (fun u => K / a * cW n u) (fun t => K / a * (a * cdens t * (1 - ceps n t))) I (fun t => K * cdens t) x (van_sc _ _ (van_cW n)) HV ltac:(lra) D1).
        + intros t Ht. apply HI. lra.
        + intros t Ht. replace (K / a * (a * cdens t * (1 - ceps n t))) with (K * cdens t * (1 - ceps n t)) by (field; lra). pose proof (ceps_pos n t ltac:(lra)). pose proof (cdens_pos t). rewrite <- (Rmult_1_r (K * cdens t)) at 2. apply Rmult_le_compat_l; [apply Rmult_le_pos; lra|lra].
      - enough ((1 - ceps n x) * I x <= K / a * cW n x) by lra. apply (van_le (fun u => (1 - ceps n x) * I u) (fun t => (1 - ceps n x) * (K * cdens t)) (fun u => K / a * cW n u) (fun t => K / a * (a * cdens t * (1 - ceps n t))) x (van_sc _ _ HV) (van_sc _ _ (van_cW n)) ltac:(lra)).
        + intros t Ht. apply derive_scal_l, HI. lra.
        + exact D1.
        + intros t Ht. replace (K / a * (a * cdens t * (1 - ceps n t))) with ((1 - ceps n t) * (K * cdens t)) by (field; lra). pose proof (ceps_mono n t x ltac:(lra) ltac:(lra) ltac:(lra)). pose proof (cdens_pos t). apply Rmult_le_compat_r; [apply Rmult_le_pos; lra|lra].
    Qed.
  End Trunc.

  (** the truncation error from the last increment *)
  Section Inc.
    Variable x : R.
    Hypothesis Hx : 0 < x <= 9 / 10.

    Definition cE (n : nat) : R := cB a b (S n) x / cB a b n x.
    Lemma cE_rng : forall n, 1 - cg a b n * x <= cE n <= 1.
    Proof.
      intros n. destruct (cB_pos a b Ha Hb x ltac:(lra) n) as [P [L U]]. unfold cE.
      split; (apply Rmult_le_reg_r with (cB a b n x); [exact P|]; unfold Rdiv; rewrite Rmult_assoc, Rinv_l by lra; lra).
    Qed.
    Lemma cE_pos : forall n, 1 / 10 <= cE n.
    Proof. intros n. pose proof (cE_rng n). pose proof (gx_rng a b Ha Hb x ltac:(lra) n). lra. Qed.
    Lemma cE_S : forall n, cE (S n) = 1 - ck a b (S n) * x / cE n.
    Proof. intros n. destruct (cB_pos a b Ha Hb x ltac:(lra) n) as [P _]. destruct (cB_pos a b Ha Hb x ltac:(lra) (S n)) as [P1 _]. unfold cE. rewrite cB_SS. field. lra. Qed.

    Definition cDl (n : nat) : R := cw a b x (S n) - cw a b x n.
    Lemma ceps_Dl : forall n, ceps (S n) x <= (a + INR (S n) + 1) / a * cDl n.
    Proof.
      intros n. unfold cDl. rewrite cw_diff by (try assumption; lra). destruct (cB_pos a b Ha Hb x ltac:(lra) (S n)) as [P1 _]. destruct (cB_pos a b Ha Hb x ltac:(lra) (S (S n))) as [P2 _].
      unfold ceps, cde. replace (ck a b (S (S n)) * (a + INR (S n) + 1) * x * (cP a b (S n) * x ^ S n) / (a * (cB a b (S (S n)) x * cB a b (S (S n)) x)))
        with ((a + INR (S n) + 1) / a * (ck a b (S (S n)) * x / cE (S n) * (cP a b (S n) * x ^ S n / (cB a b (S n) x * cB a b (S (S n)) x)))) by (unfold cE; field; lra).
      destruct (ck_g a b Ha Hb x ltac:(lra) (S n) (cE (S n)) (proj1 (cE_rng (S n)))) as [K0 K1]. pose proof (gx_rng a b Ha Hb x ltac:(lra) (S (S n))) as G1.
      pose proof (pos_INR (S n)) as N0. pose proof (cP_pos a b Ha Hb (S n)) as CP0.
      assert (Q0 : 0 <= cP a b (S n) * x ^ S n / (cB a b (S n) x * cB a b (S (S n)) x)). { apply Rmult_le_pos; [apply Rmult_le_pos; [lra|apply pow_le; lra]|left; apply Rinv_0_lt_compat, Rmult_lt_0_compat; lra]. }
      apply Rmult_le_compat_l; [apply Rmult_le_pos; [lra|left; apply Rinv_0_lt_compat; lra]|]. set (q := cP a b (S n) * x ^ S n / (cB a b (S n) x * cB a b (S (S n)) x)) in *. clearbody q. rewrite <- (Rmult_1_l q) at 2. apply Rmult_le_compat_r; lra.
    Qed.
    (** increment ratio *)
    Lemma cDl_S : forall n, cDl (S n) = cDl n * ((1 - cE (S (S n))) / cE (S (S n))).
    Proof.
      intros n. unfold cDl. rewrite !cw_diff by (try assumption; lra). destruct (cB_pos a b Ha Hb x ltac:(lra) (S n)) as [P1 _]. destruct (cB_pos a b Ha Hb x ltac:(lra) (S (S n))) as [P2 _]. destruct (cB_pos a b Ha Hb x ltac:(lra) (S (S (S n)))) as [P3 _].
      unfold cE. assert (E : cB a b (S (S n)) x - cB a b (S (S (S n))) x = ck a b (S (S n)) * x * cB a b (S n) x) by (rewrite (cB_SS a b (S n)); ring).
      replace ((1 - cB a b (S (S (S n))) x / cB a b (S (S n)) x) / (cB a b (S (S (S n))) x / cB a b (S (S n)) x)) with ((cB a b (S (S n)) x - cB a b (S (S (S n))) x) / cB a b (S (S (S n))) x) by (field; lra).
      rewrite E. cbn [cP pow]. field. lra.
    Qed.
    Lemma cDl_nonneg : forall n, 0 <= cDl n.
    Proof. intros n. unfold cDl. pose proof (cw_inc a b Ha Hb x ltac:(lra) n). lra. Qed.
    Lemma rho_g : forall n, 0 <= (1 - cE n) / cE n <= cg a b n * x / (1 - cg a b n * x).
    Proof.
      intros n. pose proof (cE_rng n) as [L U]. pose proof (cE_pos n) as E0. pose proof (gx_rng a b Ha Hb x ltac:(lra) n) as G. set (g := cg a b n * x) in *. clearbody g.
      split; [apply Rmult_le_pos; [lra|left; apply Rinv_0_lt_compat; lra]|]. apply Rmult_le_compat; [lra|left; apply Rinv_0_lt_compat; lra|lra|apply Rinv_le_contravar; lra].
    Qed.
    Lemma rho_pair : forall u v, 0 <= u <= 1 / 2 -> 0 <= v <= 1 - u -> u * x / (1 - u * x) * (v * x / (1 - v * x)) <= 81 / 121.
    Proof.
      intros u v Hu Hv. assert (UX : u * x <= 1 / 2 * (9 / 10)) by (apply Rmult_le_compat; lra). assert (UX0 : 0 <= u * x) by (apply Rmult_le_pos; lra). assert (VX0 : 0 <= v * x) by (apply Rmult_le_pos; lra).
      assert (WX : v * x <= (1 - u) * x) by (apply Rmult_le_compat_r; lra).
      assert (WX1 : (1 - u) * x <= 9 / 10) by (replace ((1 - u) * x) with (x - u * x) by ring; lra).
      apply Rle_trans with (u * x / (1 - u * x) * ((1 - u) * x / (1 - (1 - u) * x))).
      { apply Rmult_le_compat_l; [apply Rmult_le_pos; [lra|left; apply Rinv_0_lt_compat; lra]|]. apply Rmult_le_compat; [lra|left; apply Rinv_0_lt_compat; lra|lra|apply Rinv_le_contravar; lra]. }
      apply Rmult_le_reg_r with ((1 - u * x) * (1 - (1 - u) * x)); [apply Rmult_lt_0_compat; lra|].
      replace (u * x / (1 - u * x) * ((1 - u) * x / (1 - (1 - u) * x)) * ((1 - u * x) * (1 - (1 - u) * x))) with (u * (1 - u) * (x * x)) by (field; lra).
      replace ((1 - u * x) * (1 - (1 - u) * x)) with (1 - x + u * (1 - u) * (x * x)) by ring.
      assert (P : u * (1 - u) <= 1 / 4) by (pose proof (Rle_0_sqr (u - 1 / 2)) as S; unfold Rsqr in S; lra).
      assert (XX : x * x <= 9 / 10 * x) by (apply Rmult_le_compat_r; lra). assert (XX0 : 0 <= x * x) by (apply Rmult_le_pos; lra).
      assert (u * (1 - u) * (x * x) <= 1 / 4 * (x * x)) by (apply Rmult_le_compat_r; lra). lra.
    Qed.
    Lemma cDl_two : forall m, cDl (2 * S m) <= 81 / 121 * cDl (2 * m).
    Proof.
      intros m. replace (2 * S m)%nat with (S (S (2 * m))) by lia. rewrite !cDl_S, Rmult_assoc, (Rmult_comm (81 / 121)). apply Rmult_le_compat_l; [apply cDl_nonneg|].
      replace (S (S (2 * m))) with (2 * S m)%nat by lia.
      pose proof (rho_g (2 * S m)) as R1. pose proof (rho_g (S (2 * S m))) as R2. eapply Rle_trans; [apply Rmult_le_compat; [lra|lra|exact (proj2 R1)|exact (proj2 R2)]|].
      apply rho_pair; [split; [apply (cg_rng a b Ha Hb)|apply (cg_half a b Ha)]|]. split; [apply (cg_rng a b Ha Hb)|apply (cg_pair a b Ha Hb)].
    Qed.
    Lemma cDl_geo : forall m, cDl (2 * m) <= 9 * (81 / 121) ^ m.
    Proof.
      induction m as [|m IH].
      - simpl (2 * 0)%nat. unfold cDl. pose proof (cw_up a b Ha Hb x ltac:(lra) 1). pose proof (cw_1 a b Ha Hb x ltac:(lra) 0). assert (/ (1 - x) <= 10). { replace 10 with (/ (1 / 10)) by field. apply Rinv_le_contravar; lra. } simpl (_ ^ 0). lra.
      - eapply Rle_trans; [apply cDl_two|]. cbn [pow]. lra.
    Qed.
  End Inc.
End Mono.
