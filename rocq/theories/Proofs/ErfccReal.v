(** * t exp (P (t)) against exp (z^2) erfc z, over the reals *)

From Coq Require Import ZArith Reals Bool Lra Lia List.
From Flocq Require Import Core.Raux.
From Verif.Spec Require Import ErfSpec.
From Verif.Proofs Require Import ErfcODE ExpBounds ErfcxMac ErfccPoly ErfcxAcc.
Open Scope R_scope.
Local Notation exp := Rtrigo_def.exp.

Definition tz (z : R) : R := 2 / (2 + z).
Definition qq (z : R) : R := tz z * exp (PP (tz z)).

Lemma tz_range : forall z, 0 <= z -> 0 < tz z <= 1.
Proof.
  intros z Hz. unfold tz. split; [apply Rdiv_lt_0_compat; lra|].
  apply (Rmult_le_reg_r (2 + z)); [lra|]. unfold Rdiv. rewrite Rmult_assoc, Rinv_l by lra. lra.
Qed.

Lemma derive_tz : forall z, 0 <= z -> derivable_pt_lim tz z (- (tz z ^ 2 / 2)).
Proof.
  intros z Hz. unfold tz.
  replace (- ((2 / (2 + z)) ^ 2 / 2)) with ((0 * (2 + z) - (0 + 1) * 2) / Rsqr (2 + z)) by (unfold Rsqr; field; lra).
  apply (derivable_pt_lim_div (fun _ => 2) (fun z => 2 + z)); [apply derivable_pt_lim_const| |lra].
  apply (derivable_pt_lim_plus (fun _ => 2) id); [apply derivable_pt_lim_const|apply derivable_pt_lim_id].
Qed.

Lemma derive_qq : forall z, 0 <= z -> derivable_pt_lim qq z (2 * z * qq z - SS (tz z)).
Proof.
  intros z Hz. pose proof (tz_range z Hz) as T.
  assert (Z : z * tz z = 2 - 2 * tz z) by (unfold tz; field; lra).
  replace (2 * z * qq z - SS (tz z)) with
    (- (tz z ^ 2 / 2) * exp (PP (tz z)) + tz z * (exp (PP (tz z)) * (DP (tz z) * - (tz z ^ 2 / 2)))).
  - apply (derivable_pt_lim_mult tz (fun z => exp (PP (tz z)))); [apply derive_tz, Hz|].
    apply (derivable_pt_lim_comp (fun z => PP (tz z)) exp); [|apply derivable_pt_lim_exp].
    apply (derivable_pt_lim_comp tz PP); [apply derive_tz, Hz|apply derive_PP].
  - unfold qq, SS, QQ. replace (2 * z * (tz z * exp (PP (tz z)))) with (2 * (z * tz z) * exp (PP (tz z))) by ring.
    rewrite Z. set (t := tz z). set (e := exp (PP t)). field.
Qed.

(** a solution of g' = 2 z g + r with r >= 0 that grows slowly is nonpositive *)
Lemma sign_at_infinity : forall (g r : R -> R),
  (forall z, 0 <= z -> derivable_pt_lim g z (2 * z * g z + r z)) -> (forall z, 0 <= z -> 0 <= r z) ->
  (forall eps, 0 < eps -> exists B, forall z, B <= z -> exp (- (z * z)) * g z <= eps) ->
  forall z, 0 <= z -> g z <= 0.
Proof.
  intros g r D P L z Hz.
  set (h := fun t => exp (- (t * t)) * g t).
  assert (Dh : forall t, 0 <= t -> derivable_pt_lim h t (exp (- (t * t)) * r t)).
  { intros t Ht. replace (exp (- (t * t)) * r t) with
      ((- (2 * t) * exp (- (t * t))) * g t + exp (- (t * t)) * (2 * t * g t + r t)) by ring.
    apply (derivable_pt_lim_mult (fun t => exp (- (t * t))) g); [apply derive_nsq|apply D; exact Ht]. }
  enough (Hh : h z <= 0).
  { unfold h in Hh. pose proof (exp_pos (- (z * z))). destruct (Rle_or_lt (g z) 0) as [A|A]; [exact A|].
    assert (0 < exp (- (z * z)) * g z) by (apply Rmult_lt_0_compat; assumption). lra. }
  apply le_epsilon. intros eps He. destruct (L eps He) as [B HB].
  set (b := Rmax B z). pose proof (Rmax_l B z). pose proof (Rmax_r B z).
  apply Rle_trans with (h b).
  - apply (mono_on h (fun t => exp (- (t * t)) * r t) z b); [assumption| |].
    + intros t Ht. apply Dh. lra.
    + intros t Ht. apply Rmult_le_pos; [left; apply exp_pos|apply P; lra].
  - rewrite Rplus_0_l. apply HB. assumption.
Qed.

Section Real.
  Context (E : R -> R) (HE : erfc_function E).
  Notation w := (scaled_erfc E).
  Definition rho := 1.07 / 10 ^ 13.

  Lemma qq_bound : forall z, 0 <= z -> 0 < qq z <= 2.
  Proof.
    intros z Hz. pose proof (tz_range z Hz) as T. unfold qq.
    assert (exp (PP (tz z)) <= 2).
    { apply Rle_trans with (exp (2 / 10 ^ 7)); [apply exp_mono, PP_le; lra|]. eapply Rle_trans; [apply exp_tiny; lra|]. lra. }
    pose proof (exp_pos (PP (tz z))). split; [apply Rmult_lt_0_compat; lra|].
    apply Rle_trans with (1 * 2); [apply Rmult_le_compat; lra|lra].
  Qed.

  Lemma nsq_small : forall eps, 0 < eps -> exists B, forall z, B <= z -> exp (- (z * z)) <= eps.
  Proof.
    intros eps He. exists (1 + / eps). intros z Hz. pose proof (Rinv_0_lt_compat eps He) as I.
    rewrite exp_Ropp. replace eps with (/ / eps) by (rewrite Rinv_inv; reflexivity).
    apply Rinv_le_contravar; [exact I|]. pose proof (exp_ineq1_le (z * z)). assert (z <= z * z) by nra. lra.
  Qed.

  (** k times qq against c times w, where k (c - S) has a sign *)
  Lemma compare : forall c s, (s = 1 \/ s = -1) ->
    (forall t, 0 <= t <= 1 -> 0 <= s * (c - SS t)) -> forall z, 0 <= z -> s * (K * qq z - c * w z) <= 0.
  Proof.
    intros c s Hs Hc. apply (sign_at_infinity _ (fun z => K * (s * (c - SS (tz z))))).
    - intros z Hz. replace (2 * z * (s * (K * qq z - c * w z)) + K * (s * (c - SS (tz z)))) with
        (s * (K * (2 * z * qq z - SS (tz z)) - c * (2 * z * w z - K))) by ring.
      apply (derivable_pt_lim_scal (fun z => K * qq z - c * w z)).
      apply (derivable_pt_lim_minus (fun z => K * qq z) (fun z => c * w z)).
      + apply (derivable_pt_lim_scal qq). apply derive_qq, Hz.
      + apply (derivable_pt_lim_scal w). apply derive_w, HE.
    - intros z Hz. pose proof K_pos. pose proof (tz_range z Hz). apply Rmult_le_pos; [lra|]. apply Hc. lra.
    - intros eps He. pose proof K_pos as KP. set (k := K) in *. clearbody k.
      destruct (nsq_small (eps / (4 * k))) as [B1 H1]; [apply Rdiv_lt_0_compat; lra|].
      destruct (proj2 HE (eps / (2 * (Rabs c + 1)))) as [B2 H2]; [pose proof (Rabs_pos c); apply Rdiv_lt_0_compat; lra|].
      exists (Rmax 0 (Rmax B1 B2)). intros z Hz.
      assert (Z0 : 0 <= z) by (eapply Rle_trans; [apply Rmax_l|exact Hz]).
      assert (Z1 : B1 <= z) by (eapply Rle_trans; [eapply Rle_trans; [apply Rmax_l|apply Rmax_r]|exact Hz]).
      assert (Z2 : B2 <= z) by (eapply Rle_trans; [eapply Rle_trans; [apply Rmax_r|apply Rmax_r]|exact Hz]).
      specialize (H1 z Z1). specialize (H2 z Z2). pose proof (qq_bound z Z0) as Q.
      pose proof (exp_pos (- (z * z))) as EP. pose proof (Rabs_pos c) as CP.
      replace (exp (- (z * z)) * (s * (k * qq z - c * w z))) with
        (s * (k * (exp (- (z * z)) * qq z)) + s * - (c * (exp (- (z * z)) * w z))) by ring.
      rewrite <- (E_w E z).
      assert (A1 : Rabs (k * (exp (- (z * z)) * qq z)) <= eps / 2).
      { rewrite Rabs_pos_eq by (apply Rmult_le_pos; [lra|apply Rmult_le_pos; lra]).
        apply Rle_trans with (k * (eps / (4 * k) * 2)); [|right; field; lra].
        apply Rmult_le_compat_l; [lra|]. apply Rmult_le_compat; lra. }
      assert (A2 : Rabs (- (c * E z)) <= eps / 2).
      { rewrite Rabs_Ropp, Rabs_mult. apply Rle_trans with ((Rabs c + 1) * (eps / (2 * (Rabs c + 1)))); [|right; field; lra].
        apply Rmult_le_compat; try apply Rabs_pos; lra. }
      apply Rabs_le_inv in A1, A2. destruct Hs as [-> | ->]; lra.
  Qed.

  Lemma ratio : forall z, 0 <= z -> (SS 1 - rho) * w z <= K * qq z <= (SS 1 + rho) * w z.
  Proof.
    intros z Hz. split.
    - pose proof (compare (SS 1 - rho) (-1) ltac:(auto)) as H. enough (-1 * (K * qq z - (SS 1 - rho) * w z) <= 0) by lra.
      apply H; [|exact Hz]. intros t Ht. pose proof (SS_var t 1 Ht ltac:(lra)) as V. apply Rabs_le_inv in V. unfold rho. lra.
    - pose proof (compare (SS 1 + rho) 1 ltac:(auto)) as H. enough (1 * (K * qq z - (SS 1 + rho) * w z) <= 0) by lra.
      apply H; [|exact Hz]. intros t Ht. pose proof (SS_var t 1 Ht ltac:(lra)) as V. apply Rabs_le_inv in V. unfold rho. lra.
  Qed.

  Lemma K_ge : 1.128 <= K.
  Proof.
    pose proof ErfcxAsym.isp_range as [L _]. unfold Rdiv. lra.
  Qed.

  (** t exp (P t) is exp (z^2) erfc z within 2e-13 *)
  Theorem qq_near : forall z, 0 <= z -> Rabs (qq z - w z) <= 2 / 10 ^ 13 * w z.
  Proof.
    intros z Hz. pose proof (ratio z Hz) as [L U]. pose proof (ratio 0 ltac:(lra)) as [L0 U0].
    pose proof (w_pos_all E HE z) as WP. pose proof (E0_near E HE) as W0. rewrite <- w_0_eq in W0. apply Rabs_le_inv in W0.
    assert (Q0 : Rabs (qq 0 - 1) <= 2 / 10 ^ 16).
    { unfold qq. replace (tz 0) with 1 by (unfold tz; field). rewrite Rmult_1_l.
      pose proof (exp_near 0 (PP 1) (/ 10 ^ 16) ltac:(lra) ltac:(rewrite Rminus_0_r; apply PP_1)) as N. rewrite exp_0 in N. lra. }
    apply Rabs_le_inv in Q0. pose proof K_ge as KG. set (k := K) in *. clearbody k. set (C := SS 1) in *. clearbody C.
    set (w0 := w 0) in *. set (q0 := qq 0) in *. set (W := w z) in *. set (q := qq z) in *. clearbody w0 q0 W q. unfold rho in *.
    (* C is close to k *)
    assert (C1 : k * (1 - 2 / 10 ^ 16) <= (C + 1.07 / 10 ^ 13) * (1 + 75 / 10 ^ 16)).
    { apply Rle_trans with (k * q0); [apply Rmult_le_compat_l; lra|]. eapply Rle_trans; [exact U0|].
      assert (0 <= C + 1.07 / 10 ^ 13).
      { destruct (Rle_or_lt 0 (C + 1.07 / 10 ^ 13)) as [X|X]; [exact X|].
        assert (k * q0 < 0) by (eapply Rle_lt_trans; [exact U0|]; nra). assert (0 < k * q0) by (apply Rmult_lt_0_compat; lra). lra. }
      apply Rmult_le_compat_l; lra. }
    assert (C2 : (C - 1.07 / 10 ^ 13) * (1 - 75 / 10 ^ 16) <= k * (1 + 2 / 10 ^ 16)).
    { apply Rle_trans with (k * q0); [|apply Rmult_le_compat_l; lra]. eapply Rle_trans; [|exact L0].
      destruct (Rle_or_lt 0 (C - 1.07 / 10 ^ 13)) as [X|X]; [apply Rmult_le_compat_l; lra|].
      exfalso. lra. }
    assert (C3 : k * (1 - 2 / 10 ^ 13) <= C - 1.07 / 10 ^ 13) by lra.
    assert (C4 : C + 1.07 / 10 ^ 13 <= k * (1 + 2 / 10 ^ 13)) by lra.
    assert (D1 : k * (1 - 2 / 10 ^ 13) * W <= k * q) by (eapply Rle_trans; [apply Rmult_le_compat_r; [lra|exact C3]|exact L]).
    assert (D2 : k * q <= k * (1 + 2 / 10 ^ 13) * W) by (eapply Rle_trans; [exact U|apply Rmult_le_compat_r; [lra|exact C4]]).
    rewrite Rmult_assoc in D1, D2. apply Rmult_le_reg_l in D1, D2; try lra.
    apply Rabs_le. lra.
  Qed.
End Real.
