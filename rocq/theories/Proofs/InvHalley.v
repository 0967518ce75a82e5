(** * One step of the inverse complementary error function *)

From Coq Require Import ZArith Reals Bool Lra Lia List.
From Flocq Require Import Core IEEE754.BinarySingleNaN IEEE754.Binary IEEE754.Bits.
From Verif.Model Require Import Base Arith Utils Error.
From Verif.Float Require Import Bits64 Ieee Exact Platforms.
From Verif.Spec Require Import F64Spec Outcome ErfSpec LibmSpec.
From Verif.Proofs Require Import F64 F64Ops Lits Ext ErfcODE ErfcxAsym ErfcxAcc ErfcAcc GaussInt InvGuess PiBounds BetaiAcc EulerGamma.
Import ListNotations.
Open Scope R_scope.
Local Notation exp := Rtrigo_def.exp. Local Notation sqrt := R_sqrt.sqrt. Local Notation ln := Rpower.ln. Local Notation PI := Rtrigo1.PI.

(** ** Over the reals: the error is cubed *)
Section Real.
  Variable E : R -> R.
  Hypothesis HE : erfc_function E.
  Definition phi (x : R) : R := K * exp (- (x * x)).
  Lemma phi_pos : forall x, 0 < phi x.
  Proof. intros. apply Rmult_lt_0_compat; [apply K_pos|apply exp_pos]. Qed.

  Section S.
    Variables (x s rho a Q : R).
    Hypothesis Hs : s * s = 1.
    Hypothesis Hr : 0 <= rho.
    Hypothesis Ha : Rabs x * rho <= a.
    Hypothesis Ha1 : a <= 1 / 2.
    Hypothesis HQ : exp (2 * a) <= Q.
    Let X := s * x.
    Definition fq (r : R) : R := exp (2 * X * r - r * r).
    Definition fJ (r : R) : R := s * (E (x - s * r) - E x) / phi x.
    Definition fD (r : R) : R := r - fJ r + X * r * fJ r.
    Definition fd (r : R) : R := 1 - fq r + X * fJ r + X * r * fq r.

    Lemma X_abs : Rabs X = Rabs x.
    Proof.
      unfold X. rewrite Rabs_mult. assert (Rabs s = 1); [|rewrite H; ring].
      assert (H : Rabs s * Rabs s = 1) by (rewrite <- Rabs_mult, Hs; apply Rabs_R1). pose proof (Rabs_pos s). nra.
    Qed.
    Lemma Xr : forall r, 0 <= r <= rho -> Rabs (X * r) <= a.
    Proof.
      intros r H. rewrite Rabs_mult, X_abs, (Rabs_pos_eq r) by lra. eapply Rle_trans; [|exact Ha]. apply Rmult_le_compat_l; [apply Rabs_pos|lra].
    Qed.
    Lemma fq_rng : forall r, 0 <= r <= rho -> 0 < fq r <= Q.
    Proof.
      intros r H. split; [apply exp_pos|]. unfold fq. eapply Rle_trans; [|exact HQ]. pose proof (Xr r H) as A. apply Rabs_le_inv in A.
      assert (0 <= r * r) by apply Rle_0_sqr. destruct (Rle_lt_or_eq_dec (2 * X * r - r * r) (2 * a) ltac:(lra)) as [L| ->]; [left; apply exp_increasing, L|lra].
    Qed.
    Lemma derive_fq : forall r, derivable_pt_lim fq r ((2 * X - 2 * r) * fq r).
    Proof.
      intros r. unfold fq. replace ((2 * X - 2 * r) * exp (2 * X * r - r * r)) with (exp (2 * X * r - r * r) * (2 * X * 1 - (1 * r + r * 1))) by ring.
      apply (derivable_pt_lim_comp (fun r => 2 * X * r - r * r) exp); [|apply derivable_pt_lim_exp].
      apply (derivable_pt_lim_minus (fun r => 2 * X * r) (fun r => r * r)).
      - apply (derivable_pt_lim_scal id (2 * X)), derivable_pt_lim_id.
      - apply (derivable_pt_lim_mult id id); apply derivable_pt_lim_id.
    Qed.
    Lemma derive_fJ : forall r, derivable_pt_lim fJ r (fq r).
    Proof.
      intros r. pose proof (phi_pos x) as P0. destruct HE as [D _].
      assert (Eq : fq r = s * (- K * exp (- ((x - s * r) * (x - s * r))) * (0 - s * 1) - 0) * / phi x + s * (E (x - s * r) - E x) * 0).
      { unfold fq, X, phi. replace (2 * (s * x) * r - r * r) with (- ((x - s * r) * (x - s * r)) + x * x).
        - rewrite exp_plus. pose proof (exp_sq_inv x) as I. pose proof (exp_pos (- (x * x))) as PX. pose proof K_pos as KP. pose proof sqrtPI_pos.
          set (w := exp (- ((x - s * r) * (x - s * r)))). set (k := K) in *.
          replace (s * (- k * w * (0 - s * 1) - 0) * / (k * exp (- (x * x)))) with ((s * s) * w * / exp (- (x * x))) by (field; lra).
          rewrite Hs. replace (exp (x * x)) with (/ exp (- (x * x))); [ring|]. apply Rmult_eq_reg_r with (exp (- (x * x))); [|lra]. rewrite I. field. lra.
        - replace (- ((x - s * r) * (x - s * r)) + x * x) with (2 * (s * x) * r - (s * s) * (r * r)) by ring. rewrite Hs. ring. }
      rewrite Eq. unfold fJ.
      apply (derivable_pt_lim_mult (fun r => s * (E (x - s * r) - E x)) (fun _ => / phi x)); [|apply derivable_pt_lim_const].
      apply (derivable_pt_lim_scal (fun r => E (x - s * r) - E x) s).
      apply (derivable_pt_lim_minus (fun r => E (x - s * r)) (fun _ => E x)); [|apply derivable_pt_lim_const].
      apply (derivable_pt_lim_comp (fun r => x - s * r) E); [|apply D].
      apply (derivable_pt_lim_minus (fun _ => x) (fun r => s * r)); [apply derivable_pt_lim_const|]. apply (derivable_pt_lim_scal id s), derivable_pt_lim_id.
    Qed.
    Lemma fJ_0 : fJ 0 = 0. Proof. unfold fJ. replace (x - s * 0) with x by ring. unfold Rdiv. ring. Qed.
    Lemma fJ_rng : forall r, 0 <= r <= rho -> 0 <= fJ r <= Q * r.
    Proof.
      intros r H. split.
      - rewrite <- fJ_0. apply (mono_on fJ fq); [lra|intros t _; apply derive_fJ|intros t Ht; left; apply fq_rng; lra].
      - enough (Q * 0 - fJ 0 <= Q * r - fJ r) by (rewrite fJ_0 in *; lra).
        apply (mono_on (fun r => Q * r - fJ r) (fun r => Q * 1 - fq r)); [lra| |].
        + intros t _. apply (derivable_pt_lim_minus (fun r => Q * r) fJ); [apply (derivable_pt_lim_scal id Q), derivable_pt_lim_id|apply derive_fJ].
        + intros t Ht. pose proof (fq_rng t ltac:(lra)). lra.
    Qed.
    Lemma derive_fd : forall r, derivable_pt_lim fd r (2 * r * fq r * (1 + X * X - X * r)).
    Proof.
      intros r. unfold fd.
      replace (2 * r * fq r * (1 + X * X - X * r)) with (0 - (2 * X - 2 * r) * fq r + X * fq r + (X * 1 * fq r + X * r * ((2 * X - 2 * r) * fq r))) by ring.
      apply (derivable_pt_lim_plus (fun r => 1 - fq r + X * fJ r) (fun r => X * r * fq r)).
      - apply (derivable_pt_lim_plus (fun r => 1 - fq r) (fun r => X * fJ r)).
        + apply (derivable_pt_lim_minus (fun _ => 1) fq); [apply derivable_pt_lim_const|apply derive_fq].
        + apply (derivable_pt_lim_scal fJ X), derive_fJ.
      - apply (derivable_pt_lim_mult (fun r => X * r) fq); [apply (derivable_pt_lim_scal id X), derivable_pt_lim_id|apply derive_fq].
    Qed.
    Let C := Q * (1 + x * x + a).
    Lemma XX : X * X = x * x. Proof. unfold X. replace (s * x * (s * x)) with (s * s * (x * x)) by ring. rewrite Hs. ring. Qed.
    Lemma fd_rng : forall r, 0 <= r <= rho -> 0 <= fd r <= C * (r * r).
    Proof.
      intros r H. assert (Z : fd 0 = 0). { unfold fd, fq. rewrite fJ_0. replace (2 * X * 0 - 0 * 0) with 0 by ring. rewrite exp_0. ring. }
      assert (B : forall t, 0 <= t <= rho -> 0 <= 1 + X * X - X * t <= 1 + x * x + a).
      { intros t Ht. pose proof (Xr t Ht) as A. apply Rabs_le_inv in A. rewrite XX. assert (0 <= x * x) by apply Rle_0_sqr. lra. }
      split.
      - rewrite <- Z. apply (mono_on fd (fun r => 2 * r * fq r * (1 + X * X - X * r))); [lra|intros t _; apply derive_fd|].
        intros t Ht. destruct (fq_rng t ltac:(lra)). pose proof (B t ltac:(lra)). apply Rmult_le_pos; [apply Rmult_le_pos; lra|lra].
      - enough (C * (0 * 0) - fd 0 <= C * (r * r) - fd r) by (rewrite Z in *; lra).
        apply (mono_on (fun r => C * (r * r) - fd r) (fun r => C * (1 * r + r * 1) - 2 * r * fq r * (1 + X * X - X * r))); [lra| |].
        + intros t _. apply (derivable_pt_lim_minus (fun r => C * (r * r)) fd); [|apply derive_fd].
          apply (derivable_pt_lim_scal (fun r => r * r) C), (derivable_pt_lim_mult id id); apply derivable_pt_lim_id.
        + intros t Ht. destruct (fq_rng t ltac:(lra)). pose proof (B t ltac:(lra)).
          assert (fq t * (1 + X * X - X * t) <= C) by (unfold C; apply Rmult_le_compat; lra).
          assert (2 * t * (fq t * (1 + X * X - X * t)) <= 2 * t * C) by (apply Rmult_le_compat_l; lra). lra.
    Qed.
    Lemma fD_rng : 0 <= fD rho <= C / 3 * (rho * (rho * rho)).
    Proof.
      assert (DD : forall r, derivable_pt_lim fD r (fd r)).
      { intros r. unfold fD, fd. replace (1 - fq r + X * fJ r + X * r * fq r) with (1 - fq r + (X * 1 * fJ r + X * r * fq r)) by ring.
        apply (derivable_pt_lim_plus (fun r => r - fJ r) (fun r => X * r * fJ r)).
        - apply (derivable_pt_lim_minus id fJ); [apply derivable_pt_lim_id|apply derive_fJ].
        - apply (derivable_pt_lim_mult (fun r => X * r) fJ); [apply (derivable_pt_lim_scal id X), derivable_pt_lim_id|apply derive_fJ]. }
      assert (Z : fD 0 = 0) by (unfold fD; rewrite fJ_0; ring).
      split.
      - rewrite <- Z. apply (mono_on fD fd); [lra|intros t _; apply DD|intros t Ht; apply fd_rng; lra].
      - enough (C / 3 * (0 * (0 * 0)) - fD 0 <= C / 3 * (rho * (rho * rho)) - fD rho) by (rewrite Z in *; lra).
        apply (mono_on (fun r => C / 3 * (r * (r * r)) - fD r) (fun r => C / 3 * (1 * (r * r) + r * (1 * r + r * 1)) - fd r)); [lra| |].
        + intros t _. apply (derivable_pt_lim_minus (fun r => C / 3 * (r * (r * r))) fD); [|apply DD].
          apply (derivable_pt_lim_scal (fun r => r * (r * r)) (C / 3)), (derivable_pt_lim_mult id (fun r => r * r)); [apply derivable_pt_lim_id|].
          apply (derivable_pt_lim_mult id id); apply derivable_pt_lim_id.
        + intros t Ht. pose proof (fd_rng t ltac:(lra)). lra.
    Qed.
  End S.

  (** J is minus the residual over the derivative *)
  Lemma halley : forall x z a Q, Rabs (x * (x - z)) <= a -> a <= 1 / 2 -> exp (2 * a) <= Q ->
    let e := x - z in let J := (E z - E x) / phi x in
    Rabs J <= Q * Rabs e /\ Rabs (e - J + x * e * J) <= Q * (1 + x * x + a) / 3 * (Rabs e * (Rabs e * Rabs e)).
  Proof.
    intros x z a Q Ha Ha1 HQ e J. fold e in Ha. rewrite Rabs_mult in Ha.
    set (s := if Rle_dec 0 e then 1 else - (1)).
    assert (Hs : s * s = 1) by (unfold s; destruct (Rle_dec 0 e); ring).
    assert (Se : s * Rabs e = e) by (unfold s; destruct (Rle_dec 0 e); [rewrite Rabs_pos_eq by lra; ring|rewrite Rabs_left1 by lra; ring]).
    assert (JJ : fJ x s (Rabs e) = s * J). { unfold fJ, J. rewrite Se. unfold e. replace (x - (x - z)) with z by ring. unfold Rdiv. ring. }
    pose proof (fJ_rng x s (Rabs e) a Q Hs Ha HQ (Rabs e) ltac:(pose proof (Rabs_pos e); lra)) as BJ.
    pose proof (fD_rng x s (Rabs e) a Q Hs (Rabs_pos e) Ha Ha1 HQ) as BD. rewrite JJ in BJ.
    assert (S1 : Rabs s = 1) by (unfold s; destruct (Rle_dec 0 e); [apply Rabs_R1|rewrite Rabs_Ropp; apply Rabs_R1]).
    split.
    - replace (Rabs J) with (Rabs (s * J)) by (rewrite Rabs_mult, S1; ring). rewrite Rabs_pos_eq by lra. lra.
    - unfold fD in BD. rewrite JJ in BD.
      replace (Rabs e - s * J + s * x * Rabs e * (s * J)) with (s * (e - J + x * e * J)) in BD.
      + replace (Rabs (e - J + x * e * J)) with (Rabs (s * (e - J + x * e * J))) by (rewrite Rabs_mult, S1; ring). rewrite Rabs_pos_eq by lra. lra.
      + rewrite <- Se at 1 2. replace (s * x * Rabs e * (s * J)) with (s * s * (x * Rabs e * J)) by ring.
        replace (s * (s * Rabs e - J + x * (s * Rabs e) * J)) with (s * s * Rabs e - s * J + s * s * (x * Rabs e * J)) by ring. rewrite Hs. ring.
  Qed.

  (** erfc is at most 1.45 times its derivative *)
  Lemma E_phi : forall x, - (1 / 100) <= x -> 0 <= E x <= 1.45 * phi x.
  Proof.
    intros x Hx. split; [apply (E_nonneg E HE)|]. pose proof r2_rng as R2.
    assert (Y : - (1 / 50) <= x * sqrt 2).
    { destruct (Rle_or_lt 0 x) as [L|L]; [assert (0 <= x * sqrt 2) by (apply Rmult_le_pos; lra); lra|].
      assert (x * 1.415 <= x * sqrt 2) by (apply Rmult_le_compat_neg_l; lra). lra. }
    pose proof (bar_up E HE (x * sqrt 2) Y) as B. unfold Ey, ga, kap in B.
    replace (x * sqrt 2 / sqrt 2) with x in B by (field; lra). 
    replace (x * sqrt 2 * (x * sqrt 2) / 2) with (x * x) in B by (replace (x * sqrt 2 * (x * sqrt 2)) with (x * x * (sqrt 2 * sqrt 2)) by ring; rewrite r2_sq; field).
    destruct (mA_range 100001 (x * sqrt 2) ltac:(lia) Y) as [M0 M1]. eapply Rle_trans; [exact B|]. unfold phi. pose proof (exp_pos (- (x * x))) as XP. pose proof K_pos as KP.
    set (m := mA 100001 (x * sqrt 2)) in *. clearbody m. set (w := exp (- (x * x))) in *. set (k := K) in *.
    replace (k / sqrt 2 * (m * w)) with (m / sqrt 2 * (k * w)) by (field; lra).
    apply Rmult_le_compat_r; [left; apply Rmult_lt_0_compat; assumption|].
    apply Rmult_le_reg_r with (sqrt 2); [lra|]. unfold Rdiv. rewrite Rmult_assoc, Rinv_l by lra. lra.
  Qed.
End Real.

(** ** In floating point *)

Local Notation T75 := (bpow radix2 (-1075)).
Lemma fl75 : forall r x, rounds r x -> Rabs x <= 1000 -> fin r /\ Rabs (Binary.B2R r - x) <= u53 * Rabs x + T75.
Proof.
  intros r x Hr Hx. pose proof (rnd_abs_err x) as Re.
  replace (bpow radix2 (-53)) with u53 in Re by (simpl; lra).
  assert (T : T75 <= / 2 ^ 100).
  { replace (/ 2 ^ 100) with (bpow radix2 (-100)) by (simpl; lra). apply bpow_le. lia. }
  destruct (rounds_small _ _ Hr) as [F V].
  - replace (rnd x) with (x + (rnd x - x)) by ring. eapply Rle_lt_trans; [apply Rabs_triang|]. pose proof Om_big.
    assert (u53 * Rabs x <= 1 * 1000) by (apply Rmult_le_compat; try lra; apply Rabs_pos). lra.
  - split; [exact F|]. rewrite V. lra.
Qed.

Lemma T75_pos : 0 < T75. Proof. apply bpow_gt_0. Qed.

Lemma phi_low : forall x, x * x <= 676 -> T75 <= / 2 ^ 90 * phi x.
Proof.
  intros x Hx. unfold phi. pose proof isp_range as IR.
  assert (KG : 1 <= K) by (unfold Rdiv; lra).
  assert (X : bpow radix2 (-976) <= exp (- (x * x))).
  { rewrite <- (exp_ln (bpow radix2 (-976))) by apply bpow_gt_0. rewrite ln_bpow_eq. pose proof ln2_low.
    destruct (Rle_lt_or_eq_dec (IZR (-976) * ln 2) (- (x * x)) ltac:(simpl; lra)) as [L| ->]; [left; apply exp_increasing, L|lra]. }
  replace T75 with (/ 2 ^ 90 * bpow radix2 (-985)).
  - apply Rmult_le_compat_l; [lra|]. apply Rle_trans with (1 * bpow radix2 (-976)); [rewrite Rmult_1_l; apply bpow_le; lia|].
    apply Rmult_le_compat; [lra|apply bpow_ge_0|exact KG|exact X].
  - replace (/ 2 ^ 90) with (bpow radix2 (-90)) by (simpl; lra). rewrite <- bpow_plus. reflexivity.
Qed.

Lemma lit_K : fin (f64_lit 1.12837916709551257389615890312154517) /\ Rabs (Binary.B2R (f64_lit 1.12837916709551257389615890312154517) - K) <= / 2 ^ 51.
Proof.
  assert (V : R_of_dec 1.12837916709551257389615890312154517 = 112837916709551257389615890312154517 / 10 ^ 35).
  { unfold R_of_dec; cbn [dman dexp]; rewrite powerRZ_10; simpl; lra. }
  destruct (fl75 _ _ (lit_spec 1.12837916709551257389615890312154517)) as [F H]; [rewrite V; rewrite Rabs_pos_eq; lra|]. split; [exact F|].
  rewrite V in H. rewrite (Rabs_pos_eq (_ / _)) in H by lra. pose proof isp_bounds as [L U]. unfold isp70 in L, U. change (2 ^ 70)%Z with 1180591620717411303424%Z in L, U.
  assert (T : T75 <= / 2 ^ 100). { replace (/ 2 ^ 100) with (bpow radix2 (-100)) by (simpl; lra). apply bpow_le. lia. }
  apply Rabs_le_inv in H. unfold Rdiv at 1. apply Rabs_le. lra.
Qed.

Lemma exp_near : forall d, Rabs d <= 1 / 4 -> Rabs (exp d - 1) <= 2 * Rabs d.
Proof.
  intros d H. apply Rabs_le_inv in H. pose proof (exp_ineq1_le d) as L. pose proof (exp_ineq1_le (- d)) as U. rewrite exp_Ropp in U. pose proof (exp_pos d) as P0.
  assert (U' : exp d * (1 - d) <= 1). { apply Rmult_le_reg_l with (/ exp d); [apply Rinv_0_lt_compat, P0|]. rewrite <- Rmult_assoc, Rinv_l by lra. lra. }
  destruct (Rle_or_lt 0 d) as [N|N].
  - rewrite (Rabs_pos_eq d) by lra. apply Rabs_le. split; [lra|]. assert (exp d <= 2) by nra. nra.
  - rewrite (Rabs_left d) by lra. assert (exp d <= 1) by nra. apply Rabs_le. lra.
Qed.

(** the real arithmetic of a step; f is the derivative *)
Lemma step_core : forall f X z e J Ex p ev er c m den q qh r a Q T D,
  0 < f -> 0 <= T -> T <= / 2 ^ 90 * f -> - (1 / 100) <= X <= 25.7 -> e = X - z -> p = Ex + J * f -> 0 <= Ex <= 1.45 * f ->
  Rabs ev <= (/ 2 ^ 41 + / 2 ^ 51 * 661) * Ex ->
  Rabs (er - (Ex + ev - p)) <= u53 * Rabs (Ex + ev - p) + T ->
  Rabs (c - f) <= / 2 ^ 42 * f ->
  Rabs (m - X * er) <= u53 * Rabs (X * er) + T ->
  Rabs (den - (c - m)) <= u53 * Rabs (c - m) + T ->
  (den <> 0 -> q = er / den) -> 
  (den <> 0 -> Rabs (qh - q) <= u53 * Rabs q + T) -> T <= / 2 ^ 90 ->
  Rabs (r - (X + qh)) <= u53 * Rabs (X + qh) + T ->
  0 <= a <= 3 / 25 -> 1 <= Q <= 1.3 -> Rabs (X * e) <= a -> Rabs e <= 1 / 50 -> Rabs J <= Q * Rabs e -> D = e - J + X * e * J ->
  den <> 0 /\ Rabs (er / den) <= 1 / 20 /\ Rabs (r - z) <= Rabs D / (1 - Q * a) + 1.45 / 2 ^ 40 + / 2 ^ 34 * Rabs e.
Proof.
  intros f X z e J Ex p ev er c m den q qh r a Q T D F0 T0 Tf HX He Hp HEx Hev Her Hc Hm Hden Hq Hqh T1 Hr Ha HQ HXe Hee HJ HD.
  set (g := er / f + J). set (bb := 1 + X * J). set (h := den / f - bb).
  assert (JB : Rabs J <= 1.3 * Rabs e). { eapply Rle_trans; [exact HJ|]. apply Rmult_le_compat_r; [apply Rabs_pos|lra]. }
  assert (JB2 : Rabs J <= 0.026) by lra.
  assert (XJ : Rabs (X * J) <= Q * a).
  { rewrite Rabs_mult. rewrite Rabs_mult in HXe. apply Rle_trans with (Rabs X * (Q * Rabs e)); [apply Rmult_le_compat_l; [apply Rabs_pos|exact HJ]|].
    replace (Rabs X * (Q * Rabs e)) with (Q * (Rabs X * Rabs e)) by ring. apply Rmult_le_compat_l; lra. }
  assert (QA : Q * a <= 0.156). { apply Rle_trans with (1.3 * (3 / 25)); [apply Rmult_le_compat; lra|lra]. }
  assert (Bb : 1 - Q * a <= bb <= 1.156) by (unfold bb; apply Rabs_le_inv in XJ; lra).
  assert (XA : Rabs X <= 25.7) by (apply Rabs_le; lra).
  assert (evB : Rabs ev <= 2.386 / 2 ^ 41 * f).
  { eapply Rle_trans; [exact Hev|]. apply Rle_trans with ((/ 2 ^ 41 + / 2 ^ 51 * 661) * (1.45 * f)); [apply Rmult_le_compat_l; lra|lra]. }
  assert (GB : Rabs (er + J * f) <= 1.2 / 2 ^ 40 * f).
  { assert (A1 : Rabs (Ex + ev - p) <= (0.026 + 2.386 / 2 ^ 41) * f).
    { rewrite Hp. replace (Ex + ev - (Ex + J * f)) with (ev + - (J * f)) by ring. eapply Rle_trans; [apply Rabs_triang|]. rewrite Rabs_Ropp, Rabs_mult, (Rabs_pos_eq f) by lra.
      assert (Rabs J * f <= 0.026 * f) by (apply Rmult_le_compat_r; lra). lra. }
    replace (er + J * f) with ((er - (Ex + ev - p)) + ev) by (rewrite Hp; ring). eapply Rle_trans; [apply Rabs_triang|].
    apply Rle_trans with (u53 * ((0.026 + 2.386 / 2 ^ 41) * f) + / 2 ^ 90 * f + 2.386 / 2 ^ 41 * f).
    - assert (u53 * Rabs (Ex + ev - p) <= u53 * ((0.026 + 2.386 / 2 ^ 41) * f)) by (apply Rmult_le_compat_l; lra). lra.
    - lra. }
  assert (GB' : Rabs g <= 1.2 / 2 ^ 40).
  { unfold g. replace (er / f + J) with ((er + J * f) / f) by (field; lra). unfold Rdiv at 1. rewrite Rabs_mult, (Rabs_pos_eq (/ f)) by (left; apply Rinv_0_lt_compat, F0).
    apply Rmult_le_reg_r with f; [exact F0|]. rewrite Rmult_assoc, Rinv_l by lra. lra. }
  assert (erE : er = f * (g - J)) by (unfold g; field; lra).
  assert (XER : Rabs (X * er) <= 0.157 * f).
  { rewrite erE. replace (X * (f * (g - J))) with ((X * g + - (X * J)) * f) by ring. rewrite Rabs_mult, (Rabs_pos_eq f) by lra. apply Rmult_le_compat_r; [lra|].
    eapply Rle_trans; [apply Rabs_triang|]. rewrite Rabs_Ropp, (Rabs_mult X g).
    assert (Rabs X * Rabs g <= 25.7 * (1.2 / 2 ^ 40)) by (apply Rmult_le_compat; try apply Rabs_pos; lra). lra. }
  assert (XG : Rabs (X * g) <= 30.84 / 2 ^ 40).
  { rewrite Rabs_mult. apply Rle_trans with (25.7 * (1.2 / 2 ^ 40)); [apply Rmult_le_compat; try apply Rabs_pos; lra|lra]. }
  assert (HB0 : Rabs (den - f * bb) <= / 2 ^ 35 * f).
  { assert (M1 : Rabs (m - X * er) <= (u53 * 0.157 + / 2 ^ 90) * f).
    { eapply Rle_trans; [exact Hm|]. assert (u53 * Rabs (X * er) <= u53 * (0.157 * f)) by (apply Rmult_le_compat_l; lra). lra. }
    apply Rabs_le_inv in M1. pose proof XER as XER'. apply Rabs_le_inv in XER'. pose proof Hc as Hc'. apply Rabs_le_inv in Hc'.
    assert (CM : Rabs (c - m) <= 1.2 * f) by (apply Rabs_le; lra).
    assert (M2 : Rabs (den - (c - m)) <= (u53 * 1.2 + / 2 ^ 90) * f).
    { eapply Rle_trans; [exact Hden|]. assert (u53 * Rabs (c - m) <= u53 * (1.2 * f)) by (apply Rmult_le_compat_l; lra). lra. }
    apply Rabs_le_inv in M2. assert (XGf : Rabs (X * g * f) <= 30.84 / 2 ^ 40 * f) by (rewrite Rabs_mult, (Rabs_pos_eq f) by lra; apply Rmult_le_compat_r; lra).
    apply Rabs_le_inv in XGf. assert (XE : X * er = X * g * f - X * J * f) by (rewrite erE; ring).
    unfold bb. replace (f * (1 + X * J)) with (f + X * J * f) by ring. apply Rabs_le. lra. }
  assert (HB : Rabs h <= / 2 ^ 35).
  { unfold h. replace (den / f - bb) with ((den - f * bb) / f) by (field; lra). unfold Rdiv. rewrite Rabs_mult, (Rabs_pos_eq (/ f)) by (left; apply Rinv_0_lt_compat, F0).
    apply Rmult_le_reg_r with f; [exact F0|]. rewrite Rmult_assoc, Rinv_l by lra. lra. }
  assert (denE : den = f * (bb + h)) by (unfold h; field; lra). pose proof HB as HB'. apply Rabs_le_inv in HB'.
  assert (BH : 0.8439 <= bb + h) by lra.
  assert (D0 : den <> 0). { rewrite denE. apply Rmult_integral_contrapositive_currified; lra. }
  assert (QE : er / den = (g - J) / (bb + h)) by (rewrite erE, denE; field; lra).
  assert (IB : 0 < / (bb + h) <= 1.2). { split; [apply Rinv_0_lt_compat; lra|]. apply Rmult_le_reg_r with (bb + h); [lra|]. rewrite Rinv_l by lra. lra. }
  assert (QB : Rabs (er / den) <= 1 / 20).
  { rewrite QE. unfold Rdiv at 1. rewrite Rabs_mult, (Rabs_pos_eq (/ (bb + h))) by lra.
    assert (Rabs (g - J) <= 0.03). { replace (g - J) with (g + - J) by ring. eapply Rle_trans; [apply Rabs_triang|]. rewrite Rabs_Ropp. lra. }
    apply Rle_trans with (0.03 * 1.2); [apply Rmult_le_compat; try apply Rabs_pos; lra|lra]. }
  split; [exact D0|]. split; [exact QB|]. specialize (Hq D0). specialize (Hqh D0). rewrite <- Hq in QB, QE.
  assert (IBb : 0 < / bb <= 1.2). { split; [apply Rinv_0_lt_compat; lra|]. apply Rmult_le_reg_r with bb; [lra|]. rewrite Rinv_l by lra. lra. }
  assert (DIFF : Rabs (q + J / bb) <= 1.44 / 2 ^ 40 + 1.88 / 2 ^ 35 * Rabs e).
  { rewrite QE. replace ((g - J) / (bb + h) + J / bb) with (g * / (bb + h) + J * (h * (/ (bb + h) * / bb))) by (field; lra).
    eapply Rle_trans; [apply Rabs_triang|]. rewrite !Rabs_mult, (Rabs_pos_eq (/ (bb + h))), (Rabs_pos_eq (/ bb)) by lra.
    assert (Rabs g * / (bb + h) <= 1.2 / 2 ^ 40 * 1.2) by (apply Rmult_le_compat; try apply Rabs_pos; lra).
    assert (A1 : / (bb + h) * / bb <= 1.2 * 1.2) by (apply Rmult_le_compat; lra).
    assert (A0 : 0 <= / (bb + h) * / bb) by (apply Rmult_le_pos; lra).
    assert (A2 : Rabs h * (/ (bb + h) * / bb) <= / 2 ^ 35 * (1.2 * 1.2)) by (apply Rmult_le_compat; try apply Rabs_pos; lra).
    assert (A3 : Rabs J * (Rabs h * (/ (bb + h) * / bb)) <= 1.3 * Rabs e * (/ 2 ^ 35 * (1.2 * 1.2))).
    { apply Rmult_le_compat; [apply Rabs_pos|apply Rmult_le_pos; [apply Rabs_pos|exact A0]|lra|lra]. }
    pose proof (Rabs_pos e). lra. }
  assert (HD' : e - J / bb = D / bb). { rewrite HD. unfold bb. field. unfold bb in Bb. lra. }
  assert (DB : Rabs (D / bb) <= Rabs D / (1 - Q * a)).
  { unfold Rdiv. rewrite Rabs_mult, (Rabs_pos_eq (/ bb)) by lra. apply Rmult_le_compat_l; [apply Rabs_pos|]. apply Rinv_le_contravar; lra. }
  assert (QH : Rabs (qh - q) <= / 2 ^ 57). { eapply Rle_trans; [exact Hqh|]. assert (u53 * Rabs q <= u53 * (1 / 20)) by (apply Rmult_le_compat_l; lra). lra. }
  assert (XQ : Rabs (X + qh) <= 25.8).
  { apply Rabs_le_inv in QH. apply Rabs_le_inv in QB. apply Rabs_le. lra. }
  assert (RR : Rabs (r - (X + qh)) <= 26 / 2 ^ 53). { eapply Rle_trans; [exact Hr|]. assert (u53 * Rabs (X + qh) <= u53 * 25.8) by (apply Rmult_le_compat_l; lra). lra. }
  replace (r - z) with ((r - (X + qh)) + ((qh - q) + ((q + J / bb) + (e - J / bb)))) by (rewrite He; ring). rewrite HD'.
  eapply Rle_trans; [apply Rabs_triang|]. eapply Rle_trans; [apply Rplus_le_compat_l, Rabs_triang|]. eapply Rle_trans; [apply Rplus_le_compat_l, Rplus_le_compat_l, Rabs_triang|].
  pose proof (Rabs_pos e). lra.
Qed.

Section Step.
  Variable E : R -> R.
  Hypothesis HE : erfc_function E.
  Lemma step_fl : forall P (x pp : f64) z a Q, accurate_exp (p_exp P) -> fin x -> - (1 / 100) <= Binary.B2R x <= 25.7 ->
    fin pp -> Binary.B2R pp = E z -> 0 <= a <= 3 / 25 -> 1 <= Q <= 1.3 -> exp (2 * a) <= Q ->
    Rabs (Binary.B2R x * (Binary.B2R x - z)) <= a -> Rabs (Binary.B2R x - z) <= 1 / 50 ->
    exists r, @inverfc_step (ieee P) pp x = Ok r /\ fin r /\
    Rabs (Binary.B2R r - z) <= Q * (1 + Binary.B2R x * Binary.B2R x + a) / 3 * (Rabs (Binary.B2R x - z) * (Rabs (Binary.B2R x - z) * Rabs (Binary.B2R x - z))) / (1 - Q * a)
      + 1.45 / 2 ^ 40 + / 2 ^ 34 * Rabs (Binary.B2R x - z).
  Proof.
    intros P x pp z a Q HX Fx Hx Fp Vp Ha HQ HQ' HXe Hee. set (X := Binary.B2R x) in *.
    destruct (erfc_acc E HE P x HX Fx ltac:(fold X; lra)) as (e & Ee & Fe & Be). fold X in Be.
    pose proof (E_phi E HE X ltac:(lra)) as EP. pose proof (phi_pos X) as F0.
    pose proof (halley E HE X z a Q HXe ltac:(lra) HQ') as H. cbv zeta in H. destruct H as [HJ HD].
    set (f := phi X) in *. set (J := (E z - E X) / f) in *. set (ee := X - z) in *.
    assert (X2 : X * X <= 661). { destruct (Rle_or_lt 0 X); nra. }
    assert (X20 : 0 <= X * X) by nra.
    pose proof (phi_low X ltac:(lra)) as Tf. fold f in Tf. pose proof T75_pos as T0.
    assert (T1 : T75 <= / 2 ^ 90). { replace (/ 2 ^ 90) with (bpow radix2 (-90)) by (simpl; lra). apply bpow_le. lia. }
    pose proof isp_range as IR. assert (KB : 1.128 <= K <= 1.13) by (unfold Rdiv; lra).
    assert (XE1 : 0 < exp (- (X * X)) <= 1).
    { split; [apply exp_pos|]. rewrite <- exp_0. destruct (Rle_lt_or_eq_dec (- (X * X)) 0 ltac:(lra)) as [L| ->]; [left; apply exp_increasing, L|lra]. }
    assert (F1 : f <= 1.13). { unfold f, phi. apply Rle_trans with (1.13 * 1); [apply Rmult_le_compat; lra|lra]. }
    assert (JB : Rabs J <= 0.026). { eapply Rle_trans; [exact HJ|]. apply Rle_trans with (1.3 * (1 / 50)); [apply Rmult_le_compat; try apply Rabs_pos; lra|lra]. }
    assert (Ez : E z = E X + J * f) by (unfold J; field; lra).
    assert (Be' : Rabs (Binary.B2R e - E X) <= (/ 2 ^ 41 + / 2 ^ 51 * 661) * E X).
    { eapply Rle_trans; [exact Be|]. apply Rmult_le_compat_r; lra. }
    assert (Be2 : Rabs (Binary.B2R e - E X) <= / 2 ^ 39). { eapply Rle_trans; [exact Be'|]. assert (E X <= 1.45 * 1.13) by lra.
      apply Rle_trans with ((/ 2 ^ 41 + / 2 ^ 51 * 661) * (1.45 * 1.13)); [apply Rmult_le_compat_l; lra|lra]. }
    assert (Jf : Rabs (J * f) <= 0.03). { rewrite Rabs_mult, (Rabs_pos_eq f) by lra. apply Rle_trans with (0.026 * 1.13); [apply Rmult_le_compat; try apply Rabs_pos; lra|lra]. }
    (* the residual *)
    assert (D1 : Rabs (Binary.B2R e - Binary.B2R pp) <= 0.031).
    { rewrite Vp, Ez. apply Rabs_le_inv in Be2. apply Rabs_le_inv in Jf. apply Rabs_le. lra. }
    destruct (fl75 _ _ (sub_spec P e pp Fe Fp)) as [Fer Ber]; [lra|]. set (er := f64_sub P e pp) in *.
    assert (erB : Rabs (Binary.B2R er) <= 0.032).
    { replace (Binary.B2R er) with ((Binary.B2R er - (Binary.B2R e - Binary.B2R pp)) + (Binary.B2R e - Binary.B2R pp)) by ring.
      eapply Rle_trans; [apply Rabs_triang|]. lra. }
    (* the derivative *)
    destruct (fl75 _ _ (mul_spec P x x Fx Fx)) as [Fs Bs]; [fold X; rewrite Rabs_pos_eq; lra|]. fold X in Bs. set (s := f64_mul P x x) in *.
    rewrite (Rabs_pos_eq (X * X)) in Bs by lra. pose proof Bs as Bs'. apply Rabs_le_inv in Bs'.
    assert (Fn : fin (f64_neg s)) by (rewrite fin_neg; exact Fs).
    destruct (HX (f64_neg s)) as [Nx Bx].
    { apply fin_nonnan, Fn. } { rewrite (val_fin _ Fn), B2R_neg. lra. }
    rewrite (val_fin _ Fn), B2R_neg in Bx. set (ex := p_exp P (f64_neg s)) in *.
    set (dl := X * X - Binary.B2R s). assert (Hdl : Rabs dl <= 662 / 2 ^ 53) by (unfold dl; apply Rabs_le; lra).
    pose proof (exp_near dl ltac:(lra)) as Xd.
    assert (XS : exp (- Binary.B2R s) = exp (- (X * X)) * exp dl) by (rewrite <- exp_plus; f_equal; unfold dl; ring).
    rewrite XS in Bx. replace (bpow radix2 (-50)) with (/ 2 ^ 50) in Bx by (simpl; lra).
    set (g := exp (- (X * X))) in *.
    assert (Bx2 : Rabs (val ex - g) <= 0.651 / 2 ^ 42 * g).
    { replace (val ex - g) with ((val ex - g * exp dl) + g * (exp dl - 1)) by ring. eapply Rle_trans; [apply Rabs_triang|]. rewrite Rabs_mult, (Rabs_pos_eq g) by lra.
      assert (A1 : g * Rabs (exp dl - 1) <= g * (1324 / 2 ^ 53)) by (apply Rmult_le_compat_l; lra).
      assert (A2 : exp dl <= 1.01) by (apply Rabs_le_inv in Xd; lra).
      assert (A3 : / 2 ^ 50 * (g * exp dl) <= / 2 ^ 50 * (g * 1.01)) by (apply Rmult_le_compat_l; [lra|]; apply Rmult_le_compat_l; lra). lra. }
    pose proof Bx2 as Bx2'. apply Rabs_le_inv in Bx2'.
    assert (Fex : fin ex). { apply fin_iff_val; [exact Nx|]. pose proof Om_big. apply Rabs_lt. lra. }
    rewrite (val_fin _ Fex) in Bx2, Bx2'. clear Bx Nx.
    destruct lit_K as [FK VK]. set (k := f64_lit 1.12837916709551257389615890312154517) in *. pose proof VK as VK'. apply Rabs_le_inv in VK'.
    assert (KE : Rabs (Binary.B2R k * Binary.B2R ex - f) <= 0.655 / 2 ^ 42 * f).
    { replace (Binary.B2R k * Binary.B2R ex - f) with ((Binary.B2R k - K) * Binary.B2R ex + K * (Binary.B2R ex - g)) by (unfold f, phi; fold g; ring).
      eapply Rle_trans; [apply Rabs_triang|]. rewrite !Rabs_mult, (Rabs_pos_eq K), (Rabs_pos_eq (Binary.B2R ex)) by lra.
      assert (A1 : Rabs (Binary.B2R k - K) * Binary.B2R ex <= / 2 ^ 51 * (1.01 * g)) by (apply Rmult_le_compat; try apply Rabs_pos; lra).
      assert (A2 : K * Rabs (Binary.B2R ex - g) <= K * (0.651 / 2 ^ 42 * g)) by (apply Rmult_le_compat_l; lra).
      assert (A3 : 1.128 * g <= f) by (unfold f, phi; fold g; apply Rmult_le_compat_r; lra).
      replace (K * (0.651 / 2 ^ 42 * g)) with (0.651 / 2 ^ 42 * f) in A2 by (unfold f, phi; fold g; set (kk := K); lra). lra. }
    pose proof KE as KE'. apply Rabs_le_inv in KE'.
    destruct (fl75 _ _ (mul_spec P k ex FK Fex)) as [Fc Bc]; [apply Rabs_le; lra|]. set (c := f64_mul P k ex) in *.
    assert (Bc2 : Rabs (Binary.B2R c - f) <= / 2 ^ 42 * f).
    { replace (Binary.B2R c - f) with ((Binary.B2R c - Binary.B2R k * Binary.B2R ex) + (Binary.B2R k * Binary.B2R ex - f)) by ring. eapply Rle_trans; [apply Rabs_triang|].
      assert (u53 * Rabs (Binary.B2R k * Binary.B2R ex) <= u53 * (1.01 * f)) by (apply Rmult_le_compat_l; [lra|]; rewrite Rabs_pos_eq; lra). lra. }
    pose proof Bc2 as Bc2'. apply Rabs_le_inv in Bc2'.
    (* the denominator *)
    assert (XA : Rabs X <= 25.7) by (apply Rabs_le; lra).
    assert (XEr : Rabs (X * Binary.B2R er) <= 1). { rewrite Rabs_mult. apply Rle_trans with (25.7 * 0.032); [apply Rmult_le_compat; try apply Rabs_pos; lra|lra]. }
    destruct (fl75 _ _ (mul_spec P x er Fx Fer)) as [Fm Bm]; [fold X; lra|]. fold X in Bm. set (m := f64_mul P x er) in *.
    assert (mB : Rabs (Binary.B2R m) <= 2).
    { replace (Binary.B2R m) with ((Binary.B2R m - X * Binary.B2R er) + X * Binary.B2R er) by ring. eapply Rle_trans; [apply Rabs_triang|]. lra. }
    destruct (fl75 _ _ (sub_spec P c m Fc Fm)) as [Fd Bd]; [apply Rabs_le_inv in mB; apply Rabs_le; lra|]. set (d := f64_sub P c m) in *.
    assert (Ber' : Rabs (Binary.B2R er - (E X + (Binary.B2R e - E X) - E z)) <= u53 * Rabs (E X + (Binary.B2R e - E X) - E z) + T75).
    { rewrite <- Vp. replace (E X + (Binary.B2R e - E X) - Binary.B2R pp) with (Binary.B2R e - Binary.B2R pp) by ring. exact Ber. }
    assert (CORE : forall qh r, 
      (Binary.B2R d <> 0 -> Rabs (qh - Binary.B2R er / Binary.B2R d) <= u53 * Rabs (Binary.B2R er / Binary.B2R d) + T75) ->
      Rabs (r - (X + qh)) <= u53 * Rabs (X + qh) + T75 ->
      Binary.B2R d <> 0 /\ Rabs (Binary.B2R er / Binary.B2R d) <= 1 / 20 /\ Rabs (r - z) <= Rabs (ee - J + X * ee * J) / (1 - Q * a) + 1.45 / 2 ^ 40 + / 2 ^ 34 * Rabs ee).
    { intros qh r Hqh Hr. apply (step_core f X z ee J (E X) (E z) (Binary.B2R e - E X) (Binary.B2R er) (Binary.B2R c) (Binary.B2R m) (Binary.B2R d)
        (Binary.B2R er / Binary.B2R d) qh r a Q T75 (ee - J + X * ee * J)); auto; lra. }
    destruct (CORE (Binary.B2R er / Binary.B2R d) (X + Binary.B2R er / Binary.B2R d)) as (D0 & QB & _).
    { intros _. rewrite Rminus_eq_0, Rabs_R0. apply Rplus_le_le_0_compat; [apply Rmult_le_pos; [lra|apply Rabs_pos]|lra]. }
    { rewrite Rminus_eq_0, Rabs_R0. apply Rplus_le_le_0_compat; [apply Rmult_le_pos; [lra|apply Rabs_pos]|lra]. }
    destruct (fl75 _ _ (div_spec P er d Fer Fd D0)) as [Fq Bq]; [lra|]. set (q := f64_div P er d) in *.
    assert (qB : Rabs (Binary.B2R q) <= 1).
    { replace (Binary.B2R q) with ((Binary.B2R q - Binary.B2R er / Binary.B2R d) + Binary.B2R er / Binary.B2R d) by ring. eapply Rle_trans; [apply Rabs_triang|]. lra. }
    destruct (fl75 _ _ (add_spec P x q Fx Fq)) as [Fr Br]; [fold X; eapply Rle_trans; [apply Rabs_triang|]; lra|]. fold X in Br.
    destruct (CORE (Binary.B2R q) _ (fun _ => Bq) Br) as (_ & _ & R).
    exists (f64_add P x q). split.
    { unfold inverfc_step. rewrite Ee. cbn [bind]. unfold powi2, FRAC_2_SQRT_PI. ieee_simpl. rewrite (libm_nonnan P (p_exp P)) by (apply fin_nonnan, Fn). reflexivity. }
    split; [exact Fr|]. eapply Rle_trans; [exact R|]. do 2 apply Rplus_le_compat_r.
    assert (QA : Q * a <= 0.156). { apply Rle_trans with (1.3 * (3 / 25)); [apply Rmult_le_compat; lra|lra]. }
    apply Rmult_le_compat_r; [left; apply Rinv_0_lt_compat; lra|]. exact HD.
  Qed.
End Step.
