(** * Going through an inverse error function and back *)

From Coq Require Import ZArith Reals Bool Lra Lia List.
From Flocq Require Import Core IEEE754.BinarySingleNaN IEEE754.Binary IEEE754.Bits.
From Verif.Model Require Import Base Arith Utils Error.
From Verif.Float Require Import Bits64 Ieee Exact Platforms.
From Verif.Spec Require Import F64Spec Outcome ErfSpec LibmSpec.
From Verif.Proofs Require Import BetaExamples ErfcExists F64 F64Ops Lits Ext PolyZ PolyTree BesselRat RatODE ErfcODE ErfcxAsym ErfcxAcc ErfcAcc GaussInt InvGuess InvHalley InvThms InvMain PiBounds BetaiAcc EulerGamma Symmetry.
Import ListNotations.
Open Scope R_scope.
Local Notation exp := Rtrigo_def.exp. Local Notation sqrt := R_sqrt.sqrt. Local Notation ln := Rpower.ln. Local Notation PI := Rtrigo1.PI.

Local Notation r2 := (sqrt 2).

Section Trip.
  Variable E : R -> R.
  Hypothesis HE : erfc_function E.

  (** ** the logarithmic derivative from above *)
  Lemma mA_low : forall y, 0 <= y -> 99 / 100 / (y + 202 / 100) <= mA 99999 y.
  Proof.
    intros y Hy. unfold mA. set (s := y + 1 / 50). assert (S0 : 0 <= s) by (unfold s; lra). destruct (mPQ_pos s S0) as [P Q].
    assert (H : 0 <= peval (psub (pmul mP [2000; 1000]%Z) (pscale 999 mQ)) s) by (apply peval_nonneg; [exact S0|reflexivity]).
    rewrite peval_psub, peval_pmul, peval_pscale in H. assert (LN : peval [2000; 1000]%Z s = 2000 + 1000 * s) by (simpl; ring). rewrite LN in H. clear LN.
    replace (y + 202 / 100) with (s + 2) by (unfold s; lra).
    replace (99 / 100 / (s + 2)) with (99999 / 100000 * (99000 / 99999 / (s + 2))) by (field; lra).
    apply Rmult_le_compat_l; [lra|]. apply Rmult_le_reg_r with (peval mQ s * (s + 2)); [apply Rmult_lt_0_compat; lra|].
    replace (99000 / 99999 / (s + 2) * (peval mQ s * (s + 2))) with (99000 / 99999 * peval mQ s) by (field; lra).
    replace (peval mP s / peval mQ s * (peval mQ s * (s + 2))) with (peval mP s * (s + 2)) by (field; lra). lra.
  Qed.
  Lemma phi_E : forall x, 0 <= x -> phi x <= (2.1 * x + 3) * E x.
  Proof.
    intros x Hx. pose proof r2_rng as R2. pose proof (bar_low E HE (x * r2)) as B. assert (Y : 0 <= x * r2) by (apply Rmult_le_pos; lra).
    specialize (B ltac:(lra)). unfold Ey in B. replace (x * r2 / r2) with x in B by (field; lra).
    pose proof (mA_low (x * r2) Y) as M. assert (G : ga (x * r2) = exp (- (x * x))).
    { unfold ga. f_equal. replace (x * r2 * (x * r2)) with (x * x * (r2 * r2)) by ring. rewrite r2_sq. lra. }
    rewrite G in B. unfold phi. pose proof (exp_pos (- (x * x))) as X. set (e := exp (- (x * x))) in *. unfold kap in B. pose proof K_pos as K0. set (k := K) in *.
    assert (D : 0 < x * r2 + 202 / 100) by lra. clearbody e k.
    assert (B2 : k / r2 * (99 / 100 / (x * r2 + 202 / 100) * e) <= E x).
    { eapply Rle_trans; [|exact B]. apply Rmult_le_compat_l; [left; apply Rdiv_lt_0_compat; lra|]. apply Rmult_le_compat_r; lra. }
    apply Rle_trans with ((2.1 * x + 3) * (k / r2 * (99 / 100 / (x * r2 + 202 / 100) * e))); [|apply Rmult_le_compat_l; lra].
    replace ((2.1 * x + 3) * (k / r2 * (99 / 100 / (x * r2 + 202 / 100) * e))) with (k * e * (99 / 100 * (2.1 * x + 3) / (r2 * (x * r2 + 202 / 100)))) by (field; split; lra).
    rewrite <- (Rmult_1_r (k * e)) at 1. apply Rmult_le_compat_l; [apply Rmult_le_pos; lra|].
    assert (DD : 0 < r2 * (x * r2 + 202 / 100)) by (apply Rmult_lt_0_compat; lra).
    apply Rmult_le_reg_r with (r2 * (x * r2 + 202 / 100)); [exact DD|]. unfold Rdiv at 2. rewrite Rmult_assoc, Rinv_l, Rmult_1_r by lra.
    replace (r2 * (x * r2 + 202 / 100)) with (x * (r2 * r2) + r2 * (202 / 100)) by ring. rewrite r2_sq. lra.
  Qed.
  Lemma phi_E_all : forall b x, 0 <= b -> x <= b -> phi x <= (2.1 * b + 3) * E x.
  Proof.
    intros b x Hb Hx. pose proof (E_nonneg E HE x) as N. destruct (Rle_or_lt 0 x) as [L|L].
    - eapply Rle_trans; [apply phi_E, L|]. apply Rmult_le_compat_r; lra.
    - pose proof (E_decr E HE x 0 ltac:(lra)) as D. rewrite (erfc_0 E HE) in D. pose proof isp_range as IR. pose proof K_pos as K0.
      assert (X : exp (- (x * x)) <= 1). { rewrite <- exp_0. pose proof (Rle_0_sqr x) as S. unfold Rsqr in S. destruct S as [S|S]; [left; apply exp_increasing; lra|right; f_equal; lra]. }
      assert (P : phi x <= K * 1) by (unfold phi; apply Rmult_le_compat_l; lra). assert (K <= 1.13) by (unfold Rdiv; lra).
      assert (1 * 1 <= (2.1 * b + 3) * E x) by (apply Rmult_le_compat; lra).
      assert (3 * 1 <= (2.1 * b + 3) * E x) by (apply Rmult_le_compat; lra). lra.
  Qed.

  (** ** so the values at close arguments are close in relative terms *)
  Lemma derive_Ee : forall c x, derivable_pt_lim (fun t => E t * exp (c * t)) x (exp (c * x) * (c * E x - phi x)).
  Proof.
    intros c x. destruct HE as [D _].
    assert (Q : exp (c * x) * (c * E x - phi x) = - K * exp (- (x * x)) * exp (c * x) + E x * (exp (c * x) * (c * 1))).
    { unfold phi. set (k := K). ring. }
    rewrite Q. apply (derivable_pt_lim_mult E (fun t => exp (c * t))); [apply D|].
    apply (derivable_pt_lim_comp (fun t => c * t) exp); [|apply derivable_pt_lim_exp].
    apply derivable_pt_lim_scal. apply derivable_pt_lim_id.
  Qed.
  Lemma E_log_up : forall b a1 a2, 0 <= b -> a1 <= a2 <= b -> E a1 <= exp ((2.1 * b + 3) * (a2 - a1)) * E a2.
  Proof.
    intros b a1 a2 Hb Ha. set (c := 2.1 * b + 3).
    assert (M : E a1 * exp (c * a1) <= E a2 * exp (c * a2)).
    { apply (mono_on (fun t => E t * exp (c * t)) (fun x => exp (c * x) * (c * E x - phi x)) a1 a2 (proj1 Ha)).
      - intros t _. apply derive_Ee.
      - intros t Ht. apply Rmult_le_pos; [left; apply exp_pos|]. pose proof (phi_E_all b t Hb ltac:(lra)). fold c in H. lra. }
    replace (c * (a2 - a1)) with (c * a2 + - (c * a1)) by ring. rewrite exp_plus, exp_Ropp.
    apply Rmult_le_reg_r with (exp (c * a1)); [apply exp_pos|]. pose proof (exp_pos (c * a1)).
    replace (exp (c * a2) * / exp (c * a1) * E a2 * exp (c * a1)) with (E a2 * exp (c * a2)) by (field; lra). exact M.
  Qed.
  Lemma E_log_low : forall a1 a2, - (1 / 100) <= a1 <= a2 -> exp (0.68 * (a2 - a1)) * E a2 <= E a1.
  Proof.
    intros a1 a2 Ha.
    assert (M : - (E a1 * exp (0.68 * a1)) <= - (E a2 * exp (0.68 * a2))).
    { apply (mono_on (fun t => - (E t * exp (0.68 * t))) (fun x => - (exp (0.68 * x) * (0.68 * E x - phi x))) a1 a2 (proj2 Ha)).
      - intros t _. apply (derivable_pt_lim_opp (fun t => E t * exp (0.68 * t))). apply derive_Ee.
      - intros t Ht. pose proof (E_phi E HE t ltac:(lra)) as [_ U]. pose proof (phi_pos t). pose proof (exp_pos (0.68 * t)).
        assert (0 <= exp (0.68 * t) * - (0.68 * E t - phi t)) by (apply Rmult_le_pos; lra). lra. }
    replace (0.68 * (a2 - a1)) with (0.68 * a2 + - (0.68 * a1)) by ring. rewrite exp_plus, exp_Ropp.
    apply Rmult_le_reg_r with (exp (0.68 * a1)); [apply exp_pos|]. pose proof (exp_pos (0.68 * a1)).
    replace (exp (0.68 * a2) * / exp (0.68 * a1) * E a2 * exp (0.68 * a1)) with (E a2 * exp (0.68 * a2)) by (field; lra). lra.
  Qed.
  Lemma exp_le_quad : forall t, 0 <= t <= / 100 -> exp t <= 1 + t + 2 * (t * t).
  Proof.
    intros t Ht. replace t with (- (- t)) at 1 by ring. rewrite exp_Ropp. pose proof (exp_ineq1_le (- t)) as L. pose proof (exp_pos (- t)).
    apply Rle_trans with (/ (1 - t)); [apply Rinv_le_contravar; lra|]. apply Rmult_le_reg_r with (1 - t); [lra|]. rewrite Rinv_l by lra.
    assert (0 <= t * t) by (apply Rmult_le_pos; lra). assert (t * t * t <= t * t * / 100) by (apply Rmult_le_compat_l; lra). lra.
  Qed.
  Lemma E_near : forall b d r z, 0 <= b -> r <= b -> z <= b -> Rabs (r - z) <= d -> (2.1 * b + 3) * d <= / 1000 ->
    Rabs (E r - E z) <= 1.002 * ((2.1 * b + 3) * d) * E z.
  Proof.
    intros b d r z Hb Hr Hz Hd Hs. set (c := 2.1 * b + 3) in *. assert (C0 : 3 <= c) by (unfold c; lra).
    pose proof (Rabs_pos (r - z)) as A0. apply Rabs_le_inv in Hd. pose proof (E_nonneg E HE z) as Nz. pose proof (E_nonneg E HE r) as Nr.
    assert (CD : 0 <= c * d) by (apply Rmult_le_pos; lra).
    assert (X : exp (c * d) <= 1 + 1.002 * (c * d)).
    { pose proof (exp_le_quad (c * d) ltac:(lra)). assert (c * d * (c * d) <= / 1000 * (c * d)) by (apply Rmult_le_compat_r; lra). lra. }
    assert (MX : forall t, t <= d -> exp (c * t) <= 1 + 1.002 * (c * d)).
    { intros t Ht. eapply Rle_trans; [|exact X]. assert (c * t <= c * d) by (apply Rmult_le_compat_l; lra). destruct H as [H|H]; [left; apply exp_increasing, H|rewrite H; lra]. }
    assert (G : 0 <= 1.002 * (c * d) * E z) by (apply Rmult_le_pos; lra).
    destruct (Rle_or_lt r z) as [L|L].
    - pose proof (E_log_up b r z Hb ltac:(lra)) as U. fold c in U. pose proof (E_decr E HE r z L) as D. rewrite Rabs_pos_eq by lra.
      pose proof (MX (z - r) ltac:(lra)) as M. assert (exp (c * (z - r)) * E z <= (1 + 1.002 * (c * d)) * E z) by (apply Rmult_le_compat_r; lra). lra.
    - pose proof (E_log_up b z r Hb ltac:(lra)) as U. fold c in U. pose proof (E_decr E HE z r ltac:(lra)) as D. rewrite Rabs_left1 by lra.
      pose proof (MX (r - z) ltac:(lra)) as M. assert (exp (c * (r - z)) * E r <= (1 + 1.002 * (c * d)) * E r) by (apply Rmult_le_compat_r; lra).
      assert (1.002 * (c * d) * E r <= 1.002 * (c * d) * E z) by (apply Rmult_le_compat_l; lra). lra.
  Qed.

  (** ** where erfc takes its values *)
  Lemma E_far : forall x k, 1 <= x -> IZR k * (693147180559945310 / 10 ^ 18) <= x * x - 1 -> (0 <= k)%Z -> E x < bpow radix2 (- k).
  Proof.
    intros x k Hx Hk Zk. pose proof (E_phi E HE x ltac:(lra)) as [_ U]. unfold phi in U. pose proof isp_range as IR.
    assert (X : exp (- (x * x)) <= bpow radix2 (- k) * exp (- (1))).
    { rewrite <- (exp_ln (bpow radix2 (- k))) by apply bpow_gt_0. rewrite ln_bpow_eq, <- exp_plus, opp_IZR. pose proof ln2_up. pose proof ln2_low.
      assert (IZR k * ln 2 <= IZR k * (693147180559945310 / 10 ^ 18)) by (apply Rmult_le_compat_l; [apply (IZR_le 0 k Zk)|lra]).
      assert (- (x * x) <= - IZR k * ln 2 + - (1)) by lra. destruct H2 as [H2|H2]; [left; apply exp_increasing, H2|rewrite H2; lra]. }
    assert (X1 : exp (- (1)) <= / 2). { rewrite exp_Ropp. apply Rinv_le_contravar; [lra|]. pose proof (exp_ineq1_le 1). lra. }
    pose proof (bpow_gt_0 radix2 (- k)) as B0. pose proof (exp_pos (- (x * x))) as X0. pose proof K_pos as K0. assert (K1 : K <= 1.13) by (unfold Rdiv; lra).
    assert (X2 : exp (- (x * x)) <= bpow radix2 (- k) * / 2) by (eapply Rle_trans; [exact X|]; apply Rmult_le_compat_l; lra).
    assert (K * exp (- (x * x)) <= 1.13 * (bpow radix2 (- k) * / 2)) by (apply Rmult_le_compat; lra). lra.
  Qed.
  Lemma E_solve_far : forall b q, 7 <= b -> E b < q <= 2 - / 2 ^ 59 -> exists z, -7 <= z <= b /\ E z = q.
  Proof.
    intros b q Hb Hq. pose proof (E_at7 E HE) as E7. pose proof (E_reflect E HE 7) as Er. rewrite (erfc_0 E HE) in Er. replace (Ropp 7) with (-7) in Er by lra.
    destruct (IVT (fun z => q - E z) (-7) b) as (z & Hz & Ez).
    - apply continuity_minus; [apply continuity_const; intros ? ?; reflexivity|apply (E_cont E HE)].
    - lra.
    - lra.
    - lra.
    - exists z. split; [exact Hz|lra].
  Qed.
  Lemma below2 : forall p : f64, fin p -> Binary.B2R p < 2 -> Binary.B2R p <= 2 - / 2 ^ 59.
  Proof.
    intros p Fp Hp. destruct (Rlt_or_le (Binary.B2R p) 1) as [L|L]; [lra|]. pose proof (gap2 p Fp ltac:(lra)). lra.
  Qed.

  (** ** erfc after inverfc *)
  Lemma trip_gen : forall P p b d B, accurate_exp (p_exp P) -> fin p -> 7 <= b <= 25.9 -> 0 <= d <= / 2 ^ 37 ->
    E b < Binary.B2R p < 2 -> (forall z, E z = Binary.B2R p -> inv_ok z d (@inverfc (ieee P) p)) ->
    1.003 * ((2.1 * (b + / 2 ^ 37) + 3) * d) + 1.001 * (/ 2 ^ 41 + / 2 ^ 51 * ((b + / 2 ^ 37) * (b + / 2 ^ 37))) <= B ->
    exists r s, @inverfc (ieee P) p = Ok r /\ fin r /\ @erfc (ieee P) r = Ok s /\ fin s /\ Rabs (Binary.B2R s - Binary.B2R p) <= B * Binary.B2R p.
  Proof.
    intros P p b d B HX Fp Hb Hd Hp HI HB. pose proof (below2 p Fp ltac:(lra)) as Up.
    destruct (E_solve_far b (Binary.B2R p) ltac:(lra) ltac:(lra)) as (z & Hz & Ez). destruct (HI z Ez) as (r & Er & Fr & Br).
    set (b1 := b + / 2 ^ 37) in *. assert (B1 : 7 <= b1 <= 25.95) by (unfold b1; lra).
    pose proof (Rabs_le_inv _ _ Br) as Br'. assert (Rr : -26 <= Binary.B2R r <= b1) by (unfold b1; lra).
    destruct (erfc_acc E HE P r HX Fr ltac:(lra)) as (s & Es & Fs & Bs). exists r, s. repeat split; try assumption.
    assert (CD : (2.1 * b1 + 3) * d <= 58 * / 2 ^ 37) by (apply Rmult_le_compat; lra). assert (CD0 : 0 <= (2.1 * b1 + 3) * d) by (apply Rmult_le_pos; lra).
    pose proof (E_near b1 d (Binary.B2R r) z ltac:(lra) (proj2 Rr) ltac:(unfold b1; lra) Br ltac:(lra)) as N.
    set (cd := (2.1 * b1 + 3) * d) in *. rewrite Ez in N. set (q := Binary.B2R p) in *.
    assert (Q0 : 0 <= q). { pose proof (E_nonneg E HE b). lra. }
    assert (SQ : Binary.B2R r * Binary.B2R r <= b1 * b1).
    { destruct (Rle_or_lt 0 (Binary.B2R r)) as [L|L]; [apply Rmult_le_compat; lra|].
      replace (Binary.B2R r * Binary.B2R r) with (- Binary.B2R r * - Binary.B2R r) by ring. apply Rmult_le_compat; lra || (unfold b1 in *; lra). }
    set (eta := / 2 ^ 41 + / 2 ^ 51 * (b1 * b1)) in *.
    assert (ET : 0 <= eta <= 1). { assert (0 <= b1 * b1 <= 25.95 * 25.95) by (split; [apply Rmult_le_pos; lra|apply Rmult_le_compat; lra]). unfold eta. lra. }
    assert (Er1 : E (Binary.B2R r) <= 1.001 * q).
    { apply Rabs_le_inv in N. assert (1.002 * cd * q <= 0.001 * q) by (apply Rmult_le_compat_r; lra). lra. }
    pose proof (E_nonneg E HE (Binary.B2R r)) as Nr.
    assert (S1 : Rabs (Binary.B2R s - E (Binary.B2R r)) <= 1.001 * eta * q).
    { eapply Rle_trans; [exact Bs|]. apply Rle_trans with (eta * E (Binary.B2R r)); [apply Rmult_le_compat_r; unfold eta; lra|].
      replace (1.001 * eta * q) with (eta * (1.001 * q)) by ring. apply Rmult_le_compat_l; lra. }
    replace (Binary.B2R s - q) with ((Binary.B2R s - E (Binary.B2R r)) + (E (Binary.B2R r) - q)) by ring.
    eapply Rle_trans; [apply Rabs_triang|]. apply Rle_trans with ((1.003 * cd + 1.001 * eta) * q); [|apply Rmult_le_compat_r; lra].
    assert (0 <= cd * q) by (apply Rmult_le_pos; lra). lra.
  Qed.
  Theorem trip_far : forall P p, accurate_exp (p_exp P) -> accurate_ln (p_ln P) -> fin p -> bpow radix2 (-930) <= Binary.B2R p < 2 ->
    exists r s, @inverfc (ieee P) p = Ok r /\ fin r /\ @erfc (ieee P) r = Ok s /\ fin s /\ Rabs (Binary.B2R s - Binary.B2R p) <= / 2 ^ 31 * Binary.B2R p.
  Proof.
    intros P p HX HL Fp Hp. apply (trip_gen P p 25.5 (/ 2 ^ 37)); try lra; auto.
    - split; [|lra]. eapply Rlt_le_trans; [|exact (proj1 Hp)]. apply (E_far 25.5 930); [lra|lra|lia].
    - intros z Hz. apply (inverfc_acc E HE); auto.
  Qed.
  Theorem trip_near : forall P p, accurate_exp (p_exp P) -> accurate_ln (p_ln P) -> fin p -> / 2 ^ 100 <= Binary.B2R p < 2 ->
    exists r s, @inverfc (ieee P) p = Ok r /\ fin r /\ @erfc (ieee P) r = Ok s /\ fin s /\ Rabs (Binary.B2R s - Binary.B2R p) <= / 2 ^ 34 * Binary.B2R p.
  Proof.
    intros P p HX HL Fp Hp. apply (trip_gen P p 9 (/ 2 ^ 39)); try lra; auto.
    - split; [|lra]. eapply Rlt_le_trans; [|exact (proj1 Hp)]. eapply Rlt_le_trans; [apply (E_far 9 100); [lra|lra|lia]|]. simpl. lra.
    - intros z Hz. apply (inverfc_acc39 E HE); auto.
  Qed.

  (** ** inverfc after erfc *)
  Lemma E_sep : forall a1 a2, - (1 / 100) <= a1 <= a2 -> 0.68 * (a2 - a1) * E a2 <= E a1 - E a2.
  Proof.
    intros a1 a2 Ha. pose proof (E_log_low a1 a2 Ha) as L. pose proof (exp_ineq1_le (0.68 * (a2 - a1))) as X. pose proof (E_nonneg E HE a2) as N.
    assert ((1 + 0.68 * (a2 - a1)) * E a2 <= exp (0.68 * (a2 - a1)) * E a2) by (apply Rmult_le_compat_r; assumption). lra.
  Qed.
  Lemma E_inv_near : forall x z eta, 0 <= x -> 0 <= eta <= / 1000 -> 0 < E x -> Rabs (E z - E x) <= eta * E x -> Rabs (z - x) <= 1.48 * eta.
  Proof.
    intros x z eta Hx He Ex Hd. apply Rabs_le_inv in Hd.
    assert (X1 : E x <= 1). { rewrite <- (erfc_0 E HE). apply (E_decr E HE). exact Hx. }
    assert (Hz : - (1 / 100) <= z).
    { apply Rnot_lt_le. intros C. pose proof (E_sep (- (1 / 100)) 0 ltac:(lra)) as S. rewrite (erfc_0 E HE) in S.
      pose proof (E_decr E HE z (- (1 / 100)) ltac:(lra)) as D. assert (eta * E x <= / 1000 * 1) by (apply Rmult_le_compat; lra). lra. }
    destruct (Rle_or_lt z x) as [L|L].
    - pose proof (E_sep z x ltac:(lra)) as S. rewrite Rabs_left1 by lra.
      assert (0.68 * (x - z) <= eta). { apply Rmult_le_reg_r with (E x); [exact Ex|]. lra. } lra.
    - pose proof (E_sep x z ltac:(lra)) as S. rewrite Rabs_pos_eq by lra.
      assert (Ez : 0.999 * E x <= E z). { assert (eta * E x <= / 1000 * E x) by (apply Rmult_le_compat_r; lra). lra. }
      assert (0.68 * (z - x) * 0.999 <= eta).
      { apply Rmult_le_reg_r with (E x); [exact Ex|]. rewrite Rmult_assoc.
        assert (0.68 * (z - x) * (0.999 * E x) <= 0.68 * (z - x) * E z) by (apply Rmult_le_compat_l; lra). lra. }
      lra.
  Qed.
  Lemma exp_ge_bpow : forall v k, v <= IZR k * (693147180559945309 / 10 ^ 18) -> (0 <= k)%Z -> bpow radix2 (- k) <= exp (- v).
  Proof.
    intros v k Hk Zk. rewrite <- (exp_ln (bpow radix2 (- k))) by apply bpow_gt_0. rewrite ln_bpow_eq, opp_IZR. pose proof ln2_low.
    assert (IZR k * (693147180559945309 / 10 ^ 18) <= IZR k * ln 2) by (apply Rmult_le_compat_l; [apply (IZR_le 0 k Zk)|lra]).
    assert (H2 : - IZR k * ln 2 <= - v) by lra. destruct H2 as [H2|H2]; [left; apply exp_increasing, H2|rewrite H2; lra].
  Qed.
  Lemma E_ge : forall x k, 0 <= x <= 25 -> x * x <= IZR k * (693147180559945309 / 10 ^ 18) -> (0 <= k)%Z -> bpow radix2 (- k - 6) * 1.01 <= E x.
  Proof.
    intros x k Hx Hk Zk. pose proof (phi_E_all 25 x ltac:(lra) ltac:(lra)) as U. unfold phi in U. pose proof isp_range as IR. pose proof K_pos as K0.
    pose proof (exp_ge_bpow (x * x) k Hk Zk) as X. pose proof (bpow_gt_0 radix2 (- k)) as B0.
    replace (- k - 6)%Z with (- k + -6)%Z by lia. rewrite bpow_plus. replace (bpow radix2 (-6)) with (/ 64) by (simpl; lra).
    assert (1.12 * bpow radix2 (- k) <= K * exp (- (x * x))) by (apply Rmult_le_compat; unfold Rdiv; lra). lra.
  Qed.
  Lemma back_gen : forall P x b d B, accurate_exp (p_exp P) -> fin x -> 0 <= Binary.B2R x <= b -> b <= 25 -> 0 <= d ->
    (forall s z, fin s -> 0.99 * E b <= Binary.B2R s < 2 -> E z = Binary.B2R s -> inv_ok z d (@inverfc (ieee P) s)) ->
    d + 1.48 * (/ 2 ^ 41 + / 2 ^ 51 * (b * b)) <= B ->
    exists s r, @erfc (ieee P) x = Ok s /\ fin s /\ @inverfc (ieee P) s = Ok r /\ fin r /\ Rabs (Binary.B2R r - Binary.B2R x) <= B.
  Proof.
    intros P x b d B HX Fx Hx Hb Hd HI HB. destruct (erfc_acc E HE P x HX Fx ltac:(lra)) as (s & Es & Fs & Bs).
    set (X := Binary.B2R x) in *.
    assert (SQ : 0 <= X * X <= b * b) by (split; [apply Rmult_le_pos; lra|apply Rmult_le_compat; lra]).
    assert (SB : b * b <= 25 * 25) by (apply Rmult_le_compat; lra).
    assert (EX : 0 < E X). { rewrite (E_w E X). apply Rmult_lt_0_compat; [apply exp_pos|apply w_pos_all, HE]. }
    assert (X1 : E X <= 1). { rewrite <- (erfc_0 E HE). apply (E_decr E HE). lra. }
    pose proof (E_decr E HE X b (proj2 Hx)) as Eb.
    set (eta := / 2 ^ 41 + / 2 ^ 51 * (b * b)) in *. assert (ET : 0 <= eta <= / 1000) by (unfold eta; lra).
    assert (Bs2 : Rabs (Binary.B2R s - E X) <= eta * E X) by (eapply Rle_trans; [exact Bs|]; apply Rmult_le_compat_r; unfold eta; lra).
    assert (SM : eta * E X <= / 1000 * E X) by (apply Rmult_le_compat_r; lra). pose proof (Rabs_le_inv _ _ Bs2) as Bs3.
    assert (R2 : 0.99 * E b <= Binary.B2R s < 2) by lra.
    assert (SZ : exists z, E z = Binary.B2R s).
    { destruct (E_solve_far 26 (Binary.B2R s) ltac:(lra)) as (z & _ & Ez); [|exists z; exact Ez]. split; [|apply below2; [exact Fs|lra]].
      pose proof (E_ge 25 908 ltac:(lra) ltac:(lra) ltac:(lia)) as G. pose proof (E_far 26 930 ltac:(lra) ltac:(lra) ltac:(lia)) as G2.
      pose proof (E_decr E HE b 25 Hb). assert (G3 : bpow radix2 (- (930)) <= bpow radix2 (- (908) - 6)) by (apply bpow_le; lia). lra. }
    destruct SZ as (z & Ez). destruct (HI s z Fs R2 Ez) as (r & Er & Fr & Br). exists s, r. repeat split; try assumption.
    rewrite <- Ez in Bs2. pose proof (E_inv_near X z eta ltac:(lra) ET EX Bs2) as N.
    replace (Binary.B2R r - X) with ((Binary.B2R r - z) + (z - X)) by ring. eapply Rle_trans; [apply Rabs_triang|]. lra.
  Qed.
  Theorem back_far : forall P x, accurate_exp (p_exp P) -> accurate_ln (p_ln P) -> fin x -> 0 <= Binary.B2R x <= 25 ->
    exists s r, @erfc (ieee P) x = Ok s /\ fin s /\ @inverfc (ieee P) s = Ok r /\ fin r /\ Rabs (Binary.B2R r - Binary.B2R x) <= / 2 ^ 36.
  Proof.
    intros P x HX HL Fx Hx. apply (back_gen P x 25 (/ 2 ^ 37)); auto; try lra. intros s z Fs Hs Ez. apply (inverfc_acc E HE); auto. split; [|lra].
    pose proof (E_ge 25 908 ltac:(lra) ltac:(lra) ltac:(lia)) as G. assert (G3 : bpow radix2 (-930) <= bpow radix2 (- (908) - 7)) by (apply bpow_le; lia).
    replace (- (908) - 6)%Z with (- (908) - 7 + 1)%Z in G by lia. rewrite bpow_plus in G. change (bpow radix2 1) with 2 in G. pose proof (bpow_gt_0 radix2 (- (908) - 7)). lra.
  Qed.
  Theorem back_near : forall P x, accurate_exp (p_exp P) -> accurate_ln (p_ln P) -> fin x -> 0 <= Binary.B2R x <= 8 ->
    exists s r, @erfc (ieee P) x = Ok s /\ fin s /\ @inverfc (ieee P) s = Ok r /\ fin r /\ Rabs (Binary.B2R r - Binary.B2R x) <= / 2 ^ 38.
  Proof.
    intros P x HX HL Fx Hx. apply (back_gen P x 8 (/ 2 ^ 39)); auto; try lra. intros s z Fs Hs Ez. apply (inverfc_acc39 E HE); auto. split; [|lra].
    pose proof (E_ge 8 93 ltac:(lra) ltac:(lra) ltac:(lia)) as G. replace (bpow radix2 (- (93) - 6)) with (/ 2 ^ 99) in G by (simpl; lra). lra.
  Qed.
  Theorem back_neg : forall P x, accurate_exp (p_exp P) -> accurate_ln (p_ln P) -> fin x -> -2 <= Binary.B2R x <= 0 ->
    exists s r, @erfc (ieee P) x = Ok s /\ fin s /\ @inverfc (ieee P) s = Ok r /\ fin r /\ Rabs (Binary.B2R r - Binary.B2R x) <= / 2 ^ 30.
  Proof.
    intros P x HX HL Fx Hx. destruct (erfc_acc E HE P x HX Fx ltac:(lra)) as (s & Es & Fs & Bs). set (X := Binary.B2R x) in *.
    assert (SQ : 0 <= X * X <= 2 * 2). { replace (X * X) with (- X * - X) by ring. split; [apply Rmult_le_pos; lra|apply Rmult_le_compat; lra]. }
    assert (E2 : 0.0024 <= E 2).
    { pose proof (phi_E 2 ltac:(lra)) as U. unfold phi in U. pose proof (exp_ge_bpow (2 * 2) 6 ltac:(lra) ltac:(lia)) as G. replace (bpow radix2 (- (6))) with (/ 64) in G by (simpl; lra).
      pose proof isp_range as IR. assert (1.128 * / 64 <= K * exp (- (2 * 2))) by (apply Rmult_le_compat; unfold Rdiv; lra). lra. }
    pose proof (E_reflect E HE 2) as R2. rewrite (erfc_0 E HE) in R2. pose proof (E_decr E HE (- (2)) X ltac:(lra)) as D1. pose proof (E_decr E HE X 0 ltac:(lra)) as D2. rewrite (erfc_0 E HE) in D2.
    assert (DD : Rabs (Binary.B2R s - E X) <= 9.2 / 10 ^ 13).
    { eapply Rle_trans; [exact Bs|]. apply Rle_trans with ((/ 2 ^ 41 + / 2 ^ 51 * (2 * 2)) * 2); [apply Rmult_le_compat; lra|lra]. }
    pose proof (Rabs_le_inv _ _ DD) as D3.
    assert (SR : 0.00239 <= Binary.B2R s <= 2 - 0.00239) by lra.
    destruct (E_solve E HE (Binary.B2R s) ltac:(lra)) as (z & _ & Ez). destruct (inverfc_acc39 E HE P s z HX HL Fs ltac:(lra) Ez) as (r & Er & Fr & Br).
    exists s, r. repeat split; try assumption. rewrite <- Ez in DD, SR.
    pose proof (E_close E HE 0.00239 z X (9.2 / 10 ^ 13) ltac:(lra) ltac:(lra) ltac:(lra) DD) as C.
    replace (Binary.B2R r - X) with ((Binary.B2R r - z) + (z - X)) by ring. eapply Rle_trans; [apply Rabs_triang|]. lra.
  Qed.

  (** ** erf after inverf *)
  Lemma E_diff : forall a b d m, Rabs (a - b) <= d -> (forall t, Rmin a b <= t <= Rmax a b -> phi t <= m) -> Rabs (E a - E b) <= m * d.
  Proof.
    intros a b d m Hd Hm. assert (W : forall u v, u < v -> (forall t, u <= t <= v -> phi t <= m) -> 0 <= E u - E v <= m * (v - u)).
    { intros u v L H. pose proof (E_decr E HE u v ltac:(lra)) as D0. split; [lra|]. destruct HE as [D _]. destruct (MVT_cor2 E (fun x => - K * exp (- (x * x))) u v L (fun c _ => D c)) as (c & Ec & Hc).
      assert (Q : E u - E v = phi c * (v - u)). { unfold phi. apply Ropp_eq_compat in Ec. rewrite Ropp_minus_distr in Ec. rewrite Ec. set (k := K). ring. }
      rewrite Q. apply Rmult_le_compat_r; [lra|]. apply H. lra. }
    pose proof (Hm a ltac:(split; [apply Rmin_l|apply Rmax_l])) as Ma. pose proof (phi_pos a) as Pa.
    destruct (Rtotal_order a b) as [L|[L|L]].
    - rewrite Rmin_left, Rmax_right in Hm by lra. pose proof (W a b L Hm) as Q. rewrite Rabs_pos_eq by lra. eapply Rle_trans; [apply Q|]. apply Rmult_le_compat_l; [lra|]. apply Rabs_le_inv in Hd. lra.
    - subst b. rewrite Rminus_eq_0, Rabs_R0 in *. apply Rmult_le_pos; lra.
    - rewrite Rmin_right, Rmax_left in Hm by lra. pose proof (W b a L Hm) as Q. rewrite Rabs_left1 by lra. apply Rle_trans with (m * (a - b)); [lra|]. apply Rmult_le_compat_l; [lra|]. apply Rabs_le_inv in Hd. lra.
  Qed.
  Lemma phi_1_13 : forall x, phi x <= 1.13.
  Proof.
    intros x. pose proof isp_range as IR. pose proof K_pos as K0. assert (X : exp (- (x * x)) <= 1). { rewrite <- exp_0. pose proof (Rle_0_sqr x) as S. unfold Rsqr in S. destruct S as [S|S]; [left; apply exp_increasing; lra|right; f_equal; lra]. }
    assert (P : phi x <= K * 1) by (unfold phi; apply Rmult_le_compat_l; lra). unfold Rdiv in *. lra.
  Qed.
  Lemma gap1 : forall p : f64, fin p -> Binary.B2R p < 1 -> Binary.B2R p <= 1 - / 2 ^ 53.
  Proof.
    intros p Fp Hp. destruct (Rle_or_lt (1 / 2) (Binary.B2R p)) as [L|L]; [|lra].
    assert (Fm : fmt (Binary.B2R p)) by (rewrite <- (val_fin _ Fp); apply val_fmt).
    assert (F1 : fmt 1). { pose proof val_1 as V1. rewrite <- V1. apply val_fmt. }
    assert (S : succ radix2 fexp64 (Binary.B2R p) <= 1) by (apply succ_le_lt; [apply fexp64_valid|exact Fm|exact F1|lra]).
    rewrite succ_eq_pos in S by lra. rewrite ulp_neq_0 in S by lra. unfold Generic_fmt.cexp in S.
    rewrite (mag_unique_pos radix2 (Binary.B2R p) 0) in S by (simpl; lra).
    replace (bpow radix2 (fexp64 0)) with (/ 2 ^ 53) in S by (simpl; lra). lra.
  Qed.
  Theorem trip_erf : forall F P p, erf_function F -> accurate_exp (p_exp P) -> accurate_ln (p_ln P) -> fin p -> -1 + / 2 ^ 51 <= Binary.B2R p < 1 ->
    exists r s, @inverf (ieee P) p = Ok r /\ fin r /\ @erf (ieee P) r = Ok s /\ fin s /\ Rabs (Binary.B2R s - Binary.B2R p) <= / 2 ^ 38.
  Proof.
    intros F P p HF HX HL Fp Hp. pose proof (fun x => erf_of_erfc F E HF HE x) as FE. rewrite (erfc_0 E HE) in FE.
    pose proof val_1 as V1. rewrite (val_fin _ fin_1) in V1. pose proof (gap1 p Fp (proj2 Hp)) as G1.
    unfold inverf. ieee_simpl. destruct (flA _ _ (sub_spec P (f64_lit 1.0) p fin_1 Fp)) as [Fq Bq]; [rewrite V1; apply Rabs_le; lra|]. rewrite V1 in Bq.
    rewrite (Rabs_pos_eq (1 - Binary.B2R p)) in Bq by lra. set (q := f64_sub P (f64_lit 1.0) p) in *. pose proof Bq as B'. apply Rabs_le_inv in B'.
    assert (Q1 : / 2 ^ 100 <= Binary.B2R q < 2) by lra.
    destruct (E_solve E HE (Binary.B2R q)) as (z & Hz & Ez). { split; [lra|apply below2; [exact Fq|lra]]. }
    destruct (inverfc_acc39 E HE P q z HX HL Fq Q1 Ez) as (r & Er & Fr & Br). pose proof (Rabs_le_inv _ _ Br) as Br'.
    destruct (erf_acc F HF P r HX Fr ltac:(lra)) as (s & Es & Fs & Bs). exists r, s. repeat split; try assumption. rewrite FE in Bs.
    pose proof (E_diff (Binary.B2R r) z (/ 2 ^ 39) 1.13 Br (fun t _ => phi_1_13 t)) as G. rewrite Ez in G.
    replace (Binary.B2R s - Binary.B2R p) with ((Binary.B2R s - (1 - E (Binary.B2R r))) + - ((E (Binary.B2R r) - Binary.B2R q) + (Binary.B2R q - (1 - Binary.B2R p)))) by ring.
    eapply Rle_trans; [apply Rabs_triang|]. rewrite Rabs_Ropp. pose proof (Rabs_triang (E (Binary.B2R r) - Binary.B2R q) (Binary.B2R q - (1 - Binary.B2R p))). lra.
  Qed.
End Trip.

(** ** as stated to the user *)
Lemma erfc_inverfc_user : forall P (p : f64), accurate_exp (p_exp P) -> accurate_ln (p_ln P) -> finite p -> bpow radix2 (-930) <= val p < 2 ->
  exists r s, @inverfc (ieee P) p = Ok r /\ @erfc (ieee P) r = Ok s /\ finite s /\ Rabs (val s - val p) <= / 2 ^ 31 * val p.
Proof.
  intros P p HX HL Fp Hp. rewrite (val_fin _ Fp) in *. destruct erfc_exists as [E HE].
  destruct (trip_far E HE P p HX HL Fp Hp) as (r & s & H1 & _ & H2 & Fs & B). exists r, s. rewrite (val_fin _ Fs). auto.
Qed.
Lemma erfc_inverfc_near_user : forall P (p : f64), accurate_exp (p_exp P) -> accurate_ln (p_ln P) -> finite p -> / 2 ^ 100 <= val p < 2 ->
  exists r s, @inverfc (ieee P) p = Ok r /\ @erfc (ieee P) r = Ok s /\ finite s /\ Rabs (val s - val p) <= / 2 ^ 34 * val p.
Proof.
  intros P p HX HL Fp Hp. rewrite (val_fin _ Fp) in *. destruct erfc_exists as [E HE].
  destruct (trip_near E HE P p HX HL Fp Hp) as (r & s & H1 & _ & H2 & Fs & B). exists r, s. rewrite (val_fin _ Fs). auto.
Qed.
Lemma inverfc_erfc_user : forall P (x : f64), accurate_exp (p_exp P) -> accurate_ln (p_ln P) -> finite x -> -2 <= val x <= 25 ->
  exists s r, @erfc (ieee P) x = Ok s /\ @inverfc (ieee P) s = Ok r /\ finite r /\ Rabs (val r - val x) <= / 2 ^ 30
  /\ (0 <= val x -> Rabs (val r - val x) <= / 2 ^ 36) /\ (0 <= val x <= 8 -> Rabs (val r - val x) <= / 2 ^ 38).
Proof.
  intros P x HX HL Fx Hx. rewrite (val_fin _ Fx) in *. destruct erfc_exists as [E HE]. destruct (Rlt_or_le (Binary.B2R x) 0) as [L|L].
  - destruct (back_neg E HE P x HX HL Fx ltac:(lra)) as (s & r & H1 & _ & H2 & Fr & B). exists s, r. rewrite (val_fin _ Fr).
    split; [exact H1|]. split; [exact H2|]. split; [exact Fr|]. split; [exact B|]. split; intros; lra.
  - destruct (back_far E HE P x HX HL Fx ltac:(lra)) as (s & r & H1 & _ & H2 & Fr & B). exists s, r. rewrite (val_fin _ Fr).
    split; [exact H1|]. split; [exact H2|]. split; [exact Fr|]. split; [lra|]. split; [intros _; exact B|]. intros H8.
    destruct (back_near E HE P x HX HL Fx H8) as (s' & r' & H1' & _ & H2' & Fr' & B').
    rewrite H1 in H1'. injection H1' as <-. rewrite H2 in H2'. injection H2' as <-. exact B'.
Qed.
Lemma erf_inverf_user : forall P (p : f64), accurate_exp (p_exp P) -> accurate_ln (p_ln P) -> finite p -> -1 + / 2 ^ 51 <= val p < 1 ->
  exists r s, @inverf (ieee P) p = Ok r /\ @erf (ieee P) r = Ok s /\ finite s /\ Rabs (val s - val p) <= / 2 ^ 38.
Proof.
  intros P p HX HL Fp Hp. rewrite (val_fin _ Fp) in *. destruct erfc_exists as [E HE]. destruct erf_exists as [F HF].
  destruct (trip_erf E HE F P p HF HX HL Fp Hp) as (r & s & H1 & _ & H2 & Fs & B). exists r, s. rewrite (val_fin _ Fs). auto.
Qed.

Lemma ex_trip : accurate_exp (p_exp (ideal true false)) /\ accurate_ln (p_ln (ideal true false))
  /\ (finite (f64_lit 0.25) /\ / 2 ^ 100 <= val (f64_lit 0.25) < 2 /\ bpow radix2 (-930) <= val (f64_lit 0.25))
  /\ (finite (f64_lit 2.5) /\ 0 <= val (f64_lit 2.5) <= 8)
  /\ (finite (f64_lit (-0.75)) /\ -2 <= val (f64_lit (-0.75)) <= 25 /\ -1 + / 2 ^ 51 <= val (f64_lit (-0.75)) < 1).
Proof.
  split; [apply ErfcxAcc.ideal_exp_accurate|]. split; [apply BetaExamples.ideal_ln_accurate|].
  lit_facts 0.25%dec 1%Z 2%Z HF1 HV1. lit_facts (-0.75)%dec (-3)%Z 2%Z HF2 HV2. lit_facts 2.5%dec 5%Z 1%Z HF3 HV3.
  assert (W1 : val (f64_lit 0.25) = 1 / 4) by (rewrite HV1; simpl (2 ^ 2)%Z; lra). assert (W2 : val (f64_lit (-0.75)) = -3 / 4) by (rewrite HV2; simpl (2 ^ 2)%Z; lra).
  assert (W3 : val (f64_lit 2.5) = 5 / 2) by (rewrite HV3; simpl (2 ^ 1)%Z; lra).
  rewrite W1, W2, W3. repeat split; try assumption; try lra. apply Rle_trans with (bpow radix2 (-2)); [apply bpow_le; lia|simpl; lra].
Qed.
