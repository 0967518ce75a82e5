(** * Accuracy of gammp and gammq for a < 100 *)

From Coq Require Import ZArith Reals Bool Lra Lia List.
From Flocq Require Import Core IEEE754.BinarySingleNaN IEEE754.Binary IEEE754.Bits.
From Verif.Model Require Import Base Arith Utils Gamma.
From Verif.Float Require Import Bits64 Ieee Exact Platforms.
From Verif.Spec Require Import F64Spec Outcome GammaSpec LibmSpec IncGammaSpec.
From Verif.Proofs Require Import F64 F64Ops Lits Ext ExpBounds ErfcODE Stirling FlErr GammaAcc LnGammaAcc LnGammaFl LnGammaThms BetaAcc IncGamma IncGammaTotal GserAcc GammaPQ GammaRange GammpAcc GcfReal GcfBounds GcfLoop GcfAcc GcfThms.
Import ListNotations.
Open Scope R_scope.
Local Notation exp := Rtrigo_def.exp.
Local Notation ln := Rpower.ln.
Local Notation sqrt := R_sqrt.sqrt.

(** ** Far to the right Q is negligible *)

Lemma ln_two_sided : forall v, 1 <= v -> 2 * ln v <= v - / v.
Proof.
  intros v Hv. pose proof (mono_on (fun t => t - / t - 2 * ln t) (fun t => (1 - / t) * (1 - / t)) 1 v Hv) as M. cbv beta in M.
  rewrite ln_1, Rinv_1 in M. enough (1 - 1 - 2 * 0 <= v - / v - 2 * ln v) by lra. apply M.
  - intros t Ht. replace ((1 - / t) * (1 - / t)) with (1 - (- / (t * t)) - 2 * / t) by (field; lra).
    apply derivable_pt_lim_minus; [apply derivable_pt_lim_minus; [apply derivable_pt_lim_id|]|].
    + apply (derive_inv t). lra.
    + apply derivable_pt_lim_scal, derivable_pt_lim_ln. lra.
  - intros t Ht. apply Rle_0_sqr.
Qed.

Section Far.
  Variable G : R -> R.
  Hypothesis HG : gamma_function G.

  Lemma far_exponent : forall s x, 0 < s -> s * s + 1999 / 100 * (s + 1) <= x ->
    (s * s) * ln (x / (s * s)) - (x - s * s) <= - (87956 / 1000 * (s + 1) / (s + 44 / 10)).
  Proof.
    intros s x Hs Hx. assert (X0 : 0 < x) by (pose proof (Rle_0_sqr s) as S; unfold Rsqr in S; lra). assert (SS : 0 < s * s) by (apply Rmult_lt_0_compat; exact Hs).
    set (v := sqrt x / s). assert (R0 : 0 < sqrt x) by (apply sqrt_lt_R0, X0).
    assert (VX : v * v = x / (s * s)) by (unfold v; rewrite <- (sqrt_sqrt x) at 3 by lra; field; lra).
    assert (RS : s + 44 / 10 <= sqrt x).
    { rewrite <- (sqrt_square (s + 44 / 10)) by lra. apply sqrt_le_1_alt. lra. }
    assert (V1 : 1 <= v). { unfold v. apply (Rmult_le_reg_r s); [exact Hs|]. unfold Rdiv. rewrite Rmult_assoc, Rinv_l by lra. lra. }
    pose proof (ln_two_sided v V1) as L. assert (LE : ln (x / (s * s)) = 2 * ln v) by (rewrite <- VX, ln_mult by lra; ring).
    rewrite LE. assert (XE : x = s * s * (v * v)) by (rewrite VX; field; lra).
    apply Rle_trans with (- ((x - s * s) * (1 - / v))).
    { apply Rle_trans with (s * s * (v - / v) - (x - s * s)); [apply Rplus_le_compat_r, Rmult_le_compat_l; lra|]. rewrite XE. right. field. lra. }
    apply Ropp_le_contravar.
    assert (IV : / v <= s / (s + 44 / 10)).
    { replace (s / (s + 44 / 10)) with (/ ((s + 44 / 10) / s)) by (field; lra). apply Rinv_le_contravar; [apply Rmult_lt_0_compat; [lra|apply Rinv_0_lt_compat, Hs]|].
      unfold v. apply Rmult_le_compat_r; [left; apply Rinv_0_lt_compat, Hs|exact RS]. }
    replace (87956 / 1000 * (s + 1) / (s + 44 / 10)) with (1999 / 100 * (s + 1) * (1 - s / (s + 44 / 10))) by (field; lra).
    assert (S1 : s / (s + 44 / 10) <= 1) by (apply (Rmult_le_reg_r (s + 44 / 10)); [lra|]; unfold Rdiv; rewrite Rmult_assoc, Rinv_l by lra; lra).
    apply Rmult_le_compat; lra.
  Qed.

  Lemma far_small : forall s, 0 < s <= 10 -> 102 / 100 * (s * s * exp (- (87956 / 1000 * (s + 1) / (s + 44 / 10)))) <= / 10 ^ 9.
  Proof.
    intros s Hs. set (K := 87956 / 1000 * (s + 1) / (s + 44 / 10)).
    assert (KE : K * (s + 44 / 10) = 87956 / 1000 * (s + 1)) by (unfold K; field; lra).
    pose proof exp_20 as E20. assert (I19 : exp (-19) <= / (3 * 10 ^ 7)) by (replace (-19) with (- (19)) by ring; rewrite exp_Ropp; apply Rinv_le_contravar; simpl in *; lra).
    assert (SS : 0 < s * s) by (apply Rmult_lt_0_compat; lra). pose proof (exp_pos (-19)) as P19.
    destruct (Rle_lt_dec s 1) as [S1|S1].
    - assert (HK : 199 / 10 + 12 * s <= K).
      { apply (Rmult_le_reg_r (s + 44 / 10)); [lra|]. rewrite KE. assert (s * s <= s * 1) by (apply Rmult_le_compat_l; lra). lra. }
      apply Rle_trans with (102 / 100 * (s * s * (exp (-19) * / (72 * (s * s))))).
      + apply Rmult_le_compat_l; [lra|]. apply Rmult_le_compat_l; [lra|]. apply Rle_trans with (exp (-19 + - (12 * s))); [apply exp_mono; lra|].
        rewrite exp_plus. apply Rmult_le_compat_l; [lra|]. rewrite exp_Ropp. apply Rinv_le_contravar; [lra|].
        pose proof (StirlingConst.tay_low 2 (12 * s) ltac:(lra)) as T. cbn [StirlingConst.tay] in T. simpl in T. lra.
      + replace (102 / 100 * (s * s * (exp (-19) * / (72 * (s * s))))) with (102 / 7200 * exp (-19)) by (field; lra). simpl in *; lra.
    - assert (HK : 32 <= K) by (apply (Rmult_le_reg_r (s + 44 / 10)); [lra|]; rewrite KE; lra).
      assert (E13 : 10 ^ 5 <= exp 13).
      { replace 13 with (INR 13 * 1) by (rewrite INR_IZR_INZ; simpl; lra). rewrite exp_pow. pose proof (StirlingConst.tay_low 4 1 ltac:(lra)) as TL. cbn [StirlingConst.tay] in TL.
        apply Rle_trans with ((5 / 2) ^ 13); [simpl; lra|]. apply pow_incr. simpl in TL. lra. }
      assert (I13 : exp (-13) <= / 10 ^ 5) by (replace (-13) with (- (13)) by ring; rewrite exp_Ropp; apply Rinv_le_contravar; simpl in *; lra). pose proof (exp_pos (-13)) as P13.
      apply Rle_trans with (102 / 100 * (10 * 10 * (/ (3 * 10 ^ 7) * / 10 ^ 5))); [|simpl; lra].
      apply Rmult_le_compat_l; [lra|]. apply Rmult_le_compat; [lra|left; apply exp_pos|apply Rmult_le_compat; lra|].
      apply Rle_trans with (exp (-19 + -13)); [apply exp_mono; lra|]. rewrite exp_plus. apply Rmult_le_compat; lra.
  Qed.

  Lemma far_Q : forall a x p, 0 < a < 100 -> lower_inc_gamma G a p -> a + 1999 / 100 * (sqrt a + 1) <= x -> 1 - p x <= / 10 ^ 9.
  Proof.
    intros a x p Ha Hp Hx. set (s := sqrt a) in *. assert (S0 : 0 < s) by (apply sqrt_lt_R0; lra). assert (SA : s * s = a) by (apply sqrt_sqrt; lra).
    assert (S10 : s <= 10) by (unfold s; rewrite <- (sqrt_square 10) by lra; apply sqrt_le_1_alt; lra).
    assert (X0 : 0 < x) by lra. pose proof (G_pos G HG a (proj1 Ha)) as Ga.
    pose proof (Q_le_xa G a p HG (proj1 Ha) Hp x ltac:(lra)) as Q. eapply Rle_trans; [exact Q|]. clear Q.
    eapply Rle_trans; [|apply (far_small s (conj S0 S10))]. apply Rmult_le_compat_l; [lra|].
    pose proof (far_exponent s x S0 ltac:(rewrite SA; exact Hx)) as FE. rewrite SA in *.
    assert (XX : xa G a x = xa G a a * exp (a * ln (x / a) - (x - a))).
    { rewrite !(xa_exp G HG) by lra. rewrite <- exp_plus. f_equal. unfold Rdiv. rewrite ln_mult, ln_Rinv; [ring|lra|lra|apply Rinv_0_lt_compat; lra]. }
    rewrite XX. apply Rmult_le_compat; [left; apply xa_pos, Ga|left; apply exp_pos| |apply exp_mono, FE].
    pose proof (inc_low G a Ga (proj1 Ha) p Hp a (proj1 Ha)) as IL. pose proof (inc_le_1 G HG a p (proj1 Ha) Hp a (proj1 Ha)) as I1.
    assert (xa G a a / a <= 1) by lra. replace (xa G a a) with (xa G a a / a * a) by (field; lra). apply Rle_trans with (1 * a); [apply Rmult_le_compat_r; lra|lra].
  Qed.
End Far.

(** ** The tests *)

Section Tests.
  Context (P : platform).
  Definition bound (a : f64) : f64 := f64_add P a (f64_mul P (f64_lit 20.0) (f64_add P (f64_sqrt P a) (f64_lit 1.0))).

  Lemma bound_val : forall a, fin a -> / 2 ^ 16 <= val a < 100 -> fin (bound a) /\ Rabs (val (bound a) - (val a + 20 * (sqrt (val a) + 1))) <= / 10 ^ 11.
  Proof.
    intros a Fa Ha. pose proof (val_fin a Fa) as VA. destruct lit20 as [F20 V20]. pose proof eta_small as ES. pose proof tiny_20 as T20. pose proof eta_pos as EP.
    assert (A0 : 0 < val a) by (simpl in *; lra).
    destruct (sqrt_spec P a Fa ltac:(lra)) as [FS VS]. rewrite <- VA in VS.
    assert (S0 : 0 <= sqrt (val a)) by apply sqrt_pos.
    assert (S1 : sqrt (val a) <= 10) by (rewrite <- (sqrt_square 10) by lra; apply sqrt_le_1_alt; lra).
    assert (ESQ : Rabs (val (f64_sqrt P a) - sqrt (val a)) <= uu * Rabs (sqrt (val a)) + eta).
    { apply fl; [apply rounds_fin; assumption|]. rewrite Rabs_pos_eq by exact S0. apply (below _ 10); [exact S1|simpl; lra]. }
    unfold bound. set (s := f64_sqrt P a) in *. clearbody s. set (S := sqrt (val a)) in *. clearbody S. rewrite (Rabs_pos_eq S) in ESQ by lra. apply Rabs_le_inv in ESQ. unfold uu in ESQ.
    assert (UB : forall t, 0 <= t <= 10 ^ 4 -> Rabs t <= bpow radix2 1000) by (intros t Ht; apply (bpow_le_1000 _ 14); [lia|rewrite Rabs_pos_eq by lra; change (bpow radix2 14) with 16384; simpl in *; lra]).
    destruct (add_fl P s _ FS fin_1) as [F1 E1]; [rewrite val_1; apply UB; simpl; lra|]. rewrite val_1, (Rabs_pos_eq (val s + 1)) in E1 by lra.
    set (s1 := f64_add P s _) in *. clearbody s1. apply Rabs_le_inv in E1. unfold uu in E1.
    destruct (mul_fl P _ s1 F20 F1) as [F2 E2]; [rewrite V20; apply UB; simpl; lra|]. rewrite V20, (Rabs_pos_eq (20 * val s1)) in E2 by lra.
    set (s2 := f64_mul P _ s1) in *. clearbody s2. apply Rabs_le_inv in E2. unfold uu in E2.
    destruct (add_fl P a s2 Fa F2) as [F3 E3]; [apply UB; simpl; lra|]. rewrite (Rabs_pos_eq (val a + val s2)) in E3 by lra.
    split; [exact F3|]. apply Rabs_le_inv in E3. unfold uu in E3. apply Rabs_le. simpl in *. lra.
  Qed.

  Lemma below_a1 : forall a x, fin a -> fin x -> f64_lt x (f64_add P a (f64_lit 1.0)) = true -> val x <= val a + 1.
  Proof.
    intros a x Fa Fx H. apply lt_true in H. destruct H as (_ & _ & H). destruct (add_spec P a _ Fa fin_1) as [_ V]. rewrite V in H.
    rewrite <- (val_fin _ Fa), <- (val_fin _ fin_1), val_1 in H. apply Rnot_lt_le. intros C.
    enough (rs (val a + 1) <= val x) by lra. apply rs_le_fmt; [apply val_fmt| |lra].
    rewrite (val_fin x Fx). pose proof (abs_B2R_lt_emax 53 1024 x) as B. fold Om in B. apply Rabs_lt_inv in B. lra.
  Qed.
  Lemma above_a1 : forall a x, fin a -> fin x -> 0 < val a < 100 -> f64_lt x (f64_add P a (f64_lit 1.0)) = false -> val a + 999 / 1000 <= val x.
  Proof.
    intros a x Fa Fx Ha H. destruct (add_fl P a _ Fa fin_1) as [F E].
    { rewrite val_1. apply (bpow_le_1000 _ 14); [lia|]. change (bpow radix2 14) with 16384. rewrite Rabs_pos_eq; lra. }
    rewrite val_1, (Rabs_pos_eq (val a + 1)) in E by lra. apply Rabs_le_inv in E. unfold uu in E. pose proof eta_small. pose proof tiny_20.
    apply lt_false in H; [|apply fin_nonnan, Fx|apply fin_nonnan, F]. lra.
  Qed.
End Tests.

(** ** The functions *)

Section Main.
  Variable G : R -> R.
  Hypothesis HG : gamma_function G.
  Context (P : platform) (LN : accurate_ln (p_ln P)) (EX : accurate_exp (p_exp P)).

  Lemma q_core2 : forall g q t, fin g -> 0 < q <= 1 -> 0 <= t <= / 10 ^ 8 -> Rabs (val g - q) <= t * q + exp (-680) ->
    let r := @clamp (ieee P) (f64_lit 0.0) (f64_lit 1.0) (f64_sub P (f64_lit 1.0) g) in fin r /\ Rabs (val r - (1 - q)) <= t + / 10 ^ 10.
  Proof.
    intros g q t Fg Hq Ht Hd. cbv zeta. pose proof e680 as E6. assert (TQ : t * q <= t * 1) by (apply Rmult_le_compat_l; lra). pose proof Hd as Hd'. apply Rabs_le_inv in Hd'.
    assert (SM : / 10 ^ 8 + / 10 ^ 12 <= 1 / 2) by (simpl; lra).
    destruct (sub_fl P _ g fin_1 Fg) as [Fs Es].
    { rewrite val_1. apply (bpow_le_1000 _ 14); [lia|]. change (bpow radix2 14) with 16384. apply Rabs_le. lra. }
    rewrite val_1 in Es. assert (B : Rabs (1 - val g) <= 2) by (apply Rabs_le; lra). pose proof eta_small as ES. pose proof tiny_20 as T20.
    apply clamp_near; [exact Fs|lra|]. replace (val (f64_sub P (f64_lit 1.0) g) - (1 - q)) with ((val (f64_sub P (f64_lit 1.0) g) - (1 - val g)) + - (val g - q)) by ring.
    eapply Rle_trans; [apply Rabs_triang|]. rewrite Rabs_Ropp. unfold uu in Es. simpl in *. lra.
  Qed.

  (** The three ways the call can go. *)
  Lemma pq_cases : forall a x p, fin a -> fin x -> / 2 ^ 16 <= val a < 100 -> val a / 2 ^ 52 <= val x -> lower_inc_gamma G (val a) p ->
    (f64_lt (bound P a) x = true /\ @gammp (ieee P) a x = Ok (f64_lit 1.0) /\ @gammq (ieee P) a x = Ok (f64_lit 0.0) /\ 1 - p (val x) <= / 10 ^ 9) \/
    (exists g, fin g /\ Rabs (val g - p (val x)) <= / 10 ^ 9 * p (val x) + exp (-680) /\ f64_lt x (f64_add P a (f64_lit 1.0)) = true /\
      @gammp (ieee P) a x = Ok g /\ @gammq (ieee P) a x = Ok (@clamp (ieee P) (f64_lit 0.0) (f64_lit 1.0) (f64_sub P (f64_lit 1.0) g))) \/
    (exists g, fin g /\ Rabs (val g - (1 - p (val x))) <= 22 / 10 ^ 10 * (1 - p (val x)) + exp (-680) /\
      @gammq (ieee P) a x = Ok g /\ @gammp (ieee P) a x = Ok (@clamp (ieee P) (f64_lit 0.0) (f64_lit 1.0) (f64_sub P (f64_lit 1.0) g))).
  Proof.
    intros a x p Fa Fx Ha H2 Hp.
    assert (R1 : / 2 ^ 16 <= val a <= 1000) by lra. assert (A0 : 0 < val a) by (simpl in *; lra).
    assert (X0 : 0 < val x) by (apply Rlt_le_trans with (val a / 2 ^ 52); [apply Rmult_lt_0_compat; [exact A0|simpl; lra]|exact H2]).
    assert (D1 : f64_le (f64_lit 0.0) x = true) by (apply nonneg_true; split; [apply fin_nonnan, Fx|lra]).
    assert (D2 : f64_lt (f64_lit 0.0) a = true) by (apply pos_true; split; [apply fin_nonnan, Fa|lra]).
    destruct (bound_val P a Fa Ha) as [FB EB]. apply Rabs_le_inv in EB. assert (E11 : / 10 ^ 11 <= / 1000) by (simpl; lra).
    assert (S0 : 0 <= sqrt (val a)) by apply sqrt_pos.
    assert (S1 : sqrt (val a) <= 10) by (rewrite <- (sqrt_square 10) by lra; apply sqrt_le_1_alt; lra).
    unfold gammp, gammq, EPS. ieee_simpl. rewrite D1, D2. cbn [andb].
    rewrite (guard_eq x Fx X0). pose proof (guard_eps P a x Fa Fx R1 H2) as GE. ieee_simpl_in GE. rewrite GE. clear GE.
    rewrite (guard_100_lt P a Fa ltac:(lra)). fold (bound P a).
    destruct (f64_lt (bound P a) x) eqn:C1.
    { left. split; [reflexivity|]. split; [reflexivity|]. split; [reflexivity|]. apply lt_true in C1. destruct C1 as (_ & _ & C1).
      apply (far_Q G HG (val a) (val x) p); [lra|exact Hp|lra]. }
    apply lt_false in C1; [|apply fin_nonnan, FB|apply fin_nonnan, Fx].
    destruct (f64_lt x (f64_add P a (f64_lit 1.0))) eqn:C2.
    - right. left. exists (@gser (ieee P) a x). pose proof (below_a1 P a x Fa Fx C2) as B1.
      assert (R2 : / 2 ^ 68 <= val x <= val a + 1).
      { split; [|lra]. apply Rle_trans with (val a / 2 ^ 52); [|exact H2]. apply Rle_trans with (/ 2 ^ 16 / 2 ^ 52); [simpl; lra|]. apply Rmult_le_compat_r; [simpl; lra|apply Ha]. }
      pose proof (gser_acc G HG P LN EX a x 110 p Fa Fx R1 R2 (Nat.le_refl _) ltac:(apply terms_110; lra) Hp) as [Fg Eg].
      split; [exact Fg|]. split; [exact Eg|]. split; [reflexivity|]. split; reflexivity.
    - right. right. exists (@gcf (ieee P) a x). pose proof (above_a1 P a x Fa Fx ltac:(lra) C2) as B1.
      pose proof (gcf_acc G HG P LN EX a x p Fa Fx Ha ltac:(lra) Hp) as [Fg Eg].
      split; [exact Fg|]. split; [exact Eg|]. split; reflexivity.
  Qed.
End Main.

Lemma small_pos : / 10 ^ 9 <= 3 / 10 ^ 9 /\ / 10 ^ 9 + / 10 ^ 12 <= 3 / 10 ^ 9 /\ 22 / 10 ^ 10 + / 10 ^ 10 <= 3 / 10 ^ 9 /\ / 10 ^ 9 + / 10 ^ 10 <= 3 / 10 ^ 9 /\ / 10 ^ 9 <= / 10 ^ 8 /\ 22 / 10 ^ 10 <= / 10 ^ 8 /\ 22 / 10 ^ 10 + / 10 ^ 12 <= 3 / 10 ^ 9.
Proof. simpl. lra. Qed.

Lemma gammp_all : forall G : R -> R, gamma_function G ->
  forall (P : platform) (a x : f64) (p : R -> R), accurate_ln (p_ln P) -> accurate_exp (p_exp P) -> finite a -> finite x ->
  let u := Binary.B2R a in let v := Binary.B2R x in
  / 2 ^ 16 <= u -> u / 2 ^ 52 <= v -> u < 100 \/ 100 <= u <= 1000 /\ v <= 0.1999 * u -> lower_inc_gamma G u p ->
  exists r, @gammp (ieee P) a x = Ok r /\ finite r /\ Rabs (Binary.B2R r - p v) <= 3 / 10 ^ 9.
Proof.
  intros G HG P a x p LN EX Fa Fx u v H1 H2 H3 Hp. pose proof small_pos as SP. pose proof e680 as E6.
  destruct H3 as [H3|H3].
  - unfold u, v in *. rewrite <- (val_fin a Fa), <- (val_fin x Fx) in *.
    assert (A0 : 0 < val a) by (simpl in *; lra).
    assert (X0 : 0 < val x) by (apply Rlt_le_trans with (val a / 2 ^ 52); [apply Rmult_lt_0_compat; [exact A0|simpl; lra]|exact H2]).
    pose proof (inc_le_1 G HG (val a) p A0 Hp (val x) X0) as B1. pose proof (inc_pos G (val a) (G_pos G HG _ A0) A0 p Hp (val x) X0) as B0.
    destruct (pq_cases G HG P LN EX a x p Fa Fx (conj H1 H3) H2 Hp) as [(_ & E & _ & Q)|[(g & Fg & Eg & _ & E & _)|(g & Fg & Eg & _ & E)]].
    + exists (f64_lit 1.0). split; [exact E|]. split; [apply fin_1|]. rewrite <- (val_fin _ fin_1), val_1, Rabs_pos_eq by lra. lra.
    + exists g. split; [exact E|]. split; [exact Fg|]. rewrite <- (val_fin _ Fg). eapply Rle_trans; [exact Eg|]. assert (/ 10 ^ 9 * p (val x) <= / 10 ^ 9 * 1) by (apply Rmult_le_compat_l; [simpl; lra|exact B1]). lra.
    + destruct (Rle_lt_dec (1 - p (val x)) 0) as [Q0|Q0].
      * assert (PE : p (val x) = 1) by lra. rewrite PE in *. replace (22 / 10 ^ 10 * (1 - 1) + exp (-680)) with (exp (-680)) in Eg by ring.
        destruct (sub_fl P _ g fin_1 Fg) as [Fs Es].
        { rewrite val_1. apply Rabs_le_inv in Eg. assert (/ 10 ^ 12 <= 1) by (simpl; lra). apply (bpow_le_1000 _ 14); [lia|]. change (bpow radix2 14) with 16384. apply Rabs_le. lra. }
        rewrite val_1 in Es. assert (B : Rabs (1 - val g) <= 2) by (apply Rabs_le_inv in Eg; assert (/ 10 ^ 12 <= 1) by (simpl; lra); apply Rabs_le; lra). pose proof eta_small as ES. pose proof tiny_20 as T20.
        destruct (clamp_near P _ 1 (3 / 10 ^ 9) Fs ltac:(lra)) as [Fr Er].
        { replace (val (f64_sub P (f64_lit 1.0) g) - 1) with ((val (f64_sub P (f64_lit 1.0) g) - (1 - val g)) + - (val g - (1 - 1))) by ring. eapply Rle_trans; [apply Rabs_triang|]. rewrite Rabs_Ropp. unfold uu in Es. simpl in *. lra. }
        eexists. split; [exact E|]. split; [exact Fr|]. rewrite <- (val_fin _ Fr). exact Er.
      * destruct (q_core2 P g (1 - p (val x)) (22 / 10 ^ 10) Fg ltac:(lra) ltac:(simpl; lra) Eg) as [Fr Er].
        eexists. split; [exact E|]. split; [exact Fr|]. rewrite <- (val_fin _ Fr). replace (p (val x)) with (1 - (1 - p (val x))) by ring. lra.
  - destruct (gammp_series G HG P a x p LN EX Fa Fx H1 H2 (or_intror H3) Hp) as (r & E & Fr & Er). exists r. split; [exact E|]. split; [exact Fr|]. fold v in Er.
    assert (A0 : 0 < u) by (simpl in *; lra). assert (X0 : 0 < v) by (apply Rlt_le_trans with (u / 2 ^ 52); [apply Rmult_lt_0_compat; [exact A0|simpl; lra]|exact H2]).
    pose proof (inc_le_1 G HG u p A0 Hp v X0) as B1. assert (/ 10 ^ 9 * p v <= / 10 ^ 9 * 1) by (apply Rmult_le_compat_l; [simpl; lra|exact B1]). lra.
Qed.

Lemma gammq_all : forall G : R -> R, gamma_function G ->
  forall (P : platform) (a x : f64) (p : R -> R), accurate_ln (p_ln P) -> accurate_exp (p_exp P) -> finite a -> finite x ->
  let u := Binary.B2R a in let v := Binary.B2R x in
  / 2 ^ 16 <= u -> u / 2 ^ 52 <= v -> u < 100 \/ 100 <= u <= 1000 /\ v <= 0.1999 * u -> lower_inc_gamma G u p ->
  exists r, @gammq (ieee P) a x = Ok r /\ finite r /\ Rabs (Binary.B2R r - (1 - p v)) <= 3 / 10 ^ 9.
Proof.
  intros G HG P a x p LN EX Fa Fx u v H1 H2 H3 Hp. pose proof small_pos as SP. pose proof e680 as E6.
  destruct H3 as [H3|H3].
  - unfold u, v in *. rewrite <- (val_fin a Fa), <- (val_fin x Fx) in *.
    assert (A0 : 0 < val a) by (simpl in *; lra).
    assert (X0 : 0 < val x) by (apply Rlt_le_trans with (val a / 2 ^ 52); [apply Rmult_lt_0_compat; [exact A0|simpl; lra]|exact H2]).
    pose proof (inc_le_1 G HG (val a) p A0 Hp (val x) X0) as B1. pose proof (inc_pos G (val a) (G_pos G HG _ A0) A0 p Hp (val x) X0) as B0.
    destruct (pq_cases G HG P LN EX a x p Fa Fx (conj H1 H3) H2 Hp) as [(_ & _ & E & Q)|[(g & Fg & Eg & _ & _ & E)|(g & Fg & Eg & E & _)]].
    + exists (f64_lit 0.0). split; [exact E|]. split; [reflexivity|]. rewrite <- (val_fin _ (eq_refl : fin (f64_lit 0.0))), val_0. replace (0 - (1 - p (val x))) with (- (1 - p (val x))) by ring. rewrite Rabs_Ropp, Rabs_pos_eq by lra. lra.
    + destruct (q_core2 P g (p (val x)) (/ 10 ^ 9) Fg ltac:(lra) ltac:(simpl; lra) Eg) as [Fr Er].
      eexists. split; [exact E|]. split; [exact Fr|]. rewrite <- (val_fin _ Fr). lra.
    + exists g. split; [exact E|]. split; [exact Fg|]. rewrite <- (val_fin _ Fg). eapply Rle_trans; [exact Eg|]. assert (22 / 10 ^ 10 * (1 - p (val x)) <= 22 / 10 ^ 10 * 1) by (apply Rmult_le_compat_l; [simpl; lra|lra]). lra.
  - destruct (gammq_series G HG P a x p LN EX Fa Fx H1 H2 (or_intror H3) Hp) as (r & E & Fr & Er). exists r. split; [exact E|]. split; [exact Fr|]. fold v in Er. simpl in *. lra.
Qed.

Lemma gammq_relative : forall G : R -> R, gamma_function G ->
  forall (P : platform) (a x : f64) (p : R -> R), accurate_ln (p_ln P) -> accurate_exp (p_exp P) -> finite a -> finite x ->
  let u := Binary.B2R a in let v := Binary.B2R x in
  / 2 ^ 16 <= u < 100 -> u + 1.001 <= v <= u + 19.99 * (sqrt u + 1) -> lower_inc_gamma G u p ->
  exists r, @gammq (ieee P) a x = Ok r /\ finite r /\ Rabs (Binary.B2R r - (1 - p v)) <= 22 / 10 ^ 10 * (1 - p v) + exp (-680).
Proof.
  intros G HG P a x p LN EX Fa Fx u v H1 H2 Hp. unfold u, v in *. rewrite <- (val_fin a Fa), <- (val_fin x Fx) in *.
  assert (A0 : 0 < val a) by (simpl in *; lra). assert (H3 : val a / 2 ^ 52 <= val x).
  { apply Rle_trans with (val a * 1); [|lra]. apply Rmult_le_compat_l; [lra|simpl; lra]. }
  destruct (pq_cases G HG P LN EX a x p Fa Fx H1 H3 Hp) as [(C & _)|[(g & _ & _ & C & _)|(g & Fg & Eg & E & _)]].
  - exfalso. apply lt_true in C. destruct C as (_ & _ & C). destruct (bound_val P a Fa H1) as [_ EB]. apply Rabs_le_inv in EB. pose proof (sqrt_pos (val a)) as S0. assert (/ 10 ^ 11 <= / 1000) by (simpl; lra). lra.
  - exfalso. apply below_a1 in C; [|exact Fa|exact Fx]. lra.
  - exists g. split; [exact E|]. split; [exact Fg|]. rewrite <- (val_fin _ Fg). exact Eg.
Qed.

Lemma ex_gammq : (exists G p, gamma_function G /\ lower_inc_gamma G 2.5 p) /\ accurate_ln (p_ln (ideal true false)) /\ accurate_exp (p_exp (ideal true false)) /\
  (finite (f64_lit 2.5) /\ Binary.B2R (f64_lit 2.5) = 2.5) /\ (finite (f64_lit 6.25) /\ Binary.B2R (f64_lit 6.25) = 6.25) /\
  (/ 2 ^ 16 <= 2.5 < 100 /\ 2.5 / 2 ^ 52 <= 6.25 /\ 2.5 + 1.001 <= 6.25 <= 2.5 + 19.99 * (sqrt 2.5 + 1)).
Proof.
  split.
  { exists GammaExists.GG. destruct (inc_gamma_exists GammaExists.GG 2.5 (G_pos _ GammaExists.gamma_exists 2.5 ltac:(lra)) ltac:(lra)) as [p Hp]. exists p. split; [exact GammaExists.gamma_exists|exact Hp]. }
  split; [apply BetaExamples.ideal_ln_accurate|]. split; [apply ErfcxAcc.ideal_exp_accurate|].
  lit_facts 2.5%dec 5%Z 1%Z HF HV. lit_facts 6.25%dec 25%Z 2%Z HF2 HV2. rewrite (val_fin _ HF) in HV. rewrite (val_fin _ HF2) in HV2.
  split; [split; [exact HF|lra]|]. split; [split; [exact HF2|lra]|]. pose proof (sqrt_pos 2.5). split; [simpl; lra|]. split; [simpl; lra|]. lra.
Qed.
