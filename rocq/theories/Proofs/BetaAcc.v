(** * Accuracy of beta against the gamma function *)

From Coq Require Import ZArith Reals Bool Lra Lia List.
From Flocq Require Import Core IEEE754.BinarySingleNaN IEEE754.Binary IEEE754.Bits.
From Verif.Model Require Import Base Arith Utils Gamma Beta.
From Verif.Float Require Import Bits64 Ieee Exact Platforms.
From Verif.Spec Require Import F64Spec Outcome GammaSpec LibmSpec.
From Verif.Proofs Require Import F64 F64Ops Lits Ext ExpBounds Stirling StirlingConst GammaPoly FlErr LnGammaAcc LnGammaFl LnGammaThms GammaExists BetaExamples ErfcxAcc.
Import ListNotations.
Open Scope R_scope.
Local Notation exp := Rtrigo_def.exp.
Local Notation ln := Rpower.ln.

Section B.
  Variable G : R -> R.
  Hypothesis HG : gamma_function G.

  Lemma lG_abs : forall x, / 2 ^ 17 <= x <= 2002 -> Rabs (lG G x) <= 23000.
  Proof.
    intros x Hx. pose proof (lG_step G HG x ltac:(lra)) as S1. pose proof (lG_step G HG (x + 1) ltac:(lra)) as S2.
    replace (x + 1 + 1) with (x + 2) in S2 by ring.
    assert (E1 : lG G 1 = 0) by (unfold lG; destruct HG as (_ & -> & _); apply ln_1).
    pose proof (lG_step G HG 1 ltac:(lra)) as E2. rewrite E1, ln_1 in E2. replace (1 + 1) with 2 in E2 by ring.
    pose proof (lG_diff G HG 2 x ltac:(lra) ltac:(lra)) as D. rewrite (Rplus_comm 2 x), E2 in D. replace (2 - 1) with 1 in D by ring. rewrite ln_1, Rmult_0_r in D.
    assert (U : forall t, / 2 ^ 17 <= t <= 2048 -> -17 <= ln t <= 11).
    { intros t Ht. split.
      - assert (- ln t <= 17); [|lra]. rewrite <- ln_Rinv by lra. apply Rle_trans with (ln (bpow radix2 17)); [|apply ln_bpow; lia].
        apply ln_mono; [apply Rinv_0_lt_compat; lra|]. replace (bpow radix2 17) with (/ / 2 ^ 17) by (rewrite Rinv_inv; simpl; lra). apply Rinv_le_contravar; lra.
      - apply Rle_trans with (ln (bpow radix2 11)); [|apply ln_bpow; lia]. apply ln_mono; [lra|]. change (bpow radix2 11) with 2048. lra. }
    pose proof (U x ltac:(lra)). pose proof (U (x + 1) ltac:(lra)). pose proof (U (x + 2) ltac:(lra)).
    assert (x * ln (x + 2) <= 2002 * 11).
    { apply Rle_trans with (x * 11); [apply Rmult_le_compat_l; lra|lra]. }
    apply Rabs_le. lra.
  Qed.

  (** the logarithm of the beta function, from above and below *)
  Lemma lB_up : forall x y, 0 < x -> 0 < y -> lG G x + lG G y - lG G (x + y) <= ln (/ x + / y).
  Proof.
    intros x y Hx Hy. pose proof (lG_step G HG x ltac:(lra)) as S1. pose proof (lG_step G HG y ltac:(lra)) as S2. pose proof (lG_step G HG (x + y) ltac:(lra)) as S3.
    assert (E1 : lG G 1 = 0) by (unfold lG; destruct HG as (_ & -> & _); apply ln_1).
    destruct HG as (_ & _ & _ & CV).
    assert (T : forall a b, 0 < a -> 0 < b -> 0 <= a / (a + b) <= 1).
    { intros a b Ha Hb. split; [apply Rmult_le_pos; [lra|left; apply Rinv_0_lt_compat; lra]|]. apply Rmult_le_reg_r with (a + b); [lra|]. replace (a / (a + b) * (a + b)) with a by (field; lra). lra. }
    pose proof (CV 1 (1 + x + y) (y / (y + x)) ltac:(lra) ltac:(lra) (T y x ltac:(lra) ltac:(lra))) as C1.
    pose proof (CV 1 (1 + x + y) (x / (x + y)) ltac:(lra) ltac:(lra) (T x y ltac:(lra) ltac:(lra))) as C2.
    replace (y / (y + x) * 1 + (1 - y / (y + x)) * (1 + x + y)) with (x + 1) in C1 by (field; lra).
    replace (x / (x + y) * 1 + (1 - x / (x + y)) * (1 + x + y)) with (y + 1) in C2 by (field; lra).
    fold (lG G (x + 1)) (lG G (y + 1)) (lG G 1) (lG G (1 + x + y)) in C1, C2. rewrite E1, Rmult_0_r in C1, C2.
    replace (1 + x + y) with (x + y + 1) in C1, C2 by ring.
    assert (C : lG G (x + 1) + lG G (y + 1) <= lG G (x + y + 1)).
    { replace (lG G (x + y + 1)) with ((1 - y / (y + x)) * lG G (x + y + 1) + (1 - x / (x + y)) * lG G (x + y + 1)) by (field; lra). lra. }
    assert (L : ln (/ x + / y) = ln (x + y) - ln x - ln y).
    { replace (/ x + / y) with ((x + y) / x / y) by (field; lra). rewrite !ln_div; [ring|lra|lra|apply Rmult_lt_0_compat; [lra|apply Rinv_0_lt_compat; lra]|lra]. }
    lra.
  Qed.
  Lemma lB_upper : forall x y, / 2 ^ 16 <= x -> / 2 ^ 16 <= y -> lG G x + lG G y - lG G (x + y) <= 17.
  Proof.
    intros x y Hx Hy. eapply Rle_trans; [apply lB_up; lra|]. apply Rle_trans with (ln (bpow radix2 17)); [|apply ln_bpow; lia].
    assert (I : forall t, / 2 ^ 16 <= t -> 0 < / t <= 65536) by (intros t Ht; split; [apply Rinv_0_lt_compat; lra|]; replace 65536 with (/ / 2 ^ 16) by (field; lra); apply Rinv_le_contravar; lra).
    pose proof (I x Hx). pose proof (I y Hy). apply ln_mono; [lra|]. change (bpow radix2 17) with 131072. lra.
  Qed.

  Lemma ln2_up : ln 2 <= 7 / 10.
  Proof.
    rewrite <- (ln_exp (7 / 10)). apply ln_mono; [lra|]. pose proof (tay_low 4 (7 / 10) ltac:(lra)) as TL. cbn [tay] in TL. eapply Rle_trans; [|exact TL]. simpl. lra.
  Qed.
  Lemma lB_lower : forall x y, 0 < x <= 100 -> 0 < y <= 100 -> -690 <= lG G x + lG G y - lG G (x + y).
  Proof.
    intros x y Hx Hy. pose proof ln2_up as L2.
    assert (E1 : lG G 1 = 0) by (unfold lG; destruct HG as (_ & -> & _); apply ln_1).
    pose proof (lG_step G HG 1 ltac:(lra)) as E2. rewrite E1, ln_1 in E2. replace (1 + 1) with 2 in E2 by ring.
    assert (LX : -5 <= lG G x).
    { destruct (Rle_or_lt 2 x) as [H|H].
      - pose proof (lG_diff G HG 2 (x - 2) ltac:(lra) ltac:(lra)) as D. replace (2 + (x - 2)) with x in D by ring. replace (2 - 1) with 1 in D by ring. rewrite ln_1 in D. lra.
      - pose proof (lG_diff G HG 2 x ltac:(lra) ltac:(lra)) as D. rewrite (Rplus_comm 2 x), E2 in D. replace (2 - 1) with 1 in D by ring. rewrite ln_1 in D.
        pose proof (lG_step G HG x ltac:(lra)) as S1. pose proof (lG_step G HG (x + 1) ltac:(lra)) as S2. replace (x + 1 + 1) with (x + 2) in S2 by ring.
        pose proof (ln_sub1 x ltac:(lra)). pose proof (ln_sub1 (x + 1) ltac:(lra)). lra. }
    pose proof (lG_step G HG y ltac:(lra)) as S1. pose proof (lG_step G HG (y + 1) ltac:(lra)) as S2. replace (y + 1 + 1) with (y + 2) in S2 by ring.
    pose proof (lG_step G HG (x + y) ltac:(lra)) as S3. pose proof (lG_step G HG (x + y + 1) ltac:(lra)) as S4. replace (x + y + 1 + 1) with (x + y + 2) in S4 by ring.
    pose proof (lG_diff G HG (y + 2) x ltac:(lra) ltac:(lra)) as [_ D]. replace (y + 2 + x) with (x + y + 2) in D by ring.
    pose proof (ln_mono y (x + y) ltac:(lra) ltac:(lra)). pose proof (ln_mono (y + 1) (x + y + 1) ltac:(lra) ltac:(lra)).
    assert (L : 0 <= ln (x + y + 2) <= 6).
    { split; [rewrite <- ln_1; apply ln_mono; lra|]. apply Rle_trans with (ln (2 ^ 8)); [apply ln_mono; lra|]. rewrite ln_pow by lra. simpl INR. lra. }
    assert (x * ln (x + y + 2) <= 100 * 6) by (apply Rmult_le_compat; lra). lra.
  Qed.

  Context (P : platform) (LN : accurate_ln (p_ln P)) (EX : accurate_exp (p_exp P)).

  Lemma lng_real : forall v x, / 2 ^ 16 <= x <= 2001 ->
    Rabs (v - ln (G x)) <= 5 / 10 ^ 10 + / (2 ^ 51 * x) + / 2 ^ 48 * ((x + 5) * ln (x + 5)) ->
    Rabs (v - lG G x) <= 63 / 10 ^ 11 /\ Rabs v <= 23001.
  Proof.
    intros v x Hz E.
    assert (H1 : / (2 ^ 51 * x) <= / 2 ^ 35).
    { apply Rinv_le_contravar; [lra|]. apply Rle_trans with (2 ^ 51 * / 2 ^ 16); [lra|]. apply Rmult_le_compat_l; lra. }
    assert (L11 : 0 <= ln (x + 5) <= 11).
    { split; [rewrite <- ln_1; apply ln_mono; lra|]. apply Rle_trans with (ln (bpow radix2 11)); [|apply ln_bpow; lia]. apply ln_mono; [lra|]. change (bpow radix2 11) with 2048. lra. }
    assert (H2 : (x + 5) * ln (x + 5) <= 2006 * 11) by (apply Rmult_le_compat; lra).
    assert (E' : Rabs (v - lG G x) <= 63 / 10 ^ 11) by (eapply Rle_trans; [exact E|]; lra).
    split; [exact E'|]. pose proof (lG_abs x ltac:(lra)) as LA.
    pose proof (Rabs_triang (v - lG G x) (lG G x)) as T. replace (v - lG G x + lG G x) with v in T by ring. lra.
  Qed.
  Lemma lng_1000 : forall z, fin z -> / 2 ^ 16 <= val z <= 2001 ->
    fin (@ln_gamma (ieee P) z) /\ Rabs (val (@ln_gamma (ieee P) z) - lG G (val z)) <= 63 / 10 ^ 11 /\ Rabs (val (@ln_gamma (ieee P) z)) <= 23001.
  Proof.
    intros z Fz Hz. pose proof (ln_gamma_accurate G HG P z LN Fz) as H. cbv zeta in H. 
    assert (R : bpow radix2 (-40) <= val z <= bpow radix2 900).
    { split; [apply Rle_trans with (bpow radix2 (-16)); [apply bpow_le; lia|replace (bpow radix2 (-16)) with (/ 2 ^ 16) by (simpl; lra); lra]|].
      apply Rle_trans with (bpow radix2 11); [change (bpow radix2 11) with 2048; lra|apply bpow_le; lia]. }
    exact (conj (proj1 (H R)) (lng_real _ _ Hz (proj2 (H R)))).
  Qed.

  Lemma beta_core : forall x y tt a b c, / 2 ^ 16 <= x <= 1000 -> / 2 ^ 16 <= y <= 1000 -> Rabs (tt - (x + y)) <= (x + y) / 10 ^ 15 ->
    fin a -> Rabs (val a - lG G x) <= 63 / 10 ^ 11 -> Rabs (val a) <= 23001 ->
    fin b -> Rabs (val b - lG G y) <= 63 / 10 ^ 11 -> Rabs (val b) <= 23001 ->
    fin c -> Rabs (val c - lG G tt) <= 63 / 10 ^ 11 -> Rabs (val c) <= 23001 ->
    let B := G x * G y / G (x + y) in exp (-690) <= B ->
    let r := libm P (p_exp P) (f64_sub P (f64_add P a b) c) in
    fin r /\ Rabs (val r - B) <= 2 / 10 ^ 9 * B.
  Proof.
    intros x y tt a b c Hz Hw D3 F1 E1 B1 F2 E2 B2 F4 E4 B4 B HB. cbv zeta.
    pose proof eta_small as ES. pose proof tiny_20 as T20. pose proof eta_pos as EP. apply Rabs_le_inv in D3.
    assert (UB : forall t, Rabs t <= 10 ^ 5 -> Rabs t <= bpow radix2 1000) by (intros t Ht; apply (bpow_le_1000 _ 17); [lia|change (bpow radix2 17) with 131072; lra]).
    assert (MV : Rabs (lG G tt - lG G (x + y)) <= 5 / 10 ^ 11).
    { assert (K : forall m M, / 2 ^ 16 <= m -> m <= M -> M <= 2001 -> M - m <= m * (2 / 10 ^ 15) -> Rabs (lG G M - lG G m) <= 5 / 10 ^ 11).
      { intros m M Hm HM HM' Hd. eapply Rle_trans; [apply (lG_move G HG m M); lra|].
        assert (L11 : 0 <= ln (M + 2) <= 11).
        { split; [rewrite <- ln_1; apply ln_mono; lra|]. apply Rle_trans with (ln (bpow radix2 11)); [|apply ln_bpow; lia]. apply ln_mono; [lra|]. change (bpow radix2 11) with 2048. lra. }
        assert (IM : 0 <= 2 / m) by (apply Rmult_le_pos; [lra|left; apply Rinv_0_lt_compat; lra]).
        apply Rle_trans with (m * (2 / 10 ^ 15) * (11 + 2 / m)); [apply Rmult_le_compat; lra|]. replace (m * (2 / 10 ^ 15) * (11 + 2 / m)) with (2 / 10 ^ 15 * (11 * m + 2)) by (field; lra). lra. }
      destruct (Rle_or_lt (x + y) tt) as [H|H]; [apply K; lra|rewrite Rabs_minus_sym; apply K; lra]. }
    destruct (add_fl P a b F1 F2) as [F5 E5]; [apply UB; eapply Rle_trans; [apply Rabs_triang|]; lra|]. set (s := f64_add P a b) in *. clearbody s.
    pose proof (Rabs_triang (val a) (val b)) as Tab. unfold uu in E5.
    assert (E5' : Rabs (val s - (val a + val b)) <= 6 / 10 ^ 12) by lra.
    assert (B5 : Rabs (val s) <= 46003) by (pose proof (Rabs_triang (val s - (val a + val b)) (val a + val b)) as T; replace (val s - (val a + val b) + (val a + val b)) with (val s) in T by ring; lra).
    assert (Tsc : Rabs (val s - val c) <= 69005) by (unfold Rminus; eapply Rle_trans; [apply Rabs_triang|]; rewrite Rabs_Ropp; lra).
    destruct (sub_fl P s c F5 F4) as [F6 E6]; [apply UB; lra|]. set (e := f64_sub P s c) in *. clearbody e. unfold uu in E6.
    assert (E6' : Rabs (val e - (val s - val c)) <= 9 / 10 ^ 12) by lra.
    (* the exponent *)
    assert (X0 : 0 < x) by lra. assert (Y0 : 0 < y) by lra.
    pose proof (G_pos G HG x X0) as GX. pose proof (G_pos G HG y Y0) as GY. pose proof (G_pos G HG (x + y) ltac:(lra)) as GS.
    assert (BP : 0 < B) by (apply Rmult_lt_0_compat; [apply Rmult_lt_0_compat; assumption|apply Rinv_0_lt_compat, GS]).
    assert (LB : ln B = lG G x + lG G y - lG G (x + y)) by (unfold B, lG; rewrite ln_div by (try apply Rmult_lt_0_compat; assumption); rewrite ln_mult by assumption; reflexivity).
    assert (EE : Rabs (val e - ln B) <= 1965 / 10 ^ 12).
    { rewrite LB. replace (val e - (lG G x + lG G y - lG G (x + y))) with ((val e - (val s - val c)) + ((val s - (val a + val b)) + ((val a - lG G x) + ((val b - lG G y) + (- (val c - lG G tt) + - (lG G tt - lG G (x + y))))))) by ring.
      eapply Rle_trans; [apply Rabs_triang|]. eapply Rle_trans; [apply Rplus_le_compat_l, Rabs_triang|].
      eapply Rle_trans; [do 2 apply Rplus_le_compat_l; apply Rabs_triang|]. eapply Rle_trans; [do 3 apply Rplus_le_compat_l; apply Rabs_triang|].
      eapply Rle_trans; [do 4 apply Rplus_le_compat_l; apply Rabs_triang|]. rewrite !Rabs_Ropp. lra. }
    assert (LBL : -690 <= ln B) by (rewrite <- (ln_exp (-690)); apply ln_mono; [apply exp_pos|exact HB]).
    assert (LBU : ln B <= 17).
    { rewrite LB. apply (lB_upper x y); lra. }
    pose proof EE as EE'. apply Rabs_le_inv in EE'.
    destruct (EX e (fin_nonnan _ F6) ltac:(lra)) as [N R]. rewrite libm_nonnan by (apply fin_nonnan; exact F6).
    pose proof (exp_near (ln B) (val e) (1965 / 10 ^ 12) ltac:(lra) EE) as NE. rewrite exp_ln in NE by exact BP.
    set (q := p_exp P e) in *. clearbody q. replace (bpow radix2 (-50)) with (/ 2 ^ 50) in R by (simpl; lra).
    assert (XB : exp (val e) <= (1 + / 10 ^ 8) * B) by (apply Rabs_le_inv in NE; lra).
    assert (RB : Rabs (val q - B) <= 2 / 10 ^ 9 * B).
    { replace (val q - B) with ((val q - exp (val e)) + (exp (val e) - B)) by ring. eapply Rle_trans; [apply Rabs_triang|]. lra. }
    split; [|exact RB].
    apply fin_iff_val; [exact N|].
    assert (BU : B <= exp 17) by (rewrite <- (exp_ln B BP); apply exp_mono, LBU).
    pose proof (exp_mono 17 709 ltac:(lra)) as X17. pose proof exp_709 as X709. assert (OM : Om = 2 * bpow radix2 1023) by (unfold Om; change 2 with (bpow radix2 1); rewrite <- bpow_plus; reflexivity).
    pose proof (bpow_gt_0 radix2 1023). rewrite OM. apply Rabs_le_inv in RB. apply Rabs_lt. lra.
  Qed.

  Lemma beta_accurate : forall z w, fin z -> fin w -> / 2 ^ 16 <= val z <= 1000 -> / 2 ^ 16 <= val w <= 1000 ->
    let B := G (val z) * G (val w) / G (val z + val w) in
    exp (-690) <= B ->
    exists r, @beta (ieee P) z w = Ok r /\ fin r /\ Rabs (val r - B) <= 2 / 10 ^ 9 * B.
  Proof.
    intros z w Fz Fw Hz Hw B HB. unfold beta. ieee_simpl.
    rewrite (proj2 (pos_true z)), (proj2 (pos_true w)) by (split; [apply fin_nonnan; assumption|lra]). cbn [andb].
    eexists. split; [reflexivity|].
    destruct (add_fl P z w Fz Fw) as [F3 E3].
    { apply (bpow_le_1000 _ 17); [lia|]. change (bpow radix2 17) with 131072. apply Rabs_le. lra. }
    rewrite (Rabs_pos_eq (val z + val w)) in E3 by lra. unfold uu in E3.
    assert (D3 : Rabs (val (f64_add P z w) - (val z + val w)) <= (val z + val w) / 10 ^ 15).
    { pose proof eta_small as ES. pose proof tiny_20 as T20. lra. }
    assert (Ht : / 2 ^ 16 <= val (f64_add P z w) <= 2001) by (apply Rabs_le_inv in D3; lra).
    pose proof (lng_1000 z Fz ltac:(lra)) as H1. pose proof (lng_1000 w Fw ltac:(lra)) as H2. pose proof (lng_1000 _ F3 Ht) as H3.
    exact (beta_core _ _ _ _ _ _ Hz Hw D3 (proj1 H1) (proj1 (proj2 H1)) (proj2 (proj2 H1)) (proj1 H2) (proj1 (proj2 H2)) (proj2 (proj2 H2)) (proj1 H3) (proj1 (proj2 H3)) (proj2 (proj2 H3)) HB).
  Qed.

  Lemma beta_accurate_100 : forall z w, fin z -> fin w -> / 2 ^ 16 <= val z <= 100 -> / 2 ^ 16 <= val w <= 100 ->
    let B := G (val z) * G (val w) / G (val z + val w) in
    exists r, @beta (ieee P) z w = Ok r /\ fin r /\ Rabs (val r - B) <= 2 / 10 ^ 9 * B.
  Proof.
    intros z w Fz Fw Hz Hw B. apply beta_accurate; try assumption; try lra. fold B.
    pose proof (G_pos G HG (val z) ltac:(lra)) as GX. pose proof (G_pos G HG (val w) ltac:(lra)) as GY. pose proof (G_pos G HG (val z + val w) ltac:(lra)) as GS.
    assert (BP : 0 < B) by (apply Rmult_lt_0_compat; [apply Rmult_lt_0_compat; assumption|apply Rinv_0_lt_compat, GS]).
    rewrite <- (exp_ln B BP). apply exp_mono. unfold B. rewrite ln_div by (try apply Rmult_lt_0_compat; assumption). rewrite ln_mult by assumption.
    apply (lB_lower (val z) (val w)); lra.
  Qed.
End B.

Lemma beta_acc : forall G : R -> R, gamma_function G ->
  forall (P : platform) (z w : f64), accurate_ln (p_ln P) -> accurate_exp (p_exp P) -> finite z -> finite w ->
  let x := Binary.B2R z in let y := Binary.B2R w in
  / 2 ^ 16 <= x <= 1000 -> / 2 ^ 16 <= y <= 1000 ->
  let B := G x * G y / G (x + y) in exp (-690) <= B ->
  exists r, @beta (ieee P) z w = Ok r /\ finite r /\ Rabs (Binary.B2R r - B) <= 2 / 10 ^ 9 * B.
Proof.
  intros G HG P z w LN EX Fz Fw x y Hx Hy B HB. unfold B, x, y in *. rewrite <- (val_fin z Fz), <- (val_fin w Fw) in *.
  destruct (beta_accurate G HG P LN EX z w Fz Fw Hx Hy HB) as (r & Er & Fr & Ar). exists r. split; [exact Er|]. split; [exact Fr|]. rewrite <- (val_fin r Fr). exact Ar.
Qed.

Lemma beta_acc_100 : forall G : R -> R, gamma_function G ->
  forall (P : platform) (z w : f64), accurate_ln (p_ln P) -> accurate_exp (p_exp P) -> finite z -> finite w ->
  let x := Binary.B2R z in let y := Binary.B2R w in
  / 2 ^ 16 <= x <= 100 -> / 2 ^ 16 <= y <= 100 ->
  let B := G x * G y / G (x + y) in
  exists r, @beta (ieee P) z w = Ok r /\ finite r /\ Rabs (Binary.B2R r - B) <= 2 / 10 ^ 9 * B.
Proof.
  intros G HG P z w LN EX Fz Fw x y Hx Hy B. unfold B, x, y in *. rewrite <- (val_fin z Fz), <- (val_fin w Fw) in *.
  destruct (beta_accurate_100 G HG P LN EX z w Fz Fw Hx Hy) as (r & Er & Fr & Ar). exists r. split; [exact Er|]. split; [exact Fr|]. rewrite <- (val_fin r Fr). exact Ar.
Qed.

Lemma ex_beta_acc : (exists G, gamma_function G /\ exp (-690) <= G 1 * G 2 / G (1 + 2)) /\
  accurate_ln (p_ln (ideal true false)) /\ accurate_exp (p_exp (ideal true false)) /\
  (finite (f64_lit 1.0) /\ Binary.B2R (f64_lit 1.0) = 1) /\ (finite (f64_lit 2.0) /\ Binary.B2R (f64_lit 2.0) = 2) /\
  (finite (f64_lit 0.125) /\ / 2 ^ 16 <= Binary.B2R (f64_lit 0.125) <= 100).
Proof.
  pose proof gamma_exists as HG.
  split.
  { exists GG. split; [exact HG|]. pose proof (G_step GG HG 1 ltac:(lra)) as S1. pose proof (G_step GG HG 2 ltac:(lra)) as S2. destruct HG as (_ & G1 & _).
    replace (1 + 1) with 2 in S1 by ring. replace (2 + 1) with 3 in S2 by ring. replace (1 + 2) with 3 by ring. rewrite S2, S1, G1.
    apply Rle_trans with (exp (-1)); [apply exp_mono; lra|]. pose proof (exp_ineq1_le 1) as X. replace (-1) with (- (1)) by ring. rewrite exp_Ropp.
    apply Rle_trans with (/ 2); [apply Rinv_le_contravar; lra|lra]. }
  split; [apply ideal_ln_accurate|]. split; [apply ideal_exp_accurate|].
  lit_facts 0.125%dec 1%Z 3%Z HF HV. rewrite (val_fin _ HF) in HV.
  pose proof val_1 as V1. rewrite (val_fin _ fin_1) in V1. pose proof val_2 as V2. rewrite (val_fin _ fin_2) in V2.
  split; [split; [exact fin_1|exact V1]|]. split; [split; [exact fin_2|exact V2]|]. split; [exact HF|lra].
Qed.

(** ** Tiny arguments *)

Lemma beta_nan : forall (P : platform) (z w : f64), accurate_ln (p_ln P) -> ln_of_infinity (p_ln P) -> finite z -> finite w ->
  0 < Binary.B2R z <= bpow radix2 (-55) -> 0 < Binary.B2R w <= bpow radix2 (-55) ->
  exists r, @beta (ieee P) z w = Ok r /\ is_NaN r.
Proof.
  intros P z w LN LI Fz Fw Hz Hw. rewrite <- (val_fin z Fz), <- (val_fin w Fw) in *.
  assert (B : bpow radix2 (-54) = 2 * bpow radix2 (-55)) by (change 2 with (bpow radix2 1); rewrite <- bpow_plus; reflexivity).
  pose proof (add_spec P z w Fz Fw) as R. rewrite <- (val_fin z Fz), <- (val_fin w Fw) in R.
  assert (R54 : rnd (val z + val w) <= bpow radix2 (-54)) by (apply rnd_le_fmt; [apply fmt_bpow; lia|lra]).
  assert (RL : val z <= rnd (val z + val w)) by (apply rnd_ge; [rewrite (val_fin z Fz); apply fmt_B2R|lra]).
  destruct (rounds_small _ _ R) as [F3 V3].
  { rewrite Rabs_pos_eq by lra. apply Rle_lt_trans with (bpow radix2 (-54)); [exact R54|unfold Om; apply bpow_lt; lia]. }
  unfold beta. ieee_simpl.
  rewrite (proj2 (pos_true z)), (proj2 (pos_true w)) by (split; [apply fin_nonnan; assumption|lra]). cbn [andb].
  eexists. split; [reflexivity|].
  rewrite (ln_gamma_inf P z LN LI Fz ltac:(lra)), (ln_gamma_inf P w LN LI Fw ltac:(lra)).
  rewrite (ln_gamma_inf P _ LN LI F3) by (rewrite (val_fin _ F3), V3; lra).
  apply libm_nan. reflexivity.
Qed.

Lemma tiny_lit' : finite (f64_lit 1e-20) /\ 0 < Binary.B2R (f64_lit 1e-20) <= bpow radix2 (-55).
Proof.
  destruct tiny_lit as [F V]. split; [exact F|]. rewrite <- (val_fin _ F). replace (bpow radix2 (-55)) with (/ 2 ^ 55) by (simpl; lra). lra.
Qed.

Lemma beta_refuted : exists z w : f64, finite z /\ finite w /\ 0 < Binary.B2R z /\ 0 < Binary.B2R w /\
  (forall G : R -> R, gamma_function G ->
     G (Binary.B2R z) * G (Binary.B2R w) / G (Binary.B2R z + Binary.B2R w) <= / Binary.B2R z + / Binary.B2R w <= 2 ^ 68) /\
  forall P : platform, accurate_ln (p_ln P) -> ln_of_infinity (p_ln P) -> exists r, @beta (ieee P) z w = Ok r /\ is_NaN r.
Proof.
  exists (f64_lit 1e-20), (f64_lit 1e-20). destruct tiny_lit' as [F V]. destruct tiny_lit as [_ V'].
  split; [exact F|]. split; [exact F|]. split; [lra|]. split; [lra|]. split.
  - intros G HG. rewrite (val_fin _ F) in V'. set (x := Binary.B2R (f64_lit 1e-20)) in *. clearbody x. split.
    + pose proof (G_pos G HG x ltac:(lra)) as GX. pose proof (G_pos G HG (x + x) ltac:(lra)) as GS.
      pose proof (Rinv_0_lt_compat x ltac:(lra)) as IX. pose proof (Rinv_0_lt_compat _ GS) as IS.
      assert (BP : 0 < G x * G x / G (x + x)) by (apply Rmult_lt_0_compat; [apply Rmult_lt_0_compat|]; assumption).
      rewrite <- (exp_ln _ BP). rewrite <- (exp_ln (/ x + / x)) by lra. apply exp_mono. rewrite ln_div by (try apply Rmult_lt_0_compat; assumption). rewrite ln_mult by assumption.
      apply (lB_up G HG x x); lra.
    + assert (/ x <= 2 ^ 67) by (replace (2 ^ 67) with (/ / 2 ^ 67) by (field; lra); apply Rinv_le_contravar; lra). lra.
  - intros P LN LI. apply beta_nan; assumption.
Qed.

Lemma ex_beta_nan : accurate_ln (p_ln (ideal true false)) /\ ln_of_infinity (p_ln (ideal true false)) /\
  finite (f64_lit 1e-20) /\ 0 < Binary.B2R (f64_lit 1e-20) <= bpow radix2 (-55).
Proof. split; [apply ideal_ln_accurate|]. split; [reflexivity|exact tiny_lit']. Qed.
