(** * The accuracy of ln_gamma, in the form the properties state it *)

From Coq Require Import ZArith Reals Bool Lra Lia List.
From Flocq Require Import Core IEEE754.BinarySingleNaN IEEE754.Binary IEEE754.Bits.
From Verif.Model Require Import Base Arith Utils Gamma.
From Verif.Float Require Import Bits64 Ieee Exact Platforms.
From Verif.Spec Require Import F64Spec Outcome GammaSpec LibmSpec.
From Verif.Proofs Require Import F64 F64Ops Lits Ext ExpBounds Stirling GammaPoly GammaAcc Lanczos FlErr LnGammaAcc LnGammaFl GammaExists BetaExamples.
Import ListNotations.
Open Scope R_scope.
Local Notation exp := Rtrigo_def.exp.
Local Notation ln := Rpower.ln.
Local Notation PI := Rtrigo1.PI.

Lemma ln_gamma_eq : forall P z, @ln_gamma (ieee P) z =
  let z := f64_sub P z (f64_lit 1.0) in
  let base := f64_add P (f64_add P z (f64_lit 5.0)) (f64_lit 0.5) in
  let s := f64_add P (@lanczos_sum (ieee P) z) (f64_lit (cdec 0)) in
  let c := libm P (p_ln P) (f64_sqrt P (f64_mul P (f64_lit 2.0) (f64_lit 3.14159265358979323846264338327950288))) in
  f64_add P (f64_sub P (f64_add P c (libm P (p_ln P) s)) base) (f64_mul P (libm P (p_ln P) base) (f64_add P z (f64_lit 0.5))).
Proof. intros P z. unfold ln_gamma, Arith.PI. ieee_simpl. reflexivity. Qed.

Lemma ln_gamma_accurate : forall G : R -> R, gamma_function G ->
  forall (P : platform) (z : f64), accurate_ln (p_ln P) -> fin z -> bpow radix2 (-40) <= val z <= bpow radix2 900 ->
  let x := val z in
  fin (@ln_gamma (ieee P) z) /\
  Rabs (val (@ln_gamma (ieee P) z) - ln (G x)) <= 5 / 10 ^ 10 + / (2 ^ 51 * x) + / 2 ^ 48 * ((x + 5) * ln (x + 5)).
Proof.
  intros G HG P z LN Fz Hx x. rewrite ln_gamma_eq. cbv zeta.
  pose proof (bpow_gt_0 radix2 (-40)) as B40. fold x in Hx. assert (X0 : 0 < x) by lra.
  pose proof eta_small as ES. pose proof tiny_20 as T20. pose proof eta_pos as EP.
  assert (B4 : bpow radix2 (-40) = / 1099511627776) by (simpl; lra).
  destruct (sub_fl P z (f64_lit 1.0) Fz fin_1) as [F1 E1].
  { rewrite val_1. apply (bpow_le_1000 _ 901); [lia|]. fold x. replace (bpow radix2 901) with (2 * bpow radix2 900) by (change 2 with (bpow radix2 1); rewrite <- bpow_plus; reflexivity).
    assert (1 <= bpow radix2 900) by (change 1 with (bpow radix2 0); apply bpow_le; lia). apply Rabs_le. lra. }
  rewrite val_1 in E1. fold x in E1. set (z1 := f64_sub P z (f64_lit 1.0)) in *. clearbody z1.
  set (y := val z1 + 1). set (d := Rabs (y - x)).
  assert (D : d <= uu * (1 + x) + eta).
  { unfold d, y. replace (val z1 + 1 - x) with (val z1 - (x - 1)) by ring. eapply Rle_trans; [exact E1|]. apply Rplus_le_compat_r, Rmult_le_compat_l; [unfold uu; lra|]. apply Rabs_le. lra. }
  assert (D0 : 0 <= d) by apply Rabs_pos.
  assert (D1 : d <= / 10 ^ 3 * x) by (unfold uu in D; lra).
  assert (Yx : Rabs (y - x) <= d) by (unfold d; lra). apply Rabs_le_inv in Yx.
  assert (B41 : bpow radix2 (-41) = / 2199023255552) by (simpl; lra).
  assert (Hy : bpow radix2 (-41) <= y <= bpow radix2 901).
  { split; [lra|]. replace (bpow radix2 901) with (2 * bpow radix2 900) by (change 2 with (bpow radix2 1); rewrite <- bpow_plus; reflexivity). lra. }
  destruct (expr_ok P LN z1 F1 Hy) as [Fr Er]. fold y in Er. split; [exact Fr|].
  set (r := f64_add P _ (f64_mul P _ _)) in *. clearbody r.
  pose proof (lanczos G HG y ltac:(lra)) as HL. fold (lG G x).
  (* the moved argument *)
  assert (MV : Rabs (lG G y - lG G x) <= d * (ln (x + 5) + 1 / 100 + (2 + 1 / 100) / x)).
  { assert (E : forall m M, x * (1 - / 10 ^ 3) <= m -> m <= M -> M <= x * (1 + / 10 ^ 3) -> M - m = d -> Rabs (lG G M - lG G m) <= d * (ln (x + 5) + 1 / 100 + (2 + 1 / 100) / x)).
    { intros m M Hm HmM HM Hd. eapply Rle_trans; [apply (lG_move G HG m M); lra|]. rewrite Hd. apply Rmult_le_compat_l; [exact D0|]. apply Rplus_le_compat.
      - apply Rle_trans with (ln ((x + 5) * (1 + 1 / 100))); [apply ln_mono; lra|]. rewrite ln_mult by lra. apply Rplus_le_compat_l. apply ln_1p_le. lra.
      - apply Rmult_le_reg_r with (m * x); [apply Rmult_lt_0_compat; lra|]. replace (2 / m * (m * x)) with (2 * x) by (field; lra). replace ((2 + 1 / 100) / x * (m * x)) with ((2 + 1 / 100) * m) by (field; lra). lra. }
    destruct (Rle_or_lt x y) as [H|H].
    - apply E; try lra. unfold d. rewrite Rabs_pos_eq; lra.
    - rewrite Rabs_minus_sym. apply E; try lra. unfold d. rewrite Rabs_left; lra. }
  set (lx := ln (x + 5)) in *. set (W := (x + 5) * lx) in *.
  assert (LX : 3 / 2 <= lx) by (eapply Rle_trans; [exact ln_45|apply ln_mono; lra]).
  assert (WX : 3 / 2 * (x + 5) <= W) by (unfold W; rewrite (Rmult_comm (x + 5)); apply Rmult_le_compat_r; lra).
  assert (IX : 0 < / x <= 1099511627776) by (split; [apply Rinv_0_lt_compat, X0|]; replace 1099511627776 with (/ / 1099511627776) by (field; lra); apply Rinv_le_contravar; lra).
  (* the bound in terms of x *)
  assert (BW : (y + 9 / 2) * ln (y + 9 / 2) <= (1 + 3 / 100) * W).
  { apply Rle_trans with (((x + 5) * (1 + / 10 ^ 3)) * (lx * (1 + 1 / 100))); [|unfold W in *; lra].
    assert (y + 9 / 2 <= (x + 5) * (1 + / 10 ^ 3)) by lra. apply Rmult_le_compat; [lra|pose proof ln_45; pose proof (ln_mono (9 / 2) (y + 9 / 2) ltac:(lra) ltac:(lra)); lra|assumption|].
    eapply Rle_trans; [apply ln_mono; [|eassumption]; lra|]. rewrite ln_mult by lra. pose proof (ln_1p_le (/ 10 ^ 3) ltac:(lra)). fold lx. lra. }
  assert (BM : d * (lx + 1 / 100 + (2 + 1 / 100) / x) <= (uu * (1 + x) + eta) * (lx + 1 / 100 + (2 + 1 / 100) / x)).
  { apply Rmult_le_compat_r; [|exact D]. assert (0 <= (2 + 1 / 100) / x) by (apply Rmult_le_pos; lra). lra. }
  assert (X1 : (1 + x) * lx <= W) by (unfold W; apply Rmult_le_compat_r; lra).
  assert (ELX : eta * lx <= / 10 ^ 20 * W).
  { apply Rmult_le_compat; [lra|lra|lra|]. unfold W. rewrite <- (Rmult_1_l lx) at 1. apply Rmult_le_compat_r; lra. }
  assert (EIX : eta * / x <= / 10 ^ 20 * / x) by (apply Rmult_le_compat_r; lra).
  replace ((uu * (1 + x) + eta) * (lx + 1 / 100 + (2 + 1 / 100) / x)) with (uu * ((1 + x) * lx) + 1 / 100 * uu * (1 + x) + (2 + 1 / 100) * uu * / x + (2 + 1 / 100) * uu + (eta * lx + 1 / 100 * eta + (2 + 1 / 100) * (eta * / x))) in BM by (field; lra).
  replace (/ (2 ^ 51 * x)) with (/ 2 ^ 51 * / x) by (field; lra).
  replace (val r - lG G x) with ((val r - hL y) + ((hL y - lG G y) + (lG G y - lG G x))) by ring.
  eapply Rle_trans; [apply Rabs_triang|]. eapply Rle_trans; [apply Rplus_le_compat_l, Rabs_triang|].
  unfold uu in *. lra.
Qed.

Lemma ln_gamma_acc : forall G : R -> R, gamma_function G ->
  forall (P : platform) (z : f64), accurate_ln (p_ln P) -> finite z ->
  let x := Binary.B2R z in bpow radix2 (-40) <= x <= bpow radix2 900 ->
  finite (@ln_gamma (ieee P) z) /\
  Rabs (Binary.B2R (@ln_gamma (ieee P) z) - ln (G x)) <= 5 / 10 ^ 10 + / (2 ^ 51 * x) + / 2 ^ 48 * ((x + 5) * ln (x + 5)).
Proof.
  intros G HG P z LN Fz x Hx. pose proof (val_fin z Fz) as V. unfold x in *. rewrite <- V in *.
  destruct (ln_gamma_accurate G HG P z LN Fz Hx) as [F E]. split; [exact F|]. rewrite <- (val_fin _ F). exact E.
Qed.

Lemma ex_ln_gamma_acc : (exists G, gamma_function G) /\ accurate_ln (p_ln (ideal true false))
  /\ (finite (f64_lit 4.5) /\ bpow radix2 (-40) <= Binary.B2R (f64_lit 4.5) <= bpow radix2 900)
  /\ (finite (f64_lit 0.125) /\ bpow radix2 (-40) <= Binary.B2R (f64_lit 0.125) <= bpow radix2 900).
Proof.
  split; [exists GG; exact gamma_exists|]. split; [apply ideal_ln_accurate|].
  lit_facts 4.5%dec 9%Z 1%Z HF HV. lit_facts 0.125%dec 1%Z 3%Z HF' HV'.
  rewrite (val_fin _ HF) in HV. rewrite (val_fin _ HF') in HV'.
  assert (B : bpow radix2 (-40) <= / 8) by (replace (/ 8) with (bpow radix2 (-3)) by (simpl; lra); apply bpow_le; lia).
  assert (B' : 8 <= bpow radix2 900) by (change 8 with (bpow radix2 3); apply bpow_le; lia).
  split; (split; [assumption|]); lra.
Qed.

(** ** Tiny arguments *)

Lemma lG_small : forall G, gamma_function G -> forall x, 0 < x <= 1 -> lG G x <= - ln x.
Proof.
  intros G HG x Hx. pose proof (lG_step G HG x ltac:(lra)) as S. pose proof HG as (_ & G1 & _ & CV).
  assert (E1 : lG G 1 = 0) by (unfold lG; rewrite G1; apply ln_1).
  pose proof (lG_step G HG 1 ltac:(lra)) as E2. rewrite E1, ln_1 in E2. replace (1 + 1) with 2 in E2 by ring.
  pose proof (CV 1 2 (1 - x) ltac:(lra) ltac:(lra) ltac:(lra)) as C.
  replace ((1 - x) * 1 + (1 - (1 - x)) * 2) with (x + 1) in C by ring. fold (lG G (x + 1)) (lG G 1) (lG G 2) in C. rewrite E1, E2 in C. lra.
Qed.

Lemma strict : forall x : f64, fin x -> Binary.B2R x <> 0 -> Binary.is_finite_strict 53 1024 x = true.
Proof. intros [s|s|s pl e|s m e B] F V; try discriminate F; [exfalso; apply V; reflexivity|reflexivity]. Qed.

Lemma sub_1_tiny : forall P z, fin z -> 0 < val z <= bpow radix2 (-54) -> f64_sub P z (f64_lit 1.0) = f64_lit (-1.0).
Proof.
  intros P z Fz Hz.
  lit_facts 5.5511151231257827021181583404541015625e-17%dec 1%Z 54%Z HF HV.
  set (a := f64_lit 5.5511151231257827021181583404541015625e-17) in *.
  assert (E : f64_le (f64_sub P a (f64_lit 1.0)) (f64_lit (-1.0)) = true) by (vm_compute; reflexivity).
  lit_facts (-1.0)%dec (-1)%Z 0%Z HF1 HV1.
  pose proof (sub_spec P a (f64_lit 1.0) HF fin_1) as Ra. pose proof (sub_spec P z (f64_lit 1.0) Fz fin_1) as Rz.
  rewrite <- !val_fin in Ra, Rz by (assumption || exact fin_1). rewrite val_1 in Ra, Rz.
  assert (B : bpow radix2 (-54) = / 2 ^ 54) by (simpl; lra).
  assert (OB : 2 < Om) by (pose proof Om_big; lra).
  destruct (rounds_small _ _ Ra) as [Fa Va].
  { rewrite <- rnd_abs. apply Rle_lt_trans with 2; [apply rnd_le_fmt; [change 2 with (bpow radix2 1); apply fmt_bpow; lia|apply Rabs_le; lra]|exact OB]. }
  destruct (rounds_small _ _ Rz) as [Fr Vr].
  { rewrite <- rnd_abs. apply Rle_lt_trans with 2; [apply rnd_le_fmt; [change 2 with (bpow radix2 1); apply fmt_bpow; lia|apply Rabs_le; lra]|exact OB]. }
  apply le_true in E. destruct E as (_ & _ & E). rewrite HV1, (val_fin _ Fa), Va in E.
  assert (V : Binary.B2R (f64_sub P z (f64_lit 1.0)) = -1).
  { rewrite Vr. apply Rle_antisym.
    - apply Rle_trans with (rnd (val a - 1)); [apply rnd_le|]; lra.
    - apply rnd_ge; [|lra]. replace (-1) with (- bpow radix2 0) by (simpl; lra). apply fmt_opp, fmt_bpow. lia. }
  rewrite (val_fin _ HF1) in HV1. apply (Binary.B2R_inj 53 1024).
  - apply strict; [exact Fr|lra].
  - apply strict; [exact HF1|lra].
  - lra.
Qed.

Lemma ln_gamma_inf : forall (P : platform) (z : f64), accurate_ln (p_ln P) -> ln_of_infinity (p_ln P) -> fin z -> 0 < val z <= bpow radix2 (-54) ->
  @ln_gamma (ieee P) z = B754_infinity false.
Proof.
  intros P z LN LI Fz Hz. rewrite ln_gamma_eq. cbv zeta. rewrite (sub_1_tiny P z Fz Hz).
  assert (E1 : f64_add P (@lanczos_sum (ieee P) (f64_lit (-1.0))) (f64_lit (cdec 0)) = B754_infinity false) by (vm_compute; reflexivity).
  rewrite E1. clear E1. pose proof eta_small as ES. pose proof tiny_20 as T20. pose proof eta_pos as EP.
  lit_facts (-1.0)%dec (-1)%Z 0%Z F1 V1. lit_facts 5.0%dec 5%Z 0%Z F5 V5. lit_facts 0.5%dec 1%Z 1%Z F05 V05.
  destruct (cst_ok P LN) as (Fc & _ & _). set (c := libm P (p_ln P) (f64_sqrt P _)) in *. clearbody c.
  set (m := f64_lit (-1.0)) in *. set (f5 := f64_lit 5.0) in *. set (f05 := f64_lit 0.5) in *. clearbody m f5 f05.
  assert (UB : forall t, Rabs t <= 8 -> Rabs t <= bpow radix2 1000) by (intros t Ht; apply (bpow_le_1000 _ 3); [lia|exact Ht]).
  unfold uu in *.
  destruct (add_fl P m f5 F1 F5) as [G1 D1]; [apply UB, Rabs_le; lra|]. rewrite V1, V5 in D1. set (b1 := f64_add P m f5) in *. clearbody b1.
  rewrite (Rabs_pos_eq (-1 / 1 + 5 / 1)) in D1 by lra. apply Rabs_le_inv in D1. unfold uu in D1.
  destruct (add_fl P b1 f05 G1 F05) as [G2 D2]; [apply UB, Rabs_le; lra|]. rewrite V05 in D2. set (base := f64_add P b1 f05) in *. clearbody base.
  rewrite (Rabs_pos_eq (val b1 + 1 / 2)) in D2 by lra. apply Rabs_le_inv in D2. unfold uu in D2.
  destruct (add_fl P m f05 F1 F05) as [G3 D3]; [apply UB, Rabs_le; lra|]. rewrite V05, V1 in D3. set (h := f64_add P m f05) in *. clearbody h.
  rewrite (Rabs_left (-1 / 1 + 1 / 2)) in D3 by lra. apply Rabs_le_inv in D3. unfold uu in D3.
  assert (EL : libm P (p_ln P) (B754_infinity false) = B754_infinity false) by (rewrite libm_nonnan by reflexivity; exact LI). rewrite EL.
  rewrite add_fin_inf by exact Fc.
  assert (L45 : Rabs (ln (val base)) <= 4).
  { pose proof (ln_mono 1 (val base) ltac:(lra) ltac:(lra)) as L. rewrite ln_1 in L. rewrite Rabs_pos_eq by lra. pose proof (ln_sub1 (val base) ltac:(lra)). lra. }
  destruct (ln_fl P LN base G2 ltac:(lra) ltac:(lra)) as [FL EL']. unfold uu in EL'.
  pose proof (Rabs_triang (val (libm P (p_ln P) base) - ln (val base)) (ln (val base))) as T.
  replace (val (libm P (p_ln P) base) - ln (val base) + ln (val base)) with (val (libm P (p_ln P) base)) in T by ring.
  destruct (mul_fl P _ _ FL G3) as [FM _].
  { apply UB. rewrite Rabs_mult. apply Rle_trans with (8 * 1); [|lra]. apply Rmult_le_compat; try apply Rabs_pos; [lra|apply Rabs_le; lra]. }
  assert (ESB : f64_sub P (B754_infinity false) base = B754_infinity false) by (clear - G2; destruct base; try discriminate G2; reflexivity).
  rewrite ESB. apply add_inf_fin, FM.
Qed.

Lemma ln_gamma_inf_gen : forall G : R -> R, gamma_function G ->
  forall (P : platform) (z : f64), accurate_ln (p_ln P) -> ln_of_infinity (p_ln P) -> finite z ->
  0 < Binary.B2R z <= bpow radix2 (-54) ->
  @ln_gamma (ieee P) z = B754_infinity false /\ ln (G (Binary.B2R z)) <= - ln (Binary.B2R z).
Proof.
  intros G HG P z LN LI Fz Hz. rewrite <- (val_fin z Fz) in *. split; [apply ln_gamma_inf; assumption|].
  assert (B : bpow radix2 (-54) <= 1) by (change 1 with (bpow radix2 0); apply bpow_le; lia).
  apply (lG_small G HG). lra.
Qed.

Lemma tiny_lit : fin (f64_lit 1e-20) /\ / 2 ^ 67 <= val (f64_lit 1e-20) <= / 2 ^ 66.
Proof.
  destruct (lit_fl 1e-20) as [F E].
  { unfold R_of_dec; cbn [dman dexp]; simpl powerRZ. apply (bpow_le_1000 _ 0); [lia|]. rewrite Rabs_pos_eq; simpl; lra. }
  split; [exact F|]. replace (R_of_dec 1e-20) with (1 / 10 ^ 20) in E by (unfold R_of_dec; cbn [dman dexp]; simpl powerRZ; lra).
  rewrite (Rabs_pos_eq (1 / 10 ^ 20)) in E by lra. apply Rabs_le_inv in E.
  assert (eta <= / 10 ^ 30) by (pose proof eta_small; assert (/ 10 ^ 100 <= / 10 ^ 30) by (apply Rinv_le_contravar; [apply pow_lt; lra|apply Rle_pow; [lra|lia]]); lra).
  unfold uu in E. lra.
Qed.

Lemma ln_gamma_refuted : exists z : f64, finite z /\ 0 < Binary.B2R z /\
  (forall G : R -> R, gamma_function G -> ln (G (Binary.B2R z)) <= 67) /\
  forall P : platform, accurate_ln (p_ln P) -> ln_of_infinity (p_ln P) -> @ln_gamma (ieee P) z = B754_infinity false.
Proof.
  exists (f64_lit 1e-20). destruct tiny_lit as [F V]. split; [exact F|]. rewrite <- (val_fin _ F). split; [lra|]. split.
  - intros G HG. eapply Rle_trans; [apply (lG_small G HG); lra|]. rewrite <- ln_Rinv by lra.
    apply Rle_trans with (ln (bpow radix2 67)); [|apply ln_bpow; lia]. apply ln_mono; [apply Rinv_0_lt_compat; lra|].
    replace (bpow radix2 67) with (/ / 2 ^ 67) by (rewrite Rinv_inv; simpl; lra). apply Rinv_le_contravar; lra.
  - intros P LN LI. apply ln_gamma_inf; try assumption. replace (bpow radix2 (-54)) with (/ 2 ^ 54) by (simpl; lra). lra.
Qed.

Lemma ex_ln_gamma_inf : (exists G, gamma_function G) /\ accurate_ln (p_ln (ideal true false)) /\ ln_of_infinity (p_ln (ideal true false))
  /\ finite (f64_lit 1e-20) /\ 0 < Binary.B2R (f64_lit 1e-20) <= bpow radix2 (-54).
Proof.
  split; [exists GG; exact gamma_exists|]. split; [apply ideal_ln_accurate|]. split; [reflexivity|].
  destruct tiny_lit as [F V]. split; [exact F|]. rewrite <- (val_fin _ F). replace (bpow radix2 (-54)) with (/ 2 ^ 54) by (simpl; lra). lra.
Qed.
