(** * A polynomial for the gamma function on [2.5, 3.5] *)

From Coq Require Import ZArith Reals Lra Lia List.
From Flocq Require Import Core.Raux.
From Verif.Spec Require Import GammaSpec.
From Verif.Proofs Require Import Poly PolyZ PolyShift ErfcODE ExpBounds Stirling.
Import ListNotations.
Open Scope R_scope.

(** 2^90 times the polynomial, in v = x - 3; its coefficients are those of
    the Taylor series, but nothing below depends on where they come from *)
Definition gp : list Z := [
  2475880078570760549798248448; 2284703352087459853207997956; 1543048926055861287373921120; 711808304062447282864816377; 284818981195729502423349103;
  91254807703764226413860765; 27285571796317317720058652; 6745230834677369732370848; 1677682164965173263439191; 327788774112747248150140;
  75765721990786946857130; 10529397017897536691807; 2978703147175905031976; 108968322487681823505; 141400933614771894972; -20196684856629558078;
  10675372697727077170; -3021940412899678173; 1080616508462791862; -351454830695881999; 118358083007905489; -39345077052007026; 13135700914131200;
  -4378399330499090; 1460004063499958; -486741649602499; 162271834149554; -54096155985285; 18033497532041]%Z.
Definition TG : Z := (2 ^ 90)%Z.
Definition PG (v : R) : R := peval gp v / IZR TG.

(** (v + 3) (v + 4) ... (v + 9) *)
Definition gq : list Z := Eval vm_compute in fold_right (fun c a => pmul [c; 1]%Z a) [1]%Z [3; 4; 5; 6; 7; 8; 9]%Z.
Definition QG (v : R) : R := (v + 3) * (v + 4) * (v + 5) * (v + 6) * (v + 7) * (v + 8) * (v + 9).
Lemma gq_QG : forall v, peval gq v = QG v.
Proof. intros v. unfold gq. rewrite !peval_cons. change (peval [] v) with 0. unfold QG. ring. Qed.

Definition rr : list Z := pmul gp gq.
Definition rr1 : list Z := pder rr.
Definition rr2 : list Z := pder rr1.
(** 2 DS y^19 times the second derivative of the Stirling series *)
Definition r9 : list Z := dinv (dinv s9).
Definition n9 : list Z := padd (padd (pscale (2 * DS) (ppow [0; 1]%Z 18)) (pscale DS (ppow [0; 1]%Z 17))) (pscale 2 (skipn 2 (rev r9))).
Definition num : list Z :=
  padd (pscale (2 * DS) (pmul (padd (pmul rr rr2) (pscale (-1) (pmul rr1 rr1))) (ppow [10; 1]%Z 19)))
       (pscale (-1) (pmul (pmul rr rr) (pshift 10 n9))).

Lemma len_r9 : length r9 = 22%nat.
Proof. vm_compute. reflexivity. Qed.
Lemma rev_r9 : rev r9 = (0 :: 0 :: skipn 2 (rev r9))%Z.
Proof. vm_compute. reflexivity. Qed.
Lemma n9_ST2 : forall y, 0 < y -> peval n9 y = 2 * IZR DS * y ^ 19 * ST2 s9 DS y.
Proof.
  intros y Hy. unfold n9. rewrite !peval_padd, !peval_pscale, !peval_ppow, !peval_cons, mult_IZR. change (peval [] y) with 0.
  pose proof (peval_rev r9 y ltac:(lra)) as R. rewrite len_r9 in R. fold (pinv r9 y) in R.
  rewrite rev_r9, !peval_cons in R.
  assert (R' : peval (skipn 2 (rev r9)) y = y ^ 19 * pinv r9 y).
  { apply Rmult_eq_reg_l with (y ^ 3); [|apply pow_nonzero; lra]. transitivity (y ^ 22 * pinv r9 y); [rewrite <- R; ring|].
    change (y ^ 22) with (y * (y * (y * y ^ 19))). ring. }
  rewrite R'. unfold ST2. fold r9. assert (DP : 0 < IZR DS) by (apply IZR_lt; reflexivity).
  replace (0 + y * (1 + y * 0)) with y by ring. change (y ^ 19) with (y * (y * y ^ 17)). change (y ^ 18) with (y * y ^ 17).
  field. lra.
Qed.

Lemma PG_ge : forall v, Rabs v <= 1 / 2 -> 128 / 100 <= PG v.
Proof.
  intros v Hv. apply Rabs_le_inv in Hv. unfold PG.
  assert (TP : 0 < IZR TG) by (apply IZR_lt; reflexivity).
  set (B := (- (128 * (TG / 100 + 1)))%Z).
  assert (K : peval (pscale (-1) gp) v <= IZR B).
  { destruct (Rle_or_lt v (- (1 / 4))) as [C|C]; [|destruct (Rle_or_lt v 0) as [C'|C']; [|destruct (Rle_or_lt v (1 / 4)) as [C''|C'']]].
    - apply (ploc_up 8 (-3) 1); [lia|lia|apply Rabs_le; lra|apply Z.leb_le; vm_compute; reflexivity].
    - apply (ploc_up 8 (-1) 1); [lia|lia|apply Rabs_le; lra|apply Z.leb_le; vm_compute; reflexivity].
    - apply (ploc_up 8 1 1); [lia|lia|apply Rabs_le; lra|apply Z.leb_le; vm_compute; reflexivity].
    - apply (ploc_up 8 3 1); [lia|lia|apply Rabs_le; lra|apply Z.leb_le; vm_compute; reflexivity]. }
  rewrite peval_pscale in K.
  assert (KB : 128 / 100 * IZR TG <= - IZR B).
  { unfold B. rewrite opp_IZR, Ropp_involutive, mult_IZR. pose proof (IZR_div_up TG 100 ltac:(lia)) as U. lra. }
  apply Rmult_le_reg_r with (IZR TG); [exact TP|]. replace (peval gp v / IZR TG * IZR TG) with (peval gp v) by (field; lra). lra.
Qed.

Lemma QG_ge : forall v, Rabs v <= 1 / 2 -> 11486475 / 128 <= QG v * / 1 /\ 0 < QG v.
Proof.
  intros v Hv. apply Rabs_le_inv in Hv. unfold QG. split.
  - rewrite Rinv_1, Rmult_1_r. replace (11486475 / 128) with (5 / 2 * (7 / 2) * (9 / 2) * (11 / 2) * (13 / 2) * (15 / 2) * (17 / 2)) by lra.
    repeat (apply Rmult_le_compat; [lra|lra| |lra] || lra || (apply Rmult_le_compat; [repeat apply Rmult_le_pos; lra|lra| |lra])).
  - repeat apply Rmult_lt_0_compat; lra.
Qed.

(** ** ln R against the series *)

Definition RG (v : R) : R := peval rr v.
Lemma RG_eq : forall v, RG v = IZR TG * (PG v * QG v).
Proof.
  intros v. unfold RG, rr, PG. rewrite peval_pmul, gq_QG. field. apply Rgt_not_eq, IZR_lt. reflexivity.
Qed.
Lemma RG_pos : forall v, Rabs v <= 1 / 2 -> 0 < RG v.
Proof.
  intros v Hv. rewrite RG_eq. apply Rmult_lt_0_compat; [apply IZR_lt; reflexivity|].
  apply Rmult_lt_0_compat; [pose proof (PG_ge v Hv); lra|apply QG_ge, Hv].
Qed.
Definition HH (v : R) : R := ln (RG v) - ST s9 DS (v + 10).
Definition HH1 (v : R) : R := peval rr1 v / RG v - ST1 s9 DS (v + 10).
Definition HH2 (v : R) : R := (peval rr2 v * RG v - peval rr1 v * peval rr1 v) / Rsqr (RG v) - ST2 s9 DS (v + 10).

Lemma derive_shift10 : forall f g x, derivable_pt_lim f (x + 10) g -> derivable_pt_lim (fun t => f (t + 10)) x g.
Proof.
  intros f g x H. replace g with (g * (1 + 0)) by ring. apply (derivable_pt_lim_comp (fun t => t + 10) f); [|exact H].
  apply derivable_pt_lim_plus; [apply derivable_pt_lim_id|apply derivable_pt_lim_const].
Qed.
Lemma derive_HH : forall v, Rabs v <= 1 / 2 -> derivable_pt_lim HH v (HH1 v).
Proof.
  intros v Hv. pose proof (RG_pos v Hv) as RP. apply Rabs_le_inv in Hv. unfold HH, HH1. apply derivable_pt_lim_minus.
  - replace (peval rr1 v / RG v) with (/ RG v * peval rr1 v) by (unfold Rdiv; ring).
    apply (derivable_pt_lim_comp RG ln); [apply derive_peval|apply derive_ln, RP].
  - apply derive_shift10, derive_ST; [reflexivity|lra].
Qed.
Lemma derive_HH1 : forall v, Rabs v <= 1 / 2 -> derivable_pt_lim HH1 v (HH2 v).
Proof.
  intros v Hv. pose proof (RG_pos v Hv) as RP. apply Rabs_le_inv in Hv. unfold HH1, HH2. apply derivable_pt_lim_minus.
  - apply (derivable_pt_lim_div (peval rr1) RG); [apply derive_peval|apply derive_peval|lra].
  - apply derive_shift10, derive_ST1; [reflexivity|lra].
Qed.

Lemma num_eq : forall v, Rabs v <= 1 / 2 -> peval num v = HH2 v * (2 * IZR DS * (v + 10) ^ 19 * (RG v * RG v)).
Proof.
  intros v Hv. pose proof (RG_pos v Hv) as RP. apply Rabs_le_inv in Hv. unfold num.
  rewrite peval_padd, !peval_pscale, !peval_pmul, peval_padd, peval_pscale, !peval_pmul, peval_ppow, peval_pshift, !peval_cons, n9_ST2 by lra.
  change (peval [] v) with 0. fold (RG v). unfold HH2, Rsqr. rewrite mult_IZR.
  replace (10 + v * (1 + v * 0)) with (v + 10) by ring. field. lra.
Qed.

(** 2 / 10^16 as the bound of the second derivative *)
Definition BN : Z := Eval vm_compute in pbound 1 2 num.
Lemma BN_ok : (BN * 10 ^ 16 * 2 ^ 19 * 128 ^ 2 * 100 ^ 2 <= 2 * (2 * DS * 19 ^ 19 * (128 * TG * 11486475) ^ 2))%Z.
Proof. apply Z.leb_le. vm_compute. reflexivity. Qed.
Lemma BN_eq : pbound 1 2 num = BN.
Proof. vm_compute. reflexivity. Qed.

Lemma w_eq : forall d n p t T, p <> 0 -> t <> 0 ->
  2 * (2 * d * n * (128 * T * 11486475 * (128 * T * 11486475 * 1))) =
  2 / t * (2 * d * (n / p) * (128 / 100 * (11486475 / 128) * T * (128 / 100 * (11486475 / 128) * T))) * (t * p * (128 * 128) * (100 * 100)).
Proof. intros. field. auto. Qed.

Lemma HH2_small : forall v, Rabs v <= 1 / 2 -> Rabs (HH2 v) <= 2 / 10 ^ 16.
Proof.
  intros v Hv. pose proof (num_eq v Hv) as E. pose proof (PG_ge v Hv) as P1. destruct (QG_ge v Hv) as [Q1 _]. rewrite Rinv_1, Rmult_1_r in Q1.
  pose proof (peval_bound 1 2 num v ltac:(lia) ltac:(lia) Hv) as B. rewrite BN_eq, E in B.
  set (Tr := IZR TG). assert (TP : 0 < Tr) by (apply IZR_lt; reflexivity).
  assert (DP : 0 < IZR DS) by (apply IZR_lt; reflexivity).
  assert (RL : 128 / 100 * (11486475 / 128) * Tr <= RG v).
  { rewrite RG_eq. fold Tr. rewrite Rmult_comm. apply Rmult_le_compat_l; [lra|]. apply Rmult_le_compat; lra. }
  assert (YL : (19 / 2) ^ 19 <= (v + 10) ^ 19) by (apply pow_incr; apply Rabs_le_inv in Hv; lra).
  set (m := 128 / 100 * (11486475 / 128) * Tr) in *. assert (MP : 0 < m) by (unfold m; apply Rmult_lt_0_compat; lra).
  set (W := 2 * IZR DS * (v + 10) ^ 19 * (RG v * RG v)) in *.
  set (W0 := 2 * IZR DS * (19 / 2) ^ 19 * (m * m)).
  assert (WL : W0 <= W).
  { unfold W0, W. apply Rmult_le_compat.
    - apply Rmult_le_pos; [lra|]. apply pow_le. lra.
    - apply Rmult_le_pos; lra.
    - apply Rmult_le_compat_l; lra.
    - apply Rmult_le_compat; lra. }
  assert (WP : 0 < W0).
  { unfold W0. apply Rmult_lt_0_compat; [apply Rmult_lt_0_compat; [lra|apply pow_lt; lra]|apply Rmult_lt_0_compat; lra]. }
  rewrite Rabs_mult, (Rabs_pos_eq W) in B by lra.
  assert (K : IZR BN <= 2 / 10 ^ 16 * W0).
  { pose proof (IZR_le _ _ BN_ok) as Z. rewrite !mult_IZR in Z.
    assert (P0 : 0 < IZR (10 ^ 16) * IZR (2 ^ 19) * IZR (128 ^ 2) * IZR (100 ^ 2)) by (rewrite <- !mult_IZR; apply IZR_lt; reflexivity).
    apply Rmult_le_reg_r with (IZR (10 ^ 16) * IZR (2 ^ 19) * IZR (128 ^ 2) * IZR (100 ^ 2)); [exact P0|].
    eapply Rle_trans; [right|eapply Rle_trans; [exact Z|right]]; [ring|].
    unfold W0, m. replace ((19 / 2) ^ 19) with (IZR (19 ^ 19) / IZR (2 ^ 19)).
    2: { change (19 ^ 19)%Z with (19 ^ Z.of_nat 19)%Z. change (2 ^ 19)%Z with (2 ^ Z.of_nat 19)%Z. rewrite <- !pow_IZR. unfold Rdiv. rewrite Rpow_mult_distr, pow_inv by lra. reflexivity. }
    change ((128 * TG * 11486475) ^ 2)%Z with ((128 * TG * 11486475) * ((128 * TG * 11486475) * 1))%Z.
    rewrite !mult_IZR. fold Tr. change (128 ^ 2)%Z with (128 * 128)%Z. change (100 ^ 2)%Z with (100 * 100)%Z. rewrite !mult_IZR.
    replace (10 ^ 16) with (IZR (10 ^ 16)) by (change (10 ^ 16)%Z with (10 ^ Z.of_nat 16)%Z; rewrite <- pow_IZR; reflexivity).
    apply w_eq; apply IZR_neq; discriminate. }
  apply Rmult_le_reg_r with W0; [exact WP|].
  apply Rle_trans with (Rabs (HH2 v) * W); [apply Rmult_le_compat_l; [apply Rabs_pos|exact WL]|]. lra.
Qed.

(** the value at the two ends: R(1/2) is 9.5 R(-1/2), nearly *)
Definition ra : Z := zeval 1 (phom 2 rr).
Definition rb : Z := zeval (-1) (phom 2 rr).
Lemma RG_half : forall s, 2 * IZR (zeval s (phom 2 rr)) = IZR (2 ^ Z.of_nat (length rr)) * RG (IZR s / 2).
Proof. intros s. rewrite <- peval_zeval. apply (peval_phom 2 rr (IZR s)). lia. Qed.
Lemma ends_ok : ((Z.abs (2 * ra - 19 * rb) * 10 ^ 20 <=? 19 * rb) && (Z.abs (2 * ra - 19 * rb) * 10 ^ 20 <=? 2 * ra) && (0 <? rb) && (0 <? ra))%Z%bool = true.
Proof. vm_compute. reflexivity. Qed.
Lemma ln_close : forall a b t, 0 < a -> 0 < b -> 0 <= t -> Rabs (a - b) <= t * a -> Rabs (a - b) <= t * b -> Rabs (ln a - ln b) <= t.
Proof.
  intros a b t Ha Hb Ht H1 H2.
  assert (U : forall a b, 0 < a -> 0 < b -> Rabs (a - b) <= t * b -> ln a - ln b <= t).
  { clear - Ht. intros a b Ha Hb H. apply Rle_trans with (ln (1 + t)); [|apply ln_1p_le, Ht]. rewrite <- ln_div by assumption.
    apply ln_mono; [apply Rdiv_lt_0_compat; assumption|]. apply Rmult_le_reg_r with b; [exact Hb|].
    replace (a / b * b) with a by (field; lra). apply Rabs_le_inv in H. lra. }
  apply Rabs_le. pose proof (U a b Ha Hb H2). rewrite <- Rabs_Ropp, Ropp_minus_distr in H1. pose proof (U b a Hb Ha H1). lra.
Qed.
Lemma RG_ends : Rabs (ln (RG (1 / 2)) - ln (RG (- 1 / 2)) - ln (19 / 2)) <= / 10 ^ 20.
Proof.
  destruct (andb_prop _ _ ends_ok) as [E E4]. destruct (andb_prop _ _ E) as [E' E3]. destruct (andb_prop _ _ E') as [E1 E2]. clear E E'.
  apply Z.leb_le in E1, E2. apply Z.ltb_lt in E3, E4.
  apply IZR_le in E1, E2. apply IZR_lt in E3, E4. rewrite mult_IZR, abs_IZR, minus_IZR, !mult_IZR in E1, E2.
  pose proof (RG_half 1) as A. pose proof (RG_half (-1)) as B. fold ra in A. fold rb in B.
  set (c := IZR (2 ^ Z.of_nat (length rr))) in *. assert (CP : 0 < c) by (apply IZR_lt, Z.pow_pos_nonneg; lia).
  assert (PA : 0 < RG (1 / 2)) by (apply RG_pos, Rabs_le; lra).
  assert (PB : 0 < RG (- 1 / 2)) by (apply RG_pos, Rabs_le; lra).
  set (x := RG (1 / 2)) in *. set (y := RG (- 1 / 2)) in *. set (za := IZR ra) in *. set (zb := IZR rb) in *.
  clearbody x y za zb c.
  replace (ln x - ln y - ln (19 / 2)) with (ln x - ln (19 / 2 * y)) by (rewrite ln_mult by lra; ring).
  assert (K : c * Rabs (x - 19 / 2 * y) = Rabs (2 * za - 19 * zb)).
  { rewrite <- (Rabs_pos_eq c) at 1 by lra. rewrite <- Rabs_mult. f_equal. lra. }
  set (t := 10 ^ 20). assert (T0 : 0 < t) by (unfold t; lra).
  replace (IZR (10 ^ 20)) with t in * by (unfold t; change (10 ^ 20)%Z with (10 ^ Z.of_nat 20)%Z; rewrite <- pow_IZR; reflexivity).
  set (d := Rabs (2 * za - 19 * zb)) in *. set (e := Rabs (x - 19 / 2 * y)) in *. clearbody d t.
  assert (I : forall z, e * t <= z -> e <= / t * z).
  { intros z Hz. apply Rmult_le_reg_r with t; [exact T0|]. replace (/ t * z * t) with z by (field; lra). exact Hz. }
  apply ln_close; [exact PA|lra|left; apply Rinv_0_lt_compat, T0| |]; fold e; clearbody e; apply I; apply Rmult_le_reg_l with c; try exact CP;
    rewrite <- Rmult_assoc, K; lra.
Qed.

(** ** The gamma function *)

Lemma s10_s9 : forall y, ST s10 DS y = ST s9 DS y - 9724435812 / IZR DS * (/ y) ^ 19.
Proof.
  intros y. unfold ST, pinv, s10, s9. cbn [app]. rewrite !peval_cons. change (peval [] (/ y)) with 0. set (z := / y). set (d := IZR DS).
  unfold Rdiv. ring.
Qed.
Lemma tail_small : forall y, 19 / 2 <= y -> 0 <= 9724435812 / IZR DS * (/ y) ^ 19 <= 4 / 10 ^ 19.
Proof.
  intros y Hy. assert (0 < / y <= 2 / 19).
  { split; [apply Rinv_0_lt_compat; lra|]. replace (2 / 19) with (/ (19 / 2)) by field. apply Rinv_le_contravar; lra. }
  assert (P : 0 <= (/ y) ^ 19 <= (2 / 19) ^ 19) by (split; [apply pow_le; lra|apply pow_incr; lra]).
  unfold DS. split; [apply Rmult_le_pos; lra|]. apply Rle_trans with (9724435812 / 6983776800 * (2 / 19) ^ 19); [apply Rmult_le_compat_l; lra|]. lra.
Qed.

Section OnGamma.
  Variable G : R -> R.
  Hypothesis HG : gamma_function G.

  Lemma envelope : forall x y, 19 / 2 <= x -> 19 / 2 <= y -> Rabs ((lG G x - lG G y) - (ST s9 DS x - ST s9 DS y)) <= 4 / 10 ^ 19.
  Proof.
    intros x y Hx Hy. pose proof (stirling G HG x y ltac:(lra) ltac:(lra)) as A. pose proof (stirling G HG y x ltac:(lra) ltac:(lra)) as B.
    rewrite s10_s9 in A, B. pose proof (tail_small x Hx). pose proof (tail_small y Hy). apply Rabs_le. lra.
  Qed.

  Lemma HH_ends : Rabs (HH (1 / 2) - HH (- 1 / 2)) <= 5 / 10 ^ 19.
  Proof.
    pose proof (envelope (1 / 2 + 10) (- 1 / 2 + 10) ltac:(lra) ltac:(lra)) as E. pose proof RG_ends as F.
    pose proof (lG_step G HG (- 1 / 2 + 10) ltac:(lra)) as S. replace (- 1 / 2 + 10 + 1) with (1 / 2 + 10) in S by lra.
    rewrite S in E. unfold HH. replace (19 / 2) with (- 1 / 2 + 10) in F by lra.
    replace (ln (RG (1 / 2)) - ST s9 DS (1 / 2 + 10) - (ln (RG (- 1 / 2)) - ST s9 DS (- 1 / 2 + 10))) with
      ((ln (RG (1 / 2)) - ln (RG (- 1 / 2)) - ln (- 1 / 2 + 10)) + (lG G (- 1 / 2 + 10) + ln (- 1 / 2 + 10) - lG G (- 1 / 2 + 10) - (ST s9 DS (1 / 2 + 10) - ST s9 DS (- 1 / 2 + 10)))) by ring.
    eapply Rle_trans; [apply Rabs_triang|]. lra.
  Qed.

  Lemma mvt_abs : forall f f1 B, (forall x, Rabs x <= 1 / 2 -> derivable_pt_lim f x (f1 x)) -> (forall x, Rabs x <= 1 / 2 -> Rabs (f1 x) <= B) ->
    forall v, Rabs v <= 1 / 2 -> Rabs (f v - f 0) <= B * Rabs v.
  Proof.
    intros f f1 B D Bd v Hv. pose proof (Rabs_le_inv _ _ Hv) as Hi. destruct (Rtotal_order v 0) as [L|[->|L]].
    - destruct (MVT_cor2 f f1 v 0 L) as (c & E & Hc); [intros; apply D, Rabs_le; lra|].
      rewrite <- Rabs_Ropp, Ropp_minus_distr, E, Rabs_mult. replace (0 - v) with (- v) by ring. rewrite Rabs_Ropp.
      apply Rmult_le_compat_r; [apply Rabs_pos|]. apply Bd, Rabs_le; lra.
    - rewrite Rminus_diag_eq, Rabs_R0 by reflexivity. lra.
    - destruct (MVT_cor2 f f1 0 v L) as (c & E & Hc); [intros; apply D, Rabs_le; lra|].
      rewrite E, Rabs_mult. replace (v - 0) with v by ring.
      apply Rmult_le_compat_r; [apply Rabs_pos|]. apply Bd, Rabs_le; lra.
  Qed.

  Lemma HH_flat : forall v, Rabs v <= 1 / 2 -> Rabs (HH v - HH 0) <= 11 / 10 ^ 17.
  Proof.
    set (g := fun v => HH v - HH1 0 * v).
    assert (D : forall x, Rabs x <= 1 / 2 -> derivable_pt_lim g x (HH1 x - HH1 0)).
    { intros x Hx. unfold g. apply derivable_pt_lim_minus; [apply derive_HH, Hx|].
      replace (HH1 0) with (HH1 0 * 1) at 2 by ring. apply (derivable_pt_lim_scal (fun t => t)), derivable_pt_lim_id. }
    assert (B1 : forall x, Rabs x <= 1 / 2 -> Rabs (HH1 x - HH1 0) <= / 10 ^ 16).
    { intros x Hx. pose proof (mvt_abs HH1 HH2 (2 / 10 ^ 16) derive_HH1 HH2_small x Hx).
      eapply Rle_trans; [eassumption|]. apply Rle_trans with (2 / 10 ^ 16 * (1 / 2)); [apply Rmult_le_compat_l; lra|lra]. }
    assert (B0 : forall v, Rabs v <= 1 / 2 -> Rabs (HH v - HH 0 - HH1 0 * v) <= / 10 ^ 16 / 2).
    { intros v Hv. pose proof (mvt_abs g (fun x => HH1 x - HH1 0) (/ 10 ^ 16) D B1 v Hv) as M. unfold g in M.
      replace (HH v - HH1 0 * v - (HH 0 - HH1 0 * 0)) with (HH v - HH 0 - HH1 0 * v) in M by ring.
      eapply Rle_trans; [exact M|]. apply Rle_trans with (/ 10 ^ 16 * (1 / 2)); [apply Rmult_le_compat_l; lra|lra]. }
    assert (S : Rabs (HH1 0) <= / 10 ^ 16 + 5 / 10 ^ 19).
    { pose proof HH_ends as E. pose proof (B0 (1 / 2) ltac:(apply Rabs_le; lra)) as P. pose proof (B0 (- 1 / 2) ltac:(apply Rabs_le; lra)) as Q.
      apply Rabs_le_inv in E, P, Q. apply Rabs_le. lra. }
    intros v Hv. pose proof (B0 v Hv) as M. replace (HH v - HH 0) with ((HH v - HH 0 - HH1 0 * v) + HH1 0 * v) by ring.
    eapply Rle_trans; [apply Rabs_triang|]. rewrite Rabs_mult.
    assert (Rabs (HH1 0) * Rabs v <= (/ 10 ^ 16 + 5 / 10 ^ 19) * (1 / 2)) by (apply Rmult_le_compat; try apply Rabs_pos; assumption).
    lra.
  Qed.

  Lemma lG_3 : lG G 3 = ln 2.
  Proof.
    assert (E1 : lG G 1 = 0) by (unfold lG; destruct HG as (_ & -> & _); apply ln_1).
    pose proof (lG_step G HG 1 ltac:(lra)) as E2. rewrite E1, ln_1 in E2. pose proof (lG_step G HG 2 ltac:(lra)) as E3.
    replace (1 + 1) with 2 in E2 by ring. replace (2 + 1) with 3 in E3 by ring. lra.
  Qed.
  Lemma lG_10 : forall v, Rabs v <= 1 / 2 -> lG G (v + 10) = ln (QG v) + lG G (v + 3).
  Proof.
    intros v Hv. apply Rabs_le_inv in Hv. unfold QG. rewrite !ln_mult by (repeat apply Rmult_lt_0_compat; lra).
    pose proof (lG_step G HG (v + 3) ltac:(lra)). pose proof (lG_step G HG (v + 4) ltac:(lra)). pose proof (lG_step G HG (v + 5) ltac:(lra)).
    pose proof (lG_step G HG (v + 6) ltac:(lra)). pose proof (lG_step G HG (v + 7) ltac:(lra)). pose proof (lG_step G HG (v + 8) ltac:(lra)).
    pose proof (lG_step G HG (v + 9) ltac:(lra)).
    replace (v + 3 + 1) with (v + 4) in * by ring. replace (v + 4 + 1) with (v + 5) in * by ring. replace (v + 5 + 1) with (v + 6) in * by ring.
    replace (v + 6 + 1) with (v + 7) in * by ring. replace (v + 7 + 1) with (v + 8) in * by ring. replace (v + 8 + 1) with (v + 9) in * by ring.
    replace (v + 9 + 1) with (v + 10) in * by ring. lra.
  Qed.
  Lemma ln_RG : forall v, Rabs v <= 1 / 2 -> ln (RG v) = ln (IZR TG) + ln (PG v) + ln (QG v).
  Proof.
    intros v Hv. pose proof (PG_ge v Hv). destruct (QG_ge v Hv) as [_ Q]. rewrite RG_eq, !ln_mult; try lra; [apply IZR_lt; reflexivity|apply Rmult_lt_0_compat; lra].
  Qed.
  Lemma PG_0 : PG 0 = 2.
  Proof.
    assert (E : forall l, peval (2 * TG :: l)%Z 0 / IZR TG = 2).
    { intros l. rewrite peval_cons, mult_IZR. field. apply IZR_neq. discriminate. }
    exact (E (tl gp)).
  Qed.

  Theorem PG_gamma : forall v, Rabs v <= 1 / 2 -> Rabs (PG v - G (v + 3)) <= 12 / 10 ^ 17 * G (v + 3).
  Proof.
    intros v Hv. pose proof (PG_ge v Hv) as P0. pose proof (Rabs_le_inv _ _ Hv) as Hi.
    pose proof (HH_flat v Hv) as F. assert (Z0 : Rabs 0 <= 1 / 2) by (rewrite Rabs_R0; lra).
    pose proof (envelope (v + 10) (0 + 10) ltac:(lra) ltac:(lra)) as E.
    unfold HH in F. rewrite !ln_RG in F by assumption. rewrite !lG_10 in E by assumption. rewrite PG_0 in F.
    replace (0 + 3) with 3 in E by ring. rewrite lG_3 in E.
    assert (L : Rabs (ln (PG v) - lG G (v + 3)) <= 115 / 10 ^ 18).
    { apply Rabs_le_inv in F, E. apply Rabs_le. lra. }
    pose proof (exp_near (lG G (v + 3)) (ln (PG v)) (115 / 10 ^ 18) ltac:(lra) L) as N.
    pose proof (G_pos G HG (v + 3) ltac:(lra)) as GP.
    unfold lG in N. rewrite !exp_ln in N by lra.
    eapply Rle_trans; [exact N|]. apply Rmult_le_compat_r; lra.
  Qed.
End OnGamma.
