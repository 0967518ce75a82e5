(** * Witnesses for the NaN region of gammp and the panics of invgammp *)

From Coq Require Import ZArith Reals Bool Lra Lia List.
From Flocq Require Import Core IEEE754.BinarySingleNaN IEEE754.Binary IEEE754.Bits.
From Verif.Model Require Import Base Arith Gamma.
From Verif.Float Require Import Bits64 Ieee Exact Platforms.
From Verif.Spec Require Import F64Spec Outcome.
From Verif.Proofs Require Import UtilsSpec F64 F64Ops Lits Ext Boundaries GammaPQ DawsonNeg GammaNaN InvGammaPanic GammaRange Ideal.
Open Scope R_scope.

Lemma ideal_ln_negative : forall c f, ln_of_negative_is_NaN (p_ln (ideal c f)).
Proof.
  intros c f [s|[]|s pl e|[] m e B] N V; try discriminate N; cbn [p_ln ideal ideal_ln]; try reflexivity; exfalso.
  - change (0 < 0) in V || change (val (B754_zero s : f64)) with 0 in V. lra.
  - rewrite val_inf_f in V. pose proof Om_pos. lra.
  - rewrite val_fin in V by reflexivity. rewrite B2R_finite in V.
    assert (0 <= IZR (Z.pos m) * bpow radix2 e); [|lra].
    apply Rmult_le_pos; [apply IZR_le; lia|apply bpow_ge_0].
Qed.

Lemma exp_n : forall n t, Rtrigo_def.exp (INR n * t) = Rtrigo_def.exp t ^ n.
Proof.
  induction n as [|n IH]; intros t; [rewrite Rmult_0_l; apply exp_0|].
  rewrite S_INR, Rmult_plus_distr_r, exp_plus, IH, Rmult_1_l. simpl. ring.
Qed.

Lemma ln_03 : Rpower.ln 0.3 <= - (37 / 32).
Proof.
  assert (H : 0.3 <= Rtrigo_def.exp (- (37 / 32))); cycle 1.
  { rewrite <- (ln_exp (- (37 / 32))). destruct H as [H|H]; [left; apply ln_increasing; [lra|exact H]|right; rewrite <- H; reflexivity]. }
  replace (- (37 / 32)) with (INR 32 * - (37 / 1024)) by (simpl; lra). rewrite exp_n.
  apply Rle_trans with ((1 - 37 / 1024) ^ 32); [simpl; lra|]. apply pow_incr. split; [lra|].
  pose proof (exp_ineq1_le (- (37 / 1024))). lra.
Qed.

Lemma ln_001 : -5 <= Rpower.ln 0.01.
Proof.
  rewrite <- (ln_exp (-5)). 
  assert (H : Rtrigo_def.exp (-5) <= 0.01).
  { replace (-5) with (- (5)) by lra. rewrite exp_Ropp. replace 0.01 with (/ 100) by lra. apply Rinv_le; [lra|].
    replace 5 with (INR 40 * (1 / 8)) by (simpl; lra). rewrite exp_n.
    apply Rle_trans with ((1 + 1 / 8) ^ 40); [simpl; lra|]. apply pow_incr. split; [lra|apply exp_ineq1_le]. }
  destruct H as [H|H]; [left; apply ln_increasing; [apply exp_pos|exact H]|right; rewrite H; reflexivity].
Qed.

Lemma ln_mono : forall a b, 0 < a -> a <= b -> Rpower.ln a <= Rpower.ln b.
Proof. intros a b Ha [H|H]; [left; apply ln_increasing; assumption|right; rewrite H; reflexivity]. Qed.

Lemma ideal_ln_plausible : forall c f, plausible_ln (p_ln (ideal c f)).
Proof.
  intros c f t N V. cbn [p_ln ideal].
  assert (F : fin t) by (apply fin_iff_val; [exact N|rewrite Rabs_pos_eq by lra; pose proof Om_big; lra]).
  rewrite (val_fin t F) in V.
  assert (E : ideal_ln t = round_to_f64 (Rpower.ln (Binary.B2R t))).
  { destruct t as [s|s|s pl e|[] m e B]; try discriminate F; try reflexivity; exfalso.
    - change (0.01 <= 0 <= 0.3) in V. lra.
    - rewrite B2R_finite in V. assert (0 <= IZR (Z.pos m) * bpow radix2 e); [|lra].
      apply Rmult_le_pos; [apply IZR_le; lia|apply bpow_ge_0]. }
  rewrite E. destruct (round_to_f64_spec (Rpower.ln (Binary.B2R t))) as [NR VR]. split; [exact NR|].
  rewrite VR. pose proof Om_big. split.
  - apply rs_ge; [apply (fmt_IZR (-5)); lia|lra|]. pose proof ln_001. pose proof (ln_mono 0.01 (Binary.B2R t)). lra.
  - apply Rle_trans with (- (37 / 32)); [|lra]. apply rs_le_fmt; [fq (-37)%Z 5%Z|lra|].
    pose proof ln_03. pose proof (ln_mono (Binary.B2R t) 0.3). lra.
Qed.

Lemma v200 : fin (f64_lit 200.0) /\ val (f64_lit 200.0) = 200.
Proof. lit_facts 200.0%dec 200%Z 0%Z HF HV. split; [exact HF|lra]. Qed.
Lemma v100 : fin (f64_lit 100.0) /\ val (f64_lit 100.0) = 100.
Proof. lit_facts 100.0%dec 100%Z 0%Z HF HV. split; [exact HF|lra]. Qed.
Lemma v025 : fin (f64_lit 0.25) /\ val (f64_lit 0.25) = 0.25.
Proof. lit_facts 0.25%dec 1%Z 2%Z HF HV. split; [exact HF|lra]. Qed.

Lemma bpow80 : 200 <= bpow radix2 80.
Proof. apply Rle_trans with (bpow radix2 8); [simpl; lra|apply bpow_le; lia]. Qed.

Lemma gamm_nan_refuted : exists a x : f64, positive a /\ nonneg x /\ finite a /\ finite x /\
  forall P : platform, ln_of_negative_is_NaN (p_ln P) ->
  (exists r, @gammp (ieee P) a x = Ok r /\ is_NaN r) /\ (exists r, @gammq (ieee P) a x = Ok r /\ is_NaN r).
Proof.
  destruct v200 as [F2 V2]. destruct v100 as [F1 V1]. exists (f64_lit 200.0), (f64_lit 100.0).
  assert (N1 : number (f64_lit 100.0)) by (apply fin_nonnan; exact F1).
  assert (N2 : number (f64_lit 200.0)) by (apply fin_nonnan; exact F2).
  split; [split; [exact N2|lra]|]. split; [split; [exact N1|lra]|]. split; [exact F2|]. split; [exact F1|].
  intros P L. pose proof bpow80. assert (bpow radix2 80 <= bpow radix2 100) by (apply bpow_le; lia).
  apply gamm_nan; auto; lra.
Qed.

Lemma invgammp_refuted : exists p a : f64, number p /\ 0 < val p < 1 /\ positive a /\ finite a /\
  forall P : platform, ln_of_negative_is_NaN (p_ln P) -> plausible_ln (p_ln P) -> panics (@invgammp (ieee P) p a).
Proof.
  destruct v200 as [F2 V2]. destruct v025 as [F1 V1]. exists (f64_lit 0.25), (f64_lit 200.0).
  assert (N1 : number (f64_lit 0.25)) by (apply fin_nonnan; exact F1).
  assert (N2 : number (f64_lit 200.0)) by (apply fin_nonnan; exact F2).
  split; [exact N1|]. split; [lra|]. split; [split; [exact N2|lra]|]. split; [exact F2|].
  intros P L1 L2. pose proof bpow80. apply invgammp_panics; auto; (split; [assumption|lra]).
Qed.

Lemma ex_gamm_nan : ln_of_negative_is_NaN (p_ln (ideal true false)) /\ plausible_ln (p_ln (ideal true false))
  /\ never_negative (p_exp (ideal true false))
  /\ (number (f64_lit 200.0) /\ number (f64_lit 100.0) /\ 100 <= val (f64_lit 200.0) <= bpow radix2 80
      /\ 0.201 * val (f64_lit 200.0) <= val (f64_lit 100.0) <= val (f64_lit 200.0) - 1).
Proof.
  destruct v200 as [F2 V2]. destruct v100 as [F1 V1]. pose proof bpow80.
  split; [apply ideal_ln_negative|]. split; [apply ideal_ln_plausible|]. split; [apply ideal_exp_nonneg|].
  split; [apply fin_nonnan; exact F2|]. split; [apply fin_nonnan; exact F1|]. lra.
Qed.
