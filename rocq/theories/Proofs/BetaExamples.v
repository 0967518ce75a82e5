(** * Witnesses for the failure of betai at large parameters *)

From Coq Require Import ZArith Reals Bool Lra Lia List.
From Flocq Require Import Core IEEE754.BinarySingleNaN IEEE754.Binary IEEE754.Bits.
From Verif.Model Require Import Base Arith Gamma Beta.
From Verif.Float Require Import Bits64 Ieee Exact Platforms.
From Verif.Spec Require Import F64Spec Outcome.
From Verif.Proofs Require Import UtilsSpec F64 F64Ops Lits Ext Boundaries DawsonNeg BetaLarge GammaNaNExamples Ideal.
Open Scope R_scope.

Lemma rnd_tiny : forall r, Rabs r < bpow radix2 (-1075) -> rnd r = 0.
Proof.
  intros r B. destruct (Req_dec r 0) as [->|Z]; [apply rnd_0|].
  unfold rnd. apply round_N_small with (ex := mag radix2 r).
  - destruct (mag radix2 r) as [e He]. apply He. exact Z.
  - pose proof (mag_le_bpow radix2 r (-1075) Z B) as L.
    unfold SpecFloat.fexp, FLT_exp, SpecFloat.emin. lia.
Qed.

Lemma exp_m1000 : Rtrigo_def.exp (-1000) < bpow radix2 (-1075).
Proof.
  apply Rle_lt_trans with (Rtrigo_def.exp (- (INR 333 * 3))).
  - apply exp_le_mono. replace (INR 333) with 333 by (rewrite INR_IZR_INZ; reflexivity). lra.
  - rewrite exp_Ropp, exp_n.
    apply Rle_lt_trans with (/ (bpow radix2 4) ^ 333).
    + apply Rinv_le; [apply pow_lt, bpow_gt_0|]. apply pow_incr. split; [apply bpow_ge_0|].
      change (bpow radix2 4) with 16. replace 3 with (INR 24 * (1 / 8)) by (simpl; lra). rewrite exp_n.
      apply Rle_trans with ((1 + 1 / 8) ^ 24); [simpl; lra|]. apply pow_incr. split; [lra|apply exp_ineq1_le].
    + assert (E : (bpow radix2 4) ^ 333 = bpow radix2 1332).
      { assert (G : forall n, (bpow radix2 4) ^ n = bpow radix2 (4 * Z.of_nat n)).
        { induction n as [|n IH]; [reflexivity|]. rewrite Nat2Z.inj_succ. replace (4 * Z.succ (Z.of_nat n))%Z with (4 + 4 * Z.of_nat n)%Z by lia.
          rewrite bpow_plus, <- IH. reflexivity. }
        rewrite G. reflexivity. }
      rewrite E, <- bpow_opp. apply bpow_lt. lia.
Qed.

Lemma ideal_exp_underflows : forall c f, exp_underflows (p_exp (ideal c f)).
Proof.
  intros c f t N V. cbn [p_exp ideal]. destruct (fin_or_inf t N) as [F|[s ->]].
  - destruct (ideal_exp_finite t F) as [NE VE]. split; [exact NE|]. rewrite VE. rewrite (val_fin t F) in V.
    assert (R : rnd (Rtrigo_def.exp (Binary.B2R t)) = 0).
    { apply rnd_tiny. rewrite Rabs_pos_eq by (left; apply exp_pos).
      eapply Rle_lt_trans; [apply exp_le_mono; exact V|exact exp_m1000]. }
    rewrite rs_in; [exact R|]. rewrite R, Rabs_R0. pose proof Om_pos. lra.
  - destruct s; [split; reflexivity|]. exfalso. rewrite val_inf_f in V. pose proof Om_pos. lra.
Qed.

Lemma ideal_ln_eq : forall t : f64, fin t -> 0 < Binary.B2R t -> ideal_ln t = round_to_f64 (Rpower.ln (Binary.B2R t)).
Proof.
  intros t F V. destruct t as [s|s|s pl e|[] m e B]; try discriminate F; try reflexivity; exfalso.
  - change (0 < 0) in V. lra.
  - rewrite B2R_finite in V. assert (0 <= IZR (Z.pos m) * bpow radix2 e); [|lra].
    apply Rmult_le_pos; [apply IZR_le; lia|apply bpow_ge_0].
Qed.

(** |ln t| < 2^1000 for every positive f64 *)
Lemma ln_f64_bound : forall t : f64, fin t -> 0 < Binary.B2R t -> Rabs (Rpower.ln (Binary.B2R t)) <= bpow radix2 1023.
Proof.
  intros t F V.
  assert (LO : bpow radix2 (-1074) <= Binary.B2R t).
  { destruct t as [s|s|s pl e|s m e B]; try discriminate F; [change (0 < 0) in V; lra|].
    rewrite B2R_finite in *. assert (Hm : 1 <= IZR (Z.pos m)) by (apply IZR_le; lia).
    assert (Be : bpow radix2 (-1074) <= bpow radix2 e).
    { apply bpow_le. pose proof B as C. unfold SpecFloat.bounded, SpecFloat.canonical_mantissa in C. apply andb_prop in C as [C _]. apply Zeq_bool_eq in C.
      unfold SpecFloat.fexp, SpecFloat.emin in C. lia. }
    pose proof (bpow_gt_0 radix2 e). destruct s.
    - exfalso. assert (0 <= IZR (Z.pos m) * bpow radix2 e) by (apply Rmult_le_pos; lra). lra.
    - apply Rle_trans with (1 * bpow radix2 e); [lra|]. apply Rmult_le_compat_r; lra. }
  assert (HI : Binary.B2R t < bpow radix2 1024).
  { pose proof (proj1 (fin_iff_val t (fin_nonnan _ F)) F) as H. rewrite (val_fin t F) in H. apply Rabs_lt_inv in H. apply H. }
  assert (K : forall k : Z, Rpower.ln (bpow radix2 k) = IZR k * Rpower.ln 2).
  { intros k. destruct k as [|p|p].
    - change (bpow radix2 0) with 1. rewrite ln_1. ring.
    - change (bpow radix2 (Z.pos p)) with (IZR (Z.pow_pos 2 p)).
      change (Z.pow_pos 2 p) with (2 ^ Z.pos p)%Z. rewrite <- (Z2Nat.id (Z.pos p)) at 1 by lia.
      rewrite <- pow_IZR, ln_pow by lra. rewrite INR_IZR_INZ, Z2Nat.id by lia. reflexivity.
    - change (bpow radix2 (Z.neg p)) with (/ IZR (Z.pow_pos 2 p)).
      change (Z.pow_pos 2 p) with (2 ^ Z.pos p)%Z. rewrite ln_Rinv by (apply IZR_lt; apply Z.pow_pos_nonneg; lia).
      rewrite <- (Z2Nat.id (Z.pos p)) at 1 by lia.
      rewrite <- pow_IZR, ln_pow by lra. rewrite INR_IZR_INZ, Z2Nat.id by lia. change (Z.neg p) with (- Z.pos p)%Z. rewrite opp_IZR. ring. }
  pose proof (ln_le_sub1 2 ltac:(lra)) as L2. pose proof ln_lt_2 as L2'.
  pose proof (ln_mono _ _ (bpow_gt_0 radix2 (-1074)) LO) as H1. pose proof (ln_mono (Binary.B2R t) _ V (Rlt_le _ _ HI)) as H2.
  rewrite K in H1, H2.
  assert (B11 : bpow radix2 11 <= bpow radix2 1023) by (apply bpow_le; lia). change (bpow radix2 11) with 2048 in B11.
  apply Rabs_le. lra.
Qed.

Lemma ideal_ln_accurate : forall c f, accurate_ln (p_ln (ideal c f)).
Proof.
  intros c f t N V. cbn [p_ln ideal].
  assert (F : fin t) by (apply fin_iff_val; [exact N|rewrite Rabs_pos_eq by lra; apply V]).
  rewrite (val_fin t F) in *. rewrite ideal_ln_eq by (exact F || apply V).
  pose proof (ln_f64_bound t F (proj1 V)) as LB. set (l := Rpower.ln (Binary.B2R t)) in *.
  destruct (round_to_f64_spec l) as [NR VR]. split; [exact NR|]. rewrite VR.
  rewrite rs_in.
  - eapply Rle_trans; [apply rnd_abs_err|]. apply Rplus_le_compat.
    + apply Rmult_le_compat_r; [apply Rabs_pos|apply bpow_le; lia].
    + apply bpow_le. lia.
  - rewrite <- rnd_abs. apply rnd_le_fmt; [apply fmt_Om|]. eapply Rle_trans; [exact LB|]. unfold Om. apply bpow_le. lia.
Qed.

Lemma v4096 : fin (f64_lit 4096.0) /\ val (f64_lit 4096.0) = 4096.
Proof. lit_facts 4096.0%dec 4096%Z 0%Z HF HV. split; [exact HF|lra]. Qed.
Lemma v075 : fin (f64_lit 0.75) /\ val (f64_lit 0.75) = 0.75.
Proof. lit_facts 0.75%dec 3%Z 2%Z HF HV. split; [exact HF|lra]. Qed.

Lemma ex_betai : accurate_ln (p_ln (ideal true false)) /\ exp_underflows (p_exp (ideal true false))
  /\ number (f64_lit 4096.0) /\ 3000 < val (f64_lit 4096.0) <= bpow radix2 40
  /\ number (f64_lit 0.75) /\ bpow radix2 (-30) <= val (f64_lit 0.75) <= 1 - bpow radix2 (-30).
Proof.
  destruct v4096 as [F4 V4]. destruct v075 as [F7 V7].
  split; [apply ideal_ln_accurate|]. split; [apply ideal_exp_underflows|].
  split; [apply fin_nonnan; exact F4|]. split.
  - rewrite V4. assert (bpow radix2 12 <= bpow radix2 40) by (apply bpow_le; lia). change (bpow radix2 12) with 4096 in H. lra.
  - split; [apply fin_nonnan; exact F7|]. rewrite V7. change (bpow radix2 (-30)) with (/ 1073741824). lra.
Qed.

Lemma betai_refuted : exists a x : f64, finite a /\ 3000 < val a /\ finite x /\ 1 / 2 < val x < 1 /\
  forall P : platform, accurate_ln (p_ln P) -> exp_underflows (p_exp P) ->
  exists r, @betai (ieee P) a a x = Ok r /\ (is_NaN r \/ (number r /\ val r = 0)).
Proof.
  destruct ex_betai as (_ & _ & N4 & B4 & N7 & B7). destruct v4096 as [F4 V4]. destruct v075 as [F7 V7].
  exists (f64_lit 4096.0), (f64_lit 0.75). split; [exact F4|]. split; [lra|]. split; [exact F7|]. split; [lra|].
  intros P L E. apply betai_zero; auto.
Qed.
