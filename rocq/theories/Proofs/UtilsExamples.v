(** * Satisfiability of the hypotheses used for utils.rs, and small corollaries *)

From Coq Require Import ZArith Reals Bool Lra Lia.
From Flocq Require Import Core IEEE754.BinarySingleNaN IEEE754.Binary IEEE754.Bits.
From Verif.Model Require Import Base Arith Utils.
From Verif.Float Require Import Bits64 Ieee Platforms.
From Verif.Spec Require Import F64Spec.
From Verif.Proofs Require Import F64 F64Ops CacheFacts UtilsBits UtilsSpec.
Open Scope Z_scope.

Lemma normal_mk : forall s m e H, 2 ^ 52 <= Z.pos m -> normal (@B754_finite 53 1024 s m e H).
Proof.
  intros s m e H Hm. split; [reflexivity|]. rewrite abs_B2R_finite. unfold min_normal.
  pose proof (bounded_mant m e H) as (B1 & B2 & B3).
  apply Rle_trans with (bpow radix2 (52 + e)); [apply bpow_le; lia|]. apply mant_bpow_ge; lia.
Qed.

Lemma scaled_mk : forall s m k H e,
  Rabs (scaled (@B754_finite 53 1024 s m k H) e) = (IZR (Z.pos m) * bpow radix2 (k + e))%R.
Proof.
  intros. unfold scaled. rewrite Rabs_mult, abs_B2R_finite, (Rabs_pos_eq (bpow radix2 e)) by apply bpow_ge_0.
  rewrite bpow_plus. ring.
Qed.

Lemma lit_val : forall d s m e (H : SpecFloat.bounded 53 1024 m e = true),
  Binary.B2FF (f64_lit d) = F754_finite s m e -> f64_lit d = B754_finite s m e H.
Proof.
  intros d s m e H E. apply Binary.B2FF_inj. exact E.
Qed.

Lemma ex_normal : normal (f64_lit (-3.25)).
Proof.
  rewrite (lit_val _ true (13 * 2 ^ 49) (-51) eq_refl) by (vm_compute; reflexivity).
  apply normal_mk. lia.
Qed.

Lemma ex_subnormal : subnormal (@B754_finite 53 1024 true 12345 (-1074) eq_refl).
Proof.
  split; [reflexivity|]. rewrite abs_B2R_finite. unfold min_normal. split.
  - apply Rmult_lt_0_compat; [lra|apply bpow_gt_0].
  - apply (mant_bpow_lt 12345 (-1074) 52); lia.
Qed.

Lemma frexp_refuted : exists x, finite x /\ Binary.B2R x <> 0%R /\
  forall P : platform, let (m, e) := @frexp (ieee P) x in scaled m e <> Binary.B2R x.
Proof.
  exists (@B754_finite 53 1024 true 12345 (-1074) eq_refl). pose proof ex_subnormal as [F [S1 S2]].
  split; [reflexivity|]. split.
  - intros E. rewrite E, Rabs_R0 in S1. lra.
  - intros P. pose proof (frexp_subnormal_wrong P _ ex_subnormal) as W.
    destruct (@frexp (ieee P) _) as [m e]. intros E. rewrite E in W. lra.
Qed.

Lemma ldexp_trivial : forall P : platform,
  (forall x : f64, @ldexp (ieee P) x 0 = Ok x) /\
  (forall s e, @ldexp (ieee P) (B754_zero s) e = Ok (B754_zero s)).
Proof. intros P. split; [exact (ldexp_zero_exp P)|exact (ldexp_zero P)]. Qed.

Lemma ex_ldexp : normal (f64_lit 3.25)
  /\ (min_normal <= Rabs (scaled (f64_lit 3.25) (-1000)) < overflow)%R.
Proof.
  rewrite (lit_val _ false (13 * 2 ^ 49) (-51) eq_refl) by (vm_compute; reflexivity).
  split; [apply normal_mk; lia|]. rewrite scaled_mk. unfold min_normal, overflow. split.
  - apply Rle_trans with (bpow radix2 (52 + (-51 + -1000))); [apply bpow_le; lia|].
    apply mant_bpow_ge; lia.
  - apply Rlt_le_trans with (bpow radix2 (53 + (-51 + -1000))); [|apply bpow_le; lia].
    apply mant_bpow_lt; lia.
Qed.

Lemma ex_underflow : normal one_f64 /\ is_i32 (-2000)
  /\ (Rabs (scaled one_f64 (-2000)) < bpow radix2 (-1075))%R.
Proof.
  split; [apply normal_mk; lia|]. split; [unfold is_i32; lia|].
  unfold one_f64. rewrite scaled_mk.
  apply Rlt_le_trans with (bpow radix2 (53 + (-52 + -2000))); [|apply bpow_le; lia].
  apply mant_bpow_lt; lia.
Qed.

Lemma ldexp_frexp_minus_zero : forall P : platform,
  let (m, e) := @frexp (ieee P) (B754_zero true) in @ldexp (ieee P) m e = Ok (B754_zero false).
Proof. intros P. reflexivity. Qed.

Lemma ex_not_minus_zero : @B754_finite 53 1024 true 12345 (-1074) eq_refl <> (B754_zero true : f64).
Proof. discriminate. Qed.

Lemma ex_bit : 0 <= 63 < 64.
Proof. lia. Qed.

Lemma biased_div : forall x : f64, biased_exponent (to_bits x) = (to_bits x / 2 ^ 52) mod 2 ^ 11.
Proof.
  intros x. unfold biased_exponent. change 2047 with (Z.ones 11).
  rewrite Z.land_ones, Z.shiftr_div_pow2 by lia. reflexivity.
Qed.

Lemma ldexp_panics : forall (P : platform) (x : f64) (e : Z), is_i32 e ->
  (is_panic (@ldexp (ieee P) x e) = true <->
   p_checks P = true /\ f64_eq x f64_zero = false
   /\ 2 ^ 31 <= (to_bits x / 2 ^ 52) mod 2 ^ 11 + e).
Proof. intros P x e He. rewrite <- biased_div. exact (ldexp_overflows P x e He). Qed.

Lemma ex_ldexp_panic : is_panic (@ldexp (ieee (plain true false)) one_f64 (2 ^ 31 - 1)) = true.
Proof. vm_compute. reflexivity. Qed.

Lemma ldexp_overflow_inf : forall (P : platform) (x : f64) (e : Z), normal x ->
  is_i32 e -> e <= 2 ^ 31 - 2048 ->
  Rabs (scaled x e) = overflow \/ (2 * overflow <= Rabs (scaled x e))%R ->
  @ldexp (ieee P) x e = Ok (B754_infinity (Binary.Bsign x)).
Proof.
  intros P x e N He He2 HO. destruct (normal_inv x N) as (s & m & k & H & -> & Hm & Hk).
  rewrite scaled_mk in HO. unfold overflow in HO.
  assert (R1 : 972 <= k + e).
  { destruct (Z.lt_ge_cases (k + e) 972); auto.
    pose proof (mant_bpow_lt m (k + e) 53 ltac:(lia) ltac:(lia)).
    assert (bpow radix2 (53 + (k + e)) <= bpow radix2 1024)%R by (apply bpow_le; lia).
    pose proof (bpow_gt_0 radix2 1024). lra. }
  destruct (Z.eq_dec (k + e) 972) as [E|E].
  - assert (M : Z.pos m = 2 ^ 52).
    { rewrite E in HO. pose proof (mant_bpow_lt m 972 53 ltac:(lia) ltac:(lia)) as L.
      simpl Z.add in L. change 1025 with (1 + 1024) in L. rewrite bpow_plus in L.
      change (bpow radix2 1) with 2%R in L. destruct HO as [HO|HO]; [|lra].
      change 1024 with (52 + 972) in HO. rewrite bpow_plus in HO.
      apply Rmult_eq_reg_r in HO; [|pose proof (bpow_gt_0 radix2 972); lra].
      rewrite IZR_bpow in HO by lia. now apply eq_IZR in HO. }
    change (@ldexp (ieee P)) with (ldexp_bits (p_checks P)).
    rewrite (ldexp_fields _ _ s (k + 1075) (Z.pos m - 2 ^ 52) e);
      [|unfold frac_ok; lia|unfold exp_ok; lia|apply bits_normal; lia|destruct s; reflexivity|lia|lia].
    replace (k + 1075 + e) with 2047 by lia. rewrite M. f_equal.
    apply to_bits_inj. rewrite to_from_bits by (apply mk_range; unfold frac_ok, exp_ok; lia).
    destruct s; reflexivity.
  - apply (ldexp_out P _ s (k + 1075) (Z.pos m - 2 ^ 52));
      [unfold frac_ok; lia|unfold exp_ok; lia|apply bits_normal; lia|destruct s; reflexivity|auto|].
    right. lia.
Qed.

Lemma ex_overflow : normal (f64_lit 1.5)
  /\ (overflow < Rabs (scaled (f64_lit 1.5) 1024) < 2 * overflow)%R.
Proof.
  rewrite (lit_val _ false (3 * 2 ^ 51) (-52) eq_refl) by (vm_compute; reflexivity).
  split; [apply normal_mk; lia|]. rewrite scaled_mk. unfold overflow.
  change (Z.pos (3 * 2 ^ 51)) with (3 * Zpower radix2 51). rewrite mult_IZR, (IZR_Zpower radix2) by lia.
  replace (bpow radix2 1024) with (2 * bpow radix2 51 * bpow radix2 (-52 + 1024))%R.
  2:{ change 2%R with (bpow radix2 1). now rewrite <- !bpow_plus. }
  pose proof (bpow_gt_0 radix2 51). pose proof (bpow_gt_0 radix2 (-52 + 1024)).
  assert (0 < bpow radix2 51 * bpow radix2 (-52 + 1024))%R by now apply Rmult_lt_0_compat. lra.
Qed.

Lemma ex_inf_exp : -2046 <= -1 < 0.
Proof. lia. Qed.

Lemma ldexp_underflow_refuted : exists (x : f64) (e : Z), normal x /\ is_i32 e
  /\ (Rabs (scaled x e) < bpow radix2 (-1075))%R
  /\ forall (P : platform) y, @ldexp (ieee P) x e = Ok y -> ~ finite y.
Proof.
  exists one_f64, (-2000). destruct ex_underflow as (H1 & H2 & H3). repeat split; auto; try apply H1; try apply H2.
  intros P y E. rewrite (ldexp_underflow P _ _ H1 H2 H3) in E. injection E as <-. discriminate.
Qed.

Lemma ldexp_overflow_refuted : exists (x : f64) (e : Z), normal x /\ is_i32 e
  /\ (overflow < Rabs (scaled x e))%R
  /\ forall (P : platform) s, @ldexp (ieee P) x e <> Ok (B754_infinity s).
Proof.
  exists (f64_lit 1.5), 1024. destruct ex_overflow as (H1 & H2). repeat split; try apply H1; try apply H2;
    try (unfold is_i32; lia).
  intros P s E. destruct (ldexp_first_overflow P _ _ H1 H2) as (y & E' & N). rewrite E in E'.
  injection E' as <-. discriminate.
Qed.

Lemma ldexp_inf_refuted : exists e : Z, is_i32 e
  /\ forall (P : platform) s, @ldexp (ieee P) (B754_infinity s) e <> Ok (B754_infinity s).
Proof.
  exists (-1). split; [unfold is_i32; lia|]. intros P s E.
  destruct (ldexp_inf P s (-1) ltac:(lia)) as (y & E' & F & _). rewrite E in E'.
  injection E' as <-. discriminate.
Qed.
