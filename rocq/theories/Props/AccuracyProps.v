(** * Accuracy against the mathematical functions *)

From Coq Require Import ZArith Reals Bool.
From Flocq Require Import Core IEEE754.BinarySingleNaN IEEE754.Binary IEEE754.Bits.
From Verif.Model Require Import Base Arith Error Gamma Beta.
From Verif.Float Require Import Bits64 Ieee Platforms.
From Verif.Spec Require Import F64Spec Outcome ErfSpec LibmSpec GammaSpec.
From Verif.Proofs Require Import ErfcxAcc ErfcAcc GammaAcc GammaThms LnGammaThms BetaAcc.
Open Scope R_scope.
Local Notation ln := Rpower.ln.
Local Notation exp := Rtrigo_def.exp.

(** C70 *)
Theorem C70_erfcx_accurate : forall E : R -> R, erfc_function E ->
  forall (P : platform) (x : f64), finite x -> - (1 / 8) < Binary.B2R x ->
  exists r, @erfcx (ieee P) x = Ok r /\ finite r /\
  Rabs (Binary.B2R r - scaled_erfc E (Binary.B2R x)) <= / 2 ^ 46 * scaled_erfc E (Binary.B2R x) + bpow radix2 (-1075).
Proof. exact erfcx_acc. Qed.
Print Assumptions C70_erfcx_accurate.

Theorem C70_erfcx_accurate_neg : forall E : R -> R, erfc_function E ->
  forall (P : platform) (x : f64), accurate_exp (p_exp P) -> finite x -> - 26.6 <= Binary.B2R x <= - (1 / 8) ->
  exists r, @erfcx (ieee P) x = Ok r /\ finite r /\
  Rabs (Binary.B2R r - scaled_erfc E (Binary.B2R x)) <= / 2 ^ 43 * scaled_erfc E (Binary.B2R x).
Proof. exact erfcx_acc_neg. Qed.
Print Assumptions C70_erfcx_accurate_neg.

Example C70_example : (exists E, erfc_function E) /\ accurate_exp (p_exp (ideal true false))
  /\ (finite (f64_lit 2.5) /\ - (1 / 8) < Binary.B2R (f64_lit 2.5))
  /\ (finite (f64_lit (-2.5)) /\ - 26.6 <= Binary.B2R (f64_lit (-2.5)) <= - (1 / 8)).
Proof. exact ex_acc. Qed.

(** C71 *)
Theorem C71_erfc_accurate : forall E : R -> R, erfc_function E ->
  forall (P : platform) (x : f64), accurate_exp (p_exp P) -> finite x -> -26 <= Binary.B2R x <= 26 ->
  exists r, @erfc (ieee P) x = Ok r /\ finite r /\
  Rabs (Binary.B2R r - E (Binary.B2R x)) <= (/ 2 ^ 41 + / 2 ^ 51 * (Binary.B2R x * Binary.B2R x)) * E (Binary.B2R x).
Proof. exact erfc_acc. Qed.
Print Assumptions C71_erfc_accurate.

(** C72 *)
Theorem C72_erf_accurate : forall F : R -> R, erf_function F ->
  forall (P : platform) (x : f64), accurate_exp (p_exp P) -> finite x -> -26 <= Binary.B2R x <= 26 ->
  exists r, @erf (ieee P) x = Ok r /\ finite r /\ Rabs (Binary.B2R r - F (Binary.B2R x)) <= / 2 ^ 41.
Proof. exact erf_acc. Qed.
Print Assumptions C72_erf_accurate.

Example C71_C72_example : (exists E, erfc_function E) /\ (exists F, erf_function F) /\ accurate_exp (p_exp (ideal true false))
  /\ (finite (f64_lit 2.5) /\ -26 <= Binary.B2R (f64_lit 2.5) <= 26)
  /\ (finite (f64_lit (-2.5)) /\ -26 <= Binary.B2R (f64_lit (-2.5)) <= 26).
Proof. exact ex_erf_acc. Qed.

(** C73: the relative error of erf is at least one close to zero *)
Theorem C73_erf_relative_error : forall F : R -> R, erf_function F ->
  forall (P : platform) (x r : f64), finite x -> 0 < Binary.B2R x <= / 2 ^ 55 -> @erf (ieee P) x = Ok r -> finite r ->
  F (Binary.B2R x) <= Rabs (Binary.B2R r - F (Binary.B2R x)).
Proof. exact erf_rel_lost. Qed.
Print Assumptions C73_erf_relative_error.

Theorem C73_refuted : exists x : f64, finite x /\ 0 < Binary.B2R x /\
  forall F : R -> R, erf_function F -> forall (P : platform) (r : f64), @erf (ieee P) x = Ok r -> finite r ->
  F (Binary.B2R x) <= Rabs (Binary.B2R r - F (Binary.B2R x)).
Proof. exact erf_rel_refuted. Qed.
Print Assumptions C73_refuted.

Example C73_example : exists r, @erf (ieee (ideal true false)) (f64_lit 1e-20) = Ok r /\ finite r.
Proof. exact ex_erf_small. Qed.

(** C74 *)
Theorem C74_gamma_accurate : forall G : R -> R, gamma_function G ->
  forall (P : platform) (z : f64) (fuel : nat), (280 <= fuel)%nat -> finite z -> -165 <= Binary.B2R z <= 171 ->
  bpow radix2 (-1000) <= Rabs (Binary.B2R z) -> (forall n, Binary.B2R z <> - INR n) ->
  exists r, @gamma (ieee P) fuel z = Ok r /\ finite r /\
  Rabs (Binary.B2R r - G (Binary.B2R z)) <= / 2 ^ 45 * Rabs (G (Binary.B2R z)).
Proof. exact gamma_acc. Qed.
Print Assumptions C74_gamma_accurate.

Example C74_example : (exists G, gamma_function G)
  /\ (finite (f64_lit (-2.5)) /\ -165 <= Binary.B2R (f64_lit (-2.5)) <= 171 /\
      bpow radix2 (-1000) <= Rabs (Binary.B2R (f64_lit (-2.5))) /\ forall n, Binary.B2R (f64_lit (-2.5)) <> - INR n)
  /\ (finite (f64_lit 170.5) /\ -165 <= Binary.B2R (f64_lit 170.5) <= 171 /\
      bpow radix2 (-1000) <= Rabs (Binary.B2R (f64_lit 170.5)) /\ forall n, Binary.B2R (f64_lit 170.5) <> - INR n).
Proof. exact ex_gamma_acc. Qed.

(** C75 *)
Theorem C75_ln_gamma_accurate : forall G : R -> R, gamma_function G ->
  forall (P : platform) (z : f64), accurate_ln (p_ln P) -> finite z ->
  let x := Binary.B2R z in bpow radix2 (-40) <= x <= bpow radix2 900 ->
  finite (@ln_gamma (ieee P) z) /\
  Rabs (Binary.B2R (@ln_gamma (ieee P) z) - ln (G x)) <= 5 / 10 ^ 10 + / (2 ^ 51 * x) + / 2 ^ 48 * ((x + 5) * ln (x + 5)).
Proof. exact ln_gamma_acc. Qed.
Print Assumptions C75_ln_gamma_accurate.

Example C75_example : (exists G, gamma_function G) /\ accurate_ln (p_ln (ideal true false))
  /\ (finite (f64_lit 4.5) /\ bpow radix2 (-40) <= Binary.B2R (f64_lit 4.5) <= bpow radix2 900)
  /\ (finite (f64_lit 0.125) /\ bpow radix2 (-40) <= Binary.B2R (f64_lit 0.125) <= bpow radix2 900).
Proof. exact ex_ln_gamma_acc. Qed.

(** C76: ln_gamma is infinite on every positive argument up to 2^-54 *)
Theorem C76_ln_gamma_infinite : forall G : R -> R, gamma_function G ->
  forall (P : platform) (z : f64), accurate_ln (p_ln P) -> ln_of_infinity (p_ln P) -> finite z ->
  0 < Binary.B2R z <= bpow radix2 (-54) ->
  @ln_gamma (ieee P) z = B754_infinity false /\ ln (G (Binary.B2R z)) <= - ln (Binary.B2R z).
Proof. exact ln_gamma_inf_gen. Qed.
Print Assumptions C76_ln_gamma_infinite.

Theorem C76_refuted : exists z : f64, finite z /\ 0 < Binary.B2R z /\
  (forall G : R -> R, gamma_function G -> ln (G (Binary.B2R z)) <= 67) /\
  forall P : platform, accurate_ln (p_ln P) -> ln_of_infinity (p_ln P) -> @ln_gamma (ieee P) z = B754_infinity false.
Proof. exact ln_gamma_refuted. Qed.
Print Assumptions C76_refuted.

Example C76_example : (exists G, gamma_function G) /\ accurate_ln (p_ln (ideal true false)) /\ ln_of_infinity (p_ln (ideal true false))
  /\ finite (f64_lit 1e-20) /\ 0 < Binary.B2R (f64_lit 1e-20) <= bpow radix2 (-54).
Proof. exact ex_ln_gamma_inf. Qed.

(** C77 *)
Theorem C77_beta_accurate : forall G : R -> R, gamma_function G ->
  forall (P : platform) (z w : f64), accurate_ln (p_ln P) -> accurate_exp (p_exp P) -> finite z -> finite w ->
  let x := Binary.B2R z in let y := Binary.B2R w in
  / 2 ^ 16 <= x <= 1000 -> / 2 ^ 16 <= y <= 1000 ->
  let B := G x * G y / G (x + y) in exp (-690) <= B ->
  exists r, @beta (ieee P) z w = Ok r /\ finite r /\ Rabs (Binary.B2R r - B) <= 2 / 10 ^ 9 * B.
Proof. exact beta_acc. Qed.
Print Assumptions C77_beta_accurate.

Theorem C77_beta_accurate_100 : forall G : R -> R, gamma_function G ->
  forall (P : platform) (z w : f64), accurate_ln (p_ln P) -> accurate_exp (p_exp P) -> finite z -> finite w ->
  let x := Binary.B2R z in let y := Binary.B2R w in
  / 2 ^ 16 <= x <= 100 -> / 2 ^ 16 <= y <= 100 ->
  let B := G x * G y / G (x + y) in
  exists r, @beta (ieee P) z w = Ok r /\ finite r /\ Rabs (Binary.B2R r - B) <= 2 / 10 ^ 9 * B.
Proof. exact beta_acc_100. Qed.
Print Assumptions C77_beta_accurate_100.

Example C77_example : (exists G, gamma_function G /\ exp (-690) <= G 1 * G 2 / G (1 + 2)) /\
  accurate_ln (p_ln (ideal true false)) /\ accurate_exp (p_exp (ideal true false)) /\
  (finite (f64_lit 1.0) /\ Binary.B2R (f64_lit 1.0) = 1) /\ (finite (f64_lit 2.0) /\ Binary.B2R (f64_lit 2.0) = 2) /\
  (finite (f64_lit 0.125) /\ / 2 ^ 16 <= Binary.B2R (f64_lit 0.125) <= 100).
Proof. exact ex_beta_acc. Qed.

(** C78: beta is NaN on all pairs of positive arguments up to 2^-55 *)
Theorem C78_beta_nan : forall (P : platform) (z w : f64), accurate_ln (p_ln P) -> ln_of_infinity (p_ln P) -> finite z -> finite w ->
  0 < Binary.B2R z <= bpow radix2 (-55) -> 0 < Binary.B2R w <= bpow radix2 (-55) ->
  exists r, @beta (ieee P) z w = Ok r /\ is_NaN r.
Proof. exact beta_nan. Qed.
Print Assumptions C78_beta_nan.

Theorem C78_refuted : exists z w : f64, finite z /\ finite w /\ 0 < Binary.B2R z /\ 0 < Binary.B2R w /\
  (forall G : R -> R, gamma_function G ->
     G (Binary.B2R z) * G (Binary.B2R w) / G (Binary.B2R z + Binary.B2R w) <= / Binary.B2R z + / Binary.B2R w <= 2 ^ 68) /\
  forall P : platform, accurate_ln (p_ln P) -> ln_of_infinity (p_ln P) -> exists r, @beta (ieee P) z w = Ok r /\ is_NaN r.
Proof. exact beta_refuted. Qed.
Print Assumptions C78_refuted.

Example C78_example : accurate_ln (p_ln (ideal true false)) /\ ln_of_infinity (p_ln (ideal true false)) /\
  finite (f64_lit 1e-20) /\ 0 < Binary.B2R (f64_lit 1e-20) <= bpow radix2 (-55).
Proof. exact ex_beta_nan. Qed.
