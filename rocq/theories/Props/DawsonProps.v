(** * Properties of the Dawson integral (src/dawson.rs) *)

From Coq Require Import ZArith Reals Bool.
From Flocq Require Import Core IEEE754.BinarySingleNaN IEEE754.Binary IEEE754.Bits.
From Verif.Model Require Import Base Arith Dawson.
From Verif.Float Require Import Bits64 Ieee Platforms.
From Verif.Spec Require Import F64Spec Outcome DawsonSpec.
From Verif.Proofs Require Import Symmetry DawsonSeries DawsonBad DawsonNeg DawsonExamples.
Open Scope R_scope.

(** C37 *)
Theorem C37_dawson_odd : forall (P : platform) (x : f64),
  same_outcome (fun r r' => r' ~= f64_neg r) (@dawson (ieee P) x) (@dawson (ieee P) (f64_neg x)).
Proof. exact dawson_odd. Qed.
Print Assumptions C37_dawson_odd.

Example C37_example : number (f64_lit 2.5) /\ f64_lt (f64_abs (f64_lit 2.5)) (f64_lit 0.2) = false.
Proof. exact ex_sampled. Qed.

(** C38 *)
Theorem C38_dawson_accurate : forall (P : platform) (D : R -> R) (x : f64), dawson_integral D (1 / 5) ->
  number x -> Rabs (val x) < 1 / 5 ->
  exists r, @dawson (ieee P) x = Ok r /\ finite r
  /\ Rabs (val r - D (val x)) <= 5e-8 * Rabs (val x) + bpow radix2 (-1075).
Proof. exact dawson_accurate. Qed.
Print Assumptions C38_dawson_accurate.

Example C38_example : (exists D, dawson_integral D (1 / 5))
  /\ number (f64_lit 0.125) /\ Rabs (val (f64_lit 0.125)) < 1 / 5.
Proof. exact ex_dawson_small. Qed.

(** C39 *)
Theorem C39_dawson_wrong_sign : forall (P : platform) (D : R -> R) (x : f64),
  plausible_exp (p_exp P) -> dawson_integral D 1 -> number x -> 0.41 <= val x <= 0.79 ->
  1 / 5 < D (val x) /\ exists r, @dawson (ieee P) x = Ok r /\ finite r /\ Binary.B2R r < 0.
Proof. exact dawson_wrong_sign. Qed.
Print Assumptions C39_dawson_wrong_sign.

Theorem C39_refuted : exists x : f64, positive x /\
  forall P : platform, plausible_exp (p_exp P) ->
  exists r, @dawson (ieee P) x = Ok r /\ finite r /\ Binary.B2R r < 0.
Proof. exact dawson_positive_refuted. Qed.
Print Assumptions C39_refuted.

Theorem C39_dawson_positive_partial : forall (P : platform) (x : f64), positive x -> val x < 1 / 5 ->
  exists r, @dawson (ieee P) x = Ok r /\ positive r.
Proof. exact dawson_small_positive. Qed.
Print Assumptions C39_dawson_positive_partial.

Example C39_example :
  (plausible_exp (p_exp (ideal true false)) /\ exists D, dawson_integral D 1)
  /\ (number (f64_lit 0.5) /\ 0.41 <= val (f64_lit 0.5) <= 0.79)
  /\ (positive (f64_lit 0.125) /\ val (f64_lit 0.125) < 1 / 5).
Proof. exact ex_dawson_sign. Qed.

(** C40 *)
Theorem C40_dawson_panics_iff : forall (P : platform) (x : f64), p_checks P = true ->
  (panics (@dawson (ieee P) x) <-> number x /\ 7378697629483821056 <= Rabs (val x)).
Proof. exact dawson_panics_iff. Qed.
Print Assumptions C40_dawson_panics_iff.

Theorem C40_refuted : exists x : f64, finite x /\
  forall P : platform, p_checks P = true -> panics (@dawson (ieee P) x).
Proof. exact dawson_panics_refuted. Qed.
Print Assumptions C40_refuted.

Theorem C40_dawson_returns_partial : forall (P : platform) (x : f64), p_checks P = false ->
  returns (@dawson (ieee P) x).
Proof. exact dawson_no_checks. Qed.
Print Assumptions C40_dawson_returns_partial.

Example C40_example : p_checks (ideal true false) = true /\ p_checks (ideal false false) = false.
Proof. exact (conj eq_refl eq_refl). Qed.
