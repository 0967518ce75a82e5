(** * The Faddeeva function on the two axes *)

From Coq Require Import ZArith Reals Bool.
From Flocq Require Import Core IEEE754.BinarySingleNaN IEEE754.Binary IEEE754.Bits.
From Verif.Model Require Import Base Arith Error Dawson Faddeeva.
From Verif.Float Require Import Bits64 Ieee Platforms.
From Verif.Spec Require Import F64Spec Outcome ErfSpec DawsonSpec LibmSpec.
From Verif.Proofs Require Import FaddeevaAxes.
Open Scope R_scope.

(** C110: on the real axis the imaginary part of w is 2 / sqrt PI times Dawson's integral; the computed one is negative on a whole interval *)
Theorem C110_faddeeva_imaginary_part : forall (P : platform) (D : R -> R) (x y : f64), plausible_exp (p_exp P) -> dawson_integral D 1 ->
  number x -> 0.41 <= val x <= 0.79 -> finite y -> Binary.B2R y = 0 ->
  1 / 5 < 2 / R_sqrt.sqrt Rtrigo1.PI * D (val x) /\ exists a b, @faddeeva (ieee P) x y = Ok (a, b) /\ finite b /\ val b < 0.
Proof. exact faddeeva_im_negative. Qed.
Print Assumptions C110_faddeeva_imaginary_part.

Theorem C110_refuted : exists x y : f64, positive x /\ finite y /\ val y = 0 /\
  forall P : platform, plausible_exp (p_exp P) -> exists a b, @faddeeva (ieee P) x y = Ok (a, b) /\ finite b /\ val b < 0.
Proof. exact faddeeva_im_refuted. Qed.
Print Assumptions C110_refuted.

(** close to zero it is right; missing: 0.2 <= |x|, where dawson itself is wrong *)
Theorem C110_faddeeva_imaginary_part_partial : forall (P : platform) (D : R -> R) (x y : f64), dawson_integral D (1 / 5) ->
  number x -> bpow radix2 (-1000) <= Rabs (val x) < 1 / 5 -> finite y -> Binary.B2R y = 0 ->
  exists a b, @faddeeva (ieee P) x y = Ok (a, b) /\ finite b
  /\ Rabs (val b - 2 / R_sqrt.sqrt Rtrigo1.PI * D (val x)) <= 6e-8 * Rabs (val x).
Proof. exact faddeeva_im_small. Qed.
Print Assumptions C110_faddeeva_imaginary_part_partial.

(** C111: the real part on the real axis, and the whole result on the imaginary axis *)
Theorem C111_faddeeva_real_part : forall (P : platform) (x y a b : f64), accurate_exp (p_exp P) ->
  number x -> bpow radix2 (-1000) <= Rabs (val x) <= 26 -> finite y -> Binary.B2R y = 0 -> @faddeeva (ieee P) x y = Ok (a, b) ->
  finite a /\ Rabs (val a - Rtrigo_def.exp (- (val x * val x))) <= / 2 ^ 43 * Rtrigo_def.exp (- (val x * val x)).
Proof. exact faddeeva_re_axis. Qed.
Print Assumptions C111_faddeeva_real_part.

Theorem C111_faddeeva_imaginary_axis : forall E : R -> R, erfc_function E -> forall (P : platform) (x y : f64),
  finite x -> Binary.B2R x = 0 -> finite y -> - (1 / 8) < val y -> bpow radix2 (-1000) <= Rabs (val y) ->
  exists a b, @faddeeva (ieee P) x y = Ok (a, b) /\ finite a /\ finite b /\ val b = 0
  /\ Rabs (val a - scaled_erfc E (val y)) <= / 2 ^ 46 * scaled_erfc E (val y) + bpow radix2 (-1075).
Proof. exact faddeeva_imag_acc. Qed.
Print Assumptions C111_faddeeva_imaginary_axis.

Theorem C111_faddeeva_imaginary_axis_neg : forall E : R -> R, erfc_function E -> forall (P : platform) (x y : f64), accurate_exp (p_exp P) ->
  finite x -> Binary.B2R x = 0 -> finite y -> - 26.6 <= val y <= - (1 / 8) ->
  exists a b, @faddeeva (ieee P) x y = Ok (a, b) /\ finite a /\ finite b /\ val b = 0
  /\ Rabs (val a - scaled_erfc E (val y)) <= / 2 ^ 43 * scaled_erfc E (val y).
Proof. exact faddeeva_imag_acc_neg. Qed.
Print Assumptions C111_faddeeva_imaginary_axis_neg.

Example C110_C111_example : (exists D, dawson_integral D 1) /\ (exists D, dawson_integral D (1 / 5)) /\ (exists E, erfc_function E)
  /\ plausible_exp (p_exp (ideal true false)) /\ accurate_exp (p_exp (ideal true false))
  /\ (finite (f64_lit 0.0) /\ Binary.B2R (f64_lit 0.0) = 0)
  /\ (finite (f64_lit 0.125) /\ bpow radix2 (-1000) <= Rabs (val (f64_lit 0.125)) < 1 / 5)
  /\ (finite (f64_lit 2.5) /\ bpow radix2 (-1000) <= Rabs (val (f64_lit 2.5)) <= 26)
  /\ (finite (f64_lit (-2.5)) /\ - 26.6 <= val (f64_lit (-2.5)) <= - (1 / 8)).
Proof. exact ex_faddeeva_axes. Qed.
