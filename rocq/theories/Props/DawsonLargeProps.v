(** * Properties: Dawson's integral at large arguments *)

From Coq Require Import ZArith Reals Bool List.
From Flocq Require Import Core IEEE754.BinarySingleNaN IEEE754.Binary IEEE754.Bits.
From Verif.Model Require Import Base Arith Error Dawson Faddeeva.
From Verif.Float Require Import Bits64 Ieee Platforms.
From Verif.Spec Require Import F64Spec Outcome DawsonSpec LibmSpec.
From Verif.Proofs Require Import ErfcxAcc DawsonLarge FaddeevaLarge FaddeevaAxes.
Open Scope R_scope.

(** C114: the claim "for large x dawson is accurate to a relative error of a
    few units of 1e-7" fails on stretches of every large argument: whenever x
    lies between 0.8 k + 0.3 and 0.8 k + 0.39 for an integer k the result is at
    least ten percent too large *)
Theorem C114_dawson_too_large : forall (P : platform) (D : R -> R) (x : f64) (k : Z),
  accurate_exp (p_exp P) -> dawson_integral D (val x) -> number x -> (200 <= k <= 2 ^ 30)%Z ->
  8 / 10 * IZR k + 3 / 10 <= val x <= 8 / 10 * IZR k + 39 / 100 ->
  0 < D (val x) /\ exists r, @dawson (ieee P) x = Ok r /\ finite r /\ 11 / 10 * D (val x) <= val r.
Proof. exact dawson_too_large. Qed.
Print Assumptions C114_dawson_too_large.

Theorem C114_refuted : forall (P : platform), accurate_exp (p_exp P) ->
  exists x : f64, positive x /\ exists D, dawson_integral D (val x) /\ 0 < D (val x)
  /\ exists r, @dawson (ieee P) x = Ok r /\ finite r /\ 11 / 10 * D (val x) <= val r.
Proof. exact dawson_large_refuted. Qed.
Print Assumptions C114_refuted.

Example C114_example : accurate_exp (p_exp (ideal true false))
  /\ (number (f64_lit 160.375) /\ 8 / 10 * IZR 200 + 3 / 10 <= val (f64_lit 160.375) <= 8 / 10 * IZR 200 + 39 / 100
      /\ exists D, dawson_integral D (val (f64_lit 160.375))).
Proof. exact (conj (ideal_exp_accurate true false) ex_large). Qed.

(** C110, continued: faddeeva on the real axis inherits the error, so its
    imaginary part is at least nine percent too large there *)
Theorem C110_faddeeva_imaginary_part_large : forall (P : platform) (D : R -> R) (x y : f64) (k : Z), accurate_exp (p_exp P) ->
  dawson_integral D (val x) -> number x -> (200 <= k <= 2 ^ 30)%Z ->
  8 / 10 * IZR k + 3 / 10 <= val x <= 8 / 10 * IZR k + 39 / 100 -> finite y -> Binary.B2R y = 0 ->
  0 < 2 / R_sqrt.sqrt Rtrigo1.PI * D (val x)
  /\ exists a b, @faddeeva (ieee P) x y = Ok (a, b) /\ finite b /\ 109 / 100 * (2 / R_sqrt.sqrt Rtrigo1.PI * D (val x)) <= val b.
Proof. exact faddeeva_im_large. Qed.
Print Assumptions C110_faddeeva_imaginary_part_large.

Example C110_large_example : accurate_exp (p_exp (ideal true false)) /\ (finite (f64_lit 0.0) /\ Binary.B2R (f64_lit 0.0) = 0)
  /\ (number (f64_lit 160.375) /\ 8 / 10 * IZR 200 + 3 / 10 <= val (f64_lit 160.375) <= 8 / 10 * IZR 200 + 39 / 100
      /\ exists D, dawson_integral D (val (f64_lit 160.375))).
Proof. exact (conj (ideal_exp_accurate true false) (conj ex_zero ex_large)). Qed.
