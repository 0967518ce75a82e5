(** * Accuracy of the platform's libm *)

From Coq Require Import ZArith Reals.
From Flocq Require Import Core IEEE754.Binary.
From Verif.Float Require Import Bits64.
From Verif.Spec Require Import F64Spec.
Open Scope R_scope.

(** exp with relative error at most 2^-50 (about four units in the last place)
    where neither the argument nor the result is extreme. *)
Definition accurate_exp (f : f64 -> f64) : Prop :=
  forall t, number t -> -700 <= val t <= 709 ->
  number (f t) /\ Rabs (val (f t) - exp (val t)) <= bpow radix2 (-50) * exp (val t).

(** ln of plus infinity is plus infinity, as in every libm. *)
Definition ln_of_infinity (f : f64 -> f64) : Prop :=
  f (Binary.B754_infinity false) = Binary.B754_infinity false.
