(** * What is asked of the platform's powf *)

From Coq Require Import ZArith Reals.
From Flocq Require Import Core IEEE754.Binary.
From Verif.Float Require Import Bits64.
From Verif.Spec Require Import F64Spec.
Open Scope R_scope.

(** powf with exponent 1 gives its base back up to a relative error of 2^-40. *)
Definition powf_one_accurate (f : f64 -> f64 -> f64) : Prop :=
  forall y e, finite y -> number e -> bpow radix2 (-1000) <= val y <= 1 -> val e = 1 ->
  finite (f y e) /\ Rabs (val (f y e) - val y) <= bpow radix2 (-40) * val y.
