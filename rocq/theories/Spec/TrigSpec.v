(** * Accuracy of the platform's cos and sin *)

From Coq Require Import ZArith Reals.
From Flocq Require Import Core IEEE754.Binary.
From Verif.Float Require Import Bits64.
From Verif.Spec Require Import F64Spec.
Open Scope R_scope.

(** cos and sin with absolute error at most 2^-50 for every finite argument. *)
Definition accurate_cos (f : f64 -> f64) : Prop :=
  forall t, finite t -> finite (f t) /\ Rabs (Binary.B2R (f t) - cos (Binary.B2R t)) <= bpow radix2 (-50).
Definition accurate_sin (f : f64 -> f64) : Prop :=
  forall t, finite t -> finite (f t) /\ Rabs (Binary.B2R (f t) - sin (Binary.B2R t)) <= bpow radix2 (-50).
