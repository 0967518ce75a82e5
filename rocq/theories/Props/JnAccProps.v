(** * Accuracy of Jn *)

From Coq Require Import ZArith Reals Bool.
From Flocq Require Import Core IEEE754.BinarySingleNaN IEEE754.Binary IEEE754.Bits.
From Verif.Model Require Import Base Arith Bessel.
From Verif.Float Require Import Bits64 Ieee Platforms.
From Verif.Spec Require Import F64Spec Outcome BesselSpec.
From Verif.Proofs Require Import JnThms.
Open Scope R_scope.

(** C95: Miller's downward recurrence, any order *)
Theorem C95_Jn_accurate : forall (P : platform) (n : nat) (x : f64) (v : R), (2 <= n)%nat -> finite x -> bpow radix2 (-400) <= Rabs (Binary.B2R x) <= 1 ->
  is_J n (Binary.B2R x) v -> bpow radix2 (-900) <= Rabs v ->
  exists r, @Jn (ieee P) (Z.of_nat n) x = Ok r /\ finite r /\ Rabs (Binary.B2R r - v) <= (5 / 10 ^ 13 + INR n / 10 ^ 14) * Rabs v.
Proof. exact Jn_accurate. Qed.
Print Assumptions C95_Jn_accurate.

Example C95_example : (finite (f64_lit 0.5) /\ Binary.B2R (f64_lit 0.5) = 0.5) /\ bpow radix2 (-400) <= Rabs 0.5 <= 1 /\ exists v, is_J 5 0.5 v /\ bpow radix2 (-900) <= Rabs v.
Proof. exact ex_jn_acc. Qed.
