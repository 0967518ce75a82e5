(** * Accuracy of In *)

From Coq Require Import ZArith Reals Bool.
From Flocq Require Import Core IEEE754.BinarySingleNaN IEEE754.Binary IEEE754.Bits.
From Verif.Model Require Import Base Arith Bessel.
From Verif.Float Require Import Bits64 Ieee Platforms.
From Verif.Spec Require Import F64Spec Outcome BesselSpec.
From Verif.Proofs Require Import InThms.
Open Scope R_scope.

(** C94: Miller's downward recurrence, any order *)
Theorem C94_In_accurate : forall (P : platform) (n : nat) (x : f64) (v : R), (2 <= n)%nat -> finite x -> bpow radix2 (-400) <= Rabs (Binary.B2R x) < 15 ->
  is_I n (Binary.B2R x) v -> bpow radix2 (-900) <= Rabs v ->
  exists r, @Bessel.In (ieee P) (Z.of_nat n) x = Ok r /\ finite r /\ Rabs (Binary.B2R r - v) <= (3 / 10 ^ 13 + 3 * INR n / 10 ^ 15) * Rabs v.
Proof. exact In_accurate. Qed.
Print Assumptions C94_In_accurate.

Example C94_example : (finite (f64_lit 2.5) /\ Binary.B2R (f64_lit 2.5) = 2.5) /\ bpow radix2 (-400) <= Rabs 2.5 < 15 /\ exists v, is_I 5 2.5 v /\ bpow radix2 (-900) <= Rabs v.
Proof. exact ex_in_acc. Qed.
