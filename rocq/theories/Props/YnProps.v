(** * Accuracy of the Bessel function Y_n near the origin, for every order *)

From Coq Require Import ZArith Reals Bool.
From Flocq Require Import Core IEEE754.BinarySingleNaN IEEE754.Binary IEEE754.Bits.
From Verif.Model Require Import Base Arith Bessel.
From Verif.Float Require Import Bits64 Ieee Platforms.
From Verif.Spec Require Import F64Spec Outcome BesselSpec Bessel2Spec.
From Verif.Proofs Require Import YnThms.
Open Scope R_scope.

(** C89: every order 1 <= n < 2^32, by induction on the recurrence *)
Theorem C89_Yn_accurate : forall (P : platform) (n : nat) (x : f64) (v : R), accurate_ln (p_ln P) -> (1 <= n)%nat -> (Z.of_nat n < 2 ^ 32)%Z -> finite x -> 0 < Binary.B2R x <= 1 ->
  is_Y n (Binary.B2R x) v -> Rabs v <= bpow radix2 1020 ->
  let r := @Yn (ieee P) (Z.of_nat n) x in finite r /\ Rabs (Binary.B2R r - v) <= (1 / 10 ^ 12 + 2 * INR n / 10 ^ 15) * Rabs v.
Proof. exact Yn_acc. Qed.
Print Assumptions C89_Yn_accurate.

(** Y_3(1/2) meets the hypotheses *)
Example C89_example : accurate_ln (p_ln (ideal true false)) /\ (finite (f64_lit 0.5) /\ Binary.B2R (f64_lit 0.5) = 0.5) /\ exists v, is_Y 3 0.5 v /\ Rabs v <= bpow radix2 1020.
Proof. exact ex_yn. Qed.
