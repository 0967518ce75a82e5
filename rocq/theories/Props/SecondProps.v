(** * Accuracy of the Bessel functions of the second kind near the origin *)

From Coq Require Import ZArith Reals Bool.
From Flocq Require Import Core IEEE754.BinarySingleNaN IEEE754.Binary IEEE754.Bits.
From Verif.Model Require Import Base Arith Bessel.
From Verif.Float Require Import Bits64 Ieee Platforms.
From Verif.Spec Require Import F64Spec Outcome BesselSpec Bessel2Spec.
From Verif.Proofs Require Import SecondThms.
Open Scope R_scope.

(** C86: every order n below 2^32, by induction on the recurrence *)
Theorem C86_Kn_accurate : forall (P : platform) (n : nat) (x : f64) (v : R), accurate_ln (p_ln P) -> (Z.of_nat n < 2 ^ 32)%Z -> finite x -> 0 < Binary.B2R x <= 1 ->
  is_K n (Binary.B2R x) v -> v <= bpow radix2 1020 ->
  let r := @Kn (ieee P) (Z.of_nat n) x in finite r /\ Rabs (Binary.B2R r - v) <= (42 / 10 ^ 15 + INR n / 10 ^ 15) * v.
Proof. exact Kn_acc. Qed.
Print Assumptions C86_Kn_accurate.

Theorem C86_K0_accurate : forall (P : platform) (x : f64) (v : R), accurate_ln (p_ln P) -> finite x -> 0 < Binary.B2R x <= 1 -> is_K 0 (Binary.B2R x) v ->
  let r := @Kn (ieee P) 0 x in finite r /\ Rabs (Binary.B2R r - v) <= 12 / 10 ^ 15 * v.
Proof. exact K0_acc. Qed.
Print Assumptions C86_K0_accurate.

(** C87 *)
Theorem C87_Y0_accurate : forall (P : platform) (x : f64) (v : R), accurate_ln (p_ln P) -> finite x -> 0 < Binary.B2R x < 8 -> is_Y 0 (Binary.B2R x) v ->
  let r := @Yn (ieee P) 0 x in finite r /\ Rabs (Binary.B2R r - v) <= 1 / 10 ^ 13 + 3 / 10 ^ 14 * Rabs (Rpower.ln (Binary.B2R x)).
Proof. exact Y0_acc. Qed.
Print Assumptions C87_Y0_accurate.

(** C88 *)
Theorem C88_Y1_accurate : forall (P : platform) (x : f64) (v : R), accurate_ln (p_ln P) -> finite x -> bpow radix2 (-1022) <= Binary.B2R x < 8 -> is_Y 1 (Binary.B2R x) v ->
  let r := @Yn (ieee P) 1 x in finite r /\
  Rabs (Binary.B2R r - v) <= 2 / 10 ^ 14 * (Binary.B2R x * (1 + Rabs (Rpower.ln (Binary.B2R x)))) + 1 / 10 ^ 15 / Binary.B2R x.
Proof. exact Y1_acc. Qed.
Print Assumptions C88_Y1_accurate.

(** an argument meeting the hypotheses of C86 to C88; the series have sums *)
Example C86_C88_example : accurate_ln (p_ln (ideal true false)) /\ (finite (f64_lit 0.5) /\ Binary.B2R (f64_lit 0.5) = 0.5) /\ bpow radix2 (-1022) <= 0.5 /\
  (exists v, is_K 1 0.5 v /\ v <= bpow radix2 1020) /\ forall n, (exists v, is_K n 0.5 v) /\ (exists v, is_Y n 0.5 v).
Proof. exact ex_second. Qed.
