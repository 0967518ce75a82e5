(** * Accuracy of the modified Bessel functions of the second kind beyond 1 *)

From Coq Require Import ZArith Reals Bool.
From Flocq Require Import Core IEEE754.BinarySingleNaN IEEE754.Binary IEEE754.Bits.
From Verif.Model Require Import Base Arith Bessel.
From Verif.Float Require Import Bits64 Ieee Platforms.
From Verif.Spec Require Import F64Spec Outcome BesselSpec Bessel2Spec LibmSpec.
From Verif.Proofs Require Import KLargeThms.
Open Scope R_scope.

(** C97: with C86 every argument up to 690; beyond, K_n leaves the range of
    normal numbers at e^-708 and the accuracy of exp is assumed down to -700 only *)
Theorem C97_Kn_accurate : forall (P : platform) (n : nat) (x : f64) (v : R), accurate_exp (p_exp P) -> (Z.of_nat n < 2 ^ 32)%Z -> finite x -> 1 < Binary.B2R x <= 690 ->
  is_K n (Binary.B2R x) v -> v <= bpow radix2 1010 ->
  let r := @Kn (ieee P) (Z.of_nat n) x in finite r /\ Rabs (Binary.B2R r - v) <= (15 / 10 ^ 15 + INR n / 10 ^ 15) * v.
Proof. exact Kn_large_acc. Qed.
Print Assumptions C97_Kn_accurate.

(** an argument and an order meeting the hypotheses *)
Example C97_example : accurate_exp (p_exp (ideal true false)) /\ (finite (f64_lit 600.0) /\ Binary.B2R (f64_lit 600.0) = 600) /\ exists v, is_K 2 600 v /\ 0 < v <= bpow radix2 1010.
Proof. exact ex_K_large. Qed.
