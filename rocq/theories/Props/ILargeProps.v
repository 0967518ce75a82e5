(** * In beyond 15 *)

From Coq Require Import ZArith Reals Bool.
From Flocq Require Import Core IEEE754.BinarySingleNaN IEEE754.Binary IEEE754.Bits.
From Verif.Model Require Import Base Arith Bessel.
From Verif.Float Require Import Bits64 Ieee Platforms.
From Verif.Spec Require Import F64Spec Outcome BesselSpec LibmSpec.
From Verif.Proofs Require Import ILargeThms.
Open Scope R_scope.

(** C98: order 0; 709 is the range on which the accuracy of exp is assumed *)
Theorem C98_I0_accurate : forall (P : platform) (x : f64) (v : R), accurate_exp (p_exp P) -> finite x -> 15 <= Rabs (Binary.B2R x) <= 709 -> is_I 0 (Binary.B2R x) v ->
  exists r, @Bessel.In (ieee P) 0 x = Ok r /\ finite r /\ Rabs (Binary.B2R r - v) <= 4 / 10 ^ 14 * v.
Proof. exact In0_large. Qed.
Print Assumptions C98_I0_accurate.

(** C98: order 1, positive arguments *)
Theorem C98_I1_accurate : forall (P : platform) (x : f64) (v : R), accurate_exp (p_exp P) -> finite x -> 15 <= Binary.B2R x <= 709 -> is_I 1 (Binary.B2R x) v ->
  exists r, @Bessel.In (ieee P) 1 x = Ok r /\ finite r /\ Rabs (Binary.B2R r - v) <= 6 / 10 ^ 14 * v.
Proof. exact In1_large. Qed.
Print Assumptions C98_I1_accurate.

Example C98_example : accurate_exp (p_exp (ideal true false)) /\ (finite (f64_lit 700.0) /\ Binary.B2R (f64_lit 700.0) = 700) /\ 15 <= Rabs 700 <= 709 /\ forall n, exists v, is_I n 700 v /\ 0 < v.
Proof. exact ex_I_large. Qed.

(** C99 is false: In(3, 700) is 2.5 percent above every value I_3(700) can have *)
Theorem C99_In_too_large : forall P : platform, accurate_exp (p_exp P) ->
  exists r, @Bessel.In (ieee P) 3 (f64_lit 700.0) = Ok r /\ finite r /\ forall v, is_I 3 700 v -> 1025 / 1000 * v < Binary.B2R r.
Proof. exact In_too_large. Qed.
Print Assumptions C99_In_too_large.

Theorem C99_refuted : exists P n x, accurate_exp (p_exp P) /\ (2 <= n)%nat /\ finite x /\ 15 <= Binary.B2R x <= 709 /\
  forall v, is_I n (Binary.B2R x) v -> exists r, @Bessel.In (ieee P) (Z.of_nat n) x = Ok r /\ finite r /\ 25 / 1000 * v < Rabs (Binary.B2R r - v).
Proof. exact In_large_refuted. Qed.
Print Assumptions C99_refuted.
