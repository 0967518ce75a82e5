(** * Accuracy of the Bessel functions of order 0 and 1 *)

From Coq Require Import ZArith Reals Bool.
From Flocq Require Import Core IEEE754.BinarySingleNaN IEEE754.Binary IEEE754.Bits.
From Verif.Model Require Import Base Arith Bessel.
From Verif.Float Require Import Bits64 Ieee Platforms.
From Verif.Spec Require Import F64Spec Outcome BesselSpec.
From Verif.Proofs Require Import BesselThms.
Open Scope R_scope.

(** C81 *)
Theorem C81_I0_accurate : forall (P : platform) (x : f64) (v : R), finite x -> Rabs (Binary.B2R x) < 15 -> is_I 0 (Binary.B2R x) v ->
  exists r, @Bessel.In (ieee P) 0 x = Ok r /\ finite r /\ Rabs (Binary.B2R r - v) <= 3 / 10 ^ 14 * v.
Proof. exact In0_acc. Qed.
Print Assumptions C81_I0_accurate.

(** C82 *)
Theorem C82_I1_accurate : forall (P : platform) (x : f64) (v : R), finite x -> Rabs (Binary.B2R x) < 15 -> is_I 1 (Binary.B2R x) v ->
  exists r, @Bessel.In (ieee P) 1 x = Ok r /\ finite r /\ Rabs (Binary.B2R r - v) <= 3 / 10 ^ 14 * Rabs v + bpow radix2 (-996).
Proof. exact In1_acc. Qed.
Print Assumptions C82_I1_accurate.

(** C83 *)
Theorem C83_J0_accurate : forall (P : platform) (x : f64) (v : R), finite x -> Rabs (Binary.B2R x) < 8 -> is_J 0 (Binary.B2R x) v ->
  exists r, @Jn (ieee P) 0 x = Ok r /\ finite r /\ Rabs (Binary.B2R r - v) <= 3 / 10 ^ 14.
Proof. exact Jn0_acc. Qed.
Print Assumptions C83_J0_accurate.

(** C84 *)
Theorem C84_J1_accurate : forall (P : platform) (x : f64) (v : R), finite x -> Rabs (Binary.B2R x) < 8 -> is_J 1 (Binary.B2R x) v ->
  exists r, @Jn (ieee P) 1 x = Ok r /\ finite r /\ Rabs (Binary.B2R r - v) <= 1 / 10 ^ 14 * Rabs (Binary.B2R x) + bpow radix2 (-987).
Proof. exact Jn1_acc. Qed.
Print Assumptions C84_J1_accurate.

(** an argument meeting the hypotheses of C81 to C84; the series have sums *)
Example C81_C84_example : (finite (f64_lit 2.5) /\ Binary.B2R (f64_lit 2.5) = 2.5) /\ Rabs 2.5 < 8 < 15 /\
  forall n, (exists v, is_I n 2.5 v) /\ (exists v, is_J n 2.5 v).
Proof. exact ex_bessel. Qed.
