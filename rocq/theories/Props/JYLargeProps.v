(** * Jn and Yn of order 0 and 1 from 8 on *)

From Coq Require Import ZArith Reals Bool.
From Flocq Require Import Core IEEE754.BinarySingleNaN IEEE754.Binary IEEE754.Bits.
From Verif.Model Require Import Base Arith Bessel.
From Verif.Float Require Import Bits64 Ieee Platforms.
From Verif.Spec Require Import F64Spec Outcome BesselSpec Bessel2Spec TrigSpec.
From Verif.Proofs Require Import JYLargeThms.
Open Scope R_scope.
Local Notation sqrt := R_sqrt.sqrt.
Local Notation PI := Rtrigo1.PI.

(** C100: the amplitude is sqrt (2 / (pi |x|)) = 0.797... / sqrt |x| *)
Theorem C100_J01_accurate : forall (P : platform) (n : nat) (x : f64) (v : R), accurate_cos (p_cos P) -> accurate_sin (p_sin P) -> (n <= 1)%nat -> finite x -> 8 <= Rabs (Binary.B2R x) <= bpow radix2 990 -> is_J n (Binary.B2R x) v ->
  exists r, @Jn (ieee P) (Z.of_nat n) x = Ok r /\ finite r /\ Rabs (Binary.B2R r - v) <= (14 / 10 ^ 14 + Rabs (Binary.B2R x) / 2 ^ 53) / sqrt (Rabs (Binary.B2R x)).
Proof. exact Jn_large. Qed.
Print Assumptions C100_J01_accurate.

(** C101 *)
Theorem C101_Y01_accurate : forall (P : platform) (n : nat) (x : f64) (v : R), accurate_cos (p_cos P) -> accurate_sin (p_sin P) -> (n <= 1)%nat -> finite x -> 8 <= Binary.B2R x <= bpow radix2 990 -> is_Y n (Binary.B2R x) v ->
  let r := @Yn (ieee P) (Z.of_nat n) x in finite r /\ Rabs (Binary.B2R r - v) <= (14 / 10 ^ 14 + Binary.B2R x / 2 ^ 53) / sqrt (Binary.B2R x).
Proof. exact Yn_large. Qed.
Print Assumptions C101_Y01_accurate.

Example C100_example : accurate_cos (p_cos (ideal true false)) /\ accurate_sin (p_sin (ideal true false)) /\ (finite (f64_lit 100.0) /\ Binary.B2R (f64_lit 100.0) = 100) /\ 8 <= 100 <= bpow radix2 51 /\ forall n, (n <= 1)%nat -> exists vj vy, is_J n 100 vj /\ is_Y n 100 vy.
Proof. exact ex_JY_large. Qed.

(** C102 is false: from 2^56 on, Jn or Yn is off by more than half the
    amplitude, for every x and however accurate cos and sin are *)
Theorem C102_phase_lost : forall (P : platform) (n : nat) (x : f64) (vj vy : R), accurate_cos (p_cos P) -> accurate_sin (p_sin P) -> (n <= 1)%nat -> finite x -> bpow radix2 56 <= Binary.B2R x <= bpow radix2 990 ->
  is_J n (Binary.B2R x) vj -> is_Y n (Binary.B2R x) vy ->
  let amplitude := sqrt (2 / (PI * Binary.B2R x)) in
  exists rj, @Jn (ieee P) (Z.of_nat n) x = Ok rj /\ (1 / 2 * amplitude < Rabs (Binary.B2R rj - vj) \/ 1 / 2 * amplitude < Rabs (Binary.B2R (@Yn (ieee P) (Z.of_nat n) x) - vy)).
Proof. exact phase_lost. Qed.
Print Assumptions C102_phase_lost.

Theorem C102_refuted : exists (P : platform) (x : f64), accurate_cos (p_cos P) /\ accurate_sin (p_sin P) /\ finite x /\ 8 <= Binary.B2R x <= bpow radix2 990 /\
  forall n, (n <= 1)%nat -> exists rj vj vy, @Jn (ieee P) (Z.of_nat n) x = Ok rj /\ is_J n (Binary.B2R x) vj /\ is_Y n (Binary.B2R x) vy /\
    (1 / 2 * sqrt (2 / (PI * Binary.B2R x)) < Rabs (Binary.B2R rj - vj) \/ 1 / 2 * sqrt (2 / (PI * Binary.B2R x)) < Rabs (Binary.B2R (@Yn (ieee P) (Z.of_nat n) x) - vy)).
Proof. exact phase_refuted. Qed.
Print Assumptions C102_refuted.

(** C102 on [8, 2^51]; missing: beyond, where it is false *)
Theorem C102_phase_kept_partial : forall (P : platform) (n : nat) (x : f64) (vj vy : R), accurate_cos (p_cos P) -> accurate_sin (p_sin P) -> (n <= 1)%nat -> finite x -> 8 <= Binary.B2R x <= bpow radix2 51 ->
  is_J n (Binary.B2R x) vj -> is_Y n (Binary.B2R x) vy ->
  exists rj, @Jn (ieee P) (Z.of_nat n) x = Ok rj /\ Rabs (Binary.B2R rj - vj) <= 1 / 2 * sqrt (2 / (PI * Binary.B2R x)) /\ Rabs (Binary.B2R (@Yn (ieee P) (Z.of_nat n) x) - vy) <= 1 / 2 * sqrt (2 / (PI * Binary.B2R x)).
Proof. exact phase_kept. Qed.
Print Assumptions C102_phase_kept_partial.
