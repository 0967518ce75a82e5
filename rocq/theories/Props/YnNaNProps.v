(** * Yn and NaN *)

From Coq Require Import ZArith Reals Bool.
From Flocq Require Import Core IEEE754.BinarySingleNaN IEEE754.Binary IEEE754.Bits.
From Verif.Model Require Import Base Arith Bessel.
From Verif.Float Require Import Bits64 Ieee Platforms.
From Verif.Spec Require Import F64Spec Outcome BesselSpec Bessel2Spec.
From Verif.Proofs Require Import YnNaN.
Open Scope R_scope.

(** C93 is false: Yn is NaN for every order from 256 on and every normal x in (0, 1] *)
Theorem C93_Yn_nan : forall (P : platform) (n : Z) (x : f64), accurate_ln (p_ln P) -> (256 <= n < 2 ^ 32)%Z -> finite x -> bpow radix2 (-1022) <= Binary.B2R x <= 1 -> is_NaN (@Yn (ieee P) n x).
Proof. exact Yn_nan. Qed.
Print Assumptions C93_Yn_nan.

Theorem C93_refuted : exists P n x, accurate_ln (p_ln P) /\ (1 <= n < 2 ^ 32)%Z /\ finite x /\ 0 < Binary.B2R x /\ is_NaN (@Yn (ieee P) n x).
Proof. exact Yn_nan_refuted. Qed.
Print Assumptions C93_refuted.

(** partial: finite as long as Y_n(x) itself is below 2^1020 in magnitude and x <= 1 *)
Theorem C93_Yn_number_partial : forall (P : platform) (n : nat) (x : f64) (v : R), accurate_ln (p_ln P) -> (1 <= n)%nat -> (Z.of_nat n < 2 ^ 32)%Z -> finite x -> 0 < Binary.B2R x <= 1 ->
  is_Y n (Binary.B2R x) v -> Rabs v <= bpow radix2 1020 -> finite (@Yn (ieee P) (Z.of_nat n) x).
Proof. exact Yn_number. Qed.
Print Assumptions C93_Yn_number_partial.

Example C93_example : finite (f64_lit 0.5) /\ bpow radix2 (-1022) <= Binary.B2R (f64_lit 0.5) <= 1.
Proof. exact ex_yn_nan. Qed.
