(** * Jn and Yn at every order from 2 up to the argument *)

From Coq Require Import ZArith Reals Bool.
From Flocq Require Import Core IEEE754.BinarySingleNaN IEEE754.Binary IEEE754.Bits.
From Verif.Model Require Import Base Arith Bessel.
From Verif.Float Require Import Bits64 Ieee Platforms.
From Verif.Spec Require Import F64Spec Outcome BesselSpec Bessel2Spec LibmSpec TrigSpec.
From Verif.Proofs Require Import JYUpThms.
Open Scope R_scope.
Local Notation sqrt := R_sqrt.sqrt.

(** C103: the error does not grow with the number of steps beyond the
    rounding errors themselves *)
Theorem C103_Jn_accurate : forall (P : platform) (n : nat) (x : f64) (v : R), accurate_cos (p_cos P) -> accurate_sin (p_sin P) -> (2 <= n)%nat -> (Z.of_nat n < 2 ^ 32)%Z -> finite x -> 8 <= Rabs (Binary.B2R x) <= 2 ^ 45 -> INR n < Rabs (Binary.B2R x) -> is_J n (Binary.B2R x) v ->
  exists r, @Jn (ieee P) (Z.of_nat n) x = Ok r /\ finite r /\ Rabs (Binary.B2R r - v) <= (21 / 10 ^ 14 + (3 / 2 * Rabs (Binary.B2R x) + 44 * INR n) / 2 ^ 53) / sqrt (Rabs (Binary.B2R x) - INR n + 1).
Proof. exact Jn_above_8. Qed.
Print Assumptions C103_Jn_accurate.

Theorem C103_Jn_accurate_below_8 : forall (P : platform) (n : nat) (x : f64) (v : R), (2 <= n)%nat -> finite x -> INR n < Rabs (Binary.B2R x) < 8 -> is_J n (Binary.B2R x) v ->
  exists r, @Jn (ieee P) (Z.of_nat n) x = Ok r /\ finite r /\ Rabs (Binary.B2R r - v) <= 6 / 10 ^ 13.
Proof. exact Jn_below_8. Qed.
Print Assumptions C103_Jn_accurate_below_8.

(** C104 *)
Theorem C104_Yn_accurate : forall (P : platform) (n : nat) (x : f64) (v : R), accurate_cos (p_cos P) -> accurate_sin (p_sin P) -> (2 <= n)%nat -> (Z.of_nat n < 2 ^ 32)%Z -> finite x -> 8 <= Binary.B2R x <= 2 ^ 45 -> INR n < Binary.B2R x -> is_Y n (Binary.B2R x) v ->
  let r := @Yn (ieee P) (Z.of_nat n) x in finite r /\ Rabs (Binary.B2R r - v) <= (21 / 10 ^ 14 + (3 / 2 * Binary.B2R x + 44 * INR n) / 2 ^ 53) / sqrt (Binary.B2R x - INR n + 1).
Proof. exact Yn_above_8. Qed.
Print Assumptions C104_Yn_accurate.

Theorem C104_Yn_accurate_below_8 : forall (P : platform) (n : nat) (x : f64) (v : R), accurate_ln (p_ln P) -> (2 <= n)%nat -> finite x -> INR n < Binary.B2R x < 8 -> is_Y n (Binary.B2R x) v ->
  let r := @Yn (ieee P) (Z.of_nat n) x in finite r /\ Rabs (Binary.B2R r - v) <= 24 / 10 ^ 13.
Proof. exact Yn_below_8. Qed.
Print Assumptions C104_Yn_accurate_below_8.

(** order 99 at 100 meets the hypotheses *)
Example C103_example : accurate_cos (p_cos (ideal true false)) /\ accurate_sin (p_sin (ideal true false)) /\ (finite (f64_lit 100.0) /\ Binary.B2R (f64_lit 100.0) = 100) /\ 8 <= 100 <= 2 ^ 45 /\ INR 99 < 100 /\ exists vj vy, is_J 99 100 vj /\ is_Y 99 100 vy.
Proof. exact ex_up. Qed.
