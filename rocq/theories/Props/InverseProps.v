(** * Accuracy of the inverse error functions *)

From Coq Require Import ZArith Reals Bool.
From Flocq Require Import Core IEEE754.BinarySingleNaN IEEE754.Binary IEEE754.Bits.
From Verif.Model Require Import Base Arith Error.
From Verif.Float Require Import Bits64 Ieee Platforms.
From Verif.Spec Require Import F64Spec Outcome ErfSpec LibmSpec.
From Verif.Proofs Require Import InvMain.
Open Scope R_scope.

(** C105: the result is close to the argument at which erfc has the value p *)
Theorem C105_inverfc_accurate : forall (P : platform) (p : f64) (E : R -> R) (z : R),
  accurate_exp (p_exp P) -> accurate_ln (p_ln P) -> erfc_function E -> finite p ->
  bpow radix2 (-930) <= val p < 2 -> E z = val p ->
  exists r, @inverfc (ieee P) p = Ok r /\ finite r /\ Rabs (val r - z) <= / 2 ^ 37.
Proof. exact inverfc_acc_user. Qed.
Print Assumptions C105_inverfc_accurate.

Theorem C105_inverfc_accurate_above : forall (P : platform) (p : f64) (E : R -> R) (z : R),
  accurate_exp (p_exp P) -> accurate_ln (p_ln P) -> erfc_function E -> finite p ->
  / 2 ^ 100 <= val p < 2 -> E z = val p ->
  exists r, @inverfc (ieee P) p = Ok r /\ finite r /\ Rabs (val r - z) <= / 2 ^ 39.
Proof. exact inverfc_acc39_user. Qed.
Print Assumptions C105_inverfc_accurate_above.

(** C106: the same for inverf; the last term is the loss of [1 - p] *)
Theorem C106_inverf_accurate_partial : forall (P : platform) (p : f64) (F : R -> R) (z : R),
  accurate_exp (p_exp P) -> accurate_ln (p_ln P) -> erf_function F -> finite p ->
  -1 + / 2 ^ 50 <= val p < 1 -> F z = val p ->
  exists r, @inverf (ieee P) p = Ok r /\ finite r /\ Rabs (val r - z) <= / 2 ^ 39 + / 2 ^ 48 / (1 + val p).
Proof. exact inverf_acc_user. Qed.
Print Assumptions C106_inverf_accurate_partial.

(** at one argument next to -1 the answer is -100; at the opposite argument it is right *)
Theorem C106_refuted : exists p : f64, finite p /\ -1 < val p < 0 /\
  forall (P : platform) (F : R -> R) (z : R), accurate_exp (p_exp P) -> accurate_ln (p_ln P) -> erf_function F -> F z = val p ->
  -7 <= z <= 0 /\ (exists r, @inverf (ieee P) p = Ok r /\ finite r /\ val r = -100)
  /\ (exists r, @inverf (ieee P) (f64_neg p) = Ok r /\ finite r /\ Rabs (val r - (- z)) <= / 2 ^ 38).
Proof. exact inverf_lost. Qed.
Print Assumptions C106_refuted.

Example C105_C106_example : accurate_exp (p_exp (ideal true false)) /\ accurate_ln (p_ln (ideal true false))
  /\ (exists E z, erfc_function E /\ finite (f64_lit 0.25) /\ / 2 ^ 100 <= val (f64_lit 0.25) < 2 /\ bpow radix2 (-930) <= val (f64_lit 0.25) /\ E z = val (f64_lit 0.25))
  /\ (exists F z, erf_function F /\ finite (f64_lit (-0.75)) /\ -1 + / 2 ^ 50 <= val (f64_lit (-0.75)) < 1 /\ F z = val (f64_lit (-0.75))).
Proof. exact ex_inv. Qed.
