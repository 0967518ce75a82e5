(** * Going through an inverse error function and back *)

From Coq Require Import ZArith Reals Bool.
From Flocq Require Import Core IEEE754.BinarySingleNaN IEEE754.Binary IEEE754.Bits.
From Verif.Model Require Import Base Arith Error.
From Verif.Float Require Import Bits64 Ieee Platforms.
From Verif.Spec Require Import F64Spec Outcome LibmSpec.
From Verif.Proofs Require Import RoundTrip.
Open Scope R_scope.

(** C107: erfc of inverfc gives the argument back, in relative terms *)
Theorem C107_erfc_inverfc : forall (P : platform) (p : f64), accurate_exp (p_exp P) -> accurate_ln (p_ln P) ->
  finite p -> bpow radix2 (-930) <= val p < 2 ->
  exists r s, @inverfc (ieee P) p = Ok r /\ @erfc (ieee P) r = Ok s /\ finite s /\ Rabs (val s - val p) <= / 2 ^ 31 * val p.
Proof. exact erfc_inverfc_user. Qed.
Print Assumptions C107_erfc_inverfc.

Theorem C107_erfc_inverfc_above : forall (P : platform) (p : f64), accurate_exp (p_exp P) -> accurate_ln (p_ln P) ->
  finite p -> / 2 ^ 100 <= val p < 2 ->
  exists r s, @inverfc (ieee P) p = Ok r /\ @erfc (ieee P) r = Ok s /\ finite s /\ Rabs (val s - val p) <= / 2 ^ 34 * val p.
Proof. exact erfc_inverfc_near_user. Qed.
Print Assumptions C107_erfc_inverfc_above.

(** C108: inverfc of erfc gives the argument back, in absolute terms *)
Theorem C108_inverfc_erfc : forall (P : platform) (x : f64), accurate_exp (p_exp P) -> accurate_ln (p_ln P) ->
  finite x -> -2 <= val x <= 25 ->
  exists s r, @erfc (ieee P) x = Ok s /\ @inverfc (ieee P) s = Ok r /\ finite r /\ Rabs (val r - val x) <= / 2 ^ 30
  /\ (0 <= val x -> Rabs (val r - val x) <= / 2 ^ 36) /\ (0 <= val x <= 8 -> Rabs (val r - val x) <= / 2 ^ 38).
Proof. exact inverfc_erfc_user. Qed.
Print Assumptions C108_inverfc_erfc.

(** C109: erf of inverf gives the argument back, in absolute terms *)
Theorem C109_erf_inverf : forall (P : platform) (p : f64), accurate_exp (p_exp P) -> accurate_ln (p_ln P) ->
  finite p -> -1 + / 2 ^ 51 <= val p < 1 ->
  exists r s, @inverf (ieee P) p = Ok r /\ @erf (ieee P) r = Ok s /\ finite s /\ Rabs (val s - val p) <= / 2 ^ 38.
Proof. exact erf_inverf_user. Qed.
Print Assumptions C109_erf_inverf.

Example C107_C108_C109_example : accurate_exp (p_exp (ideal true false)) /\ accurate_ln (p_ln (ideal true false))
  /\ (finite (f64_lit 0.25) /\ / 2 ^ 100 <= val (f64_lit 0.25) < 2 /\ bpow radix2 (-930) <= val (f64_lit 0.25))
  /\ (finite (f64_lit 2.5) /\ 0 <= val (f64_lit 2.5) <= 8)
  /\ (finite (f64_lit (-0.75)) /\ -2 <= val (f64_lit (-0.75)) <= 25 /\ -1 + / 2 ^ 51 <= val (f64_lit (-0.75)) < 1).
Proof. exact ex_trip. Qed.
