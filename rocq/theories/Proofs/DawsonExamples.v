(** * Arguments meeting the hypotheses of the dawson theorems *)

From Coq Require Import ZArith Reals Bool Lra Lia.
From Flocq Require Import Core IEEE754.BinarySingleNaN IEEE754.Binary IEEE754.Bits.
From Verif.Model Require Import Base Arith.
From Verif.Float Require Import Bits64 Ieee Platforms Exact.
From Verif.Spec Require Import F64Spec Outcome DawsonSpec.
From Verif.Proofs Require Import F64 F64Ops Lits Ext DawsonTaylor DawsonNeg Examples.
Open Scope R_scope.

Lemma ex_sampled : number (f64_lit 2.5) /\ f64_lt (f64_abs (f64_lit 2.5)) (f64_lit 0.2) = false.
Proof. split; [apply pos_2_5|vm_compute; reflexivity]. Qed.

Lemma eighth : fin (f64_lit 0.125) /\ val (f64_lit 0.125) = 1 / 8.
Proof. lit_facts 0.125%dec 1%Z 3%Z HF HV. split; [exact HF|exact HV]. Qed.

Lemma dawson_exists_fifth : exists D, dawson_integral D (1 / 5).
Proof.
  destruct dawson_integral_exists as [D [D0 D1]]. exists D. split; [exact D0|].
  intros t Ht. apply D1. lra.
Qed.

Lemma ex_dawson_small : (exists D, dawson_integral D (1 / 5))
  /\ number (f64_lit 0.125) /\ Rabs (val (f64_lit 0.125)) < 1 / 5.
Proof.
  split; [exact dawson_exists_fifth|]. destruct eighth as [F V]. split; [apply fin_nonnan; exact F|].
  rewrite V, Rabs_pos_eq; lra.
Qed.

Lemma ex_dawson_sign :
  (plausible_exp (p_exp (ideal true false)) /\ exists D, dawson_integral D 1)
  /\ (number (f64_lit 0.5) /\ 0.41 <= val (f64_lit 0.5) <= 0.79)
  /\ (positive (f64_lit 0.125) /\ val (f64_lit 0.125) < 1 / 5).
Proof.
  split; [split; [apply ideal_exp_plausible|exact dawson_integral_exists]|].
  split; [exact half_facts|]. destruct eighth as [F V].
  split; [split; [apply fin_nonnan; exact F|]|]; rewrite V; lra.
Qed.
