(** * Accuracy of the regularized incomplete beta function *)

From Coq Require Import ZArith Reals Bool.
From Flocq Require Import Core IEEE754.BinarySingleNaN IEEE754.Binary IEEE754.Bits.
From Verif.Model Require Import Base Arith Beta.
From Verif.Float Require Import Bits64 Ieee Platforms.
From Verif.Spec Require Import F64Spec Outcome GammaSpec LibmSpec IncBetaSpec.
From Verif.Proofs Require Import BetaiBad BetaiRange.
Open Scope R_scope.

(** C90 as stated is false: for a = 1, b = 1/2 and every f64 x in
    [1 - 2^-40, 1) the regularized incomplete beta function is at least
    1 - 2^-20, and the code returns at most 1/50. *)
Theorem C90_betai_near_one : forall G : R -> R, gamma_function G -> forall I, reg_inc_beta G 1 (1 / 2) I ->
  forall (P : platform) (x : f64), accurate_ln (p_ln P) -> accurate_exp (p_exp P) -> finite x -> 1 - bpow radix2 (-40) <= Binary.B2R x < 1 ->
  1 - bpow radix2 (-20) <= I (Binary.B2R x) /\
  exists r, @betai (ieee P) (f64_lit 1.0) (f64_lit 0.5) x = Ok r /\ finite r /\ Rabs (Binary.B2R r) <= 1 / 50.
Proof. exact betai_near_one. Qed.
Print Assumptions C90_betai_near_one.

Example C90_example : accurate_ln (p_ln (ideal true false)) /\ accurate_exp (p_exp (ideal true false)) /\
  (exists G I, gamma_function G /\ reg_inc_beta G 1 (1 / 2) I) /\ (exists x : f64, finite x /\ 1 - bpow radix2 (-40) <= Binary.B2R x < 1).
Proof. exact ex_betai_near_one. Qed.

Theorem C90_refuted : exists (P : platform) (G I : R -> R) (x r : f64), accurate_ln (p_ln P) /\ accurate_exp (p_exp P) /\
  gamma_function G /\ reg_inc_beta G 1 (1 / 2) I /\ finite x /\ 0 < Binary.B2R x < 1 /\
  @betai (ieee P) (f64_lit 1.0) (f64_lit 0.5) x = Ok r /\ finite r /\ I (Binary.B2R x) - Binary.B2R r >= 9 / 10.
Proof. exact betai_refuted_near_one. Qed.
Print Assumptions C90_refuted.

(** C91 as stated is false: betai(200, 200, 0.36) is above 2 on every platform
    whose exp and ln are accurate. *)
Theorem C91_betai_above_one : forall (P : platform), accurate_ln (p_ln P) -> accurate_exp (p_exp P) ->
  exists r, @betai (ieee P) (f64_lit 200.0) (f64_lit 200.0) (f64_lit 0.36) = Ok r /\ finite r /\ 2 <= Binary.B2R r.
Proof. exact betai_above_one. Qed.
Print Assumptions C91_betai_above_one.

Example C91_example : accurate_ln (p_ln (ideal true false)) /\ accurate_exp (p_exp (ideal true false)).
Proof. exact (conj (proj1 ex_betai_near_one) (proj1 (proj2 ex_betai_near_one))). Qed.

Theorem C91_refuted : exists (P : platform) (a b x r : f64), accurate_ln (p_ln P) /\ accurate_exp (p_exp P) /\ positive a /\ positive b /\ between 0 1 x /\
  @betai (ieee P) a b x = Ok r /\ finite r /\ 2 <= Binary.B2R r.
Proof. exact betai_range_refuted. Qed.
Print Assumptions C91_refuted.

(** C92 as stated is false, by the same arguments: betai(200, 200, 1) = 1 *)
Theorem C92_refuted : exists (P : platform) (a b x y r s : f64), accurate_ln (p_ln P) /\ accurate_exp (p_exp P) /\ positive a /\ positive b /\ between 0 1 x /\ between 0 1 y /\ val x < val y /\
  @betai (ieee P) a b x = Ok r /\ @betai (ieee P) a b y = Ok s /\ finite r /\ finite s /\ Binary.B2R r >= Binary.B2R s + 1.
Proof. exact betai_monotone_refuted. Qed.
Print Assumptions C92_refuted.
