(** * Accuracy of the regularized incomplete beta function away from x = 1 *)

From Coq Require Import ZArith Reals Bool.
From Flocq Require Import Core IEEE754.BinarySingleNaN IEEE754.Binary IEEE754.Bits.
From Verif.Model Require Import Base Arith Beta.
From Verif.Float Require Import Bits64 Ieee Platforms.
From Verif.Spec Require Import F64Spec Outcome GammaSpec LibmSpec IncBetaSpec.
From Verif.Proofs Require Import BetaiAcc.
Open Scope R_scope.

(** For 1/2 <= a <= 1000, 2^-16 <= b <= 1/2 and 2^-60 <= x <= 9/10 the code
    returns I_x(a, b) with relative error at most 5e-9, unless that value is
    below 2^-990.  With b = 1/2 these are the tail probabilities of Student's t. *)
Theorem C96_betai_accurate : forall G : R -> R, gamma_function G -> forall (P : platform) (a b x : f64) (I : R -> R), accurate_ln (p_ln P) -> accurate_exp (p_exp P) ->
  finite a -> finite b -> finite x -> 1 / 2 <= Binary.B2R a <= 1000 -> / 2 ^ 16 <= Binary.B2R b <= 1 / 2 -> / 2 ^ 60 <= Binary.B2R x <= 9 / 10 ->
  reg_inc_beta G (Binary.B2R a) (Binary.B2R b) I -> bpow radix2 (-990) <= I (Binary.B2R x) ->
  exists r, @betai (ieee P) a b x = Ok r /\ finite r /\ Rabs (Binary.B2R r - I (Binary.B2R x)) <= 5 / 10 ^ 9 * I (Binary.B2R x).
Proof. exact betai_accurate. Qed.
Print Assumptions C96_betai_accurate.

Example C96_example : accurate_ln (p_ln (ideal true false)) /\ accurate_exp (p_exp (ideal true false)) /\
  exists G I (a b x : f64), gamma_function G /\ finite a /\ finite b /\ finite x /\ 1 / 2 <= Binary.B2R a <= 1000 /\ / 2 ^ 16 <= Binary.B2R b <= 1 / 2 /\ / 2 ^ 60 <= Binary.B2R x <= 9 / 10 /\
    reg_inc_beta G (Binary.B2R a) (Binary.B2R b) I /\ bpow radix2 (-990) <= I (Binary.B2R x).
Proof. exact ex_betai_acc. Qed.
