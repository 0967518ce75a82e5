(** * invgammp against the function it inverts *)

From Coq Require Import ZArith Reals Bool.
From Flocq Require Import Core IEEE754.BinarySingleNaN IEEE754.Binary IEEE754.Bits.
From Verif.Model Require Import Base Arith Gamma.
From Verif.Float Require Import Bits64 Ieee Platforms.
From Verif.Spec Require Import F64Spec Outcome LibmSpec GammaSpec IncGammaSpec PowSpec.
From Verif.Proofs Require Import InvGammaTiny.
Open Scope R_scope.

(** C85.  The claim, P(a, invgammp(p, a)) within 1e-6 p of p, is false at
    a = 1 for every probability between 2^-900 and 2^-54. *)
Theorem C85_invgammp_too_large : forall G : R -> R, gamma_function G ->
  forall (P : platform) (p : f64) (q : R -> R), accurate_ln (p_ln P) -> accurate_exp (p_exp P) -> powf_one_accurate (p_powf P) -> finite p ->
  let u := Binary.B2R p in bpow radix2 (-900) <= u <= / 2 ^ 54 -> lower_inc_gamma G 1 q ->
  exists r, @invgammp (ieee P) p (f64_lit 1.0) = Ok r /\ finite r /\ 2.5 * u <= Binary.B2R r <= 2.7 * u /\ 2 * u <= q (Binary.B2R r).
Proof. exact invgammp_tiny. Qed.
Print Assumptions C85_invgammp_too_large.

Example C85_example : (exists G q, gamma_function G /\ lower_inc_gamma G 1 q) /\ accurate_ln (p_ln (ideal true false)) /\ accurate_exp (p_exp (ideal true false)) /\
  powf_one_accurate (p_powf (ideal true false)) /\
  (finite (f64_lit 8.67361737988403547205962240695953369140625e-19) /\ Binary.B2R (f64_lit 8.67361737988403547205962240695953369140625e-19) = / 2 ^ 60) /\ bpow radix2 (-900) <= / 2 ^ 60 <= / 2 ^ 54.
Proof. exact ex_invgammp_tiny. Qed.

Theorem C85_refuted : exists p a : f64, finite p /\ 0 < Binary.B2R p < 1 /\ finite a /\ Binary.B2R a = 1 /\
  forall (P : platform) (G q : R -> R), accurate_ln (p_ln P) -> accurate_exp (p_exp P) -> powf_one_accurate (p_powf P) ->
  gamma_function G -> lower_inc_gamma G 1 q ->
  exists r, @invgammp (ieee P) p a = Ok r /\ finite r /\ 2 * Binary.B2R p <= q (Binary.B2R r).
Proof. exact invgammp_inaccurate. Qed.
Print Assumptions C85_refuted.
