(** * Accuracy of the incomplete gamma functions *)

From Coq Require Import ZArith Reals Bool.
From Flocq Require Import Core IEEE754.BinarySingleNaN IEEE754.Binary IEEE754.Bits.
From Verif.Model Require Import Base Arith Gamma.
From Verif.Float Require Import Bits64 Ieee Platforms.
From Verif.Spec Require Import F64Spec Outcome LibmSpec GammaSpec IncGammaSpec.
From Verif.Proofs Require Import GammpAcc GammpAll.
Open Scope R_scope.
Local Notation ln := Rpower.ln.
Local Notation exp := Rtrigo_def.exp.

(** C79.  The full claim, |gammp(a, x) - P(a, x)| <= 3e-9 for all positive a
    and x, is refuted below.  This is its true part for a < 100, every x from
    a 2^-52 on (series, continued fraction and the far region answered by 1),
    and for a up to 1000 where the series is used; missing are
    0.1999 a < x for a >= 100 (quadrature), a > 1000 and a < 2^-16. *)
Theorem C79_gammp_accurate_partial : forall G : R -> R, gamma_function G ->
  forall (P : platform) (a x : f64) (p : R -> R), accurate_ln (p_ln P) -> accurate_exp (p_exp P) -> finite a -> finite x ->
  let u := Binary.B2R a in let v := Binary.B2R x in
  / 2 ^ 16 <= u -> u / 2 ^ 52 <= v -> u < 100 \/ 100 <= u <= 1000 /\ v <= 0.1999 * u -> lower_inc_gamma G u p ->
  exists r, @gammp (ieee P) a x = Ok r /\ finite r /\ Rabs (Binary.B2R r - p v) <= 3 / 10 ^ 9.
Proof. exact gammp_all. Qed.
Print Assumptions C79_gammp_accurate_partial.

(** on the series the error is relative to P(a, x) *)
Theorem C79_gammp_relative : forall G : R -> R, gamma_function G ->
  forall (P : platform) (a x : f64) (p : R -> R), accurate_ln (p_ln P) -> accurate_exp (p_exp P) -> finite a -> finite x ->
  let u := Binary.B2R a in let v := Binary.B2R x in
  / 2 ^ 16 <= u -> u / 2 ^ 52 <= v -> u < 100 /\ v <= u + 0.999 \/ 100 <= u <= 1000 /\ v <= 0.1999 * u ->
  lower_inc_gamma G u p ->
  exists r, @gammp (ieee P) a x = Ok r /\ finite r /\ Rabs (Binary.B2R r - p v) <= / 10 ^ 9 * p v + exp (-680).
Proof. exact gammp_series. Qed.
Print Assumptions C79_gammp_relative.

Example C79_example : (exists G p, gamma_function G /\ lower_inc_gamma G 2.5 p) /\ accurate_ln (p_ln (ideal true false)) /\ accurate_exp (p_exp (ideal true false)) /\
  (finite (f64_lit 2.5) /\ Binary.B2R (f64_lit 2.5) = 2.5) /\ (finite (f64_lit 1.25) /\ Binary.B2R (f64_lit 1.25) = 1.25) /\
  (/ 2 ^ 16 <= 2.5 /\ 2.5 / 2 ^ 52 <= 1.25 /\ 2.5 < 100 /\ 1.25 <= 2.5 + 0.999).
Proof. exact ex_gammp. Qed.

(** where x is below a times 2^-52 the answer is 0, whatever P(a, x) is *)
Theorem C79_gammp_tiny : forall G : R -> R, gamma_function G ->
  forall (P : platform) (a x : f64) (p : R -> R), finite a -> finite x ->
  let u := Binary.B2R a in let v := Binary.B2R x in
  bpow radix2 (-900) <= u <= 1 -> 0 < v < u / 2 ^ 52 -> lower_inc_gamma G u p ->
  @gammp (ieee P) a x = Ok (f64_lit 0.0) /\ @gammq (ieee P) a x = Ok (f64_lit 1.0) /\ exp (u * ln v - v) <= p v.
Proof. exact gammp_tiny. Qed.
Print Assumptions C79_gammp_tiny.

Example C79_example_tiny : (exists G p, gamma_function G /\ lower_inc_gamma G (/ 1024) p) /\
  (finite (f64_lit 0.0009765625) /\ Binary.B2R (f64_lit 0.0009765625) = / 1024) /\ bpow radix2 (-900) <= / 1024 <= 1 /\
  (finite (f64_lit 1e-21) /\ 0 < Binary.B2R (f64_lit 1e-21) < / 1024 / 2 ^ 52).
Proof. exact ex_gammp_tiny. Qed.

Theorem C79_refuted : exists a x : f64, finite a /\ finite x /\ 0 < Binary.B2R a /\ 0 < Binary.B2R x /\
  (forall (G p : R -> R), gamma_function G -> lower_inc_gamma G (Binary.B2R a) p -> 0.9 <= p (Binary.B2R x)) /\
  forall P : platform, @gammp (ieee P) a x = Ok (f64_lit 0.0) /\ @gammq (ieee P) a x = Ok (f64_lit 1.0).
Proof. exact gammp_refuted. Qed.
Print Assumptions C79_refuted.

(** C80.  gammq on the same arguments, against 1 - P(a, x); the full claim is
    refuted with that of gammp ([C79_gammp_tiny], [C79_refuted]). *)
Theorem C80_gammq_accurate_partial : forall G : R -> R, gamma_function G ->
  forall (P : platform) (a x : f64) (p : R -> R), accurate_ln (p_ln P) -> accurate_exp (p_exp P) -> finite a -> finite x ->
  let u := Binary.B2R a in let v := Binary.B2R x in
  / 2 ^ 16 <= u -> u / 2 ^ 52 <= v -> u < 100 \/ 100 <= u <= 1000 /\ v <= 0.1999 * u -> lower_inc_gamma G u p ->
  exists r, @gammq (ieee P) a x = Ok r /\ finite r /\ Rabs (Binary.B2R r - (1 - p v)) <= 3 / 10 ^ 9.
Proof. exact gammq_all. Qed.
Print Assumptions C80_gammq_accurate_partial.

(** on the continued fraction the error is relative to Q(a, x) = 1 - P(a, x) *)
Theorem C80_gammq_relative : forall G : R -> R, gamma_function G ->
  forall (P : platform) (a x : f64) (p : R -> R), accurate_ln (p_ln P) -> accurate_exp (p_exp P) -> finite a -> finite x ->
  let u := Binary.B2R a in let v := Binary.B2R x in
  / 2 ^ 16 <= u < 100 -> u + 1.001 <= v <= u + 19.99 * (R_sqrt.sqrt u + 1) -> lower_inc_gamma G u p ->
  exists r, @gammq (ieee P) a x = Ok r /\ finite r /\ Rabs (Binary.B2R r - (1 - p v)) <= 22 / 10 ^ 10 * (1 - p v) + exp (-680).
Proof. exact gammq_relative. Qed.
Print Assumptions C80_gammq_relative.

Example C80_example : (exists G p, gamma_function G /\ lower_inc_gamma G 2.5 p) /\ accurate_ln (p_ln (ideal true false)) /\ accurate_exp (p_exp (ideal true false)) /\
  (finite (f64_lit 2.5) /\ Binary.B2R (f64_lit 2.5) = 2.5) /\ (finite (f64_lit 6.25) /\ Binary.B2R (f64_lit 6.25) = 6.25) /\
  (/ 2 ^ 16 <= 2.5 < 100 /\ 2.5 / 2 ^ 52 <= 6.25 /\ 2.5 + 1.001 <= 6.25 <= 2.5 + 19.99 * (R_sqrt.sqrt 2.5 + 1)).
Proof. exact ex_gammq. Qed.
