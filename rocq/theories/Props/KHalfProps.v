(** * Properties: the modified Bessel function K at half-integer orders *)

From Coq Require Import ZArith Reals Bool List String.
From Flocq Require Import Core IEEE754.BinarySingleNaN IEEE754.Binary IEEE754.Bits.
From Verif.Model Require Import Base Arith Bessel.
From Verif.Float Require Import Bits64 Ieee Platforms.
From Verif.Spec Require Import F64Spec Outcome LibmSpec KHalfSpec.
From Verif.Proofs Require Import ErfcxAcc KHalfDeriv KHalfThms KHalfOver KHalfI.
Open Scope R_scope.

(** C115: from 2 on, K at every half-integer order agrees with the closed form
    up to a few units in the last place per order, unless the call panics; the
    only possible panic is the one of the first continued fraction.  Missing:
    arguments below 2, and a proof that this fraction converges. *)
Theorem C115_besselik_half_integer_partial : forall (P : platform), accurate_exp (p_exp P) -> forall (n : nat) (nu x : f64),
  (Z.of_nat n < 2 ^ 32)%Z -> number nu -> val nu = INR n + 1 / 2 -> number x -> 2 <= val x <= 690 ->
  K_half n (val x) <= bpow radix2 1010 ->
  @besselik (ieee P) nu x = Panic (PExplicit "x too large in besselik; try asymptotic expansion") \/
  exists i k i' k', @besselik (ieee P) nu x = Ok (i, k, i', k') /\ finite k
    /\ Rabs (val k - K_half n (val x)) <= (4 / 10 ^ 15 + INR n / 10 ^ 15) * K_half n (val x).
Proof. exact besselik_half. Qed.
Print Assumptions C115_besselik_half_integer_partial.

Theorem C115_Inu_Knu_half_integer_partial : forall (P : platform) (n : nat) (nu x i k : f64), accurate_exp (p_exp P) ->
  (Z.of_nat n < 2 ^ 32)%Z -> number nu -> val nu = INR n + 1 / 2 -> number x -> 2 <= val x <= 690 ->
  K_half n (val x) <= bpow radix2 1010 -> @Inu_Knu (ieee P) nu x = Ok (i, k) ->
  finite k /\ Rabs (val k - K_half n (val x)) <= (4 / 10 ^ 15 + INR n / 10 ^ 15) * K_half n (val x).
Proof. exact Inu_Knu_half. Qed.
Print Assumptions C115_Inu_Knu_half_integer_partial.

(** order 5/2 and argument 3: the hypotheses hold and the call returns *)
Example C115_example : accurate_exp (p_exp (ideal true false))
  /\ (number (f64_lit 2.5) /\ val (f64_lit 2.5) = INR 2 + 1 / 2 /\ number (f64_lit 3.0) /\ 2 <= val (f64_lit 3.0) <= 690
      /\ K_half 2 (val (f64_lit 3.0)) <= bpow radix2 1010
      /\ exists r, @besselik (ieee (ideal true false)) (f64_lit 2.5) (f64_lit 3.0) = Ok r).
Proof. exact (conj (ideal_exp_accurate true false) (ex_half (ideal true false))). Qed.

(** C116: the fourth component is the derivative of K.  Missing: as above. *)
Theorem C116_besselik_half_integer_derivative_partial : forall (P : platform), accurate_exp (p_exp P) -> forall (n : nat) (nu x : f64) (d : R),
  (Z.of_nat n + 1 < 2 ^ 32)%Z -> number nu -> val nu = INR n + 1 / 2 -> number x -> 2 <= val x <= 690 ->
  K_half (S n) (val x) <= bpow radix2 1010 -> derivable_pt_lim (K_half n) (val x) d ->
  @besselik (ieee P) nu x = Panic (PExplicit "x too large in besselik; try asymptotic expansion") \/
  exists i k i' k', @besselik (ieee P) nu x = Ok (i, k, i', k') /\ finite k' /\ d < 0
    /\ Rabs (val k' - d) <= (12 / 10 ^ 15 + 2 * INR n / 10 ^ 15) * Rabs d.
Proof. exact besselik_half_deriv. Qed.
Print Assumptions C116_besselik_half_integer_derivative_partial.

(** order 3/2 and argument 3 *)
Example C116_example : accurate_exp (p_exp (ideal true false))
  /\ (number (f64_lit 1.5) /\ val (f64_lit 1.5) = INR 1 + 1 / 2 /\ number (f64_lit 3.0) /\ 2 <= val (f64_lit 3.0) <= 690
      /\ K_half 2 (val (f64_lit 3.0)) <= bpow radix2 1010 /\ (exists d, derivable_pt_lim (K_half 1) (val (f64_lit 3.0)) d)
      /\ exists r, @besselik (ieee (ideal true false)) (f64_lit 1.5) (f64_lit 3.0) = Ok r).
Proof. exact (conj (ideal_exp_accurate true false) (ex_half_deriv (ideal true false))). Qed.

(** C117: the claim "accepted arguments give no NaN" fails at every
    half-integer order from 4000 on: I comes out as NaN (it underflows there,
    which is not formalised), K as infinity and K' as NaN *)
Theorem C117_besselik_nan : forall (P : platform), accurate_exp (p_exp P) -> forall (n : nat) (nu x : f64),
  (4000 <= Z.of_nat n)%Z -> (Z.of_nat n + 1 < 2 ^ 32)%Z -> number nu -> val nu = INR n + 1 / 2 -> number x -> 2 <= val x <= 690 ->
  @besselik (ieee P) nu x = Panic (PExplicit "x too large in besselik; try asymptotic expansion") \/
  exists i k i' k', @besselik (ieee P) nu x = Ok (i, k, i', k') /\ ~ number i /\ k = B754_infinity false /\ ~ number k'.
Proof. exact besselik_nan. Qed.
Print Assumptions C117_besselik_nan.

Theorem C117_Inu_Knu_nan : forall (P : platform), accurate_exp (p_exp P) -> forall (n : nat) (nu x i k : f64),
  (4000 <= Z.of_nat n)%Z -> (Z.of_nat n + 1 < 2 ^ 32)%Z -> number nu -> val nu = INR n + 1 / 2 -> number x -> 2 <= val x <= 690 ->
  @Inu_Knu (ieee P) nu x = Ok (i, k) -> ~ number i.
Proof. exact Inu_Knu_nan. Qed.
Print Assumptions C117_Inu_Knu_nan.

Theorem C117_refuted : forall P : platform, accurate_exp (p_exp P) -> exists nu x : f64, positive nu /\ positive x /\ finite nu /\ finite x
  /\ exists i k, @Inu_Knu (ieee P) nu x = Ok (i, k) /\ ~ number i.
Proof. exact Inu_Knu_nan_refuted. Qed.
Print Assumptions C117_refuted.

(** order 4000.5 and argument 2: the hypotheses hold and the call returns *)
Example C117_example : accurate_exp (p_exp (ideal true false))
  /\ (number (f64_lit 4000.5) /\ val (f64_lit 4000.5) = INR 4000 + 1 / 2 /\ number (f64_lit 2.0) /\ 2 <= val (f64_lit 2.0) <= 690
      /\ exists r, @besselik (ieee (ideal true false)) (f64_lit 4000.5) (f64_lit 2.0) = Ok r).
Proof. exact (conj (ideal_exp_accurate true false) (ex_over_I (ideal true false))). Qed.
