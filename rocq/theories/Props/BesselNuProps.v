(** * Properties: Bessel functions of real order at large arguments *)

From Coq Require Import ZArith Reals Bool List String.
From Flocq Require Import Core IEEE754.BinarySingleNaN IEEE754.Binary IEEE754.Bits.
From Verif.Model Require Import Base Arith Bessel.
From Verif.Float Require Import Bits64 Ieee Platforms.
From Verif.Spec Require Import F64Spec Outcome.
From Verif.Proofs Require Import NuPanic NuTiny.
Open Scope R_scope.

(** C112: the claim "besseljy and besselik return for every order [nu >= 0]
    and every argument [x > 0]" fails at every large argument, not only at
    isolated ones: the first continued fraction cannot converge within its
    10000 iterations *)
Theorem C112_besseljy_large_argument : forall (P : platform) (nu x : f64),
  number nu -> 0 <= val nu <= 1000 -> number x -> 2 ^ 32 <= val x <= bpow radix2 800 ->
  @besseljy (ieee P) nu x = Panic (PExplicit "x too large in besseljy; try asymptotic expansion").
Proof. exact jy_panic. Qed.
Print Assumptions C112_besseljy_large_argument.

Theorem C112_besselik_large_argument : forall (P : platform) (nu x : f64),
  number nu -> 0 <= val nu <= 1000 -> number x -> 2 ^ 32 <= val x <= bpow radix2 800 ->
  @besselik (ieee P) nu x = Panic (PExplicit "x too large in besselik; try asymptotic expansion").
Proof. exact ik_panic. Qed.
Print Assumptions C112_besselik_large_argument.

Theorem C112_Jnu_Ynu_large_argument : forall (P : platform) (nu x : f64),
  number nu -> 0 <= val nu <= 1000 -> number x -> 2 ^ 32 <= val x <= bpow radix2 800 ->
  panics (@Jnu_Ynu (ieee P) nu x).
Proof. exact jnu_panic. Qed.
Print Assumptions C112_Jnu_Ynu_large_argument.

Theorem C112_Inu_Knu_large_argument : forall (P : platform) (nu x : f64),
  number nu -> 0 <= val nu <= 1000 -> number x -> 2 ^ 32 <= val x <= bpow radix2 800 ->
  panics (@Inu_Knu (ieee P) nu x).
Proof. exact inu_panic. Qed.
Print Assumptions C112_Inu_Knu_large_argument.

Theorem C112_refuted : forall (P : platform), exists nu x : f64,
  number nu /\ 0 <= val nu <= 1000 /\ number x /\ 0 < val x <= 10000000000 /\
  panics (@besseljy (ieee P) nu x) /\ panics (@besselik (ieee P) nu x).
Proof. exact nu_refuted. Qed.
Print Assumptions C112_refuted.

Example C112_example : (number (f64_lit 0.5) /\ 0 <= val (f64_lit 0.5) <= 1000)
  /\ 2 ^ 32 <= val (f64_lit 10000000000.0) <= bpow radix2 800.
Proof. exact (conj ex_nu ex_x_range). Qed.

(** C113: next to zero both functions give up as well, with the message that
    [x] is too large, because the reciprocal of [x] overflows *)
Theorem C113_besseljy_tiny_argument : forall (P : platform) (nu x : f64),
  number nu -> 0 <= val nu -> number x -> 0 < val x <= bpow radix2 (-1024) ->
  @besseljy (ieee P) nu x = Panic (PExplicit "x too large in besseljy; try asymptotic expansion").
Proof. exact jy_tiny. Qed.
Print Assumptions C113_besseljy_tiny_argument.

Theorem C113_besselik_tiny_argument : forall (P : platform) (nu x : f64),
  number nu -> 0 <= val nu -> number x -> 0 < val x <= bpow radix2 (-1024) ->
  @besselik (ieee P) nu x = Panic (PExplicit "x too large in besselik; try asymptotic expansion").
Proof. exact ik_tiny. Qed.
Print Assumptions C113_besselik_tiny_argument.

Theorem C113_refuted : forall (P : platform), exists nu x : f64,
  number nu /\ val nu = 0 /\ number x /\ 0 < val x < 1 /\
  panics (@besseljy (ieee P) nu x) /\ panics (@besselik (ieee P) nu x).
Proof. exact tiny_refuted. Qed.
Print Assumptions C113_refuted.

Example C113_example : number tiny_x /\ 0 < val tiny_x <= bpow radix2 (-1024).
Proof. exact ex_tiny. Qed.
