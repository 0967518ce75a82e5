(** * Properties: Bessel functions of large real order *)

From Coq Require Import ZArith Reals Bool List String.
From Flocq Require Import Core IEEE754.BinarySingleNaN IEEE754.Binary IEEE754.Bits.
From Verif.Model Require Import Base Arith Bessel.
From Verif.Float Require Import Bits64 Ieee Platforms.
From Verif.Spec Require Import F64Spec Outcome.
From Verif.Proofs Require Import NuLargeOrder.
Open Scope R_scope.

(** C117 at every real order from 4000 on, and without any assumption on the
    platform's exponential: if the call returns, I is NaN *)
Theorem C117_besselik_I_nan : forall (P : platform) (nu x i k i' k' : f64),
  number nu -> 4000 <= val nu <= 2 ^ 32 -> number x -> 2 <= val x <= 690 ->
  @besselik (ieee P) nu x = Ok (i, k, i', k') -> ~ number i.
Proof. exact besselik_I_nan. Qed.
Print Assumptions C117_besselik_I_nan.

Theorem C117_Inu_Knu_I_nan : forall (P : platform) (nu x i k : f64),
  number nu -> 4000 <= val nu <= 2 ^ 32 -> number x -> 2 <= val x <= 690 ->
  @Inu_Knu (ieee P) nu x = Ok (i, k) -> ~ number i.
Proof. exact Inu_Knu_I_nan. Qed.
Print Assumptions C117_Inu_Knu_I_nan.

(** order 4000.25 and argument 2: the hypotheses hold and the call returns *)
Example C117_real_order_example : forall P : platform,
  number (f64_lit 4000.25) /\ 4000 <= val (f64_lit 4000.25) <= 2 ^ 32 /\ number (f64_lit 2.0) /\ 2 <= val (f64_lit 2.0) <= 690
  /\ exists r, @besselik (ieee P) (f64_lit 4000.25) (f64_lit 2.0) = Ok r.
Proof. exact ex_ik_order. Qed.

(** C118: the claim "accepted arguments give no NaN" fails for J and Y at every
    real order from 4000 on: if the call returns, both are NaN *)
Theorem C118_besseljy_nan : forall (P : platform) (nu x j y j' y' : f64),
  number nu -> 4000 <= val nu <= 2 ^ 32 -> number x -> 2 <= val x <= 690 ->
  @besseljy (ieee P) nu x = Ok (j, y, j', y') -> ~ number j /\ ~ number y.
Proof. exact besseljy_nan. Qed.
Print Assumptions C118_besseljy_nan.

Theorem C118_Jnu_Ynu_nan : forall (P : platform) (nu x j y : f64),
  number nu -> 4000 <= val nu <= 2 ^ 32 -> number x -> 2 <= val x <= 690 ->
  @Jnu_Ynu (ieee P) nu x = Ok (j, y) -> ~ number j /\ ~ number y.
Proof. exact Jnu_Ynu_nan. Qed.
Print Assumptions C118_Jnu_Ynu_nan.

Theorem C118_refuted : forall P : platform, exists nu x : f64, positive nu /\ positive x /\ finite nu /\ finite x
  /\ exists j y, @Jnu_Ynu (ieee P) nu x = Ok (j, y) /\ ~ number j /\ ~ number y.
Proof. exact Jnu_Ynu_nan_refuted. Qed.
Print Assumptions C118_refuted.

(** order 4000 and argument 2: the hypotheses hold and the call returns *)
Example C118_example : forall P : platform,
  number (f64_lit 4000.0) /\ val (f64_lit 4000.0) = 4000 /\ number (f64_lit 2.0) /\ val (f64_lit 2.0) = 2
  /\ exists r, @besseljy (ieee P) (f64_lit 4000.0) (f64_lit 2.0) = Ok r.
Proof. exact ex_jy_order. Qed.
