(** * Properties of erfcx (src/error.rs) *)

From Coq Require Import ZArith Reals Bool.
From Flocq Require Import Core IEEE754.BinarySingleNaN IEEE754.Binary IEEE754.Bits.
From Verif.Model Require Import Base Arith Error.
From Verif.Float Require Import Bits64 Ieee Platforms.
From Verif.Spec Require Import F64Spec Outcome.
From Verif.Proofs Require Import ErfcxSafe ErfcxThms ErfcxExamples.
Open Scope R_scope.

(** C34 *)
Theorem C34_erfcx_returns : forall (P : platform) (x : f64), returns (@erfcx (ieee P) x).
Proof. exact erfcx_returns. Qed.
Print Assumptions C34_erfcx_returns.

(** C35 *)
Theorem C35_erfcx_nonneg : forall (P : platform) (x : f64), nonneg x -> finite x ->
  exists r, @erfcx (ieee P) x = Ok r /\ finite r /\ 0 < Binary.B2R r <= 1.
Proof. exact erfcx_pos. Qed.
Print Assumptions C35_erfcx_nonneg.

Theorem C35_erfcx_small_neg : forall (P : platform) (x : f64), number x -> - (1 / 8) < val x <= 0 ->
  exists r, @erfcx (ieee P) x = Ok r /\ finite r /\ 1 <= Binary.B2R r.
Proof. exact erfcx_small_neg. Qed.
Print Assumptions C35_erfcx_small_neg.

Theorem C35_erfcx_neg : forall (P : platform) (x : f64), at_least_1 (p_exp P) -> number x -> val x <= 0 ->
  exists r, @erfcx (ieee P) x = Ok r /\ number r /\ 1 <= val r.
Proof. exact erfcx_neg. Qed.
Print Assumptions C35_erfcx_neg.

Theorem C35_erfcx_overflow : forall (P : platform) (x : f64), number x -> val x < - val (f64_lit 26.7) ->
  @erfcx (ieee P) x = Ok (B754_infinity false).
Proof. exact erfcx_overflow. Qed.
Print Assumptions C35_erfcx_overflow.

Theorem C35_erfcx_nan : forall (P : platform) (x : f64), is_NaN x ->
  exists r, @erfcx (ieee P) x = Ok r /\ is_NaN r.
Proof. exact erfcx_nan. Qed.
Print Assumptions C35_erfcx_nan.

Example C35_example :
  (nonneg (f64_lit 2.5) /\ finite (f64_lit 2.5))
  /\ (at_least_1 (p_exp (ideal true false)) /\ number (f64_lit (-2.5)) /\ val (f64_lit (-2.5)) <= 0)
  /\ (number (f64_lit (-0.0625)) /\ - (1 / 8) < val (f64_lit (-0.0625)) <= 0)
  /\ (number (f64_lit (-27.0)) /\ val (f64_lit (-27.0)) < - val (f64_lit 26.7))
  /\ is_NaN f64_NAN.
Proof. exact ex_erfcx_args. Qed.

(** C36 *)
Theorem C36_erfcx_large : forall (P : platform) (x : f64), number x -> 12 < val x ->
  exists r, @erfcx (ieee P) x = Ok r /\ nonneg r /\ (finite x -> 0 < val r)
  /\ val r <= val (f64_div P (f64_lit 0.564_189_583_547_756_3) x) * (1 + bpow radix2 (-50)).
Proof. exact erfcx_large. Qed.
Print Assumptions C36_erfcx_large.

Example C36_example : number (f64_lit 27.0) /\ 12 < val (f64_lit 27.0).
Proof. exact ex_27. Qed.
