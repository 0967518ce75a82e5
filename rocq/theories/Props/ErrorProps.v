(** * Properties of erf, erfc and their inverses (src/error.rs) *)

From Coq Require Import ZArith Reals Bool.
From Flocq Require Import Core IEEE754.BinarySingleNaN IEEE754.Binary IEEE754.Bits.
From Verif.Model Require Import Base Arith Error.
From Verif.Float Require Import Bits64 Ieee Platforms.
From Verif.Spec Require Import F64Spec Outcome.
From Verif.Proofs Require Import Domains Symmetry Examples.
Open Scope R_scope.

(** C28 *)
Theorem C28_erf_domain : forall (P : platform) (x : f64),
  (returns (@erf (ieee P) x) <-> number x) /\ (panics (@erf (ieee P) x) <-> is_NaN x).
Proof. exact erf_domain. Qed.
Print Assumptions C28_erf_domain.

Theorem C28_erfc_domain : forall (P : platform) (x : f64),
  (returns (@erfc (ieee P) x) <-> number x) /\ (panics (@erfc (ieee P) x) <-> is_NaN x).
Proof. exact erfc_domain. Qed.
Print Assumptions C28_erfc_domain.

Example C28_example : number (B754_infinity false : f64) /\ is_NaN f64_NAN.
Proof. exact (conj ex_infinity nan_default). Qed.

(** C29 *)
Theorem C29_erf_odd : forall (P : platform) (x : f64), positive x -> exists r r',
  @erf (ieee P) x = Ok r /\ @erf (ieee P) (f64_neg x) = Ok r'
  /\ (r' ~= f64_neg r \/ (r = f64_zero /\ r' = f64_zero)).
Proof. exact erf_odd_pos. Qed.
Print Assumptions C29_erf_odd.

Example C29_example : positive (f64_lit 2.5).
Proof. exact pos_2_5. Qed.

(** C30 *)
Theorem C30_erf_erfc : forall (P : platform) (x : f64), positive x -> exists e,
  @erfc (ieee P) x = Ok e
  /\ @erfc (ieee P) (f64_neg x) = Ok (f64_sub P (f64_lit 2.0) e)
  /\ @erf (ieee P) x = Ok (f64_sub P (f64_lit 1.0) e)
  /\ @erf (ieee P) (f64_neg x) = Ok (f64_sub P e (f64_lit 1.0)).
Proof. exact erf_erfc_pos. Qed.
Print Assumptions C30_erf_erfc.

Example C30_example : positive (f64_lit 2.5).
Proof. exact pos_2_5. Qed.

(** C31 *)
Theorem C31_erf_bounds : forall (P : platform) (x : f64), never_negative (p_exp P) -> number x ->
  exists c e, @erfc (ieee P) x = Ok c /\ @erf (ieee P) x = Ok e
  /\ (0 <= val x -> (is_NaN c \/ 0 <= val c) /\ (is_NaN e \/ val e <= 1))
  /\ (val x < 0 -> (is_NaN c \/ val c <= 2) /\ (is_NaN e \/ -1 <= val e)).
Proof. exact erf_bounds. Qed.
Print Assumptions C31_erf_bounds.

Example C31_example : never_negative (p_exp (plain true false)) /\ number (B754_infinity false : f64).
Proof. exact (conj (ex_never_negative true false) ex_infinity). Qed.

(** C32 *)
Theorem C32_inverfc_ends : forall (P : platform) (p : f64), number p ->
  (2 <= val p -> @inverfc (ieee P) p = Ok (f64_neg (f64_lit 100.0)))
  /\ (val p <= 0 -> @inverfc (ieee P) p = Ok (f64_lit 100.0)).
Proof. exact inverfc_ends. Qed.
Print Assumptions C32_inverfc_ends.

(** the subtraction 2 - p is exact on (1, 2) *)
Theorem C32_two_minus_exact : forall (P : platform) (p : f64), number p -> 1 < val p < 2 ->
  number (f64_sub P (f64_lit 2.0) p) /\ val (f64_sub P (f64_lit 2.0) p) = 2 - val p.
Proof. exact two_minus. Qed.
Print Assumptions C32_two_minus_exact.

Theorem C32_inverfc_antisymmetric : forall (P : platform) (p : f64), number p -> 1 < val p < 2 ->
  @inverfc (ieee P) p
  = match @inverfc (ieee P) (f64_sub P (f64_lit 2.0) p) with
    | Ok x => Ok (f64_neg x)
    | o => o
    end.
Proof. exact inverfc_antisym. Qed.
Print Assumptions C32_inverfc_antisymmetric.

Theorem C32_inverf : forall (P : platform) (p : f64),
  @inverf (ieee P) p = @inverfc (ieee P) (f64_sub P (f64_lit 1.0) p).
Proof. exact inverf_def. Qed.
Print Assumptions C32_inverf.

Example C32_example : number (f64_lit 1.75) /\ 1 < val (f64_lit 1.75) < 2.
Proof. exact ex_1_75. Qed.

(** C33 *)
Theorem C33_inverfc_nan : forall (P : platform) (p : f64), is_NaN p -> panics (@inverfc (ieee P) p).
Proof. exact inverfc_nan. Qed.
Print Assumptions C33_inverfc_nan.

Theorem C33_inverf_nan : forall (P : platform) (p : f64), is_NaN p -> panics (@inverf (ieee P) p).
Proof. exact inverf_nan. Qed.
Print Assumptions C33_inverf_nan.

Example C33_example : is_NaN f64_NAN.
Proof. exact nan_default. Qed.
