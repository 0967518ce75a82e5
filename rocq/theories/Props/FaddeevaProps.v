(** * Properties of the Faddeeva function (src/faddeeva.rs) *)

From Coq Require Import ZArith Reals Bool.
From Flocq Require Import Core IEEE754.BinarySingleNaN IEEE754.Binary IEEE754.Bits.
From Verif.Model Require Import Base Arith Error Dawson Faddeeva.
From Verif.Float Require Import Bits64 Ieee Exact Platforms.
From Verif.Spec Require Import F64Spec Outcome ComplexSpec.
From Verif.Proofs Require Import FaddeevaSafe FaddeevaSym FaddeevaExact FaddeevaExamples.
Open Scope R_scope.

(** C41 *)
Theorem C41_faddeeva_returns : forall (P : platform) (x y : f64), p_checks P = false ->
  returns (@faddeeva (ieee P) x y).
Proof. exact faddeeva_no_checks. Qed.
Print Assumptions C41_faddeeva_returns.

Theorem C41_faddeeva_panics_iff : forall (P : platform) (x y : f64), p_checks P = true ->
  (panics (@faddeeva (ieee P) x y) <->
   negligible P y x /\ number x /\ 7378697629483821056 <= Rabs (val x)).
Proof. exact faddeeva_panics_iff. Qed.
Print Assumptions C41_faddeeva_panics_iff.

Theorem C41_faddeeva_returns_off_axis : forall (P : platform) (x y : f64), ~ negligible P y x ->
  returns (@faddeeva (ieee P) x y).
Proof. exact faddeeva_off_axis. Qed.
Print Assumptions C41_faddeeva_returns_off_axis.

Example C41_example : negligible (ideal true false) (f64_lit 1.0) (f64_lit 1e19)
  /\ number (f64_lit 1e19) /\ 7378697629483821056 <= Rabs (val (f64_lit 1e19)).
Proof. exact ex_faddeeva_panic. Qed.

(** C42 *)
Theorem C42_faddeeva_real_axis : forall (P : platform) (x y : f64),
  number x -> bpow radix2 (-1000) <= Rabs (val x) -> finite y -> Binary.B2R y = 0 ->
  @faddeeva (ieee P) x y = bind (@dawson (ieee P) x) (fun d =>
    Ok (if f64_lt (f64_lit 27.0) (f64_abs x) then f64_lit 0.0
        else libm P (p_exp P) (f64_mul P (f64_neg (f64_abs x)) (f64_abs x)),
        f64_mul P (f64_mul P (f64_lit 2.0) d) (@INV_SQRT_PI (ieee P)))).
Proof. exact faddeeva_real_axis. Qed.
Print Assumptions C42_faddeeva_real_axis.

Theorem C42_faddeeva_imaginary_axis : forall (P : platform) (x y : f64),
  number y -> bpow radix2 (-1000) <= Rabs (val y) -> finite x -> Binary.B2R x = 0 ->
  exists r, @erfcx (ieee P) y = Ok r /\ @faddeeva (ieee P) x y = Ok (r, f64_lit 0.0).
Proof. exact faddeeva_imaginary_axis. Qed.
Print Assumptions C42_faddeeva_imaginary_axis.

Theorem C42_faddeeva_origin : forall (P : platform) (x y : f64),
  finite x -> Binary.B2R x = 0 -> finite y -> Binary.B2R y = 0 ->
  exists a b, @faddeeva (ieee P) x y = Ok (a, b) /\ number a /\ number b /\ val a = 1 /\ val b = 0.
Proof. exact faddeeva_origin. Qed.
Print Assumptions C42_faddeeva_origin.

Example C42_example : number (f64_lit 2.5) /\ bpow radix2 (-1000) <= Rabs (val (f64_lit 2.5))
  /\ finite (f64_lit 0.0) /\ Binary.B2R (f64_lit 0.0) = 0.
Proof. exact ex_axes. Qed.

(** C43 *)
Theorem C43_faddeeva_reflection_exact : forall (fma chk : bool) (x y a b : R),
  @faddeeva (exact fma chk) x y = Ok (a, b) -> @faddeeva (exact fma chk) (- x)%R y = Ok (a, (- b)%R).
Proof. exact faddeeva_reflection_exact. Qed.
Print Assumptions C43_faddeeva_reflection_exact.

(** Missing from the bit-for-bit form: the annulus 49 <= |z|^2 <= 4.8e15 away
    from the axes, where it is false. *)
Theorem C43_faddeeva_reflection_partial : forall (P : platform) (x y : f64),
  (f64_le (f64_lit 49.0) (modulus_sq P x y) = true ->
     negligible P y x \/ negligible P x y \/ f64_lt (f64_lit 4.8e15) (modulus_sq P x y) = true) ->
  (f64_lt y (f64_lit 0.0) = true -> commutes_with_conjugation (p_cexp P)) ->
  same_outcome conjugates (@faddeeva (ieee P) x y) (@faddeeva (ieee P) (f64_neg x) y).
Proof. exact faddeeva_reflection. Qed.
Print Assumptions C43_faddeeva_reflection_partial.

Theorem C43_refuted : exists x y : f64, finite x /\ finite y /\ forall P : platform,
  exists a b a' b', @faddeeva (ieee P) x y = Ok (a, b) /\ @faddeeva (ieee P) (f64_neg x) y = Ok (a', b')
  /\ finite a /\ finite a' /\ val a <> val a'.
Proof. exact faddeeva_reflection_refuted. Qed.
Print Assumptions C43_refuted.

Example C43_example :
  ((forall P, f64_le (f64_lit 49.0) (modulus_sq P (f64_lit 1.5) (f64_lit (-2.5))) = false)
   /\ (forall P, f64_le (f64_lit 49.0) (modulus_sq P (f64_lit 1e9) (f64_lit 2e9)) = true
        /\ f64_lt (f64_lit 4.8e15) (modulus_sq P (f64_lit 1e9) (f64_lit 2e9)) = true)
   /\ commutes_with_conjugation (p_cexp (ideal true false)))
  /\ (forall fma chk, exists a b, @faddeeva (exact fma chk) (10%R) (10%R) = Ok (a, b)).
Proof. exact (conj ex_reflection ex_reflection_exact). Qed.

(** C44 *)
Theorem C44_faddeeva_nan : forall (P : platform) (x y : f64), is_NaN x \/ is_NaN y ->
  exists a b, @faddeeva (ieee P) x y = Ok (a, b) /\ is_NaN a /\ is_NaN b.
Proof. exact faddeeva_nan. Qed.
Print Assumptions C44_faddeeva_nan.

Example C44_example : is_NaN f64_NAN.
Proof. exact eq_refl. Qed.
