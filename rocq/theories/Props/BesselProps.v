(** * Properties of the Bessel functions (src/bessel.rs) *)

From Coq Require Import ZArith Reals Bool String.
From Flocq Require Import Core IEEE754.BinarySingleNaN IEEE754.Binary IEEE754.Bits.
From Verif.Model Require Import Base Arith Bessel.
From Verif.Float Require Import Bits64 Ieee Platforms.
From Verif.Spec Require Import F64Spec Outcome.
From Verif.Proofs Require Import BesselInt BesselRec BesselPanics BesselI1 BesselExamples Examples.
Open Scope R_scope.

(** C45 *)
Theorem C45_Jn_parity : forall (P : platform) (n : Z) (x : f64), (0 <= n)%Z -> number x ->
  same_outcome (fun r r' => if Z.odd n then opposite r r' else r' = r)
    (@Jn (ieee P) n x) (@Jn (ieee P) n (f64_neg x)).
Proof. exact Jn_parity_outcome. Qed.
Print Assumptions C45_Jn_parity.

Example C45_example : number (f64_lit 2.5) /\ (0 <= 7)%Z.
Proof. exact ex_parity. Qed.

(** C46 is false for n = 1 and |x| >= 15: at 16, with any exp whose values
    there are at all plausible (the true ones are 8886110.5 and 1.1e-7) *)
Theorem C46_refuted : exists n x, (0 <= n < 2 ^ 32)%Z /\ finite x
  /\ forall P : platform,
     between 2 (bpow radix2 100) (p_exp P (f64_lit 16.0))
     /\ between 0 1 (p_exp P (f64_neg (f64_lit 16.0))) ->
     exists r r', @In (ieee P) n x = Ok r /\ @In (ieee P) n (f64_neg x) = Ok r' /\ ~ opposite r r'.
Proof. exact In_parity_refuted. Qed.
Print Assumptions C46_refuted.

Theorem C46_i1_too_small : forall P : platform,
  between 2 (bpow radix2 100) (p_exp P (f64_lit 16.0))
  /\ between 0 1 (p_exp P (f64_neg (f64_lit 16.0))) ->
  number (@i1 (ieee P) (f64_lit 16.0)) /\ number (@i1 (ieee P) (f64_neg (f64_lit 16.0)))
  /\ Rabs (val (@i1 (ieee P) (f64_neg (f64_lit 16.0)))) < val (@i1 (ieee P) (f64_lit 16.0)).
Proof. exact i1_not_odd. Qed.
Print Assumptions C46_i1_too_small.

(** every other order, and every |x| < 15 *)
Theorem C46_In_parity_partial : forall (P : platform) (n : Z) (x : f64), (0 <= n)%Z -> number x ->
  n <> 1%Z \/ Rabs (val x) < 15 ->
  same_outcome (fun r r' => if Z.odd n then opposite r r' else r' = r)
    (@In (ieee P) n x) (@In (ieee P) n (f64_neg x)).
Proof. exact In_parity_outcome. Qed.
Print Assumptions C46_In_parity_partial.

Example C46_example : exists P : platform,
  between 2 (bpow radix2 100) (p_exp P (f64_lit 16.0))
  /\ between 0 1 (p_exp P (f64_neg (f64_lit 16.0))).
Proof. exact ex_exp_16. Qed.

(** C47 *)
Theorem C47_Yn_recurrence : forall (P : platform) (n : Z) (x : f64), (1 <= n)%Z ->
  @Yn (ieee P) (n + 1) x
  = f64_sub P (f64_mul P (f64_mul P (f64_of_Z n) (f64_div P (f64_lit 2.0) x)) (@Yn (ieee P) n x))
      (@Yn (ieee P) (n - 1) x).
Proof. exact Yn_recurrence. Qed.
Print Assumptions C47_Yn_recurrence.

Theorem C47_Kn_recurrence : forall (P : platform) (n : Z) (x : f64), (1 <= n)%Z ->
  @Kn (ieee P) (n + 1) x
  = f64_add P (f64_mul P (f64_mul P (f64_of_Z n) (f64_div P (f64_lit 2.0) x)) (@Kn (ieee P) n x))
      (@Kn (ieee P) (n - 1) x).
Proof. exact Kn_recurrence. Qed.
Print Assumptions C47_Kn_recurrence.

Example C47_example : (1 <= 1000)%Z.
Proof. exact ex_order. Qed.

(** C48 *)
Theorem C48_Kn_positive : forall (P : platform) (x : f64), positive x -> finite x ->
  positive (@Kn (ieee P) 0 x) -> positive (@Kn (ieee P) 1 x) ->
  forall n, (0 <= n)%Z ->
  positive (@Kn (ieee P) n x) /\ val (@Kn (ieee P) n x) <= val (@Kn (ieee P) (n + 2) x).
Proof. exact Kn_positive. Qed.
Print Assumptions C48_Kn_positive.

(** with starting values that may have underflowed to zero *)
Theorem C48_Kn_nonneg : forall (P : platform) (x : f64), finite x -> bpow radix2 (-900) <= val x ->
  nonneg (@Kn (ieee P) 0 x) -> nonneg (@Kn (ieee P) 1 x) ->
  forall n, (0 <= n)%Z -> (n + 2 < 2 ^ 32)%Z ->
  nonneg (@Kn (ieee P) n x) /\ val (@Kn (ieee P) n x) <= val (@Kn (ieee P) (n + 2) x).
Proof. exact Kn_nonneg. Qed.
Print Assumptions C48_Kn_nonneg.

Example C48_example : let P := plain true false in let x := f64_lit 2.5 in
  positive x /\ finite x /\ positive (@Kn (ieee P) 0 x) /\ positive (@Kn (ieee P) 1 x).
Proof. exact ex_Kn. Qed.

(** C49 *)
Theorem C49_Jn_In_small : forall (P : platform) (n : Z) (x : f64), (2 <= n)%Z -> finite x ->
  val x * val x <= bpow radix2 (-1019) ->
  @Jn (ieee P) n x = Ok (f64_lit 0.0) /\ @In (ieee P) n x = Ok (f64_lit 0.0).
Proof. exact Jn_In_small. Qed.
Print Assumptions C49_Jn_In_small.

Example C49_example : let x := f64_lit 1e-160 in
  finite x /\ val x <> 0 /\ val x * val x <= bpow radix2 (-1019).
Proof. exact ex_small_square. Qed.

(** C50 *)
Theorem C50_Jn_recurrence : forall (P : platform) (n : Z) (x : f64), (1 <= n < 2 ^ 53)%Z -> number x ->
  IZR (n + 1) < Rabs (val x) ->
  exists prev cur, @Jn (ieee P) (n - 1) (f64_abs x) = Ok prev /\ @Jn (ieee P) n (f64_abs x) = Ok cur
  /\ let next := f64_sub P (f64_mul P (f64_mul P (f64_of_Z n) (f64_div P (f64_lit 2.0) (f64_abs x))) cur) prev in
     @Jn (ieee P) (n + 1) x
     = Ok (if (f64_lt x (f64_lit 0.0) && ((n + 1) mod 2 =? 1)%Z)%bool then f64_neg next else next).
Proof. exact Jn_recurrence. Qed.
Print Assumptions C50_Jn_recurrence.

Example C50_example : number (f64_lit 100.0) /\ IZR (41 + 1) < Rabs (val (f64_lit 100.0)).
Proof. exact ex_large_arg. Qed.

(** C51 *)
Theorem C51_besseljy_bad : forall (P : platform) (nu x : f64),
  (number x /\ val x <= 0) \/ (number nu /\ val nu < 0)
  <-> @besseljy (ieee P) nu x = Panic (PExplicit "bad arguments in besseljy").
Proof. exact besseljy_bad_iff. Qed.
Print Assumptions C51_besseljy_bad.

Theorem C51_besselik_bad : forall (P : platform) (nu x : f64),
  (number x /\ val x <= 0) \/ (number nu /\ val nu < 0)
  <-> @besselik (ieee P) nu x = Panic (PExplicit "bad arguments in besselik").
Proof. exact besselik_bad_iff. Qed.
Print Assumptions C51_besselik_bad.

Theorem C51_besseljy_nan : forall (P : platform) (nu x : f64), is_NaN nu \/ is_NaN x ->
  ~ (number x /\ val x <= 0) -> ~ (number nu /\ val nu < 0) ->
  @besseljy (ieee P) nu x = Panic (PExplicit "x too large in besseljy; try asymptotic expansion").
Proof. exact besseljy_nan. Qed.
Print Assumptions C51_besseljy_nan.

Theorem C51_besselik_nan : forall (P : platform) (nu x : f64), is_NaN nu \/ is_NaN x ->
  ~ (number x /\ val x <= 0) -> ~ (number nu /\ val nu < 0) ->
  @besselik (ieee P) nu x = Panic (PExplicit "x too large in besselik; try asymptotic expansion").
Proof. exact besselik_nan. Qed.
Print Assumptions C51_besselik_nan.

Example C51_example : is_NaN f64_NAN
  /\ ~ (number f64_NAN /\ val f64_NAN <= 0) /\ ~ (number (f64_lit 2.5) /\ val (f64_lit 2.5) < 0).
Proof. exact ex_nan_args. Qed.

(** C54 *)
Theorem C54_Jnu_Ynu : forall (P : platform) (nu x : f64),
  same_outcome (fun r q => fst (fst (fst r)) = fst q /\ snd (fst (fst r)) = snd q)
    (@besseljy (ieee P) nu x) (@Jnu_Ynu (ieee P) nu x).
Proof. exact Jnu_Ynu_proj. Qed.
Print Assumptions C54_Jnu_Ynu.

Theorem C54_Inu_Knu : forall (P : platform) (nu x : f64),
  same_outcome (fun r q => fst (fst (fst r)) = fst q /\ snd (fst (fst r)) = snd q)
    (@besselik (ieee P) nu x) (@Inu_Knu (ieee P) nu x).
Proof. exact Inu_Knu_proj. Qed.
Print Assumptions C54_Inu_Knu.

(** C55 *)
Theorem C55_Jn_returns : forall (P : platform) (n : Z) (x : f64), (0 <= n <= 2 ^ 31)%Z ->
  returns (@Jn (ieee P) n x).
Proof. exact Jn_returns. Qed.
Print Assumptions C55_Jn_returns.

Theorem C55_In_returns : forall (P : platform) (n : Z) (x : f64), (0 <= n <= 2 ^ 30)%Z ->
  returns (@In (ieee P) n x).
Proof. exact In_returns. Qed.
Print Assumptions C55_In_returns.

Theorem C55_largest_order_panics : forall P : platform, p_checks P = true ->
  @Jn (ieee P) (2 ^ 32 - 1) (f64_lit 1.0) = Panic POverflow
  /\ @In (ieee P) (2 ^ 32 - 1) (f64_lit 1.0) = Panic POverflow.
Proof. exact Jn_max_panics. Qed.
Print Assumptions C55_largest_order_panics.

Example C55_example : p_checks (plain true false) = true.
Proof. exact ex_checks. Qed.

(** C65 is false: the downward recurrence loses its scale *)
Theorem C65_Jn_infinite : forall P : platform,
  @Jn (ieee P) 163 (f64_lit 1.0) = Ok (B754_infinity false).
Proof. exact Jn_unbounded. Qed.
Print Assumptions C65_Jn_infinite.

Theorem C65_refuted : exists n x, (0 <= n < 2 ^ 32)%Z /\ finite x
  /\ forall P : platform, exists r, @Jn (ieee P) n x = Ok r /\ finite r /\ 1 < Rabs (val r).
Proof. exact Jn_bound_refuted. Qed.
Print Assumptions C65_refuted.

(** C66 is false for the same reason *)
Theorem C66_In_infinite : forall P : platform,
  @In (ieee P) 163 (f64_lit 1.0) = Ok (B754_infinity false).
Proof. exact In_unbounded. Qed.
Print Assumptions C66_In_infinite.

Theorem C66_refuted : exists n x, (0 <= n < 2 ^ 32)%Z /\ finite x
  /\ forall P : platform, exists r r0, @In (ieee P) n x = Ok r /\ @In (ieee P) 0 x = Ok r0
     /\ number r /\ finite r0 /\ val r0 < Rabs (val r).
Proof. exact In_bound_refuted. Qed.
Print Assumptions C66_refuted.

(** C67 *)
Theorem C67_Yn_nan : forall (P : platform) (n : Z) (x : f64), (0 <= n)%Z -> is_NaN x ->
  is_NaN (@Yn (ieee P) n x).
Proof. exact Yn_nan. Qed.
Print Assumptions C67_Yn_nan.

Theorem C67_Kn_nan : forall (P : platform) (n : Z) (x : f64), (0 <= n)%Z -> is_NaN x ->
  is_NaN (@Kn (ieee P) n x).
Proof. exact Kn_nan. Qed.
Print Assumptions C67_Kn_nan.

Theorem C67_In_nan : forall (P : platform) (n : Z) (x : f64), (0 <= n)%Z -> is_NaN x ->
  forall r, @In (ieee P) n x = Ok r -> is_NaN r.
Proof. exact In_nan. Qed.
Print Assumptions C67_In_nan.

Example C67_example : is_NaN f64_NAN.
Proof. exact nan_default. Qed.

(** C68 is false: Jn(2, NaN) is a number where arithmetic returns the
    canonical NaN *)
Theorem C68_refuted : exists n x, (0 <= n < 2 ^ 32)%Z /\ is_NaN x
  /\ forall P : platform, exists r, @Jn (ieee (canonical_nan P)) n x = Ok r /\ finite r.
Proof. exact Jn_nan_refuted. Qed.
Print Assumptions C68_refuted.

(** orders 0 and 1 *)
Theorem C68_J0_J1_nan_partial : forall (P : platform) (x : f64), is_NaN x ->
  exists r0 r1, @Jn (ieee P) 0 x = Ok r0 /\ is_NaN r0 /\ @Jn (ieee P) 1 x = Ok r1 /\ is_NaN r1.
Proof. exact J0_J1_nan. Qed.
Print Assumptions C68_J0_J1_nan_partial.

Example C68_example : is_NaN f64_NAN.
Proof. exact nan_default. Qed.
