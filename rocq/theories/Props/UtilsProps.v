(** * Properties of src/utils.rs: frexp, ldexp, sign *)

From Coq Require Import ZArith Reals Bool.
From Flocq Require Import Core IEEE754.BinarySingleNaN IEEE754.Binary IEEE754.Bits.
From Verif.Model Require Import Base Arith Utils.
From Verif.Float Require Import Bits64 Ieee Platforms.
From Verif.Spec Require Import F64Spec.
From Verif.Proofs Require Import UtilsSpec UtilsExamples.
Open Scope Z_scope.

(** C01 *)
Theorem C01_frexp_normal : forall (P : platform) (x : f64), normal x ->
  let (m, e) := @frexp (ieee P) x in
  finite m /\ (/ 2 <= Rabs (Binary.B2R m) < 1)%R /\ scaled m e = Binary.B2R x.
Proof. exact frexp_normal. Qed.
Print Assumptions C01_frexp_normal.

Theorem C01_frexp_zero : forall (P : platform) (s : bool),
  @frexp (ieee P) (B754_zero s) = (B754_zero false, 0).
Proof. exact frexp_zero. Qed.
Print Assumptions C01_frexp_zero.

Example C01_example : normal (f64_lit (-3.25)).
Proof. exact ex_normal. Qed.

(** C02 is false: on every subnormal the decomposition is too large *)
Theorem C02_frexp_subnormal_too_large : forall (P : platform) (x : f64), subnormal x ->
  let (m, e) := @frexp (ieee P) x in (Rabs (Binary.B2R x) < Rabs (scaled m e))%R.
Proof. exact frexp_subnormal_wrong. Qed.
Print Assumptions C02_frexp_subnormal_too_large.

(** and by how much *)
Theorem C02_frexp_subnormal_value : forall (P : platform) (x : f64), subnormal x ->
  let (m, e) := @frexp (ieee P) x in
  (Rabs (scaled m e) = Rabs (Binary.B2R x) / 2 + bpow radix2 (-1023))%R.
Proof. exact frexp_subnormal. Qed.
Print Assumptions C02_frexp_subnormal_value.

Theorem C02_refuted : exists x, finite x /\ Binary.B2R x <> 0%R /\
  forall P : platform, let (m, e) := @frexp (ieee P) x in scaled m e <> Binary.B2R x.
Proof. exact frexp_refuted. Qed.
Print Assumptions C02_refuted.

Example C02_example : subnormal (@B754_finite 53 1024 true 12345 (-1074) eq_refl).
Proof. exact ex_subnormal. Qed.

(** C03 *)
Theorem C03_ldexp_exact : forall (P : platform) (x : f64) (e : Z), normal x ->
  (min_normal <= Rabs (scaled x e) < overflow)%R ->
  exists y, @ldexp (ieee P) x e = Ok y /\ finite y /\ Binary.B2R y = scaled x e
    /\ Binary.Bsign y = Binary.Bsign x.
Proof. exact ldexp_normal. Qed.
Print Assumptions C03_ldexp_exact.

Theorem C03_ldexp_trivial : forall P : platform,
  (forall x : f64, @ldexp (ieee P) x 0 = Ok x) /\
  (forall s e, @ldexp (ieee P) (B754_zero s) e = Ok (B754_zero s)).
Proof. exact ldexp_trivial. Qed.
Print Assumptions C03_ldexp_trivial.

Example C03_example : normal (f64_lit 3.25)
  /\ (min_normal <= Rabs (scaled (f64_lit 3.25) (-1000)) < overflow)%R.
Proof. exact ex_ldexp. Qed.

(** C04 is false: underflow gives an infinity, for every normal argument *)
Theorem C04_ldexp_underflow_infinite : forall (P : platform) (x : f64) (e : Z),
  normal x -> is_i32 e -> (Rabs (scaled x e) < bpow radix2 (-1075))%R ->
  @ldexp (ieee P) x e = Ok (B754_infinity (Binary.Bsign x)).
Proof. exact ldexp_underflow. Qed.
Print Assumptions C04_ldexp_underflow_infinite.

Theorem C04_refuted : exists (x : f64) (e : Z), normal x /\ is_i32 e
  /\ (Rabs (scaled x e) < bpow radix2 (-1075))%R
  /\ forall (P : platform) y, @ldexp (ieee P) x e = Ok y -> ~ finite y.
Proof. exact ldexp_underflow_refuted. Qed.
Print Assumptions C04_refuted.

Example C04_example : normal one_f64 /\ is_i32 (-2000)
  /\ (Rabs (scaled one_f64 (-2000)) < bpow radix2 (-1075))%R.
Proof. exact ex_underflow. Qed.

(** C05 *)
Theorem C05_ldexp_frexp : forall (P : platform) (x : f64), x <> B754_zero true ->
  let (m, e) := @frexp (ieee P) x in @ldexp (ieee P) m e = Ok x.
Proof. exact ldexp_frexp_id. Qed.
Print Assumptions C05_ldexp_frexp.

Theorem C05_minus_zero : forall P : platform,
  let (m, e) := @frexp (ieee P) (B754_zero true) in @ldexp (ieee P) m e = Ok (B754_zero false).
Proof. exact ldexp_frexp_minus_zero. Qed.
Print Assumptions C05_minus_zero.

Example C05_example : @B754_finite 53 1024 true 12345 (-1074) eq_refl <> (B754_zero true : f64).
Proof. exact ex_not_minus_zero. Qed.

(** C06 *)
Theorem C06_sign_bits : forall (P : platform) (a b : f64) (k : Z), 0 <= k < 64 ->
  Z.testbit (to_bits (@sign (ieee P) a b)) k
  = if k =? 63 then Z.testbit (to_bits b) 63 else Z.testbit (to_bits a) k.
Proof. exact sign_testbit. Qed.
Print Assumptions C06_sign_bits.

Example C06_example : 0 <= 63 < 64.
Proof. exact ex_bit. Qed.

(** C62: the only panic of ldexp is the i32 overflow of its exponent sum *)
Theorem C62_ldexp_panics : forall (P : platform) (x : f64) (e : Z), is_i32 e ->
  (is_panic (@ldexp (ieee P) x e) = true <->
   p_checks P = true /\ f64_eq x f64_zero = false
   /\ 2 ^ 31 <= (to_bits x / 2 ^ 52) mod 2 ^ 11 + e).
Proof. exact ldexp_panics. Qed.
Print Assumptions C62_ldexp_panics.

Example C62_example : is_panic (@ldexp (ieee (plain true false)) one_f64 (2 ^ 31 - 1)) = true.
Proof. exact ex_ldexp_panic. Qed.

(** C63 is false: overflow by less than a binade gives NaN *)
Theorem C63_ldexp_overflow_nan : forall (P : platform) (x : f64) (e : Z), normal x ->
  (overflow < Rabs (scaled x e) < 2 * overflow)%R ->
  exists y, @ldexp (ieee P) x e = Ok y /\ is_NaN y.
Proof. exact ldexp_first_overflow. Qed.
Print Assumptions C63_ldexp_overflow_nan.

Theorem C63_refuted : exists (x : f64) (e : Z), normal x /\ is_i32 e
  /\ (overflow < Rabs (scaled x e))%R
  /\ forall (P : platform) s, @ldexp (ieee P) x e <> Ok (B754_infinity s).
Proof. exact ldexp_overflow_refuted. Qed.
Print Assumptions C63_refuted.

(** beyond that the infinity of the right sign is returned *)
Theorem C63_ldexp_overflow_partial : forall (P : platform) (x : f64) (e : Z), normal x ->
  is_i32 e -> e <= 2 ^ 31 - 2048 ->
  Rabs (scaled x e) = overflow \/ (2 * overflow <= Rabs (scaled x e))%R ->
  @ldexp (ieee P) x e = Ok (B754_infinity (Binary.Bsign x)).
Proof. exact ldexp_overflow_inf. Qed.
Print Assumptions C63_ldexp_overflow_partial.

Example C63_example : normal (f64_lit 1.5)
  /\ (overflow < Rabs (scaled (f64_lit 1.5) 1024) < 2 * overflow)%R.
Proof. exact ex_overflow. Qed.

(** C64 is false: an infinity is scaled down to a finite number *)
Theorem C64_ldexp_infinity_finite : forall (P : platform) (s : bool) (e : Z),
  -2046 <= e < 0 ->
  exists y, @ldexp (ieee P) (B754_infinity s) e = Ok y /\ finite y
   /\ Binary.B2R y = ((if s then -1 else 1) * bpow radix2 (1024 + e))%R.
Proof. exact ldexp_inf. Qed.
Print Assumptions C64_ldexp_infinity_finite.

Theorem C64_refuted : exists e : Z, is_i32 e
  /\ forall (P : platform) s, @ldexp (ieee P) (B754_infinity s) e <> Ok (B754_infinity s).
Proof. exact ldexp_inf_refuted. Qed.
Print Assumptions C64_refuted.

Example C64_example : -2046 <= -1 < 0.
Proof. exact ex_inf_exp. Qed.
