(** * Concrete platforms, for examples

    [plain checks fma] is a computable platform: every libm function is the
    constant 1 (so it is not a realistic libm; it serves to evaluate code that
    calls no libm function, and to show hypotheses about integers, NaN and
    signs satisfiable). *)

From Coq Require Import ZArith Reals Bool.
From Flocq Require Import Core IEEE754.BinarySingleNaN IEEE754.Binary IEEE754.Bits.
From Verif.Model Require Import Base Arith.
From Verif.Float Require Import Bits64 Ieee.

Definition one_f64 : f64 := @B754_finite 53 1024 false (2 ^ 52) (-52) eq_refl.

Definition plain (checks fma : bool) : platform := {|
  p_add_nan := fun _ _ => default_nan;
  p_sub_nan := fun _ _ => default_nan;
  p_mul_nan := fun _ _ => default_nan;
  p_div_nan := fun _ _ => default_nan;
  p_un_nan := fun _ => default_nan;
  p_fma_nan := fun _ _ _ => default_nan;
  p_exp := fun _ => one_f64;
  p_ln := fun _ => one_f64;
  p_sin := fun _ => one_f64;
  p_cos := fun _ => one_f64;
  p_sinh := fun _ => one_f64;
  p_cosh := fun _ => one_f64;
  p_powf := fun _ _ => one_f64;
  p_cexp := fun _ => (one_f64, one_f64);
  p_tie := fun _ _ => true;
  p_fma := fma;
  p_checks := checks;
|}.

(** A real number rounded to the nearest f64, ties to even. *)
Definition round_to_f64 (r : R) : f64 :=
  Binary.binary_normalize 53 1024 prec_gt_0_64 prec_lt_emax_64 mode_NE
    (ZnearestE (scaled_mantissa radix2 (SpecFloat.fexp 53 1024) r))
    (Generic_fmt.cexp radix2 (SpecFloat.fexp 53 1024) r) false.

(** The same platform, with every arithmetic operation returning the canonical
    quiet NaN. *)
Definition canonical_nan (P : platform) : platform := {|
  p_add_nan := fun _ _ => default_nan;
  p_sub_nan := fun _ _ => default_nan;
  p_mul_nan := fun _ _ => default_nan;
  p_div_nan := fun _ _ => default_nan;
  p_un_nan := fun _ => default_nan;
  p_fma_nan := fun _ _ _ => default_nan;
  p_exp := p_exp P;
  p_ln := p_ln P;
  p_sin := p_sin P;
  p_cos := p_cos P;
  p_sinh := p_sinh P;
  p_cosh := p_cosh P;
  p_powf := p_powf P;
  p_cexp := p_cexp P;
  p_tie := p_tie P;
  p_fma := p_fma P;
  p_checks := p_checks P;
|}.

(** The same platform with a crude exp: 0 below zero, 2 from zero on. *)
Definition step_exp (P : platform) : platform := {|
  p_add_nan := p_add_nan P; p_sub_nan := p_sub_nan P; p_mul_nan := p_mul_nan P;
  p_div_nan := p_div_nan P; p_un_nan := p_un_nan P; p_fma_nan := p_fma_nan P;
  p_exp := fun x => if f64_lt x f64_zero then f64_zero else f64_lit 2.0;
  p_ln := p_ln P; p_sin := p_sin P; p_cos := p_cos P; p_sinh := p_sinh P; p_cosh := p_cosh P;
  p_powf := p_powf P; p_cexp := p_cexp P; p_tie := p_tie P; p_fma := p_fma P; p_checks := p_checks P |}.

(** A libm that rounds the exact real result correctly, with the special
    values of C's libm.  Not computable; it serves as a realistic witness. *)
Definition ideal_exp (x : f64) : f64 :=
  match x with
  | B754_infinity s => if s then f64_zero else B754_infinity false
  | B754_nan _ _ _ => x
  | _ => round_to_f64 (Rtrigo_def.exp (Binary.B2R x))
  end.
Definition ideal_ln (x : f64) : f64 :=
  match x with
  | B754_zero _ => B754_infinity true
  | B754_infinity s => if s then f64_NAN else x
  | B754_nan _ _ _ => x
  | B754_finite s _ _ _ => if s then f64_NAN else round_to_f64 (Rpower.ln (Binary.B2R x))
  end.
(** functions with f(-0) = -0 *)
Definition ideal_odd (f : R -> R) (at_inf : f64 -> f64) (x : f64) : f64 :=
  match x with
  | B754_finite _ _ _ _ => round_to_f64 (f (Binary.B2R x))
  | B754_infinity _ => at_inf x
  | _ => x
  end.
Definition ideal_even (f : R -> R) (at_inf : f64 -> f64) (x : f64) : f64 :=
  match x with
  | B754_finite _ _ _ _ | B754_zero _ => round_to_f64 (f (Binary.B2R x))
  | B754_infinity _ => at_inf x
  | _ => x
  end.
(** only for finite arguments with positive base; 1 otherwise *)
Definition ideal_powf (x y : f64) : f64 :=
  match x, y with
  | B754_finite false _ _ _, (B754_finite _ _ _ _ | B754_zero _) =>
      round_to_f64 (Rpower (Binary.B2R x) (Binary.B2R y))
  | _, _ => one_f64
  end.
(** only for finite arguments; NaN otherwise *)
Definition ideal_cexp (z : f64 * f64) : f64 * f64 :=
  if andb (Binary.is_finite (fst z)) (Binary.is_finite (snd z)) then
    let a := Binary.B2R (fst z) in let b := Binary.B2R (snd z) in
    (round_to_f64 (Rtrigo_def.exp a * Rtrigo_def.cos b), round_to_f64 (Rtrigo_def.exp a * Rtrigo_def.sin b))
  else (f64_NAN, f64_NAN).

Definition ideal (checks fma : bool) : platform := {|
  p_add_nan := fun _ _ => default_nan;
  p_sub_nan := fun _ _ => default_nan;
  p_mul_nan := fun _ _ => default_nan;
  p_div_nan := fun _ _ => default_nan;
  p_un_nan := fun _ => default_nan;
  p_fma_nan := fun _ _ _ => default_nan;
  p_exp := ideal_exp;
  p_ln := ideal_ln;
  p_sin := ideal_odd Rtrigo_def.sin (fun _ => f64_NAN);
  p_cos := ideal_even Rtrigo_def.cos (fun _ => f64_NAN);
  p_sinh := ideal_odd Rtrigo_def.sinh (fun x => x);
  p_cosh := ideal_even Rtrigo_def.cosh f64_abs;
  p_powf := ideal_powf;
  p_cexp := ideal_cexp;
  p_tie := fun _ _ => true;
  p_fma := fma;
  p_checks := checks;
|}.
