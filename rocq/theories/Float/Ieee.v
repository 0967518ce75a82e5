(** * The IEEE-754 reading of the model

    [ieee P] interprets the operations of [Model.Arith] as Rust does on
    binary64, round to nearest even.  The record [platform] collects what
    Rust leaves to the target: NaN payloads, the libm functions, which
    operand [min]/[max] return when they compare equal (-0.0 and 0.0), fused
    multiply-add, and overflow checks.  Theorems quantify over it. *)

From Coq Require Import ZArith Bool.
From Flocq Require Import Core IEEE754.BinarySingleNaN IEEE754.Binary IEEE754.Bits.
From Verif.Model Require Import Base Arith.
From Verif.Float Require Import Bits64.
Open Scope Z_scope.

Record platform : Type := Platform {
  p_add_nan : f64 -> f64 -> f64_nan;
  p_sub_nan : f64 -> f64 -> f64_nan;
  p_mul_nan : f64 -> f64 -> f64_nan;
  p_div_nan : f64 -> f64 -> f64_nan;
  p_un_nan : f64 -> f64_nan;
  p_fma_nan : f64 -> f64 -> f64 -> f64_nan;
  p_exp : f64 -> f64;
  p_ln : f64 -> f64;
  p_sin : f64 -> f64;
  p_cos : f64 -> f64;
  p_sinh : f64 -> f64;
  p_cosh : f64 -> f64;
  p_powf : f64 -> f64 -> f64;
  p_cexp : f64 * f64 -> f64 * f64;
  p_tie : f64 -> f64 -> bool;
  p_fma : bool;
  p_checks : bool;
}.

(** Correctly rounded decimal literal (Rust's literal parsing is exact
    rounding to nearest even). *)
Definition lit_ratio (s : bool) (m : positive) (d : positive) : f64 :=
  Binary.BSN2B 53 1024 default_nan
    (SF2B _ (proj1 (Bdiv_correct_aux 53 1024 prec_gt_0_64 prec_lt_emax_64 mode_NE s m 0 false d 0))).

Definition f64_of_Z (z : Z) : f64 :=
  Binary.binary_normalize 53 1024 prec_gt_0_64 prec_lt_emax_64 mode_NE z 0 false.

Definition f64_lit (d : dec) : f64 :=
  if 0 <=? dexp d then f64_of_Z (dman d * 10 ^ dexp d)
  else
    match dman d with
    | Z0 => f64_zero
    | Zpos m => lit_ratio false m (Z.to_pos (10 ^ (- dexp d)))
    | Zneg m => lit_ratio true m (Z.to_pos (10 ^ (- dexp d)))
    end.

Definition f64_lt (x y : f64) : bool :=
  match Binary.Bcompare x y with Some Lt => true | _ => false end.

Definition f64_le (x y : f64) : bool :=
  match Binary.Bcompare x y with Some Lt | Some Eq => true | _ => false end.

(** [-x], [x.abs()], [x.copysign(y)] only touch the sign bit, also on NaN. *)
Definition f64_set_sign (s : bool) (x : f64) : f64 :=
  match x with
  | B754_zero _ => B754_zero s
  | B754_infinity _ => B754_infinity s
  | B754_nan _ pl H => B754_nan s pl H
  | B754_finite _ m e H => B754_finite s m e H
  end.

Definition f64_sign (x : f64) : bool :=
  match x with
  | B754_zero s => s
  | B754_infinity s => s
  | B754_nan s _ _ => s
  | B754_finite s _ _ _ => s
  end.

Definition f64_neg (x : f64) : f64 := f64_set_sign (negb (f64_sign x)) x.
Definition f64_abs (x : f64) : f64 := f64_set_sign false x.
Definition f64_copysign (x y : f64) : f64 := f64_set_sign (f64_sign y) x.

Definition f64_is_nan (x : f64) : bool := Binary.is_nan x.
Definition f64_is_infinite (x : f64) : bool :=
  match x with B754_infinity _ => true | _ => false end.

(** saturating float-to-integer cast *)
Definition f64_to_int (lo hi : Z) (x : f64) : Z :=
  match x with
  | B754_zero _ => Z.max lo (Z.min hi 0)
  | B754_infinity s => if s then lo else hi
  | B754_nan _ _ _ => 0
  | B754_finite _ _ _ _ => Z.max lo (Z.min hi (Binary.Btrunc x))
  end.

Section Ieee.
  Context (P : platform).

  Definition un_nan (x : f64) : f64 := proj1_sig (p_un_nan P x).

  (** A NaN argument gives a NaN result; otherwise the platform decides. *)
  Definition libm (f : f64 -> f64) (x : f64) : f64 :=
    if f64_is_nan x then un_nan x else f x.

  Definition f64_max (x y : f64) : f64 :=
    if f64_is_nan x then y
    else if f64_is_nan y then x
    else if f64_lt x y then y
    else if f64_lt y x then x
    else if p_tie P x y then x else y.

  Definition f64_min (x y : f64) : f64 :=
    if f64_is_nan x then y
    else if f64_is_nan y then x
    else if f64_lt x y then x
    else if f64_lt y x then y
    else if p_tie P x y then x else y.

  Definition f64_add (x y : f64) : f64 :=
    Binary.Bplus prec_gt_0_64 prec_lt_emax_64 (p_add_nan P) mode_NE x y.
  Definition f64_sub (x y : f64) : f64 :=
    Binary.Bminus prec_gt_0_64 prec_lt_emax_64 (p_sub_nan P) mode_NE x y.
  Definition f64_mul (x y : f64) : f64 :=
    Binary.Bmult prec_gt_0_64 prec_lt_emax_64 (p_mul_nan P) mode_NE x y.
  Definition f64_div (x y : f64) : f64 :=
    Binary.Bdiv prec_gt_0_64 prec_lt_emax_64 (p_div_nan P) mode_NE x y.
  Definition f64_sqrt (x : f64) : f64 :=
    Binary.Bsqrt prec_gt_0_64 prec_lt_emax_64 (p_un_nan P) mode_NE x.
  Definition f64_floor (x : f64) : f64 :=
    Binary.Bnearbyint prec_lt_emax_64 (p_un_nan P) mode_DN x.
  Definition f64_trunc (x : f64) : f64 :=
    Binary.Bnearbyint prec_lt_emax_64 (p_un_nan P) mode_ZR x.
  Definition f64_fma (x y z : f64) : f64 :=
    Binary.Bfma prec_gt_0_64 prec_lt_emax_64 (p_fma_nan P) mode_NE x y z.

  Definition ieee : arith := {|
    F := f64;
    lit := f64_lit;
    of_int := f64_of_Z;
    to_int := f64_to_int;
    add := f64_add;
    sub := f64_sub;
    mul := f64_mul;
    div := f64_div;
    neg := f64_neg;
    abs := f64_abs;
    sqrt := f64_sqrt;
    floor := f64_floor;
    trunc := f64_trunc;
    lt := f64_lt;
    le := f64_le;
    eq := f64_eq;
    is_nan := f64_is_nan;
    is_infinite := f64_is_infinite;
    is_sign_positive := fun x => negb (f64_sign x);
    nan := f64_NAN;
    infinity := f64_INF;
    epsilon := @B754_finite 53 1024 false (2 ^ 52) (-104) eq_refl;
    min_positive := @B754_finite 53 1024 false (2 ^ 52) (-1074) eq_refl;
    copysign := f64_copysign;
    fmax := f64_max;
    fmin := f64_min;
    exp := libm (p_exp P);
    ln := libm (p_ln P);
    sin := libm (p_sin P);
    cos := libm (p_cos P);
    sinh := libm (p_sinh P);
    cosh := libm (p_cosh P);
    powf := p_powf P;
    cexp := p_cexp P;
    fused_mul_add := f64_fma;
    has_fma := p_fma P;
    checks := p_checks P;
    frexp := frexp_bits (p_mul_nan P);
    ldexp := ldexp_bits (p_checks P);
  |}.
End Ieee.
