(** * Vocabulary for statements about f64: kinds of values, real value, rounding *)

From Coq Require Import ZArith Reals.
From Flocq Require Import Core IEEE754.BinarySingleNaN IEEE754.Binary.
From Verif.Float Require Import Bits64.
Open Scope R_scope.

Definition finite (x : f64) : Prop := Binary.is_finite x = true.
Definition is_NaN (x : f64) : Prop := Binary.is_nan x = true.
(** not a NaN: finite or infinite *)
Definition number (x : f64) : Prop := Binary.is_nan x = false.

(** overflow threshold, 2^1024 *)
Definition Om : R := bpow radix2 1024.
Notation overflow := Om.
(** Smallest positive normal number, 2^-1022 *)
Definition min_normal : R := bpow radix2 (-1022).

(** The value of a number, with the infinities at +-2^1024 so that the order
    of numbers is the order of their values. *)
Definition val (x : f64) : R :=
  match x with
  | B754_infinity s => if s then - Om else Om
  | _ => Binary.B2R x
  end.

(** Rounding to nearest even, with unbounded exponent range upwards *)
Definition rnd (r : R) : R := round radix2 (SpecFloat.fexp 53 1024) ZnearestE r.

(** Same bits, or both NaN *)
Definition eqn (x y : f64) : Prop :=
  x = y \/ (Binary.is_nan x = true /\ Binary.is_nan y = true).
Infix "~=" := eqn (at level 70).

(** Numerically equal, [x == y] in Rust, or both NaN; it identifies the two
    zeros *)
Definition eqz (x y : f64) : Prop :=
  (is_NaN x /\ is_NaN y) \/ (number x /\ number y /\ val x = val y).

Definition normal (x : f64) : Prop := finite x /\ (min_normal <= Rabs (Binary.B2R x))%R.
Definition subnormal (x : f64) : Prop :=
  finite x /\ (0 < Rabs (Binary.B2R x) < min_normal)%R.

(** Real value of a pair (m, e) returned by frexp *)
Definition scaled (m : f64) (e : Z) : R := (Binary.B2R m * bpow radix2 e)%R.

(** i32 *)
Definition is_i32 (e : Z) : Prop := (- 2 ^ 31 <= e < 2 ^ 31)%Z.
