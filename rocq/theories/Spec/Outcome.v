(** * Vocabulary for outcomes of calls and for signs of arguments *)

From Coq Require Import Reals.
From Flocq Require Import Core.
From Verif.Model Require Import Base.
From Verif.Float Require Import Bits64 Ieee.
From Verif.Spec Require Import F64Spec.
Open Scope R_scope.

Definition returns {A : Type} (m : res A) : Prop := exists r, m = Ok r.
Definition panics {A : Type} (m : res A) : Prop := exists p, m = Panic p.

(** Comparisons with real numbers; a NaN satisfies none of them.  Infinities
    are included: their value is +-2^1024. *)
Definition positive (x : f64) : Prop := number x /\ 0 < val x.
Definition nonneg (x : f64) : Prop := number x /\ 0 <= val x.
Definition between (lo hi : R) (x : f64) : Prop := number x /\ lo <= val x <= hi.

(** A function of the platform's libm never returns a negative number (it may
    return NaN). *)
Definition never_negative (f : f64 -> f64) : Prop :=
  forall x, number x -> is_NaN (f x) \/ 0 <= val (f x).

(** A function of the platform's libm is at least 1 on nonnegative numbers, as
    exp is. *)
Definition at_least_1 (f : f64 -> f64) : Prop :=
  forall t, nonneg t -> number (f t) /\ 1 <= val (f t).

(** Crude bounds satisfied by every reasonable exp: at least 1/4 on [-1, 0],
    at least 2^-100 on [-30, 0], at most 1 on both. *)
Definition plausible_exp (f : f64 -> f64) : Prop :=
  (forall t, number t -> -1 <= val t <= 0 -> between (1 / 4) 1 (f t))
  /\ (forall t, number t -> -30 <= val t <= 0 -> between (bpow radix2 (-100)) 1 (f t)).

(** [r'] is [-r]: bit for bit, or both are NaN, or both are zeros *)
Definition opposite (r r' : f64) : Prop :=
  r' ~= f64_neg r \/ (number r /\ number r' /\ val r = 0 /\ val r' = 0).

(** Two calls with related outcomes: both return related values, or both
    panic in the same way *)
Definition same_outcome {A B : Type} (rel : A -> B -> Prop) (m : res A) (m' : res B) : Prop :=
  match m, m' with
  | Ok a, Ok b => rel a b
  | Panic p, Panic p' => p = p'
  | _, _ => False
  end.

(** ln of a negative number is NaN, as in every libm. *)
Definition ln_of_negative_is_NaN (f : f64 -> f64) : Prop :=
  forall t, number t -> val t < 0 -> is_NaN (f t).

(** Crude bounds satisfied by every reasonable ln on [0.01, 0.3]. *)
Definition plausible_ln (f : f64 -> f64) : Prop :=
  forall t, number t -> 0.01 <= val t <= 0.3 -> between (-5) (-1.15) (f t).

(** ln with relative error at most 2^-50 (plus 2^-1000) on the positive finite
    numbers. *)
Definition accurate_ln (f : f64 -> f64) : Prop :=
  forall t, number t -> 0 < val t < bpow radix2 1024 ->
  number (f t) /\ Rabs (val (f t) - ln (val t)) <= bpow radix2 (-50) * Rabs (ln (val t)) + bpow radix2 (-1000).

(** exp underflows to a zero: e^-1000 is far below the least positive f64. *)
Definition exp_underflows (f : f64 -> f64) : Prop :=
  forall t, number t -> val t <= -1000 -> number (f t) /\ val (f t) = 0.
