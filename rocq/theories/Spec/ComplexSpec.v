(** * Vocabulary for complex results: pairs (re, im) of f64 *)

From Coq Require Import Reals.
From Flocq Require Import Core.
From Verif.Model Require Import Base.
From Verif.Float Require Import Bits64 Ieee.
From Verif.Spec Require Import F64Spec.
Open Scope R_scope.

(** [w'] is the conjugate of [w]; zeros of either sign are identified, and so
    are NaNs *)
Definition conjugates (w w' : f64 * f64) : Prop :=
  eqz (fst w') (fst w) /\ eqz (snd w') (f64_neg (snd w)).

(** A complex function of the platform maps conjugate arguments to conjugate
    values, as exp does. *)
Definition commutes_with_conjugation (f : f64 * f64 -> f64 * f64) : Prop :=
  forall a b a' b', eqz a' a -> eqz b' (f64_neg b) -> conjugates (f (a, b)) (f (a', b')).

(** |x|^2 + y^2 in f64 arithmetic *)
Definition modulus_sq (P : platform) (x y : f64) : f64 :=
  f64_add P (f64_mul P (f64_abs x) (f64_abs x)) (f64_mul P y y).

(** [a] is below 1e-8 times [b] in absolute value, in f64 arithmetic *)
Definition negligible (P : platform) (a b : f64) : Prop :=
  f64_lt (f64_abs a) (f64_mul P (f64_lit 1e-8) (f64_abs b)) = true.
