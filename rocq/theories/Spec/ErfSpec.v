(** * The complementary error function

    erfc x = 2 / sqrt PI * (the integral of exp (- t^2) from x to infinity),
    stated by its derivative and its limit. *)

From Coq Require Import Reals.
Open Scope R_scope.

Definition erfc_function (E : R -> R) : Prop :=
  (forall x, derivable_pt_lim E x (- (2 / sqrt PI) * exp (- (x * x)))) /\
  (forall eps, 0 < eps -> exists B, forall x, B <= x -> Rabs (E x) <= eps).

(** the scaled complementary error function, exp (x^2) erfc x *)
Definition scaled_erfc (E : R -> R) (x : R) : R := exp (x * x) * E x.

(** the error function: erf x = 2 / sqrt PI * (the integral of exp (- t^2) from 0 to x) *)
Definition erf_function (F : R -> R) : Prop :=
  (forall x, derivable_pt_lim F x (2 / sqrt PI * exp (- (x * x)))) /\ F 0 = 0.
