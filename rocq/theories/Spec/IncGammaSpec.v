(** * The regularized lower incomplete gamma function

    P(a, x) = 1 / Gamma(a) * (the integral of t^(a-1) exp(-t) from 0 to x),
    stated by its derivative in x and its limit at 0. *)

From Coq Require Import Reals.
Open Scope R_scope.

Definition lower_inc_gamma (G : R -> R) (a : R) (p : R -> R) : Prop :=
  (forall x, 0 < x -> derivable_pt_lim p x (Rpower x (a - 1) * exp (- x) / G a)) /\
  (forall eps, 0 < eps -> exists d, 0 < d /\ forall x, 0 < x < d -> Rabs (p x) <= eps).
