(** * The regularized incomplete beta function

    I_x(a, b) = Gamma(a+b) / (Gamma(a) Gamma(b)) * (the integral of
    t^(a-1) (1-t)^(b-1) from 0 to x), stated by its derivative in x and its
    limit at 0. *)

From Coq Require Import Reals.
Open Scope R_scope.

Definition reg_inc_beta (G : R -> R) (a b : R) (I : R -> R) : Prop :=
  (forall x, 0 < x < 1 -> derivable_pt_lim I x (G (a + b) / (G a * G b) * (Rpower x (a - 1) * Rpower (1 - x) (b - 1)))) /\
  (forall eps, 0 < eps -> exists d, 0 < d /\ forall x, 0 < x < d -> Rabs (I x) <= eps).
