(** * Dawson's integral *)

From Coq Require Import Reals.
Open Scope R_scope.

(** D is Dawson's integral on [-b, b]: the solution of D' = 1 - 2 x D with
    D(0) = 0, that is D(x) = exp(-x^2) * (integral of exp(t^2) from 0 to x). *)
Definition dawson_integral (D : R -> R) (b : R) : Prop :=
  D 0 = 0 /\ forall t, Rabs t <= b -> derivable_pt_lim D t (1 - 2 * t * D t).
