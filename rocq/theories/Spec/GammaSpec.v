(** * The gamma function

    By the theorem of Bohr and Mollerup the gamma function is the only
    function with these properties. *)

From Coq Require Import Reals.
Open Scope R_scope.

Definition gamma_function (G : R -> R) : Prop :=
  (forall x, 0 < x -> 0 < G x) /\
  G 1 = 1 /\
  (forall x, (forall n, x <> - INR n) -> G (x + 1) = x * G x) /\
  (forall x y t, 0 < x -> 0 < y -> 0 <= t <= 1 ->
     ln (G (t * x + (1 - t) * y)) <= t * ln (G x) + (1 - t) * ln (G y)).
