(** * Lowering the order of a Bessel function, over the reals

    J_{v-1} = (v/x) J_v + J'_v  and  J'_{v-1} = ((v-1)/x) J_{v-1} - J_v. *)

From Coq Require Import Reals ZArith.
Open Scope R_scope.

(** The value at order [v - n], from the value and derivative at order [v] *)
Fixpoint lowered (x : R) (n : nat) (v j j' : R) : R :=
  match n with
  | O => j
  | S n' =>
      let j1 := v / x * j + j' in
      let j1' := (v - 1) / x * j1 - j in
      lowered x n' (v - 1) j1 j1'
  end.

(** The order is lowered to one near zero if x < 2, and otherwise to one just
    below x. *)
Definition order_steps (v x : R) (n : nat) : Prop :=
  (x < 2 -> IZR (Z.of_nat n) <= v + 1 / 2 < IZR (Z.of_nat n) + 1) /\
  (2 <= x -> v - x + 3 / 2 < 1 -> n = O) /\
  (2 <= x -> 1 <= v - x + 3 / 2 -> IZR (Z.of_nat n) <= v - x + 3 / 2 < IZR (Z.of_nat n) + 1).
