(** * Bessel functions of integer order, by their power series

    J_n(x) = sum over k of (-1)^k (x/2)^(2k+n) / (k! (k+n)!),
    I_n(x) = the same series without the signs. *)

From Coq Require Import Reals.
Open Scope R_scope.

Definition bterm (s : R) (n : nat) (x : R) (k : nat) : R :=
  s ^ k * (x / 2) ^ (2 * k + n) / (INR (fact k) * INR (fact (k + n))).

Definition is_J (n : nat) (x v : R) : Prop := infinite_sum (bterm (-1) n x) v.
Definition is_I (n : nat) (x v : R) : Prop := infinite_sum (bterm 1 n x) v.
