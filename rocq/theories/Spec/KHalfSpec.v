(** * Specification: the modified Bessel function K at half-integer orders

    The closed form (DLMF 10.49.12 with 10.47.9): K_{n+1/2}(x) is
    sqrt (pi / (2 x)) exp (- x) times the polynomial of degree n in 1 / x with
    the coefficients (n + k)! / (2^k k! (n - k)!). *)

From Coq Require Import Reals.
Open Scope R_scope.

Definition half_coef (n k : nat) : R := INR (fact (n + k)) / (2 ^ k * INR (fact k) * INR (fact (n - k))).

Definition K_half (n : nat) (x : R) : R :=
  sqrt (PI / (2 * x)) * exp (- x) * sum_f_R0 (fun k => half_coef n k * (/ x) ^ k) n.
