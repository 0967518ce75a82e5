(** * Bessel functions of the second kind, by their ascending series

    With t = x / 2, g Euler's constant and H_k the harmonic numbers,

    K_n(x) = 1/2 sum_(k < n) (-1)^k (n - k - 1)! / k! t^(2k - n)
             - (-1)^n ((ln t + g) I_n(x) - 1/2 sum_k (H_k + H_(n+k)) t^(2k + n) / (k! (n + k)!)),

    and - pi / 2 Y_n(x) is the same expression with J_n for I_n and the signs
    (-1)^k moved from the finite sum to the infinite one (DLMF 10.31.1 and
    10.8.1).  Both are [is_second s] below, with s = 1 and s = -1. *)

From Coq Require Import Reals.
From Verif.Spec Require Import BesselSpec.
Open Scope R_scope.

Fixpoint harmonic (k : nat) : R :=
  match k with O => 0 | S k' => harmonic k' + / INR k end.

(** Euler's constant *)
Definition is_euler (g : R) : Prop := Un_cv (fun n => harmonic n - ln (INR n)) g.

(** sum of f k over k < n *)
Fixpoint sum_below (f : nat -> R) (n : nat) : R :=
  match n with O => 0 | S n' => sum_below f n' + f n' end.

Definition fterm (s : R) (n : nat) (x : R) (k : nat) : R :=
  (- s) ^ k * (INR (fact (n - k - 1)) / INR (fact k)) * ((x / 2) ^ (2 * k) / (x / 2) ^ n).

Definition hterm (s : R) (n : nat) (x : R) (k : nat) : R :=
  (harmonic k + harmonic (n + k)) * bterm s n x k.

Definition is_second (s : R) (n : nat) (x v : R) : Prop :=
  exists g b h, is_euler g /\ infinite_sum (bterm s n x) b /\ infinite_sum (hterm s n x) h /\
  v = / 2 * sum_below (fterm s n x) n - (- s) ^ n * ((ln (x / 2) + g) * b - h / 2).

Definition is_K (n : nat) (x v : R) : Prop := is_second 1 n x v.
Definition is_Y (n : nat) (x v : R) : Prop := exists w, is_second (-1) n x w /\ v = - (2 / PI) * w.
