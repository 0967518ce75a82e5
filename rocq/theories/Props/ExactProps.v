(** * Properties in exact arithmetic: reflection of betai, Wronskians *)

From Coq Require Import ZArith Reals.
From Verif.Model Require Import Base Arith Beta Bessel.
From Verif.Float Require Import Exact.
From Verif.Spec Require Import Lower.
From Verif.Proofs Require Import BetaSym Wronskian WronskianExamples.
Open Scope R_scope.

(** C25: [u] and [v] are the values of betai at (a, b, x) and (b, a, 1 - x);
    the last hypothesis says the two calls switch to the complement on
    opposite sides. *)
Theorem C25_betai_swap : forall (fma chk : bool) (a b x : R),
  0 < a -> 0 < b -> ~ (3000 < a /\ 3000 < b) -> 0 < x < 1 ->
  (x < (a + 1) / (a + 2 * b) <-> (b + 1) / (b + 2 * a) <= 1 - x) ->
  exists u v : R, @betai (exact fma chk) a b x = Ok u /\
                  @betai (exact fma chk) b a (1 - x)%R = Ok v /\ u + v = 1.
Proof. exact betai_swap. Qed.
Print Assumptions C25_betai_swap.

Example C25_example : 1 / 4 < (2 + 1) / (2 + 2 * 3) /\ (3 + 1) / (3 + 2 * 2) <= 1 - 1 / 4.
Proof. exact ex_switch. Qed.

(** C52: [lowered x n nu J J'] is the value of J carried down to the base
    order. *)
Theorem C52_besseljy_wronskian : forall (fma chk : bool) (nu x j y j' y' : R) (n : nat),
  nu < 2 ^ 63 -> order_steps nu x n ->
  @besseljy (exact fma chk) nu x = Ok (j, y, j', y') ->
  lowered x n nu j j' <> 0 -> (y <> 0 \/ y' <> 0) ->
  j * y' - j' * y = 2 / (R_of_dec 3.14159265358979323846264338327950288 * x).
Proof. exact besseljy_wronskian. Qed.
Print Assumptions C52_besseljy_wronskian.

Example C52_example : forall fma chk : bool,
  order_steps 1 (1 / 1099511627776) 1 /\
  exists j y j' y' : R, @besseljy (exact fma chk) 1 (1 / 1099511627776)%R = Ok (j, y, j', y') /\
    lowered (1 / 1099511627776) 1 1 j j' <> 0 /\ y <> 0.
Proof. exact (fun fma chk => conj ex_steps (ex_besseljy fma chk)). Qed.

(** C53 *)
Theorem C53_besselik_wronskian : forall (fma chk : bool) (nu x i k i' k' : R),
  @besselik (exact fma chk) nu x = Ok (i, k, i', k') -> i <> 0 -> i * k' - i' * k = - 1 / x.
Proof. exact besselik_wronskian. Qed.
Print Assumptions C53_besselik_wronskian.

Example C53_example : forall fma chk : bool, exists i k i' k' : R,
  @besselik (exact fma chk) 1 (1 / 1099511627776)%R = Ok (i, k, i', k') /\ i <> 0.
Proof. exact ex_besselik. Qed.
