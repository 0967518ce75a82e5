(** * The four caches of src/bessel.rs over IEEE numbers *)

From Coq Require Import ZArith List.
From Verif.Model Require Import Base Arith Bessel Cache.
From Verif.Float Require Import Bits64 Ieee.

(** The cached functions: src/bessel.rs:519-557 [CachedBesselJY], 731-770
    [CachedBesselIK], 789-826 [CachedJnuYnu], 846-883 [CachedInuKnu].
    [every_cache P Q] says that [Q] holds of each of the four. *)
Definition every_cache (P : platform)
    (Q : forall V : Type, (f64 -> f64 -> res V) -> Prop) : Prop :=
  Q _ (@besseljy (ieee P)) /\ Q _ (@besselik (ieee P))
  /\ Q _ (@Jnu_Ynu (ieee P)) /\ Q _ (@Inu_Knu (ieee P)).

Section Caches.
  Context {V : Type} (f : f64 -> f64 -> res V).

  (** State of a cache after a history of public operations *)
  Definition run (ops : list (op f64 V)) : cache := cache_run to_bits from_bits f ops.
  (** A cached call: new state and outcome *)
  Definition call (c : cache) (nu x : f64) : cache * res V := cache_call to_bits f c nu x.
  (** [contains], [get] *)
  Definition contains (c : @cache V) (nu x : f64) : bool := cache_contains to_bits c nu x.
  Definition get (c : @cache V) (nu x : f64) : option V := cache_get to_bits c nu x.
  (** Outputs of further operations *)
  Definition trace (c : cache) (ops : list (op f64 V)) : list (out V) :=
    cache_trace to_bits from_bits f c ops.
End Caches.

(** derived [PartialEq] on the stored tuples (src/bessel.rs:520, 732, 790,
    847): component-wise [==] of f64 *)
Definition f64_eq2 (a b : f64 * f64) : bool :=
  f64_eq (fst a) (fst b) && f64_eq (snd a) (snd b).
Definition f64_eq4 (a b : f64 * f64 * f64 * f64) : bool :=
  let '(a1, a2, a3, a4) := a in
  let '(b1, b2, b3, b4) := b in
  f64_eq a1 b1 && f64_eq a2 b2 && f64_eq a3 b3 && f64_eq a4 b4.
