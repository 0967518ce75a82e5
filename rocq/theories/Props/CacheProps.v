(** * Properties of the four caches of src/bessel.rs *)

From Coq Require Import ZArith List Bool.
From Flocq Require Import IEEE754.Binary.
From Verif.Model Require Import Base Arith Bessel Cache.
From Verif.Float Require Import Bits64 Ieee Caches Platforms.
From Verif.Spec Require Import History.
From Verif.Proofs Require Import CacheExamples.
Import ListNotations.

(** C56 *)
Theorem C56_cached_call : forall P, every_cache P (fun V f => forall ops nu x,
  snd (call f (run f ops) nu x) = f nu x).
Proof. exact cached_value. Qed.
Print Assumptions C56_cached_call.

(** C57 *)
Theorem C57_panicking_call : forall P, every_cache P (fun V f => forall ops nu x later,
  is_ok (f nu x) = false ->
  trace f (run f (ops ++ [OpCall nu x])) later = trace f (run f ops) later
  /\ snd (call f (run f ops) nu x) = f nu x).
Proof. exact cached_panic. Qed.
Print Assumptions C57_panicking_call.

Example C57_example : is_ok (@besseljy (ieee (plain true false)) (f64_lit (-1.0)) (f64_lit 3.0)) = false.
Proof. exact ex_cache_panic. Qed.

(** C58 *)
Theorem C58_contains_get : forall P, every_cache P (fun V f => forall ops nu x,
  (contains (run f ops) nu x = true <-> stored f (rev ops) nu x)
  /\ (contains (run f ops) nu x = true <-> exists v, get (run f ops) nu x = Some v)
  /\ (forall v, get (run f ops) nu x = Some v <-> stored f (rev ops) nu x /\ f nu x = Ok v)).
Proof. exact cached_contains. Qed.
Print Assumptions C58_contains_get.

Example C58_example :
  let f := @besseljy (ieee (plain true false)) in
  contains (run f [OpCall (f64_lit 0.5) (f64_lit 3.0); OpLen]) (f64_lit 0.5) (f64_lit 3.0) = true
  /\ contains (run f [OpCall (f64_lit 0.5) (f64_lit 3.0); OpLen]) (f64_lit 0.5) (f64_lit 4.0) = false
  /\ contains (run f [OpCall (f64_lit 0.5) (f64_lit 3.0); OpClear]) (f64_lit 0.5) (f64_lit 3.0) = false.
Proof. exact ex_cache_hit. Qed.

(** C59 *)
Theorem C59_len : forall P, every_cache P (fun V f => forall ops,
  (exists l : list (f64 * f64), NoDup l
     /\ (forall nu x, List.In (nu, x) l <-> contains (run f ops) nu x = true)
     /\ cache_len (run f ops) = Z.of_nat (length l))
  /\ (cache_is_empty (run f ops) = true <-> cache_len (run f ops) = 0%Z)).
Proof. exact cached_len. Qed.
Print Assumptions C59_len.

Theorem C59_read_only : forall P, every_cache P (fun V f => forall ops o later,
  read_only o -> trace f (run f (ops ++ [o])) later = trace f (run f ops) later).
Proof. exact cached_read_only. Qed.
Print Assumptions C59_read_only.

Example C59_example : read_only (@OpReserve f64 (f64 * f64) 7).
Proof. exact I. Qed.

(** C60 *)
Theorem C60_agreement : forall P, every_cache P (fun V f => forall ops1 ops2 nu x v1 v2,
  get (run f ops1) nu x = Some v1 -> get (run f ops2) nu x = Some v2 -> v1 = v2).
Proof. exact cached_agree. Qed.
Print Assumptions C60_agreement.

(** C61 *)
Theorem C61_equality_besseljy_besselik : forall P f,
  f = @besseljy (ieee P) \/ f = @besselik (ieee P) -> forall ops1 ops2,
  hm_eq f64_eq4 (run f ops1) (run f ops2) = true
  <-> (forall nu x, contains (run f ops1) nu x = contains (run f ops2) nu x)
      /\ (forall nu x v, get (run f ops1) nu x = Some v -> has_nan4 v = false).
Proof. exact cached_eq4. Qed.
Print Assumptions C61_equality_besseljy_besselik.

Theorem C61_equality_Jnu_Inu : forall P f,
  f = @Jnu_Ynu (ieee P) \/ f = @Inu_Knu (ieee P) -> forall ops1 ops2,
  hm_eq f64_eq2 (run f ops1) (run f ops2) = true
  <-> (forall nu x, contains (run f ops1) nu x = contains (run f ops2) nu x)
      /\ (forall nu x v, get (run f ops1) nu x = Some v -> has_nan2 v = false).
Proof. exact cached_eq2. Qed.
Print Assumptions C61_equality_Jnu_Inu.
