(** * Model of the caches of src/bessel.rs

    The four cache types ([CachedBesselJY], [CachedBesselIK], [CachedJnuYnu],
    [CachedInuKnu]) have the same code up to the cached function and the type
    of its values; the model is written once over those parameters and
    instantiated in [Float.Caches].

    [std::collections::HashMap] is modelled as an association list without
    duplicate keys.  Capacity, allocation and iteration order are not
    modelled.  A [retain] closure is a predicate on (nu, x, value): keys are
    distinct, so a stateful closure is called at most once per entry, and
    whatever it answers (or if it panics half-way) the entries kept are those
    selected by some predicate. *)

From Coq Require Import ZArith List Bool.
From Verif.Model Require Import Base.
Import ListNotations.

(** [HashMap<(u64, u64), V>] *)
Definition key : Type := (Z * Z)%type.

Definition key_eqb (k1 k2 : key) : bool :=
  (fst k1 =? fst k2)%Z && (snd k1 =? snd k2)%Z.

Section HashMap.
  Context {V : Type}.

  (** std [HashMap::get] *)
  Fixpoint hm_get (m : list (key * V)) (k : key) : option V :=
    match m with
    | [] => None
    | (k', v) :: m' => if key_eqb k k' then Some v else hm_get m' k
    end.

  (** std [HashMap::insert]: replaces the value of an existing key *)
  Fixpoint hm_insert (m : list (key * V)) (k : key) (v : V) : list (key * V) :=
    match m with
    | [] => [(k, v)]
    | (k', v') :: m' => if key_eqb k k' then (k', v) :: m' else (k', v') :: hm_insert m' k v
    end.

  (** std [HashMap::retain] *)
  Definition hm_retain (p : key -> V -> bool) (m : list (key * V)) : list (key * V) :=
    filter (fun kv => p (fst kv) (snd kv)) m.

  (** std [impl PartialEq for HashMap]: same length, and every entry of the
      left is matched by an equal value on the right *)
  Definition hm_eq (veq : V -> V -> bool) (m1 m2 : list (key * V)) : bool :=
    Nat.eqb (length m1) (length m2)
    && forallb (fun kv => match hm_get m2 (fst kv) with
                          | Some v2 => veq (snd kv) v2
                          | None => false
                          end) m1.
End HashMap.

Section Cache.
  Context {F V : Type}.
  (** [f64::to_bits], [f64::from_bits] *)
  Context (to_bits : F -> Z) (from_bits : Z -> F).
  (** the cached function: [besseljy], [besselik], [Jnu_Ynu] or [Inu_Knu] *)
  Context (f : F -> F -> res V).

  (** src/bessel.rs:521, 733, 791, 848: the cache structs *)
  Definition cache : Type := list (key * V).

  (** the key tuple, e.g. src/bessel.rs:455, 548 *)
  Definition key_of (nu x : F) : key := (to_bits nu, to_bits x).

  (** src/bessel.rs:438-440 [new], 448-450 [with_capacity] and
      [Default::default] *)
  Definition cache_new : cache := [].

  (** src/bessel.rs:454-456 [contains] *)
  Definition cache_contains (c : cache) (nu x : F) : bool :=
    match hm_get c (key_of nu x) with Some _ => true | None => false end.

  (** src/bessel.rs:467-469 [get] *)
  Definition cache_get (c : cache) (nu x : F) : option V := hm_get c (key_of nu x).

  (** src/bessel.rs:460-462 [clear] *)
  Definition cache_clear (c : cache) : cache := [].

  (** src/bessel.rs:473-475 [is_empty] *)
  Definition cache_is_empty (c : cache) : bool :=
    match c with [] => true | _ => false end.

  (** src/bessel.rs:479-481 [len] *)
  Definition cache_len (c : cache) : Z := Z.of_nat (length c).

  (** src/bessel.rs:507-513 [retain] *)
  Definition cache_retain (p : F -> F -> V -> bool) (c : cache) : cache :=
    hm_retain (fun k v => p (from_bits (fst k)) (from_bits (snd k)) v) c.

  (** src/bessel.rs:547-555, 760-768, 816-824, 873-881: the cached call.  A
      panic of the cached function unwinds before [insert] is reached. *)
  Definition cache_call (c : cache) (nu x : F) : cache * res V :=
    match hm_get c (key_of nu x) with
    | Some r => (c, Ok r)
    | None =>
        match f nu x with
        | Ok r => (hm_insert c (key_of nu x) r, Ok r)
        | Panic p => (c, Panic p)
        | Diverge => (c, Diverge)
        end
    end.

  (** Every public operation on a cache.  [shrink_to_fit] (line 485) and
      [reserve] (line 498) only affect capacity. *)
  Inductive op : Type :=
  | OpCall (nu x : F)
  | OpContains (nu x : F)
  | OpGet (nu x : F)
  | OpClear
  | OpIsEmpty
  | OpLen
  | OpShrinkToFit
  | OpReserve (additional : Z)
  | OpRetain (p : F -> F -> V -> bool).

  Inductive out : Type :=
  | OutVal (r : res V)
  | OutBool (b : bool)
  | OutGet (o : option V)
  | OutLen (n : Z)
  | OutUnit.

  Definition cache_step (c : cache) (o : op) : cache * out :=
    match o with
    | OpCall nu x => let (c', r) := cache_call c nu x in (c', OutVal r)
    | OpContains nu x => (c, OutBool (cache_contains c nu x))
    | OpGet nu x => (c, OutGet (cache_get c nu x))
    | OpClear => (cache_clear c, OutUnit)
    | OpIsEmpty => (c, OutBool (cache_is_empty c))
    | OpLen => (c, OutLen (cache_len c))
    | OpShrinkToFit => (c, OutUnit)
    | OpReserve _ => (c, OutUnit)
    | OpRetain p => (cache_retain p c, OutUnit)
    end.

  (** State after a history of operations on a new cache *)
  Definition cache_run (ops : list op) : cache :=
    fold_left (fun c o => fst (cache_step c o)) ops cache_new.

  (** Outputs of a history, in order *)
  Fixpoint cache_trace (c : cache) (ops : list op) : list out :=
    match ops with
    | [] => []
    | o :: ops' => let (c', r) := cache_step c o in r :: cache_trace c' ops'
    end.
End Cache.
Arguments op : clear implicits.
Arguments out : clear implicits.
