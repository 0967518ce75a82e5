(** * What a memo table should contain after a history

    Written without reference to keys or maps: two calls have the same
    arguments when the arguments are the same f64 values (Leibniz equality,
    that is, the same bits). *)

From Coq Require Import List Bool.
From Flocq Require Import IEEE754.Binary.
From Verif.Model Require Import Base Cache.
From Verif.Float Require Import Bits64.
Import ListNotations.

(** The arguments whose results are stored, given the operations performed,
    latest first: a successful call stores its arguments; [clear] forgets
    everything; [retain] forgets what its predicate rejects; nothing else
    matters. *)
Fixpoint stored {V : Type} (f : f64 -> f64 -> res V) (latest_first : list (op f64 V))
    (nu x : f64) : Prop :=
  match latest_first with
  | [] => False
  | OpCall nu' x' :: h =>
      (nu = nu' /\ x = x' /\ exists v, f nu x = Ok v) \/ stored f h nu x
  | OpClear :: h => False
  | OpRetain p :: h => stored f h nu x /\ exists v, f nu x = Ok v /\ p nu x v = true
  | _ :: h => stored f h nu x
  end.

(** Operations that only look, or only concern capacity *)
Definition read_only {V} (o : op f64 V) : Prop :=
  match o with
  | OpContains _ _ | OpGet _ _ | OpIsEmpty | OpLen | OpShrinkToFit | OpReserve _ => True
  | _ => False
  end.

(** Does a stored value contain a NaN? *)
Definition has_nan2 (v : f64 * f64) : bool := Binary.is_nan (fst v) || Binary.is_nan (snd v).
Definition has_nan4 (v : f64 * f64 * f64 * f64) : bool :=
  let '(a, b, c, d) := v in
  Binary.is_nan a || Binary.is_nan b || Binary.is_nan c || Binary.is_nan d.
