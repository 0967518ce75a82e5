(** * Base vocabulary of the model

    Outcomes of Rust calls, decimal literals as they are written in the
    source, machine integers, and the loop shapes the code uses.

    Nothing in this file depends on a particular interpretation of [f64]. *)

From Coq Require Import ZArith List String.
Import ListNotations.
Open Scope Z_scope.

(** ** Outcomes

    A Rust call either returns, panics, or (for a [while] loop without an
    iteration cap) may fail to terminate.  [Diverge] is produced only when the
    explicit fuel of such a loop runs out; theorems exclude it. *)

Inductive panic : Type :=
| PAssert (msg : string)   (** failed [assert!] *)
| PExplicit (msg : string) (** explicit [panic!] *)
| PIndex                   (** slice or array index out of bounds *)
| POverflow.               (** integer overflow, builds with overflow checks *)

Inductive res (A : Type) : Type :=
| Ok (a : A)
| Panic (p : panic)
| Diverge.
Arguments Ok {A} a.
Arguments Panic {A} p.
Arguments Diverge {A}.

Definition bind {A B} (m : res A) (k : A -> res B) : res B :=
  match m with
  | Ok a => k a
  | Panic p => Panic p
  | Diverge => Diverge
  end.

Definition rmap {A B} (f : A -> B) (m : res A) : res B :=
  bind m (fun a => Ok (f a)).

Declare Scope res_scope.
Delimit Scope res_scope with res.
Notation "'do' x <- m ; k" := (bind m (fun x => k))
  (at level 200, x pattern, m at level 100, k at level 200, right associativity)
  : res_scope.
Notation "'require' b 'else' p ; k" := (if b then k else Panic p)
  (at level 200, b at level 100, p at level 100, k at level 200, right associativity)
  : res_scope.

Definition is_ok {A} (m : res A) : bool :=
  match m with Ok _ => true | _ => false end.

Definition is_panic {A} (m : res A) : bool :=
  match m with Panic _ => true | _ => false end.

(** ** Decimal literals

    [Dec m e] is the decimal number [m * 10^e].  The number notation lets the
    Rust literals be written in the model verbatim (digits, underscores,
    exponent), so that the constant tables can be compared with the source as
    text. *)

Record dec : Type := Dec { dman : Z; dexp : Z }.

Definition dec_int_app (i : Decimal.int) (f : Decimal.uint) : Decimal.int :=
  match i with
  | Decimal.Pos u => Decimal.Pos (Decimal.app u f)
  | Decimal.Neg u => Decimal.Neg (Decimal.app u f)
  end.

Definition dec_of_decimal (d : Decimal.decimal) : dec :=
  match d with
  | Decimal.Decimal i f =>
      Dec (Z.of_int (dec_int_app i f)) (- Z.of_nat (Decimal.nb_digits f))
  | Decimal.DecimalExp i f e =>
      Dec (Z.of_int (dec_int_app i f))
          (Z.of_int e - Z.of_nat (Decimal.nb_digits f))
  end.

Definition dec_of_number (n : Number.number) : option dec :=
  match n with
  | Number.Decimal d => Some (dec_of_decimal d)
  | Number.Hexadecimal _ => None
  end.

Definition number_of_dec (d : dec) : option Number.number :=
  Some (Number.Decimal
          (Decimal.DecimalExp (Z.to_int (dman d)) Decimal.Nil (Z.to_int (dexp d)))).

Declare Scope dec_scope.
Delimit Scope dec_scope with dec.
Bind Scope dec_scope with dec.
Number Notation dec dec_of_number number_of_dec : dec_scope.

(** ** Ranges and bounded loops

    [range a b] is Rust's [a..b]; it is empty when [b <= a]. *)

Fixpoint count_from (a : Z) (n : nat) : list Z :=
  match n with
  | O => []
  | S n' => a :: count_from (a + 1) n'
  end.

Definition range (a b : Z) : list Z := count_from a (Z.to_nat (b - a)).

(** What one execution of a loop body does: go on to the next iteration,
    [break], or [return] from the enclosing function. *)
Inductive step (S R : Type) : Type :=
| Next (s : S)
| Break (s : S)
| Return (r : R).
Arguments Next {S R} s.
Arguments Break {S R} s.
Arguments Return {S R} r.

(** How a loop ended: it ran through its whole range, hit [break], or hit
    [return]. *)
Inductive ended (S R : Type) : Type :=
| Exhausted (s : S)
| Broke (s : S)
| Returned (r : R).
Arguments Exhausted {S R} s.
Arguments Broke {S R} s.
Arguments Returned {S R} r.

(** A [for] loop over a list of indices whose body may break, return or
    panic. *)
Fixpoint for_loop {S R : Type} (l : list Z) (body : Z -> S -> res (step S R)) (s : S)
  : res (ended S R) :=
  match l with
  | [] => Ok (Exhausted s)
  | i :: l' =>
      match body i s with
      | Ok (Next s') => for_loop l' body s'
      | Ok (Break s') => Ok (Broke s')
      | Ok (Return r) => Ok (Returned r)
      | Panic p => Panic p
      | Diverge => Diverge
      end
  end.

(** A [for] loop that can only [break]: the boolean says whether it did. *)
Fixpoint for_break {S : Type} (l : list Z) (body : Z -> S -> S * bool) (s : S) : S * bool :=
  match l with
  | [] => (s, false)
  | i :: l' =>
      let (s', stop) := body i s in
      if stop then (s', true) else for_break l' body s'
  end.

(** Checked array access: Rust panics when the index is out of bounds. *)
Definition index {A : Type} (l : list A) (i : Z) : res A :=
  if i <? 0 then Panic PIndex
  else match nth_error l (Z.to_nat i) with
       | Some a => Ok a
       | None => Panic PIndex
       end.

(** ** Machine integers

    Overflow of [+], [-], [*] panics when overflow checks are on (debug
    profile) and wraps otherwise (release profile).  [checks] selects the
    profile. *)

Definition in_range (lo hi v : Z) : bool := (lo <=? v) && (v <=? hi).

Definition wrap_u (bits v : Z) : Z := v mod 2 ^ bits.

Definition wrap_s (bits v : Z) : Z :=
  (v + 2 ^ (bits - 1)) mod 2 ^ bits - 2 ^ (bits - 1).

Definition arith_u (checks : bool) (bits v : Z) : res Z :=
  if in_range 0 (2 ^ bits - 1) v then Ok v
  else if checks then Panic POverflow else Ok (wrap_u bits v).

Definition arith_s (checks : bool) (bits v : Z) : res Z :=
  if in_range (- 2 ^ (bits - 1)) (2 ^ (bits - 1) - 1) v then Ok v
  else if checks then Panic POverflow else Ok (wrap_s bits v).
