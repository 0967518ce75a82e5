(** * Model of src/dawson.rs *)

From Coq Require Import ZArith List.
From Verif.Model Require Import Base Arith Utils.
Import ListNotations.
Open Scope f64_scope.
Open Scope res_scope.

Section Dawson.
  Context {A : arith}.

  (** src/dawson.rs:29-30: the series for [|x| < 0.2]; [a1 = 2/3],
      [a2 = 0.4], [a3 = 2/7] (lines 14-16) *)
  Definition dawson_series (x : F A) : F A :=
    let a1 := $2.0 / $3.0 in
    let a2 := $0.4 in
    let a3 := $2.0 / $7.0 in
    let x2 := x * x in
    x * ($1.0 - a1 * x2 * ($1.0 - a2 * x2 * ($1.0 - a3 * x2))).

  (** src/dawson.rs:42-47: one iteration; the state is [(d1, d2, e1, sum)].
      The updates of [d1], [d2] and [e1] come before their use, as in the
      source. *)
  Definition dawson_body (h e2 : F A) (st : F A * F A * F A * F A) (i : Z)
    : F A * F A * F A * F A :=
    let '(d1, d2, e1, sum) := st in
    let cval := exp (- powi2 (($2.0 * of_int i + $1.0) * h)) in
    let d1 := d1 + $2.0 in
    let d2 := d2 - $2.0 in
    let e1 := e1 * e2 in
    (d1, d2, e1, sum + cval * (e1 / d1 + $1.0 / (d2 * e1))).

  (** src/dawson.rs:34-50: the sampling formula once [n0] is known *)
  Definition dawson_sampled (x : F A) (n0 : Z) : F A :=
    let h := $0.4 in
    let xx := abs x in
    let xp := xx - of_int n0 * h in
    let e1 := exp ($2.0 * xp * h) in
    let e2 := e1 * e1 in
    let d1 := of_int n0 + $1.0 in
    let d2 := d1 - $2.0 in
    let '(_, _, _, sum) := fold_left (dawson_body h e2) (range 0 6) (d1, d2, e1, $0.0) in
    $1.0 / sqrt PI * sign (exp (- xp * xp)) x * sum.

  (** src/dawson.rs:11-53 [dawson].  Line 33 is a [u64] multiplication. *)
  Definition dawson (x : F A) : res (F A) :=
    if abs x < $0.2 then Ok (dawson_series x)
    else
      let h := $0.4 in
      let xx := abs x in
      do n0 <- arith_u (checks (a := A)) 64 (2 * as_u64 ($0.5 * xx / h + $0.5));
      Ok (dawson_sampled x n0).
End Dawson.
