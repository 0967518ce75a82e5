(** * Model of src/beta.rs *)

From Coq Require Import ZArith List String.
From Verif.Model Require Import Base Arith Gamma.
Import ListNotations.
Open Scope bool_scope.
Open Scope f64_scope.
Open Scope res_scope.

Section Beta.
  Context {A : arith}.

  (** src/beta.rs:33-36 [beta] *)
  Definition beta (z w : F A) : res (F A) :=
    require (z > $0.0) && (w > $0.0)
      else PAssert "Bad args in beta: z and w must be positive";
    Ok (exp (ln_gamma z + ln_gamma w - ln_gamma (z + w))).

  (** src/beta.rs:87-89, 97-99, 101-103, ...: replace a vanishing denominator *)
  Definition floor_fpmin (d : F A) : F A := if abs d < FPMIN then FPMIN else d.

  (** src/beta.rs:92-121: body of the continued-fraction loop; the state is
      [(c, d, h)] *)
  Definition betacf_body (a b x : F A) (i : Z) (st : F A * F A * F A) : F A * F A * F A * bool :=
    let qab := a + b in
    let qap := a + $1.0 in
    let qam := a - $1.0 in
    let '(c, d, h) := st in
    let m := of_int i in
    let m2 := $2.0 * m in
    let aa := m * (b - m) * x / ((qam + m2) * (a + m2)) in
    let d := floor_fpmin ($1.0 + aa * d) in
    let c := floor_fpmin ($1.0 + aa / c) in
    let d := $1.0 / d in
    let h := h * (d * c) in
    let aa := - (a + m) * (qab + m) * x / ((a + m2) * (qap + m2)) in
    let d := floor_fpmin ($1.0 + aa * d) in
    let c := floor_fpmin ($1.0 + aa / c) in
    let d := $1.0 / d in
    let del := d * c in
    let h := h * del in
    ((c, d, h), abs (del - $1.0) <= EPS).

  (** src/beta.rs:81-123 [betacf] *)
  Definition betacf (a b x : F A) : F A :=
    let qab := a + b in
    let qap := a + $1.0 in
    let c := $1.0 in
    let d := floor_fpmin ($1.0 - qab * x / qap) in
    let d := $1.0 / d in
    let '((_, _, h), _) := for_break (range 1 10000) (betacf_body a b x) (c, d, d) in
    h.

  (** src/beta.rs:145-148: the quadrature sum *)
  Definition betai_quad (a1 b1 lnmu lnmuc x xu : F A) : F A :=
    fold_left (fun sum (yw : dec * dec) =>
                 let t := x + (xu - x) * lit (fst yw) in
                 sum + lit (snd yw) * exp (a1 * (ln t - lnmu) + b1 * ln ($1.0 - t) - lnmuc))
      (combine Y W) $0.0.

  (** src/beta.rs:149-156: scaling and complement *)
  Definition betai_finish (a b a1 b1 lnmu lnmuc x xu sum : F A) : F A :=
    let ans :=
      sum * (xu - x)
      * exp (a1 * lnmu - ln_gamma a + b1 * lnmuc - ln_gamma b + ln_gamma (a + b)) in
    if ans > $0.0 then $1.0 - ans else - ans.

  (** src/beta.rs:126-157 [betaiapprox] *)
  Definition betaiapprox (a b x : F A) : F A :=
    let a1 := a - $1.0 in
    let b1 := b - $1.0 in
    let mu := a / (a + b) in
    let lnmu := ln mu in
    let lnmuc := ln ($1.0 - mu) in
    let t := sqrt (a * b / (powi2 (a + b) * (a + b + $1.0))) in
    if x > a / (a + b) then
      if x >= $1.0 then $1.0
      else
        let xu := fmin $1.0 (fmax (mu + $10.0 * t) (x + $5.0 * t)) in
        betai_finish a b a1 b1 lnmu lnmuc x xu (betai_quad a1 b1 lnmu lnmuc x xu)
    else
      if x <= $0.0 then $0.0
      else
        let xu := fmax $0.0 (fmin (mu - $10.0 * t) (x - $5.0 * t)) in
        betai_finish a b a1 b1 lnmu lnmuc x xu (betai_quad a1 b1 lnmu lnmuc x xu).

  (** src/beta.rs:62-78 [betai]; [SWITCH] = 3000 (line 9) *)
  Definition betai (a b x : F A) : res (F A) :=
    require (a > $0.0) && (b > $0.0) else PAssert "Bad a or b in routine betai";
    require ($0.0 <= x) && (x <= $1.0) else PAssert "Bad x in routine betai";
    if (x == $0.0) || (x == $1.0) then Ok x
    else
      let switch := of_int 3000 in
      if (a > switch) && (b > switch) then Ok (betaiapprox a b x)
      else
        let bt := exp (ln_gamma (a + b) - ln_gamma a - ln_gamma b
                       + a * ln x + b * ln ($1.0 - x)) in
        if x < (a + $1.0) / (a + b * $2.0) then Ok (bt * betacf a b x / a)
        else Ok ($1.0 - bt * betacf b a ($1.0 - x) / b).

  (** src/beta.rs:187-211: initial guess of [invbetai] *)
  Definition invbetai_guess (p a b : F A) : F A :=
    if (a >= $1.0) && (b >= $1.0) then
      let pp := if p < $0.5 then p else $1.0 - p in
      let t := sqrt (- $2.0 * ln pp) in
      let x := ($2.30753 + t * $0.27061) / ($1.0 + t * ($0.99229 + t * $0.04481)) - t in
      let x := if p < $0.5 then - x else x in
      let al := (powi2 x - $3.0) / $6.0 in
      let h := $2.0 / ($1.0 / ($2.0 * a - $1.0) + $1.0 / ($2.0 * b - $1.0)) in
      let w := (x * sqrt (al + h) / h)
               - ($1.0 / ($2.0 * b - $1.0) - $1.0 / ($2.0 * a - $1.0))
                 * (al + $5.0 / $6.0 - $2.0 / ($3.0 * h)) in
      a / (a + b * exp ($2.0 * w))
    else
      let lna := ln (a / (a + b)) in
      let lnb := ln (b / (a + b)) in
      let t := exp (a * lna) / a in
      let u := exp (b * lnb) / b in
      let w := t + u in
      if p < t / w then powf (a * w * p) ($1.0 / a)
      else $1.0 - powf (b * w * ($1.0 - p)) ($1.0 / b).

  (** src/beta.rs:214-230: one Halley iteration *)
  Definition invbetai_body (p a b afac : F A) (j : Z) (x : F A) : res (step (F A) (F A)) :=
    let a1 := a - $1.0 in
    let b1 := b - $1.0 in
    if (x == $0.0) || (x == $1.0) then Ok (Return x)
    else
      do g <- betai a b x;
      let err := g - p in
      let t := exp (a1 * ln x + b1 * ln ($1.0 - x) + afac) in
      let u := err / t in
      let t := u / ($1.0 - $0.5 * fmin $1.0 (u * (a1 / x - b1 / ($1.0 - x)))) in
      let x := x - t in
      let x := if x <= $0.0 then $0.5 * (x + t) else x in
      let x := if x >= $1.0 then $0.5 * (x + t + $1.0) else x in
      if (abs t < EPS * x) && (0 <? j)%Z then Ok (Break x) else Ok (Next x).

  (** src/beta.rs:177-233 [invbetai] *)
  Definition invbetai (p a b : F A) : res (F A) :=
    if p <= $0.0 then Ok $0.0
    else if p >= $1.0 then Ok $1.0
    else
      let x := invbetai_guess p a b in
      let afac := - ln_gamma a - ln_gamma b + ln_gamma (a + b) in
      do e <- for_loop (range 0 10) (invbetai_body p a b afac) x;
      match e with
      | Exhausted x => Ok x
      | Broke x => Ok x
      | Returned r => Ok r
      end.
End Beta.
