(** * The exact-real reading of the model

    [exact fma checks] interprets the operations of [Model.Arith] over the
    real numbers, without rounding.  It is used for claims about the
    algorithms: functional equations, recurrences, Wronskians, derivatives.

    Real numbers have no infinities and no NaN: [nan] and [infinity] are
    mapped to 0 and [is_nan], [is_infinite] to false, so a theorem read here
    must avoid the branches that return them; each such theorem's hypotheses
    do.  [ln] of a nonpositive number, division by zero and [sqrt] of a
    negative number have the junk values of Coq's library, and the same
    remark applies. *)

From Coq Require Import ZArith Reals Bool.
From Flocq Require Import Core.
From Verif.Model Require Import Base Arith.
Open Scope R_scope.

(** The real number denoted by a decimal literal *)
Definition R_of_dec (d : dec) : R := (IZR (dman d) * powerRZ 10 (dexp d))%R.

Definition R_to_int (lo hi : Z) (x : R) : Z := Z.max lo (Z.min hi (Ztrunc x)).

(** mantissa in [1/2, 1) and exponent *)
Definition R_frexp (x : R) : R * Z :=
  if Req_bool x 0 then (0, 0%Z)
  else (x * bpow radix2 (- mag radix2 x), mag_val radix2 x (mag radix2 x)).

Definition exact (fma chk : bool) : arith := {|
  F := R;
  lit := R_of_dec;
  of_int := IZR;
  to_int := R_to_int;
  add := Rplus;
  sub := Rminus;
  mul := Rmult;
  div := Rdiv;
  neg := Ropp;
  abs := Rabs;
  sqrt := R_sqrt.sqrt;
  floor := fun x => IZR (Zfloor x);
  trunc := fun x => IZR (Ztrunc x);
  lt := Rlt_bool;
  le := Rle_bool;
  eq := Req_bool;
  is_nan := fun _ => false;
  is_infinite := fun _ => false;
  is_sign_positive := fun x => Rle_bool 0 x;
  nan := 0;
  infinity := 0;
  epsilon := bpow radix2 (-52);
  min_positive := bpow radix2 (-1022);
  copysign := fun x y => if Rle_bool 0 y then Rabs x else - Rabs x;
  fmax := Rmax;
  fmin := Rmin;
  exp := Rtrigo_def.exp;
  ln := Rpower.ln;
  sin := Rtrigo_def.sin;
  cos := Rtrigo_def.cos;
  sinh := Rtrigo_def.sinh;
  cosh := Rtrigo_def.cosh;
  powf := Rpower;
  cexp := fun z => (Rtrigo_def.exp (fst z) * Rtrigo_def.cos (snd z),
                    Rtrigo_def.exp (fst z) * Rtrigo_def.sin (snd z));
  fused_mul_add := fun x m a => x * m + a;
  has_fma := fma;
  checks := chk;
  frexp := R_frexp;
  ldexp := fun x e => Ok (x * bpow radix2 e);
|}.
