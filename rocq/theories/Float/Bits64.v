(** * binary64 as bit patterns: [to_bits], [from_bits], and the model of
    [frexp] and [ldexp] (src/utils.rs:37-95)

    [f64] is Flocq's [binary_float 53 1024]; it keeps NaN sign and payload, so
    [to_bits]/[from_bits] are bijections between [f64] and [0, 2^64). *)

From Coq Require Import ZArith Bool.
From Flocq Require Import Core IEEE754.BinarySingleNaN IEEE754.Binary IEEE754.Bits.
From Verif.Model Require Import Base.
Open Scope Z_scope.

#[global] Arguments Binary.B754_zero {prec emax} s.
#[global] Arguments Binary.B754_infinity {prec emax} s.
#[global] Arguments Binary.B754_nan {prec emax} s pl _.
#[global] Arguments Binary.B754_finite {prec emax} s m e _.
#[global] Arguments Binary.is_nan {prec emax} _.
#[global] Arguments Binary.is_finite {prec emax} _.
#[global] Arguments Binary.Bsign {prec emax} _.
#[global] Arguments Binary.B2R {prec emax} _.
#[global] Arguments Binary.B2FF {prec emax} _.
#[global] Arguments Binary.Bcompare {prec emax} _ _.
#[global] Arguments Binary.Btrunc {prec emax} _.
#[global] Arguments Binary.Bmult {prec emax} _ _ _ _ _ _.
#[global] Arguments Binary.Bplus {prec emax} _ _ _ _ _ _.
#[global] Arguments Binary.Bminus {prec emax} _ _ _ _ _ _.
#[global] Arguments Binary.Bdiv {prec emax} _ _ _ _ _ _.
#[global] Arguments Binary.Bsqrt {prec emax} _ _ _ _ _.
#[global] Arguments Binary.Bfma {prec emax} _ _ _ _ _ _ _.
#[global] Arguments Binary.Bnearbyint {prec emax} _ _ _ _.

Notation f64 := (Binary.binary_float 53 1024).
Notation f64_nan := { x : f64 | Binary.is_nan x = true }.

Lemma prec_gt_0_64 : Prec_gt_0 53.
Proof. reflexivity. Qed.
Lemma prec_lt_emax_64 : Prec_lt_emax 53 1024.
Proof. reflexivity. Qed.
#[global] Existing Instance prec_gt_0_64.
#[global] Existing Instance prec_lt_emax_64.

(** std [f64::to_bits], [f64::from_bits] *)
Definition to_bits (x : f64) : Z := bits_of_b64 x.
Definition from_bits (b : Z) : f64 := b64_of_bits b.

(** std [f64::NAN] (0x7ff8000000000000), [f64::INFINITY] *)
Definition f64_NAN : f64 := @B754_nan 53 1024 false (2 ^ 51) eq_refl.
Definition f64_INF : f64 := B754_infinity false.
Definition default_nan : f64_nan := exist _ f64_NAN eq_refl.

(** [==] on f64 *)
Definition f64_eq (x y : f64) : bool :=
  match Binary.Bcompare x y with Some Eq => true | _ => false end.

Definition f64_zero : f64 := B754_zero false.

Section Utils.
  (** NaN payload policy of the multiplication on line 59 *)
  Context (mul_nan : f64 -> f64 -> f64_nan).

  (** src/utils.rs:48: [if (bits >> 63) != 0 { -1.0 } else { 1.0 }] *)
  Definition sign_factor (bits : Z) : f64 :=
    if negb (Z.shiftr bits 63 =? 0) then
      Binary.binary_normalize 53 1024 prec_gt_0_64 prec_lt_emax_64 mode_NE (-1) 0 false
    else Binary.binary_normalize 53 1024 prec_gt_0_64 prec_lt_emax_64 mode_NE 1 0 false.

  (** src/utils.rs:53, 77: [((bits >> 52) & 0x7ff)] *)
  Definition biased_exponent (bits : Z) : Z := Z.land (Z.shiftr bits 52) 0x7ff.

  (** src/utils.rs:37-63 [frexp] *)
  Definition frexp_bits (x : f64) : f64 * Z :=
    if f64_eq x f64_zero then (f64_zero, 0)
    else
      let bits := to_bits x in
      let sign := sign_factor bits in
      let exponent := biased_exponent bits - 1023 in
      let mantissa :=
        Binary.Bmult prec_gt_0_64 prec_lt_emax_64 mul_nan mode_NE sign
          (from_bits (Z.lor (Z.land bits 0xfffffffffffff) 0x3fe0000000000000)) in
      (mantissa, exponent + 1).

  (** src/utils.rs:66-95 [ldexp]; [exp] is an [i32], line 80 is a checked
      [i32] addition *)
  Definition ldexp_bits (checks : bool) (x : f64) (exp : Z) : res f64 :=
    if f64_eq x f64_zero || (exp =? 0) then Ok x
    else
      let bits := to_bits x in
      let exponent := biased_exponent bits in
      bind (arith_s checks 32 (exponent + exp)) (fun new_exponent =>
      if negb (in_range 0 0x7ff new_exponent) then
        if negb (Z.shiftr bits 63 =? 0) then Ok (B754_infinity true)
        else Ok (B754_infinity false)
      else
        let result_bits :=
          Z.lor (Z.land bits 0x800fffffffffffff) (Z.shiftl new_exponent 52) in
        Ok (from_bits result_bits)).
End Utils.
