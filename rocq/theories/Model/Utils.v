(** * Model of src/utils.rs, arithmetic part

    [frexp] and [ldexp] work on bit patterns; their model is in
    [Float.Bits64].  Here: [factorial], [rising_factorial], [sign],
    [polynomial], [mul_add]. *)

From Coq Require Import ZArith List.
From Verif.Model Require Import Base Arith.
Open Scope f64_scope.
Open Scope res_scope.

Section Utils.
  Context {A : arith}.

  (** src/utils.rs:22: block length of the rectangular splitting,
      [(n as f64).sqrt().floor().min(60f64) as usize] *)
  Definition block_len (n : Z) : Z :=
    as_usize (A := A) (fmin (floor (sqrt (of_int n))) $60.0).

  (** src/utils.rs:29: [(k..k + l).fold(1f64, |acc, i| acc * (z + i as f64))] *)
  Definition block_product (z : F A) (k l : Z) : F A :=
    fold_left (fun acc i => acc * (z + of_int i)) (range k (k + l)) $1.0.

  (** src/utils.rs:27-32: the [while k < n] loop.  It has no iteration cap in
      the source, hence the fuel; [k += m] is checked [usize] addition. *)
  Fixpoint rising_loop (fuel : nat) (z : F A) (n m k : Z) (r : F A) : res (F A) :=
    if (k <? n)%Z then
      match fuel with
      | O => Diverge
      | S fuel' =>
          let l := Z.min m (n - k) in
          let t := block_product z k l in
          let r := r * t in
          do k <- arith_u (checks (a := A)) 64 (k + m);
          rising_loop fuel' z n m k r
      end
    else Ok r.

  (** src/utils.rs:21-34 [rising_factorial] *)
  Definition rising_factorial (fuel : nat) (z : F A) (n : Z) : res (F A) :=
    let m := block_len n in
    rising_loop fuel z n m 0 $1.0.

  (** src/utils.rs:14-16 [factorial] *)
  Definition factorial (fuel : nat) (n : Z) : res (F A) :=
    rising_factorial fuel $1.0 n.

  (** src/utils.rs:99-105 [sign] *)
  Definition sign (a b : F A) : F A :=
    if is_sign_positive b then abs a else - (abs a).

  (** src/utils.rs:123-133 [mul_add] *)
  Definition mul_add (x m a : F A) : F A :=
    if has_fma (a := A) then fused_mul_add x m a else x * m + a.

  (** src/utils.rs:112-119 [polynomial]: coefficients in decreasing degree *)
  Definition polynomial (x : F A) (coefficients : list dec) : F A :=
    fold_left (fun acc c => mul_add acc x (lit c)) coefficients $0.0.
End Utils.
