(** * Properties of factorial (src/utils.rs)

    [fuel] bounds the number of iterations of the outer loop in the model;
    [Diverge] is the outcome of a run that needs more. *)

From Coq Require Import ZArith Reals Bool.
From Flocq Require Import Core IEEE754.BinarySingleNaN IEEE754.Binary IEEE754.Bits.
From Verif.Model Require Import Base Arith Utils.
From Verif.Float Require Import Bits64 Ieee Platforms.
From Verif.Spec Require Import F64Spec Outcome.
From Verif.Proofs Require Import Factorial GammaExamples.
Open Scope R_scope.

(** C07 *)
Theorem C07_factorial_returns : forall (P : platform) (n : Z), (0 <= n <= 2 ^ 64 - 16)%Z ->
  exists r : f64, (forall fuel, (n <= Z.of_nat fuel)%Z -> @factorial (ieee P) fuel n = Ok r) /\
    number r /\ 1 <= val r.
Proof. exact factorial_returns. Qed.
Print Assumptions C07_factorial_returns.

Example C07_example : (0 <= 12345678901234567890 <= 2 ^ 64 - 16)%Z.
Proof. exact (proj1 ex_factorial_range). Qed.

(** C08 *)
Theorem C08_factorial_exact : forall (P : platform) (n : Z) fuel, (0 <= n <= 22)%Z ->
  (n <= Z.of_nat fuel)%Z ->
  exists r, @factorial (ieee P) fuel n = Ok r /\ finite r /\
    Binary.B2R r = INR (fact (Z.to_nat n)).
Proof. exact factorial_exact. Qed.
Print Assumptions C08_factorial_exact.

Theorem C08_factorial_error : forall (P : platform) (n : Z) fuel, (0 <= n <= 170)%Z ->
  (n <= Z.of_nat fuel)%Z ->
  exists r, @factorial (ieee P) fuel n = Ok r /\ finite r /\
    Rabs (Binary.B2R r - INR (fact (Z.to_nat n))) <= bpow radix2 (-45) * INR (fact (Z.to_nat n)).
Proof. exact factorial_error. Qed.
Print Assumptions C08_factorial_error.

Theorem C08_factorial_infinite : forall (P : platform) (n : Z) fuel, (171 <= n <= 2 ^ 64 - 16)%Z ->
  (n <= Z.of_nat fuel)%Z ->
  @factorial (ieee P) fuel n = Ok (B754_infinity false).
Proof. exact factorial_infinite. Qed.
Print Assumptions C08_factorial_infinite.

Example C08_example : (171 <= 12345678901234567890 <= 2 ^ 64 - 16)%Z.
Proof. exact (proj2 ex_factorial_range). Qed.

(** C09 *)
Theorem C09_factorial_monotone : forall (P : platform) (m n : Z) fuel a b, (0 <= m <= n)%Z ->
  (n <= 2 ^ 64 - 16)%Z -> (n <= Z.of_nat fuel)%Z ->
  @factorial (ieee P) fuel m = Ok a -> @factorial (ieee P) fuel n = Ok b ->
  val a <= val b.
Proof. exact factorial_monotone. Qed.
Print Assumptions C09_factorial_monotone.

Example C09_example : exists r, @factorial (ieee (plain true false)) 100 100 = Ok r.
Proof. exact ex_factorial_100. Qed.

(** C69 *)
Theorem C69_factorial_overflow : forall (P : platform) (n : Z),
  ((2 ^ 64 - 16 < n < 2 ^ 64)%Z -> p_checks P = true -> forall fuel, (n <= Z.of_nat fuel)%Z ->
    @factorial (ieee P) fuel n = Panic POverflow) /\
  ((2 ^ 64 - 3 <= n < 2 ^ 64)%Z -> p_checks P = false -> forall fuel,
    @factorial (ieee P) fuel n = Diverge).
Proof. exact factorial_overflow. Qed.
Print Assumptions C69_factorial_overflow.

Example C69_example : (2 ^ 64 - 16 < 2 ^ 64 - 9 < 2 ^ 64)%Z /\ p_checks (plain true false) = true.
Proof. exact ex_factorial_over. Qed.
