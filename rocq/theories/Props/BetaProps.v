(** * Properties of the beta functions (src/beta.rs) *)

From Coq Require Import ZArith Reals Bool.
From Flocq Require Import Core IEEE754.BinarySingleNaN IEEE754.Binary IEEE754.Bits.
From Verif.Model Require Import Base Arith Beta.
From Verif.Float Require Import Bits64 Ieee Platforms.
From Verif.Spec Require Import F64Spec Outcome.
From Verif.Proofs Require Import Domains Examples BetaLarge BetaExamples.
Open Scope R_scope.

(** C22 *)
Theorem C22_beta_domain : forall (P : platform) (z w : f64),
  (panics (@beta (ieee P) z w) <-> ~ (positive z /\ positive w))
  /\ (returns (@beta (ieee P) z w) <-> (positive z /\ positive w)).
Proof. exact beta_domain. Qed.
Print Assumptions C22_beta_domain.

Theorem C22_beta_symmetric : forall (P : platform) (z w : f64), positive z -> positive w ->
  exists r r', @beta (ieee P) z w = Ok r /\ @beta (ieee P) w z = Ok r' /\ r ~= r'.
Proof. exact beta_comm. Qed.
Print Assumptions C22_beta_symmetric.

Example C22_example : positive (f64_lit 2.5) /\ positive (f64_lit 3.25).
Proof. exact (conj pos_2_5 pos_3_25). Qed.

(** C23 *)
Theorem C23_beta_nonneg : forall (P : platform) (z w r : f64), never_negative (p_exp P) ->
  @beta (ieee P) z w = Ok r -> is_NaN r \/ 0 <= val r.
Proof. exact beta_nonneg. Qed.
Print Assumptions C23_beta_nonneg.

Example C23_example : never_negative (p_exp (plain true false)).
Proof. exact (ex_never_negative true false). Qed.

(** C24 *)
Theorem C24_betai_domain : forall (P : platform) (a b x : f64),
  (panics (@betai (ieee P) a b x) <-> ~ (positive a /\ positive b /\ between 0 1 x))
  /\ (returns (@betai (ieee P) a b x) <-> (positive a /\ positive b /\ between 0 1 x)).
Proof. exact betai_domain. Qed.
Print Assumptions C24_betai_domain.

Theorem C24_betai_ends : forall (P : platform) (a b x : f64), positive a -> positive b -> number x ->
  val x = 0 \/ val x = 1 -> @betai (ieee P) a b x = Ok x.
Proof. exact betai_ends. Qed.
Print Assumptions C24_betai_ends.

Example C24_example : positive (f64_lit 2.5) /\ positive (f64_lit 3.25) /\ between 0 1 (f64_lit 0.375).
Proof. exact (conj pos_2_5 (conj pos_3_25 ex_between)). Qed.
Example C24_example_ends : number (f64_lit 1.0) /\ val (f64_lit 1.0) = 1.
Proof. exact ex_one. Qed.

(** C26 as stated is false: for all parameters between 3000 and 2^40 and every
    x in [2^-30, 1 - 2^-30] the result is a zero (or NaN), on both sides of the
    mean. *)
Theorem C26_betai_zero : forall (P : platform) (a b x : f64), accurate_ln (p_ln P) -> exp_underflows (p_exp P) ->
  number a -> number b -> number x -> 3000 < val a <= bpow radix2 40 -> 3000 < val b <= bpow radix2 40 ->
  bpow radix2 (-30) <= val x <= 1 - bpow radix2 (-30) ->
  exists r, @betai (ieee P) a b x = Ok r /\ (is_NaN r \/ (number r /\ val r = 0)).
Proof. exact betai_zero. Qed.
Print Assumptions C26_betai_zero.

Theorem C26_refuted : exists a x : f64, finite a /\ 3000 < val a /\ finite x /\ 1 / 2 < val x < 1 /\
  forall P : platform, accurate_ln (p_ln P) -> exp_underflows (p_exp P) ->
  exists r, @betai (ieee P) a a x = Ok r /\ (is_NaN r \/ (number r /\ val r = 0)).
Proof. exact betai_refuted. Qed.
Print Assumptions C26_refuted.

Example C26_example : accurate_ln (p_ln (ideal true false)) /\ exp_underflows (p_exp (ideal true false))
  /\ number (f64_lit 4096.0) /\ 3000 < val (f64_lit 4096.0) <= bpow radix2 40
  /\ number (f64_lit 0.75) /\ bpow radix2 (-30) <= val (f64_lit 0.75) <= 1 - bpow radix2 (-30).
Proof. exact ex_betai. Qed.

(** C27 *)
Theorem C27_invbetai_ends : forall (P : platform) (p a b : f64), number p ->
  (val p <= 0 -> @invbetai (ieee P) p a b = Ok (f64_lit 0.0))
  /\ (1 <= val p -> @invbetai (ieee P) p a b = Ok (f64_lit 1.0)).
Proof. exact invbetai_ends. Qed.
Print Assumptions C27_invbetai_ends.

Example C27_example : number (f64_lit (-2.5)) /\ val (f64_lit (-2.5)) <= 0.
Proof. exact ex_low_p. Qed.
