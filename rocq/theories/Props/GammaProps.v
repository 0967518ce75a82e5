(** * Properties of the incomplete gamma functions (src/gamma.rs) *)

From Coq Require Import ZArith Reals Bool.
From Flocq Require Import Core IEEE754.BinarySingleNaN IEEE754.Binary IEEE754.Bits.
From Verif.Model Require Import Base Arith Gamma.
From Verif.Float Require Import Bits64 Ieee Platforms.
From Verif.Spec Require Import F64Spec Outcome.
From Verif.Proofs Require Import Boundaries Domains Examples GammaPQ GammaExamples GammaNaN GammaRange InvGammaPanic GammaNaNExamples.
Open Scope R_scope.

(** C15 *)
Theorem C15_gammp_domain : forall (P : platform) (a x : f64),
  (panics (@gammp (ieee P) a x) <-> ~ (nonneg x /\ positive a))
  /\ (returns (@gammp (ieee P) a x) <-> (nonneg x /\ positive a)).
Proof. exact gammp_domain. Qed.
Print Assumptions C15_gammp_domain.

Theorem C15_gammq_domain : forall (P : platform) (a x : f64),
  (panics (@gammq (ieee P) a x) <-> ~ (nonneg x /\ positive a))
  /\ (returns (@gammq (ieee P) a x) <-> (nonneg x /\ positive a)).
Proof. exact gammq_domain. Qed.
Print Assumptions C15_gammq_domain.

Example C15_example : (nonneg (f64_lit 3.25) /\ positive (f64_lit 2.5))
  /\ ~ (nonneg f64_NAN /\ positive (f64_lit 2.5)).
Proof. exact ex_gammp. Qed.

(** C16 *)
Theorem C16_gamm_low : forall (P : platform) (a x : f64), positive a -> nonneg x ->
  val x = 0 \/ val x < rnd (val a * bpow radix2 (-52)) ->
  @gammp (ieee P) a x = Ok (f64_lit 0.0) /\ @gammq (ieee P) a x = Ok (f64_lit 1.0).
Proof. exact gamm_low. Qed.
Print Assumptions C16_gamm_low.

Theorem C16_gamm_high : forall (P : platform) (a x : f64), positive a -> number x ->
  (val a + 20 * (R_sqrt.sqrt (val a) + 1)) * (1 + bpow radix2 (-50)) < val x ->
  @gammp (ieee P) a x = Ok (f64_lit 1.0) /\ @gammq (ieee P) a x = Ok (f64_lit 0.0).
Proof. exact gamm_high. Qed.
Print Assumptions C16_gamm_high.

Example C16_example_low : let x := f64_lit 0.0000000000000002 in
  positive x /\ val x < rnd (val (f64_lit 4.0) * bpow radix2 (-52)).
Proof. exact ex_low_pos. Qed.
Example C16_example_high :
  (val (f64_lit 4.0) + 20 * (R_sqrt.sqrt (val (f64_lit 4.0)) + 1)) * (1 + bpow radix2 (-50))
  < val (f64_lit 100.0).
Proof. exact ex_high. Qed.

(** C17 *)
Theorem C17_gammp_gammq : forall (P : platform) (a x p q : f64),
  @gammp (ieee P) a x = Ok p -> @gammq (ieee P) a x = Ok q -> between 0 1 p -> between 0 1 q ->
  Rabs (val p + val q - 1) <= bpow radix2 (-54).
Proof. exact gammp_gammq. Qed.
Print Assumptions C17_gammp_gammq.

Example C17_example : exists p q,
  @gammp (ieee (plain true false)) (f64_lit 2.5) (f64_lit 0.25) = Ok p /\
  @gammq (ieee (plain true false)) (f64_lit 2.5) (f64_lit 0.25) = Ok q /\
  between 0 1 p /\ between 0 1 q /\ 0 < val p < 1.
Proof. exact ex_gammp_gammq. Qed.

(** C18 as stated is false: both functions return NaN on a wedge of finite
    valid arguments, whatever the libm (as long as ln of a negative number is
    NaN). *)
Theorem C18_gamm_nan : forall (P : platform) (a x : f64), ln_of_negative_is_NaN (p_ln P) ->
  number a -> number x -> 100 <= val a <= bpow radix2 100 -> 0.201 * val a <= val x <= val a - 1 ->
  (exists r, @gammp (ieee P) a x = Ok r /\ is_NaN r) /\ (exists r, @gammq (ieee P) a x = Ok r /\ is_NaN r).
Proof. exact (fun P a x L => gamm_nan P L a x). Qed.
Print Assumptions C18_gamm_nan.

Theorem C18_refuted : exists a x : f64, positive a /\ nonneg x /\ finite a /\ finite x /\
  forall P : platform, ln_of_negative_is_NaN (p_ln P) ->
  (exists r, @gammp (ieee P) a x = Ok r /\ is_NaN r) /\ (exists r, @gammq (ieee P) a x = Ok r /\ is_NaN r).
Proof. exact gamm_nan_refuted. Qed.
Print Assumptions C18_refuted.

(** What remains of C18: the range where the code clamps, and the sign of
    gammp.  Missing: the upper bound of gammp below a + 1 and the range of gammq
    from a + 1 on (a < 100), which depend on the accuracy of exp and ln. *)
Theorem C18_gammp_range_partial : forall (P : platform) (a x r : f64), number a -> number x ->
  val a + 1 <= val x \/ (finite a /\ 100 <= val a /\ 0.201 * val a <= val x) ->
  @gammp (ieee P) a x = Ok r -> is_NaN r \/ between 0 1 r.
Proof. exact gammp_range. Qed.
Print Assumptions C18_gammp_range_partial.

Theorem C18_gammq_range_partial : forall (P : platform) (a x r : f64), number a -> number x ->
  val x < val a \/ 100 <= val a ->
  @gammq (ieee P) a x = Ok r -> is_NaN r \/ between 0 1 r.
Proof. exact gammq_range. Qed.
Print Assumptions C18_gammq_range_partial.

Theorem C18_gammp_nonneg_partial : forall (P : platform) (a x r : f64), never_negative (p_exp P) ->
  @gammp (ieee P) a x = Ok r -> is_NaN r \/ 0 <= val r.
Proof. exact gammp_nonneg. Qed.
Print Assumptions C18_gammp_nonneg_partial.

Example C18_example : ln_of_negative_is_NaN (p_ln (ideal true false)) /\ plausible_ln (p_ln (ideal true false))
  /\ never_negative (p_exp (ideal true false))
  /\ (number (f64_lit 200.0) /\ number (f64_lit 100.0) /\ 100 <= val (f64_lit 200.0) <= bpow radix2 80
      /\ 0.201 * val (f64_lit 200.0) <= val (f64_lit 100.0) <= val (f64_lit 200.0) - 1).
Proof. exact ex_gamm_nan. Qed.

(** C19 *)
Theorem C19_invgammp_zero : forall (P : platform) (p a : f64), positive a -> number p -> val p <= 0 ->
  @invgammp (ieee P) p a = Ok (f64_lit 0.0).
Proof. exact invgammp_zero. Qed.
Print Assumptions C19_invgammp_zero.

Theorem C19_invgammp_one : forall (P : platform) (p a : f64), positive a -> val a <= bpow radix2 1023 ->
  number p -> 1 <= val p ->
  exists r, @invgammp (ieee P) p a = Ok r /\ finite r
  /\ Rabs (val r - Rmax 100 (val a + 100 * R_sqrt.sqrt (val a)))
     <= bpow radix2 (-50) * Rmax 100 (val a + 100 * R_sqrt.sqrt (val a)).
Proof. exact invgammp_one. Qed.
Print Assumptions C19_invgammp_one.

Theorem C19_invgammp_bad_a : forall (P : platform) (p a : f64), ~ positive a ->
  panics (@invgammp (ieee P) p a).
Proof. exact invgammp_bad_a. Qed.
Print Assumptions C19_invgammp_bad_a.

Example C19_example_zero : positive (f64_lit 4.0) /\ number (f64_lit (-2.5)) /\ val (f64_lit (-2.5)) <= 0.
Proof. exact (conj pos_4 ex_low_p). Qed.
Example C19_example_one : val (f64_lit 4.0) <= bpow radix2 1023
  /\ number (f64_lit 2.5) /\ 1 <= val (f64_lit 2.5).
Proof. exact ex_invgammp_one. Qed.

(** C21 *)
Theorem C21_invgammp_nan : forall (P : platform) (p a : f64), is_NaN p -> positive a ->
  panics (@invgammp (ieee P) p a).
Proof. exact invgammp_nan. Qed.
Print Assumptions C21_invgammp_nan.

Example C21_example : is_NaN f64_NAN /\ positive (f64_lit 4.0).
Proof. exact (conj nan_default pos_4). Qed.

(** C20 as stated is false: for every a in [100, 2^80] and every p in
    [0.01, 0.3] the call panics. *)
Theorem C20_invgammp_panics : forall (P : platform) (p a : f64),
  ln_of_negative_is_NaN (p_ln P) -> plausible_ln (p_ln P) ->
  between 0.01 0.3 p -> between 100 (bpow radix2 80) a -> panics (@invgammp (ieee P) p a).
Proof. exact invgammp_panics. Qed.
Print Assumptions C20_invgammp_panics.

Theorem C20_refuted : exists p a : f64, number p /\ 0 < val p < 1 /\ positive a /\ finite a /\
  forall P : platform, ln_of_negative_is_NaN (p_ln P) -> plausible_ln (p_ln P) -> panics (@invgammp (ieee P) p a).
Proof. exact invgammp_refuted. Qed.
Print Assumptions C20_refuted.
