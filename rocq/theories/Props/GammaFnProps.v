(** * Properties of gamma (src/gamma.rs)

    [fuel] bounds the iterations of each loop in the model. *)

From Coq Require Import ZArith Reals Bool.
From Flocq Require Import Core IEEE754.BinarySingleNaN IEEE754.Binary IEEE754.Bits.
From Verif.Model Require Import Base Arith Utils Gamma.
From Verif.Float Require Import Bits64 Ieee Exact Platforms.
From Verif.Spec Require Import F64Spec Outcome.
From Verif.Proofs Require Import GammaSign GammaEqn GammaExamples.
Open Scope R_scope.

(** C10 *)
Theorem C10_gamma_nan : forall (P : platform) fuel z r, (280 <= fuel)%nat ->
  @gamma (ieee P) fuel z = Ok r ->
  (is_NaN r <-> is_NaN z \/ z = B754_infinity true \/
                (finite z /\ exists k : Z, (k < 0)%Z /\ Binary.B2R z = IZR k)).
Proof. exact gamma_nan_iff. Qed.
Print Assumptions C10_gamma_nan.

Theorem C10_gamma_zero : forall (P : platform) fuel s,
  @gamma (ieee P) fuel (B754_zero s) = Ok (B754_infinity s).
Proof. exact gamma_zeros. Qed.
Print Assumptions C10_gamma_zero.

Theorem C10_gamma_large : forall (P : platform) fuel z, number z ->
  val (f64_lit 171.624_376_956_302_7) < val z ->
  @gamma (ieee P) fuel z = Ok (B754_infinity false).
Proof. exact gamma_large. Qed.
Print Assumptions C10_gamma_large.

Example C10_example_pole : finite (f64_lit (-3.0)) /\ Binary.B2R (f64_lit (-3.0)) = IZR (-3).
Proof. exact ex_gamma_m3. Qed.
Example C10_example_large : number (f64_lit 200.0) /\
  val (f64_lit 171.624_376_956_302_7) < val (f64_lit 200.0).
Proof. exact ex_gamma_200. Qed.

(** C11 *)
Theorem C11_gamma_factorial : forall (P : platform) fuel (n : Z), (1 <= n <= 171)%Z ->
  @gamma (ieee P) fuel (f64_of_Z n) = @factorial (ieee P) fuel (n - 1).
Proof. exact gamma_integer. Qed.
Print Assumptions C11_gamma_factorial.

(** C12 *)
Theorem C12_gamma_terminates : forall (P : platform) z, exists r,
  forall fuel, (280 <= fuel)%nat -> @gamma (ieee P) fuel z = Ok r.
Proof. exact gamma_terminates. Qed.
Print Assumptions C12_gamma_terminates.

(** C13 *)
Theorem C13_gamma_positive : forall (P : platform) fuel z r, (280 <= fuel)%nat -> positive z ->
  @gamma (ieee P) fuel z = Ok r -> positive r.
Proof. exact gamma_positive. Qed.
Print Assumptions C13_gamma_positive.

Theorem C13_gamma_negative : forall (P : platform) fuel z r (k : Z), (280 <= fuel)%nat ->
  finite z -> (1 <= k)%Z -> - IZR k < Binary.B2R z < - IZR k + 1 ->
  @gamma (ieee P) fuel z = Ok r ->
  number r /\ (val r = 0 \/ (if Z.even k then 0 < val r else val r < 0)).
Proof. exact gamma_negative. Qed.
Print Assumptions C13_gamma_negative.

Example C13_example : - IZR 3 < Binary.B2R (f64_lit (-2.5)) < - IZR 3 + 1.
Proof. exact ex_gamma_m25. Qed.

(** C14 *)
Theorem C14_gamma_step_exact : forall (fma chk : bool) (z : R), (forall k : Z, z <> IZR k) ->
  z + 1 <= 171.6243769563027 -> z <> 1.5 -> z <> 2.5 -> z <> 3.5 ->
  exists n0, forall fuel, (n0 <= fuel)%nat -> exists g g1 : R,
    @gamma (exact fma chk) fuel z = Ok g /\ @gamma (exact fma chk) fuel (z + 1)%R = Ok g1 /\
    g1 = z * g.
Proof. exact gamma_step_exact. Qed.
Print Assumptions C14_gamma_step_exact.

Theorem C14_gamma_step_ieee : forall (P : platform) fuel z z1 g g1, (280 <= fuel)%nat ->
  finite z -> finite z1 -> 7 / 2 < Binary.B2R z -> Binary.B2R z1 = Binary.B2R z + 1 ->
  (forall k : Z, Binary.B2R z <> IZR k) ->
  Binary.B2R z1 <= val (f64_lit 171.624_376_956_302_7) ->
  @gamma (ieee P) fuel z = Ok g -> @gamma (ieee P) fuel z1 = Ok g1 -> finite g1 ->
  finite g /\
  Rabs (Binary.B2R g1 - Binary.B2R z * Binary.B2R g)
    <= bpow radix2 (-43) * (Binary.B2R z * Binary.B2R g).
Proof. exact gamma_step_ieee. Qed.
Print Assumptions C14_gamma_step_ieee.

Example C14_example_exact : forall k : Z, -2.5 <> IZR k.
Proof. exact ex_nonint. Qed.
Example C14_example_ieee : let z := f64_lit 4.25 in let z1 := f64_lit 5.25 in
  finite z /\ finite z1 /\ 7 / 2 < Binary.B2R z /\ Binary.B2R z1 = Binary.B2R z + 1 /\
  (forall k : Z, Binary.B2R z <> IZR k) /\
  Binary.B2R z1 <= val (f64_lit 171.624_376_956_302_7) /\
  exists g1, @gamma (ieee (plain true false)) 280 z1 = Ok g1 /\ finite g1.
Proof. exact ex_gamma_step. Qed.
