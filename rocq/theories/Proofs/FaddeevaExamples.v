(** * Cases meeting the hypotheses of the faddeeva theorems *)

From Coq Require Import ZArith Reals Bool Lra Lia List.
From Flocq Require Import Core IEEE754.BinarySingleNaN IEEE754.Binary IEEE754.Bits.
From Verif.Model Require Import Base Arith Utils Error Dawson FaddeevaTables Faddeeva.
From Verif.Float Require Import Bits64 Ieee Exact Platforms.
From Verif.Spec Require Import F64Spec Outcome ComplexSpec.
From Verif.Proofs Require Import F64 F64Ops Lits Ext Eqz Ideal FaddeevaSafe FaddeevaSym.
Open Scope R_scope.

Lemma neg_rounds : forall x r, rounds x r -> rounds (f64_neg x) (- r).
Proof. intros x r [N V]. split; [rewrite nan_neg; exact N|]. rewrite val_neg, V, rs_opp. reflexivity. Qed.

Lemma eqz_finite : forall x y, eqz x y -> Binary.is_finite x = Binary.is_finite y
  /\ (Binary.is_finite x = true -> Binary.B2R x = Binary.B2R y).
Proof.
  intros x y H. destruct (eqz_cases x y H) as [->|[[A B]|(A & B & C & D)]].
  - auto.
  - destruct x; try discriminate A. destruct y; try discriminate B. split; [reflexivity|discriminate].
  - rewrite A, B. split; [reflexivity|intros _; congruence].
Qed.

Lemma ideal_cexp_conj : commutes_with_conjugation ideal_cexp.
Proof.
  intros a b a' b' HA HB. unfold ideal_cexp. cbn [fst snd].
  destruct (eqz_finite _ _ HA) as [A1 A2]. destruct (eqz_finite _ _ HB) as [B1 B2].
  rewrite fin_neg in B1. rewrite A1, B1.
  destruct (Binary.is_finite a && Binary.is_finite b)%bool eqn:F.
  - apply andb_prop in F. destruct F as [F1 F2]. rewrite A2 by congruence. rewrite B2 by congruence.
    rewrite B2R_neg, cos_neg, sin_neg. split; cbn [fst snd]; [reflexivity|].
    apply (eqz_rounds _ _ (Rtrigo_def.exp (Binary.B2R a) * - Rtrigo_def.sin (Binary.B2R b))).
    + apply round_to_f64_spec.
    + replace (Rtrigo_def.exp (Binary.B2R a) * - Rtrigo_def.sin (Binary.B2R b))
        with (- (Rtrigo_def.exp (Binary.B2R a) * Rtrigo_def.sin (Binary.B2R b))) by ring.
      apply neg_rounds. apply round_to_f64_spec.
  - split; apply eqz_nans; reflexivity.
Qed.

(** C41: the value that makes faddeeva panic, and one that does not *)
Lemma ex_faddeeva_panic : negligible (ideal true false) (f64_lit 1.0) (f64_lit 1e19)
  /\ number (f64_lit 1e19) /\ 7378697629483821056 <= Rabs (val (f64_lit 1e19)).
Proof.
  split; [vm_compute; reflexivity|].
  destruct (lit_spec 1e19) as [N V]. split; [exact N|]. rewrite V.
  assert (E : R_of_dec 1e19 = 10000000000000000000) by (unfold R_of_dec; cbn [dman dexp]; rewrite powerRZ_10; simpl; lra).
  assert (B : bpow radix2 63 = 9223372036854775808) by (simpl; lra).
  assert (L : bpow radix2 63 <= rs (R_of_dec 1e19)).
  { apply rs_ge; [apply fmt_bpow; lia|unfold Om; apply bpow_le; lia|rewrite E, B; lra]. }
  rewrite Rabs_pos_eq; lra.
Qed.

(** C42: points of both axes *)
Lemma ex_axes : number (f64_lit 2.5) /\ bpow radix2 (-1000) <= Rabs (val (f64_lit 2.5))
  /\ finite (f64_lit 0.0) /\ Binary.B2R (f64_lit 0.0) = 0.
Proof.
  lit_facts 2.5%dec 5%Z 1%Z HF HV.
  split; [apply fin_nonnan; exact HF|]. split.
  - rewrite HV. apply Rle_trans with 1; [change 1 with (bpow radix2 0); apply bpow_le; lia|].
    rewrite Rabs_pos_eq; lra.
  - split; [reflexivity|]. pose proof val_0 as V. rewrite val_fin in V by reflexivity. exact V.
Qed.

(** C43: a point of the Taylor region below the real axis, and one far away *)
Lemma ex_reflection :
  (forall P, f64_le (f64_lit 49.0) (modulus_sq P (f64_lit 1.5) (f64_lit (-2.5))) = false)
  /\ (forall P, f64_le (f64_lit 49.0) (modulus_sq P (f64_lit 1e9) (f64_lit 2e9)) = true
       /\ f64_lt (f64_lit 4.8e15) (modulus_sq P (f64_lit 1e9) (f64_lit 2e9)) = true)
  /\ commutes_with_conjugation (p_cexp (ideal true false)).
Proof.
  split; [intros P; vm_compute; reflexivity|].
  split; [intros P; split; vm_compute; reflexivity|]. exact ideal_cexp_conj.
Qed.

(** C43, real reading: every branch returns somewhere; here the asymptotic one *)
Lemma ex_reflection_exact : forall fma chk, exists a b, @faddeeva (exact fma chk) (10%R) (10%R) = Ok (a, b).
Proof.
  intros fma chk. unfold faddeeva.
  assert (L8 : R_of_dec 1e-8 = 1 / 100000000) by (unfold R_of_dec; cbn [dman dexp]; rewrite powerRZ_10; simpl; lra).
  assert (L053 : R_of_dec 0.053 = 0.053) by (unfold R_of_dec; cbn [dman dexp]; rewrite powerRZ_10; simpl; lra).
  assert (L49 : R_of_dec 49.0 = 49) by (unfold R_of_dec; cbn [dman dexp]; rewrite powerRZ_10; simpl; lra).
  assert (A10 : Rabs 10 = 10) by (apply Rabs_pos_eq; lra).
  change (@Arith.lt (exact fma chk) (@abs (exact fma chk) 10%R) (@mul (exact fma chk) (@lit (exact fma chk) 1e-8) (@abs (exact fma chk) 10%R)))
    with (Rlt_bool (Rabs 10) (R_of_dec 1e-8 * Rabs 10)).
  rewrite (Rlt_bool_false (Rabs 10)) by (rewrite L8, A10; lra).
  change (@Arith.lt (exact fma chk) (@add (exact fma chk) (@mul (exact fma chk) (@abs (exact fma chk) 10%R) (@abs (exact fma chk) 10%R)) (@mul (exact fma chk) 10%R 10%R)) (@lit (exact fma chk) 0.053))
    with (Rlt_bool (Rabs 10 * Rabs 10 + 10 * 10) (R_of_dec 0.053)).
  rewrite Rlt_bool_false by (rewrite L053, A10; lra).
  change (@Arith.le (exact fma chk) (@lit (exact fma chk) 49.0) (@add (exact fma chk) (@mul (exact fma chk) (@abs (exact fma chk) 10%R) (@abs (exact fma chk) 10%R)) (@mul (exact fma chk) 10%R 10%R)))
    with (Rle_bool (R_of_dec 49.0) (Rabs 10 * Rabs 10 + 10 * 10)).
  rewrite Rle_bool_true by (rewrite L49, A10; lra).
  match goal with |- exists a b, Ok ?w = _ => exists (fst w), (snd w); rewrite <- surjective_pairing; reflexivity end.
Qed.
