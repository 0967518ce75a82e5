(** * Satisfiability of the hypotheses of property theorems: literals *)

From Coq Require Import ZArith Reals Bool Lra Lia.
From Flocq Require Import Core IEEE754.BinarySingleNaN IEEE754.Binary IEEE754.Bits.
From Verif.Model Require Import Base Arith.
From Verif.Float Require Import Bits64 Ieee Platforms.
From Verif.Spec Require Import F64Spec Outcome.
From Verif.Proofs Require Import F64 F64Ops Lits.
Open Scope R_scope.

Ltac lit_case d m k :=
  let HF := fresh in let HV := fresh in
  lit_facts d m k HF HV; pose proof (fin_nonnan _ HF);
  first [ split; [assumption|lra] | assumption | lra | idtac ].

Lemma pos_2_5 : positive (f64_lit 2.5).
Proof. lit_case 2.5%dec 5%Z 1%Z. Qed.
Lemma pos_3_25 : positive (f64_lit 3.25).
Proof. lit_case 3.25%dec 13%Z 2%Z. Qed.
Lemma nonneg_3_25 : nonneg (f64_lit 3.25).
Proof. lit_case 3.25%dec 13%Z 2%Z. Qed.
Lemma pos_4 : positive (f64_lit 4.0).
Proof. lit_case 4.0%dec 4%Z 0%Z. Qed.
Lemma val_4 : val (f64_lit 4.0) = 4.
Proof. lit_case 4.0%dec 4%Z 0%Z. Qed.
Lemma val_100 : val (f64_lit 100.0) = 100.
Proof. lit_case 100.0%dec 100%Z 0%Z. Qed.
Lemma num_100 : number (f64_lit 100.0).
Proof. lit_case 100.0%dec 100%Z 0%Z. Qed.
Lemma nan_default : is_NaN f64_NAN.
Proof. reflexivity. Qed.

Lemma ex_gammp : (nonneg (f64_lit 3.25) /\ positive (f64_lit 2.5))
  /\ ~ (nonneg f64_NAN /\ positive (f64_lit 2.5)).
Proof.
  split; [exact (conj nonneg_3_25 pos_2_5)|]. intros [[N _] _]. discriminate N.
Qed.

Lemma ex_low : nonneg (f64_lit 0.0) /\ val (f64_lit 0.0) = 0.
Proof. split; [split; [reflexivity|rewrite val_0; lra]|exact val_0]. Qed.

Lemma ex_low_pos : let x := f64_lit 0.0000000000000002 in
  positive x /\ val x < rnd (val (f64_lit 4.0) * bpow radix2 (-52)).
Proof.
  cbv zeta. rewrite val_4. replace (4 * bpow radix2 (-52)) with (bpow radix2 (-50)) by (change 4 with (bpow radix2 2); rewrite <- bpow_plus; reflexivity).
  replace (rnd (bpow radix2 (-50))) with (bpow radix2 (-50)).
  2:{ symmetry. unfold rnd. apply round_generic; [apply valid_rnd_N|]. apply generic_format_bpow. unfold SpecFloat.fexp, SpecFloat.emin. lia. }
  pose proof (proj1 (lt_true (f64_lit 0.0) (f64_lit 0.0000000000000002)) ltac:(vm_compute; reflexivity)) as (_ & N & V).
  rewrite val_0 in V. split; [split; assumption|].
  pose proof (proj1 (lt_true (f64_lit 0.0000000000000002) (@B754_finite 53 1024 false (2 ^ 52) (-102) eq_refl)) ltac:(vm_compute; reflexivity)) as (_ & _ & W).
  eapply Rlt_le_trans; [exact W|]. right. unfold val, Binary.B2R, F2R. cbn [Fnum Fexp SpecFloat.cond_Zopp].
  replace (IZR (Z.pos (2 ^ 52))) with (bpow radix2 52) by (rewrite bpow2_nonneg_IZR by lia; reflexivity).
  rewrite <- bpow_plus. reflexivity.
Qed.

Lemma ex_high : (val (f64_lit 4.0) + 20 * (R_sqrt.sqrt (val (f64_lit 4.0)) + 1)) * (1 + bpow radix2 (-50))
  < val (f64_lit 100.0).
Proof.
  rewrite val_4, val_100. replace 4 with (2 * 2) at 2 by lra. rewrite sqrt_square by lra.
  rewrite bpow2_inv_IZR by lia. change (2 ^ (- -50))%Z with 1125899906842624%Z. lra.
Qed.

Lemma ex_invgammp_one : val (f64_lit 4.0) <= bpow radix2 1023
  /\ number (f64_lit 2.5) /\ 1 <= val (f64_lit 2.5).
Proof.
  split; [|split].
  - rewrite val_4. apply Rle_trans with (bpow radix2 2); [cbn; lra|apply bpow_le; lia].
  - apply pos_2_5.
  - lit_case 2.5%dec 5%Z 1%Z.
Qed.
Lemma ex_low_p : number (f64_lit (-2.5)) /\ val (f64_lit (-2.5)) <= 0.
Proof. lit_case (-2.5)%dec (-5)%Z 1%Z. Qed.

Lemma ex_never_negative : forall c f, never_negative (p_exp (plain c f)).
Proof.
  intros c f x _. right. change (p_exp (plain c f) x) with one_f64.
  unfold val, one_f64, Binary.B2R. apply F2R_ge_0. cbn. lia.
Qed.

Lemma ex_between : between 0 1 (f64_lit 0.375).
Proof. lit_facts 0.375%dec 3%Z 3%Z HF HV. split; [apply fin_nonnan; exact HF|lra]. Qed.

Lemma ex_one : number (f64_lit 1.0) /\ val (f64_lit 1.0) = 1.
Proof. exact (conj nn_1 val_1). Qed.

Lemma ex_1_75 : number (f64_lit 1.75) /\ 1 < val (f64_lit 1.75) < 2.
Proof. lit_facts 1.75%dec 7%Z 2%Z HF HV. split; [apply fin_nonnan; exact HF|lra]. Qed.

Lemma ex_infinity : number (B754_infinity false : f64).
Proof. reflexivity. Qed.

Lemma ex_small_square : let x := f64_lit 1e-160 in
  finite x /\ val x <> 0 /\ val x * val x <= bpow radix2 (-1019).
Proof.
  cbv zeta. assert (HF : fin (f64_lit 1e-160)) by (vm_compute; reflexivity).
  pose proof (proj1 (lt_true (f64_lit 0.0) (f64_lit 1e-160)) ltac:(vm_compute; reflexivity)) as (_ & N & V).
  rewrite val_0 in V.
  pose proof (proj1 (lt_true (f64_lit 1e-160) (@B754_finite 53 1024 false (2 ^ 52) (-582) eq_refl)) ltac:(vm_compute; reflexivity)) as (_ & _ & W).
  replace (val (@B754_finite 53 1024 false (2 ^ 52) (-582) eq_refl)) with (bpow radix2 (-530)) in W.
  2:{ unfold val, Binary.B2R, F2R. cbn [Fnum Fexp SpecFloat.cond_Zopp].
      replace (IZR (Z.pos (2 ^ 52))) with (bpow radix2 52) by (rewrite bpow2_nonneg_IZR by lia; reflexivity).
      rewrite <- bpow_plus. reflexivity. }
  split; [exact HF|]. split; [lra|].
  apply Rle_trans with (bpow radix2 (-530) * bpow radix2 (-530)).
  - apply Rmult_le_compat; lra.
  - rewrite <- bpow_plus. apply bpow_le. lia.
Qed.
