(** * Satisfiability of the hypotheses of the Bessel theorems, small corollaries *)

From Coq Require Import ZArith Reals Bool Lra Lia String.
From Flocq Require Import Core IEEE754.BinarySingleNaN IEEE754.Binary IEEE754.Bits.
From Verif.Model Require Import Base Arith Bessel.
From Verif.Float Require Import Bits64 Ieee Platforms.
From Verif.Spec Require Import F64Spec Outcome.
From Verif.Proofs Require Import F64 F64Ops Lits BesselInt BesselRec BesselPanics BesselI1 Examples.
Open Scope R_scope.

Lemma ex_parity : number (f64_lit 2.5) /\ (0 <= 7)%Z.
Proof. split; [apply pos_2_5|lia]. Qed.
Lemma ex_order : (1 <= 1000)%Z.
Proof. lia. Qed.
Lemma ex_exp_16 : exists P : platform,
  between 2 (bpow radix2 100) (p_exp P (f64_lit 16.0))
  /\ between 0 1 (p_exp P (f64_neg (f64_lit 16.0))).
Proof. exists (step_exp (plain true false)). apply ex_exp_plausible. Qed.

Lemma ex_Kn : let P := plain true false in let x := f64_lit 2.5 in
  positive x /\ finite x /\ positive (@Kn (ieee P) 0 x) /\ positive (@Kn (ieee P) 1 x).
Proof.
  cbv zeta. split; [exact pos_2_5|]. split; [vm_compute; reflexivity|].
  split; apply pos_true; vm_compute; reflexivity.
Qed.

Lemma ex_large_arg : number (f64_lit 100.0) /\ IZR (41 + 1) < Rabs (val (f64_lit 100.0)).
Proof. split; [exact num_100|]. rewrite val_100, Rabs_pos_eq by lra. apply IZR_lt. lia. Qed.

Lemma besseljy_bad_iff : forall (P : platform) (nu x : f64),
  (number x /\ val x <= 0) \/ (number nu /\ val nu < 0)
  <-> @besseljy (ieee P) nu x = Panic (PExplicit "bad arguments in besseljy").
Proof. intros. split; [apply besseljy_bad|apply besseljy_bad_only]. Qed.
Lemma besselik_bad_iff : forall (P : platform) (nu x : f64),
  (number x /\ val x <= 0) \/ (number nu /\ val nu < 0)
  <-> @besselik (ieee P) nu x = Panic (PExplicit "bad arguments in besselik").
Proof. intros. split; [apply besselik_bad|apply besselik_bad_only]. Qed.

Lemma ex_nan_args : is_NaN f64_NAN
  /\ ~ (number f64_NAN /\ val f64_NAN <= 0) /\ ~ (number (f64_lit 2.5) /\ val (f64_lit 2.5) < 0).
Proof.
  split; [reflexivity|]. split; [intros [H _]; discriminate H|].
  intros [_ H]. destruct pos_2_5 as [_ G]. lra.
Qed.

Lemma ex_checks : p_checks (plain true false) = true.
Proof. reflexivity. Qed.

Lemma Jn_nan_refuted : exists n x, (0 <= n < 2 ^ 32)%Z /\ is_NaN x
  /\ forall P : platform, exists r, @Jn (ieee (canonical_nan P)) n x = Ok r /\ finite r.
Proof. exists 2%Z, f64_NAN. split; [lia|]. split; [reflexivity|]. exact Jn_nan_number. Qed.

Lemma J0_J1_nan : forall (P : platform) (x : f64), is_NaN x ->
  exists r0 r1, @Jn (ieee P) 0 x = Ok r0 /\ is_NaN r0 /\ @Jn (ieee P) 1 x = Ok r1 /\ is_NaN r1.
Proof.
  intros P x H. exists (@j0 (ieee P) x), (@j1 (ieee P) x).
  split; [reflexivity|]. split; [apply j0_nan; exact H|]. split; [reflexivity|apply j1_nan; exact H].
Qed.
