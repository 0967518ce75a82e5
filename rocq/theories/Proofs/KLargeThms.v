(** * Statement of the accuracy theorem for Kn beyond 1 *)

From Coq Require Import ZArith Reals Bool Lra Lia List.
From Flocq Require Import Core IEEE754.BinarySingleNaN IEEE754.Binary IEEE754.Bits.
From Verif.Model Require Import Base Arith BesselTables Bessel.
From Verif.Float Require Import Bits64 Ieee Exact Platforms.
From Verif.Spec Require Import F64Spec Outcome BesselSpec Bessel2Spec LibmSpec.
From Verif.Proofs Require Import F64 F64Ops Lits Ext FlErr PolyZ HornerErr PosHorner BesselAcc BesselRat BetaExamples EulerGamma SecondSeries KAcc KnAcc BesselODE BesselLim KRat KPoly KLarge ErfcxAcc.
Import ListNotations.
Open Scope R_scope.
Local Notation exp := Rtrigo_def.exp. Local Notation sqrt := R_sqrt.sqrt.

Lemma Kn_large_acc : forall (P : platform) (n : nat) (x : f64) (v : R), accurate_exp (p_exp P) -> (Z.of_nat n < 2 ^ 32)%Z -> finite x -> 1 < Binary.B2R x <= 690 ->
  is_K n (Binary.B2R x) v -> v <= bpow radix2 1010 ->
  let r := @Kn (ieee P) (Z.of_nat n) x in finite r /\ Rabs (Binary.B2R r - v) <= (15 / 10 ^ 15 + INR n / 10 ^ 15) * v.
Proof.
  intros P n x v EX Hn Fx Hx Hv HB r. rewrite <- (val_fin x Fx) in Hx, Hv. destruct (Kn_large_fl P EX n x v Hn Fx Hx Hv HB) as [F E].
  fold r in F, E. rewrite (val_fin _ F) in E. split; [exact F|exact E].
Qed.

Lemma K_large_small : forall g, is_euler g -> forall x, 1 <= x -> K0 g x <= 1000 /\ K1 g x <= 1000.
Proof.
  assert (G : forall PP QQ x ks k, forallb okb PP = true -> forallb okb QQ = true -> tab PP 1 <= 900 -> 1 <= tab QQ 0 -> 1 <= x -> 0 < ks -> ks = sqrt x * exp (1 * x) * k -> Rabs (tab PP (1 / x) / tab QQ (1 / x) - ks) <= 3 / 10 ^ 15 * ks -> k <= 1000).
  { intros PP QQ x ks k OP OQ HP HQ Hx K0 EK HR. assert (Y : 0 < 1 / x <= 1). { split; [apply Rdiv_lt_0_compat; lra|]. apply Rmult_le_reg_r with x; [lra|]. unfold Rdiv. rewrite Rmult_assoc, Rinv_l by lra. lra. }
    pose proof (tabb_mono PP (1 / x) 1 OP ltac:(lra)) as A. pose proof (tabb_mono QQ 0 (1 / x) OQ ltac:(lra)) as B. pose proof (tabb_nonneg PP (1 / x) OP ltac:(lra)) as C.
    set (p := tab PP (1 / x)) in *. set (q := tab QQ (1 / x)) in *. clearbody p q.
    assert (PQ : p / q <= 900). { apply Rmult_le_reg_r with q; [lra|]. unfold Rdiv. rewrite Rmult_assoc, Rinv_l by lra. assert (900 * 1 <= 900 * q) by (apply Rmult_le_compat_l; lra). lra. }
    apply Rabs_le_inv in HR. assert (KS : ks <= 1000) by lra.
    assert (S1 : 1 <= sqrt x) by (assert (Q1 : sqrt 1 <= sqrt x) by (apply sqrt_le_1_alt; lra); rewrite sqrt_1 in Q1; exact Q1).
    assert (E1 : 1 <= exp (1 * x)) by (pose proof (exp_ineq1_le (1 * x)); lra). assert (SE : 1 <= sqrt x * exp (1 * x)) by (rewrite <- (Rmult_1_r 1) at 1; apply Rmult_le_compat; lra).
    set (w := sqrt x * exp (1 * x)) in *. clearbody w. destruct (Rle_or_lt k 1000) as [|L]; [assumption|]. exfalso. assert (1 * k <= w * k) by (apply Rmult_le_compat_r; lra). lra. }
  intros g Hg x Hx. split.
  - destruct (k0_rat g Hg x Hx) as [KP KR]. apply (G K0PP K0QQ x (k0s g x)); [reflexivity|reflexivity|apply tb_hi; vm_compute; reflexivity|apply tb_lo; vm_compute; reflexivity|exact Hx|exact KP|reflexivity|]. eapply Rle_trans; [exact KR|]. apply Rmult_le_compat_r; lra.
  - destruct (k1_rat g Hg x Hx) as [KP KR]. apply (G K1PP K1QQ x (k1s g x)); [reflexivity|reflexivity|apply tb_hi; vm_compute; reflexivity|apply tb_lo; vm_compute; reflexivity|exact Hx|exact KP|reflexivity|exact KR].
Qed.

Lemma ex_K_large : accurate_exp (p_exp (ideal true false)) /\ (finite (f64_lit 600.0) /\ Binary.B2R (f64_lit 600.0) = 600) /\ exists v, is_K 2 600 v /\ 0 < v <= bpow radix2 1010.
Proof.
  lit_facts 600.0%dec 600%Z 0%Z HF HV. assert (V : Binary.B2R (f64_lit 600.0) = 600) by (rewrite <- (val_fin _ HF); lra).
  split; [apply ideal_exp_accurate|]. split; [split; [exact HF|exact V]|].
  destruct (K_exists 2 600 ltac:(lra)) as [v Hv]. exists v. split; [exact Hv|].
  destruct euler_exists as [g Hg]. pose proof (K0_is g Hg 600) as I0. pose proof (K1_is g Hg 600 ltac:(lra)) as I1.
  assert (VX : val (f64_lit 600.0) = 600) by (rewrite (val_fin _ HF); exact V).
  destruct (K_low (ideal true false) (ideal_exp_accurate true false) 1 (f64_lit 600.0) (K1 g 600) v HF) as [_ L]; [rewrite VX; lra|rewrite VX; exact I1|rewrite VX; exact Hv|].
  pose proof (bpow_gt_0 radix2 (-1010)). split; [lra|].
  rewrite (K_step 0 600 _ _ v ltac:(lra) I0 I1 Hv). destruct (K_large_small g Hg 600 ltac:(lra)) as [A B]. apply Rle_trans with (bpow radix2 12); [|apply bpow_le; lia]. replace (bpow radix2 12) with 4096 by (simpl; lra). simpl INR. lra.
Qed.
