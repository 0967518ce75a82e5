(** * One rounding: absolute error, for results of any size *)

From Coq Require Import ZArith Reals Lra Lia.
From Flocq Require Import Core IEEE754.BinarySingleNaN IEEE754.Binary IEEE754.Bits.
From Verif.Model Require Import Base Arith.
From Verif.Float Require Import Bits64 Ieee Exact.
From Verif.Spec Require Import F64Spec Outcome.
From Verif.Proofs Require Import F64 F64Ops Lits.
Open Scope R_scope.

Definition uu : R := / 2 ^ 53.
Definition eta : R := bpow radix2 (-1000).

Lemma eta_pos : 0 < eta.
Proof. apply bpow_gt_0. Qed.
Lemma eta_small : eta <= / 10 ^ 100.
Proof.
  unfold eta. apply Rle_trans with (bpow radix2 (-340)); [apply bpow_le; lia|].
  change (-340)%Z with (Z.opp 340). rewrite bpow_opp. apply Rinv_le_contravar; [apply pow_lt; lra|].
  rewrite pow_IZR, bpow2_nonneg_IZR by lia. apply IZR_le. vm_compute. discriminate.
Qed.
Lemma uu_eq : uu = bpow radix2 (-53).
Proof. unfold uu. simpl. lra. Qed.

Lemma fl : forall r x, rounds r x -> Rabs x <= bpow radix2 1000 -> fin r /\ Rabs (val r - x) <= uu * Rabs x + eta.
Proof.
  intros r x Hr Hx. destruct (rounds_small _ _ Hr) as [F V].
  - rewrite <- rnd_abs. apply Rle_lt_trans with (bpow radix2 1000).
    + apply rnd_le_fmt; [apply fmt_bpow; lia|exact Hx].
    + unfold Om. apply bpow_lt. lia.
  - split; [exact F|]. rewrite (val_fin r F), V, uu_eq. pose proof (rnd_abs_err x) as E.
    assert (bpow radix2 (-1075) <= eta) by (apply bpow_le; lia). lra.
Qed.

Section Fl.
  Context (P : platform).
  Lemma add_fl : forall x y, fin x -> fin y -> Rabs (val x + val y) <= bpow radix2 1000 ->
    fin (f64_add P x y) /\ Rabs (val (f64_add P x y) - (val x + val y)) <= uu * Rabs (val x + val y) + eta.
  Proof. intros x y Fx Fy H. apply fl; [|exact H]. rewrite (val_fin x Fx), (val_fin y Fy). apply add_spec; assumption. Qed.
  Lemma sub_fl : forall x y, fin x -> fin y -> Rabs (val x - val y) <= bpow radix2 1000 ->
    fin (f64_sub P x y) /\ Rabs (val (f64_sub P x y) - (val x - val y)) <= uu * Rabs (val x - val y) + eta.
  Proof. intros x y Fx Fy H. apply fl; [|exact H]. rewrite (val_fin x Fx), (val_fin y Fy). apply sub_spec; assumption. Qed.
  Lemma mul_fl : forall x y, fin x -> fin y -> Rabs (val x * val y) <= bpow radix2 1000 ->
    fin (f64_mul P x y) /\ Rabs (val (f64_mul P x y) - (val x * val y)) <= uu * Rabs (val x * val y) + eta.
  Proof. intros x y Fx Fy H. apply fl; [|exact H]. rewrite (val_fin x Fx), (val_fin y Fy). apply mul_spec; assumption. Qed.
  Lemma div_fl : forall x y, fin x -> fin y -> val y <> 0 -> Rabs (val x / val y) <= bpow radix2 1000 ->
    fin (f64_div P x y) /\ Rabs (val (f64_div P x y) - (val x / val y)) <= uu * Rabs (val x / val y) + eta.
  Proof. intros x y Fx Fy Zy H. apply fl; [|exact H]. rewrite (val_fin x Fx), (val_fin y Fy) in *. apply div_spec; assumption. Qed.
  Lemma lit_fl : forall d, Rabs (R_of_dec d) <= bpow radix2 1000 ->
    fin (f64_lit d) /\ Rabs (val (f64_lit d) - R_of_dec d) <= uu * Rabs (R_of_dec d) + eta.
  Proof. intros d H. apply fl; [apply lit_spec|exact H]. Qed.
End Fl.
