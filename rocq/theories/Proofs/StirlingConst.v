(** * The constant of Stirling's formula, numerically *)

From Coq Require Import ZArith Reals Lra Lia List.
From Flocq Require Import Core.Raux.
From Verif.Spec Require Import GammaSpec.
From Verif.Proofs Require Import Poly PolyZ PolyShift ErfcODE ExpBounds PiBounds Stirling GammaPoly.
Import ListNotations.
Open Scope R_scope.

(** ** Taylor polynomials of exp *)

Fixpoint tay (n : nat) (u : R) : R :=
  match n with
  | O => 1
  | S k => tay k u + u ^ n / INR (fact n)
  end.

Lemma fact_pos : forall n, 0 < INR (fact n).
Proof. intros n. apply lt_0_INR, lt_O_fact. Qed.

Fixpoint zfa (n : nat) : Z := match n with O => 1%Z | S k => (Z.of_nat n * zfa k)%Z end.
Lemma fact_zfa : forall n, INR (fact n) = IZR (zfa n).
Proof. induction n as [|n IH]; [reflexivity|]. rewrite fact_simpl, mult_INR, IH. cbn [zfa]. rewrite mult_IZR, INR_IZR_INZ. reflexivity. Qed.

Lemma derive_tay : forall n u, derivable_pt_lim (tay (S n)) u (tay n u).
Proof.
  induction n as [|n IH]; intros u.
  - apply (derivable_pt_lim_ext (fun u => 1 + id u)); [intros t; unfold id; simpl; field|].
    replace (tay 0 u) with (0 + 1) by (simpl; ring). apply derivable_pt_lim_plus; [apply derivable_pt_lim_const|apply derivable_pt_lim_id].
  - apply (derivable_pt_lim_ext (fun u => tay (S n) u + / INR (fact (S (S n))) * u ^ S (S n))); [intros t; cbn [tay]; unfold Rdiv; ring|].
    replace (tay (S n) u) with (tay n u + / INR (fact (S (S n))) * (INR (S (S n)) * u ^ S n)).
    2: { cbn [tay]. rewrite (fact_simpl (S n)), mult_INR. field. split; [apply Rgt_not_eq, fact_pos|apply not_0_INR; lia]. }
    apply derivable_pt_lim_plus; [apply IH|]. apply (derivable_pt_lim_scal (fun u => u ^ S (S n))). apply (derive_mono (S n)).
Qed.

Lemma tay_low : forall n u, 0 <= u -> tay n u <= exp u.
Proof.
  induction n as [|n IH]; intros u Hu.
  - simpl. pose proof (exp_ineq1_le u). lra.
  - assert (M : exp 0 - tay (S n) 0 <= exp u - tay (S n) u).
    { apply (mono_on (fun t => exp t - tay (S n) t) (fun t => exp t - tay n t) 0 u Hu).
      - intros t Ht. apply derivable_pt_lim_minus; [apply derivable_pt_lim_exp|apply derive_tay].
      - intros t Ht. pose proof (IH t ltac:(lra)). lra. }
    assert (Z : forall k, tay k 0 = 1).
    { induction k as [|k Hk]; [reflexivity|]. cbn [tay]. rewrite Hk, pow_i by lia. unfold Rdiv. ring. }
    rewrite exp_0, Z in M. lra.
Qed.
Lemma tay_up : forall n u, 0 <= u <= 1 -> exp u <= tay n u + 3 * (u ^ S n / INR (fact (S n))).
Proof.
  induction n as [|n IH]; intros u Hu.
  - assert (M : 1 + 3 * 0 - exp 0 <= 1 + 3 * u - exp u).
    { apply (mono_on (fun t => 1 + 3 * t - exp t) (fun t => 0 + 3 * 1 - exp t) 0 u ltac:(lra)).
      - intros t Ht. apply derivable_pt_lim_minus; [|apply derivable_pt_lim_exp].
        apply derivable_pt_lim_plus; [apply derivable_pt_lim_const|apply (derivable_pt_lim_scal id), derivable_pt_lim_id].
      - intros t Ht. pose proof exp_1_le. pose proof (exp_mono t 1 ltac:(lra)). lra. }
    rewrite exp_0 in M. replace (3 * (u ^ 1 / INR (fact 1))) with (3 * u) by (simpl; field). cbn [tay]. lra.
  - set (c := 3 / INR (fact (S (S n)))).
    assert (M : tay (S n) 0 + c * 0 ^ S (S n) - exp 0 <= tay (S n) u + c * u ^ S (S n) - exp u).
    { apply (mono_on (fun t => tay (S n) t + c * t ^ S (S n) - exp t) (fun t => tay n t + c * (INR (S (S n)) * t ^ S n) - exp t) 0 u ltac:(lra)).
      - intros t Ht. apply derivable_pt_lim_minus; [|apply derivable_pt_lim_exp].
        apply derivable_pt_lim_plus; [apply derive_tay|apply (derivable_pt_lim_scal (fun t => t ^ S (S n))), (derive_mono (S n))].
      - intros t Ht. pose proof (IH t ltac:(lra)) as I.
        replace (c * (INR (S (S n)) * t ^ S n)) with (3 * (t ^ S n / INR (fact (S n)))); [lra|].
        unfold c. rewrite (fact_simpl (S n)), mult_INR. field. split; [apply Rgt_not_eq, fact_pos|apply not_0_INR; lia]. }
    assert (Z : forall k, tay k 0 = 1).
    { induction k as [|k Hk]; [reflexivity|]. cbn [tay]. rewrite Hk, pow_i by lia. unfold Rdiv. ring. }
    rewrite exp_0, Z, pow_i in M by lia. replace (3 * (u ^ S (S n) / INR (fact (S (S n))))) with (c * u ^ S (S n)) by (unfold c, Rdiv; ring). lra.
Qed.

(** the value at p / q over n! q^n *)
Fixpoint ztay (n : nat) (p q : Z) : Z :=
  match n with
  | O => 1
  | S k => Z.of_nat n * q * ztay k p q + p ^ Z.of_nat n
  end.
Lemma ztay_ok : forall n p q, (0 < q)%Z -> tay n (IZR p / IZR q) * (INR (fact n) * IZR q ^ n) = IZR (ztay n p q).
Proof.
  intros n p q Hq. assert (Q : 0 < IZR q) by (apply IZR_lt, Hq). induction n as [|n IH].
  - cbn [tay ztay fact pow]. simpl. ring.
  - cbn [tay ztay]. rewrite plus_IZR, !mult_IZR, <- IH, <- pow_IZR, <- INR_IZR_INZ, (fact_simpl n), mult_INR.
    unfold Rdiv. rewrite Rpow_mult_distr, pow_inv. pose proof (fact_pos n). pose proof (not_0_INR (S n) ltac:(lia)).
    assert (IZR q ^ n <> 0) by (apply pow_nonzero; lra). cbn [pow]. field. repeat split; try assumption; lra.
Qed.

(** ** The constant *)

Definition cP : Z := 199833388731332742.
Definition cQ : Z := 640000000000000000.
Lemma base_low : 1366482158418409 / 1000000000000000 <= exp (IZR cP / IZR cQ).
Proof.
  eapply Rle_trans; [|apply (tay_low 14); apply Rmult_le_pos; [apply IZR_le; discriminate|left; apply Rinv_0_lt_compat, IZR_lt; reflexivity]].
  pose proof (ztay_ok 14 cP cQ eq_refl) as H.
  assert (Fa : INR (fact 14) = 87178291200) by (rewrite fact_zfa; f_equal; vm_compute; reflexivity).
  rewrite Fa, pow_IZR, <- mult_IZR in H. set (T := tay 14 _) in *. clearbody T.
  assert (C : (1366482158418409 * (87178291200 * cQ ^ 14) <=? 10 ^ 15 * ztay 14 cP cQ)%Z = true) by (vm_compute; reflexivity).
  apply Z.leb_le, IZR_le in C. rewrite (mult_IZR _ (ztay _ _ _)), <- H, (mult_IZR 1366482158418409) in C.
  change (Z.of_nat 14) with 14%Z in *.
  assert (D : 0 < IZR (87178291200 * cQ ^ 14)) by (apply IZR_lt; reflexivity).
  set (d := IZR (87178291200 * cQ ^ 14)) in *. clearbody d.
  apply Rmult_le_reg_r with d; [exact D|]. change (IZR (10 ^ 15)) with 1000000000000000 in C.
  set (x := T * d) in *. clearbody x. lra.
Qed.

Lemma base_up : exp (IZR cP / IZR cQ + / 10 ^ 17) <= 1366482158418411 / 1000000000000000.
Proof.
  set (p := (100 * cP + 640)%Z). set (q := (100 * cQ)%Z).
  apply Rle_trans with (exp (IZR p / IZR q)).
  { apply exp_mono. unfold p, q, cP, cQ. simpl. lra. }
  assert (Q : 0 < IZR q) by (apply IZR_lt; reflexivity).
  eapply Rle_trans; [apply (tay_up 14)|].
  { split; [apply Rmult_le_pos; [apply IZR_le; discriminate|left; apply Rinv_0_lt_compat, Q]|].
    apply Rmult_le_reg_r with (IZR q); [exact Q|]. replace (IZR p / IZR q * IZR q) with (IZR p) by (field; lra). rewrite Rmult_1_l. apply IZR_le. discriminate. }
  pose proof (ztay_ok 14 p q eq_refl) as H.
  assert (Fa : INR (fact 14) = 87178291200) by (rewrite fact_zfa; f_equal; vm_compute; reflexivity).
  assert (Fb : INR (fact 15) = 1307674368000) by (rewrite fact_zfa; f_equal; vm_compute; reflexivity).
  assert (U : (IZR p / IZR q) ^ 15 / INR (fact 15) <= / 10 ^ 18).
  { rewrite Fb. apply Rle_trans with ((1 / 3) ^ 15 / 1307674368000); [|simpl; lra].
    apply Rmult_le_compat_r; [lra|]. apply pow_incr. split; [apply Rmult_le_pos; [apply IZR_le; discriminate|left; apply Rinv_0_lt_compat, Q]|].
    apply Rmult_le_reg_r with (IZR q); [exact Q|]. replace (IZR p / IZR q * IZR q) with (IZR p) by (field; lra).
    apply Rmult_le_reg_r with 3; [lra|]. replace (1 / 3 * IZR q * 3) with (IZR q) by field. rewrite <- mult_IZR. apply IZR_le. discriminate. }
  rewrite Fa, pow_IZR, <- mult_IZR in H. set (T := tay 14 _) in *. set (y := (IZR p / IZR q) ^ 15 / INR (fact 15)) in *. clearbody T y.
  assert (C : (1000 * 10 ^ 15 * ztay 14 p q <=? 1366482158418410000 * (87178291200 * q ^ 14))%Z = true) by (vm_compute; reflexivity).
  apply Z.leb_le, IZR_le in C. rewrite (mult_IZR _ (ztay _ _ _)), <- H, (mult_IZR 1366482158418410000) in C.
  change (Z.of_nat 14) with 14%Z in *.
  assert (D : 0 < IZR (87178291200 * q ^ 14)) by (apply IZR_lt; reflexivity).
  set (d := IZR (87178291200 * q ^ 14)) in *. clearbody d.
  assert (T <= 1366482158418410000 / 10 ^ 18).
  { apply Rmult_le_reg_r with d; [exact D|]. change (IZR (1000 * 10 ^ 15)) with 1000000000000000000 in C.
    set (x := T * d) in *. clearbody x. lra. }
  lra.
Qed.

Lemma s9_at_10 : IZR cP / IZR cQ <= (20 - 2 * (pinv s9 10 / IZR DS)) / 64 <= IZR cP / IZR cQ + / 10 ^ 17.
Proof.
  unfold pinv, s9, DS, cP, cQ, peval. cbn [fold_right]. simpl pow. lra.
Qed.

(** ln 9! - ST (10) is ln (2 PI) / 2 *)
Lemma stirling_const : Rabs (ln 362880 - ST s9 DS 10 - ln (2 * PI) / 2) <= 6 / 10 ^ 13.
Proof.
  pose proof s9_at_10 as [V1 V2]. pose proof PI_RGT_0 as PP.
  unfold ST. set (s := pinv s9 10 / IZR DS) in *. clearbody s.
  set (v := (20 - 2 * s) / 64) in *.
  pose proof base_low as B1. pose proof base_up as B2.
  pose proof (exp_mono _ _ V1) as E1. pose proof (exp_mono _ _ V2) as E2.
  assert (E : ln 362880 - ((10 - 1 / 2) * ln 10 - 10 + s) - ln (2 * PI) / 2 = (ln (362880 ^ 2 * exp v ^ 64) - ln (10 ^ 19 * (2 * PI))) / 2).
  { rewrite (ln_mult (362880 ^ 2)), (ln_mult (10 ^ 19)), !ln_pow; try lra; try (apply pow_lt, exp_pos); try apply exp_pos.
    rewrite ln_exp. unfold v. rewrite !INR_IZR_INZ. change (Z.of_nat 64) with 64%Z. change (Z.of_nat 2) with 2%Z. change (Z.of_nat 19) with 19%Z. field. }
  rewrite E. set (w := exp v) in *. clearbody w v. clear E V1 V2.
  assert (W1 : (1366482158418409 / 1000000000000000) ^ 64 <= w ^ 64) by (apply pow_incr; lra).
  assert (W2 : w ^ 64 <= (1366482158418411 / 1000000000000000) ^ 64) by (apply pow_incr; lra).
  pose proof PI_bounds as PB. change (IZR (2 ^ 70)) with 1180591620717411303424 in PB.
  assert (L1 : 477148763374640 / 1000000 <= w ^ 64).
  { eapply Rle_trans; [|exact W1]. rewrite (pow_ratio _ _ 64) by reflexivity. apply le_div; [apply IZR_lt; reflexivity|].
    unfold Rdiv. rewrite Rmult_assoc, (Rmult_comm (/ _)), <- Rmult_assoc. apply div_le; [apply IZR_lt; reflexivity|].
    rewrite <- !mult_IZR. apply IZR_le, Z.leb_le. vm_compute. reflexivity. }
  assert (L2 : w ^ 64 <= 477148763374730 / 1000000).
  { eapply Rle_trans; [exact W2|]. rewrite (pow_ratio _ _ 64) by reflexivity. apply div_le; [apply IZR_lt; reflexivity|].
    unfold Rdiv. rewrite Rmult_assoc, (Rmult_comm (/ _)), <- Rmult_assoc. apply le_div; [apply IZR_lt; reflexivity|].
    rewrite <- !mult_IZR. apply IZR_le, Z.leb_le. vm_compute. reflexivity. }
  set (W := w ^ 64) in *. clearbody W.
  unfold Rdiv. rewrite Rabs_mult, (Rabs_pos_eq (/ 2)) by lra.
  assert (H : Rabs (ln (362880 ^ 2 * W) - ln (10 ^ 19 * (2 * PI))) <= 12 / 10 ^ 13); [|lra].
  apply ln_close; try lra; apply Rabs_le; lra.
Qed.
