(** * Bounds on exp *)

From Coq Require Import ZArith Reals Lra Lia.
From Flocq Require Import Core.
From Verif.Proofs Require Import ErfcODE.
Open Scope R_scope.

Lemma derive_expn : forall t, derivable_pt_lim (fun t => exp (- t)) t (- exp (- t)).
Proof.
  intros t. replace (- exp (- t)) with (exp (- t) * (- 1)) by ring.
  apply (derivable_pt_lim_comp (fun t => - t) exp); [|apply derivable_pt_lim_exp].
  apply (derivable_pt_lim_opp id). apply derivable_pt_lim_id.
Qed.

Lemma derive_mono : forall k t, derivable_pt_lim (fun t => t ^ S k) t (INR (S k) * t ^ k).
Proof. intros k t. apply (derivable_pt_lim_pow t (S k)). Qed.

(** exp (- x) lies between its Taylor polynomials *)
Lemma expn_1 : forall x, 1 - x <= exp (- x).
Proof. intros x. pose proof (exp_ineq1_le (- x)). lra. Qed.
Lemma expn_2 : forall x, 0 <= x -> exp (- x) <= 1 - x + x ^ 2 / 2.
Proof.
  intros x Hx.
  set (f := fun t => (1 - t + t ^ 2 / 2) - exp (- t)).
  assert (D : forall t, 0 <= t <= x -> derivable_pt_lim f t (exp (- t) - (1 - t))).
  { intros t _. replace (exp (- t) - (1 - t)) with ((0 - 1 + (INR 2 * t ^ 1) * / 2) - (- exp (- t))) by (simpl; field).
    apply (derivable_pt_lim_minus (fun t => 1 - t + t ^ 2 / 2) (fun t => exp (- t))); [|apply derive_expn].
    apply (derivable_pt_lim_plus (fun t => 1 - t) (fun t => t ^ 2 / 2)).
    - apply (derivable_pt_lim_minus (fun _ => 1) id); [apply derivable_pt_lim_const|apply derivable_pt_lim_id].
    - unfold Rdiv. replace (INR 2 * t ^ 1 * / 2) with (INR 2 * t ^ 1 * / 2 + t ^ 2 * 0) by ring.
      apply (derivable_pt_lim_mult (fun t => t ^ 2) (fun _ => / 2)); [apply derive_mono|apply derivable_pt_lim_const]. }
  pose proof (mono_on f _ 0 x Hx D) as M. cbv beta in M.
  assert (F0 : f 0 = 0) by (unfold f; rewrite Ropp_0, exp_0; simpl; lra).
  rewrite F0 in M. enough (0 <= f x) by (unfold f in *; lra). apply M. intros t Ht. pose proof (expn_1 t). lra.
Qed.
Lemma expn_3 : forall x, 0 <= x -> 1 - x + x ^ 2 / 2 - x ^ 3 / 6 <= exp (- x).
Proof.
  intros x Hx.
  set (f := fun t => exp (- t) - (1 - t + t ^ 2 / 2 - t ^ 3 / 6)).
  assert (D : forall t, 0 <= t <= x -> derivable_pt_lim f t ((1 - t + t ^ 2 / 2) - exp (- t))).
  { intros t _. replace ((1 - t + t ^ 2 / 2) - exp (- t)) with ((- exp (- t)) - ((0 - 1 + (INR 2 * t ^ 1) * / 2) - (INR 3 * t ^ 2) * / 6)) by (simpl; field).
    apply (derivable_pt_lim_minus (fun t => exp (- t)) (fun t => 1 - t + t ^ 2 / 2 - t ^ 3 / 6)); [apply derive_expn|].
    apply (derivable_pt_lim_minus (fun t => 1 - t + t ^ 2 / 2) (fun t => t ^ 3 / 6)).
    - apply (derivable_pt_lim_plus (fun t => 1 - t) (fun t => t ^ 2 / 2)).
      + apply (derivable_pt_lim_minus (fun _ => 1) id); [apply derivable_pt_lim_const|apply derivable_pt_lim_id].
      + unfold Rdiv. replace (INR 2 * t ^ 1 * / 2) with (INR 2 * t ^ 1 * / 2 + t ^ 2 * 0) by ring.
        apply (derivable_pt_lim_mult (fun t => t ^ 2) (fun _ => / 2)); [apply derive_mono|apply derivable_pt_lim_const].
    - unfold Rdiv. replace (INR 3 * t ^ 2 * / 6) with (INR 3 * t ^ 2 * / 6 + t ^ 3 * 0) by ring.
      apply (derivable_pt_lim_mult (fun t => t ^ 3) (fun _ => / 6)); [apply derive_mono|apply derivable_pt_lim_const]. }
  pose proof (mono_on f _ 0 x Hx D) as M. cbv beta in M.
  assert (F0 : f 0 = 0) by (unfold f; rewrite Ropp_0, exp_0; simpl; lra).
  rewrite F0 in M. enough (0 <= f x) by (unfold f in *; lra). apply M. intros t Ht. pose proof (expn_2 t ltac:(lra)). lra.
Qed.

Lemma exp_mono : forall x y, x <= y -> exp x <= exp y.
Proof. intros x y [H| ->]; [left; apply exp_increasing, H|lra]. Qed.
Lemma exp_pow : forall n x, exp (INR n * x) = exp x ^ n.
Proof.
  induction n as [|n IH]; intros x; [simpl; rewrite Rmult_0_l; apply exp_0|].
  rewrite S_INR. replace ((INR n + 1) * x) with (x + INR n * x) by ring. rewrite exp_plus, IH. reflexivity.
Qed.

Lemma exp_1_le : exp 1 <= 27184 / 10000.
Proof.
  pose proof (expn_3 (1 / 16) ltac:(lra)) as H.
  assert (U : exp (1 / 16) <= 1064496 / 1000000).
  { replace (1 / 16) with (- - (1 / 16)) by lra. rewrite exp_Ropp. replace (1064496 / 1000000) with (/ (1000000 / 1064496)) by lra.
    apply Rinv_le_contravar; [lra|]. eapply Rle_trans; [|exact H]. simpl. lra. }
  replace 1 with (INR 16 * (1 / 16)) by (simpl; lra). rewrite exp_pow.
  apply Rle_trans with ((1064496 / 1000000) ^ 16); [|simpl; lra]. apply pow_incr. split; [left; apply exp_pos|exact U].
Qed.

Lemma pow_ratio : forall a b n, (0 < b)%Z -> (IZR a / IZR b) ^ n = IZR (a ^ Z.of_nat n) / IZR (b ^ Z.of_nat n).
Proof.
  intros a b n Hb. assert (0 < IZR b) by (apply IZR_lt; exact Hb).
  unfold Rdiv. rewrite Rpow_mult_distr, pow_inv, !pow_IZR. reflexivity.
Qed.

Lemma exp_709 : exp 709 <= bpow radix2 1023.
Proof.
  assert (E10 : exp 10 <= IZR 22037).
  { replace 10 with (INR 10 * 1) by (simpl; lra). rewrite exp_pow. apply Rle_trans with ((27184 / 10000) ^ 10); [|simpl; lra]. apply pow_incr. split; [left; apply exp_pos|apply exp_1_le]. }
  assert (E9 : exp 9 <= IZR 8107).
  { replace 9 with (INR 9 * 1) by (simpl; lra). rewrite exp_pow. apply Rle_trans with ((27184 / 10000) ^ 9); [|simpl; lra]. apply pow_incr. split; [left; apply exp_pos|apply exp_1_le]. }
  replace 709 with (INR 70 * 10 + 9) by (rewrite INR_IZR_INZ; simpl; lra). rewrite exp_plus, exp_pow. change (bpow radix2 1023) with (IZR (2 ^ 1023)).
  apply Rle_trans with (IZR 22037 ^ 70 * IZR 8107).
  { apply Rmult_le_compat; [apply pow_le; left; apply exp_pos|left; apply exp_pos| |exact E9]. apply pow_incr. split; [left; apply exp_pos|exact E10]. }
  rewrite pow_IZR, <- mult_IZR. apply IZR_le. apply Z.leb_le. vm_compute. reflexivity.
Qed.

Lemma exp_36 : bpow radix2 48 <= exp 36.
Proof.
  assert (L : 9 / 8 <= exp (1 / 8)) by (pose proof (exp_ineq1_le (1 / 8)); lra).
  replace 36 with (INR 288 * (1 / 8)) by (rewrite INR_IZR_INZ; simpl; lra). rewrite exp_pow.
  apply Rle_trans with ((9 / 8) ^ 288); [|apply pow_incr; lra].
  rewrite pow_ratio by lia. change (bpow radix2 48) with (IZR (2 ^ 48)).
  assert (P : 0 < IZR (8 ^ Z.of_nat 288)) by (apply IZR_lt; reflexivity).
  apply (Rmult_le_reg_r (IZR (8 ^ Z.of_nat 288))); [exact P|].
  unfold Rdiv. rewrite Rmult_assoc, Rinv_l, Rmult_1_r by lra. rewrite <- mult_IZR. apply IZR_le. apply Z.leb_le. vm_compute. reflexivity.
Qed.

(** a small change of the argument *)
Lemma exp_near : forall a s d, 0 <= d <= 1 / 2 -> Rabs (s - a) <= d ->
  Rabs (exp s - exp a) <= (d + 2 * (d * d)) * exp a.
Proof.
  intros a s d Hd H. replace s with (a + (s - a)) by ring. rewrite exp_plus. set (h := s - a) in *.
  apply Rabs_le_inv in H. pose proof (exp_pos a).
  assert (E1 : 1 - d <= exp h) by (pose proof (exp_ineq1_le h); lra).
  assert (E2 : exp h <= 1 + d + 2 * (d * d)).
  { apply Rle_trans with (exp d); [apply exp_mono; lra|].
    replace d with (- - d) at 1 by ring. rewrite exp_Ropp.
    apply Rle_trans with (/ (1 - d)).
    - apply Rinv_le_contravar; [lra|apply expn_1].
    - apply (Rmult_le_reg_r (1 - d)); [lra|]. rewrite Rinv_l by lra. nra. }
  replace (exp a * exp h - exp a) with ((exp h - 1) * exp a) by ring.
  rewrite Rabs_mult, (Rabs_pos_eq (exp a)) by lra. apply Rmult_le_compat_r; [lra|]. apply Rabs_le. nra.
Qed.
