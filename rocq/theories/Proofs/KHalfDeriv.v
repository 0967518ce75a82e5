(** * The derivative of the closed form of K at half-integer orders *)

From Coq Require Import Reals Lra Lia Arith.
From Verif.Spec Require Import KHalfSpec.
From Verif.Proofs Require Import KHalfRec.
Open Scope R_scope.

Lemma hb_up : forall n j, (j <= n)%nat -> hb (S n) (S j) = hb n (S j) + (INR n + 1 + INR j) * hb n j.
Proof.
  intros n j Hj. unfold hb.
  rewrite (proj2 (Nat.leb_le (S j) (S n))) by lia. rewrite (proj2 (Nat.leb_le j n)) by lia.
  pose proof (fact_pos j) as Pj. pose proof (pos_INR j) as Ij. pose proof (pow_lt 2 j ltac:(lra)) as P2. unfold half_coef.
  destruct (le_lt_dec (S j) n) as [H|H].
  - rewrite (proj2 (Nat.leb_le (S j) n)) by lia. destruct (Nat.le_exists_sub (S j) n H) as (m & E & _). subst n.
    replace (S (m + S j) + S j)%nat with (S (S (m + S j + j))) by lia.
    replace (m + S j + S j)%nat with (S (m + S j + j)) by lia.
    replace (S (m + S j) - S j)%nat with (S m) by lia. replace (m + S j - S j)%nat with m by lia.
    replace (m + S j - j)%nat with (S m) by lia.
    rewrite !fact_S. rewrite !S_INR, !plus_INR, !S_INR. cbn [pow].
    pose proof (fact_pos m). pose proof (fact_pos (m + S j + j)). pose proof (pos_INR m).
    set (M := INR m) in *. set (J := INR j) in *. set (Fm := INR (fact m)) in *. set (Fj := INR (fact j)) in *. set (G := INR (fact (m + S j + j))) in *.
    field. repeat split; lra.
  - rewrite (proj2 (Nat.leb_gt (S j) n)) by lia. replace j with n in * by lia. rewrite !Nat.sub_diag.
    replace (S n + S n)%nat with (S (S (n + n))) by lia. rewrite !fact_S, !S_INR, !plus_INR. change (fact 0) with 1%nat. cbn [pow INR].
    set (G := INR (fact (n + n))). set (J := INR n) in *. set (Fj := INR (fact n)) in *. field. repeat split; lra.
Qed.

Definition hd (n : nat) (y : R) : R := sum_f_R0 (fun k => hb n k * (INR k * y ^ pred k)) n.

Lemma hs_deriv : forall n y, derivable_pt_lim (hs n) y (hd n y).
Proof.
  intros n y.
  assert (Q : forall N, derivable_pt_lim (fun z => sum_f_R0 (fun k => hb n k * z ^ k) N) y (sum_f_R0 (fun k => hb n k * (INR k * y ^ pred k)) N)).
  { induction N as [|N IH].
    - exact (derivable_pt_lim_scal (fun z => z ^ 0) (hb n 0) y _ (derivable_pt_lim_pow y 0)).
    - exact (derivable_pt_lim_plus _ (fun z => hb n (S N) * z ^ S N) y _ _ IH
               (derivable_pt_lim_scal (fun z => z ^ S N) (hb n (S N)) y _ (derivable_pt_lim_pow y (S N)))). }
  specialize (Q n). intros e He. destruct (Q e He) as [d Hd]. exists d. intros h H0 Hh. specialize (Hd h H0 Hh).
  cbv beta in Hd. rewrite !hs_b in Hd by lia. exact Hd.
Qed.

Lemma hs_up : forall n y, hs (S n) y = hs n y + (INR n + 1) * y * hs n y + y ^ 2 * hd n y.
Proof.
  intros n y. rewrite <- (hs_b (S n) y (S n)) by lia. rewrite <- (hs_b n y (S n)) at 1 by lia. rewrite <- (hs_b n y n) by lia.
  rewrite !(decomp_sum _ (S n)) by lia. cbn [pred]. rewrite !hb_0. unfold hd.
  rewrite !scal_sum, !Rplus_assoc, <- plus_sum, <- plus_sum. f_equal. apply sum_eq. intros j Hj.
  rewrite hb_up by lia. destruct j as [|j]; [simpl; ring|]. cbn [pow pred]. ring.
Qed.

Lemma hd_pos : forall n y, 0 <= y -> 0 <= hd n y.
Proof.
  intros n y Hy. unfold hd. apply cond_pos_sum. intros k. apply Rmult_le_pos; [|apply Rmult_le_pos; [apply pos_INR|apply pow_le, Hy]].
  unfold hb. destruct (k <=? n)%nat; [|lra]. unfold half_coef. pose proof (fact_pos (n + k)). apply Rlt_le, Rdiv_lt_0_compat; [lra|].
  apply Rmult_lt_0_compat; [apply Rmult_lt_0_compat; [apply pow_lt; lra|apply fact_pos]|apply fact_pos].
Qed.

Lemma hs_mono : forall n y, 0 < y -> hs n y <= hs (S n) y.
Proof.
  intros n y Hy. rewrite hs_up. destruct (hs_ge1 n y Hy) as [G _]. pose proof (pos_INR n). pose proof (hd_pos n y ltac:(lra)).
  assert (0 <= (INR n + 1) * y * hs n y) by (repeat apply Rmult_le_pos; lra).
  assert (0 <= y ^ 2 * hd n y) by (apply Rmult_le_pos; [apply pow_le; lra|lra]). lra.
Qed.

Lemma K_half_deriv : forall n x, 0 < x -> derivable_pt_lim (K_half n) x ((INR n + 1 / 2) / x * K_half n x - K_half (S n) x).
Proof.
  intros n x Hx. pose proof PI_RGT_0 as P0.
  assert (I : derivable_pt_lim (fun z => / z) x (- / x ^ 2)).
  { assert (H := derivable_pt_lim_div (fct_cte 1) id x 0 1 (derivable_pt_lim_const 1 x) (derivable_pt_lim_id x) ltac:(unfold id; lra)).
    replace (- / x ^ 2) with ((0 * id x - 1 * fct_cte 1 x) / (id x)²) by (unfold id, fct_cte, Rsqr; field; lra).
    intros e He. destruct (H e He) as [d Hd]. exists d. intros h H0 Hh. specialize (Hd h H0 Hh).
    unfold div_fct, fct_cte, id, Rdiv in *. rewrite !Rmult_1_l in Hd. rewrite !Rmult_1_l. exact Hd. }
  set (s := sqrt (PI / (2 * x))).
  assert (A0 : 0 < PI / (2 * x)) by (apply Rdiv_lt_0_compat; lra).
  assert (S0 : 0 < s) by (apply sqrt_lt_R0, A0). assert (SS : s * s = PI / (2 * x)) by (apply sqrt_sqrt; lra).
  assert (J : derivable_pt_lim (fun z => PI / 2 * / z) x (PI / 2 * - / x ^ 2)) by exact (derivable_pt_lim_scal (fun z => / z) (PI / 2) x _ I).
  assert (AE : PI / 2 * / x = PI / (2 * x)) by (field; lra).
  assert (Q : derivable_pt_lim (fun z => sqrt (PI / 2 * / z)) x (- (1 / 2) * / x * s)).
  { replace (- (1 / 2) * / x * s) with (/ (2 * sqrt (PI / 2 * / x)) * (PI / 2 * - / x ^ 2)).
    - apply (derivable_pt_lim_comp (fun z => PI / 2 * / z) sqrt); [exact J|apply derivable_pt_lim_sqrt; rewrite AE; exact A0].
    - rewrite AE. fold s. replace (PI / 2 * - / x ^ 2) with (- (s * s) * / x) by (rewrite SS; field; lra). field. lra. }
  assert (E : derivable_pt_lim (fun z => exp (- z)) x (exp (- x) * - 1)).
  { apply (derivable_pt_lim_comp (fun z => - z) exp); [apply (derivable_pt_lim_opp id), derivable_pt_lim_id|apply derivable_pt_lim_exp]. }
  assert (C : derivable_pt_lim (fun z => hs n (/ z)) x (hd n (/ x) * - / x ^ 2)).
  { apply (derivable_pt_lim_comp (fun z => / z) (hs n)); [exact I|apply hs_deriv]. }
  pose proof (derivable_pt_lim_mult _ _ _ _ _ (derivable_pt_lim_mult _ _ _ _ _ Q E) C) as T. cbv beta in T.
  match type of T with derivable_pt_lim _ _ ?d => replace ((INR n + 1 / 2) / x * K_half n x - K_half (S n) x) with d end.
  - intros e He. destruct (T e He) as [d Hd].
    assert (D : 0 < Rmin d (x / 2)) by (apply Rmin_glb_lt; [apply cond_pos|lra]). exists (mkposreal _ D). intros h H0 Hh. simpl in Hh.
    specialize (Hd h H0 (Rlt_le_trans _ _ _ Hh (Rmin_l _ _))). pose proof (Rlt_le_trans _ _ _ Hh (Rmin_r _ _)) as Hh2. apply Rabs_def2 in Hh2.
    unfold mult_fct in *. unfold K_half. fold (hs n (/ x)). fold (hs n (/ (x + h))).
    replace (PI / 2 * / (x + h)) with (PI / (2 * (x + h))) in Hd by (field; lra). rewrite AE in *. exact Hd.
  - unfold mult_fct. rewrite AE. unfold K_half. fold (hs n (/ x)). fold (hs (S n) (/ x)). fold s. rewrite hs_up.
    field. lra.
Qed.
