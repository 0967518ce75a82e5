(** * The exponent of erfccheb as a polynomial, and how far it is from solving
    the differential equation of erfc *)

From Coq Require Import ZArith Reals Bool Lra Lia List.
From Flocq Require Import Core IEEE754.BinarySingleNaN IEEE754.Binary IEEE754.Bits.
From Verif.Model Require Import Base Arith ErrorTables.
From Verif.Float Require Import Exact.
From Verif.Proofs Require Import Poly PolyZ PolyShift PolyTree HornerErr ErfcODE ExpBounds.
Local Notation exp := Rtrigo_def.exp.
Import ListNotations.
Open Scope R_scope.

(** the decimal coefficients are integers over 10^20 *)
Definition D20 : Z := (10 ^ 20)%Z.
Definition cof_list : list dec := rev (firstn 26 (tl COF)).

Definition cpl (l : list dec) : list Z * list Z :=
  fold_left (fun (s : list Z * list Z) (c : dec) =>
    (padd (padd (pmul [-2; 4]%Z (fst s)) (pscale (-1) (snd s))) [dz 20 c], fst s)) l ([], []).
Definition clen_poly : list Z * list Z := cpl cof_list.

(** 2 * 10^20 times the polynomial part P of the exponent, as a function of t *)
Definition pz : list Z :=
  Eval vm_compute in padd (padd [dz 20 (hd (Dec 0 0) COF)] (pmul [-2; 4]%Z (fst clen_poly))) (pscale (-2) (snd clen_poly)).
Definition dpz : list Z := Eval vm_compute in pder pz.
(** 4 * 10^20 times Q = 4 - 4 t + t^2 / 2 + t^3 P' / 2 *)
Definition qz : list Z := Eval vm_compute in padd [16 * D20; - (16 * D20); 2 * D20]%Z (0 :: 0 :: 0 :: dpz)%Z.
(** 8 * 10^40 times Q' + Q P' *)
Definition rz : list Z := Eval vm_compute in padd (pscale (2 * D20) (pder qz)) (pmul qz dpz).

Definition PP (t : R) : R := peval pz t / (2 * IZR D20).
Definition DP (t : R) : R := peval dpz t / (2 * IZR D20).
Definition QQ (t : R) : R := 4 - 4 * t + t ^ 2 / 2 + t ^ 3 * DP t / 2.
Definition SS (t : R) : R := QQ t * exp (PP t).

Lemma D20_val : IZR D20 = 100000000000000000000.
Proof. reflexivity. Qed.

Lemma dpz_eq : dpz = pder pz.
Proof. vm_compute. reflexivity. Qed.
Lemma qz_eq : qz = padd [16 * D20; - (16 * D20); 2 * D20]%Z (0 :: 0 :: 0 :: dpz)%Z.
Proof. vm_compute. reflexivity. Qed.
Lemma rz_eq : rz = padd (pscale (2 * D20) (pder qz)) (pmul qz dpz).
Proof. vm_compute. reflexivity. Qed.

Lemma derive_PP : forall t, derivable_pt_lim PP t (DP t).
Proof.
  intros t. unfold PP, DP, Rdiv. rewrite dpz_eq.
  replace (peval (pder pz) t * / (2 * IZR D20)) with (peval (pder pz) t * / (2 * IZR D20) + peval pz t * 0) by ring.
  apply (derivable_pt_lim_mult (peval pz) (fun _ => / (2 * IZR D20))); [apply derive_peval|apply derivable_pt_lim_const].
Qed.

Lemma QQ_eq : forall t, QQ t = peval qz t / (4 * IZR D20).
Proof.
  intros t. rewrite qz_eq, peval_padd, !peval_cons. change (peval [] t) with 0. unfold QQ, DP.
  rewrite !opp_IZR, !mult_IZR. rewrite D20_val. field.
Qed.

Definition RR (t : R) : R := peval rz t / (8 * IZR D20 * IZR D20).
Lemma derive_SS : forall t, derivable_pt_lim SS t (RR t * exp (PP t)).
Proof.
  intros t.
  assert (DQ : derivable_pt_lim QQ t (peval (pder qz) t / (4 * IZR D20))).
  { assert (H : derivable_pt_lim (fun t => peval qz t * / (4 * IZR D20)) t (peval (pder qz) t * / (4 * IZR D20) + peval qz t * 0)).
    { apply (derivable_pt_lim_mult (peval qz) (fun _ => / (4 * IZR D20))); [apply derive_peval|apply derivable_pt_lim_const]. }
    unfold Rdiv. rewrite Rmult_0_r, Rplus_0_r in H.
    intros eps He. destruct (H eps He) as [d Hd]. exists d. intros h H1 H2. rewrite !QQ_eq. apply Hd; assumption. }
  replace (RR t * exp (PP t)) with (peval (pder qz) t / (4 * IZR D20) * exp (PP t) + QQ t * (exp (PP t) * DP t)).
  - apply (derivable_pt_lim_mult QQ (fun t => exp (PP t))); [exact DQ|].
    apply (derivable_pt_lim_comp PP exp); [apply derive_PP|apply derivable_pt_lim_exp].
  - rewrite QQ_eq. unfold RR, DP. rewrite rz_eq, peval_padd, peval_pscale, peval_pmul, mult_IZR. rewrite D20_val. field.
Qed.

(** ** The pieces of [0, 1], 1 / 1024 wide near 1 and up to 1 / 16 elsewhere *)
Definition cuts : tree :=
  Node (Node (Node (Node (Node (Node (Node (Node (Node Leaf Leaf) Leaf) Leaf) Leaf) Leaf) (Node Leaf Leaf)) (Node Leaf Leaf)) (Node (Node Leaf Leaf) (Node Leaf Leaf))) (Node (Node (Node Leaf Leaf) (Node Leaf Leaf)) (Node (Node (Node Leaf Leaf) (Node Leaf Leaf)) (Node (Node Leaf (Node Leaf Leaf)) (Node (Node Leaf Leaf) (Node (Node Leaf Leaf) (Node (Node Leaf Leaf) (Node (Node Leaf Leaf) (Node (Node Leaf Leaf) (Node Leaf Leaf))))))))).

(** the polynomials in fixed point, on [-1, 1] and then on [0, 1] *)
Definition r0 : list Z := Eval vm_compute in ptrunc 60 rz.
Lemma r0_eq : r0 = ptrunc 60 rz.
Proof. vm_compute. reflexivity. Qed.

Lemma near_self : forall l, near (peval l) 0 1 l 0.
Proof. intros l x _. rewrite Rplus_0_l, Rmult_1_l, Rminus_diag_eq, Rabs_R0 by reflexivity. lra. Qed.
Lemma near_r0 : near (fun t => peval rz t / IZR (2 ^ 60)) 0 1 r0 (Z.of_nat (length rz)).
Proof.
  intros x Hx. rewrite Rplus_0_l, Rmult_1_l, Rabs_minus_sym, r0_eq. apply ptrunc_near; [lia|exact Hx].
Qed.

Lemma right_half : forall f l e, near f 0 1 l e -> l <> [] -> near f (1 / 2) (1 / 2) (phalf 1 l) (e + Z.of_nat (length l)).
Proof.
  intros f l e N Hl. replace (1 / 2) with (0 + IZR 1 * (1 / 2)) at 1 by (simpl; lra). apply half_near; auto.
Qed.

Lemma tmax_unit : forall l t B, l <> [] -> (tmax cuts (phalf 1 l) (0 + Z.of_nat (length l)) <= B)%Z -> 0 <= t <= 1 ->
  peval l t <= IZR B.
Proof.
  intros l t B Hl HB Ht. apply IZR_le in HB. eapply Rle_trans; [|exact HB].
  apply (tmax_ok cuts (peval l) (1 / 2) (1 / 2)); [apply phalf_nonempty, Hl|apply right_half; [apply near_self|exact Hl]|lra|lra].
Qed.

Lemma PP_le : forall t, 0 <= t <= 1 -> PP t <= 2 / 10 ^ 7.
Proof.
  intros t Ht. assert (H : peval pz t <= IZR (4 * 10 ^ 13)).
  { apply tmax_unit; [discriminate|apply Z.leb_le; vm_compute; reflexivity|exact Ht]. }
  unfold PP. change (4 * 10 ^ 13)%Z with 40000000000000%Z in H. rewrite D20_val. lra.
Qed.
Lemma PP_ge : forall t, 0 <= t <= 1 -> -2 <= PP t.
Proof.
  intros t Ht. assert (H : peval (pscale (-1) pz) t <= IZR (4 * D20)).
  { apply tmax_unit; [discriminate|apply Z.leb_le; vm_compute; reflexivity|exact Ht]. }
  rewrite peval_pscale in H. rewrite mult_IZR in H. unfold PP. rewrite D20_val in *. lra.
Qed.
Lemma DP_abs : forall t, 0 <= t <= 1 -> Rabs (DP t) <= 2.
Proof.
  intros t Ht. assert (H : peval dpz t <= IZR (4 * D20)).
  { apply tmax_unit; [discriminate|apply Z.leb_le; vm_compute; reflexivity|exact Ht]. }
  assert (H' : peval (pscale (-1) dpz) t <= IZR (4 * D20)).
  { apply tmax_unit; [discriminate|apply Z.leb_le; vm_compute; reflexivity|exact Ht]. }
  rewrite peval_pscale in H'. rewrite mult_IZR in H, H'. unfold DP. rewrite D20_val in *. apply Rabs_le. lra.
Qed.

Lemma exp_tiny : forall d, 0 <= d <= 1 / 2 -> exp d <= 1 + d + 2 * (d * d).
Proof.
  intros d Hd. pose proof (exp_near 0 d d ltac:(lra) ltac:(rewrite Rminus_0_r, Rabs_pos_eq; lra)) as H.
  rewrite exp_0 in H. apply Rabs_le_inv in H. lra.
Qed.

Lemma rho_check : (tvar cuts 1024 (phalf 1 r0) (Z.of_nat (length rz) + Z.of_nat (length r0)) <= 7580000000000)%Z.
Proof. apply Z.leb_le. vm_compute. reflexivity. Qed.
Lemma cuts_fit : tfit cuts 1024 = true.
Proof. vm_compute. reflexivity. Qed.

Lemma SS_var : forall t s, 0 <= t <= 1 -> 0 <= s <= 1 -> Rabs (SS t - SS s) <= 1.07 / 10 ^ 13.
Proof.
  intros t s Ht Hs.
  assert (NE : r0 <> []) by discriminate.
  set (c := 1.000001 * IZR (2 ^ 60) / (8 * IZR D20 * IZR D20)).
  assert (Cp : 0 <= c).
  { unfold c. rewrite D20_val. change (IZR (2 ^ 60)) with 1152921504606846976. lra. }
  pose proof (tvar_ok cuts (fun t => peval rz t / IZR (2 ^ 60)) SS (fun t => RR t * exp (PP t)) (/ 1024) c (1 / 2) (1 / 2)
    (phalf 1 r0) (Z.of_nat (length rz) + Z.of_nat (length r0)) 1024 ltac:(lra) Cp (phalf_nonempty 1 r0 NE)
    (right_half _ _ _ near_r0 NE) ltac:(lra) ltac:(lra) cuts_fit (fun y _ => derive_SS y)) as H.
  pose proof rho_check as RC. apply IZR_le in RC.
  set (v := IZR (tvar cuts 1024 (phalf 1 r0) (Z.of_nat (length rz) + Z.of_nat (length r0)))) in *.
  apply Rle_trans with (c * / 1024 * v).
  - apply H; [|lra|lra]. intros y Hy. rewrite Rabs_mult, (Rabs_pos_eq (exp _)) by (left; apply exp_pos).
    assert (E1 : exp (PP y) <= 1.000001).
    { apply Rle_trans with (exp (2 / 10 ^ 7)); [apply exp_mono, PP_le; lra|].
      eapply Rle_trans; [apply exp_tiny; lra|]. lra. }
    assert (T60 : 0 < IZR (2 ^ 60)) by (apply IZR_lt; reflexivity).
    assert (D2 : 0 < IZR D20) by (rewrite D20_val; lra).
    assert (D3 : 0 < IZR D20 * IZR D20) by (apply Rmult_lt_0_compat; exact D2).
    replace (c * Rabs (peval rz y / IZR (2 ^ 60))) with (Rabs (RR y) * 1.000001).
    + apply Rmult_le_compat_l; [apply Rabs_pos|exact E1].
    + unfold RR, c, Rdiv. rewrite !Rabs_mult, (Rabs_pos_eq (/ IZR (2 ^ 60))), (Rabs_pos_eq (/ (8 * IZR D20 * IZR D20))).
      * field. lra.
      * left. apply Rinv_0_lt_compat. lra.
      * left. apply Rinv_0_lt_compat. lra.
  - apply Rle_trans with (c * / 1024 * 7580000000000).
    + apply Rmult_le_compat_l; [lra|exact RC].
    + unfold c. rewrite D20_val. change (IZR (2 ^ 60)) with 1152921504606846976. lra.
Qed.

(** at t = 1 the exponent is almost 0 *)
Lemma PP_1 : Rabs (PP 1) <= / 10 ^ 16.
Proof.
  unfold PP. rewrite (peval_zeval pz 1). assert (E : (Z.abs (zeval 1 pz) <= 10000)%Z) by (apply Z.leb_le; vm_compute; reflexivity).
  apply IZR_le in E. rewrite abs_IZR in E. unfold Rdiv. rewrite Rabs_mult, D20_val, (Rabs_pos_eq (/ _)) by lra. lra.
Qed.
