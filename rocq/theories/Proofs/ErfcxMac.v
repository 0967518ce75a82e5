(** * Accuracy of erfcx on [-1/8, 1/8] *)

From Coq Require Import ZArith Reals Bool Lra Lia List.
From Flocq Require Import Core IEEE754.BinarySingleNaN IEEE754.Binary IEEE754.Bits.
From Verif.Model Require Import Base Arith Utils Error.
From Verif.Float Require Import Bits64 Ieee Exact.
From Verif.Spec Require Import F64Spec Outcome ErfSpec.
From Verif.Proofs Require Import F64 F64Ops Lits Ext Poly PolyZ Horner HornerErr PiBounds ErfcODE ErfcxChain ErfcxPos ErfcxTable.
Import ListNotations.
Open Scope R_scope.

Definition mac_tail : list dec := (mac_cs ++ [(-1.12837916709551257389615890312154517)%dec]) ++ [1.0%dec].
Definition mac_zs : list Z := rev (map (dz SC) (1.984_126_984_126_984e-4%dec :: mac_tail)).
Definition mac_res : list Z := padd (pder mac_zs) (padd (pscale (-2) (0%Z :: mac_zs)) [kz]).

(** residual bound and rounding error *)
Definition mac_rho : Z := (25669193 * 10 ^ 27)%Z.
Lemma mac_rho_ok : (pbound 1 8 mac_res + kerr <= mac_rho)%Z.
Proof. vm_compute. discriminate. Qed.
Lemma mac_e : hor_e 1 8 1.984_126_984_126_984e-4 mac_tail = Some 2559%Z.
Proof. vm_compute. reflexivity. Qed.
Lemma mac_dok : forallb (dz_ok SC) (1.984_126_984_126_984e-4%dec :: mac_tail) = true.
Proof. vm_compute. reflexivity. Qed.

Lemma mac_zs_eq : mac_zs = [100000000000000000000000000000000000000000000000000;
        (-112837916709551257389615890312154517000000000000000);
        100000000000000000000000000000000000000000000000000;
        (-75225277806367510000000000000000000000000000000000);
        50000000000000000000000000000000000000000000000000;
        (-30090111122547003000000000000000000000000000000000);
        16666666666666666000000000000000000000000000000000;
        (-8597174606442000000000000000000000000000000000000);
        4166666666666666400000000000000000000000000000000;
        (-1910483245876000000000000000000000000000000000000);
        833333333333333300000000000000000000000000000000;
        (-347360590159272740000000000000000000000000000000);
        138888888888888900000000000000000000000000000000;
        (-53440090793734270000000000000000000000000000000);
        19841269841269840000000000000000000000000000000]%Z.
Proof. vm_compute. reflexivity. Qed.

Lemma mac_0 : peval mac_zs 0 / IZR DD = 1.
Proof. rewrite mac_zs_eq. cbn [peval fold_right]. change DD with 100000000000000000000000000000000000000000000000000%Z. lra. Qed.

Lemma mac_8 : Rabs (peval mac_zs (1 / 8) - IZR V8) <= 3 * 10 ^ 33.
Proof. rewrite mac_zs_eq. unfold V8. cbn [peval fold_right]. apply Rabs_le. lra. Qed.

Section Mac.
  Context (E : R -> R) (HE : erfc_function E).
  Notation w := (scaled_erfc E).
  Let f x := peval mac_zs x / IZR DD.
  Let r x := (peval mac_res x + (K * IZR DD - IZR kz)) / IZR DD.

  Lemma mac_ode : forall x, derivable_pt_lim f x (2 * x * f x - K + r x).
  Proof.
    intros x. pose proof DD_pos as DP.
    assert (D : derivable_pt_lim f x (peval (pder mac_zs) x / IZR DD)).
    { unfold f. eapply derivable_pt_lim_ext; [intros y; apply Rmult_comm|]. unfold Rdiv. rewrite Rmult_comm.
      apply (derivable_pt_lim_scal (peval mac_zs)). apply derive_peval. }
    eapply eq_rect; [exact D|]. unfold f, r, mac_res.
    rewrite !peval_padd, !peval_pscale, !peval_cons. change (peval [] x) with 0. pose proof sqrtPI_pos. field. split; lra.
  Qed.

  Lemma mac_r : forall x, Rabs x <= 1 / 8 -> Rabs (r x) <= IZR mac_rho / IZR DD.
  Proof.
    intros x Hx. unfold r. pose proof DD_pos as DP.
    unfold Rdiv. rewrite Rabs_mult, (Rabs_pos_eq (/ IZR DD)) by (apply Rlt_le, Rinv_0_lt_compat, DP).
    apply Rmult_le_compat_r; [apply Rlt_le, Rinv_0_lt_compat, DP|].
    eapply Rle_trans; [apply Rabs_triang|]. pose proof (peval_bound 1 8 mac_res x ltac:(lia) ltac:(lia) Hx).
    pose proof kz_ok. pose proof (IZR_le _ _ mac_rho_ok) as B. rewrite plus_IZR in B. unfold Rdiv in H0. lra.
  Qed.

  Lemma derive_g : forall x, derivable_pt_lim (fun t => f t - w t) x (2 * x * (f x - w x) + r x).
  Proof.
    intros x. replace (2 * x * (f x - w x) + r x) with ((2 * x * f x - K + r x) - (2 * x * w x - K)) by ring.
    apply derivable_pt_lim_minus; [apply mac_ode|apply derive_w, HE].
  Qed.

  Lemma mac_real_pos : forall x, 0 <= x <= 1 / 8 -> Rabs (f x - w x) <= 75 / 10 ^ 16.
  Proof.
    intros x Hx. pose proof (w_8 E HE) as A. pose proof mac_8 as B.
    assert (R0 : 0 <= IZR mac_rho / IZR DD) by (apply Rmult_le_pos; [apply IZR_le; vm_compute; discriminate|apply Rlt_le, Rinv_0_lt_compat, DD_pos]).
    pose proof (backward (fun t => f t - w t) r x (1 / 8) (IZR mac_rho / IZR DD) ltac:(lra) ltac:(lra) R0) as C.
    cbv beta in C. eapply Rle_trans.
    { apply C; [intros t _; apply derive_g|]. intros t Ht. apply mac_r. apply Rabs_le. lra. }
    assert (G : Rabs (f (1 / 8) - w (1 / 8)) <= 72 / 10 ^ 16).
    { unfold f. apply Rabs_le_inv in A, B. apply Rabs_le.
      change DD with 100000000000000000000000000000000000000000000000000%Z in *.
      change M8 with 716694000000000000000000000000000000%Z in A. lra. }
    apply Rle_trans with (72 / 10 ^ 16 + IZR mac_rho / IZR DD * (1 / 8)).
    - apply Rplus_le_compat.
      + apply Rle_trans with (Rabs (f (1 / 8) - w (1 / 8))); [|exact G].
        assert (0 <= 1 / 8 * (1 / 8) - x * x) by nra. apply div_le; [lra|]. rewrite <- (Rmult_1_r (Rabs _)) at 1.
        apply Rmult_le_compat_l; [apply Rabs_pos|lra].
      + apply Rmult_le_compat_l; lra.
    - change DD with 100000000000000000000000000000000000000000000000000%Z.
      change mac_rho with 25669193000000000000000000000000000%Z. lra.
  Qed.

  Lemma mac_real : forall x, Rabs x <= 1 / 8 -> Rabs (f x - w x) <= 78 / 10 ^ 16.
  Proof.
    intros x Hx. apply Rabs_le_inv in Hx. destruct (Rle_or_lt 0 x) as [S|S].
    - eapply Rle_trans; [apply mac_real_pos; lra|lra].
    - assert (R0 : 0 <= IZR mac_rho / IZR DD) by (apply Rmult_le_pos; [apply IZR_le; vm_compute; discriminate|apply Rlt_le, Rinv_0_lt_compat, DD_pos]).
      pose proof (backward_crude (fun t => f t - w t) r x 0 (IZR mac_rho / IZR DD) ltac:(lra) R0) as C.
      cbv beta in C. eapply Rle_trans.
      { apply C; [intros t _; apply derive_g|]. intros t Ht. apply mac_r. apply Rabs_le. lra. }
      assert (Ex : Rtrigo_def.exp (x * x) <= 64 / 63).
      { apply Rle_trans with (/ (1 - x * x)).
        - replace (x * x) with (- - (x * x)) at 1 by ring. rewrite exp_Ropp. apply Rinv_le_contravar; [nra|].
          pose proof (exp_ineq1_le (- (x * x))). lra.
        - replace (64 / 63) with (/ (63 / 64)) by field. apply Rinv_le_contravar; [lra|]. nra. }
      pose proof (mac_real_pos 0 ltac:(lra)) as G0.
      assert (Q : IZR mac_rho / IZR DD * (0 - x) <= 1 / 10 ^ 16).
      { apply Rle_trans with (IZR mac_rho / IZR DD * (1 / 8)); [apply Rmult_le_compat_l; lra|].
        change DD with 100000000000000000000000000000000000000000000000000%Z.
        change mac_rho with 25669193000000000000000000000000000%Z. lra. }
      pose proof (exp_pos (x * x)). pose proof (Rabs_pos (f 0 - w 0)).
      assert (Q0 : 0 <= IZR mac_rho / IZR DD * (0 - x)) by (apply Rmult_le_pos; lra).
      apply Rle_trans with (64 / 63 * (75 / 10 ^ 16 + 1 / 10 ^ 16)); [|lra].
      apply Rmult_le_compat; lra.
  Qed.

  (** erfc 0 *)
  Lemma w_0 : Rabs (w 0 - 1) <= 75 / 10 ^ 16.
  Proof.
    pose proof (mac_real_pos 0 ltac:(lra)) as H. unfold f in H. rewrite mac_0 in H. rewrite Rabs_minus_sym. exact H.
  Qed.

  Theorem mac_erfcx : forall P (x : f64), fin x -> Rabs (Binary.B2R x) <= 1 / 8 ->
    let r := @erfcx_maclaurin (ieee P) x in
    fin r /\ Rabs (Binary.B2R r - w (Binary.B2R x)) <= / 2 ^ 46 * w (Binary.B2R x).
  Proof.
    intros P x Fx Hx. pose proof (maclaurin_hor P x) as Eq. fold mac_tail in Eq.
    destruct (hor_err P 1 8 x _ _ _ ltac:(lia) ltac:(lia) Fx Hx mac_e) as (Fr & _ & Er).
    rewrite (rhor_peval SC _ _ _ ltac:(unfold SC; lia) mac_dok) in Er. fold mac_zs in Er. change (10 ^ SC)%Z with DD in Er.
    symmetry in Eq. apply eqn_nonnan in Eq; [|apply fin_nonnan; exact Fr]. cbv zeta. rewrite <- Eq. split; [exact Fr|].
    pose proof (mac_real _ Hx) as A. unfold f in A.
    assert (L : 0.84 <= peval mac_zs (Binary.B2R x) / IZR DD).
    { pose proof (peval_bound 1 8 (tl mac_zs) (Binary.B2R x) ltac:(lia) ltac:(lia) Hx) as B.
      assert (B2 : IZR (pbound 1 8 (tl mac_zs)) <= 127 * 10 ^ 48).
      { apply Rle_trans with (IZR (127 * 10 ^ 48)); [apply IZR_le; vm_compute; discriminate|].
        change (127 * 10 ^ 48)%Z with 127000000000000000000000000000000000000000000000000%Z. simpl; lra. }
      assert (Zs : mac_zs = (10 ^ 50)%Z :: tl mac_zs) by (rewrite mac_zs_eq; reflexivity).
      rewrite Zs, peval_cons. set (y := peval (tl mac_zs) (Binary.B2R x)) in *. clearbody y.
      assert (Rabs (Binary.B2R x * y) <= 1 / 8 * (127 * 10 ^ 48)).
      { rewrite Rabs_mult. apply Rmult_le_compat; try apply Rabs_pos; lra. }
      apply Rabs_le_inv in H. apply le_div; [apply DD_pos|].
      change (10 ^ 50)%Z with 100000000000000000000000000000000000000000000000000%Z.
      change DD with 100000000000000000000000000000000000000000000000000%Z. lra. }
    set (p := peval mac_zs (Binary.B2R x) / IZR DD) in *. set (W := w (Binary.B2R x)) in *. set (v := Binary.B2R (hor _ _ _ _)) in *.
    clearbody p W v. change (IZR K60) with 1152921504606846976 in Er.
    apply Rabs_le_inv in A, Er. apply Rabs_le. lra.
  Qed.
End Mac.
