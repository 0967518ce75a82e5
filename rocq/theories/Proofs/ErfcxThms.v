(** * The properties of erfcx *)

From Coq Require Import ZArith Reals Bool Lra Lia List Setoid.
From Flocq Require Import Core IEEE754.BinarySingleNaN IEEE754.Binary IEEE754.Bits.
From Verif.Model Require Import Base Arith Utils ErrorTables Error.
From Verif.Float Require Import Bits64 Ieee Exact.
From Verif.Spec Require Import F64Spec Outcome.
From Verif.Proofs Require Import F64 F64Ops Lits Ext Boundaries UtilsSpec Poly Horner ErfcxSafe ErfcxPos.
Import ListNotations.
Open Scope R_scope.

Section Theorems.
  Context (P : platform).

  Lemma lit_150 : fin (f64_lit 150.0) /\ val (f64_lit 150.0) = 150.
  Proof. lit_facts 150.0%dec 150%Z 0%Z HF HV. split; [exact HF|lra]. Qed.
  Lemma lit_69e6 : fin (f64_lit 6.9e7) /\ val (f64_lit 6.9e7) = 69000000.
  Proof. lit_facts 6.9e7%dec 69000000%Z 0%Z HF HV. split; [exact HF|lra]. Qed.

  Lemma quotient_pos : forall x : f64, number x -> 12 < val x ->
    nonneg (f64_div P (f64_lit 0.564_189_583_547_756_3) x) /\
    (finite x -> 0 < val (f64_div P (f64_lit 0.564_189_583_547_756_3) x)) /\
    val (f64_div P (f64_lit 0.564_189_583_547_756_3) x) <= 1.
  Proof.
    intros x Nx Hx. destruct isp_facts as [Fi Bi].
    destruct (fin_or_inf x Nx) as [Fx|[s ->]].
    - rewrite (val_fin x Fx) in Hx.
      pose proof (div_spec P _ x Fi Fx ltac:(lra)) as D.
      set (q := Binary.B2R (f64_lit 0.564_189_583_547_756_3) / Binary.B2R x) in *.
      assert (Q : bpow radix2 (-1025) <= q <= 1).
      { pose proof (B2R_lt_Om x) as BO. rewrite Rabs_pos_eq in BO by lra.
        set (X := Binary.B2R x) in *. split.
        - unfold q. apply le_div; [lra|]. apply Rle_trans with (bpow radix2 (-1025) * Om).
          + apply Rmult_le_compat_l; [apply bpow_ge_0|lra].
          + unfold Om. rewrite <- bpow_plus. replace (-1025 + 1024)%Z with (-1)%Z by lia. change (bpow radix2 (-1)) with (/ 2). lra.
        - unfold q. apply div_le; lra. }
      destruct D as [N V].
      assert (L : bpow radix2 (-1025) <= rs q).
      { apply rs_ge; [apply fmt_bpow; lia|apply bpow_le; lia|lra]. }
      assert (U : rs q <= 1).
      { apply (rs_le_fmt 1); [apply (fmt_IZR 1); lia|pose proof Om_pos; lra|lra]. }
      pose proof (bpow_gt_0 radix2 (-1025)). split; [split; [exact N|lra]|]. split; [intros _; lra|lra].
    - destruct s; [rewrite val_inf_t in Hx; pose proof Om_pos; lra|].
      assert (E : f64_div P (f64_lit 0.564_189_583_547_756_3) (B754_infinity false) = f64_zero) by reflexivity.
      rewrite E. split; [split; [reflexivity|simpl; lra]|]. split; [discriminate|simpl; lra].
  Qed.

  (** C36 *)
  Theorem erfcx_large : forall x : f64, number x -> 12 < val x ->
    exists r, @erfcx (ieee P) x = Ok r /\ nonneg r /\ (finite x -> 0 < val r) /\
    val r <= val (f64_div P (f64_lit 0.564_189_583_547_756_3) x) * (1 + bpow radix2 (-50)).
  Proof.
    intros x Nx Hx. destruct (quotient_pos x Nx Hx) as (Q1 & Q2 & _).
    destruct (val_125) as [F8 V8]. destruct val_12 as [F12 V12].
    unfold erfcx. ieee_simpl.
    rewrite (proj2 (lt_false (f64_abs x) (f64_lit 0.125) ltac:(rewrite nan_abs; exact Nx) (fin_nonnan _ F8)))
      by (rewrite val_abs, V8, Rabs_pos_eq; lra).
    rewrite (proj2 (lt_false x (f64_lit 0.0) Nx nn_0)) by (rewrite val_0; lra).
    rewrite (proj2 (le_false x (f64_lit 12.0) Nx (fin_nonnan _ F12))) by (rewrite V12; lra).
    set (r := f64_div P (f64_lit 1.0) x).
    assert (Go : forall (z v : f64), fin x -> val x <= 2 ^ 30 -> fin v ->
              0.5 <= Binary.B2R v <= Binary.B2R (f64_lit 0.564_189_583_547_756_3) ->
              z ~= f64_mul P v r ->
              exists r0, Ok z = Ok r0 /\ nonneg r0 /\ (finite x -> 0 < val r0) /\
              val r0 <= val (f64_div P (f64_lit 0.564_189_583_547_756_3) x) * (1 + bpow radix2 (-50))).
    { intros z v Fx Ux Fv Hv E. rewrite (val_fin x Fx) in *.
      destruct (asym_final P x v z Fx ltac:(lra) Fv Hv E) as (Fz & Pz & Uz).
      exists z. split; [reflexivity|]. rewrite (val_fin z Fz). split; [split; [apply fin_nonnan; exact Fz|rewrite (val_fin z Fz); lra]|].
      split; [intros _; exact Pz|exact Uz]. }
    assert (Sq : fin x -> val x <= 2 ^ 30 -> fin (f64_mul P r r) /\ 0 <= Binary.B2R (f64_mul P r r) <= 7 / 1000).
    { intros Fx Ux. rewrite (val_fin x Fx) in *. destruct (recip_facts P x Fx ltac:(lra)) as (_ & _ & A & B). auto. }
    assert (Fb : forall l : f64, f64_lt x l = true -> val l <= 2 ^ 30 -> fin x /\ val x <= 2 ^ 30).
    { intros l L B. apply lt_true in L. destruct L as (_ & _ & L). split; [|lra].
      apply fin_iff_val; [exact Nx|]. rewrite Rabs_pos_eq by lra. pose proof Om_big. lra. }
    destruct (f64_lt x (f64_lit 150.0)) eqn:C1.
    - destruct (Fb _ C1) as [Fx Ux]; [rewrite (proj2 lit_150); lra|]. destruct (Sq Fx Ux) as [Ft Ht].
      destruct (f64_lt x (f64_lit 23.2)).
      + destruct (asym_chain P _ 3.607_337_150_008_376e5 as11_cs Ft Ht) as [Fv Hv];
          [vm_compute; reflexivity|vm_compute; reflexivity|].
        exact (Go _ _ Fx Ux Fv Hv (asym11_hor P r)).
      + destruct (asym_chain P _ 9.163_673_001_529_573e1 as7_cs Ft Ht) as [Fv Hv];
          [vm_compute; reflexivity|vm_compute; reflexivity|].
        exact (Go _ _ Fx Ux Fv Hv (asym7_hor P r)).
    - destruct (f64_lt x (f64_lit 6.9e7)) eqn:C2.
      + destruct (Fb _ C2) as [Fx Ux]; [rewrite (proj2 lit_69e6); lra|]. destruct (Sq Fx Ux) as [Ft Ht].
        destruct (asym_chain P _ (-1.057_855_469_152_043) as4_cs Ft Ht) as [Fv Hv];
          [vm_compute; reflexivity|vm_compute; reflexivity|].
        exact (Go _ _ Fx Ux Fv Hv (asym4_hor P r)).
      + unfold INV_SQRT_PI. ieee_simpl. eexists. split; [reflexivity|]. split; [exact Q1|]. split; [exact Q2|].
        destruct Q1 as [_ Q1]. pose proof (bpow_gt_0 radix2 (-50)). nra.
  Qed.

  (** C35, the nonnegative axis *)
  Theorem erfcx_pos : forall x : f64, nonneg x -> finite x ->
    exists r, @erfcx (ieee P) x = Ok r /\ finite r /\ 0 < Binary.B2R r <= 1.
  Proof.
    intros x [Nx Hx] Fx. destruct val_125 as [F8 V8]. destruct val_12 as [F12 V12].
    destruct (Rlt_or_le 12 (val x)) as [L|L].
    - destruct (erfcx_large x Nx L) as (r & E & [Nr Pr] & Sr & Ur).
      specialize (Sr Fx).
      exists r. split; [exact E|].
      (* the quotient is far below 1 *)
      destruct isp_facts as [Fi Bi].
      assert (Q : val (f64_div P (f64_lit 0.564_189_583_547_756_3) x) <= 0.5).
      { rewrite (val_fin x Fx) in L. pose proof (div_spec P _ x Fi Fx ltac:(lra)) as [_ V]. rewrite V.
        apply (rs_le_fmt 0.5).
        - replace 0.5 with (bpow radix2 (-1)) by (simpl; lra). apply fmt_bpow. lia.
        - pose proof Om_pos. lra.
        - apply div_le; lra. }
      assert (B : bpow radix2 (-50) <= 1) by (change 1 with (bpow radix2 0); apply bpow_le; lia).
      destruct (quotient_pos x Nx L) as ([_ U0] & _). pose proof (bpow_gt_0 radix2 (-50)).
      assert (U : val r <= 0.5 * 2).
      { eapply Rle_trans; [exact Ur|]. apply Rmult_le_compat; lra. }
      assert (Fr : fin r) by (apply fin_iff_val; [exact Nr|rewrite Rabs_pos_eq; pose proof Om_big; lra]).
      split; [exact Fr|]. rewrite <- (val_fin r Fr). split; [exact Sr|lra].
    - unfold erfcx. ieee_simpl.
      destruct (f64_lt (f64_abs x) (f64_lit 0.125)) eqn:C1.
      + apply lt_true in C1. destruct C1 as (_ & _ & C1). rewrite val_abs, V8, (val_fin x Fx) in C1.
        destruct (maclaurin_bounds P x Fx ltac:(lra)) as (Fr & Br & U1 & _).
        rewrite (val_fin x Fx) in Hx. specialize (U1 Hx).
        eexists. split; [reflexivity|]. split; [exact Fr|]. lra.
      + rewrite (proj2 (lt_false x (f64_lit 0.0) Nx nn_0)) by (rewrite val_0; lra).
        rewrite (proj2 (le_true x (f64_lit 12.0))) by (rewrite V12; auto using fin_nonnan).
        apply lt_false in C1; [|rewrite nan_abs; exact Nx|apply fin_nonnan; exact F8].
        rewrite val_abs, V8, Rabs_pos_eq in C1 by lra. rewrite (val_fin x Fx) in *.
        destruct (cheb_bounds P x Fx ltac:(lra)) as (r & E & Fr & Br).
        exists r. split; [exact E|]. split; [exact Fr|]. lra.
  Qed.

  (** just below zero, where the exponential is not used *)
  Theorem erfcx_small_neg : forall x : f64, number x -> - (1 / 8) < val x <= 0 ->
    exists r, @erfcx (ieee P) x = Ok r /\ finite r /\ 1 <= Binary.B2R r.
  Proof.
    intros x Nx Hx. destruct val_125 as [F8 V8].
    assert (Fx : fin x) by (apply fin_iff_val; [exact Nx|rewrite Rabs_left1 by lra; pose proof Om_big; lra]).
    unfold erfcx. ieee_simpl.
    rewrite (proj2 (lt_true (f64_abs x) (f64_lit 0.125))).
    - rewrite (val_fin x Fx) in Hx.
      destruct (maclaurin_bounds P x Fx) as (Fr & Br & _ & U1).
      + rewrite Rabs_left1 by lra. lra.
      + specialize (U1 (proj2 Hx)). eexists. split; [reflexivity|]. split; [exact Fr|exact U1].
    - split; [rewrite nan_abs; exact Nx|]. split; [apply fin_nonnan; exact F8|].
      rewrite val_abs, V8, Rabs_left1 by lra. lra.
  Qed.

  Lemma two_times : forall e : f64, number e -> 1 <= val e ->
    number (f64_mul P (f64_lit 2.0) e) /\ 2 <= val (f64_mul P (f64_lit 2.0) e).
  Proof.
    intros e Ne He. destruct (fin_or_inf e Ne) as [Fe|[s ->]].
    - destruct (mul_spec P (f64_lit 2.0) e fin_2 Fe) as [N V]. split; [exact N|]. rewrite V.
      rewrite (val_fin e Fe) in He.
      replace (Binary.B2R (f64_lit 2.0)) with 2 by (rewrite <- (val_fin _ fin_2); symmetry; exact val_2).
      apply (rs_ge 2); [apply (fmt_IZR 2); lia|pose proof Om_big; lra|lra].
    - destruct s; [rewrite val_inf_t in He; pose proof Om_pos; lra|].
      assert (E : f64_mul P (f64_lit 2.0) (B754_infinity false) = B754_infinity false) by reflexivity.
      rewrite E. split; [reflexivity|]. rewrite val_inf_f. pose proof Om_big. lra.
  Qed.

  (** C35, the whole negative axis *)
  Theorem erfcx_neg : forall x : f64, at_least_1 (p_exp P) -> number x -> val x <= 0 ->
    exists r, @erfcx (ieee P) x = Ok r /\ number r /\ 1 <= val r.
  Proof.
    intros x He Nx Hx. destruct val_125 as [F8 V8]. destruct val_6_1 as [F6 V6].
    destruct (Rlt_or_le (- (1 / 8)) (val x)) as [L|L].
    { destruct (erfcx_small_neg x Nx (conj L Hx)) as (r & E & Fr & B).
      exists r. rewrite (val_fin r Fr). split; [exact E|]. split; [apply fin_nonnan; exact Fr|exact B]. }
    unfold erfcx. ieee_simpl.
    rewrite (proj2 (lt_false (f64_abs x) (f64_lit 0.125) ltac:(rewrite nan_abs; exact Nx) (fin_nonnan _ F8)))
      by (rewrite val_abs, V8, Rabs_left1; lra).
    rewrite (proj2 (lt_true x (f64_lit 0.0))) by (rewrite val_0; split; [exact Nx|split; [exact nn_0|lra]]).
    destruct (f64_lt x (f64_neg (f64_lit 26.7))).
    { eexists. split; [reflexivity|]. split; [reflexivity|]. change (1 <= Om). pose proof Om_big. lra. }
    assert (Sq : number (f64_mul P x x) /\ 0 <= val (f64_mul P x x)).
    { destruct (fin_or_inf x Nx) as [Fx|[s ->]].
      - destruct (mul_spec P x x Fx Fx) as [N V]. split; [exact N|]. rewrite V. apply rs_pos.
        pose proof (Rle_0_sqr (Binary.B2R x)) as S. exact S.
      - destruct s; split; try reflexivity; change (0 <= Om); pose proof Om_pos; lra. }
    pose proof (He _ Sq) as [Ne Ve].
    rewrite (libm_nonnan P (p_exp P)) by exact (proj1 Sq).
    destruct (two_times _ Ne Ve) as [N2 V2].
    destruct (f64_lt x (f64_neg (f64_lit 6.1))) eqn:C.
    { eexists. split; [reflexivity|]. split; [exact N2|]. lra. }
    apply lt_false in C; [|exact Nx|rewrite nan_neg; apply fin_nonnan; exact F6]. rewrite val_neg in C.
    assert (Fx : fin x) by (apply fin_iff_val; [exact Nx|rewrite Rabs_left1 by lra; pose proof Om_big; lra]).
    destruct (cheb_bounds P (f64_neg x)) as (c & E & Fc & Bc).
    { rewrite fin_neg. exact Fx. }
    { rewrite B2R_neg, <- (val_fin x Fx). lra. }
    rewrite E. cbn [bind]. eexists. split; [reflexivity|].
    assert (Ns : number (f64_sub P (f64_mul P (f64_lit 2.0) (p_exp P (f64_mul P x x))) c))
      by (apply sub_num_fin; assumption).
    split; [exact Ns|].
    apply Rle_trans with (val (f64_sub P (f64_lit 2.0) c)).
    - destruct (sub_spec P (f64_lit 2.0) c fin_2 Fc) as [_ V]. rewrite V.
      replace (Binary.B2R (f64_lit 2.0)) with 2 by (rewrite <- (val_fin _ fin_2); symmetry; exact val_2).
      apply (rs_ge 1); [apply (fmt_IZR 1); lia|pose proof Om_big; lra|lra].
    - apply sub_mono_l; try assumption; [exact nn_2|]. rewrite val_2. exact V2.
  Qed.

  Lemma lit_26_7 : fin (f64_lit 26.7).
  Proof. destruct (lit_bound 26.7) as (H & _); [vm_compute; discriminate|exact H]. Qed.

  Theorem erfcx_overflow : forall x : f64, number x -> val x < - val (f64_lit 26.7) ->
    @erfcx (ieee P) x = Ok (B754_infinity false).
  Proof.
    intros x Nx Hx. destruct val_125 as [F8 V8].
    assert (B : 1 <= val (f64_lit 26.7)).
    { destruct (lit_spec 26.7) as [_ V]. rewrite V.
      apply (rs_ge 1); [apply (fmt_IZR 1); lia|pose proof Om_big; lra|].
      unfold R_of_dec; cbn [dman dexp]; rewrite powerRZ_10; simpl; lra. }
    unfold erfcx. ieee_simpl.
    rewrite (proj2 (lt_false (f64_abs x) (f64_lit 0.125) ltac:(rewrite nan_abs; exact Nx) (fin_nonnan _ F8)))
      by (rewrite val_abs, V8, Rabs_left1; lra).
    rewrite (proj2 (lt_true x (f64_lit 0.0))) by (rewrite val_0; split; [exact Nx|split; [exact nn_0|lra]]).
    rewrite (proj2 (lt_true x (f64_neg (f64_lit 26.7)))); [reflexivity|].
    split; [exact Nx|]. split; [rewrite nan_neg; apply fin_nonnan, lit_26_7|]. rewrite val_neg. exact Hx.
  Qed.

  Theorem erfcx_nan : forall x : f64, is_NaN x -> exists r, @erfcx (ieee P) x = Ok r /\ is_NaN r.
  Proof.
    intros x Hx. unfold erfcx. ieee_simpl.
    rewrite (lt_nan_l (f64_abs x)) by (apply abs_nan; exact Hx).
    rewrite (lt_nan_l x (f64_lit 0.0) Hx), (le_nan_l x (f64_lit 12.0) Hx), (lt_nan_l x (f64_lit 150.0) Hx),
      (lt_nan_l x (f64_lit 6.9e7) Hx).
    eexists. split; [reflexivity|]. apply div_nan_r. exact Hx.
  Qed.
End Theorems.
