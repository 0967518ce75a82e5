(** * The sampling branch of dawson: overflow and wrong sign *)

From Coq Require Import ZArith Reals Bool Lra Lia List.
From Flocq Require Import Core IEEE754.BinarySingleNaN IEEE754.Binary IEEE754.Bits.
From Verif.Model Require Import Base Arith Utils Dawson.
From Verif.Float Require Import Bits64 Ieee Exact Platforms.
From Verif.Spec Require Import F64Spec Outcome DawsonSpec.
From Verif.Proofs Require Import F64 F64Ops Lits Ext Poly Boundaries.
Import ListNotations.
Open Scope R_scope.

Lemma Om_100 : 2 ^ 100 < Om.
Proof.
  unfold Om. change (bpow radix2 1024) with (IZR (2 ^ 1024)). rewrite pow_IZR.
  apply IZR_lt. reflexivity.
Qed.

Section Dawson.
  Context (P : platform).

  Definition dindex (xx : f64) : f64 :=
    f64_add P (f64_div P (f64_mul P (f64_lit 0.5) xx) (f64_lit 0.4)) (f64_lit 0.5).

  Lemma dawson_unfold : forall x, @dawson (ieee P) x =
    if f64_lt (f64_abs x) (f64_lit 0.2) then Ok (@dawson_series (ieee P) x)
    else bind (arith_u (p_checks P) 64 (2 * f64_to_int 0 (2 ^ 64 - 1) (dindex (f64_abs x))))
           (fun n0 => Ok (@dawson_sampled (ieee P) x n0)).
  Proof. reflexivity. Qed.

  Theorem dawson_no_checks : forall x, p_checks P = false -> returns (@dawson (ieee P) x).
  Proof.
    intros x H. rewrite dawson_unfold, H. destruct (f64_lt (f64_abs x) (f64_lit 0.2)); [eexists; reflexivity|].
    unfold arith_u. destruct in_range; eexists; reflexivity.
  Qed.

  (** *** The index is monotone *)

  Lemma lit_half : fin (f64_lit 0.5) /\ Binary.B2R (f64_lit 0.5) = 1 / 2.
  Proof. lit_facts 0.5%dec 1%Z 1%Z HF HV. split; [exact HF|]. rewrite (val_fin _ HF) in HV. exact HV. Qed.

  Lemma lit_04 : fin (f64_lit 0.4) /\ 0.399 <= Binary.B2R (f64_lit 0.4) <= 0.401.
  Proof.
    destruct (lit_B2FF 0.4 false 7205759403792794 (-54)) as [F V]; [vm_compute; reflexivity|].
    split; [exact F|]. rewrite V. unfold F2R. simpl. lra.
  Qed.

  Lemma mul_half : forall x, fin x -> rounds (f64_mul P (f64_lit 0.5) x) (1 / 2 * Binary.B2R x)
    /\ fin (f64_mul P (f64_lit 0.5) x).
  Proof.
    intros x Fx. destruct lit_half as [FH VH]. pose proof (mul_spec P _ x FH Fx) as M. rewrite VH in M.
    split; [exact M|]. destruct M as [N V]. apply fin_iff_val; [exact N|]. rewrite V.
    pose proof (B2R_lt_Om x) as B. set (X := Binary.B2R x) in *.
    assert (H : Rabs (rs (1 / 2 * X)) <= bpow radix2 1023).
    { assert (O : Om = 2 * bpow radix2 1023) by (unfold Om; change 1024%Z with (1 + 1023)%Z; rewrite bpow_plus; reflexivity).
      pose proof (bpow_gt_0 radix2 1023) as P3. apply Rabs_lt_inv in B.
      apply Rabs_le. split.
      - apply rs_ge; [apply fmt_opp, fmt_bpow; lia|lra|lra].
      - apply rs_le_fmt; [apply fmt_bpow; lia|lra|lra]. }
    eapply Rle_lt_trans; [exact H|]. unfold Om. apply bpow_lt. lia.
  Qed.

  (** the index as a function of the real value *)
  Lemma dindex_val : forall x, fin x -> 0 <= Binary.B2R x -> number (dindex x) /\
    let h := Binary.B2R (f64_lit 0.4) in
    (val (dindex x) = rs (rs (rs (1 / 2 * Binary.B2R x) / h) + 1 / 2)).
  Proof.
    intros x Fx Hx. destruct lit_half as [FH VH]. destruct lit_04 as [F4 V4].
    destruct (mul_half x Fx) as [[_ M] Fm]. rewrite (val_fin _ Fm) in M.
    pose proof (div_spec P _ _ Fm F4 ltac:(lra)) as [ND VD]. rewrite M in VD.
    unfold dindex. set (m := f64_mul P (f64_lit 0.5) x) in *. set (h := Binary.B2R (f64_lit 0.4)) in *.
    set (d := f64_div P m (f64_lit 0.4)) in *. cbv zeta.
    assert (Pd : 0 <= val d).
    { rewrite VD. apply rs_pos. apply Rmult_le_pos; [apply rs_pos; lra|left; apply Rinv_0_lt_compat; lra]. }
    destruct (fin_or_inf d ND) as [Fd|[s E]].
    - pose proof (add_spec P d (f64_lit 0.5) Fd FH) as [NA VA]. split; [exact NA|].
      rewrite VA, VH, <- (val_fin d Fd), VD. reflexivity.
    - rewrite E in Pd. apply inf_nonneg in Pd. subst s. rewrite E.
      rewrite (add_inf_fin P (f64_lit 0.5) false FH). split; [reflexivity|].
      rewrite val_inf_f. rewrite <- VD, E, val_inf_f. apply Rle_antisym.
      + apply rs_ge; [apply fmt_Om|lra|lra].
      + pose proof (rs_bound (Om + 1 / 2)). lra.
  Qed.

  Lemma dindex_mono : forall x y, fin x -> fin y -> 0 <= Binary.B2R x <= Binary.B2R y ->
    val (dindex x) <= val (dindex y).
  Proof.
    intros x y Fx Fy L. destruct (dindex_val x Fx ltac:(lra)) as [_ ->]. destruct (dindex_val y Fy ltac:(lra)) as [_ ->].
    destruct lit_04 as [_ V4]. apply rs_le. apply Rplus_le_compat_r. apply rs_le.
    apply Rmult_le_compat_r; [left; apply Rinv_0_lt_compat; lra|]. apply rs_le. lra.
  Qed.

  (** *** The exact threshold of the overflow *)

  Definition X0 : f64 := f64_of_Z 7378697629483821056.
  Definition X1 : f64 := f64_of_Z 7378697629483820032.

  Lemma X0_val : fin X0 /\ Binary.B2R X0 = 7378697629483821056.
  Proof.
    destruct (rounds_small _ _ (of_Z_spec 7378697629483821056)) as [F V].
    { rewrite rnd_fmt; [rewrite Rabs_pos_eq; [pose proof Om_100; lra|lra]|].
      replace 7378697629483821056 with (7205759403792794 * bpow radix2 10) by (simpl; lra).
      apply fmt_F2R; lia. }
    split; [exact F|]. unfold X0. rewrite V. apply rnd_fmt.
    replace 7378697629483821056 with (7205759403792794 * bpow radix2 10) by (simpl; lra).
    apply fmt_F2R; lia.
  Qed.
  Lemma X1_val : fin X1 /\ Binary.B2R X1 = 7378697629483820032.
  Proof.
    destruct (rounds_small _ _ (of_Z_spec 7378697629483820032)) as [F V].
    { rewrite rnd_fmt; [rewrite Rabs_pos_eq; [pose proof Om_100; lra|lra]|].
      replace 7378697629483820032 with (7205759403792793 * bpow radix2 10) by (simpl; lra).
      apply fmt_F2R; lia. }
    split; [exact F|]. unfold X1. rewrite V. apply rnd_fmt.
    replace 7378697629483820032 with (7205759403792793 * bpow radix2 10) by (simpl; lra).
    apply fmt_F2R; lia.
  Qed.

  Lemma two63 : fin (f64_of_Z (2 ^ 63)) /\ Binary.B2R (f64_of_Z (2 ^ 63)) = IZR (2 ^ 63).
  Proof.
    assert (E : IZR (2 ^ 63) = bpow radix2 63) by reflexivity.
    destruct (rounds_small _ _ (of_Z_spec (2 ^ 63))) as [F V]; rewrite E, rnd_fmt in * by (apply fmt_bpow; lia).
    - rewrite Rabs_pos_eq by apply bpow_ge_0. apply bpow_lt. lia.
    - split; [exact F|exact V].
  Qed.

  Lemma dindex_X0 : IZR (2 ^ 63) <= val (dindex X0).
  Proof.
    assert (C : f64_le (f64_of_Z (2 ^ 63)) (dindex X0) = true) by (vm_compute; reflexivity).
    apply le_true in C. destruct two63 as [F V]. rewrite <- V, <- (val_fin _ F). tauto.
  Qed.
  Lemma dindex_X1 : val (dindex X1) < IZR (2 ^ 63).
  Proof.
    assert (C : f64_lt (dindex X1) (f64_of_Z (2 ^ 63)) = true) by (vm_compute; reflexivity).
    apply lt_true in C. destruct two63 as [F V]. rewrite <- V, <- (val_fin _ F). tauto.
  Qed.

  (** no f64 lies strictly between X1 and X0 *)
  Lemma below_X0 : forall a, fmt a -> a < 7378697629483821056 -> a <= 7378697629483820032.
  Proof.
    intros a Fa La. destruct (Rle_or_lt a (bpow radix2 62)) as [L|L]; [simpl in L; lra|].
    assert (M : mag radix2 a = 63%Z :> Z).
    { apply mag_unique. rewrite Rabs_pos_eq by (pose proof (bpow_gt_0 radix2 62); lra).
      change (63 - 1)%Z with 62%Z. simpl in L |- *. lra. }
    unfold fmt, generic_format, scaled_mantissa, Generic_fmt.cexp in Fa. rewrite M in Fa.
    change (SpecFloat.fexp 53 1024 63) with 10%Z in Fa. unfold F2R in Fa. cbn [Fnum Fexp] in Fa.
    set (m := Ztrunc _) in Fa. change (bpow radix2 10) with 1024 in Fa.
    assert (B : (m < 7205759403792794)%Z) by (apply lt_IZR; lra).
    assert (B' : (m <= 7205759403792793)%Z) by lia. apply IZR_le in B'. lra.
  Qed.

  (** C40 *)
  Theorem dawson_panics_iff : forall x, p_checks P = true ->
    (panics (@dawson (ieee P) x) <-> number x /\ 7378697629483821056 <= Rabs (val x)).
  Proof.
    intros x HC. rewrite dawson_unfold, HC.
    destruct (Binary.is_nan x) eqn:NX.
    { rewrite (lt_nan_l (f64_abs x)) by (apply abs_nan; exact NX).
      assert (ND : Binary.is_nan (dindex (f64_abs x)) = true).
      { unfold dindex. apply add_nan_l, div_nan_l, mul_nan_r. rewrite nan_abs. exact NX. }
      assert (Z0 : f64_to_int 0 (2 ^ 64 - 1) (dindex (f64_abs x)) = 0%Z).
      { destruct (dindex (f64_abs x)); try discriminate ND. reflexivity. }
      rewrite Z0. split; [intros [p E]; discriminate E|intros [H _]; unfold number in H; congruence]. }
    destruct (f64_lt (f64_abs x) (f64_lit 0.2)) eqn:C.
    { apply lt_true in C. destruct C as (_ & _ & C). rewrite val_abs in C.
      assert (U : val (f64_lit 0.2) <= 1).
      { destruct (lit_spec 0.2) as [_ ->]. apply rs_le_fmt; [apply (fmt_IZR 1); lia|pose proof Om_pos; lra|].
        unfold R_of_dec; cbn [dman dexp]; rewrite powerRZ_10; simpl; lra. }
      split; [intros [p E]; discriminate E|intros [_ H]; lra]. }
    assert (NA : nonnan (f64_abs x)) by (rewrite nan_abs; exact NX).
    assert (K : (number (dindex (f64_abs x))) /\
      (IZR (2 ^ 63) <= val (dindex (f64_abs x)) <-> 7378697629483821056 <= Rabs (val x))
      /\ 0 <= val (dindex (f64_abs x))).
    { destruct (fin_or_inf x NX) as [Fx|[s ->]].
      - assert (FA : fin (f64_abs x)) by (rewrite fin_abs; exact Fx).
        assert (VA : Binary.B2R (f64_abs x) = Rabs (val x)) by (rewrite B2R_abs, (val_fin x Fx); reflexivity).
        pose proof (Rabs_pos (val x)) as PA.
        destruct (dindex_val (f64_abs x) FA ltac:(lra)) as [ND VD].
        split; [exact ND|]. split; [split; intros H|].
        + destruct (Rle_or_lt 7378697629483821056 (Rabs (val x))) as [L|L]; [exact L|exfalso].
          destruct X1_val as [F1 V1].
          assert (L' : Rabs (val x) <= 7378697629483820032).
          { apply below_X0; [rewrite <- VA; apply fmt_B2R|exact L]. }
          pose proof (dindex_mono _ _ FA F1 ltac:(lra)). pose proof dindex_X1. lra.
        + destruct X0_val as [F0 V0]. pose proof (dindex_mono _ _ F0 FA ltac:(lra)).
          pose proof dindex_X0. lra.
        + rewrite VD. apply rs_pos. assert (Q : 0 <= rs (rs (1 / 2 * Binary.B2R (f64_abs x)) / Binary.B2R (f64_lit 0.4))).
          { apply rs_pos. destruct lit_04. apply Rmult_le_pos; [apply rs_pos; lra|left; apply Rinv_0_lt_compat; lra]. }
          lra.
      - assert (E : dindex (f64_abs (B754_infinity s)) = B754_infinity false) by (vm_compute; reflexivity).
        rewrite E. split; [reflexivity|]. rewrite val_inf_f. pose proof Om_big as OB.
        assert (IZR (2 ^ 63) <= Om).
        { change (IZR (2 ^ 63)) with (bpow radix2 63). apply bpow_le. lia. }
        assert (V : Rabs (val (B754_infinity s)) = Om).
        { destruct s; [rewrite val_inf_t, Rabs_Ropp|rewrite val_inf_f]; apply Rabs_pos_eq; lra. }
        rewrite V. split; [|lra]. split; intros _; [|assumption].
        apply Rle_trans with (bpow radix2 63); [simpl; lra|apply bpow_le; lia]. }
    destruct K as (ND & K & PD).
    rewrite (to_int_val 0 (2 ^ 64 - 1) _ ND ltac:(lia) ltac:(lia) ltac:(lia)).
    set (v := val (dindex (f64_abs x))) in *.
    assert (T0 : (0 <= Ztrunc v)%Z).
    { rewrite <- (Ztrunc_IZR 0). apply Ztrunc_le. exact PD. }
    assert (T1 : (2 ^ 63 <= Ztrunc v)%Z <-> IZR (2 ^ 63) <= v).
    { split; intros H.
      - apply IZR_le in H. eapply Rle_trans; [exact H|]. rewrite Ztrunc_floor by exact PD. apply Zfloor_lb.
      - rewrite <- (Ztrunc_IZR (2 ^ 63)). apply Ztrunc_le. exact H. }
    rewrite (Z.max_r 0) by lia. unfold arith_u, in_range.
    destruct (Z_lt_le_dec (Ztrunc v) (2 ^ 63)) as [S|S].
    - rewrite Z.min_r by lia.
      replace ((0 <=? 2 * Ztrunc v)%Z && (2 * Ztrunc v <=? 2 ^ 64 - 1)%Z) with true.
      + split; [intros [p E]; discriminate E|]. intros [_ H]. apply K in H. apply T1 in H. lia.
      + symmetry. apply andb_true_intro. split; apply Z.leb_le; lia.
    - replace (2 * Z.min (2 ^ 64 - 1) (Ztrunc v) <=? 2 ^ 64 - 1)%Z with false.
      + rewrite andb_false_r. split; [|intros _; eexists; reflexivity].
        intros _. split; [exact NX|]. apply K, T1, S.
      + symmetry. apply Z.leb_gt. lia.
  Qed.
End Dawson.
