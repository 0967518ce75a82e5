(** * gammp and gammq are NaN, and invgammp panics, for large a *)

From Coq Require Import ZArith Reals Bool Lra Lia List.
From Flocq Require Import Core IEEE754.BinarySingleNaN IEEE754.Binary IEEE754.Bits.
From Verif.Model Require Import Base Arith Gamma.
From Verif.Float Require Import Bits64 Ieee Exact Platforms.
From Verif.Spec Require Import F64Spec Outcome.
From Verif.Proofs Require Import F64 F64Ops Lits Ext Boundaries Domains GammaPQ ErfcxSafe DawsonNeg.
Open Scope R_scope.

Section NaN.
  Context (P : platform).
  Notation sub := (f64_sub P). Notation mul := (f64_mul P). Notation add := (f64_add P).

  (** the lower end of the quadrature interval for x <= a - 1 *)
  Definition low_end (a1 x : f64) : f64 :=
    f64_max P (f64_lit 0.0)
      (f64_min P (sub a1 (mul (f64_lit 7.5) (f64_sqrt P a1))) (sub x (mul (f64_lit 5.0) (f64_sqrt P a1)))).

  Lemma fin_range : forall z : f64, number z -> - bpow radix2 200 <= val z <= bpow radix2 200 -> fin z.
  Proof.
    intros z N H. apply fin_iff_val; [exact N|].
    assert (bpow radix2 200 < Om) by (unfold Om; apply bpow_lt; lia).
    apply Rabs_lt. lra.
  Qed.

  Lemma low_end_below : forall a1 x, fin a1 -> fin x -> 99 <= Binary.B2R a1 <= bpow radix2 100 ->
    20 <= Binary.B2R x <= Binary.B2R a1 ->
    fin (low_end a1 x) /\ Binary.B2R (low_end a1 x) - Binary.B2R x <= -1.
  Proof.
    intros a1 x Fa Fx Ba Bx.
    destruct (sqrt_spec P a1 Fa ltac:(lra)) as [Fq Vq].
    set (A := Binary.B2R a1) in *. set (X := Binary.B2R x) in *. set (q := f64_sqrt P a1) in *.
    set (s := R_sqrt.sqrt A) in *.
    assert (SS : s * s = A) by (apply sqrt_sqrt; lra).
    assert (S9 : 9 <= s).
    { replace 9 with (R_sqrt.sqrt (9 * 9)) by (apply sqrt_square; lra). apply sqrt_le_1_alt. lra. }
    assert (S50 : s <= bpow radix2 50).
    { rewrite <- (sqrt_bpow radix2 50). apply sqrt_le_1_alt. exact (proj2 Ba). }
    assert (Q9 : 9 <= Binary.B2R q).
    { rewrite Vq. rewrite <- (rnd_fmt 9) by (apply (fmt_IZR 9); lia). apply rnd_le. exact S9. }
    assert (Q50 : Binary.B2R q <= bpow radix2 50).
    { rewrite Vq. apply rnd_le_fmt; [apply fmt_bpow; lia|exact S50]. }
    assert (QS : 0.9 * s <= Binary.B2R q).
    { rewrite Vq. pose proof (rnd_abs_err s) as E. rewrite (Rabs_pos_eq s) in E by lra. apply Rabs_le_inv in E.
      pose proof u_small. assert (bpow radix2 (-1075) <= bpow radix2 (-53)) by (apply bpow_le; lia).
      assert (bpow radix2 (-53) * s <= 1 / 1000000 * s) by (apply Rmult_le_compat_r; lra). lra. }
    assert (B200 : bpow radix2 100 < bpow radix2 200) by (apply bpow_lt; lia).
    assert (B50 : bpow radix2 50 <= bpow radix2 97) by (apply bpow_le; lia).
    assert (B97 : bpow radix2 100 = 8 * bpow radix2 97) by (change 100%Z with (3 + 97)%Z; rewrite bpow_plus; reflexivity).
    pose proof Om_big as OB.
    (* 5 sqrt a1 *)
    lit_facts 5.0%dec 5%Z 0%Z F5 V5. rewrite (val_fin _ F5) in V5.
    assert (M5 : fin (mul (f64_lit 5.0) q) /\ 4 * Binary.B2R q <= Binary.B2R (mul (f64_lit 5.0) q) <= bpow radix2 100).
    { destruct (mul_spec P _ _ F5 Fq) as [N V]. rewrite V5 in V.
      assert (L : 4 * Binary.B2R q <= val (mul (f64_lit 5.0) q) <= bpow radix2 100).
      { rewrite V. split.
        - apply rs_ge; [|assert (bpow radix2 100 <= Om) by (unfold Om; apply bpow_le; lia); lra|lra].
          replace (4 * Binary.B2R q) with (Binary.B2R q * bpow radix2 2) by (change (bpow radix2 2) with 4; ring). apply fmt_scale; lia.
        - apply rs_le_fmt; [apply fmt_bpow; lia|pose proof (bpow_gt_0 radix2 100); unfold Om; assert (0 < bpow radix2 1024) by apply bpow_gt_0; lra|lra]. }
      assert (F : fin (mul (f64_lit 5.0) q)) by (apply fin_range; [exact N|lra]).
      split; [exact F|]. rewrite <- (val_fin _ F). exact L. }
    destruct M5 as [FM5 LM5].
    lit_facts 7.5%dec 15%Z 1%Z F7 V7. rewrite (val_fin _ F7) in V7.
    assert (M7 : fin (mul (f64_lit 7.5) q) /\ 0 <= Binary.B2R (mul (f64_lit 7.5) q) <= bpow radix2 100).
    { destruct (mul_spec P _ _ F7 Fq) as [N V]. rewrite V7 in V.
      assert (L : 0 <= val (mul (f64_lit 7.5) q) <= bpow radix2 100).
      { rewrite V. split.
        - apply rs_pos. lra.
        - apply rs_le_fmt; [apply fmt_bpow; lia|pose proof (bpow_gt_0 radix2 100); unfold Om; assert (0 < bpow radix2 1024) by apply bpow_gt_0; lra|lra]. }
      assert (F : fin (mul (f64_lit 7.5) q)) by (apply fin_range; [exact N|lra]).
      split; [exact F|]. rewrite <- (val_fin _ F). exact L. }
    destruct M7 as [FM7 LM7].
    (* the two differences *)
    destruct (sub_spec P a1 _ Fa FM7) as [N1 V1]. destruct (sub_spec P x _ Fx FM5) as [N2 V2].
    fold A in V1. fold X in V2.
    assert (L2 : rs (X - Binary.B2R (mul (f64_lit 5.0) q)) <= X - 1).
    { set (d := Binary.B2R (mul (f64_lit 5.0) q)) in *.
      destruct (Rle_or_lt (X - d) 0) as [C|C].
      - apply Rle_trans with 0; [apply rs_le_fmt; [apply fmt_0|lra|exact C]|lra].
      - eapply Rle_trans; [apply rs_le_rnd; lra|].
        pose proof (rnd_abs_err (X - d)) as E. rewrite (Rabs_pos_eq (X - d)) in E by lra. apply Rabs_le_inv in E.
        assert (E53 : bpow radix2 (-53) * bpow radix2 50 = 1 / 8) by (rewrite <- bpow_plus; simpl; lra).
        pose proof (bpow_gt_0 radix2 (-53)) as U0.
        assert (XB : bpow radix2 (-53) * X <= s / 8).
        { apply Rle_trans with (bpow radix2 (-53) * (bpow radix2 50 * s)).
          - apply Rmult_le_compat_l; [lra|]. apply Rle_trans with A; [lra|]. rewrite <- SS. apply Rmult_le_compat_r; lra.
          - right. rewrite <- Rmult_assoc, E53. field. }
        assert (bpow radix2 (-53) * (X - d) <= bpow radix2 (-53) * X) by (apply Rmult_le_compat_l; lra).
        assert (bpow radix2 (-1075) <= bpow radix2 (-3)) by (apply bpow_le; lia).
        assert (bpow radix2 (-3) <= 1 / 8) by (simpl; lra).
        lra. }
    destruct (min_val P _ _ N1 N2) as [NM VM]. destruct (max_val P (f64_lit 0.0) _ nn_0 NM) as [NX VX].
    fold q in NM, VM, NX, VX. unfold low_end. fold q.
    assert (L : 0 <= val (f64_max P (f64_lit 0.0) (f64_min P (sub a1 (mul (f64_lit 7.5) q)) (sub x (mul (f64_lit 5.0) q)))) <= X - 1).
    { rewrite VX, VM, val_0. split; [apply Rmax_l|]. apply Rmax_lub; [lra|].
      eapply Rle_trans; [apply Rmin_r|]. rewrite V2. exact L2. }
    assert (F : fin (f64_max P (f64_lit 0.0) (f64_min P (sub a1 (mul (f64_lit 7.5) q)) (sub x (mul (f64_lit 5.0) q)))))
      by (apply fin_range; [exact NX|pose proof (bpow_gt_0 radix2 200); lra]).
    split; [exact F|]. rewrite <- (val_fin _ F). lra.
  Qed.

  Hypothesis LN : ln_of_negative_is_NaN (p_ln P).

  Lemma ln_neg_nan : forall t : f64, number t -> val t < 0 -> Binary.is_nan (libm P (p_ln P) t) = true.
  Proof. intros t N V. rewrite libm_nonnan by exact N. apply LN; assumption. Qed.

  (** a - 1 in f64 *)
  Definition pred1 (a : f64) : f64 := sub a (f64_lit 1.0).

  Lemma pred1_bounds : forall a, fin a -> 100 <= Binary.B2R a <= bpow radix2 100 ->
    fin (pred1 a) /\ 99 <= Binary.B2R (pred1 a) <= Binary.B2R a /\ Binary.B2R (pred1 a) = rs (Binary.B2R a - 1).
  Proof.
    intros a Fa Ba. unfold pred1. destruct (sub_spec P a _ Fa fin_1) as [N V].
    rewrite <- (val_fin _ fin_1), val_1 in V. pose proof Om_big as OB.
    assert (BO : bpow radix2 100 <= Om) by (unfold Om; apply bpow_le; lia).
    assert (L : 99 <= val (sub a (f64_lit 1.0)) <= Binary.B2R a).
    { rewrite V. split; [apply rs_ge; [apply (fmt_IZR 99); lia|lra|lra]|].
      apply rs_le_fmt; [apply fmt_B2R|lra|lra]. }
    assert (F : fin (sub a (f64_lit 1.0))).
    { apply fin_range; [exact N|]. pose proof (bpow_gt_0 radix2 200).
      assert (bpow radix2 100 <= bpow radix2 200) by (apply bpow_le; lia). lra. }
    split; [exact F|]. rewrite <- (val_fin _ F). auto.
  Qed.

  Lemma approx_nan : forall a x, fin a -> fin x -> 100 <= Binary.B2R a <= bpow radix2 100 ->
    20 <= Binary.B2R x <= Binary.B2R (pred1 a) ->
    is_NaN (@approx_ans (ieee P) a x).
  Proof.
    intros a x Fa Fx Ba Bx. destruct (pred1_bounds a Fa Ba) as (F1 & B1 & _).
    unfold is_NaN, approx_ans. ieee_simpl. fold (pred1 a).
    assert (C : f64_lt (pred1 a) x = false).
    { apply lt_false; [apply fin_nonnan; exact F1|apply fin_nonnan; exact Fx|]. rewrite !val_fin by assumption. lra. }
    rewrite C. fold (low_end (pred1 a) x).
    destruct (low_end_below (pred1 a) x F1 Fx ltac:(lra) Bx) as [FL BL].
    destruct (sub_spec P _ _ FL Fx) as [N V].
    assert (VN : val (sub (low_end (pred1 a) x) x) < 0).
    { rewrite V. apply Rle_lt_trans with (-1); [|lra]. pose proof Om_big. apply rs_le_fmt; [apply (fmt_IZR (-1)); lia|lra|exact BL]. }
    pose proof (ln_neg_nan _ N VN) as NL.
    match goal with |- Binary.is_nan (if f64_lt _ ?l then _ else _) = true => assert (NA : Binary.is_nan l = true) end.
    { apply add_nan_l. apply add_nan_r. exact NL. }
    match type of NA with Binary.is_nan ?l = true => revert NA; generalize l end. intros l NA.
    rewrite (lt_nan_r _ l NA), (lt_nan_l l _ NA). apply libm_nan. exact NA.
  Qed.

  Lemma lit_02 : fin (f64_lit 0.2) /\ 0 <= Binary.B2R (f64_lit 0.2) <= 0.2001.
  Proof.
    destruct (lit_spec 0.2) as [N V].
    assert (B : R_of_dec 0.2 = 0.2) by (unfold R_of_dec; cbn [dman dexp]; rewrite powerRZ_10; simpl; lra).
    rewrite B in V. pose proof Om_big as OB.
    assert (L : 0 <= val (f64_lit 0.2) <= 13113 / 65536).
    { rewrite V. split; [apply rs_pos; lra|apply rs_le_fmt; [fq 13113%Z 16%Z|lra|lra]]. }
    assert (F : fin (f64_lit 0.2)) by (apply fin_iff_val; [exact N|rewrite Rabs_pos_eq; lra]).
    split; [exact F|]. rewrite <- (val_fin _ F). lra.
  Qed.

  (** the branch taken by gammp and gammq *)
  Lemma gamm_branch : forall a x, fin a -> fin x -> 100 <= Binary.B2R a <= bpow radix2 100 ->
    0.201 * Binary.B2R a <= Binary.B2R x <= Binary.B2R a ->
    @gammp (ieee P) a x = Ok (@gammpapprox (ieee P) a x IncGammaP)
    /\ @gammq (ieee P) a x = Ok (@gammpapprox (ieee P) a x IncGammaQ).
  Proof.
    intros a x Fa Fx Ba Bx. pose proof Om_big as OB.
    assert (BO : bpow radix2 100 < Om) by (unfold Om; apply bpow_lt; lia).
    assert (Nx : number x) by (apply fin_nonnan; exact Fx). assert (Na : number a) by (apply fin_nonnan; exact Fa).
    pose proof (val_fin x Fx) as VX. pose proof (val_fin a Fa) as VA.
    unfold gammp, gammq, EPS. ieee_simpl.
    assert (C1 : f64_le (f64_lit 0.0) x = true) by (apply le_true; rewrite val_0, VX; split; [apply nn_0|split; [exact Nx|lra]]).
    assert (C2 : f64_lt (f64_lit 0.0) a = true) by (apply lt_true; rewrite val_0, VA; split; [apply nn_0|split; [exact Na|lra]]).
    assert (C3 : f64_eq x (f64_lit 0.0) = false).
    { rewrite eq_val by (exact Nx || apply nn_0). rewrite val_0, VX. apply Req_bool_false. lra. }
    assert (PA : positive a) by (split; [exact Na|lra]).
    assert (C4 : f64_lt x (mul a f64_eps) = false).
    { destruct (mul_spec P a f64_eps Fa eq_refl) as [N V]. apply lt_false; [exact Nx|exact N|].
      assert (E : Binary.B2R a * Binary.B2R f64_eps = Binary.B2R a * bpow radix2 (-52)).
      { rewrite <- (val_fin f64_eps eq_refl), val_eps. reflexivity. }
      rewrite V, VX, E. apply rs_le_fmt; [apply fmt_B2R|lra|].
      assert (E8 : bpow radix2 (-52) <= 1 / 8) by (apply Rle_trans with (bpow radix2 (-3)); [apply bpow_le; lia|simpl; lra]).
      assert (Binary.B2R a * bpow radix2 (-52) <= Binary.B2R a * (1 / 8)) by (apply Rmult_le_compat_l; lra). lra. }
    assert (C5 : f64_lt (add a (mul (f64_lit 20.0) (add (f64_sqrt P a) (f64_lit 1.0)))) x = false).
    { destruct (gamm_threshold P a) as (N & L & _); [split; [exact Na|lra]|exact Fa|].
      apply lt_false; [exact N|exact Nx|]. lra. }
    assert (C6 : (100 <=? f64_to_int 0 (2 ^ 64 - 1) a)%Z = true).
    { apply Z.leb_le. rewrite to_int_fin by exact Fa. rewrite VA.
      assert (100 <= Ztrunc (Binary.B2R a))%Z by (rewrite <- (Ztrunc_IZR 100); apply Ztrunc_le; lra). lia. }
    assert (C7 : f64_lt x (mul (f64_lit 0.2) a) = false).
    { destruct lit_02 as [F2 V2]. destruct (mul_spec P _ a F2 Fa) as [N V].
      apply lt_false; [exact Nx|exact N|]. rewrite V, VX.
      assert (M : Binary.B2R (f64_lit 0.2) * Binary.B2R a <= 0.2001 * Binary.B2R a) by (apply Rmult_le_compat_r; lra).
      apply rs_le_fmt; [apply fmt_B2R|lra|lra]. }
    rewrite C1, C2, C3, C4, C5, C7. cbn [andb].
    unfold as_usize. ieee_simpl. rewrite C6. split; reflexivity.
  Qed.

  (** C18, on the real wedge; [val x <= val (a - 1 rounded)] *)
  Lemma gamm_nan_f64 : forall a x, fin a -> fin x -> 100 <= Binary.B2R a <= bpow radix2 100 ->
    0.201 * Binary.B2R a <= Binary.B2R x <= Binary.B2R (pred1 a) ->
    (exists r, @gammp (ieee P) a x = Ok r /\ is_NaN r) /\ (exists r, @gammq (ieee P) a x = Ok r /\ is_NaN r).
  Proof.
    intros a x Fa Fx Ba Bx. destruct (pred1_bounds a Fa Ba) as (F1 & B1 & _).
    destruct (gamm_branch a x Fa Fx Ba ltac:(lra)) as [EP EQ].
    assert (NA : is_NaN (@approx_ans (ieee P) a x)) by (apply approx_nan; auto; lra).
    rewrite EP, EQ, approx_P, approx_Q. ieee_simpl.
    assert (NS : is_NaN (f64_sub P (f64_lit 1.0) (@approx_ans (ieee P) a x))) by (apply sub_nan_r; exact NA).
    split; eexists; (split; [reflexivity|]).
    - pose proof (clamp_nan P _ NS) as E. ieee_simpl_in E. rewrite E. exact NS.
    - pose proof (clamp_nan P _ NA) as E. ieee_simpl_in E. rewrite E. exact NA.
  Qed.

  Theorem gamm_nan : forall a x, number a -> number x -> 100 <= val a <= bpow radix2 100 ->
    0.201 * val a <= val x <= val a - 1 ->
    (exists r, @gammp (ieee P) a x = Ok r /\ is_NaN r) /\ (exists r, @gammq (ieee P) a x = Ok r /\ is_NaN r).
  Proof.
    intros a x Na Nx Ba Bx.
    assert (B2 : bpow radix2 100 < bpow radix2 200) by (apply bpow_lt; lia).
    assert (Fa : fin a) by (apply fin_range; [exact Na|lra]).
    assert (Fx : fin x) by (apply fin_range; [exact Nx|lra]).
    rewrite (val_fin a Fa), (val_fin x Fx) in *. destruct (pred1_bounds a Fa Ba) as (F1 & B1 & V1).
    apply gamm_nan_f64; auto. split; [lra|]. rewrite V1. apply rs_ge; [apply fmt_B2R| |lra].
    assert (bpow radix2 100 <= Om) by (unfold Om; apply bpow_le; lia). lra.
  Qed.
End NaN.
