(** * The Faddeeva function on the two axes *)

From Coq Require Import ZArith Reals Bool Lra Lia List.
From Flocq Require Import Core IEEE754.BinarySingleNaN IEEE754.Binary IEEE754.Bits.
From Verif.Model Require Import Base Arith Error Dawson Faddeeva.
From Verif.Float Require Import Bits64 Ieee Exact Platforms.
From Verif.Spec Require Import F64Spec Outcome ErfSpec DawsonSpec LibmSpec.
From Verif.Proofs Require Import F64 F64Ops Lits Ext Symmetry FaddeevaSym FaddeevaExamples DawsonTaylor DawsonSeries DawsonNeg DawsonExamples ErfcxAsym ErfcxAcc ErfcAcc ErfcExists PiBounds InvThms ExpBounds.
Open Scope R_scope.
Local Notation exp := Rtrigo_def.exp. Local Notation sqrt := R_sqrt.sqrt. Local Notation PI := Rtrigo1.PI.
Local Notation u53 := (bpow radix2 (-53)).

Lemma isp_lit_near : fin (@INV_SQRT_PI (ieee (ideal true false))) /\ Rabs (Binary.B2R (f64_lit 0.564_189_583_547_756_3) - / sqrt PI) <= / 2 ^ 52.
Proof.
  split; [reflexivity|]. pose proof isp_bounds as [L U]. unfold isp70 in L, U. change (2 ^ 70)%Z with 1180591620717411303424%Z in L, U.
  assert (V : Binary.B2R (f64_lit 0.564_189_583_547_756_3) = 5081767996463981 / 2 ^ 53) by (cbv; lra).
  rewrite V. apply Rabs_le. lra.
Qed.

(** ** the real axis *)
Lemma isp_inb : inb (f64_lit 0.564_189_583_547_756_3) 0.564 0.565.
Proof.
  destruct isp_lit_near as [_ B]. pose proof isp_range as R. apply Rabs_le_inv in B. split; [reflexivity|].
  change (0.564 <= Binary.B2R (f64_lit 0.564_189_583_547_756_3) <= 0.565).
  assert (V : Binary.B2R (f64_lit 0.564_189_583_547_756_3) = 5081767996463981 / 2 ^ 53) by (cbv; lra). rewrite V. lra.
Qed.

Lemma im_real_axis : forall P (x y : f64) r, number x -> bpow radix2 (-1000) <= Rabs (val x) -> finite y -> Binary.B2R y = 0 ->
  @dawson (ieee P) x = Ok r ->
  @faddeeva (ieee P) x y = Ok (if f64_lt (f64_lit 27.0) (f64_abs x) then f64_lit 0.0
        else libm P (p_exp P) (f64_mul P (f64_neg (f64_abs x)) (f64_abs x)), f64_mul P (f64_mul P (f64_lit 2.0) r) (f64_lit 0.564_189_583_547_756_3)).
Proof. intros P x y r Nx Bx Fy Vy Hr. rewrite (faddeeva_real_axis P x y Nx Bx Fy Vy), Hr. reflexivity. Qed.

Lemma faddeeva_im_negative : forall (P : platform) (D : R -> R) (x y : f64), plausible_exp (p_exp P) -> dawson_integral D 1 ->
  number x -> 0.41 <= val x <= 0.79 -> finite y -> Binary.B2R y = 0 ->
  1 / 5 < 2 / sqrt PI * D (val x) /\ exists a b, @faddeeva (ieee P) x y = Ok (a, b) /\ finite b /\ val b < 0.
Proof.
  intros P D x y HX HD Nx Hx Fy Vy. split.
  { pose proof (dawson_integral_lower D (val x) HD Hx). pose proof isp_range as R. unfold Rdiv.
    assert (1.1 * (1 * / 5) <= 2 * / sqrt PI * D (val x)) by (apply Rmult_le_compat; lra). lra. }
  destruct (dawson_negative_inb P HX x Nx Hx) as (r & Er & Ir).
  pose proof (bpow_gt_0 radix2 (-104)) as P0.
  assert (BX : bpow radix2 (-1000) <= Rabs (val x)).
  { rewrite Rabs_pos_eq by lra. apply Rle_trans with (bpow radix2 (-2)); [apply bpow_le; lia|simpl; lra]. }
  do 2 eexists. split; [apply (im_real_axis P x y r Nx BX Fy Vy Er)|].
  assert (B4 : bpow radix2 (-104) = 2 * bpow radix2 (-105)) by (change (-104)%Z with (1 + -105)%Z; rewrite bpow_plus; reflexivity).
  assert (B3 : bpow radix2 (-103) = 2 * bpow radix2 (-104)) by (change (-103)%Z with (1 + -104)%Z; rewrite bpow_plus; reflexivity).
  assert (S4 : bpow radix2 (-103) <= 1) by (change 1 with (bpow radix2 0); apply bpow_le; lia).
  assert (I2 : inb (f64_mul P (f64_lit 2.0) r) (- 13194139533312) (- bpow radix2 (-103))).
  { eapply mul_inb; [apply inb_2|exact Ir|fq (-13194139533312)%Z 0%Z|apply fmt_opp, fmt_bpow; lia|ab|ab|]. intros u v Hu Hv. split; nra. }
  assert (I3 : inb (f64_mul P (f64_mul P (f64_lit 2.0) r) (f64_lit 0.564_189_583_547_756_3)) (- 13194139533312) (- bpow radix2 (-104))).
  { eapply mul_inb; [exact I2|apply isp_inb|fq (-13194139533312)%Z 0%Z|apply fmt_opp, fmt_bpow; lia|ab|ab|]. intros u v Hu Hv. split; nra. }
  destruct I3 as [F3 V3]. split; [exact F3|]. rewrite (val_fin _ F3). lra.
Qed.
Lemma faddeeva_im_refuted : exists x y : f64, positive x /\ finite y /\ val y = 0 /\
  forall P : platform, plausible_exp (p_exp P) -> exists a b, @faddeeva (ieee P) x y = Ok (a, b) /\ finite b /\ val b < 0.
Proof.
  destruct half_facts as [N H]. exists (f64_lit 0.5), (f64_lit 0.0). split; [split; [exact N|lra]|].
  destruct ex_axes as (_ & _ & F0 & V0). split; [exact F0|]. split; [rewrite (val_fin _ F0); exact V0|].
  intros P HX. destruct ex_dawson_sign as ((_ & D & HD) & _).
  destruct (faddeeva_im_negative P D _ _ HX HD N H F0 V0) as [_ Q]. exact Q.
Qed.

(** *** accuracy of both parts *)
Lemma flB : forall z r, rounds z r -> Rabs r <= 1000 -> fin z /\ Rabs (Binary.B2R z - r) <= u53 * Rabs r + bpow radix2 (-1075).
Proof.
  intros z r H B. pose proof (rnd_abs_err r) as E.  destruct (rounds_small _ _ H) as [F V].
  - pose proof (Rabs_triang (rnd r - r) r) as T. replace (rnd r - r + r) with (rnd r) in T by ring. pose proof u53_small as U. pose proof tiny_u. pose proof Om_big.
    assert (u53 * Rabs r <= 1 * 1000) by (apply Rmult_le_compat; try lra; apply Rabs_pos). lra.
  - split; [exact F|]. rewrite V. exact E.
Qed.
Lemma dawson_le : forall D X, dawson_integral D (1 / 5) -> Rabs X < 1 / 5 -> Rabs (D X) <= 1.1 * Rabs X.
Proof.
  intros D X HD BX. pose proof (dawson_taylor D (1 / 5) X HD ltac:(lra)) as T. pose proof (Rabs_pos X) as PX.
  assert (DP : dpoly X = X * (1 - 2 / 3 * (X * X) * (1 - 2 / 5 * (X * X) * (1 - 2 / 7 * (X * X))))) by (unfold dpoly; field).
  assert (Sq : 0 <= X * X <= 1 / 25).
  { pose proof (Rle_0_sqr X) as S0. unfold Rsqr in S0. assert (Q : Rabs X * Rabs X <= 1 / 5 * (1 / 5)) by (apply Rmult_le_compat; lra).
    rewrite <- Rabs_mult, (Rabs_pos_eq (X * X)) in Q by exact S0. lra. }
  assert (B : Rabs (dpoly X) <= Rabs X * 1).
  { rewrite DP, Rabs_mult. apply Rmult_le_compat_l; [exact PX|]. set (Q := X * X) in *.
    assert (0 <= 2 / 5 * Q * (1 - 2 / 7 * Q) <= 1) by (split; [apply Rmult_le_pos; lra|nra]).
    assert (0 <= 2 / 3 * Q * (1 - 2 / 5 * Q * (1 - 2 / 7 * Q)) <= 2 / 3 * Q * 1) by (split; [apply Rmult_le_pos; lra|apply Rmult_le_compat_l; lra]).
    rewrite Rabs_pos_eq; lra. }
  assert (R4 : Rabs X ^ 9 <= Rabs X * (1 / 5) ^ 8) by (change (Rabs X ^ 9) with (Rabs X * Rabs X ^ 8); apply Rmult_le_compat_l; [exact PX|]; apply pow_incr; lra).
  pose proof (Rabs_triang (D X - dpoly X) (dpoly X)) as TR. replace (D X - dpoly X + dpoly X) with (D X) in TR by ring. lra.
Qed.
Lemma faddeeva_im_small : forall (P : platform) (D : R -> R) (x y : f64), dawson_integral D (1 / 5) ->
  number x -> bpow radix2 (-1000) <= Rabs (val x) < 1 / 5 -> finite y -> Binary.B2R y = 0 ->
  exists a b, @faddeeva (ieee P) x y = Ok (a, b) /\ finite b /\ Rabs (val b - 2 / sqrt PI * D (val x)) <= 6e-8 * Rabs (val x).
Proof.
  intros P D x y HD Nx Hx Fy Vy. destruct (dawson_accurate P D x HD Nx (proj2 Hx)) as (r & Er & Fr & Br). rewrite (val_fin _ Fr) in Br.
  do 2 eexists. split; [apply (im_real_axis P x y r Nx (proj1 Hx) Fy Vy Er)|].
  set (X := val x) in *. pose proof (dawson_le D X HD (proj2 Hx)) as DB. set (d := Binary.B2R r) in *. set (A := Rabs X) in *. pose proof (bpow_gt_0 radix2 (-1000)) as P0.
  assert (B5 : 0 <= bpow radix2 (-1075) <= / 2 ^ 70 * A).
  { split; [apply bpow_ge_0|]. replace (/ 2 ^ 70) with (bpow radix2 (-70)) by (simpl; lra). apply Rle_trans with (bpow radix2 (-70) * bpow radix2 (-1000)).
    - rewrite <- bpow_plus. apply bpow_le. lia.
    - apply Rmult_le_compat_l; [apply bpow_ge_0|lra]. }
  assert (Ub : 0 <= u53 <= / 2 ^ 50) by (split; [apply bpow_ge_0|simpl; lra]).
  assert (dB : Rabs d <= 1.11 * A). { pose proof (Rabs_triang (d - D X) (D X)) as T. replace (d - D X + D X) with d in T by ring. lra. }
  pose proof (Rabs_pos d) as d0.
  destruct (flB _ _ (mul_spec P (f64_lit 2.0) r fin_2 Fr)) as [F1 B1]. { rewrite <- (val_fin _ fin_2), val_2. fold d. rewrite Rabs_mult, (Rabs_pos_eq 2) by lra. lra. }
  rewrite <- (val_fin _ fin_2), val_2 in B1. fold d in B1. set (m := Binary.B2R (f64_mul P (f64_lit 2.0) r)) in *. rewrite Rabs_mult, (Rabs_pos_eq 2) in B1 by lra.
  assert (B1' : Rabs (m - 2 * d) <= / 2 ^ 48 * A).
  { eapply Rle_trans; [exact B1|]. assert (u53 * (2 * Rabs d) <= / 2 ^ 50 * (2 * (1.11 * A))) by (apply Rmult_le_compat; lra). lra. }
  assert (mB : Rabs m <= 2.23 * A). { pose proof (Rabs_triang (m - 2 * d) (2 * d)) as T. replace (m - 2 * d + 2 * d) with m in T by ring. rewrite (Rabs_mult 2), (Rabs_pos_eq 2) in T by lra. lra. }
  destruct isp_inb as [Fi Vi]. set (c := Binary.B2R (f64_lit 0.564_189_583_547_756_3)) in *.
  assert (CI : Rabs (c - / sqrt PI) <= / 2 ^ 52) by apply isp_lit_near. pose proof isp_range as IR. set (i := / sqrt PI) in *.
  assert (MC : Rabs (m * c) <= 1.3 * A). { rewrite Rabs_mult. rewrite (Rabs_pos_eq c) by lra. assert (Rabs m * c <= 2.23 * A * 0.565) by (apply Rmult_le_compat; try lra; apply Rabs_pos). lra. }
  destruct (flB _ _ (mul_spec P (f64_mul P (f64_lit 2.0) r) (f64_lit 0.564_189_583_547_756_3) F1 Fi)) as [F2 B2]. { fold m c. lra. }
  fold m c in B2. split; [exact F2|]. rewrite (val_fin _ F2). set (b := Binary.B2R (f64_mul P (f64_mul P (f64_lit 2.0) r) (f64_lit 0.564_189_583_547_756_3))) in *.
  assert (B2' : Rabs (b - m * c) <= / 2 ^ 48 * A).
  { eapply Rle_trans; [exact B2|]. assert (u53 * Rabs (m * c) <= / 2 ^ 50 * (1.3 * A)) by (apply Rmult_le_compat; try lra; apply Rabs_pos). lra. }
  unfold Rdiv. fold i. replace (b - 2 * i * D X) with ((b - m * c) + (m * (c - i) + (i * (m - 2 * d) + 2 * i * (d - D X)))) by ring.
  eapply Rle_trans; [apply Rabs_triang|].
  assert (T1 : Rabs (m * (c - i)) <= 2.23 * A * / 2 ^ 52) by (rewrite Rabs_mult; apply Rmult_le_compat; try lra; apply Rabs_pos).
  assert (T2 : Rabs (i * (m - 2 * d)) <= 0.565 * (/ 2 ^ 48 * A)) by (rewrite Rabs_mult, (Rabs_pos_eq i) by lra; apply Rmult_le_compat; try lra; apply Rabs_pos).
  assert (T3 : Rabs (2 * i * (d - D X)) <= 1.13 * (5e-8 * A + bpow radix2 (-1075))) by (rewrite Rabs_mult, (Rabs_pos_eq (2 * i)) by lra; apply Rmult_le_compat; try lra; apply Rabs_pos).
  pose proof (Rabs_triang (m * (c - i)) (i * (m - 2 * d) + 2 * i * (d - D X))). pose proof (Rabs_triang (i * (m - 2 * d)) (2 * i * (d - D X))). lra.
Qed.

Lemma faddeeva_re_axis : forall (P : platform) (x y a b : f64), accurate_exp (p_exp P) ->
  number x -> bpow radix2 (-1000) <= Rabs (val x) <= 26 -> finite y -> Binary.B2R y = 0 -> @faddeeva (ieee P) x y = Ok (a, b) ->
  finite a /\ Rabs (val a - exp (- (val x * val x))) <= / 2 ^ 43 * exp (- (val x * val x)).
Proof.
  intros P x y a b HX Nx Hx Fy Vy H.
  assert (Fx : fin x) by (apply fin_iff_val; [exact Nx|pose proof Om_big; lra]). rewrite (val_fin _ Fx) in *.
  rewrite (faddeeva_real_axis P x y Nx ltac:(rewrite (val_fin _ Fx); lra) Fy Vy) in H. destruct (@dawson (ieee P) x) as [d| |]; try discriminate H. cbn [bind] in H. injection H as <- _.
  lit_facts 27.0%dec 27%Z 0%Z F27 V27. rewrite (val_fin _ F27) in V27.
  assert (C : f64_lt (f64_lit 27.0) (f64_abs x) = false).
  { apply lt_false; [apply fin_nonnan; exact F27|rewrite nan_abs; exact Nx|]. rewrite val_abs, (val_fin _ Fx), (val_fin _ F27), V27. simpl (2 ^ 0)%Z. lra. }
  rewrite C. assert (Fa : fin (f64_abs x)) by (rewrite fin_abs; exact Fx). assert (Fn : fin (f64_neg (f64_abs x))) by (rewrite fin_neg; exact Fa).
  set (X := Binary.B2R x) in *. pose proof (Rabs_pos X) as PX.
  assert (XX : Rabs X * Rabs X = X * X) by (rewrite <- Rabs_mult; apply Rabs_pos_eq; apply (Rle_0_sqr X)).
  assert (QX : 0 <= X * X <= 676). { rewrite <- XX. split; [apply Rmult_le_pos; lra|]. replace 676 with (26 * 26) by lra. apply Rmult_le_compat; lra. }
  destruct (flB _ _ (mul_spec P (f64_neg (f64_abs x)) (f64_abs x) Fn Fa)) as [Ft Bt].
  { rewrite B2R_neg, B2R_abs. fold X. rewrite Ropp_mult_distr_l_reverse, XX, Rabs_Ropp, Rabs_pos_eq; lra. }
  rewrite B2R_neg, B2R_abs in Bt. fold X in Bt. rewrite Ropp_mult_distr_l_reverse, XX, Rabs_Ropp, (Rabs_pos_eq (X * X)) in Bt by lra.
  set (t := f64_mul P (f64_neg (f64_abs x)) (f64_abs x)) in *.
  assert (Ub : 0 <= u53 <= / 2 ^ 53) by (split; [apply bpow_ge_0|simpl; lra]). pose proof tiny_u as TU.
  assert (Bt' : Rabs (Binary.B2R t - - (X * X)) <= 677 / 2 ^ 53).
  { eapply Rle_trans; [exact Bt|]. assert (u53 * (X * X) <= / 2 ^ 53 * 676) by (apply Rmult_le_compat; lra). lra. }
  pose proof (Rabs_le_inv _ _ Bt') as Bt2.
  destruct (HX t) as [Ne Be]; [apply fin_nonnan; exact Ft|rewrite (val_fin _ Ft); lra|]. rewrite (val_fin _ Ft) in Be.
  rewrite (libm_nonnan P (p_exp P) t) by (apply fin_nonnan; exact Ft).
  pose proof (exp_near (- (X * X)) (Binary.B2R t) (677 / 2 ^ 53) ltac:(lra) Bt') as EN.
  pose proof (exp_pos (- (X * X))) as E0. set (e := exp (- (X * X))) in *. set (et := exp (Binary.B2R t)) in *.
  assert (E1 : e <= 1). { unfold e. rewrite <- exp_0. apply exp_mono. lra. }
  replace (bpow radix2 (-50)) with (/ 2 ^ 50) in Be by (simpl; lra).
  assert (ET : 0 < et <= 1.001 * e). { split; [apply exp_pos|]. apply Rabs_le_inv in EN. lra. }
  assert (V : Rabs (val (p_exp P t) - e) <= / 2 ^ 43 * e).
  { replace (val (p_exp P t) - e) with ((val (p_exp P t) - et) + (et - e)) by ring. eapply Rle_trans; [apply Rabs_triang|]. lra. }
  split; [|exact V]. apply fin_iff_val; [exact Ne|]. apply Rabs_le_inv in V. pose proof Om_big. apply Rabs_lt. lra.
Qed.

(** ** the imaginary axis *)
Lemma faddeeva_imag_acc : forall E : R -> R, erfc_function E -> forall (P : platform) (x y : f64), finite x -> Binary.B2R x = 0 ->
  finite y -> - (1 / 8) < val y -> bpow radix2 (-1000) <= Rabs (val y) ->
  exists a b, @faddeeva (ieee P) x y = Ok (a, b) /\ finite a /\ finite b /\ val b = 0
  /\ Rabs (val a - scaled_erfc E (val y)) <= / 2 ^ 46 * scaled_erfc E (val y) + bpow radix2 (-1075).
Proof.
  intros E HE P x y Fx Vx Fy Hy By. destruct (faddeeva_imaginary_axis P x y (fin_nonnan _ Fy) By Fx Vx) as (r & Er & Ew).
  rewrite (val_fin _ Fy) in *. destruct (erfcx_acc E HE P y Fy Hy) as (r' & Er' & Fr & Br). rewrite Er in Er'. injection Er' as <-.
  destruct ex_axes as (_ & _ & F0 & V0). exists r, (f64_lit 0.0). rewrite (val_fin _ Fr), (val_fin _ F0). auto.
Qed.
Lemma faddeeva_imag_acc_neg : forall E : R -> R, erfc_function E -> forall (P : platform) (x y : f64), accurate_exp (p_exp P) ->
  finite x -> Binary.B2R x = 0 -> finite y -> - 26.6 <= val y <= - (1 / 8) ->
  exists a b, @faddeeva (ieee P) x y = Ok (a, b) /\ finite a /\ finite b /\ val b = 0
  /\ Rabs (val a - scaled_erfc E (val y)) <= / 2 ^ 43 * scaled_erfc E (val y).
Proof.
  intros E HE P x y HX Fx Vx Fy Hy.
  assert (By : bpow radix2 (-1000) <= Rabs (val y)). { rewrite Rabs_left1 by lra. apply Rle_trans with (bpow radix2 (-3)); [apply bpow_le; lia|simpl; lra]. }
  destruct (faddeeva_imaginary_axis P x y (fin_nonnan _ Fy) By Fx Vx) as (r & Er & Ew).
  rewrite (val_fin _ Fy) in *. destruct (erfcx_acc_neg E HE P y HX Fy Hy) as (r' & Er' & Fr & Br). rewrite Er in Er'. injection Er' as <-.
  destruct ex_axes as (_ & _ & F0 & V0). exists r, (f64_lit 0.0). rewrite (val_fin _ Fr), (val_fin _ F0). auto.
Qed.

Lemma ex_faddeeva_axes : (exists D, dawson_integral D 1) /\ (exists D, dawson_integral D (1 / 5)) /\ (exists E, erfc_function E)
  /\ plausible_exp (p_exp (ideal true false)) /\ accurate_exp (p_exp (ideal true false))
  /\ (finite (f64_lit 0.0) /\ Binary.B2R (f64_lit 0.0) = 0)
  /\ (finite (f64_lit 0.125) /\ bpow radix2 (-1000) <= Rabs (val (f64_lit 0.125)) < 1 / 5)
  /\ (finite (f64_lit 2.5) /\ bpow radix2 (-1000) <= Rabs (val (f64_lit 2.5)) <= 26)
  /\ (finite (f64_lit (-2.5)) /\ - 26.6 <= val (f64_lit (-2.5)) <= - (1 / 8)).
Proof.
  destruct ex_dawson_sign as ((HP & D1) & _). destruct ex_dawson_small as (D2 & _). destruct ex_axes as (_ & _ & F0 & V0).
  lit_facts 0.125%dec 1%Z 3%Z HF1 HV1. lit_facts 2.5%dec 5%Z 1%Z HF2 HV2. lit_facts (-2.5)%dec (-5)%Z 1%Z HF3 HV3.
  assert (W1 : val (f64_lit 0.125) = 1 / 8) by (rewrite HV1; simpl (2 ^ 3)%Z; lra). assert (W2 : val (f64_lit 2.5) = 5 / 2) by (rewrite HV2; simpl (2 ^ 1)%Z; lra).
  assert (W3 : val (f64_lit (-2.5)) = -5 / 2) by (rewrite HV3; simpl (2 ^ 1)%Z; lra).
  assert (T : bpow radix2 (-1000) <= 1 / 8) by (apply Rle_trans with (bpow radix2 (-3)); [apply bpow_le; lia|simpl; lra]).
  split; [exact D1|]. split; [exact D2|]. split; [exact erfc_exists|]. split; [exact HP|]. split; [apply ErfcxAcc.ideal_exp_accurate|].
  rewrite W1, W2, W3, !Rabs_pos_eq by lra. repeat split; try assumption; lra.
Qed.
