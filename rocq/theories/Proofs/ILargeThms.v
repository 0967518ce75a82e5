(** * Statements about In beyond 15 *)

From Coq Require Import ZArith Reals Bool Lra Lia List.
From Flocq Require Import Core IEEE754.BinarySingleNaN IEEE754.Binary IEEE754.Bits.
From Verif.Model Require Import Base Arith BesselTables Utils Bessel.
From Verif.Float Require Import Bits64 Ieee Exact Platforms.
From Verif.Spec Require Import F64Spec Outcome BesselSpec Bessel2Spec LibmSpec.
From Verif.Proofs Require Import F64 F64Ops Lits Ext FlErr GammaAcc GserAcc PosHorner BesselAcc BesselReal BesselLim InThms BesselPanics KLarge IRat ILarge ErfcxAcc ExpBounds BetaiAcc EulerGamma.
Import ListNotations.
Open Scope R_scope.
Local Notation exp := Rtrigo_def.exp. Local Notation sqrt := R_sqrt.sqrt.

Lemma I0_even : forall x v, is_I 0 x v -> v = BI (Rabs x) 0.
Proof.
  intros x v H. assert (E : is_I 0 (Rabs x) v).
  { unfold is_I, Rabs in *. destruct (Rcase_abs x); [|exact H]. intros e He. destruct (H e He) as [N HN]. exists N. intros n Hn. specialize (HN n Hn).
    rewrite (sum_eq (bterm 1 0 (- x)) (bterm 1 0 x)); [exact HN|]. intros i _. unfold bterm. rewrite !Nat.add_0_r, !pow_mult. replace ((- x / 2) ^ 2) with ((x / 2) ^ 2) by field. reflexivity. }
  exact (BI_unique 0 _ v E).
Qed.

Lemma mr_rel : forall e a b, mr e a b -> e <= 1 / 1000 -> 0 < b -> Rabs (a - b) <= 2 * e * b.
Proof. intros e a b H He Hb. pose proof (mr_t0 _ _ _ H) as E0. pose proof (mr_near _ _ _ H ltac:(lra) Hb) as N. apply Rabs_le. lra. Qed.

Lemma In0_large : forall (P : platform) (x : f64) (v : R), accurate_exp (p_exp P) -> finite x -> 15 <= Rabs (Binary.B2R x) <= 709 -> is_I 0 (Binary.B2R x) v ->
  exists r, @Bessel.In (ieee P) 0 x = Ok r /\ finite r /\ Rabs (Binary.B2R r - v) <= 4 / 10 ^ 14 * v.
Proof.
  intros P x v EX Fx Hx Hv. rewrite <- (val_fin x Fx) in *. rewrite (I0_even _ _ Hv). destruct (i0_large P EX x Fx Hx) as [F M]. exists (@i0 (ieee P) x). split; [reflexivity|]. split; [exact F|].
  rewrite <- (val_fin _ F). pose proof (mr_rel _ _ _ M ltac:(lra) (BI_pos (Rabs (val x)) 0 ltac:(lra))) as R. eapply Rle_trans; [exact R|]. pose proof (BI_pos (Rabs (val x)) 0 ltac:(lra)). lra.
Qed.
Lemma In1_large : forall (P : platform) (x : f64) (v : R), accurate_exp (p_exp P) -> finite x -> 15 <= Binary.B2R x <= 709 -> is_I 1 (Binary.B2R x) v ->
  exists r, @Bessel.In (ieee P) 1 x = Ok r /\ finite r /\ Rabs (Binary.B2R r - v) <= 6 / 10 ^ 14 * v.
Proof.
  intros P x v EX Fx Hx Hv. rewrite <- (val_fin x Fx) in *. rewrite (BI_unique 1 _ _ Hv). destruct (i1_large P EX x Fx Hx) as [F M]. exists (@i1 (ieee P) x). split; [reflexivity|]. split; [exact F|].
  rewrite <- (val_fin _ F). pose proof (mr_rel _ _ _ M ltac:(lra) (BI_pos (val x) 1 ltac:(lra))) as R. eapply Rle_trans; [exact R|]. pose proof (BI_pos (val x) 1 ltac:(lra)). lra.
Qed.

(** ** the downward recurrence at 700 *)
Definition obs3 (r : res (ended (f64 * f64 * f64) Empty_set)) : option (full_float * full_float * full_float) :=
  match r with Ok (Exhausted (a, b, c)) => Some (Binary.B2FF a, Binary.B2FF b, Binary.B2FF c) | _ => None end.
Lemma obs3_ok : forall r a b c, obs3 r = Some (Binary.B2FF a, Binary.B2FF b, Binary.B2FF c) -> r = Ok (Exhausted (a, b, c)).
Proof.
  intros [[[[a' b'] c']|s|r]|p|] a b c H; try discriminate. cbn [obs3] in H. injection H as H1 H2 H3. do 2 f_equal. f_equal; [f_equal|]; apply Binary.B2FF_inj; assumption.
Qed.

Definition m700p : f64 := @B754_finite 53 1024 false 4574597463553747 (-50) eq_refl.
Definition m700b : f64 := @B754_finite 53 1024 false 8875148854505056 (-51) eq_refl.
Definition m700a : f64 := @B754_finite 53 1024 false 4549314582703546 (-50) eq_refl.

Lemma loop700 : forall P, for_loop (rev (range 1 54)) (@in_down_body (ieee P) (f64_div P (f64_lit 2.0) (f64_abs (f64_lit 700.0))) 3) (f64_lit 0.0, f64_lit 1.0, f64_lit 0.0) = Ok (Exhausted (m700p, m700b, m700a)).
Proof. intros P. apply obs3_ok. vm_compute. reflexivity. Qed.

Lemma In700 : forall P, @Bessel.In (ieee P) 3 (f64_lit 700.0) = Ok (f64_mul P m700a (f64_div P (@i0 (ieee P) (f64_lit 700.0)) m700b)).
Proof.
  intros P. unfold Bessel.In. change (3 =? 0)%Z with false. change (3 =? 1)%Z with false. cbv iota.
  assert (G : f64_le (@powi2 (ieee P) (f64_lit 700.0)) (f64_mul P (f64_lit 8.0) (@min_positive (ieee P))) = false) by (vm_compute; reflexivity).
  ieee_simpl. ieee_simpl_in G. rewrite G.
  assert (A1 : forall c, arith_u c 32 (3 + @as_u32 (ieee P) (f64_sqrt P (f64_mul P (f64_lit 200.0) (f64_of_Z 3)))) = Ok 27%Z) by (intros c; vm_compute; reflexivity).
  ieee_simpl_in A1. rewrite A1. cbn [bind]. change (arith_u (p_checks P) 32 (2 * 27)) with (@Ok Z 54%Z). cbn [bind].
  pose proof (loop700 P) as L. ieee_simpl_in L. rewrite L. cbn [bind].
  assert (N : f64_lt (f64_lit 700.0) (f64_lit 0.0) = false) by (vm_compute; reflexivity). rewrite N. reflexivity.
Qed.

Lemma In_too_large : forall P : platform, accurate_exp (p_exp P) ->
  exists r, @Bessel.In (ieee P) 3 (f64_lit 700.0) = Ok r /\ finite r /\ forall v, is_I 3 700 v -> 1025 / 1000 * v < Binary.B2R r.
Proof.
  intros P EX. rewrite In700. lit_facts 700.0%dec 700%Z 0%Z FX VX. assert (V : val (f64_lit 700.0) = 700) by lra. clear VX.
  destruct (i0_large P EX (f64_lit 700.0) FX) as [F0 M0]; [rewrite V, Rabs_pos_eq; lra|]. rewrite V, (Rabs_pos_eq 700) in M0 by lra.
  set (y := @i0 (ieee P) (f64_lit 700.0)) in *. clearbody y. pose proof (BI_pos 700 0 ltac:(lra)) as B0.
  assert (FA : fin m700a) by reflexivity. assert (FB : fin m700b) by reflexivity.
  assert (VA : val m700a = 4549314582703546 / 2 ^ 50) by (rewrite (val_fin _ FA); unfold m700a, Binary.B2R, F2R; cbn [Fnum Fexp SpecFloat.cond_Zopp]; rewrite bpow_powerRZ; reflexivity).
  assert (VB : val m700b = 8875148854505056 / 2 ^ 51) by (rewrite (val_fin _ FB); unfold m700b, Binary.B2R, F2R; cbn [Fnum Fexp SpecFloat.cond_Zopp]; rewrite bpow_powerRZ; reflexivity).
  set (A := m700a) in *. set (B := m700b) in *. clearbody A B.
  assert (BL : 1 <= BI 700 0 <= bpow radix2 1015).
  { split; [pose proof (BI_ge 700 0 ltac:(lra)) as G; simpl in G; lra|]. pose proof (i0s_le 700 ltac:(lra)) as U. unfold i0s in U. pose proof (sqrt_range 700 ltac:(lra)) as S.
    assert (E : exp 700 <= bpow radix2 1015). { rewrite <- (exp_ln (bpow radix2 1015)) by apply bpow_gt_0. apply exp_mono. rewrite ln_bpow_eq. pose proof ln2_low. lra. }
    replace (exp (-1 * 700)) with (/ exp 700) in U by (rewrite <- exp_Ropp; f_equal; ring). pose proof (exp_pos 700) as EP. set (w := exp 700) in *. clearbody w. set (q := sqrt 700) in *. clearbody q. set (b := BI 700 0) in *. clearbody b.
    assert (q * / w * b * w = q * b) by (field; lra). assert (q * / w * b * w <= 40241 / 10 ^ 5 * w) by (apply Rmult_le_compat_r; lra). assert (3 * b <= q * b) by (apply Rmult_le_compat_r; lra). lra. }
  assert (M32 : BI 700 3 <= BI 700 0) by (eapply Rle_trans; [apply BI_mono; lra|]; eapply Rle_trans; [apply BI_mono; lra|]; apply BI_mono; lra).
  assert (B15 : bpow radix2 1015 * 2 ^ 8 = bpow radix2 1023) by (replace (2 ^ 8) with (bpow radix2 8) by (simpl; lra); rewrite <- bpow_plus; reflexivity). pose proof (bpow_gt_0 radix2 1015) as BP.
  assert (BM : bpow radix2 (-1022) <= / 1000) by (apply Rle_trans with (bpow radix2 (-10)); [apply bpow_le; lia|simpl; lra]).
  pose proof (mr_near _ _ _ M0 ltac:(lra) ltac:(lra)) as N0. set (b := BI 700 0) in *. clearbody b.
  assert (R0 : 25371 / 100000 * b <= val y / val B <= 2538 / 10000 * b). { replace (val y / val B) with (val y * (2 ^ 51 / 8875148854505056)) by (rewrite VB; field). lra. }
  destruct (div_mr P y B F0 FB ltac:(lra)) as [F1 M1]; [rewrite Rabs_pos_eq by lra; lra|]. pose proof (mr_near _ _ _ M1 ltac:(unfold vv; lra) ltac:(lra)) as N1. set (q := f64_div P y B) in *. clearbody q. unfold vv in N1.
  assert (R1 : 10251 / 10000 * b <= val A * val q <= 2 * b). { rewrite VA. lra. }
  destruct (mul_mr P A q FA F1) as [F2 M2]; [rewrite Rabs_pos_eq by lra; lra|]. pose proof (mr_near _ _ _ M2 ltac:(unfold vv; lra) ltac:(lra)) as N2. unfold vv in N2.
  eexists. split; [reflexivity|]. split; [exact F2|]. intros v Hv. rewrite (BI_unique 3 _ _ Hv). rewrite <- (val_fin _ F2). lra.
Qed.

Lemma In_large_refuted : exists P n x, accurate_exp (p_exp P) /\ (2 <= n)%nat /\ finite x /\ 15 <= Binary.B2R x <= 709 /\
  forall v, is_I n (Binary.B2R x) v -> exists r, @Bessel.In (ieee P) (Z.of_nat n) x = Ok r /\ finite r /\ 25 / 1000 * v < Rabs (Binary.B2R r - v).
Proof.
  exists (ideal true false), 3%nat, (f64_lit 700.0). split; [apply ideal_exp_accurate|]. split; [lia|]. lit_facts 700.0%dec 700%Z 0%Z FX VX.
  assert (V : Binary.B2R (f64_lit 700.0) = 700) by (rewrite <- (val_fin _ FX); lra). split; [exact FX|]. rewrite V. split; [lra|]. intros v Hv.
  destruct (In_too_large _ (ideal_exp_accurate true false)) as (r & E & F & H). exists r. split; [exact E|]. split; [exact F|]. specialize (H v Hv).
  rewrite (BI_unique 3 _ _ Hv) in *. pose proof (BI_pos 700 3 ltac:(lra)). rewrite Rabs_pos_eq; lra.
Qed.

Lemma ex_I_large : accurate_exp (p_exp (ideal true false)) /\ (finite (f64_lit 700.0) /\ Binary.B2R (f64_lit 700.0) = 700) /\ 15 <= Rabs 700 <= 709 /\ forall n, exists v, is_I n 700 v /\ 0 < v.
Proof.
  lit_facts 700.0%dec 700%Z 0%Z HF HV. assert (V : Binary.B2R (f64_lit 700.0) = 700) by (rewrite <- (val_fin _ HF); lra).
  split; [apply ideal_exp_accurate|]. split; [split; [exact HF|exact V]|]. split; [rewrite Rabs_pos_eq; lra|]. intros n. exists (BI 700 n). split; [apply BI_is|apply BI_pos; lra].
Qed.
