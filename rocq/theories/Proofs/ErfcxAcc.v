(** * Accuracy of erfcx *)

From Coq Require Import ZArith Reals Bool Lra Lia List.
From Flocq Require Import Core IEEE754.BinarySingleNaN IEEE754.Binary IEEE754.Bits.
From Verif.Model Require Import Base Arith Utils Error.
From Verif.Float Require Import Bits64 Ieee Exact Platforms.
From Verif.Spec Require Import F64Spec Outcome ErfSpec LibmSpec.
From Verif.Proofs Require Import F64 F64Ops Lits Ext Ideal Boundaries Poly PolyZ Horner HornerErr PiBounds ErfcODE ErfcExists ExpBounds
  ErfcxSafe ErfcxPos ErfcxThms ErfcxChain ErfcxTable ErfcxMac ErfcxAsym.
Import ListNotations.
Open Scope R_scope.

Lemma lit_23_2 : 23 <= val (f64_lit 23.2).
Proof.
  destruct (lit_spec 23.2) as [N V]. rewrite V.
  apply (rs_ge 23); [apply (fmt_IZR 23); lia|pose proof Om_big; lra|].
  unfold R_of_dec; cbn [dman dexp]; rewrite powerRZ_10; simpl; lra.
Qed.

Section Acc.
  Context (E : R -> R) (HE : erfc_function E).
  Notation w := (scaled_erfc E).

  Lemma E_reflect : forall x, E (- x) = 2 * E 0 - E x.
  Proof.
    intros x. destruct HE as [D _].
    apply (antider_unique (fun t => E (- t)) (fun t => 2 * E 0 - E t) (fun t => K * Rtrigo_def.exp (- (t * t))) (Rabs x)).
    - intros t _. replace (K * Rtrigo_def.exp (- (t * t))) with ((- K * Rtrigo_def.exp (- (- t * - t))) * (- 1)).
      + apply (derivable_pt_lim_comp (fun t => - t) E); [|apply D].
        apply (derivable_pt_lim_opp id). apply derivable_pt_lim_id.
      + replace (- t * - t) with (t * t) by ring. ring.
    - intros t _. replace (K * Rtrigo_def.exp (- (t * t))) with (0 - (- K * Rtrigo_def.exp (- (t * t)))) by ring.
      apply (derivable_pt_lim_minus (fun _ => 2 * E 0) E); [apply derivable_pt_lim_const|apply D].
    - rewrite Ropp_0. ring.
    - lra.
  Qed.

  Lemma E_decr : forall a b, a <= b -> E b <= E a.
  Proof.
    intros a b Hab. destruct HE as [D _].
    enough (- E a <= - E b) by lra.
    apply (mono_on (fun t => - E t) (fun t => K * Rtrigo_def.exp (- (t * t))) a b Hab).
    - intros t _. replace (K * Rtrigo_def.exp (- (t * t))) with (- (- K * Rtrigo_def.exp (- (t * t)))) by ring.
      apply (derivable_pt_lim_opp E), D.
    - intros t _. pose proof K_pos. pose proof (exp_pos (- (t * t))). apply Rmult_le_pos; lra.
  Qed.

  Lemma w_0_eq : w 0 = E 0.
  Proof. unfold scaled_erfc. rewrite Rmult_0_l, exp_0. ring. Qed.

  Lemma E0_near : Rabs (E 0 - 1) <= 75 / 10 ^ 16.
  Proof. rewrite <- w_0_eq. apply w_0, HE. Qed.

  (** at negative arguments *)
  Lemma w_reflect : forall a, w (- a) = 2 * E 0 * Rtrigo_def.exp (a * a) - w a.
  Proof. intros a. unfold scaled_erfc. replace (- a * - a) with (a * a) by ring. rewrite E_reflect. ring. Qed.

  Lemma w_pos_all : forall x, 0 < w x.
  Proof.
    intros x. destruct (Rlt_or_le 0 x) as [H|H]; [apply w_pos; assumption|].
    unfold scaled_erfc. apply Rmult_lt_0_compat; [apply exp_pos|].
    pose proof (E_decr x 0 H). pose proof E0_near as N. apply Rabs_le_inv in N. lra.
  Qed.

  (** the nonnegative axis and a little more *)
  Theorem erfcx_acc : forall P (x : f64), fin x -> - (1 / 8) < Binary.B2R x ->
    exists r, @erfcx (ieee P) x = Ok r /\ fin r /\
    Rabs (Binary.B2R r - w (Binary.B2R x)) <= / 2 ^ 46 * w (Binary.B2R x) + bpow radix2 (-1075).
  Proof.
    intros P x Fx Hx. destruct val_125 as [F8 V8]. destruct val_12 as [F12 V12].
    pose proof (fin_nonnan _ Fx) as Nx. pose proof (val_fin x Fx) as Vx.
    pose proof (bpow_gt_0 radix2 (-1075)) as T. pose proof (w_pos_all (Binary.B2R x)) as WP.
    unfold erfcx. ieee_simpl.
    destruct (f64_lt (f64_abs x) (f64_lit 0.125)) eqn:C1.
    { apply lt_true in C1. destruct C1 as (_ & _ & C1). rewrite val_abs, V8, Vx in C1.
      destruct (mac_erfcx E HE P x Fx ltac:(lra)) as [Fr Br]. eexists. split; [reflexivity|]. split; [exact Fr|]. lra. }
    apply lt_false in C1; [|rewrite nan_abs; exact Nx|apply fin_nonnan; exact F8]. rewrite val_abs, V8, Vx in C1.
    assert (X8 : 1 / 8 <= Binary.B2R x) by (unfold Rabs in C1; destruct Rcase_abs in C1; lra).
    rewrite (proj2 (lt_false x (f64_lit 0.0) Nx nn_0)) by (rewrite val_0, Vx; lra).
    destruct (f64_le x (f64_lit 12.0)) eqn:C2.
    { apply le_true in C2. destruct C2 as (_ & _ & C2). rewrite V12, Vx in C2.
      destruct (table_erfcx E HE P x Fx ltac:(lra)) as (r & Er & Fr & Br).
      exists r. split; [exact Er|]. split; [exact Fr|]. lra. }
    apply le_false in C2; [|exact Nx|apply fin_nonnan; exact F12]. rewrite V12, Vx in C2.
    assert (Wk : / 2 ^ 48 * w (Binary.B2R x) <= / 2 ^ 46 * w (Binary.B2R x)) by (apply Rmult_le_compat_r; lra).
    destruct (f64_lt x (f64_lit 150.0)) eqn:C3.
    - apply lt_true in C3. destruct C3 as (_ & _ & C3). rewrite (proj2 lit_150), Vx in C3.
      destruct (f64_lt x (f64_lit 23.2)) eqn:C4.
      + destruct (asym11_acc E HE P x Fx ltac:(lra)) as [Fr Br]. eexists. split; [reflexivity|]. split; [exact Fr|].
        eapply Rle_trans; [exact Br|]. lra.
      + apply lt_false in C4; [|exact Nx|apply fin_nonnan, (proj1 (lit_bound 23.2 ltac:(vm_compute; discriminate)))].
        pose proof lit_23_2. rewrite Vx in C4.
        destruct (asym7_acc E HE P x Fx ltac:(lra)) as [Fr Br]. eexists. split; [reflexivity|]. split; [exact Fr|].
        eapply Rle_trans; [exact Br|]. lra.
    - apply lt_false in C3; [|exact Nx|apply fin_nonnan, lit_150]. rewrite (proj2 lit_150), Vx in C3.
      destruct (f64_lt x (f64_lit 6.9e7)) eqn:C4.
      + apply lt_true in C4. destruct C4 as (_ & _ & C4). rewrite (proj2 lit_69e6), Vx in C4.
        destruct (asym4_acc E HE P x Fx ltac:(lra)) as [Fr Br]. eexists. split; [reflexivity|]. split; [exact Fr|].
        eapply Rle_trans; [exact Br|]. lra.
      + apply lt_false in C4; [|exact Nx|apply fin_nonnan, lit_69e6]. rewrite (proj2 lit_69e6), Vx in C4.
        destruct (asym_last E HE P x Fx ltac:(lra)) as [Fr Br]. unfold INV_SQRT_PI. ieee_simpl.
        eexists. split; [reflexivity|]. split; [exact Fr|]. eapply Rle_trans; [exact Br|]. lra.
  Qed.

  Lemma lit_26_7_ge : 26.6 <= val (f64_lit 26.7).
  Proof.
    destruct (lit_spec 26.7) as [N V]. rewrite V. apply Rle_trans with (213 / 8); [lra|].
    apply (rs_ge (213 / 8)).
    - replace (213 / 8) with (IZR 213 * bpow radix2 (-3)) by (simpl; lra). apply fmt_F2R; lia.
    - pose proof Om_big; lra.
    - unfold R_of_dec; cbn [dman dexp]; rewrite powerRZ_10; simpl; lra.
  Qed.

  (** twice the exponential of the rounded square *)
  Lemma two_exp : forall P (x : f64) m, accurate_exp (p_exp P) -> fin x -> Binary.B2R x * Binary.B2R x <= IZR m -> (1 <= m <= 708)%Z ->
    let p := f64_mul P (f64_lit 2.0) (p_exp P (f64_mul P x x)) in
    let A := Rtrigo_def.exp (Binary.B2R x * Binary.B2R x) in
    nonnan (f64_mul P x x) /\ fin p /\
    Rabs (Binary.B2R p - 2 * A) <= 2 * (/ 2 ^ 49 + (IZR m + 1) * / 2 ^ 53) * A.
  Proof.
    intros P x m HX Fx Hm Mm p A.
    assert (Mr : 1 <= IZR m <= 708) by (split; apply IZR_le; lia).
    set (X := Binary.B2R x) in *. assert (X0 : 0 <= X * X) by (apply Rle_0_sqr).
    pose proof (mul_spec P x x Fx Fx) as M. fold X in M.
    pose proof (rnd_abs_err (X * X)) as Re. rewrite (Rabs_pos_eq (X * X)) in Re by lra.
    assert (B53 : bpow radix2 (-53) = / 2 ^ 53) by (simpl; lra). rewrite B53 in Re.
    assert (T : bpow radix2 (-1075) <= / 2 ^ 70).
    { replace (/ 2 ^ 70) with (bpow radix2 (-70)) by (simpl; lra). apply bpow_le. lia. }
    assert (Re' : Rabs (rnd (X * X) - X * X) <= (IZR m + / 2 ^ 10) * / 2 ^ 53).
    { eapply Rle_trans; [exact Re|]. assert (/ 2 ^ 53 * (X * X) <= / 2 ^ 53 * IZR m) by (apply Rmult_le_compat_l; lra). lra. }
    set (d := (IZR m + / 2 ^ 10) * / 2 ^ 53) in *.
    assert (Dd : 0 <= d <= / 2 ^ 43) by (unfold d; lra).
    destruct (rounds_small _ _ M) as [Fs Vs].
    { pose proof Om_big. apply Rabs_le_inv in Re'. apply Rabs_lt. lra. }
    set (s := f64_mul P x x) in *. split; [apply fin_nonnan; exact Fs|].
    assert (Sr : -700 <= Binary.B2R s <= 709) by (rewrite Vs; apply Rabs_le_inv in Re'; lra).
    destruct (HX s (fin_nonnan _ Fs)) as [Ne Ve]; [rewrite (val_fin s Fs); exact Sr|]. rewrite (val_fin s Fs) in Ve.
    set (e := p_exp P s) in *.
    pose proof (exp_near (X * X) (Binary.B2R s) d ltac:(lra) ltac:(rewrite Vs; exact Re')) as En.
    assert (A1 : 1 <= A) by (rewrite <- exp_0; apply exp_mono; exact X0).
    fold A in En. set (Es := Rtrigo_def.exp (Binary.B2R s)) in *.
    assert (Esb : Es <= bpow radix2 1023).
    { eapply Rle_trans; [apply exp_mono, Sr|]. apply exp_709. }
    assert (A708 : A <= bpow radix2 1023 / 2).
    { assert (Q : Rtrigo_def.exp 708 * 2 <= bpow radix2 1023).
      { eapply Rle_trans; [|apply exp_709]. replace 709 with (708 + 1) by ring. rewrite exp_plus.
        apply Rmult_le_compat_l; [left; apply exp_pos|]. pose proof (exp_ineq1_le 1). lra. }
      assert (A <= Rtrigo_def.exp 708) by (apply exp_mono; lra). lra. }
    assert (DA : (d + 2 * (d * d)) * A <= (IZR m + / 2 ^ 8) * / 2 ^ 53 * A).
    { apply Rmult_le_compat_r; [lra|]. assert (d * d <= / 2 ^ 43 * / 2 ^ 43) by (apply Rmult_le_compat; lra). unfold d at 1. lra. }
    assert (MA : (IZR m + / 2 ^ 8) * / 2 ^ 53 * A <= (709 * / 2 ^ 53) * A) by (apply Rmult_le_compat_r; lra).
    assert (B1024 : bpow radix2 1024 = 2 * bpow radix2 1023) by (change 1024%Z with (1023 + 1)%Z; apply bpow_plus_1).
    assert (B50 : bpow radix2 (-50) = / 2 ^ 50) by (simpl; lra). rewrite B50 in Ve.
    apply Rabs_le_inv in En, Ve.
    assert (Fe : fin e).
    { apply fin_iff_val; [exact Ne|]. apply Rabs_lt. unfold Om. rewrite B1024. lra. }
    rewrite (val_fin e Fe) in Ve. set (ev := Binary.B2R e) in *.
    assert (V2 : Binary.B2R (f64_lit 2.0) = 2) by (rewrite <- (val_fin _ fin_2); exact val_2).
    pose proof (mul_spec P (f64_lit 2.0) e fin_2 Fe) as Mp. rewrite V2 in Mp. fold ev p in Mp.
    assert (Ev : Rabs (ev - A) <= (/ 2 ^ 50 + / 2 ^ 55 + (IZR m + / 2 ^ 8) * / 2 ^ 53) * A).
    { apply Rabs_le. lra. }
    apply Rabs_le_inv in Ev.
    assert (MA2 : (/ 2 ^ 50 + / 2 ^ 55 + (IZR m + / 2 ^ 8) * / 2 ^ 53) * A <= (720 * / 2 ^ 53) * A) by (apply Rmult_le_compat_r; lra).
    assert (Evp : 0 < ev) by lra.
    (* doubling is exact *)
    assert (Rp : rnd (2 * ev) = 2 * ev).
    { apply rnd_fmt. replace (2 * ev) with (ev * bpow radix2 1) by (simpl; lra). apply fmt_scale. lia. }
    destruct (rounds_small _ _ Mp) as [Fp Vp].
    { rewrite Rp. apply Rabs_lt. unfold Om. rewrite B1024. lra. }
    split; [exact Fp|]. rewrite Vp, Rp. apply Rabs_le. lra.
  Qed.

  Theorem erfcx_acc_neg : forall P (x : f64), accurate_exp (p_exp P) -> fin x -> - 26.6 <= Binary.B2R x <= - (1 / 8) ->
    exists r, @erfcx (ieee P) x = Ok r /\ fin r /\
    Rabs (Binary.B2R r - w (Binary.B2R x)) <= / 2 ^ 43 * w (Binary.B2R x).
  Proof.
    intros P x HX Fx Hx. destruct val_125 as [F8 V8]. destruct val_6_1 as [F6 V6].
    pose proof (fin_nonnan _ Fx) as Nx. pose proof (val_fin x Fx) as Vx. pose proof lit_26_7_ge as V26.
    unfold erfcx. ieee_simpl.
    rewrite (proj2 (lt_false (f64_abs x) (f64_lit 0.125) ltac:(rewrite nan_abs; exact Nx) (fin_nonnan _ F8)))
      by (rewrite val_abs, V8, Vx, Rabs_left1; lra).
    rewrite (proj2 (lt_true x (f64_lit 0.0))) by (rewrite val_0, Vx; split; [exact Nx|split; [exact nn_0|lra]]).
    rewrite (proj2 (lt_false x (f64_neg (f64_lit 26.7)) Nx ltac:(rewrite nan_neg; apply fin_nonnan, lit_26_7)))
      by (rewrite val_neg, Vx; lra).
    pose proof (w_reflect (- Binary.B2R x)) as Wr. rewrite Ropp_involutive in Wr.
    replace (- Binary.B2R x * - Binary.B2R x) with (Binary.B2R x * Binary.B2R x) in Wr by ring.
    pose proof E0_near as E0. apply Rabs_le_inv in E0.
    pose proof (w_pos_all (- Binary.B2R x)) as Wp.
    destruct (f64_lt x (f64_neg (f64_lit 6.1))) eqn:C.
    - apply lt_true in C. destruct C as (_ & _ & C). rewrite val_neg, Vx in C.
      destruct (two_exp P x 708 HX Fx) as (Ns & Fp & Bp); [|lia|].
      { replace (Binary.B2R x * Binary.B2R x) with (- Binary.B2R x * - Binary.B2R x) by ring.
        apply Rle_trans with (26.6 * 26.6); [apply Rmult_le_compat; lra|lra]. }
      rewrite (libm_nonnan P (p_exp P)) by exact Ns.
      eexists. split; [reflexivity|]. split; [exact Fp|].
      set (p := Binary.B2R (f64_mul P (f64_lit 2.0) (p_exp P (f64_mul P x x)))) in *.
      pose proof (asy_side E HE 1 (- Binary.B2R x) ltac:(lra)) as As.
      replace ((-1) ^ 1 * (w (- Binary.B2R x) - asy 1 (- Binary.B2R x))) with (asy 1 (- Binary.B2R x) - w (- Binary.B2R x)) in As by ring.
      assert (Wa : w (- Binary.B2R x) <= 1).
      { apply Rle_trans with (asy 1 (- Binary.B2R x)); [lra|]. cbn [asy ac]. pose proof isp_range as Is.
        assert (/ - Binary.B2R x <= 1) by (rewrite <- Rinv_1; apply Rinv_le_contravar; lra).
        assert (0 < / - Binary.B2R x) by (apply Rinv_0_lt_compat; lra).
        cbn [Nat.mul Nat.add pow]. apply Rle_trans with (0 + 1 * 1); [|lra]. apply Rplus_le_compat_l. apply Rmult_le_compat; lra. }
      set (A := Rtrigo_def.exp (Binary.B2R x * Binary.B2R x)) in *.
      assert (Abig : bpow radix2 48 <= A).
      { eapply Rle_trans; [apply exp_36|]. apply exp_mono. replace (Binary.B2R x * Binary.B2R x) with (- Binary.B2R x * - Binary.B2R x) by ring.
        apply Rle_trans with (6 * 6); [lra|apply Rmult_le_compat; lra]. }
      change (bpow radix2 48) with 281474976710656 in Abig.
      set (W := w (Binary.B2R x)) in *. set (wa := w (- Binary.B2R x)) in *.
      assert (EA : (1 - 75 / 10 ^ 16) * A <= E 0 * A <= (1 + 75 / 10 ^ 16) * A) by (split; apply Rmult_le_compat_r; lra).
      apply Rabs_le_inv in Bp. apply Rabs_le. lra.
    - apply lt_false in C; [|exact Nx|rewrite nan_neg; apply fin_nonnan, F6]. rewrite val_neg, Vx in C.
      destruct (two_exp P x 49 HX Fx) as (Ns & Fp & Bp); [|lia|].
      { replace (Binary.B2R x * Binary.B2R x) with (- Binary.B2R x * - Binary.B2R x) by ring.
        apply Rle_trans with (7 * 7); [apply Rmult_le_compat; lra|lra]. }
      rewrite (libm_nonnan P (p_exp P)) by exact Ns.
      destruct (table_erfcx E HE P (f64_neg x)) as (c & Ec & Fc & Bc).
      { rewrite fin_neg. exact Fx. }
      { rewrite B2R_neg. lra. }
      rewrite Ec. cbn [bind]. eexists. split; [reflexivity|].
      rewrite B2R_neg in Bc.
      set (p := f64_mul P (f64_lit 2.0) (p_exp P (f64_mul P x x))) in *.
      assert (WA : w (- Binary.B2R x) <= E 0 * Rtrigo_def.exp (Binary.B2R x * Binary.B2R x)).
      { unfold scaled_erfc. replace (- Binary.B2R x * - Binary.B2R x) with (Binary.B2R x * Binary.B2R x) by ring.
        rewrite Rmult_comm. apply Rmult_le_compat_r; [left; apply exp_pos|]. apply E_decr. lra. }
      set (A := Rtrigo_def.exp (Binary.B2R x * Binary.B2R x)) in *.
      assert (A1 : 1 <= A) by (rewrite <- exp_0; apply exp_mono; apply Rle_0_sqr).
      set (W := w (Binary.B2R x)) in *. set (wa := w (- Binary.B2R x)) in *.
      assert (EA : (1 - 75 / 10 ^ 16) * A <= E 0 * A <= (1 + 75 / 10 ^ 16) * A) by (split; apply Rmult_le_compat_r; lra).
      pose proof (sub_spec P p c Fp Fc) as S. apply Rabs_le_inv in Bp, Bc.
      set (pv := Binary.B2R p) in *. set (cv := Binary.B2R c) in *.
      assert (D : 0 <= pv - cv <= 3 * A) by lra.
      pose proof (rnd_abs_err (pv - cv)) as Re. rewrite (Rabs_pos_eq (pv - cv)) in Re by lra.
      assert (B53 : bpow radix2 (-53) = / 2 ^ 53) by (simpl; lra). rewrite B53 in Re.
      assert (T : bpow radix2 (-1075) <= / 2 ^ 70).
      { replace (/ 2 ^ 70) with (bpow radix2 (-70)) by (simpl; lra). apply bpow_le. lia. }
      destruct (rounds_small _ _ S) as [Fr Vr].
      { rewrite <- rnd_abs, Rabs_pos_eq by lra. apply Rle_lt_trans with pv; [|].
        - apply rnd_le_fmt; [apply fmt_B2R|]. lra.
        - pose proof (B2R_lt_Om p) as B. fold pv in B. apply Rabs_lt_inv in B. lra. }
      split; [exact Fr|]. rewrite Vr. apply Rabs_le_inv in Re. apply Rabs_le. lra.
  Qed.
End Acc.

Lemma ideal_exp_accurate : forall c f, accurate_exp (p_exp (ideal c f)).
Proof.
  intros c f t N V. cbn [p_exp ideal].
  assert (F : fin t) by (apply fin_iff_val; [exact N|apply Rabs_lt; pose proof Om_big; lra]).
  rewrite (val_fin t F) in *. destruct (ideal_exp_finite t F) as [NE VE]. split; [exact NE|]. rewrite VE.
  set (e := Rtrigo_def.exp (Binary.B2R t)).
  assert (E0 : 0 < e) by apply exp_pos.
  assert (E1 : e <= bpow radix2 1023) by (eapply Rle_trans; [apply exp_mono, V|apply exp_709]).
  assert (E2 : bpow radix2 (-1022) <= e).
  { apply Rle_trans with (/ Rtrigo_def.exp 700).
    - replace (bpow radix2 (-1022)) with (/ bpow radix2 1022) by (rewrite <- bpow_opp; reflexivity).
      apply Rinv_le_contravar; [apply exp_pos|].
      assert (Q : Rtrigo_def.exp 700 * 2 <= bpow radix2 1023).
      { eapply Rle_trans; [|apply exp_709]. apply Rle_trans with (Rtrigo_def.exp (700 + 1)); [|apply exp_mono; lra]. rewrite exp_plus.
        apply Rmult_le_compat_l; [left; apply exp_pos|]. pose proof (exp_ineq1_le 1). lra. }
      assert (B : bpow radix2 1023 = 2 * bpow radix2 1022) by (change 1023%Z with (1022 + 1)%Z; apply bpow_plus_1). lra.
    - unfold e. rewrite <- exp_Ropp. apply exp_mono. lra. }
  rewrite rs_in.
  - eapply Rle_trans; [apply rnd_rel|]; rewrite ?Rabs_pos_eq by lra; [exact E2|].
    apply Rmult_le_compat_r; [lra|apply bpow_le; lia].
  - rewrite <- rnd_abs, Rabs_pos_eq by lra. apply Rle_trans with (bpow radix2 1023).
    + apply rnd_le_fmt; [apply fmt_bpow; lia|exact E1].
    + unfold Om. apply bpow_le. lia.
Qed.

Lemma ex_acc : (exists E, erfc_function E) /\ accurate_exp (p_exp (ideal true false))
  /\ (finite (f64_lit 2.5) /\ - (1 / 8) < Binary.B2R (f64_lit 2.5))
  /\ (finite (f64_lit (-2.5)) /\ - 26.6 <= Binary.B2R (f64_lit (-2.5)) <= - (1 / 8)).
Proof.
  split; [exact erfc_exists|]. split; [apply ideal_exp_accurate|].
  lit_facts 2.5%dec 5%Z 1%Z HF HV. lit_facts (-2.5)%dec (-5)%Z 1%Z HF' HV'.
  rewrite (val_fin _ HF) in HV. rewrite (val_fin _ HF') in HV'.
  split; (split; [assumption|lra]).
Qed.
