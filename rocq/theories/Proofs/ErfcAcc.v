(** * Accuracy of erfc and erf *)

From Coq Require Import ZArith Reals Bool Lra Lia List.
From Flocq Require Import Core IEEE754.BinarySingleNaN IEEE754.Binary IEEE754.Bits.
From Verif.Model Require Import Base Arith Utils Error.
From Verif.Float Require Import Bits64 Ieee Exact Platforms.
From Verif.Spec Require Import F64Spec Outcome ErfSpec LibmSpec.
From Verif.Proofs Require Import F64 F64Ops Lits Ext Ideal Boundaries Poly PolyZ Horner HornerErr PiBounds ErfcODE ErfcExists ExpBounds
  ErfcxSafe ErfcxAsym ErfcxAcc ErfccPoly ErfccReal Clenshaw.
Import ListNotations.
Open Scope R_scope.
Local Notation exp := Rtrigo_def.exp.

Notation u53 := (/ 2 ^ 53).

(** ** Relative errors *)

Lemma rel_fl : forall r x, rounds r x -> bpow radix2 (-1022) <= Rabs x <= bpow radix2 1000 -> fin r /\ Rabs (Binary.B2R r - x) <= u53 * Rabs x.
Proof.
  intros r x Hr [H1 H2]. pose proof (rnd_rel x H1) as Re.
  replace (bpow radix2 (-53)) with u53 in Re by (simpl; lra).
  destruct (rounds_small _ _ Hr) as [F V].
  - rewrite <- rnd_abs. apply Rle_lt_trans with (bpow radix2 1000).
    + apply rnd_le_fmt; [apply fmt_bpow; lia|exact H2].
    + unfold Om. apply bpow_lt. lia.
  - split; [exact F|]. rewrite V. exact Re.
Qed.
Lemma abs_fl : forall r x, rounds r x -> Rabs x <= 1000 -> fin r /\ Rabs (Binary.B2R r - x) <= u53 * Rabs x + / 2 ^ 100.
Proof.
  intros r x Hr Hx. pose proof (rnd_abs_err x) as Re.
  replace (bpow radix2 (-53)) with u53 in Re by (simpl; lra).
  assert (T : bpow radix2 (-1075) <= / 2 ^ 100).
  { replace (/ 2 ^ 100) with (bpow radix2 (-100)) by (simpl; lra). apply bpow_le. lia. }
  destruct (rounds_small _ _ Hr) as [F V].
  - replace (rnd x) with (x + (rnd x - x)) by ring. eapply Rle_lt_trans; [apply Rabs_triang|]. pose proof Om_big.
    assert (u53 * Rabs x <= 1 * 1000) by (apply Rmult_le_compat; try lra; apply Rabs_pos). lra.
  - split; [exact F|]. rewrite V. lra.
Qed.

Lemma rel_trans : forall x y z a b, Rabs (x - y) <= a * y -> Rabs (y - z) <= b * z -> 0 <= a ->
  Rabs (x - z) <= (a + b + a * b) * z.
Proof.
  intros x y z a b H1 H2 Ha. replace (x - z) with ((x - y) + (y - z)) by ring. eapply Rle_trans; [apply Rabs_triang|].
  assert (a * y <= a * (z + b * z)).
  { apply Rmult_le_compat_l; [exact Ha|]. apply Rabs_le_inv in H2. lra. }
  replace ((a + b + a * b) * z) with (a * (z + b * z) + b * z) by ring. lra.
Qed.
Lemma rel_mul : forall x y x' y' a b, Rabs (x - y) <= a * y -> Rabs (x' - y') <= b * y' -> 0 <= a -> 0 <= y -> 0 <= y' ->
  Rabs (x * x' - y * y') <= (a + b + a * b) * (y * y').
Proof.
  intros x y x' y' a b H1 H2 Ha Hy Hy'. replace (x * x' - y * y') with ((x - y) * (x' - y') + (x - y) * y' + y * (x' - y')) by ring.
  eapply Rle_trans; [apply Rabs_triang|]. eapply Rle_trans; [apply Rplus_le_compat_r, Rabs_triang|]. rewrite !Rabs_mult.
  assert (Rabs (x - y) * Rabs (x' - y') <= (a * y) * (b * y')) by (apply Rmult_le_compat; try apply Rabs_pos; assumption).
  assert (Rabs (x - y) * Rabs y' <= (a * y) * y').
  { rewrite (Rabs_pos_eq y') by lra. apply Rmult_le_compat_r; assumption. }
  assert (Rabs y * Rabs (x' - y') <= y * (b * y')).
  { rewrite (Rabs_pos_eq y) by lra. apply Rmult_le_compat_l; assumption. }
  replace ((a + b + a * b) * (y * y')) with (a * y * (b * y') + a * y * y' + y * (b * y')) by ring. lra.
Qed.

Lemma PP_lip_le : forall a b, 0 <= a <= b -> b <= 1 -> Rabs (PP a - PP b) <= 2 * (b - a).
Proof.
  intros a b [Ha Hab] Hb.
  assert (H1 : PP a + 2 * a <= PP b + 2 * b).
  { apply (mono_on (fun t => PP t + 2 * t) (fun t => DP t + 2) a b Hab).
    - intros t Ht. apply derivable_pt_lim_plus; [apply derive_PP|]. replace 2 with (2 * 1) at 2 by ring.
      apply (derivable_pt_lim_scal id 2). apply derivable_pt_lim_id.
    - intros t Ht. pose proof (DP_abs t ltac:(lra)) as D. apply Rabs_le_inv in D. lra. }
  assert (H2 : - PP a + 2 * a <= - PP b + 2 * b).
  { apply (mono_on (fun t => - PP t + 2 * t) (fun t => - DP t + 2) a b Hab).
    - intros t Ht. apply derivable_pt_lim_plus; [apply (derivable_pt_lim_opp PP), derive_PP|]. replace 2 with (2 * 1) at 2 by ring.
      apply (derivable_pt_lim_scal id 2). apply derivable_pt_lim_id.
    - intros t Ht. pose proof (DP_abs t ltac:(lra)) as D. apply Rabs_le_inv in D. lra. }
  apply Rabs_le. lra.
Qed.
Lemma PP_lip : forall a b d, 0 <= a <= 1 -> 0 <= b <= 1 -> Rabs (a - b) <= d -> Rabs (PP a - PP b) <= 2 * d.
Proof.
  intros a b d Ha Hb H. apply Rabs_le_inv in H. destruct (Rle_or_lt a b) as [L|L].
  - pose proof (PP_lip_le a b ltac:(lra) ltac:(lra)). lra.
  - rewrite Rabs_minus_sym. pose proof (PP_lip_le b a ltac:(lra) ltac:(lra)). lra.
Qed.

(** ** The variable t *)

Lemma v2 : fin (f64_lit 2.0) /\ Binary.B2R (f64_lit 2.0) = 2.
Proof. split; [exact fin_2|]. rewrite <- (val_fin _ fin_2). exact val_2. Qed.
Lemma v4 : fin (f64_lit 4.0) /\ Binary.B2R (f64_lit 4.0) = 4.
Proof. lit_facts 4.0%dec 4%Z 0%Z HF HV. split; [exact HF|]. rewrite <- (val_fin _ HF). lra. Qed.

Lemma in_mid : forall x, / 2 ^ 100 <= x <= 2 ^ 100 -> bpow radix2 (-1022) <= Rabs x <= bpow radix2 1000.
Proof.
  intros x H. assert (0 < / 2 ^ 100) by lra. rewrite Rabs_pos_eq by lra. split.
  - apply Rle_trans with (bpow radix2 (-100)); [apply bpow_le; lia|]. replace (bpow radix2 (-100)) with (/ 2 ^ 100) by (simpl; lra). lra.
  - apply Rle_trans with (bpow radix2 100); [|apply bpow_le; lia]. replace (bpow radix2 100) with (2 ^ 100) by (simpl; lra). lra.
Qed.

Lemma t_acc : forall P z, fin z -> 0 <= Binary.B2R z <= 26 ->
  let t := f64_div P (f64_lit 2.0) (f64_add P (f64_lit 2.0) z) in
  let ty := f64_sub P (f64_mul P (f64_lit 4.0) t) (f64_lit 2.0) in
  fin t /\ fin ty /\ 1 / 20 <= Binary.B2R t <= 1 /\ Rabs (Binary.B2R t - tz (Binary.B2R z)) <= 2.01 * u53 * tz (Binary.B2R z) /\
  Rabs (Binary.B2R ty) <= 2 /\ Rabs ((Binary.B2R ty + 2) / 4 - tz (Binary.B2R z)) <= 2.52 * u53.
Proof.
  intros P z Fz Hz t ty. destruct v2 as [F2 V2]. destruct v4 as [F4 V4]. set (Z := Binary.B2R z) in *.
  pose proof (add_spec P (f64_lit 2.0) z F2 Fz) as S. rewrite V2 in S. fold Z in S.
  destruct (rel_fl _ _ S ltac:(apply in_mid; lra)) as [Fs Es]. set (s := f64_add P (f64_lit 2.0) z) in *.
  rewrite (Rabs_pos_eq (2 + Z)) in Es by lra.
  assert (S2 : 2 <= Binary.B2R s).
  { rewrite <- (val_fin s Fs). destruct S as [_ ->]. apply (rs_ge 2); [apply fmt_IZR; lia|pose proof Om_big; lra|lra]. }
  apply Rabs_le_inv in Es. set (sv := Binary.B2R s) in *.
  pose proof (div_spec P (f64_lit 2.0) s F2 Fs ltac:(fold sv; lra)) as D. rewrite V2 in D. fold sv in D.
  set (g := 2 / sv) in *.
  assert (Gs : g * sv = 2) by (unfold g; field; lra).
  assert (G1 : g <= 1) by (apply Rmult_le_reg_r with sv; lra).
  assert (G0 : 1 / 19 <= g) by (apply Rmult_le_reg_r with sv; lra).
  destruct (rel_fl _ _ D ltac:(apply in_mid; lra)) as [Ft Et]. fold t in Ft, Et. rewrite (Rabs_pos_eq g) in Et by lra.
  set (tv := Binary.B2R t) in *.
  pose proof (tz_range Z ltac:(lra)) as T. assert (Ta : tz Z * (2 + Z) = 2) by (unfold tz; field; lra).
  set (t0 := tz Z) in *.
  assert (Gd : Rabs (g - t0) <= u53 * g).
  { apply Rmult_le_reg_r with (2 + Z); [lra|]. rewrite <- (Rabs_pos_eq (2 + Z)) at 1 by lra. rewrite <- Rabs_mult.
    replace ((g - t0) * (2 + Z)) with (g * ((2 + Z) - sv) + (g * sv - t0 * (2 + Z))) by ring. rewrite Gs, Ta.
    replace (g * (2 + Z - sv) + (2 - 2)) with (g * (2 + Z - sv)) by ring. rewrite Rabs_mult, (Rabs_pos_eq g) by lra.
    replace (u53 * g * (2 + Z)) with (g * (u53 * (2 + Z))) by ring. apply Rmult_le_compat_l; [lra|]. apply Rabs_le. lra. }
  assert (T1 : tv <= 1).
  { unfold tv. rewrite <- (val_fin t Ft). destruct D as [_ Dv]. fold t in Dv. rewrite Dv. fold g. rewrite rs_in.
    - apply rnd_le_fmt; [apply fmt_IZR; lia|lra].
    - rewrite <- rnd_abs, Rabs_pos_eq by lra. apply Rle_trans with 1; [apply rnd_le_fmt; [apply fmt_IZR; lia|lra]|pose proof Om_big; lra]. }
  apply Rabs_le_inv in Gd, Et.
  pose proof (mul_spec P (f64_lit 4.0) t F4 Ft) as M. rewrite V4 in M. fold tv in M.
  assert (Rm : rnd (4 * tv) = 4 * tv).
  { apply rnd_fmt. replace (4 * tv) with (tv * bpow radix2 2) by (simpl; lra). apply fmt_scale. lia. }
  destruct (rounds_small _ _ M) as [Fm Vm]; [rewrite Rm; pose proof Om_big; apply Rabs_lt; lra|]. rewrite Rm in Vm.
  set (m := f64_mul P (f64_lit 4.0) t) in *.
  pose proof (sub_spec P m (f64_lit 2.0) Fm F2) as Sy. rewrite V2, Vm in Sy. fold ty in Sy.
  assert (Ay : Rabs (4 * tv - 2) <= 2) by (apply Rabs_le; lra).
  destruct (abs_fl _ _ Sy ltac:(lra)) as [Fy Ey].
  assert (Yb : Rabs (Binary.B2R ty) <= 2).
  { destruct (rounds_small _ _ Sy) as [_ Vy].
    - rewrite <- rnd_abs. apply Rle_lt_trans with 2; [apply rnd_le_fmt; [apply fmt_IZR; lia|exact Ay]|pose proof Om_big; lra].
    - rewrite Vy, <- rnd_abs. apply rnd_le_fmt; [apply fmt_IZR; lia|exact Ay]. }
  assert (Ey' : Rabs (Binary.B2R ty - (4 * tv - 2)) <= 2 * u53 + / 2 ^ 100) by lra.
  apply Rabs_le_inv in Ey'.
  split; [exact Ft|]. split; [exact Fy|]. split; [lra|]. split; [apply Rabs_le; lra|]. split; [exact Yb|]. apply Rabs_le. lra.
Qed.

Section Acc.
  Variable E : R -> R.
  Hypothesis HE : erfc_function E.
  Notation w := (scaled_erfc E).

  Theorem erfccheb_acc : forall P (z : f64), accurate_exp (p_exp P) -> fin z -> 0 <= Binary.B2R z <= 26 ->
    exists r, @erfccheb (ieee P) z = Ok r /\ fin r /\
    Rabs (Binary.B2R r - E (Binary.B2R z)) <= (/ 2 ^ 42 + / 2 ^ 51 * (Binary.B2R z * Binary.B2R z)) * E (Binary.B2R z).
  Proof.
    intros P z HX Fz Hz. destruct (t_acc P z Fz Hz) as (Ft & Fy & Tr & Et & Yb & E1).
    pose proof (val_fin z Fz) as Vz. unfold erfccheb. ieee_simpl.
    rewrite (proj2 (le_true (f64_lit 0.0) z)) by (rewrite val_0, Vz; split; [exact nn_0|split; [apply fin_nonnan, Fz|lra]]).
    set (t := f64_div P (f64_lit 2.0) (f64_add P (f64_lit 2.0) z)) in *.
    set (ty := f64_sub P (f64_mul P (f64_lit 4.0) t) (f64_lit 2.0)) in *.
    unfold powi2. ieee_simpl. set (Z := Binary.B2R z) in *.
    assert (Z2 : 0 <= Z * Z <= 676).
    { split; [apply Rle_0_sqr|]. apply Rle_trans with (26 * 26); [apply Rmult_le_compat; lra|lra]. }
    destruct (abs_fl _ _ (mul_spec P z z Fz Fz)) as [Fzz Ezz]; [fold Z; rewrite Rabs_pos_eq; lra|].
    fold Z in Ezz. rewrite (Rabs_pos_eq (Z * Z)) in Ezz by lra.
    assert (Pzz : 0 <= Binary.B2R (f64_mul P z z)).
    { rewrite <- (val_fin _ Fzz). destruct (mul_spec P z z Fz Fz) as [_ ->]. apply (rs_ge 0); [apply fmt_0|left; apply Om_pos|fold Z; lra]. }
    set (zz := f64_mul P z z) in *. apply Rabs_le_inv in Ezz.
    set (t1 := (Binary.B2R ty + 2) / 4) in *.
    pose proof (exponent P ty zz t1 Fy Yb Fzz ltac:(lra) ltac:(unfold t1; lra)) as X.
    fold c0. destruct (@erfccheb_clenshaw (ieee P) ty) as [d dd].
    set (a := f64_sub P (f64_add P (f64_neg zz) (f64_mul P (f64_lit 0.5) (f64_add P (f64_lit c0) (f64_mul P ty d)))) dd) in *.
    cbv zeta in X. destruct X as [Fa Ea].
    pose proof (tz_range Z ltac:(lra)) as T0. set (t0 := tz Z) in *.
    assert (T1r : 0 <= t1 <= 1) by (unfold t1; apply Rabs_le_inv in Yb; lra).
    pose proof (PP_lip t1 t0 _ T1r ltac:(lra) E1) as Lp.
    pose proof (PP_le t0 ltac:(lra)) as Pu. pose proof (PP_ge t0 ltac:(lra)) as Pl.
    set (dl := (3.02 * (Z * Z) + 27) * u53).
    assert (Ed : Rabs (Binary.B2R a - (- (Z * Z) + PP t0)) <= dl).
    { unfold dl. apply Rabs_le_inv in Ea, Lp. apply Rabs_le. lra. }
    assert (Dl : 0 <= dl <= / 2 ^ 41) by (unfold dl; lra).
    pose proof (exp_near _ _ dl ltac:(lra) Ed) as En.
    apply Rabs_le_inv in Ed.
    destruct (HX a (fin_nonnan _ Fa)) as [Ne Ve]; [rewrite (val_fin a Fa); lra|]. rewrite (val_fin a Fa) in Ve.
    rewrite (libm_nonnan P (p_exp P)) by (apply fin_nonnan, Fa).
    replace (bpow radix2 (-50)) with (8 * u53) in Ve by (simpl; lra).
    set (e := p_exp P a) in *. set (G := exp (- (Z * Z) + PP t0)) in *. assert (G0 : 0 < G) by apply exp_pos.
    assert (Gl : bpow radix2 (-990) <= G).
    { apply Rle_trans with (exp (Ropp 678)); [|apply exp_mono; lra]. change (-990)%Z with (Z.opp 990). rewrite exp_Ropp, bpow_opp.
      apply Rinv_le_contravar; [apply exp_pos|].
      assert (Q : exp 678 * 2 ^ 31 * 2 ^ 2 <= bpow radix2 1023).
      { eapply Rle_trans; [|apply exp_709]. replace 709 with (678 + INR 31 * 1) by (simpl; lra). rewrite exp_plus, exp_pow.
        rewrite Rmult_assoc. apply Rmult_le_compat_l; [left; apply exp_pos|].
        apply Rle_trans with ((5/2) ^ 31); [simpl; lra|]. apply pow_incr. split; [lra|].
        pose proof (exp_ineq1_le (1 / 2)). replace 1 with (INR 2 * (1 / 2)) by (simpl; lra). rewrite exp_pow.
        apply Rle_trans with (1.6 ^ 2); [lra|]. apply pow_incr. split; [lra|].
        pose proof (expn_2 (1 / 2) ltac:(lra)) as X2. rewrite exp_Ropp in X2.
        assert (0 < exp (1 / 2)) by apply exp_pos. apply Rmult_le_reg_l with (/ exp (1 / 2)); [apply Rinv_0_lt_compat; assumption|].
        rewrite Rinv_l by lra. lra. }
      replace (bpow radix2 1023) with (bpow radix2 990 * bpow radix2 33) in Q by (rewrite <- bpow_plus; reflexivity).
      change (bpow radix2 33) with 8589934592 in Q. lra. }
    assert (Gu : G <= 1 + / 2 ^ 20).
    { unfold G. apply Rle_trans with (exp (2 / 10 ^ 7)); [apply exp_mono; lra|].
      pose proof (exp_tiny (2 / 10 ^ 7) ltac:(lra)). lra. }
    assert (R1 : Rabs (val e - G) <= ((3.02 * (Z * Z) + 35.2) * u53) * G).
    { eapply Rle_trans; [exact (rel_trans _ _ _ _ _ Ve En ltac:(lra))|]. apply Rmult_le_compat_r; [lra|].
      assert (dl * dl <= / 2 ^ 41 * / 2 ^ 41) by (apply Rmult_le_compat; lra).
      assert (8 * u53 * (dl + 2 * (dl * dl)) <= 8 * u53 * 1) by (apply Rmult_le_compat_l; lra).
      assert (8 * u53 * (dl + 2 * (dl * dl)) <= 8 * u53 * / 2 ^ 40) by (apply Rmult_le_compat_l; lra).
      unfold dl at 1. lra. }
    set (l1 := (3.02 * (Z * Z) + 35.2) * u53) in *. assert (L1 : 0 <= l1 <= / 2 ^ 41) by (unfold l1; lra).
    assert (LG : l1 * G <= / 2 ^ 41 * G) by (apply Rmult_le_compat_r; lra).
    assert (Fe : fin e).
    { apply fin_iff_val; [exact Ne|]. pose proof Om_big. apply Rabs_le_inv in R1. apply Rabs_lt. lra. }
    rewrite (val_fin e Fe) in R1.
    pose proof (mul_spec P t e Ft Fe) as Mr.
    pose proof (rel_mul _ _ _ _ _ _ Et R1 ltac:(lra) ltac:(lra) ltac:(lra)) as R2.
    set (tv := Binary.B2R t) in *. set (ev := Binary.B2R e) in *.
    assert (R2' : Rabs (tv * ev - t0 * G) <= ((3.02 * (Z * Z) + 37.3) * u53) * (t0 * G)).
    { eapply Rle_trans; [exact R2|]. apply Rmult_le_compat_r; [apply Rmult_le_pos; lra|].
      assert (2.01 * u53 * l1 <= 2.01 * u53 * / 2 ^ 41) by (apply Rmult_le_compat_l; lra). unfold l1 at 1. lra. }
    clear R2. apply Rabs_le_inv in R1.
    assert (Eb : G / 2 <= ev <= 2) by lra.
    assert (Pb : 0 < tv * ev) by (apply Rmult_lt_0_compat; lra).
    destruct (rel_fl _ _ Mr) as [Fr Er].
    { rewrite Rabs_pos_eq by lra. split.
      - apply Rle_trans with (1 / 20 * (G / 2)); [|apply Rmult_le_compat; lra].
        replace (bpow radix2 (-990)) with (bpow radix2 (-1022) * bpow radix2 32) in Gl by (rewrite <- bpow_plus; reflexivity).
        change (bpow radix2 32) with 4294967296 in Gl. pose proof (bpow_gt_0 radix2 (-1022)). lra.
      - apply Rle_trans with (1 * 2); [apply Rmult_le_compat; lra|]. change (1 * 2) with (1 * bpow radix2 1). rewrite Rmult_1_l. apply bpow_le. lia. }
    rewrite (Rabs_pos_eq (tv * ev)) in Er by lra.
    eexists. split; [reflexivity|]. split; [exact Fr|].
    pose proof (rel_trans _ _ _ _ _ Er R2' ltac:(lra)) as R3.
    pose proof (qq_near E HE Z ltac:(lra)) as Qn. fold (tz Z) in Qn.
    assert (Gq : t0 * G = exp (- (Z * Z)) * qq Z).
    { unfold G, qq. fold t0. rewrite exp_plus. ring. }
    rewrite Gq in R3.
    assert (Q2 : Rabs (exp (- (Z * Z)) * qq Z - E Z) <= 2 / 10 ^ 13 * E Z).
    { rewrite (E_w E Z). rewrite <- Rmult_minus_distr_l, Rabs_mult, Rabs_pos_eq by (left; apply exp_pos).
      replace (2 / 10 ^ 13 * (exp (- (Z * Z)) * w Z)) with (exp (- (Z * Z)) * (2 / 10 ^ 13 * w Z)) by ring.
      apply Rmult_le_compat_l; [left; apply exp_pos|exact Qn]. }
    set (l2 := (3.02 * (Z * Z) + 37.3) * u53) in *. assert (L2 : 0 <= l2 <= / 2 ^ 41) by (unfold l2; lra).
    assert (U2 : u53 * l2 <= u53 * / 2 ^ 41) by (apply Rmult_le_compat_l; lra).
    assert (L3 : 0 <= u53 + l2 + u53 * l2).
    { assert (0 <= u53 * l2) by (apply Rmult_le_pos; lra). lra. }
    pose proof (rel_trans _ _ _ _ _ R3 Q2 L3) as R4.
    assert (EZ : 0 < E Z).
    { rewrite (E_w E Z). apply Rmult_lt_0_compat; [apply exp_pos|apply w_pos_all, HE]. }
    eapply Rle_trans; [exact R4|]. apply Rmult_le_compat_r; [lra|].
    assert ((u53 + l2 + u53 * l2) * (2 / 10 ^ 13) <= (/ 2 ^ 40) * (2 / 10 ^ 13)) by (apply Rmult_le_compat_r; lra).
    unfold l2 at 1. lra.
  Qed.

  Lemma zzE : forall z, 0 <= z -> 0 < E z <= 1 + / 2 ^ 40 /\ z * z * E z <= 2.01.
  Proof.
    intros z Hz. pose proof (E0_near E HE) as N. apply Rabs_le_inv in N. pose proof (E_decr E HE 0 z Hz) as D.
    assert (P : 0 < E z).
    { rewrite (E_w E z). apply Rmult_lt_0_compat; [apply exp_pos|apply w_pos_all, HE]. }
    split; [lra|].
    pose proof (qq_near E HE z Hz) as Q. pose proof (qq_bound z Hz) as Qb. apply Rabs_le_inv in Q.
    pose proof (w_pos_all E HE z) as W.
    assert (Wb : w z <= 2.01) by lra.
    rewrite (E_w E z), <- Rmult_assoc. apply Rle_trans with (1 * 2.01); [|lra].
    apply Rmult_le_compat; [|lra| |exact Wb].
    - apply Rmult_le_pos; [apply Rle_0_sqr|left; apply exp_pos].
    - rewrite <- (exp_sq_inv z). apply Rmult_le_compat_r; [left; apply exp_pos|]. pose proof (exp_ineq1_le (z * z)). lra.
  Qed.

  Theorem erfc_acc : forall P (x : f64), accurate_exp (p_exp P) -> fin x -> -26 <= Binary.B2R x <= 26 ->
    exists r, @erfc (ieee P) x = Ok r /\ fin r /\
    Rabs (Binary.B2R r - E (Binary.B2R x)) <= (/ 2 ^ 41 + / 2 ^ 51 * (Binary.B2R x * Binary.B2R x)) * E (Binary.B2R x).
  Proof.
    intros P x HX Fx Hx. pose proof (val_fin x Fx) as Vx. unfold erfc. ieee_simpl.
    destruct (f64_le (f64_lit 0.0) x) eqn:C.
    - apply le_true in C. destruct C as (_ & _ & C). rewrite val_0, Vx in C.
      destruct (erfccheb_acc P x HX Fx ltac:(lra)) as (r & -> & Fr & Br). exists r. split; [reflexivity|]. split; [exact Fr|].
      eapply Rle_trans; [exact Br|]. pose proof (zzE _ C) as [Z _]. apply Rmult_le_compat_r; lra.
    - apply le_false in C; [|exact nn_0|apply fin_nonnan, Fx]. rewrite val_0, Vx in C.
      destruct (erfccheb_acc P (f64_neg x) HX ltac:(rewrite fin_neg; exact Fx) ltac:(rewrite B2R_neg; lra)) as (r & -> & Fr & Br).
      cbn [bind]. rewrite B2R_neg in Br. pose proof (zzE (- Binary.B2R x) ltac:(lra)) as [Z1 Z2].
      pose proof (E_reflect E HE (- Binary.B2R x)) as Er. rewrite Ropp_involutive in Er.
      pose proof (E0_near E HE) as N. apply Rabs_le_inv in N. pose proof (E_decr E HE (Binary.B2R x) 0 ltac:(lra)) as D.
      set (X := Binary.B2R x) in *. set (e := E (- X)) in *. set (rv := Binary.B2R r) in *.
      assert (Br' : Rabs (rv - e) <= / 2 ^ 42 + / 2 ^ 49).
      { eapply Rle_trans; [exact Br|]. replace ((/ 2 ^ 42 + / 2 ^ 51 * (- X * - X)) * e) with (/ 2 ^ 42 * e + / 2 ^ 51 * (- X * - X * e)) by ring. lra. }
      apply Rabs_le_inv in Br'. destruct v2 as [F2 V2].
      destruct (abs_fl _ _ (sub_spec P (f64_lit 2.0) r F2 Fr)) as [Fs Es]; [rewrite V2; fold rv; apply Rabs_le; lra|].
      rewrite V2 in Es. fold rv in Es. assert (A : Rabs (2 - rv) <= 3) by (apply Rabs_le; lra).
      assert (Es' : Rabs (Binary.B2R (f64_sub P (f64_lit 2.0) r) - (2 - rv)) <= 4 * u53) by lra.
      apply Rabs_le_inv in Es'.
      eexists. split; [reflexivity|]. split; [exact Fs|].
      apply Rle_trans with (/ 2 ^ 41 * E X).
      + apply Rabs_le. lra.
      + apply Rmult_le_compat_r; [lra|]. assert (0 <= X * X) by apply Rle_0_sqr. lra.
  Qed.
End Acc.

Lemma erf_of_erfc : forall F E, erf_function F -> erfc_function E -> forall x, F x = E 0 - E x.
Proof.
  intros F E [D0 F0] HE x. destruct HE as [D _].
  apply (antider_unique F (fun t => E 0 - E t) (fun t => K * exp (- (t * t))) (Rabs x)).
  - intros t _. apply D0.
  - intros t _. replace (K * exp (- (t * t))) with (0 - (- K * exp (- (t * t)))) by ring.
    apply (derivable_pt_lim_minus (fun _ => E 0) E); [apply derivable_pt_lim_const|apply D].
  - rewrite F0. ring.
  - lra.
Qed.
Lemma erf_odd : forall F, erf_function F -> forall x, F (- x) = - F x.
Proof.
  intros F HF x. destruct erfc_exists as [E HE]. rewrite !(erf_of_erfc F E HF HE), (E_reflect E HE). ring.
Qed.

Theorem erf_acc : forall F, erf_function F ->
  forall P (x : f64), accurate_exp (p_exp P) -> fin x -> -26 <= Binary.B2R x <= 26 ->
  exists r, @erf (ieee P) x = Ok r /\ fin r /\ Rabs (Binary.B2R r - F (Binary.B2R x)) <= / 2 ^ 41.
Proof.
  intros F HF P x HX Fx Hx. destruct erfc_exists as [E HE].
  pose proof (val_fin x Fx) as Vx. unfold erf. ieee_simpl.
  pose proof (E0_near E HE) as N. apply Rabs_le_inv in N.
  assert (V1 : Binary.B2R (f64_lit 1.0) = 1) by (rewrite <- (val_fin _ fin_1); exact val_1).
  assert (core : forall z, fin z -> 0 <= Binary.B2R z <= 26 -> exists r, @erfccheb (ieee P) z = Ok r /\ fin r /\
    - (1) <= Binary.B2R r <= 2 /\ Rabs (1 - Binary.B2R r - F (Binary.B2R z)) <= / 2 ^ 42 + / 2 ^ 46).
  { intros z Fz Hz. destruct (erfccheb_acc E HE P z HX Fz Hz) as (r & Er & Fr & Br). exists r. split; [exact Er|]. split; [exact Fr|].
    rewrite (erf_of_erfc F E HF HE). destruct (zzE E HE (Binary.B2R z) ltac:(lra)) as [Z1 Z2].
    set (X := Binary.B2R z) in *. set (e := E X) in *. set (rv := Binary.B2R r) in *.
    assert (Br' : Rabs (rv - e) <= / 2 ^ 42 + / 2 ^ 49).
    { eapply Rle_trans; [exact Br|]. replace ((/ 2 ^ 42 + / 2 ^ 51 * (X * X)) * e) with (/ 2 ^ 42 * e + / 2 ^ 51 * (X * X * e)) by ring. lra. }
    apply Rabs_le_inv in Br'. split; [lra|]. apply Rabs_le. lra. }
  destruct (f64_le (f64_lit 0.0) x) eqn:C.
  - apply le_true in C. destruct C as (_ & _ & C). rewrite val_0, Vx in C.
    destruct (core x Fx ltac:(lra)) as (r & -> & Fr & Rr & Br). cbn [bind].
    destruct (abs_fl _ _ (sub_spec P (f64_lit 1.0) r fin_1 Fr)) as [Fs Es]; [rewrite V1; apply Rabs_le; lra|].
    rewrite V1 in Es. assert (A : Rabs (1 - Binary.B2R r) <= 3) by (apply Rabs_le; lra).
    eexists. split; [reflexivity|]. split; [exact Fs|].
    assert (Es' : Rabs (Binary.B2R (f64_sub P (f64_lit 1.0) r) - (1 - Binary.B2R r)) <= 4 * u53) by lra.
    apply Rabs_le_inv in Es', Br. apply Rabs_le. lra.
  - apply le_false in C; [|exact nn_0|apply fin_nonnan, Fx]. rewrite val_0, Vx in C.
    destruct (core (f64_neg x) ltac:(rewrite fin_neg; exact Fx) ltac:(rewrite B2R_neg; lra)) as (r & -> & Fr & Rr & Br). cbn [bind].
    rewrite B2R_neg, (erf_odd F HF) in Br.
    destruct (abs_fl _ _ (sub_spec P r (f64_lit 1.0) Fr fin_1)) as [Fs Es]; [rewrite V1; apply Rabs_le; lra|].
    rewrite V1 in Es. assert (A : Rabs (Binary.B2R r - 1) <= 3) by (apply Rabs_le; lra).
    eexists. split; [reflexivity|]. split; [exact Fs|].
    assert (Es' : Rabs (Binary.B2R (f64_sub P r (f64_lit 1.0)) - (Binary.B2R r - 1)) <= 4 * u53) by lra.
    apply Rabs_le_inv in Es', Br. apply Rabs_le. lra.
Qed.

(** ** erf close to zero *)

Lemma gap_1 : forall e, fmt e -> e = 1 \/ u53 <= Rabs (1 - e).
Proof.
  intros e Fe. destruct (Rtotal_order e 1) as [H|[H|H]]; [right|left; exact H|right].
  - assert (Q : pred radix2 fexp64 1 = 1 - bpow radix2 (-53)).
    { change 1 with (bpow radix2 0). rewrite pred_bpow by auto with typeclass_instances. reflexivity. }
    assert (L : e <= pred radix2 fexp64 1).
    { apply pred_ge_gt; auto with typeclass_instances. apply (fmt_IZR 1). lia. }
    rewrite Q in L. replace (bpow radix2 (-53)) with u53 in L by (simpl; lra). rewrite Rabs_pos_eq; lra.
  - assert (Q : succ radix2 fexp64 1 = 1 + bpow radix2 (-52)).
    { rewrite succ_eq_pos by lra. change 1 with (bpow radix2 0). rewrite ulp_bpow. reflexivity. }
    assert (L : succ radix2 fexp64 1 <= e).
    { apply succ_le_lt; auto with typeclass_instances. apply (fmt_IZR 1). lia. }
    rewrite Q in L. replace (bpow radix2 (-52)) with (2 * u53) in L by (simpl; lra). rewrite Rabs_left1; lra.
Qed.

Lemma erf_upper : forall F, erf_function F -> forall x, 0 < x -> 0 < F x <= 2 * x.
Proof.
  intros F HF x Hx. destruct HF as [D F0]. pose proof ErfcxAsym.isp_range as [L U].
  assert (K2 : 0 < K <= 2) by (split; [apply K_pos|unfold Rdiv; lra]).
  split.
  - destruct erfc_exists as [E HE]. rewrite (erf_of_erfc F E (conj D F0) HE).
    destruct (MVT_cor2 F (fun t => K * exp (- (t * t))) 0 x Hx) as (c & Hc & Hi); [intros; apply D|].
    rewrite F0 in Hc. rewrite <- (erf_of_erfc F E (conj D F0) HE). replace (F x) with (F x - 0) by ring. rewrite Hc.
    apply Rmult_lt_0_compat; [|lra]. apply Rmult_lt_0_compat; [lra|apply exp_pos].
  - destruct (MVT_cor2 F (fun t => K * exp (- (t * t))) 0 x Hx) as (c & Hc & Hi); [intros; apply D|].
    rewrite F0 in Hc. replace (F x) with (F x - 0) by ring. rewrite Hc.
    replace (x - 0) with x by ring. apply Rmult_le_compat_r; [lra|].
    apply Rle_trans with (2 * 1); [|lra]. apply Rmult_le_compat; [lra|left; apply exp_pos|lra|].
    apply Rle_trans with (exp 0); [apply exp_mono|rewrite exp_0; lra]. pose proof (Rle_0_sqr c). unfold Rsqr in *. lra.
Qed.

Theorem erf_rel_lost : forall F, erf_function F ->
  forall P (x r : f64), fin x -> 0 < Binary.B2R x <= / 2 ^ 55 -> @erf (ieee P) x = Ok r -> fin r ->
  F (Binary.B2R x) <= Rabs (Binary.B2R r - F (Binary.B2R x)).
Proof.
  intros F HF P x r Fx Hx Hr Fr. pose proof (val_fin x Fx) as Vx. pose proof (erf_upper F HF _ (proj1 Hx)) as Fu.
  revert Hr. unfold erf. ieee_simpl.
  rewrite (proj2 (le_true (f64_lit 0.0) x)) by (rewrite val_0, Vx; split; [exact nn_0|split; [apply fin_nonnan, Fx|lra]]).
  destruct (@erfccheb (ieee P) x) as [e|p|]; cbn [bind]; [|discriminate|discriminate]. intros Hr. injection Hr as <-.
  assert (V1 : Binary.B2R (f64_lit 1.0) = 1) by (rewrite <- (val_fin _ fin_1); exact val_1).
  assert (Fe : fin e).
  { destruct e as [s|s|s pl H|s m ex H]; try reflexivity; exfalso; revert Fr; clear; unfold f64_sub;
    intros Fr; [destruct s|]; revert Fr; vm_compute; discriminate. }
  pose proof (sub_spec P (f64_lit 1.0) e fin_1 Fe) as [_ Sv]. rewrite V1 in Sv. rewrite (val_fin _ Fr) in Sv. rewrite Sv.
  pose proof Om_big as Ob.
  assert (Fu53 : fmt u53) by (replace u53 with (bpow radix2 (-53)) by (simpl; lra); apply fmt_bpow; lia).
  destruct (gap_1 _ (fmt_B2R e)) as [H|H].
  - rewrite H, Rminus_eq_0, rs_0. rewrite Rabs_left; lra.
  - destruct (Rle_or_lt 0 (1 - Binary.B2R e)) as [S|S].
    + rewrite Rabs_pos_eq in H by exact S. pose proof (rs_ge u53 _ Fu53 ltac:(lra) H) as G. rewrite Rabs_pos_eq; lra.
    + rewrite Rabs_left in H by exact S. pose proof (rs_ge u53 _ Fu53 ltac:(lra) H) as G. rewrite rs_opp in G. rewrite Rabs_left; lra.
Qed.

Lemma erf_exists : exists F, erf_function F.
Proof.
  destruct erfc_exists as [E HE]. exists (fun x => E 0 - E x). destruct HE as [D _]. split; [|ring].
  intros x. replace (K * exp (- (x * x))) with (0 - (- K * exp (- (x * x)))) by ring.
  apply (derivable_pt_lim_minus (fun _ => E 0) E); [apply derivable_pt_lim_const|apply D].
Qed.

Lemma lit_tiny : fin (f64_lit 1e-20) /\ 0 < Binary.B2R (f64_lit 1e-20) <= / 2 ^ 55.
Proof.
  assert (S : fin (f64_lit 1e-20)) by reflexivity. split; [exact S|]. rewrite <- (val_fin _ S). destruct (lit_spec 1e-20) as [_ V].
  rewrite V. assert (Q : R_of_dec 1e-20 = / 10 ^ 20).
  { unfold R_of_dec; cbn [dman dexp]; rewrite powerRZ_10; simpl; lra. }
  rewrite Q. pose proof Om_big. split.
  - apply Rlt_le_trans with (bpow radix2 (-100)); [apply bpow_gt_0|]. apply rs_ge; [apply fmt_bpow; lia|simpl; lra|simpl; lra].
  - apply rs_le_fmt; [replace (/ 2 ^ 55) with (bpow radix2 (-55)) by (simpl; lra); apply fmt_bpow; lia|lra|lra].
Qed.

Theorem erf_rel_refuted : exists x, fin x /\ 0 < Binary.B2R x /\
  forall F, erf_function F -> forall P r, @erf (ieee P) x = Ok r -> fin r -> F (Binary.B2R x) <= Rabs (Binary.B2R r - F (Binary.B2R x)).
Proof.
  exists (f64_lit 1e-20). destruct lit_tiny as [F H]. split; [exact F|]. split; [lra|]. intros G HG P r. apply erf_rel_lost; assumption.
Qed.

Lemma ex_erf_acc : (exists E, erfc_function E) /\ (exists F, erf_function F) /\ accurate_exp (p_exp (ideal true false))
  /\ (finite (f64_lit 2.5) /\ -26 <= Binary.B2R (f64_lit 2.5) <= 26)
  /\ (finite (f64_lit (-2.5)) /\ -26 <= Binary.B2R (f64_lit (-2.5)) <= 26).
Proof.
  split; [exact erfc_exists|]. split; [exact erf_exists|]. split; [apply ideal_exp_accurate|].
  lit_facts 2.5%dec 5%Z 1%Z HF HV. lit_facts (-2.5)%dec (-5)%Z 1%Z HF' HV'.
  rewrite (val_fin _ HF) in HV. rewrite (val_fin _ HF') in HV'. rewrite HV, HV'.
  split; (split; [assumption|lra]).
Qed.

(** a run of the model on the small argument *)
Lemma ex_erf_small : exists r, @erf (ieee (ideal true false)) (f64_lit 1e-20) = Ok r /\ fin r.
Proof.
  destruct erf_exists as [F HF]. destruct lit_tiny as [Fx Hx].
  destruct (erf_acc F HF (ideal true false) (f64_lit 1e-20) (ideal_exp_accurate _ _) Fx ltac:(lra)) as (r & Hr & Fr & _).
  exists r. auto.
Qed.
