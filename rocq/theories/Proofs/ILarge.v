(** * Rounding errors of i0 and i1 beyond 15 *)

From Coq Require Import ZArith Reals Bool Lra Lia List.
From Flocq Require Import Core IEEE754.BinarySingleNaN IEEE754.Binary IEEE754.Bits.
From Verif.Model Require Import Base Arith BesselTables Bessel.
From Verif.Float Require Import Bits64 Ieee Exact Platforms.
From Verif.Spec Require Import F64Spec Outcome BesselSpec Bessel2Spec LibmSpec.
From Verif.Proofs Require Import F64 F64Ops Lits Ext ExpBounds FlErr GammaAcc GserAcc PosHorner BesselAcc BesselSeries BesselReal BesselRat HornerErr PolyZ LnGammaFl EulerGamma BetaiAcc KAcc KnAcc BesselODE BesselLim KRat KPoly KLarge IRat.
Import ListNotations.
Open Scope R_scope.
Local Notation exp := Rtrigo_def.exp. Local Notation ln := Rpower.ln. Local Notation sqrt := R_sqrt.sqrt.

(** ** a polynomial on the unit interval is Lipschitz *)
Fixpoint szs (l : list Z) : Z := match l with [] => 0 | c :: l => Z.abs c + szs l end.
Fixpoint lzs (l : list Z) : Z := match l with [] => 0 | _ :: l => szs l + lzs l end.
Lemma peval_szs : forall l y, 0 <= y <= 1 -> Rabs (peval l y) <= IZR (szs l).
Proof.
  induction l as [|c l IH]; intros y Hy; [change (peval [] y) with 0; rewrite Rabs_R0; simpl; lra|].
  rewrite peval_cons. cbn [szs]. rewrite plus_IZR, abs_IZR. eapply Rle_trans; [apply Rabs_triang|]. apply Rplus_le_compat_l. rewrite Rabs_mult, (Rabs_pos_eq y) by lra.
  specialize (IH y Hy). pose proof (Rabs_pos (peval l y)). assert (y * Rabs (peval l y) <= 1 * Rabs (peval l y)) by (apply Rmult_le_compat_r; lra). lra.
Qed.
Lemma peval_lzs : forall l y z, 0 <= y <= 1 -> 0 <= z <= 1 -> Rabs (peval l y - peval l z) <= IZR (lzs l) * Rabs (y - z).
Proof.
  induction l as [|c l IH]; intros y z Hy Hz; [change (peval [] y) with 0; change (peval [] z) with 0; rewrite Rminus_0_r, Rabs_R0; simpl; lra|].
  rewrite !peval_cons. cbn [lzs]. rewrite plus_IZR. replace (IZR c + y * peval l y - (IZR c + z * peval l z)) with ((y - z) * peval l y + z * (peval l y - peval l z)) by ring.
  eapply Rle_trans; [apply Rabs_triang|]. rewrite !Rabs_mult, (Rabs_pos_eq z) by lra. rewrite Rmult_plus_distr_r. pose proof (Rabs_pos (y - z)) as A. pose proof (peval_szs l y Hy) as B. specialize (IH y z Hy Hz). pose proof (Rabs_pos (peval l y - peval l z)) as C.
  apply Rplus_le_compat; [rewrite Rmult_comm; apply Rmult_le_compat_r; lra|]. assert (z * Rabs (peval l y - peval l z) <= 1 * Rabs (peval l y - peval l z)) by (apply Rmult_le_compat_r; lra). lra.
Qed.
Lemma tab_lip : forall l y z, forallb (dz_ok 60) l = true -> (lzs (zs l) <=? 2 * 10 ^ 60)%Z = true -> 0 <= y <= 1 -> 0 <= z <= 1 -> Rabs (tab l y - tab l z) <= 2 * Rabs (y - z).
Proof.
  intros l y z Ok H Hy Hz. rewrite !(tab_eq l _ Ok). assert (T : 0 < IZR (10 ^ 60)) by (apply IZR_lt; reflexivity). apply Z.leb_le, IZR_le in H. rewrite mult_IZR in H. set (D := IZR (10 ^ 60)) in *. clearbody D.
  replace (peval (zs l) y / D - peval (zs l) z / D) with ((peval (zs l) y - peval (zs l) z) * / D) by (field; lra). rewrite Rabs_mult, (Rabs_pos_eq (/ D)) by (left; apply Rinv_0_lt_compat; lra).
  pose proof (peval_lzs (zs l) y z Hy Hz) as P. pose proof (Rabs_pos (y - z)) as A. set (L := IZR (lzs (zs l))) in *. clearbody L.
  apply Rmult_le_reg_r with D; [lra|]. rewrite Rmult_assoc, Rinv_l, Rmult_1_r by lra. assert (L * Rabs (y - z) <= 2 * D * Rabs (y - z)) by (apply Rmult_le_compat_r; lra). lra.
Qed.
Lemma tab_low : forall l y n d t sh, forallb (dz_ok 60) l = true -> (0 <= sh)%Z -> (0 < d)%Z -> 0 <= y <= 1 -> neg_chk t sh 1 (RatODE.psub [(n * 10 ^ 60)%Z] (pscale d (zs l))) = true -> IZR n / IZR d <= tab l y.
Proof.
  intros l y n d t sh Ok Hs Hd Hy H. pose proof (neg_ok _ _ 1 _ y Hs ltac:(lia) H Hy) as E. rewrite RatODE.peval_psub, peval_cons, peval_pscale, mult_IZR in E. change (peval [] y) with 0 in E. rewrite (tab_eq l y Ok). apply IZR_lt in Hd.
  assert (T : 0 < IZR (10 ^ 60)) by (apply IZR_lt; reflexivity). set (D := IZR (10 ^ 60)) in *. clearbody D. apply Rmult_le_reg_r with (IZR d * D); [apply Rmult_lt_0_compat; assumption|].
  replace (IZR n / IZR d * (IZR d * D)) with (IZR n * D) by (field; lra). replace (peval (zs l) y / D * (IZR d * D)) with (IZR d * peval (zs l) y) by (field; lra). lra.
Qed.
Lemma tab_up : forall l y, forallb (dz_ok 60) l = true -> (szs (zs l) <=? 2 * 10 ^ 60)%Z = true -> 0 <= y <= 1 -> tab l y <= 2.
Proof.
  intros l y Ok H Hy. rewrite (tab_eq l y Ok). assert (T : 0 < IZR (10 ^ 60)) by (apply IZR_lt; reflexivity). apply Z.leb_le, IZR_le in H. rewrite mult_IZR in H. pose proof (peval_szs (zs l) y Hy) as P. apply Rabs_le_inv in P. set (D := IZR (10 ^ 60)) in *. clearbody D.
  apply Rmult_le_reg_r with D; [lra|]. unfold Rdiv. rewrite Rmult_assoc, Rinv_l by lra. lra.
Qed.

Section Fl.
  Context (P : platform) (EX : accurate_exp (p_exp P)).
  Notation mul := (f64_mul P). Notation add := (f64_add P). Notation sub := (f64_sub P). Notation div := (f64_div P).

  Lemma z_fl : forall ax, fin ax -> 15 <= val ax <= 709 -> let z := sub (f64_lit 1.0) (div (f64_lit 15.0) ax) in
    fin z /\ 0 <= val z <= 1 /\ Rabs (val z - (1 - 15 / val ax)) <= 4 / 10 ^ 16.
  Proof.
    intros ax Fa Ha. cbv zeta. lit_facts 15.0%dec 15%Z 0%Z F15 V15. replace (15 / 1) with 15 in V15 by field.
    pose proof (z_unit (val ax) ltac:(lra)) as Y. assert (Y2 : / 64 <= 15 / val ax). { apply Rmult_le_reg_r with (val ax); [lra|]. replace (15 / val ax * val ax) with 15 by (field; lra). lra. }
    destruct (div_mr P (f64_lit 15.0) ax F15 Fa ltac:(lra)) as [Fq Mq].
    { rewrite V15, Rabs_pos_eq by lra. split; [apply Rle_trans with (bpow radix2 (-10)); [apply bpow_le; lia|simpl; lra]|apply Rle_trans with (bpow radix2 0); [simpl; lra|apply bpow_le; lia]]. }
    rewrite V15 in Mq. pose proof (mr_near _ _ _ Mq ltac:(unfold vv; lra) ltac:(lra)) as Nq.
    assert (Uq : val (div (f64_lit 15.0) ax) <= 1).
    { pose proof (div_spec P (f64_lit 15.0) ax F15 Fa) as R. rewrite <- !(val_fin _ Fa), <- (val_fin _ F15), V15 in R. specialize (R ltac:(lra)). destruct (rounds_small _ _ R) as [_ V].
      - rewrite <- rnd_abs. apply Rle_lt_trans with (bpow radix2 0); [|unfold Om; apply bpow_lt; lia]. apply rnd_le_fmt; [apply fmt_bpow; lia|]. rewrite Rabs_pos_eq by lra. simpl. lra.
      - rewrite (val_fin _ Fq), V. apply Rle_trans with (bpow radix2 0); [|simpl; lra]. apply rnd_le_fmt; [apply fmt_bpow; lia|]. simpl. lra. }
    set (q := div (f64_lit 15.0) ax) in *. clearbody q. set (y := 15 / val ax) in *. clearbody y. unfold vv in Nq.
    destruct (sub_fl P (f64_lit 1.0) q fin_1 Fq) as [Fz Ez]. { rewrite val_1, Rabs_pos_eq by lra. apply Rle_trans with (bpow radix2 0); [simpl; lra|apply bpow_le; lia]. }
    rewrite val_1, (Rabs_pos_eq (1 - val q)) in Ez by lra.
    assert (Bz : 0 <= val (sub (f64_lit 1.0) q) <= 1).
    { pose proof (sub_spec P (f64_lit 1.0) q fin_1 Fq) as R. rewrite <- (val_fin _ Fq), <- (val_fin _ fin_1), val_1 in R. destruct (rounds_small _ _ R) as [_ V].
      - rewrite <- rnd_abs. apply Rle_lt_trans with (bpow radix2 0); [|unfold Om; apply bpow_lt; lia]. apply rnd_le_fmt; [apply fmt_bpow; lia|]. rewrite Rabs_pos_eq by lra. simpl. lra.
      - rewrite (val_fin _ Fz), V. split; [apply rnd_pos; lra|]. apply Rle_trans with (bpow radix2 0); [|simpl; lra]. apply rnd_le_fmt; [apply fmt_bpow; lia|]. simpl. lra. }
    split; [exact Fz|split; [exact Bz|]]. set (z := sub (f64_lit 1.0) q) in *. clearbody z. pose proof eta_small as ES. assert (uu * (1 - val q) <= uu * 1) by (apply Rmult_le_compat_l; unfold uu; lra). apply Rabs_le_inv in Ez. apply Rabs_le. unfold uu in *. lra.
  Qed.

  Lemma iq_core : forall ef pf sx qf Py Qy s w a b ks, fin ef -> fin pf -> fin sx -> fin qf -> mr a (val pf) Py -> mr b (val qf) Qy -> mr vv (val sx) s -> mr (1 / 10 ^ 15) (val ef) w ->
    1 / 10 <= Py <= 2 -> 1 / 4 <= Qy <= 2 -> 3 <= s <= 27 -> 0 < w <= bpow radix2 1023 -> bpow radix2 (-1000) <= w -> a <= 1 / 10 ^ 10 -> b <= 1 / 10 ^ 10 -> 0 < ks -> ks <= 1 / 2 -> Rabs (Py / Qy - ks) <= 2 / 10 ^ 15 * ks ->
    (Py <= 6 / 10) ->
    let r := div (mul ef pf) (mul sx qf) in fin r /\ mr (a + b + 4 * vv + 31 / 10 ^ 16) (val r) (ks * w / s).
  Proof.
    intros ef pf sx qf Py Qy s w a b ks Fe Fp Fs Fq Mp Mq Ms Me HP HQ Hs Hw Hw2 Ha Hb K0 K1 HR HP2. cbv zeta.
    pose proof (mr_t0 _ _ _ Mp) as A0. pose proof (mr_t0 _ _ _ Mq) as B0.
    pose proof (bpow_gt_0 radix2 1023) as P23. assert (B23 : 2 ^ 20 <= bpow radix2 1023) by (apply Rle_trans with (bpow radix2 20); [simpl; lra|apply bpow_le; lia]).
    assert (T10 : bpow radix2 (-1000) = bpow radix2 (-1022) * 2 ^ 22). { change (bpow radix2 (-1000)) with (bpow radix2 (-1022 + 22)). rewrite bpow_plus. f_equal. simpl. lra. }
    pose proof (bpow_gt_0 radix2 (-1022)) as PM. assert (BM : bpow radix2 (-1022) <= / 1000) by (apply Rle_trans with (bpow radix2 (-10)); [apply bpow_le; lia|simpl; lra]).
    pose proof (mr_mul _ _ _ _ _ _ Me Mp) as M1. pose proof (mr_mul _ _ _ _ _ _ Ms Mq) as M2.
    assert (W1 : 1 / 10 * w <= w * Py <= 6 / 10 * w). { rewrite (Rmult_comm w). split; apply Rmult_le_compat_r; lra. }
    assert (W2 : 3 / 4 <= s * Qy <= 54). { split; [replace (3 / 4) with (3 * (1 / 4)) by field|replace 54 with (27 * 2) by ring]; apply Rmult_le_compat; lra. }
    pose proof (mr_near _ _ _ M1 ltac:(lra) ltac:(lra)) as N1. pose proof (mr_near _ _ _ M2 ltac:(unfold vv; lra) ltac:(lra)) as N2.
    assert (G1 : w * Py * (2 * (1 / 10 ^ 15 + a)) <= w * Py * / 1000) by (apply Rmult_le_compat_l; lra).
    assert (G2 : s * Qy * (2 * (vv + b)) <= s * Qy * / 1000) by (apply Rmult_le_compat_l; [lra|unfold vv; lra]).
    assert (R1 : w * / 11 <= val ef * val pf <= w * (7 / 10)) by lra. assert (R2 : 1 / 2 <= val sx * val qf <= 60) by lra.
    destruct (mul_mr P ef pf Fe Fp) as [Fm Mm]; [rewrite Rabs_pos_eq by lra; lra|]. destruct (mul_mr P sx qf Fs Fq) as [Fd Md]; [rewrite Rabs_pos_eq by lra; lra|].
    pose proof (mr_near _ _ _ Mm ltac:(unfold vv; lra) ltac:(lra)) as N3. pose proof (mr_near _ _ _ Md ltac:(unfold vv; lra) ltac:(lra)) as N4.
    set (m := mul ef pf) in *. set (d := mul sx qf) in *. clearbody m d.
    assert (R3 : w * / 12 <= val m <= w * (8 / 10)) by (unfold vv in N3; lra). assert (R4 : 1 / 3 <= val d <= 61) by (unfold vv in N4; lra).
    pose proof (mr_trans _ _ _ _ _ Mm M1) as A1. pose proof (mr_trans _ _ _ _ _ Md M2) as A2.
    assert (SQ0 : s * Qy <> 0) by lra. pose proof (mr_mul _ _ _ _ _ _ A1 (mr_inv _ _ _ SQ0 A2)) as A3. fold (val m / val d) in A3.
    assert (EQ : w * Py * / (s * Qy) = Py / Qy * (w / s)) by (field; lra). rewrite EQ in A3.
    assert (MR : mr (2 / 10 ^ 15 + 2 * (2 / 10 ^ 15 * (2 / 10 ^ 15))) (Py / Qy) ks) by (apply mr_of_rel; [lra|rewrite (Rabs_pos_eq ks) by lra; exact HR]).
    pose proof (mr_trans _ _ _ _ _ A3 (mr_scale _ _ _ (w / s) MR)) as A4.
    assert (KL : 1 / 21 <= ks). { apply Rabs_le_inv in HR. assert (1 / 20 <= Py / Qy); [|lra]. apply Rmult_le_reg_r with Qy; [lra|]. replace (Py / Qy * Qy) with Py by (field; lra). lra. }
    assert (I1 : / 27 <= / s <= / 3) by (split; apply Rinv_le_contravar; lra).
    assert (WS : w * / 27 <= w / s <= w * / 3) by (split; apply Rmult_le_compat_l; lra).
    assert (KW : 1 / 21 * (w * / 27) <= ks * (w / s) <= 1 / 2 * (w * / 3)) by (split; apply Rmult_le_compat; lra).
    pose proof (mr_near _ _ _ A4 ltac:(unfold vv; lra) ltac:(lra)) as N5.
    match type of A4 with mr ?t _ _ => assert (TT : t <= / 1000) by (unfold vv; lra); assert (G3 : ks * (w / s) * (2 * t) <= ks * (w / s) * (2 * / 1000)) by (apply Rmult_le_compat_l; lra) end.
    assert (R5 : bpow radix2 (-1022) <= val m / val d <= bpow radix2 1023) by lra.
    destruct (div_mr P m d Fm Fd ltac:(lra)) as [Fr Mr]; [rewrite Rabs_pos_eq by lra; exact R5|]. split; [exact Fr|].
    replace (ks * w / s) with (ks * (w / s)) by (field; lra). eapply mr_weak; [|exact (mr_trans _ _ _ _ _ Mr A4)]. unfold vv. lra.
  Qed.
  (** the value of a table at the computed argument *)
  Lemma tab_at : forall l z y t m, fin z -> mr t (val (@poly (ieee P) z l)) (tab l (val z)) -> 0 <= val z <= 1 -> 0 <= y <= 1 -> Rabs (val z - y) <= 4 / 10 ^ 16 -> forallb (dz_ok 60) l = true -> (lzs (zs l) <=? 2 * 10 ^ 60)%Z = true ->
    1 / 10 <= m -> m <= tab l y -> mr (t + 81 / 10 ^ 17 / m) (val (@poly (ieee P) z l)) (tab l y).
  Proof.
    intros l z y t m Fz M Hz Hy D Ok C Hm HT. eapply mr_trans; [exact M|]. pose proof (tab_lip l (val z) y Ok C Hz Hy) as L.
    set (u := 8 / 10 ^ 16 / m). assert (I : 0 < / m <= 10). { split; [apply Rinv_0_lt_compat; lra|]. replace 10 with (/ (1 / 10)) by field. apply Rinv_le_contravar; lra. }
    assert (U : 0 <= u <= 8 / 10 ^ 15) by (unfold u, Rdiv at 2 3; split; [apply Rmult_le_pos; lra|]; assert (8 * / 10 ^ 16 * / m <= 8 * / 10 ^ 16 * 10) by (apply Rmult_le_compat_l; lra); lra).
    apply mr_weak with (u + 2 * (u * u)).
    - replace (81 / 10 ^ 17 / m) with (u * (81 / 80)) by (unfold u; field; lra). assert (u * u <= 8 / 10 ^ 15 * u) by (apply Rmult_le_compat_r; lra). lra.
    - apply mr_of_rel; [lra|]. rewrite (Rabs_pos_eq (tab l y)) by lra. eapply Rle_trans; [exact L|]. assert (E : u * m = 8 / 10 ^ 16) by (unfold u; field; lra). assert (u * m <= u * tab l y) by (apply Rmult_le_compat_l; lra). lra.
  Qed.

  Lemma big_low : forall x, 15 <= x <= 709 -> bpow radix2 (-1000) <= exp x /\ 0 < exp x <= bpow radix2 1023.
  Proof.
    intros x Hx. split; [|split; [apply exp_pos|]].
    - apply Rle_trans with 1; [|pose proof (exp_ineq1_le x); lra]. apply Rle_trans with (bpow radix2 0); [apply bpow_le; lia|simpl; lra].
    - rewrite <- (exp_ln (bpow radix2 1023)) by apply bpow_gt_0. apply exp_mono. rewrite ln_bpow_eq. pose proof ln2_low. lra.
  Qed.
  Lemma sqrt_range : forall x, 15 <= x <= 709 -> 3 <= sqrt x <= 27.
  Proof. intros x Hx. split; [rewrite <- (sqrt_square 3) by lra|rewrite <- (sqrt_square 27) by lra]; apply sqrt_le_1_alt; lra. Qed.
  Lemma ge_15 : forall x, fin x -> 15 <= val x -> f64_lt x (f64_lit 15.0) = false.
  Proof. intros x Fx Hx. lit_facts 15.0%dec 15%Z 0%Z F15 V15. apply lt_false; [apply fin_nonnan, Fx|apply fin_nonnan, F15|]. lra. Qed.

  Lemma scaled_back : forall x k, 0 < x -> sqrt x * exp (-1 * x) * k * exp x / sqrt x = k.
  Proof.
    intros x k Hx. pose proof (sqrt_lt_R0 x Hx) as S. assert (E : exp (-1 * x) * exp x = 1) by (rewrite <- exp_plus, <- exp_0; f_equal; ring).
    replace (sqrt x * exp (-1 * x) * k * exp x / sqrt x) with (exp (-1 * x) * exp x * k) by (field; lra). rewrite E. ring.
  Qed.

  Lemma i0_large : forall x, fin x -> 15 <= Rabs (val x) <= 709 -> fin (@i0 (ieee P) x) /\ mr (2 / 10 ^ 14) (val (@i0 (ieee P) x)) (BI (Rabs (val x)) 0).
  Proof.
    intros x Fx Hx. unfold i0. ieee_simpl. assert (Fa : fin (f64_abs x)) by (rewrite fin_abs; exact Fx). assert (Va : val (f64_abs x) = Rabs (val x)) by apply val_abs.
    rewrite <- Va in Hx |- *. set (ax := f64_abs x) in *. clearbody ax. rewrite (ge_15 ax Fa ltac:(lra)).
    destruct (z_fl ax Fa Hx) as (Fz & Bz & Ez). set (z := sub (f64_lit 1.0) (div (f64_lit 15.0) ax)) in *. clearbody z.
    destruct (poly_fl P z I0PP Fz ltac:(lra) ltac:(discriminate) eq_refl ltac:(cbn; lia)) as [Fp Mp]. destruct (poly_fl P z I0QQ Fz ltac:(lra) ltac:(discriminate) eq_refl ltac:(cbn; lia)) as [Fq Mq].
    destruct (i0_rat (val ax) ltac:(lra)) as [KP KR]. pose proof (z_unit (val ax) ltac:(lra)) as Y. assert (Y' : 0 <= 1 - 15 / val ax <= 1) by lra. set (y := 1 - 15 / val ax) in *. clearbody y.
    assert (PL : 11 / 100 <= tab I0PP y) by (apply (tab_low I0PP y 11 100 (full 3) 80); try lia; try exact Y'; vm_compute; reflexivity).
    assert (QL : 29 / 100 <= tab I0QQ y) by (apply (tab_low I0QQ y 29 100 (full 3) 80); try lia; try exact Y'; vm_compute; reflexivity).
    assert (QU : tab I0QQ y <= 2) by (apply tab_up; [reflexivity|vm_compute; reflexivity|exact Y']).
    assert (PU : tab I0PP y <= 6 / 10) by (apply Rle_trans with (tab I0PP 1); [apply tab_mono; [reflexivity|lra]|apply (tab_le_z I0PP 1 6 10); vm_compute; reflexivity]).
    pose proof (tab_at I0PP z y _ (11 / 100) Fz Mp Bz Y' Ez eq_refl eq_refl ltac:(lra) PL) as Mp2. pose proof (tab_at I0QQ z y _ (29 / 100) Fz Mq Bz Y' Ez eq_refl eq_refl ltac:(lra) QL) as Mq2.
    apply (mr_weak _ (98 / 10 ^ 16)) in Mp2; [|simpl (INR _); unfold vv; lra]. apply (mr_weak _ (55 / 10 ^ 16)) in Mq2; [|simpl (INR _); unfold vv; lra].
    destruct (sqrt_mr P ax Fa) as [Fs Ms]. { apply Rle_trans with (bpow radix2 0); [apply bpow_le; lia|simpl; lra]. }
    destruct (exp_mr P EX ax Fa ltac:(lra)) as [Fe Me]. pose proof (sqrt_range _ Hx) as S. destruct (big_low _ Hx) as [W1 W2]. pose proof (i0s_le (val ax) ltac:(lra)) as KU.
    destruct (iq_core _ _ _ _ (tab I0PP y) (tab I0QQ y) (sqrt (val ax)) (exp (val ax)) _ _ (i0s (val ax)) Fe Fp Fs Fq Mp2 Mq2 Ms Me ltac:(lra) ltac:(lra) S W2 W1 ltac:(lra) ltac:(lra) KP ltac:(lra) KR PU) as [Fr Mr].
    split; [exact Fr|]. unfold i0s in Mr. rewrite scaled_back in Mr by lra. eapply mr_weak; [|exact Mr]. unfold vv. lra.
  Qed.
  Lemma i1qq_fl : forall z, fin z -> 0 <= val z <= 1 -> 32 / 100 <= tab I1QQ (val z) -> fin (@poly (ieee P) z I1QQ) /\ mr (6 / 10 ^ 15) (val (@poly (ieee P) z I1QQ)) (tab I1QQ (val z)).
  Proof.
    intros z Fz Hz HT. destruct (poly_werr P z I1QQ (-1.034524660214173e-6)%dec [1.964131438571051e-4%dec; 1.473541892809522e-2%dec; 1.663088501568696e-1%dec; 4.878218424097628e-1%dec; 3.309385098860755e-1%dec] 4 1 Fz Hz eq_refl) as [F H].
    1-3: vm_compute; first [reflexivity|discriminate]. 1: cbn; lia. 1: lia. 1: vm_compute; reflexivity.
    split; [exact F|]. apply mr_weak with (56 / 10 ^ 16 + 2 * (56 / 10 ^ 16 * (56 / 10 ^ 16))); [lra|]. apply mr_of_rel; [lra|]. eapply Rle_trans; [exact H|]. rewrite Rabs_pos_eq by lra.
    replace (bpow radix2 (-51)) with (/ 2 ^ 51) by (rewrite (bpow_powerRZ radix2 (-51)); reflexivity). replace (bpow radix2 (-61)) with (/ 2 ^ 61) by (rewrite (bpow_powerRZ radix2 (-61)); reflexivity). lra.
  Qed.

  Lemma i1_large : forall x, fin x -> 15 <= val x <= 709 -> fin (@i1 (ieee P) x) /\ mr (3 / 10 ^ 14) (val (@i1 (ieee P) x)) (BI (val x) 1).
  Proof.
    intros x Fx Hx. unfold i1. ieee_simpl. assert (Fa : fin (f64_abs x)) by (rewrite fin_abs; exact Fx). assert (Va : val (f64_abs x) = val x) by (rewrite val_abs, Rabs_pos_eq by lra; reflexivity).
    assert (L0 : f64_lt x (f64_lit 0.0) = false) by (apply lt_false; [apply fin_nonnan, Fx|reflexivity|]; rewrite val_0; lra). rewrite L0. clear L0.
    assert (Ha : 15 <= val (f64_abs x) <= 709) by lra. set (ax := f64_abs x) in *. clearbody ax. rewrite (ge_15 ax Fa ltac:(lra)).
    destruct (z_fl ax Fa Ha) as (Fz & Bz & Ez). set (z := sub (f64_lit 1.0) (div (f64_lit 15.0) ax)) in *. clearbody z. rewrite Va in Ez.
    assert (QL0 : forall y, 0 <= y <= 1 -> 32 / 100 <= tab I1QQ y) by (intros y Hy; apply (tab_low I1QQ y 32 100 (full 3) 80); try lia; try exact Hy; vm_compute; reflexivity).
    destruct (poly_fl P z I1PP Fz ltac:(lra) ltac:(discriminate) eq_refl ltac:(cbn; lia)) as [Fp Mp]. destruct (i1qq_fl z Fz Bz (QL0 _ Bz)) as [Fq Mq].
    destruct (i1_rat (val x) ltac:(lra)) as [KP KR]. pose proof (z_unit (val x) ltac:(lra)) as Y. assert (Y' : 0 <= 1 - 15 / val x <= 1) by lra. set (y := 1 - 15 / val x) in *. clearbody y.
    assert (PL : 12 / 100 <= tab I1PP y) by (apply (tab_low I1PP y 12 100 (full 3) 80); try lia; try exact Y'; vm_compute; reflexivity). pose proof (QL0 y Y') as QL.
    assert (QU : tab I1QQ y <= 2) by (apply tab_up; [reflexivity|vm_compute; reflexivity|exact Y']).
    assert (PU : tab I1PP y <= 6 / 10) by (apply Rle_trans with (tab I1PP 1); [apply tab_mono; [reflexivity|lra]|apply (tab_le_z I1PP 1 6 10); vm_compute; reflexivity]).
    pose proof (tab_at I1PP z y _ (12 / 100) Fz Mp Bz Y' Ez eq_refl eq_refl ltac:(lra) PL) as Mp2. pose proof (tab_at I1QQ z y _ (32 / 100) Fz Mq Bz Y' Ez eq_refl eq_refl ltac:(lra) QL) as Mq2.
    apply (mr_weak _ (98 / 10 ^ 16)) in Mp2; [|simpl (INR _); unfold vv; lra]. apply (mr_weak _ (90 / 10 ^ 16)) in Mq2; [|lra].
    destruct (sqrt_mr P ax Fa) as [Fs Ms]. { apply Rle_trans with (bpow radix2 0); [apply bpow_le; lia|simpl; lra]. } rewrite Va in Ms.
    destruct (exp_mr P EX x Fx ltac:(lra)) as [Fe Me]. pose proof (sqrt_range _ Hx) as S. destruct (big_low _ Hx) as [W1 W2]. pose proof (i0s_le (val x) ltac:(lra)) as KU. pose proof (i10s (val x) ltac:(lra)) as KV.
    destruct (iq_core _ _ _ _ (tab I1PP y) (tab I1QQ y) (sqrt (val x)) (exp (val x)) _ _ (i1s (val x)) Fe Fp Fs Fq Mp2 Mq2 Ms Me ltac:(lra) ltac:(lra) S W2 W1 ltac:(lra) ltac:(lra) KP ltac:(lra) KR PU) as [Fr Mr].
    split; [exact Fr|]. unfold i1s in Mr. rewrite scaled_back in Mr by lra. eapply mr_weak; [|exact Mr]. unfold vv. lra.
  Qed.
End Fl.
