(** * Rounding errors of k0, k1 and Kn beyond 1 *)

From Coq Require Import ZArith Reals Bool Lra Lia List.
From Flocq Require Import Core IEEE754.BinarySingleNaN IEEE754.Binary IEEE754.Bits.
From Verif.Model Require Import Base Arith BesselTables Bessel.
From Verif.Float Require Import Bits64 Ieee Exact Platforms.
From Verif.Spec Require Import F64Spec Outcome BesselSpec Bessel2Spec LibmSpec.
From Verif.Proofs Require Import F64 F64Ops Lits Ext ExpBounds FlErr GammaAcc GserAcc PosHorner BesselAcc BesselSeries BesselRat HornerErr PolyZ LnGammaFl EulerGamma SecondSeries SecondRat BesselRec KAcc KnAcc BesselODE BesselLim RatODE KRat KPoly BetaiAcc.
Import ListNotations.
Open Scope R_scope.
Local Notation exp := Rtrigo_def.exp. Local Notation ln := Rpower.ln. Local Notation sqrt := R_sqrt.sqrt.

Lemma exp_690 : forall x, x <= 690 -> bpow radix2 (-996) <= exp (- x).
Proof.
  intros x Hx. rewrite <- (exp_ln (bpow radix2 (-996))) by apply bpow_gt_0. apply exp_mono. rewrite ln_bpow_eq. pose proof ln2_low. lra.
Qed.

Lemma bhalf : forall k j, (j = k - 1)%Z -> bpow radix2 j = bpow radix2 k / 2.
Proof. intros k j ->. unfold Zminus. rewrite bpow_plus. simpl (bpow radix2 (-(1))). unfold Rdiv. reflexivity. Qed.

(** the value of the quotient, over the reals *)
Lemma quot_mr : forall (p q s e s' p' q' e' : R) (a b c d : R), 0 < q -> 0 < s -> mr a p' p -> mr b q' q -> mr c s' s -> mr d e' e ->
  mr (d + a + (c + b)) (e' * p' / (s' * q')) (e * p / (s * q)).
Proof.
  intros p q s e s' p' q' e' a b c d Hq Hs M1 M2 M3 M4. unfold Rdiv. apply mr_mul; [apply mr_mul; assumption|]. apply mr_inv; [apply Rgt_not_eq, Rmult_lt_0_compat; assumption|]. apply mr_mul; assumption.
Qed.

Lemma range_core : forall e p s q, bpow radix2 (-997) <= e <= 2 -> 1 / 2 <= p <= 1000 -> 1 / 2 <= s <= 32 -> 1 / 2 <= q <= 1000 ->
  bpow radix2 (-1022) <= e * p <= 2000 /\ 1 / 4 <= s * q <= 32000.
Proof.
  intros e p s q He Hp Hs Hq. split; split.
  - apply Rle_trans with (bpow radix2 (-998)); [apply bpow_le; lia|]. replace (bpow radix2 (-998)) with (bpow radix2 (-997) * (1 / 2)) by (rewrite (bhalf (-997) (-998)) by reflexivity; lra). pose proof (bpow_gt_0 radix2 (-997)). apply Rmult_le_compat; lra.
  - pose proof (bpow_gt_0 radix2 (-997)). replace 2000 with (2 * 1000) by ring. apply Rmult_le_compat; lra.
  - replace (1 / 4) with (1 / 2 * (1 / 2)) by field. apply Rmult_le_compat; lra.
  - replace 32000 with (32 * 1000) by ring. apply Rmult_le_compat; lra.
Qed.
Lemma range_quot : forall n d, bpow radix2 (-999) <= n <= 2001 -> 1 / 5 <= d <= 32001 -> bpow radix2 (-1014) <= n / d <= bpow radix2 1023.
Proof.
  intros n d Hn Hd. pose proof (bpow_gt_0 radix2 (-999)) as B0. split.
  - replace (bpow radix2 (-1014)) with (bpow radix2 (-999) / 32768) by (change (bpow radix2 (-1014)) with (bpow radix2 (-999 + -15)); rewrite bpow_plus; replace (bpow radix2 (-15)) with (/ 32768) by (simpl; lra); reflexivity).
    unfold Rdiv. apply Rmult_le_compat; [lra|lra|lra|]. apply Rinv_le_contravar; lra.
  - apply Rle_trans with (bpow radix2 20); [|apply bpow_le; lia]. replace (bpow radix2 20) with 1048576 by (simpl; lra).
    assert (/ d <= 5) by (replace 5 with (/ (1 / 5)) by field; apply Rinv_le_contravar; lra). assert (0 < / d) by (apply Rinv_0_lt_compat; lra).
    unfold Rdiv. assert (n * / d <= 2001 * 5) by (apply Rmult_le_compat; lra). lra.
Qed.

Lemma low_core : forall ks s w Py Qy, 0 < ks -> Rabs (Py / Qy - ks) <= 3 / 10 ^ 15 * ks -> 1 <= Py -> 1 <= Qy <= 400 -> 1 <= s <= 27 -> 0 < w -> bpow radix2 (-996) <= / w ->
  bpow radix2 (-1010) <= ks * / (s * w).
Proof.
  intros ks s w Py Qy K0 HR HP HQ HS W0 HW. assert (PQ : 1 / 400 <= Py / Qy). { unfold Rdiv. apply Rmult_le_compat; [lra|left; apply Rinv_0_lt_compat; lra|lra|apply Rinv_le_contravar; lra]. }
  apply Rabs_le_inv in HR. assert (KS : 1 / 401 <= ks) by lra. rewrite Rinv_mult. assert (IS : / 27 <= / s) by (apply Rinv_le_contravar; lra).
  change (bpow radix2 (-1010)) with (bpow radix2 (-14 + -996)). rewrite bpow_plus. replace (bpow radix2 (-14)) with (/ 16384) by (simpl; lra). pose proof (bpow_gt_0 radix2 (-996)) as B0.
  replace (ks * (/ s * / w)) with (ks * / s * / w) by ring. apply Rmult_le_compat; [lra|lra| |exact HW].
  apply Rle_trans with (1 / 401 * / 27); [lra|]. apply Rmult_le_compat; lra.
Qed.

Section Fl.
  Context (P : platform) (EX : accurate_exp (p_exp P)).
  Notation mul := (f64_mul P). Notation add := (f64_add P). Notation sub := (f64_sub P). Notation div := (f64_div P).

  Lemma exp_mr : forall x, fin x -> -700 <= val x <= 709 -> fin (libm P (p_exp P) x) /\ mr (1 / 10 ^ 15) (val (libm P (p_exp P) x)) (exp (val x)).
  Proof.
    intros x Fx Hx. destruct (EX x (fin_nonnan _ Fx) Hx) as [NE QE]. rewrite (libm_nonnan P (p_exp P) x (fin_nonnan _ Fx)).
    assert (ME : mr (1 / 10 ^ 15) (val (p_exp P x)) (exp (val x))).
    { assert (B50 : bpow radix2 (-50) <= 9 / 10 ^ 16) by (simpl; lra). apply mr_weak with (9 / 10 ^ 16 + 2 * (9 / 10 ^ 16 * (9 / 10 ^ 16))); [lra|]. apply mr_of_rel; [lra|]. pose proof (exp_pos (val x)) as X0. rewrite (Rabs_pos_eq (exp _)) by lra. eapply Rle_trans; [exact QE|]. apply Rmult_le_compat_r; lra. }
    split; [|exact ME]. pose proof (exp_pos (val x)) as X0. pose proof (mr_near _ _ _ ME ltac:(lra) X0) as N.
    apply fin_iff_val; [exact NE|]. pose proof (mr_pos _ _ _ ME X0). rewrite Rabs_pos_eq by lra.
    assert (U : exp (val x) <= bpow radix2 1023). { rewrite <- (exp_ln (bpow radix2 1023)) by apply bpow_gt_0. apply exp_mono. rewrite ln_bpow_eq. pose proof ln2_low. lra. }
    assert (BB : bpow radix2 1023 * (3 / 2) < Om).
    { unfold Om. replace (bpow radix2 1024) with (bpow radix2 1023 * 2) by (change 2 with (bpow radix2 1); rewrite <- bpow_plus; reflexivity). pose proof (bpow_gt_0 radix2 1023). lra. }
    lra.
  Qed.

  Lemma gt_1 : forall x, fin x -> 1 < val x -> f64_le x (f64_lit 1.0) = false.
  Proof. intros x Fx Hx. apply le_false; [apply fin_nonnan, Fx|apply fin_nonnan, fin_1|]. rewrite val_1. exact Hx. Qed.

  Lemma large_fl : forall PP QQ x ks, fin x -> 1 < val x <= 690 -> forallb okb PP = true -> forallb okb QQ = true -> length PP = 8%nat -> length QQ = 8%nat ->
    1 <= tab PP 0 -> tab PP 1 <= 900 -> 1 <= tab QQ 0 -> tab QQ 1 <= 400 ->
    0 < ks -> Rabs (tab PP (1 / val x) / tab QQ (1 / val x) - ks) <= 3 / 10 ^ 15 * ks ->
    let z := div (f64_lit 1.0) x in
    let r := div (mul (libm P (p_exp P) (f64_neg x)) (@poly (ieee P) z PP)) (mul (f64_sqrt P x) (@poly (ieee P) z QQ)) in
    fin r /\ mr (14 / 10 ^ 15) (val r) (ks / (sqrt (val x) * exp (val x))) /\ bpow radix2 (-1010) <= ks / (sqrt (val x) * exp (val x)).
  Proof.
    intros PP QQ x ks Fx Hx OP OQ LP LQ P0 P1 Q0 Q1 K0 HR. cbv zeta.
    assert (Y : 0 < 1 / val x <= 1). { split; [apply Rdiv_lt_0_compat; lra|]. apply Rmult_le_reg_r with (val x); [lra|]. unfold Rdiv. rewrite Rmult_assoc, Rinv_l by lra. lra. }
    assert (YL : bpow radix2 (-10) <= 1 / val x). { replace (bpow radix2 (-10)) with (/ 1024) by (simpl; lra). unfold Rdiv. rewrite Rmult_1_l. apply Rinv_le_contravar; lra. }
    destruct (div_mr P (f64_lit 1.0) x fin_1 Fx ltac:(lra)) as [Fz Mz].
    { rewrite val_1, Rabs_pos_eq by lra. split; [eapply Rle_trans; [|exact YL]; apply bpow_le; lia|]. apply Rle_trans with (bpow radix2 0); [simpl; lra|apply bpow_le; lia]. }
    rewrite val_1 in Mz. set (z := div (f64_lit 1.0) x) in *. clearbody z. set (y := 1 / val x) in *. clearbody y.
    pose proof (mr_near _ _ _ Mz ltac:(unfold vv; lra) ltac:(lra)) as Nz.
    assert (Z2 : 0 <= val z <= 256) by (unfold vv in Nz; lra).
    destruct (polyb_fl P z PP Fz Z2 ltac:(intros ->; discriminate) OP ltac:(lia)) as [FP MP]. destruct (polyb_fl P z QQ Fz Z2 ltac:(intros ->; discriminate) OQ ltac:(lia)) as [FQ MQ].
    pose proof (mr_trans _ _ _ _ _ MP (tabb_mr PP vv _ _ OP (Rlt_le _ _ (proj1 Y)) Mz)) as MP2. pose proof (mr_trans _ _ _ _ _ MQ (tabb_mr QQ vv _ _ OQ (Rlt_le _ _ (proj1 Y)) Mz)) as MQ2.
    rewrite LP in MP2. rewrite LQ in MQ2. clear MP MQ. replace (INR 8) with 8 in MP2, MQ2 by (simpl; lra).
    apply (mr_weak _ (40 * vv)) in MP2; [|unfold vv; lra]. apply (mr_weak _ (40 * vv)) in MQ2; [|unfold vv; lra].
    pose proof (tabb_mono PP 0 y OP ltac:(lra)) as TP1. pose proof (tabb_mono PP y 1 OP ltac:(lra)) as TP2.
    pose proof (tabb_mono QQ 0 y OQ ltac:(lra)) as TQ1. pose proof (tabb_mono QQ y 1 OQ ltac:(lra)) as TQ2.
    set (Py := tab PP y) in *. set (Qy := tab QQ y) in *. clearbody Py Qy. set (pf := @poly (ieee P) z PP) in *. set (qf := @poly (ieee P) z QQ) in *. clearbody pf qf.
    pose proof (mr_near _ _ _ MP2 ltac:(unfold vv; lra) ltac:(lra)) as NP. pose proof (mr_near _ _ _ MQ2 ltac:(unfold vv; lra) ltac:(lra)) as NQ.
    assert (BP : 1 / 2 <= val pf <= 1000) by (unfold vv in NP; lra). assert (BQ : 1 / 2 <= val qf <= 1000) by (unfold vv in NQ; lra). clear NP NQ.
    destruct (sqrt_mr P x Fx) as [Fs Ms]. { apply Rle_trans with (bpow radix2 0); [apply bpow_le; lia|simpl; lra]. }
    assert (S1 : 1 <= sqrt (val x)) by (assert (QQ1 : sqrt 1 <= sqrt (val x)) by (apply sqrt_le_1_alt; lra); rewrite sqrt_1 in QQ1; exact QQ1).
    assert (S2 : sqrt (val x) <= 27) by (rewrite <- (sqrt_square 27) by lra; apply sqrt_le_1_alt; lra).
    set (sx := f64_sqrt P x) in *. clearbody sx. pose proof (mr_near _ _ _ Ms ltac:(unfold vv; lra) ltac:(lra)) as NS. assert (BS : 1 / 2 <= val sx <= 32) by (unfold vv in NS; lra). clear NS.
    assert (Fn : fin (f64_neg x)) by (rewrite fin_neg; exact Fx). assert (Vn : val (f64_neg x) = - val x) by apply val_neg.
    destruct (exp_mr (f64_neg x) Fn ltac:(rewrite Vn; lra)) as [Fe Me]. rewrite Vn in Me. set (ef := libm P (p_exp P) (f64_neg x)) in *. clearbody ef.
    pose proof (exp_690 (val x) ltac:(lra)) as E1. assert (E2 : exp (- val x) <= 1) by (rewrite <- exp_0; apply exp_mono; lra).
    rewrite exp_Ropp in *. pose proof (exp_pos (val x)) as X0. set (w := exp (val x)) in *. clearbody w. set (s := sqrt (val x)) in *. clearbody s.
    assert (B7 : bpow radix2 (-997) = bpow radix2 (-996) / 2) by (rewrite (bhalf (-996) (-997)) by reflexivity; lra). pose proof (bpow_gt_0 radix2 (-996)) as B6.
    pose proof (mr_near _ _ _ Me ltac:(lra) ltac:(lra)) as NE.
    assert (BE : bpow radix2 (-997) <= val ef <= 2) by (rewrite B7; lra). clear NE.
    destruct (range_core _ _ _ _ BE BP BS BQ) as [R1 R2].
    assert (B1K : 32000 <= bpow radix2 1023) by (apply Rle_trans with (bpow radix2 15); [simpl; lra|apply bpow_le; lia]).
    assert (Bm : bpow radix2 (-1022) <= 1 / 10) by apply norm_1022.
    assert (EP0 : 0 < val ef * val pf) by (apply Rmult_lt_0_compat; lra).
    destruct (mul_mr P ef pf Fe FP) as [Fm Mm]; [rewrite Rabs_pos_eq; lra|]. destruct (mul_mr P sx qf Fs FQ) as [Fd Md]; [rewrite Rabs_pos_eq; lra|].
    assert (R3 : bpow radix2 (-998) <= val ef * val pf). { replace (bpow radix2 (-998)) with (bpow radix2 (-997) * (1 / 2)) by (rewrite (bhalf (-997) (-998)) by reflexivity; lra). apply Rmult_le_compat; lra. }
    assert (B9 : bpow radix2 (-999) = bpow radix2 (-998) / 2) by (rewrite (bhalf (-998) (-999)) by reflexivity; lra). pose proof (bpow_gt_0 radix2 (-998)) as B8.
    pose proof (mr_near _ _ _ Mm ltac:(unfold vv; lra) EP0) as Nm. pose proof (mr_near _ _ _ Md ltac:(unfold vv; lra) ltac:(lra)) as Nd.
    set (m := mul ef pf) in *. set (d := mul sx qf) in *. clearbody m d.
    assert (Bm1 : bpow radix2 (-999) <= val m <= 2001) by (rewrite B9; unfold vv in Nm; lra). assert (Bd1 : 1 / 5 <= val d <= 32001) by (unfold vv in Nd; lra).
    pose proof (range_quot _ _ Bm1 Bd1) as RQ.
    assert (L14 : bpow radix2 (-1022) <= bpow radix2 (-1014)) by (apply bpow_le; lia). pose proof (bpow_gt_0 radix2 (-1014)) as L14p.
    destruct (div_mr P m d Fm Fd ltac:(lra)) as [Fr Mr]; [rewrite Rabs_pos_eq; lra|]. split; [exact Fr|].
    assert (MM : mr (86 * vv + 1 / 10 ^ 15) (val (div m d)) (/ w * Py / (s * Qy))).
    { pose proof (mr_trans _ _ _ _ _ Mm (mr_mul _ _ _ _ _ _ Me MP2)) as A1. pose proof (mr_trans _ _ _ _ _ Md (mr_mul _ _ _ _ _ _ Ms MQ2)) as A2.
      pose proof (mr_mul _ _ _ _ _ _ A1 (mr_inv _ _ _ (Rgt_not_eq _ _ (Rmult_lt_0_compat s Qy ltac:(lra) ltac:(lra))) A2)) as A3.
      eapply mr_weak; [|exact (mr_trans _ _ _ _ _ Mr A3)]. unfold vv. lra. }
    assert (MR : mr (3 / 10 ^ 15 + 2 * (3 / 10 ^ 15 * (3 / 10 ^ 15))) (Py / Qy) ks) by (apply mr_of_rel; [lra|rewrite (Rabs_pos_eq ks) by lra; exact HR]).
    assert (EQ : / w * Py / (s * Qy) = Py / Qy * / (s * w)) by (field; repeat split; lra).
    assert (EK : ks / (s * w) = ks * / (s * w)) by reflexivity. rewrite EQ in MM. rewrite EK.
    pose proof (mr_trans _ _ _ _ _ MM (mr_scale _ _ _ (/ (s * w)) MR)) as MF. apply (mr_weak _ (14 / 10 ^ 15)) in MF; [|unfold vv; lra].
    split; [exact MF|]. apply low_core with Py Qy; try assumption; lra.
  Qed.

  Lemma tb_lo : forall l, forallb (dz_ok 60) l = true -> (1 * 10 ^ 60 <=? zeval 0 (zs l) * 1)%Z = true -> 1 <= tab l 0.
  Proof. intros l H1 H2. pose proof (tab_ge_z l 0 1 1 H1 eq_refl H2) as T. change (IZR 0) with 0 in T. lra. Qed.
  Lemma tb_hi : forall l, forallb (dz_ok 60) l = true -> (zeval 1 (zs l) * 1 <=? 900 * 10 ^ 60)%Z = true -> tab l 1 <= 900.
  Proof. intros l H1 H2. pose proof (tab_le_z l 1 900 1 H1 eq_refl H2) as T. lra. Qed.
  Lemma tb_hi4 : forall l, forallb (dz_ok 60) l = true -> (zeval 1 (zs l) * 1 <=? 400 * 10 ^ 60)%Z = true -> tab l 1 <= 400.
  Proof. intros l H1 H2. pose proof (tab_le_z l 1 400 1 H1 eq_refl H2) as T. lra. Qed.

  Lemma k0_large : forall x v, fin x -> 1 < val x <= 690 -> is_K 0 (val x) v ->
    fin (@k0 (ieee P) x) /\ mr (14 / 10 ^ 15) (val (@k0 (ieee P) x)) v /\ bpow radix2 (-1010) <= v.
  Proof.
    intros x v Fx Hx Hv. destruct euler_exists as [g Hg]. rewrite (K0_of g Hg _ _ Hv). clear v Hv. destruct (k0_rat g Hg (val x) ltac:(lra)) as [KP KR].
    unfold k0. ieee_simpl. rewrite (gt_1 x Fx ltac:(lra)).
    destruct (large_fl K0PP K0QQ x (k0s g (val x)) Fx Hx eq_refl eq_refl eq_refl eq_refl) as (F & M & L); [apply tb_lo; vm_compute; reflexivity|apply tb_hi; vm_compute; reflexivity|apply tb_lo; vm_compute; reflexivity|apply tb_hi4; vm_compute; reflexivity|exact KP| |].
    { eapply Rle_trans; [exact KR|]. apply Rmult_le_compat_r; lra. }
    assert (E : k0s g (val x) / (sqrt (val x) * exp (val x)) = K0 g (val x)). { unfold k0s. rewrite Rmult_1_l. pose proof (exp_pos (val x)). pose proof (sqrt_lt_R0 (val x) ltac:(lra)). field. lra. }
    rewrite E in M, L. split; [exact F|split; assumption].
  Qed.
  Lemma k1_large : forall x v, fin x -> 1 < val x <= 690 -> is_K 1 (val x) v ->
    fin (@k1 (ieee P) x) /\ mr (14 / 10 ^ 15) (val (@k1 (ieee P) x)) v /\ bpow radix2 (-1010) <= v.
  Proof.
    intros x v Fx Hx Hv. destruct euler_exists as [g Hg]. rewrite (K1_of g Hg (val x) v ltac:(lra) Hv). clear v Hv. destruct (k1_rat g Hg (val x) ltac:(lra)) as [KP KR].
    unfold k1. ieee_simpl. rewrite (gt_1 x Fx ltac:(lra)).
    destruct (large_fl K1PP K1QQ x (k1s g (val x)) Fx Hx eq_refl eq_refl eq_refl eq_refl) as (F & M & L); [apply tb_lo; vm_compute; reflexivity|apply tb_hi; vm_compute; reflexivity|apply tb_lo; vm_compute; reflexivity|apply tb_hi4; vm_compute; reflexivity|exact KP| |].
    { exact KR. }
    assert (E : k1s g (val x) / (sqrt (val x) * exp (val x)) = K1 g (val x)). { unfold k1s. rewrite Rmult_1_l. pose proof (exp_pos (val x)). pose proof (sqrt_lt_R0 (val x) ltac:(lra)). field. lra. }
    rewrite E in M, L. split; [exact F|split; assumption].
  Qed.

  (** ** every order *)
  Definition kL (n : nat) : R := 14 / 10 ^ 15 + 4 * INR n * vv.
  Lemma kL_ge : forall n, 14 / 10 ^ 15 <= kL n.
  Proof. intros n. unfold kL. pose proof (pos_INR n). assert (0 <= 4 * INR n * vv) by (apply Rmult_le_pos; [lra|unfold vv; lra]). lra. Qed.
  Lemma kL_S : forall n, kL (S n) = kL n + 4 * vv.
  Proof. intros n. unfold kL. rewrite S_INR. ring. Qed.
  Lemma kL_le : forall n, (Z.of_nat n <= 2 ^ 32)%Z -> kL n <= 1 / 10 ^ 5.
  Proof.
    intros n Hn. unfold kL. assert (INR n <= 2 ^ 32). { rewrite INR_IZR_INZ. apply IZR_le in Hn. replace (2 ^ 32) with (IZR (2 ^ 32)) by (rewrite (pow_IZR 2 32); reflexivity). exact Hn. }
    assert (4 * INR n * vv <= 4 * 2 ^ 32 * vv) by (apply Rmult_le_compat_r; [unfold vv; lra|lra]). unfold vv in *. lra.
  Qed.

  Lemma K_step_large : forall j t c p kt kc kp e, (1 <= j <= 2 ^ 32)%Z -> fin t -> fin c -> fin p -> mr vv (val t) kt -> / 512 <= kt <= 2 -> bpow radix2 (-1010) <= kc -> 0 < kp ->
    mr e (val c) kc -> mr e (val p) kp -> e <= 1 / 10 ^ 4 -> IZR j * kt * kc + kp <= bpow radix2 1020 ->
    let r := add (mul (mul (f64_of_Z j) t) c) p in fin r /\ mr (e + 4 * vv) (val r) (IZR j * kt * kc + kp).
  Proof.
    intros j t c p kt kc kp e Hj Ft Fc Fp Mt Ht Hc Hp Mc Mp He HB r. pose proof (mr_t0 _ _ _ Mc) as E0.
    destruct (of_Z_exact j ltac:(lia)) as [Fj Vj]. rewrite <- (val_fin _ Fj) in Vj.
    assert (J1 : 1 <= IZR j <= 2 ^ 32). { split; [apply IZR_le; lia|]. replace (2 ^ 32) with (IZR (2 ^ 32)) by (rewrite (pow_IZR 2 32); reflexivity). apply IZR_le. lia. }
    assert (B23 : bpow radix2 1023 = 8 * bpow radix2 1020) by (change 8 with (bpow radix2 3); rewrite <- bpow_plus; reflexivity).
    pose proof (bpow_gt_0 radix2 1020) as B0. pose proof norm_1022 as N22. pose proof (bpow_gt_0 radix2 (-1010)) as B10. pose proof (bpow_gt_0 radix2 (-1022)) as B22.
    assert (BB : 2 ^ 34 <= bpow radix2 1020) by (apply Rle_trans with (bpow radix2 34); [simpl; lra|apply bpow_le; lia]).
    assert (BT : bpow radix2 (-1022) * 8 = / 512 * bpow radix2 (-1010)). { change (bpow radix2 (-1010)) with (bpow radix2 (12 + -1022)). rewrite bpow_plus. simpl (bpow radix2 12). lra. }
    assert (BS : bpow radix2 (-1022) <= / 1024). { apply Rle_trans with (bpow radix2 (-10)); [apply bpow_le; lia|simpl; lra]. }
    assert (JT : / 512 <= IZR j * kt <= 2 ^ 33). { split; [replace (/ 512) with (1 * / 512) by ring|replace (2 ^ 33) with (2 ^ 32 * 2) by ring]; apply Rmult_le_compat; lra. }
    assert (JTC : / 512 * bpow radix2 (-1010) <= IZR j * kt * kc) by (apply Rmult_le_compat; lra).
    set (q := IZR j * kt) in *.
    assert (M1 : mr vv (IZR j * val t) q) by (apply mr_scale_l, Mt). clearbody q.
    pose proof (mr_near _ _ _ M1 ltac:(unfold vv; lra) ltac:(lra)) as N1.
    assert (V1 : / 1000 <= IZR j * val t <= 2 ^ 34) by (unfold vv in N1; lra).
    destruct (mul_mr P (f64_of_Z j) t Fj Ft) as [F1 R1]; [rewrite Vj, Rabs_pos_eq by lra; lra|]. rewrite Vj in R1.
    set (m := mul (f64_of_Z j) t) in *. clearbody m. pose proof (mr_trans _ _ _ _ _ R1 M1) as M2.
    assert (M3 : mr (vv + vv + e) (val m * val c) (q * kc)) by (apply mr_mul; assumption).
    assert (T3 : 0 <= vv + vv + e <= 1 / 1000) by (unfold vv; lra).
    assert (QC : 0 < q * kc) by lra.
    pose proof (mr_near _ _ _ M3 T3 QC) as N3.
    assert (2 * (vv + vv + e) * (q * kc) <= 1 / 100 * (q * kc)) by (apply Rmult_le_compat_r; [lra|unfold vv; lra]).
    assert (V3 : 2 * bpow radix2 (-1022) <= val m * val c <= 2 * bpow radix2 1020) by lra.
    destruct (mul_mr P m c F1 Fc) as [F4 R4]; [rewrite Rabs_pos_eq by lra; lra|].
    set (s := mul m c) in *. clearbody s. pose proof (mr_trans _ _ _ _ _ R4 M3) as M4.
    assert (Mp' : mr (vv + (vv + vv + e)) (val p) kp) by (eapply mr_weak; [|exact Mp]; unfold vv; lra).
    pose proof (mr_add _ _ _ _ _ QC Hp M4 Mp') as M5.
    assert (T5 : 0 <= vv + (vv + vv + e) <= 1 / 1000) by (unfold vv; lra).
    pose proof (mr_near _ _ _ M5 T5 ltac:(lra)) as N5.
    assert (2 * (vv + (vv + vv + e)) * (q * kc + kp) <= 1 / 100 * (q * kc + kp)) by (apply Rmult_le_compat_r; [lra|unfold vv; lra]).
    assert (V5 : bpow radix2 (-1022) <= val s + val p <= 2 * bpow radix2 1020) by lra.
    destruct (add_mr P s p F4 Fp) as [F6 R6]; [rewrite Rabs_pos_eq by lra; lra|]. fold r in F6, R6. split; [exact F6|].
    replace (e + 4 * vv) with (vv + (vv + (vv + vv + e))) by ring. exact (mr_trans _ _ _ _ _ R6 M5).
  Qed.

  Lemma K_low : forall n x a b, fin x -> 1 < val x <= 690 -> is_K n (val x) a -> is_K (S n) (val x) b -> bpow radix2 (-1010) <= a /\ bpow radix2 (-1010) <= b.
  Proof.
    induction n as [|n IH]; intros x a b Fx Hx Ha Hb.
    - destruct (k0_large x a Fx Hx Ha) as (_ & _ & A). destruct (k1_large x b Fx Hx Hb) as (_ & _ & B). split; assumption.
    - destruct (K_exists n (val x) ltac:(lra)) as [z Hz]. destruct (IH x z a Fx Hx Hz Ha) as [Z0 A0].
      split; [exact A0|]. rewrite (K_step n (val x) z a b ltac:(lra) Hz Ha Hb).
      assert (1 <= INR (S n)) by (rewrite S_INR; pose proof (pos_INR n); lra). assert (0 < / val x) by (apply Rinv_0_lt_compat; lra). pose proof (bpow_gt_0 radix2 (-1010)).
      assert (0 <= INR (S n) * (2 * / val x) * a) by (apply Rmult_le_pos; [apply Rmult_le_pos; lra|lra]). lra.
  Qed.

  Lemma Kn_large_mr : forall x, fin x -> 1 < val x <= 690 -> forall n a b, (Z.of_nat n < 2 ^ 32 - 1)%Z -> is_K n (val x) a -> is_K (S n) (val x) b -> a <= bpow radix2 1020 -> b <= bpow radix2 1020 ->
    let ra := @Kn (ieee P) (Z.of_nat n) x in let rb := @Kn (ieee P) (Z.of_nat (S n)) x in
    fin ra /\ fin rb /\ mr (kL n) (val ra) a /\ mr (kL n) (val rb) b.
  Proof.
    intros x Fx Hx.
    induction n as [|n IH]; intros a b Hn Ha Hb HA HB; cbv zeta.
    - destruct (k0_large x a Fx Hx Ha) as (Fa & Ma & _). destruct (k1_large x b Fx Hx Hb) as (Fb & Mb & _).
      change (@Kn (ieee P) (Z.of_nat 0) x) with (@k0 (ieee P) x). change (@Kn (ieee P) (Z.of_nat 1) x) with (@k1 (ieee P) x).
      pose proof (kL_ge 0) as K0. split; [exact Fa|split; [exact Fb|split]]; eapply mr_weak; try exact K0; assumption.
    - destruct (K_exists n (val x) ltac:(lra)) as [z Hz]. destruct (K_low n x z a Fx Hx Hz Ha) as [Z0 A0].
      pose proof (bpow_gt_0 radix2 (-1010)) as B10.
      pose proof (K_step n (val x) z a b ltac:(lra) Hz Ha Hb) as EB.
      assert (N1 : 1 <= INR (S n)) by (rewrite S_INR; pose proof (pos_INR n); lra).
      assert (T : / 690 <= / val x <= 1). { split; [apply Rinv_le_contravar; lra|]. assert (I1 : / val x <= / 1) by (apply Rinv_le_contravar; lra). rewrite Rinv_1 in I1. exact I1. }
      assert (AB : z <= b). { assert (0 <= INR (S n) * (2 * / val x) * a) by (apply Rmult_le_pos; [apply Rmult_le_pos; lra|lra]). lra. }
      destruct (IH z a ltac:(lia) Hz Ha ltac:(lra) HA) as (Fz & Fa & Mz & Ma). cbv zeta in *.
      split; [exact Fa|].
      assert (B23 : 2 <= bpow radix2 1023) by (change 2 with (bpow radix2 1); apply bpow_le; lia).
      assert (BS : bpow radix2 (-1022) <= / 1024). { apply Rle_trans with (bpow radix2 (-10)); [apply bpow_le; lia|simpl; lra]. }
      assert (D2 : val (f64_lit 2.0) / val x = 2 * / val x) by (rewrite val_2; reflexivity).
      destruct (div_mr P (f64_lit 2.0) x fin_2 Fx ltac:(lra)) as [Ft Mt]. { rewrite D2, Rabs_pos_eq; lra. }
      rewrite D2 in Mt.
      pose proof (kL_le n ltac:(lia)) as KE.
      pose proof (K_step_large (Z.of_nat (S n)) (div (f64_lit 2.0) x) (@Kn (ieee P) (Z.of_nat (S n)) x) (@Kn (ieee P) (Z.of_nat n) x) (2 * / val x) a z (kL n) ltac:(lia) Ft Fa Fz Mt ltac:(lra) A0 ltac:(lra) Ma Mz ltac:(lra)) as St.
      rewrite <- INR_IZR_INZ, <- EB in St. destruct (St HB) as [Fr Mr].
      replace (Z.of_nat (S (S n))) with (Z.of_nat (S n) + 1)%Z by lia. rewrite Kn_recurrence by lia. replace (Z.of_nat (S n) - 1)%Z with (Z.of_nat n) by lia.
      split; [exact Fr|]. rewrite kL_S. split; [|exact Mr]. eapply mr_weak; [|exact Ma]. unfold vv. lra.
  Qed.

  (** the orders below are smaller *)
  Lemma K_prev : forall n x a b, fin x -> 1 < val x <= 690 -> is_K n (val x) a -> is_K (S n) (val x) b -> a <= 700 * b.
  Proof.
    intros n x a b Fx Hx Ha Hb. destruct n as [|n].
    - destruct euler_exists as [g Hg]. rewrite (K0_of g Hg _ _ Ha), (K1_of g Hg (val x) b ltac:(lra) Hb). pose proof (K1_K0 g Hg (val x) ltac:(lra)). destruct (k1_large x b Fx Hx Hb) as (_ & _ & B). pose proof (bpow_gt_0 radix2 (-1010)). rewrite (K1_of g Hg (val x) b ltac:(lra) Hb) in B. lra.
    - destruct (K_exists n (val x) ltac:(lra)) as [z Hz]. destruct (K_low n x z a Fx Hx Hz Ha) as [Z0 A0]. pose proof (bpow_gt_0 radix2 (-1010)) as B10.
      rewrite (K_step n (val x) z a b ltac:(lra) Hz Ha Hb).
      assert (N1 : 1 <= INR (S n)) by (rewrite S_INR; pose proof (pos_INR n); lra).
      assert (T : / 690 <= / val x) by (apply Rinv_le_contravar; lra).
      assert (1 * (2 * / 690) * a <= INR (S n) * (2 * / val x) * a) by (apply Rmult_le_compat_r; [lra|apply Rmult_le_compat; lra]). lra.
  Qed.

  Theorem Kn_large_fl : forall (n : nat) x v, (Z.of_nat n < 2 ^ 32)%Z -> fin x -> 1 < val x <= 690 -> is_K n (val x) v -> v <= bpow radix2 1010 ->
    fin (@Kn (ieee P) (Z.of_nat n) x) /\ Rabs (val (@Kn (ieee P) (Z.of_nat n) x) - v) <= (15 / 10 ^ 15 + INR n / 10 ^ 15) * v.
  Proof.
    intros n x v Hn Fx Hx Hv HB. pose proof (bpow_gt_0 radix2 (-1010)) as B10.
    assert (B20 : bpow radix2 1020 = 1024 * bpow radix2 1010) by (change 1024 with (bpow radix2 10); rewrite <- bpow_plus; reflexivity).
    assert (G : fin (@Kn (ieee P) (Z.of_nat n) x) /\ mr (kL n) (val (@Kn (ieee P) (Z.of_nat n) x)) v /\ 0 < v).
    { destruct n as [|n].
      - destruct (k0_large x v Fx Hx Hv) as (Fa & Ma & V0). split; [exact Fa|split; [|lra]]. eapply mr_weak; [|exact Ma]. apply kL_ge.
      - destruct (K_exists n (val x) ltac:(lra)) as [z Hz]. destruct (K_low n x z v Fx Hx Hz Hv) as [_ V0]. pose proof (K_prev n x z v Fx Hx Hz Hv) as ZV.
        destruct (Kn_large_mr x Fx Hx n z v ltac:(lia) Hz Hv ltac:(lra) ltac:(lra)) as (_ & Fr & _ & Mr). split; [exact Fr|split; [|lra]]. rewrite kL_S. eapply mr_weak; [|exact Mr]. unfold vv. lra. }
    destruct G as (F & M & V0). split; [exact F|]. pose proof (kL_ge n) as K1. pose proof (kL_le n ltac:(lia)) as K2.
    apply mr_abs in M; [|lra]. rewrite (Rabs_pos_eq v) in M by lra. eapply Rle_trans; [exact M|]. apply Rmult_le_compat_r; [lra|].
    assert (kL n * kL n <= 1 / 10 ^ 5 * kL n) by (apply Rmult_le_compat_r; lra). unfold kL, vv in *. pose proof (pos_INR n). lra.
  Qed.
End Fl.
