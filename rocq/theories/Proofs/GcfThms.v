(** * Accuracy of gammp and gammq where the continued fraction is used *)

From Coq Require Import ZArith Reals Bool Lra Lia List.
From Flocq Require Import Core IEEE754.BinarySingleNaN IEEE754.Binary IEEE754.Bits.
From Verif.Model Require Import Base Arith Utils Gamma.
From Verif.Float Require Import Bits64 Ieee Exact Platforms.
From Verif.Spec Require Import F64Spec Outcome GammaSpec LibmSpec IncGammaSpec.
From Verif.Proofs Require Import F64 F64Ops Lits Ext ExpBounds ErfcODE Stirling FlErr GammaAcc LnGammaAcc LnGammaFl LnGammaThms BetaAcc IncGamma IncGammaTotal GserAcc GammaPQ GammaRange GammpAcc GcfReal GcfBounds GcfLoop GcfAcc.
Import ListNotations.
Open Scope R_scope.
Local Notation exp := Rtrigo_def.exp.
Local Notation ln := Rpower.ln.

Lemma mr_exp : forall t e L, Rabs (e - L) <= t -> mr t (exp e) (exp L).
Proof. intros t e L H. exists (e - L). split; [exact H|]. rewrite <- exp_plus. f_equal. ring. Qed.

Lemma exp_le_one : forall t, t <= 0 -> exp t <= 1.
Proof. intros t H. rewrite <- exp_0. apply exp_mono, H. Qed.

Lemma exp_8_lt : 1100 < exp 8.
Proof.
  replace 8 with (INR 8 * 1) by (simpl; lra). rewrite exp_pow. apply Rlt_le_trans with ((5 / 2) ^ 8); [simpl; lra|]. apply pow_incr.
  pose proof (StirlingConst.tay_low 4 1 ltac:(lra)) as TL. cbn [StirlingConst.tay] in TL. simpl in TL. lra.
Qed.

Lemma scale2 : forall xa' xax h Q' Q L e, 0 < xa' -> 0 < Q -> Q <= 1 -> xax = exp L -> Rabs (e - L) <= 76 / 10 ^ 11 -> / 1000 <= h ->
  mr (13 / 10 ^ 10) (xa' * h) Q' -> mr (/ 10 ^ 12) xax xa' -> mr (3 / 10 ^ 12) Q' Q -> Q <= 102 / 100 * xax ->
  e <= 8 /\ (e < -700 -> Q <= exp (-680)) /\
  (forall q r, Rabs (q - exp e) <= / 2 ^ 50 * exp e -> mr vv r (q * h) -> Rabs (r - Q) <= 22 / 10 ^ 10 * Q).
Proof.
  intros xa' xax h Q' Q L e X0 Q0 Q1 XL He Hh M1 M2 M3 QX.
  pose proof (mr_exp _ _ _ He) as ME. rewrite <- XL in ME.
  assert (MT : mr (2066 / 10 ^ 12) (exp e * h) Q).
  { apply mr_weak with (((76 / 10 ^ 11 + / 10 ^ 12) + 0) + (13 / 10 ^ 10 + 3 / 10 ^ 12)); [simpl; lra|].
    eapply mr_trans; [|eapply mr_trans; [exact M1|exact M3]]. apply mr_mul; [eapply mr_trans; [exact ME|exact M2]|apply mr_refl; lra]. }
  split; [|split].
  - apply Rnot_lt_le. intros C. assert (exp 8 < exp e) by (apply exp_increasing; exact C). pose proof exp_8_lt.
    pose proof (mr_near (2066 / 10 ^ 12) _ _ MT ltac:(simpl; lra) Q0) as N. assert (1100 * / 1000 <= exp e * h) by (apply Rmult_le_compat; lra). 
    assert (Q * (1 + 2 * (2066 / 10 ^ 12)) <= 1 * (1 + 2 * (2066 / 10 ^ 12))) by (apply Rmult_le_compat_r; [simpl; lra|exact Q1]). simpl in *; lra.
  - intros C. apply Rabs_le_inv in He. apply Rle_trans with (102 / 100 * exp (-699)); [rewrite XL in QX; eapply Rle_trans; [exact QX|]; apply Rmult_le_compat_l; [lra|]; apply exp_mono; simpl in *; lra|].
    replace (-680) with (-699 + 19) by ring. rewrite exp_plus. pose proof (exp_pos (-699)). pose proof exp_20. rewrite Rmult_comm. apply Rmult_le_compat_l; [lra|]. simpl in *; lra.
  - intros q r Hq Mr. pose proof (exp_pos e) as E0.
    assert (MQ : mr (/ 2 ^ 50 + 2 * (/ 2 ^ 50 * / 2 ^ 50)) q (exp e)) by (apply mr_of_rel; [simpl; lra|rewrite (Rabs_pos_eq (exp e)) by lra; exact Hq]).
    assert (MR : mr (2068 / 10 ^ 12) r Q).
    { apply mr_weak with (vv + ((/ 2 ^ 50 + 2 * (/ 2 ^ 50 * / 2 ^ 50) + 0) + 2066 / 10 ^ 12)); [unfold vv; simpl; lra|].
      eapply mr_trans; [exact Mr|]. eapply mr_trans; [|exact MT]. apply mr_mul; [exact MQ|apply mr_refl; lra]. }
    eapply Rle_trans; [apply (mr_abs (2068 / 10 ^ 12) r Q ltac:(simpl; lra) MR)|]. rewrite (Rabs_pos_eq Q) by lra. apply Rmult_le_compat_r; [lra|]. simpl. lra.
Qed.

Lemma range_eq : range 1 10001 = count_from (Z.of_nat 1) (Z.to_nat 10000).
Proof. unfold range. replace (10001 - 1)%Z with 10000%Z by reflexivity. reflexivity. Qed.

Section Cf.
  Variable G : R -> R.
  Hypothesis HG : gamma_function G.
  Context (P : platform) (LN : accurate_ln (p_ln P)) (EX : accurate_exp (p_exp P)).
  Local Notation add := (f64_add P).
  Local Notation sub := (f64_sub P).
  Local Notation mul := (f64_mul P).
  Local Notation div := (f64_div P).

  Definition gcf_scale (a x gln h : f64) : f64 :=
    let e := sub (add (f64_neg x) (mul a (libm P (p_ln P) x))) gln in
    if f64_lt (f64_lit 700.0) e then mul h (@infinity (ieee P))
    else if f64_lt e (f64_neg (f64_lit 700.0)) then f64_lit 0.0
    else mul (libm P (p_exp P) e) h.

  Lemma gcf_eq : forall a x, @gcf (ieee P) a x =
    let b := sub (add x (f64_lit 1.0)) a in
    let d := div (f64_lit 1.0) b in
    let '((_, _, _, h), _) := for_break (range 1 10001) (@gcf_body (ieee P) a) (b, div (f64_lit 1.0) (@FPMIN (ieee P)), d, d) in
    gcf_scale a x (@ln_gamma (ieee P) a) h.
  Proof. reflexivity. Qed.

  Lemma scale_cf : forall a x x' gln h p,
    fin a -> fin x -> / 2 ^ 16 <= val a < 100 -> val a + 999 / 1000 <= val x <= 330 -> Rabs (x' - val x) <= / 10 ^ 12 -> lower_inc_gamma G (val a) p ->
    fin gln -> Rabs (val gln - lG G (val a)) <= 63 / 10 ^ 11 -> Rabs (val gln) <= 23001 ->
    fin h -> / 1000 <= val h <= 2 * 10 ^ 10 -> mr (13 / 10 ^ 10) (xa G (val a) x' * val h) (1 - p x') ->
    let r := gcf_scale a x gln h in
    fin r /\ Rabs (val r - (1 - p (val x))) <= 22 / 10 ^ 10 * (1 - p (val x)) + exp (-680).
  Proof.
    intros a x x' gln h p Fa Fx Ha Hx Hd Hp Fg Eg Bg Fh Bh Mh. cbv zeta. unfold gcf_scale.
    pose proof (log_ok G P LN a x gln Fa Fx ltac:(lra) ltac:(simpl in *; lra) Fg Eg Bg) as [Fe Ee].
    set (e := sub _ gln) in *. clearbody e. destruct lit_700 as [F7 V7]. assert (X0 : 0 < val x) by (simpl in *; lra). assert (A0 : 0 < val a) by (simpl in *; lra).
    assert (HA : 0 < val a < 100) by lra. assert (Ga := G_pos G HG _ A0).
    assert (D12 : / 10 ^ 12 <= / 1000) by (simpl; lra). apply Rabs_le_inv in Hd.
    assert (MX : mr (/ 10 ^ 12) (xa G (val a) (val x)) (xa G (val a) x') /\ mr (3 / 10 ^ 12) (1 - p x') (1 - p (val x))).
    { pose proof (xa_pos G (val a) Ga) as XP. pose proof (Q_pos G (val a) p HG HA Hp) as QP.
      destruct (Rle_lt_dec x' (val x)) as [L|L].
      - pose proof (xa_move G (val a) HG HA x' (val x) ltac:(lra) L) as [B1 B2]. pose proof (Q_move G (val a) p HG HA Hp x' (val x) ltac:(lra) L) as [B3 B4]. split.
        + apply mr_sym. apply mr_of_bounds; [apply XP|]. split.
          * apply Rle_trans with (xa G (val a) (val x) * 1); [|lra]. apply Rmult_le_compat_l; [left; apply XP|]. apply exp_le_one. simpl. lra.
          * eapply Rle_trans; [exact B2|]. apply Rmult_le_compat_l; [left; apply XP|]. apply exp_mono. lra.
        + apply mr_of_bounds; [apply QP; lra|]. split.
          * apply Rle_trans with ((1 - p (val x)) * 1); [|lra]. apply Rmult_le_compat_l; [left; apply QP; lra|]. apply exp_le_one. simpl. lra.
          * eapply Rle_trans; [exact B4|]. apply Rmult_le_compat_l; [left; apply QP; lra|]. apply exp_mono. lra.
      - pose proof (xa_move G (val a) HG HA (val x) x' ltac:(lra) ltac:(lra)) as [B1 B2]. pose proof (Q_move G (val a) p HG HA Hp (val x) x' ltac:(lra) ltac:(lra)) as [B3 B4]. split.
        + apply mr_of_bounds; [apply XP|]. split.
          * apply Rle_trans with (xa G (val a) x' * 1); [|lra]. apply Rmult_le_compat_l; [left; apply XP|]. apply exp_le_one. simpl. lra.
          * eapply Rle_trans; [exact B2|]. apply Rmult_le_compat_l; [left; apply XP|]. apply exp_mono. lra.
        + apply mr_sym. apply mr_of_bounds; [apply QP; lra|]. split.
          * apply Rle_trans with ((1 - p x') * 1); [|lra]. apply Rmult_le_compat_l; [left; apply QP; lra|]. apply exp_le_one. simpl. lra.
          * eapply Rle_trans; [exact B4|]. apply Rmult_le_compat_l; [left; apply QP; lra|]. apply exp_mono. lra. }
    destruct MX as [MX MQ].
    pose proof (Q_pos G (val a) p HG HA Hp (val x) ltac:(lra)) as Q0. pose proof (inc_pos G (val a) Ga A0 p Hp (val x) X0) as PX.
    destruct (scale2 _ _ _ _ _ _ _ (xa_pos G (val a) Ga x') Q0 ltac:(lra) (xa_exp G HG (val a) (val x) A0 X0) Ee (proj1 Bh) Mh MX MQ (Q_le_xa G (val a) p HG A0 Hp (val x) ltac:(lra))) as (C1 & C2 & C3).
    pose proof (exp_pos (-680)) as E680.
    rewrite (proj2 (lt_false (f64_lit 700.0) e (fin_nonnan _ F7) (fin_nonnan _ Fe))) by lra.
    assert (FN : fin (f64_neg (f64_lit 700.0))) by (rewrite fin_neg; exact F7). pose proof (val_neg (f64_lit 700.0)) as VN. rewrite V7 in VN.
    destruct (f64_lt e (f64_neg (f64_lit 700.0))) eqn:C.
    - apply lt_true in C. destruct C as (_ & _ & C). rewrite VN in C. split; [reflexivity|]. rewrite val_0. specialize (C2 ltac:(lra)).
      replace (0 - (1 - p (val x))) with (- (1 - p (val x))) by ring. rewrite Rabs_Ropp, Rabs_pos_eq by lra. simpl in *; lra.
    - apply lt_false in C; [|apply fin_nonnan, Fe|apply fin_nonnan, FN]. rewrite VN in C.
      destruct (EX e (fin_nonnan _ Fe) ltac:(lra)) as [Nq Rq].
      set (q := libm P (p_exp P) e). assert (Eq : q = p_exp P e) by (unfold q; apply libm_nonnan, fin_nonnan, Fe). rewrite <- Eq in Nq, Rq. clearbody q. clear Eq.
      assert (EU : exp (val e) <= 2 ^ 16).
      { apply Rle_trans with (exp 8); [apply exp_mono, C1|]. replace 8 with (INR 8 * 1) by (simpl; lra). rewrite exp_pow. apply Rle_trans with (4 ^ 8); [apply pow_incr; split; [left; apply exp_pos|]|simpl; lra].
        pose proof exp_le_3. lra. }
      assert (EL : bpow radix2 (-1011) <= exp (val e)).
      { apply Rle_trans with (exp (-700)); [|apply exp_mono; lra]. exact exp_m700. }
      replace (bpow radix2 (-50)) with (/ 2 ^ 50) in Rq by (simpl; lra).
      assert (QR : exp (val e) * (9999 / 10000) <= val q <= exp (val e) * 2) by (apply Rabs_le_inv in Rq; simpl in *; lra).
      assert (Fq : fin q).
      { apply fin_iff_val; [exact Nq|]. rewrite Rabs_pos_eq by (pose proof (exp_pos (val e)); lra). pose proof Om_big. simpl in *; lra. }
      assert (PR : bpow radix2 (-1022) <= Rabs (val q * val h) <= bpow radix2 1023).
      { pose proof (bpow_gt_0 radix2 (-1011)) as B0. rewrite Rabs_pos_eq by (apply Rmult_le_pos; lra). split.
        - replace (bpow radix2 (-1022)) with (bpow radix2 (-1011) * / 2048) by (change (/ 2048) with (bpow radix2 (-11)); rewrite <- bpow_plus; reflexivity).
          apply Rle_trans with (bpow radix2 (-1011) * (9999 / 10000) * / 1000); [lra|]. apply Rmult_le_compat; lra.
        - apply Rle_trans with (bpow radix2 52); [|apply bpow_le; lia]. change (bpow radix2 52) with 4503599627370496. apply Rle_trans with (2 ^ 16 * 2 * (2 * 10 ^ 10)); [apply Rmult_le_compat; lra|simpl; lra]. }
      destruct (mul_mr P q h Fq Fh PR) as [Fr Mr]. split; [exact Fr|].
      pose proof (C3 _ _ Rq Mr). lra.
  Qed.

  Theorem gcf_acc : forall a x p, fin a -> fin x -> / 2 ^ 16 <= val a < 100 -> val a + 999 / 1000 <= val x <= 330 -> lower_inc_gamma G (val a) p ->
    let r := @gcf (ieee P) a x in
    fin r /\ Rabs (val r - (1 - p (val x))) <= 22 / 10 ^ 10 * (1 - p (val x)) + exp (-680).
  Proof.
    intros a x p Fa Fx Ha Hx Hp. cbv zeta. rewrite gcf_eq. cbv zeta.
    pose proof (lng_1000 G HG P LN a Fa ltac:(lra)) as H1. set (gl := @ln_gamma (ieee P) a) in *. clearbody gl. set (FP := @FPMIN (ieee P)) in *.
    pose proof eta_small as ES. pose proof tiny_20 as T20. pose proof eta_pos as EP. assert (A0 : 0 < val a) by (eapply Rlt_le_trans; [|apply Ha]; simpl; lra).
    destruct (add_fl P x _ Fx fin_1) as [F1 E1]; [rewrite val_1; apply (below _ 1000); [rewrite Rabs_pos_eq; lra|simpl; lra]|]. rewrite val_1, (Rabs_pos_eq (val x + 1)) in E1 by lra.
    set (x1 := add x (f64_lit 1.0)) in *. clearbody x1. apply Rabs_le_inv in E1. unfold uu in E1.
    assert (E1' : Rabs (val x1 - (val x + 1)) <= 4 / 10 ^ 14) by (apply Rabs_le; cbn [pow] in *; lra).
    assert (B1 : 1.998 <= val x1 - val a <= 332) by (apply Rabs_le_inv in E1'; cbn [pow] in *; lra).
    destruct (sub_fl P x1 a F1 Fa) as [Fb Eb]; [apply (below _ 1000); [rewrite Rabs_pos_eq; lra|simpl; lra]|]. rewrite (Rabs_pos_eq (val x1 - val a)) in Eb by lra.
    set (b := sub x1 a) in *. clearbody b. apply Rabs_le_inv in Eb. unfold uu in Eb. apply Rabs_le_inv in E1'.
    assert (Hd : Rabs (val b - 1 + val a - val x) <= / 10 ^ 12) by (apply Rabs_le; cbn [pow] in *; lra). clear E1. pose proof Hd as Hd2. apply Rabs_le_inv in Hd2.
    assert (Bb : 1 <= val b <= 1000) by (cbn [pow] in *; lra). assert (Bb2 : 1.99 <= val b <= 333) by (cbn [pow] in *; lra).
    assert (Ib : / 1000 <= 1 / val b <= 1).
    { replace (1 / val b) with (/ val b) by (field; lra). split; [apply Rinv_le_contravar; lra|]. rewrite <- Rinv_1. apply Rinv_le_contravar; lra. }
    destruct (div_mr P _ b fin_1 Fb ltac:(lra)) as [Fd Md]; [rewrite val_1; apply rng; simpl; lra|]. rewrite val_1 in Md.
    set (d := div (f64_lit 1.0) b) in *. clearbody d.
    destruct (fpmin_facts P) as [FM VM]. pose proof (bpow_gt_0 radix2 (-970)) as B970.
    assert (V1 : val (f64_lit 1.0) / val (@FPMIN (ieee P)) = bpow radix2 970).
    { rewrite val_1, VM. change (-970)%Z with (Z.opp 970). rewrite bpow_opp. unfold Rdiv. rewrite Rinv_inv. ring. }
    assert (P970 : Rabs (bpow radix2 970) <= bpow radix2 1000) by (rewrite Rabs_pos_eq by apply bpow_ge_0; apply bpow_le; lia).
    destruct (div_fl P _ _ fin_1 FM ltac:(rewrite VM; lra)) as [Fc Ec]; [rewrite V1; exact P970|]. rewrite V1 in Ec.
    assert (C35 : 10 ^ 35 <= val (div (f64_lit 1.0) (@FPMIN (ieee P)))).
    { rewrite (Rabs_pos_eq (bpow radix2 970)) in Ec by apply bpow_ge_0. set (z := val (div _ _)) in *. clearbody z.
      assert (B120 : 10 ^ 36 <= bpow radix2 970) by (apply Rle_trans with (bpow radix2 120); [change (bpow radix2 120) with (IZR (2 ^ 120)); replace (10 ^ 36) with (IZR (10 ^ 36)) by (simpl; lra); apply IZR_le; vm_compute; discriminate|apply bpow_le; lia]).
      set (Z := bpow radix2 970) in *. clearbody Z. apply Rabs_le_inv in Ec. unfold uu in Ec. cbn [pow] in *. lra. }
    fold FP in Fc, C35. set (c := div (f64_lit 1.0) FP) in *. clearbody c.
    assert (V0 : 0 <= vv) by (unfold vv; lra).
    set (x' := val b - 1 + val a) in *.
    assert (HI : Inv a (val b) 0 (b, c, d, d)).
    { unfold Inv. split; [apply Binv_0; assumption|]. split; [split; assumption|].
      assert (Bx : bb (val a) 0 x' = val b) by (unfold bb, x'; simpl; ring).
      split; split; try exact Fd.
      - apply mr_weak with vv; [lra|]. unfold D. fold x'. cbn [BB]. rewrite Bx. replace (/ (val b / 1)) with (1 / val b) by (field; lra). exact Md.
      - cbv beta. simpl INR. apply mr_weak with vv; [lra|]. unfold ww. fold x'. cbn [AA BB]. rewrite Bx. exact Md. }
    assert (IN : INR (Z.to_nat 10000) = 10000) by (rewrite INR_IZR_INZ, Z2Nat.id by lia; reflexivity).
    destruct (gcf_h P G a p (val b) HG Fa ltac:(lra) Hp ltac:(fold x'; cbn [pow] in *; lra) ltac:(fold x'; cbn [pow] in *; lra) (Z.to_nat 10000) 0 _ ltac:(rewrite plus_O_n, IN; lra) ltac:(rewrite plus_O_n, IN; lra) HI)
      as (b' & c' & d' & h & f & E & Fh & Bh & Mh). fold x' in Mh.
    rewrite range_eq.
    match goal with |- context [for_break ?l ?bo ?s] => replace (for_break l bo s) with ((b', c', d', h), f) by (symmetry; exact E) end. cbv iota beta.
    exact (scale_cf a x x' _ h p Fa Fx Ha Hx Hd Hp (proj1 H1) (proj1 (proj2 H1)) (proj2 (proj2 H1)) Fh Bh Mh).
  Qed.
End Cf.
