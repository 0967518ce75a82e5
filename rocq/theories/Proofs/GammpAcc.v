(** * Accuracy of gammp and gammq where the series is used *)

From Coq Require Import ZArith Reals Bool Lra Lia List.
From Flocq Require Import Core IEEE754.BinarySingleNaN IEEE754.Binary IEEE754.Bits.
From Verif.Model Require Import Base Arith Utils Gamma.
From Verif.Float Require Import Bits64 Ieee Exact Platforms.
From Verif.Spec Require Import F64Spec Outcome GammaSpec LibmSpec IncGammaSpec.
From Verif.Proofs Require Import F64 F64Ops Lits Ext ExpBounds Stirling FlErr GammaAcc LnGammaAcc LnGammaFl LnGammaThms BetaAcc IncGamma IncGammaTotal GserAcc GammaPQ GammaRange.
Import ListNotations.
Open Scope R_scope.
Local Notation exp := Rtrigo_def.exp.
Local Notation ln := Rpower.ln.

(** ** Scaling the series *)

Section Scale.
  Variable G : R -> R.
  Hypothesis HG : gamma_function G.
  Context (P : platform) (LN : accurate_ln (p_ln P)) (EX : accurate_exp (p_exp P)).

  Lemma xa_exp : forall a x, 0 < a -> 0 < x -> xa G a x = exp (- x + a * ln x - lG G a).
  Proof.
    intros a x Ha Hx. unfold xa, Rpower, lG. pose proof (G_pos G HG a Ha). replace (- x + a * ln x - ln (G a)) with (a * ln x + - x + - ln (G a)) by ring.
    rewrite !exp_plus, (exp_Ropp (ln (G a))), exp_ln by assumption. reflexivity.
  Qed.

  Lemma ln_x_range : forall x, / 2 ^ 68 <= x <= 1100 -> Rabs (ln x) <= 68.
  Proof.
    intros x Hx. apply Rabs_le. split.
    - assert (- ln x <= 68); [|lra]. rewrite <- ln_Rinv by (simpl in *; lra). apply Rle_trans with (ln (bpow radix2 68)); [|apply ln_bpow; lia].
      apply ln_mono; [apply Rinv_0_lt_compat; simpl in *; lra|]. replace (bpow radix2 68) with (/ / 2 ^ 68) by (rewrite Rinv_inv; simpl; lra). apply Rinv_le_contravar; simpl in *; lra.
    - apply Rle_trans with (ln (bpow radix2 11)); [|eapply Rle_trans; [apply ln_bpow; lia|simpl; lra]]. apply ln_mono; [simpl in *; lra|]. change (bpow radix2 11) with 2048. lra.
  Qed.

  (** the exponent *)
  Lemma log_ok : forall a x gln, fin a -> fin x -> / 2 ^ 16 <= val a <= 1000 -> / 2 ^ 68 <= val x <= 1100 ->
    fin gln -> Rabs (val gln - lG G (val a)) <= 63 / 10 ^ 11 -> Rabs (val gln) <= 23001 ->
    let e := f64_sub P (f64_add P (f64_neg x) (f64_mul P a (libm P (p_ln P) x))) gln in
    fin e /\ Rabs (val e - (- val x + val a * ln (val x) - lG G (val a))) <= 76 / 10 ^ 11.
  Proof.
    intros a x gln Fa Fx Ha Hx Fg Eg Bg. cbv zeta.
    pose proof eta_small as ES. pose proof tiny_20 as T20. pose proof eta_pos as EP.
    assert (UB : forall t, Rabs t <= 10 ^ 6 -> Rabs t <= bpow radix2 1000) by (intros t Ht; apply (bpow_le_1000 _ 20); [lia|change (bpow radix2 20) with 1048576; simpl in *; lra]).
    pose proof (ln_x_range (val x) Hx) as LX.
    destruct (ln_fl P LN x Fx ltac:(simpl in *; lra) ltac:(simpl in *; lra)) as [Fl El]. set (l := libm P (p_ln P) x) in *. clearbody l.
    assert (El' : Rabs (val l - ln (val x)) <= 7 / 10 ^ 14) by (unfold uu in El; lra). clear El.
    assert (Bl : Rabs (val l) <= 69).
    { pose proof (Rabs_triang (val l - ln (val x)) (ln (val x))) as T. replace (val l - ln (val x) + ln (val x)) with (val l) in T by ring. lra. }
    assert (Ba : Rabs (val a * val l) <= 69000).
    { rewrite Rabs_mult, (Rabs_pos_eq (val a)) by (simpl in *; lra). apply Rle_trans with (1000 * 69); [apply Rmult_le_compat; [simpl in *; lra|apply Rabs_pos|lra|lra]|lra]. }
    destruct (mul_fl P a l Fa Fl) as [Fm Em]; [apply UB; lra|]. set (m := f64_mul P a l) in *. clearbody m.
    assert (Em' : Rabs (val m - val a * val l) <= 8 / 10 ^ 12) by (unfold uu in Em; lra). clear Em.
    assert (Fn : fin (f64_neg x)) by (rewrite fin_neg; exact Fx). pose proof (val_neg x) as Vn. set (nx := f64_neg x) in *. clearbody nx.
    assert (Bm : Rabs (val m) <= 69001).
    { pose proof (Rabs_triang (val m - val a * val l) (val a * val l)) as T. replace (val m - val a * val l + val a * val l) with (val m) in T by ring. lra. }
    assert (Bx : Rabs (val nx) <= 1100) by (rewrite Vn, Rabs_Ropp, Rabs_pos_eq; simpl in *; lra).
    assert (Bs : Rabs (val nx + val m) <= 70101) by (eapply Rle_trans; [apply Rabs_triang|lra]).
    destruct (add_fl P nx m Fn Fm) as [Fs Es]; [apply UB; lra|]. set (s := f64_add P nx m) in *. clearbody s.
    assert (Es' : Rabs (val s - (val nx + val m)) <= 8 / 10 ^ 12) by (unfold uu in Es; lra). clear Es.
    assert (Bss : Rabs (val s) <= 70102).
    { pose proof (Rabs_triang (val s - (val nx + val m)) (val nx + val m)) as T. replace (val s - (val nx + val m) + (val nx + val m)) with (val s) in T by ring. lra. }
    assert (Bd : Rabs (val s - val gln) <= 93103) by (unfold Rminus; eapply Rle_trans; [apply Rabs_triang|]; rewrite Rabs_Ropp; lra).
    destruct (sub_fl P s gln Fs Fg) as [Fe Ee]; [apply UB; lra|]. set (e := f64_sub P s gln) in *. clearbody e.
    assert (Ee' : Rabs (val e - (val s - val gln)) <= 11 / 10 ^ 12) by (unfold uu in Ee; lra). clear Ee.
    split; [exact Fe|]. rewrite Vn in *.
    assert (Ea : Rabs (val a * (val l - ln (val x))) <= 7 / 10 ^ 11).
    { rewrite Rabs_mult, (Rabs_pos_eq (val a)) by (simpl in *; lra). apply Rle_trans with (1000 * (7 / 10 ^ 14)); [apply Rmult_le_compat; [simpl in *; lra|apply Rabs_pos|lra|lra]|lra]. }
    replace (val e - (- val x + val a * ln (val x) - lG G (val a))) with ((val e - (val s - val gln)) + ((val s - (- val x + val m)) + ((val m - val a * val l) + (val a * (val l - ln (val x)) + - (val gln - lG G (val a)))))) by ring.
    eapply Rle_trans; [apply Rabs_triang|]. eapply Rle_trans; [apply Rplus_le_compat_l, Rabs_triang|].
    eapply Rle_trans; [do 2 apply Rplus_le_compat_l; apply Rabs_triang|]. eapply Rle_trans; [do 3 apply Rplus_le_compat_l; apply Rabs_triang|]. rewrite Rabs_Ropp. lra.
  Qed.

  Lemma exp_20 : 3 * 10 ^ 7 <= exp 19.
  Proof.
    replace 19 with (INR 19 * 1) by (rewrite INR_IZR_INZ; simpl; lra). rewrite exp_pow.
    pose proof (StirlingConst.tay_low 4 1 ltac:(lra)) as TL. cbn [StirlingConst.tay] in TL.
    apply Rle_trans with ((5 / 2) ^ 19); [simpl; lra|]. apply pow_incr. simpl in TL. lra.
  Qed.

  Lemma exp_m700 : bpow radix2 (-1011) <= exp (-700).
  Proof.
    change (-1011)%Z with (Z.opp 1011). rewrite bpow_opp. replace (-700) with (- (700)) by ring. rewrite exp_Ropp. apply Rinv_le_contravar; [apply exp_pos|].
    pose proof exp_709 as E. replace 709 with (700 + INR 9 * 1) in E by (simpl; lra). rewrite exp_plus, exp_pow in E.
    pose proof (StirlingConst.tay_low 4 1 ltac:(lra)) as TL. cbn [StirlingConst.tay] in TL.
    assert (E9 : 4096 <= exp 1 ^ 9) by (apply Rle_trans with ((27 / 10) ^ 9); [simpl; lra|]; apply pow_incr; simpl in TL; lra).
    replace (bpow radix2 1023) with (bpow radix2 1011 * 4096) in E by (change 4096 with (bpow radix2 12); rewrite <- bpow_plus; reflexivity).
    apply Rmult_le_reg_r with 4096; [lra|]. eapply Rle_trans; [|exact E]. apply Rmult_le_compat_l; [left; apply exp_pos|exact E9].
  Qed.

  (** putting series and scale together, over the reals *)
  Lemma scale_core : forall a x s Sm tm m p e r q,
    / 2 ^ 16 <= a <= 1000 -> 0 < x <= a + 1 -> (1 <= m <= 110)%nat -> lower_inc_gamma G a p ->
    Sm = part a m x -> tm = term a m x -> mr (2 / 10 ^ 12) s Sm -> tm <= / 2 ^ 51 * Sm ->
    Rabs (e - (- x + a * ln x - lG G a)) <= 76 / 10 ^ 11 ->
    e <= 8 /\
    (e < -700 -> p x <= exp (-680)) /\
    (-700 <= e -> Rabs (q - exp e) <= bpow radix2 (-50) * exp e -> mr vv r (s * q) -> Rabs (r - p x) <= / 10 ^ 9 * p x).
  Proof.
    intros a x s Sm tm m p e r q Ha Hx Hm Hp ES ET Ms Ht Ee. set (L := - x + a * ln x - lG G a) in *.
    assert (A0 : 0 < a) by (simpl in *; lra). assert (X0 : 0 < x) by lra. pose proof (G_pos G HG a A0) as Ga.
    pose proof (xa_exp a x A0 X0) as XE. fold L in XE.
    pose proof (series_low G a Ga A0 p Hp m x X0) as LO. rewrite <- ES, XE in LO.
    assert (M1 : 1 <= INR m) by (replace 1 with (INR 1) by reflexivity; apply le_INR; lia).
    pose proof (series_up G a Ga A0 p Hp m x ltac:(lra)) as UP. rewrite <- ES, <- ET, XE in UP.
    pose proof (part_pos a A0 m x X0) as SP. rewrite <- ES in SP. pose proof (term_pos a A0 m x X0) as TP. rewrite <- ET in TP.
    pose proof (exp_pos L) as EL.
    assert (RT : x / (a + INR m + 1 - x) <= 1001).
    { apply Rle_trans with (1001 * / 1); [|lra]. apply Rmult_le_compat; [lra|left; apply Rinv_0_lt_compat; lra|lra|apply Rinv_le_contravar; lra]. }
    assert (UP' : p x <= exp L * Sm * (1 + 1 / 10 ^ 12)).
    { eapply Rle_trans; [exact UP|]. rewrite Rmult_assoc. apply Rmult_le_compat_l; [lra|].
      assert (tm * (x / (a + INR m + 1 - x)) <= tm * 1001) by (apply Rmult_le_compat_l; lra). simpl in *. lra. }
    assert (PP : 0 < exp L * Sm) by (apply Rmult_lt_0_compat; assumption).
    assert (MP : mr (1 / 10 ^ 12) (p x) (exp L * Sm)).
    { apply mr_of_bounds; [exact PP|]. split.
      - rewrite <- (Rmult_1_r (exp L * Sm)) in LO. eapply Rle_trans; [|exact LO]. apply Rmult_le_compat_l; [lra|].
        apply Rle_trans with (exp 0); [apply exp_mono; lra|rewrite exp_0; lra].
      - eapply Rle_trans; [exact UP'|]. apply Rmult_le_compat_l; [lra|]. apply exp_ineq1_le. }
    pose proof (inc_le_1 G HG a p A0 Hp x X0) as P1. pose proof (inc_low G a Ga A0 p Hp x X0) as P0. rewrite XE in P0.
    assert (LU : L <= 7).
    { assert (E1 : exp L <= a). { apply Rmult_le_reg_r with (/ a); [apply Rinv_0_lt_compat, A0|]. rewrite Rinv_r by lra. unfold Rdiv in P0. lra. }
      pose proof (StirlingConst.tay_low 4 1 ltac:(lra)) as TL. cbn [StirlingConst.tay] in TL.
      assert (E7 : 1000 <= exp 7).
      { replace 7 with (INR 7 * 1) by (simpl; lra). rewrite exp_pow. apply Rle_trans with ((27 / 10) ^ 7); [simpl; lra|]. apply pow_incr. simpl in TL. lra. }
      apply Rnot_lt_le. intros N. apply exp_increasing in N. lra. }
    pose proof Ee as Ee'. apply Rabs_le_inv in Ee'. split; [lra|]. split.
    - intros Hlow. assert (LL : L <= -699) by lra. eapply Rle_trans; [exact UP'|].
      pose proof (part_up a x A0 X0 m ltac:(lra)) as PU. rewrite <- ES in PU.
      assert (T0 : term a 0 x <= 2 ^ 16).
      { unfold term. change (1 / a <= 2 ^ 16). replace (1 / a) with (/ a) by (field; lra). replace (2 ^ 16) with (/ / 2 ^ 16) by (field; lra). apply Rinv_le_contravar; simpl in *; lra. }
      assert (M2 : INR (S m) <= 111) by (replace 111 with (INR 111) by (rewrite INR_IZR_INZ; reflexivity); apply le_INR; lia).
      assert (SU : Sm <= 111 * 2 ^ 16) by (eapply Rle_trans; [exact PU|]; apply Rmult_le_compat; [apply pos_INR|left; apply term_pos; assumption|exact M2|exact T0]).
      pose proof exp_20 as E20. pose proof (exp_mono _ _ LL) as EM. pose proof (exp_pos (-699)) as E699.
      replace (-680) with (-699 + 19) by ring. rewrite exp_plus, Rmult_assoc. apply Rmult_le_compat; [lra| |exact EM|]; simpl in *; lra.
    - intros Hge Hq Hr.
      assert (Mq : mr (2 / 10 ^ 15) q (exp e)).
      { eapply mr_weak; [|apply (mr_of_rel (1 / 10 ^ 15))]; [lra|lra|]. rewrite (Rabs_pos_eq (exp e)) by (left; apply exp_pos). eapply Rle_trans; [exact Hq|]. apply Rmult_le_compat_r; [left; apply exp_pos|]. simpl; lra. }
      assert (Me : mr (76 / 10 ^ 11) (exp e) (exp L)).
      { exists (e - L). split; [exact Ee|]. rewrite <- exp_plus. f_equal. ring. }
      assert (MT : mr (vv + (2 / 10 ^ 12 + (2 / 10 ^ 15 + 76 / 10 ^ 11) + 1 / 10 ^ 12)) r (p x)).
      { eapply mr_trans; [exact Hr|]. eapply mr_trans; [|apply mr_sym, MP]. rewrite (Rmult_comm (exp L)). apply mr_mul; [exact Ms|]. eapply mr_trans; [exact Mq|exact Me]. }
      assert (PX : 0 < p x) by (apply (inc_pos G a Ga A0 p Hp); exact X0).
      apply mr_abs in MT; [|unfold vv; lra]. rewrite (Rabs_pos_eq (p x)) in MT by lra. eapply Rle_trans; [exact MT|]. apply Rmult_le_compat_r; [lra|]. unfold vv. lra.
  Qed.

  Lemma count_len : forall n a, length (count_from a n) = n.
  Proof. induction n as [|n IH]; intros a; [reflexivity|]. cbn [count_from length]. rewrite IH. reflexivity. Qed.
  Lemma range_len : (110 <= length (range 0 10000))%nat.
  Proof. unfold range. rewrite count_len. apply Nat2Z.inj_le. rewrite Z2Nat.id by lia. lia. Qed.

  Lemma lit_700 : fin (f64_lit 700.0) /\ val (f64_lit 700.0) = 700.
  Proof. lit_facts 700.0%dec 700%Z 0%Z HF HV. split; [exact HF|]. rewrite HV. simpl. lra. Qed.

  Definition gser_after (a x gln sum : f64) : f64 := @gser_scale (ieee P) a x gln sum.

  Lemma scale_fl : forall a x gln sum m p,
    fin a -> fin x -> / 2 ^ 16 <= val a <= 1000 -> / 2 ^ 68 <= val x <= val a + 1 -> (1 <= m <= 110)%nat -> lower_inc_gamma G (val a) p ->
    fin gln -> Rabs (val gln - lG G (val a)) <= 63 / 10 ^ 11 -> Rabs (val gln) <= 23001 ->
    fin sum -> mr (2 / 10 ^ 12) (val sum) (part (val a) m (val x)) -> term (val a) m (val x) <= / 2 ^ 51 * part (val a) m (val x) ->
    let r := gser_after a x gln sum in
    fin r /\ Rabs (val r - p (val x)) <= / 10 ^ 9 * p (val x) + exp (-680).
  Proof.
    intros a x gln sum m p Fa Fx Ha Hx Hm Hp Fg Eg Bg Fs Ms Ht. cbv zeta. unfold gser_after, gser_scale. ieee_simpl.
    pose proof (log_ok a x gln Fa Fx Ha ltac:(simpl in *; lra) Fg Eg Bg) as [Fe Ee].
    set (e := f64_sub P _ gln) in *. clearbody e. destruct lit_700 as [F7 V7]. assert (X0 : 0 < val x) by (simpl in *; lra). assert (A0 : 0 < val a) by (simpl in *; lra).
    set (q := libm P (p_exp P) e).
    destruct (scale_core (val a) (val x) (val sum) _ _ m p (val e) (val (f64_mul P sum q)) (val q) Ha ltac:(lra) Hm Hp eq_refl eq_refl Ms Ht Ee) as (C1 & C2 & C3).
    pose proof (inc_pos G (val a) (G_pos G HG _ A0) A0 p Hp (val x) X0) as PX. pose proof (exp_pos (-680)) as E680.
    rewrite (proj2 (lt_false (f64_lit 700.0) e (fin_nonnan _ F7) (fin_nonnan _ Fe))) by lra.
    assert (FN : fin (f64_neg (f64_lit 700.0))) by (rewrite fin_neg; exact F7). pose proof (val_neg (f64_lit 700.0)) as VN. rewrite V7 in VN.
    destruct (f64_lt e (f64_neg (f64_lit 700.0))) eqn:C.
    - apply lt_true in C. destruct C as (_ & _ & C). rewrite VN in C. split; [reflexivity|]. rewrite val_0. specialize (C2 ltac:(lra)).
      replace (0 - p (val x)) with (- p (val x)) by ring. rewrite Rabs_Ropp, Rabs_pos_eq by lra. lra.
    - apply lt_false in C; [|apply fin_nonnan, Fe|apply fin_nonnan, FN]. rewrite VN in C.
      destruct (EX e (fin_nonnan _ Fe) ltac:(lra)) as [Nq Rq].
      assert (Eq : q = p_exp P e) by (unfold q; apply libm_nonnan, fin_nonnan, Fe). rewrite <- Eq in Nq, Rq. clearbody q. clear Eq.
      pose proof (part_ge (val a) (val x) A0 X0 m) as PG. pose proof (part_up (val a) (val x) A0 X0 m ltac:(lra)) as PU.
      assert (T0 : 1 / 1000 <= term (val a) 0 (val x) <= 2 ^ 16).
      { unfold term. change (1 / 1000 <= 1 / val a <= 2 ^ 16). replace (1 / val a) with (/ val a) by (field; lra). split.
        - replace (1 / 1000) with (/ 1000) by lra. apply Rinv_le_contravar; lra.
        - replace (2 ^ 16) with (/ / 2 ^ 16) by (field; lra). apply Rinv_le_contravar; simpl in *; lra. }
      assert (M2 : INR (S m) <= 111) by (replace 111 with (INR 111) by (rewrite INR_IZR_INZ; reflexivity); apply le_INR; lia).
      assert (SU : part (val a) m (val x) <= 111 * 2 ^ 16) by (eapply Rle_trans; [exact PU|]; apply Rmult_le_compat; [apply pos_INR|lra|exact M2|lra]).
      pose proof (mr_near _ _ _ Ms ltac:(lra) ltac:(lra)) as NS.
      assert (SR : 1 / 1001 <= val sum <= 2 ^ 24).
      { assert (part (val a) m (val x) * (9999 / 10000) <= val sum) by (eapply Rle_trans; [|apply NS]; apply Rmult_le_compat_l; lra).
        assert (val sum <= part (val a) m (val x) * 2) by (eapply Rle_trans; [apply NS|]; apply Rmult_le_compat_l; lra). simpl in *; lra. }
      assert (EU : exp (val e) <= 2 ^ 16).
      { apply Rle_trans with (exp 8); [apply exp_mono, C1|]. replace 8 with (INR 8 * 1) by (simpl; lra). rewrite exp_pow. apply Rle_trans with (4 ^ 8); [apply pow_incr; split; [left; apply exp_pos|]|simpl; lra].
        pose proof exp_le_3. lra. }
      assert (EL : bpow radix2 (-1011) <= exp (val e)).
      { apply Rle_trans with (exp (-700)); [|apply exp_mono; lra]. exact exp_m700. }
      replace (bpow radix2 (-50)) with (/ 2 ^ 50) in Rq by (simpl; lra).
      assert (QR : exp (val e) * (9999 / 10000) <= val q <= exp (val e) * 2) by (apply Rabs_le_inv in Rq; simpl in *; lra).
      assert (Fq : fin q).
      { apply fin_iff_val; [exact Nq|]. rewrite Rabs_pos_eq by (pose proof (exp_pos (val e)); lra). pose proof Om_big. simpl in *; lra. }
      assert (PR : bpow radix2 (-1022) <= Rabs (val sum * val q) <= bpow radix2 1023).
      { pose proof (bpow_gt_0 radix2 (-1011)) as B0. rewrite Rabs_pos_eq by (apply Rmult_le_pos; lra). split.
        - replace (bpow radix2 (-1022)) with (/ 2048 * bpow radix2 (-1011)) by (change (/ 2048) with (bpow radix2 (-11)); rewrite <- bpow_plus; reflexivity).
          apply Rle_trans with (1 / 1001 * (bpow radix2 (-1011) * (9999 / 10000))); [lra|]. apply Rmult_le_compat; lra.
        - apply Rle_trans with (bpow radix2 41); [|apply bpow_le; lia]. change (bpow radix2 41) with 2199023255552. apply Rle_trans with (2 ^ 24 * (2 ^ 16 * 2)); [apply Rmult_le_compat; lra|simpl; lra]. }
      destruct (mul_mr P sum q Fs Fq PR) as [Fr Mr]. split; [exact Fr|].
      replace (bpow radix2 (-50)) with (/ 2 ^ 50) in C3 by (simpl; lra).
      pose proof (C3 C Rq Mr). lra.
  Qed.

  Lemma gser_eq : forall a x, @gser (ieee P) a x =
    let '((_, _, sum), _) := for_break (range 0 10000) (@gser_body (ieee P) x) (a, f64_div P (f64_lit 1.0) a, f64_div P (f64_lit 1.0) a) in
    gser_after a x (@ln_gamma (ieee P) a) sum.
  Proof. reflexivity. Qed.

  Theorem gser_acc : forall a x N p, fin a -> fin x -> / 2 ^ 16 <= val a <= 1000 -> / 2 ^ 68 <= val x <= val a + 1 ->
    (N <= 110)%nat -> term (val a) N (val x) <= / 2 ^ 60 * term (val a) 0 (val x) -> lower_inc_gamma G (val a) p ->
    let r := @gser (ieee P) a x in
    fin r /\ Rabs (val r - p (val x)) <= / 10 ^ 9 * p (val x) + exp (-680).
  Proof.
    intros a x N p Fa Fx Ha Hx HN TN Hp. cbv zeta. assert (HA : / 2 ^ 16 <= val a <= 2001) by lra.
    pose proof (lng_1000 G HG P LN a Fa HA) as H1.
    destruct (gser_loop P a x Fx Ha Hx N HN TN N 0 (range 0 10000) _ ltac:(lia) ltac:(pose proof range_len; lia) (inv_init P a x Fa Ha N HN)) as (m & ap & del & sum & E & Hm & Fs & Ms & Ht).
    rewrite gser_eq. match goal with |- context [for_break ?l ?b ?s] => replace (for_break l b s) with ((ap, del, sum), true) by (symmetry; exact E) end. cbv iota beta.
    exact (scale_fl a x _ sum m p Fa Fx Ha Hx (conj (proj1 Hm) (Nat.le_trans _ _ _ (proj2 Hm) HN)) Hp (proj1 H1) (proj1 (proj2 H1)) (proj2 (proj2 H1)) Fs Ms Ht).
  Qed.
End Scale.

(** ** The functions *)

Lemma lit02 : fin (f64_lit 0.2) /\ 0.1999999 <= val (f64_lit 0.2).
Proof.
  destruct (lit_fl 0.2) as [F E].
  { unfold R_of_dec; cbn [dman dexp]; simpl powerRZ. apply (bpow_le_1000 _ 0); [lia|]. rewrite Rabs_pos_eq; simpl; lra. }
  split; [exact F|]. replace (R_of_dec 0.2) with 0.2 in E by (unfold R_of_dec; cbn [dman dexp]; simpl powerRZ; lra).
  rewrite (Rabs_pos_eq 0.2) in E by lra. apply Rabs_le_inv in E. pose proof eta_small. pose proof tiny_20. unfold uu in E. lra.
Qed.
Lemma lit20 : fin (f64_lit 20.0) /\ val (f64_lit 20.0) = 20.
Proof. lit_facts 20.0%dec 20%Z 0%Z HF HV. split; [exact HF|]. rewrite HV. simpl. lra. Qed.

Section Guards.
  Context (P : platform).

  Lemma guard_eq : forall x, fin x -> 0 < val x -> f64_eq x (f64_lit 0.0) = false.
  Proof.
    intros x Fx Hx. destruct (f64_eq x (f64_lit 0.0)) eqn:E; [|reflexivity]. apply eq_true in E. destruct E as (_ & _ & E). rewrite val_0 in E. lra.
  Qed.
  Lemma guard_eps : forall a x, fin a -> fin x -> / 2 ^ 16 <= val a <= 1000 -> val a * / 2 ^ 52 <= val x -> f64_lt x (f64_mul P a (@epsilon (ieee P))) = false.
  Proof.
    intros a x Fa Fx Ha Hx. destruct eps_facts as [FE VE]. change (@epsilon (ieee (ideal true false))) with (@epsilon (ieee P)) in *.
    destruct (mul_spec P a _ Fa FE) as [N V]. rewrite <- (val_fin _ Fa), <- (val_fin _ FE), VE in V.
    apply lt_false; [apply fin_nonnan, Fx|exact N|]. rewrite V. apply rs_le_fmt; [apply val_fmt| |exact Hx]. pose proof Om_pos. simpl in *. lra.
  Qed.
  Lemma guard_far : forall a x, fin a -> fin x -> / 2 ^ 16 <= val a <= 1000 -> 0 < val x <= val a + 1 ->
    f64_lt (f64_add P a (f64_mul P (f64_lit 20.0) (f64_add P (f64_sqrt P a) (f64_lit 1.0)))) x = false.
  Proof.
    intros a x Fa Fx Ha Hx. pose proof (val_fin a Fa) as VA. destruct lit20 as [F20 V20]. pose proof eta_small as ES. pose proof tiny_20 as T20. pose proof Om_big as OB.
    assert (A0 : 0 < val a) by (simpl in *; lra).
    destruct (sqrt_spec P a Fa ltac:(lra)) as [FS VS]. rewrite <- VA in VS.
    assert (S0 : 0 <= R_sqrt.sqrt (val a)) by apply sqrt_pos.
    assert (S1 : R_sqrt.sqrt (val a) <= 32) by (rewrite <- (sqrt_square 32) by lra; apply sqrt_le_1_alt; lra).
    assert (SR : 0 <= val (f64_sqrt P a) <= 32).
    { rewrite (val_fin _ FS), VS. split; [rewrite <- rnd_0; apply rnd_le, S0|]. apply rnd_le_fmt; [|exact S1]. apply (fmt_bpow 5); lia. }
    assert (UB : forall t, Rabs t <= 10 ^ 4 -> Rabs t <= bpow radix2 1000) by (intros t Ht; apply (bpow_le_1000 _ 14); [lia|change (bpow radix2 14) with 16384; simpl in *; lra]).
    set (s := f64_sqrt P a) in *. clearbody s.
    destruct (add_fl P s _ FS fin_1) as [F1 E1]; [rewrite val_1; apply UB; rewrite Rabs_pos_eq; lra|]. rewrite val_1, (Rabs_pos_eq (val s + 1)) in E1 by lra.
    set (s1 := f64_add P s _) in *. clearbody s1. apply Rabs_le_inv in E1. unfold uu in E1.
    destruct (mul_fl P _ s1 F20 F1) as [F2 E2]; [rewrite V20; apply UB; rewrite Rabs_pos_eq; lra|]. rewrite V20, (Rabs_pos_eq (20 * val s1)) in E2 by lra.
    set (s2 := f64_mul P _ s1) in *. clearbody s2. apply Rabs_le_inv in E2. unfold uu in E2.
    destruct (add_spec P a s2 Fa F2) as [N V]. rewrite <- VA, <- (val_fin _ F2) in V.
    apply lt_false; [exact N|apply fin_nonnan, Fx|]. rewrite V. apply rs_ge; [apply val_fmt|simpl in *; lra|lra].
  Qed.
  Lemma guard_100_ge : forall a, fin a -> 100 <= val a <= 1000 -> (100 <=? @as_usize (ieee P) a)%Z = true.
  Proof.
    intros a Fa Ha. apply Z.leb_le. unfold as_usize. ieee_simpl. rewrite to_int_fin by exact Fa.
    assert (100 <= Ztrunc (val a))%Z by (rewrite <- (Ztrunc_IZR 100); apply Ztrunc_le; lra).
    change (2 ^ 64 - 1)%Z with 18446744073709551615%Z. lia.
  Qed.
  Lemma guard_100_lt : forall a, fin a -> 0 < val a < 100 -> (100 <=? @as_usize (ieee P) a)%Z = false.
  Proof.
    intros a Fa Ha. apply Z.leb_gt. unfold as_usize. ieee_simpl. rewrite to_int_fin by exact Fa.
    assert (Ztrunc (val a) <= 99)%Z.
    { rewrite Ztrunc_floor by lra. apply Z.lt_succ_r. apply lt_IZR. eapply Rle_lt_trans; [apply Zfloor_lb|]. simpl. lra. }
    lia.
  Qed.
  Lemma guard_a1 : forall a x, fin a -> fin x -> 0 < val a <= 1000 -> 0 < val x <= val a + 0.999 -> f64_lt x (f64_add P a (f64_lit 1.0)) = true.
  Proof.
    intros a x Fa Fx Ha Hx. destruct (add_fl P a _ Fa fin_1) as [F E].
    { rewrite val_1. apply (bpow_le_1000 _ 14); [lia|]. change (bpow radix2 14) with 16384. rewrite Rabs_pos_eq; lra. }
    rewrite val_1, (Rabs_pos_eq (val a + 1)) in E by lra. apply Rabs_le_inv in E. unfold uu in E. pose proof eta_small. pose proof tiny_20.
    apply lt_true. split; [apply fin_nonnan, Fx|]. split; [apply fin_nonnan, F|]. lra.
  Qed.
  Lemma guard_02 : forall a x, fin a -> fin x -> 100 <= val a <= 1000 -> 0 < val x <= 0.1999 * val a -> f64_lt x (f64_mul P (f64_lit 0.2) a) = true.
  Proof.
    intros a x Fa Fx Ha Hx. destruct lit02 as [F2 V2]. destruct (mul_spec P _ a F2 Fa) as [N V]. rewrite <- (val_fin _ Fa), <- (val_fin _ F2) in V.
    destruct (mul_fl P _ a F2 Fa) as [F E].
    { rewrite Rabs_mult. apply (bpow_le_1000 _ 14); [lia|]. change (bpow radix2 14) with 16384. rewrite (Rabs_pos_eq (val a)) by lra.
      apply Rle_trans with (1 * 1000); [|lra]. apply Rmult_le_compat; try lra; [apply Rabs_pos|]. destruct (lit_fl 0.2) as [_ E].
      { unfold R_of_dec; cbn [dman dexp]; simpl powerRZ. apply (bpow_le_1000 _ 0); [lia|]. rewrite Rabs_pos_eq; simpl; lra. }
      replace (R_of_dec 0.2) with 0.2 in E by (unfold R_of_dec; cbn [dman dexp]; simpl powerRZ; lra).
      rewrite (Rabs_pos_eq 0.2) in E by lra. apply Rabs_le_inv in E. pose proof eta_small. pose proof tiny_20. unfold uu in E. apply Rabs_le. lra. }
    apply lt_true. split; [apply fin_nonnan, Fx|]. split; [apply fin_nonnan, F|].
    set (c := val (f64_lit 0.2)) in *. clearbody c. set (m := val (f64_mul P (f64_lit 0.2) a)) in *. clearbody m.
    assert (M : 0.1999999 * val a <= c * val a) by (apply Rmult_le_compat_r; lra).
    pose proof (bpow_gt_0 radix2 (-1000)) as B0.
    rewrite (Rabs_pos_eq (c * val a)) in E by lra. apply Rabs_le_inv in E.
    pose proof eta_small. pose proof tiny_20. unfold uu in E. lra.
  Qed.
End Guards.

Section Main.
  Variable G : R -> R.
  Hypothesis HG : gamma_function G.
  Context (P : platform) (LN : accurate_ln (p_ln P)) (EX : accurate_exp (p_exp P)).

  Definition series_region (u v : R) : Prop :=
    / 2 ^ 16 <= u /\ u / 2 ^ 52 <= v /\ (u < 100 /\ v <= u + 0.999 \/ 100 <= u <= 1000 /\ v <= 0.1999 * u).

  Lemma region_gser : forall a x p, fin a -> fin x -> series_region (val a) (val x) -> lower_inc_gamma G (val a) p ->
    let r := @gser (ieee P) a x in fin r /\ Rabs (val r - p (val x)) <= / 10 ^ 9 * p (val x) + exp (-680).
  Proof.
    intros a x p Fa Fx (H1 & H2 & H3) Hp.
    assert (R1 : / 2 ^ 16 <= val a <= 1000) by lra.
    assert (R2 : / 2 ^ 68 <= val x <= val a + 1).
    { split; [|lra]. apply Rle_trans with (val a / 2 ^ 52); [|exact H2]. apply Rle_trans with (/ 2 ^ 16 / 2 ^ 52); [simpl; lra|]. apply Rmult_le_compat_r; [simpl; lra|exact H1]. }
    assert (X0 : 0 < val x) by (simpl in *; lra). assert (A0 : 0 < val a) by (simpl in *; lra).
    destruct H3 as [[H3 H4]|[H3 H4]].
    - apply (gser_acc G HG P LN EX a x 110 p Fa Fx R1 R2 (Nat.le_refl _)); [|exact Hp]. apply terms_110; lra.
    - apply (gser_acc G HG P LN EX a x 35 p Fa Fx R1 R2); [lia| |exact Hp]. apply terms_35; lra.
  Qed.

  Lemma region_gammp : forall a x, fin a -> fin x -> series_region (val a) (val x) ->
    @gammp (ieee P) a x = Ok (@gser (ieee P) a x) /\
    @gammq (ieee P) a x = Ok (@clamp (ieee P) (f64_lit 0.0) (f64_lit 1.0) (f64_sub P (f64_lit 1.0) (@gser (ieee P) a x))).
  Proof.
    intros a x Fa Fx (H1 & H2 & H3).
    assert (R1 : / 2 ^ 16 <= val a <= 1000) by lra. assert (A0 : 0 < val a) by (simpl in *; lra).
    assert (X0 : 0 < val x) by (apply Rlt_le_trans with (val a / 2 ^ 52); [apply Rmult_lt_0_compat; [exact A0|simpl; lra]|exact H2]).
    assert (X1 : val x <= val a + 1) by lra.
    assert (D1 : f64_le (f64_lit 0.0) x = true) by (apply nonneg_true; split; [apply fin_nonnan, Fx|lra]).
    assert (D2 : f64_lt (f64_lit 0.0) a = true) by (apply pos_true; split; [apply fin_nonnan, Fa|lra]).
    unfold gammp, gammq, EPS. ieee_simpl. rewrite D1, D2. cbn [andb].
    rewrite (guard_eq x Fx X0). pose proof (guard_eps P a x Fa Fx R1 H2) as GE. ieee_simpl_in GE. rewrite GE.
    rewrite (guard_far P a x Fa Fx R1 ltac:(lra)).
    destruct H3 as [[H3 H4]|[H3 H4]].
    - rewrite (guard_100_lt P a Fa ltac:(lra)), (guard_a1 P a x Fa Fx ltac:(lra) ltac:(lra)). split; reflexivity.
    - rewrite (guard_100_ge P a Fa ltac:(lra)), (guard_02 P a x Fa Fx ltac:(lra) ltac:(lra)). split; reflexivity.
  Qed.

  Lemma clamp_near : forall w q d, fin w -> 0 <= q <= 1 -> Rabs (val w - q) <= d ->
    fin (@clamp (ieee P) (f64_lit 0.0) (f64_lit 1.0) w) /\ Rabs (val (@clamp (ieee P) (f64_lit 0.0) (f64_lit 1.0) w) - q) <= d.
  Proof.
    intros w q d Fw Hq Hd. pose proof (fin_nonnan _ Fw) as Nw. apply Rabs_le_inv in Hd.
    unfold clamp. ieee_simpl.
    destruct (f64_lt w (f64_lit 0.0)) eqn:E1.
    - apply lt_true in E1. destruct E1 as (_ & _ & E1). rewrite val_0 in E1.
      assert (E2 : f64_lt (f64_lit 1.0) (f64_lit 0.0) = false) by reflexivity. rewrite E2. split; [reflexivity|]. rewrite val_0. apply Rabs_le. lra.
    - apply lt_false in E1; [|exact Nw|apply fin_nonnan; reflexivity]. rewrite val_0 in E1.
      destruct (f64_lt (f64_lit 1.0) w) eqn:E2.
      + apply lt_true in E2. destruct E2 as (_ & _ & E2). rewrite val_1 in E2. split; [apply fin_1|]. rewrite val_1. apply Rabs_le. lra.
      + split; [exact Fw|apply Rabs_le; lra].
  Qed.

  Lemma e680 : exp (-680) <= / 10 ^ 12.
  Proof.
    apply Rle_trans with (exp (-19 + -19)); [apply exp_mono; lra|]. rewrite exp_plus. replace (-19) with (- (19)) by ring. rewrite exp_Ropp.
    pose proof exp_20 as E. assert (/ exp 19 <= / (3 * 10 ^ 7)) by (apply Rinv_le_contravar; simpl in *; lra). pose proof (Rinv_0_lt_compat _ (exp_pos 19)).
    apply Rle_trans with (/ (3 * 10 ^ 7) * / (3 * 10 ^ 7)); [apply Rmult_le_compat; lra|]. simpl. lra.
  Qed.

  Lemma q_core : forall g q, fin g -> 0 < q <= 1 -> Rabs (val g - q) <= / 10 ^ 9 * q + exp (-680) ->
    let r := @clamp (ieee P) (f64_lit 0.0) (f64_lit 1.0) (f64_sub P (f64_lit 1.0) g) in fin r /\ Rabs (val r - (1 - q)) <= 2 / 10 ^ 9.
  Proof.
    intros g q Fg Hq Hd. cbv zeta. pose proof e680 as E6. pose proof Hd as Hd'. apply Rabs_le_inv in Hd'.
    destruct (sub_fl P _ g fin_1 Fg) as [Fs Es].
    { rewrite val_1. apply (bpow_le_1000 _ 14); [lia|]. change (bpow radix2 14) with 16384. apply Rabs_le. lra. }
    rewrite val_1 in Es. assert (B : Rabs (1 - val g) <= 2) by (apply Rabs_le; lra). pose proof eta_small as ES. pose proof tiny_20 as T20.
    apply clamp_near; [exact Fs|lra|]. replace (val (f64_sub P (f64_lit 1.0) g) - (1 - q)) with ((val (f64_sub P (f64_lit 1.0) g) - (1 - val g)) + - (val g - q)) by ring.
    eapply Rle_trans; [apply Rabs_triang|]. rewrite Rabs_Ropp. unfold uu in Es. lra.
  Qed.
End Main.

Lemma gammp_series : forall G : R -> R, gamma_function G ->
  forall (P : platform) (a x : f64) (p : R -> R), accurate_ln (p_ln P) -> accurate_exp (p_exp P) -> finite a -> finite x ->
  let u := Binary.B2R a in let v := Binary.B2R x in
  / 2 ^ 16 <= u -> u / 2 ^ 52 <= v -> u < 100 /\ v <= u + 0.999 \/ 100 <= u <= 1000 /\ v <= 0.1999 * u ->
  lower_inc_gamma G u p ->
  exists r, @gammp (ieee P) a x = Ok r /\ finite r /\ Rabs (Binary.B2R r - p v) <= / 10 ^ 9 * p v + exp (-680).
Proof.
  intros G HG P a x p LN EX Fa Fx u v H1 H2 H3 Hp. unfold u, v in *. rewrite <- (val_fin a Fa), <- (val_fin x Fx) in *.
  assert (SR : series_region (val a) (val x)) by (split; [exact H1|split; [exact H2|exact H3]]).
  eexists. split; [exact (proj1 (region_gammp P a x Fa Fx SR))|].
  pose proof (region_gser G HG P LN EX a x p Fa Fx SR Hp) as [F E]. split; [exact F|]. rewrite <- (val_fin _ F). exact E.
Qed.

Lemma gammq_series : forall G : R -> R, gamma_function G ->
  forall (P : platform) (a x : f64) (p : R -> R), accurate_ln (p_ln P) -> accurate_exp (p_exp P) -> finite a -> finite x ->
  let u := Binary.B2R a in let v := Binary.B2R x in
  / 2 ^ 16 <= u -> u / 2 ^ 52 <= v -> u < 100 /\ v <= u + 0.999 \/ 100 <= u <= 1000 /\ v <= 0.1999 * u ->
  lower_inc_gamma G u p ->
  exists r, @gammq (ieee P) a x = Ok r /\ finite r /\ Rabs (Binary.B2R r - (1 - p v)) <= 2 / 10 ^ 9.
Proof.
  intros G HG P a x p LN EX Fa Fx u v H1 H2 H3 Hp. unfold u, v in *. rewrite <- (val_fin a Fa), <- (val_fin x Fx) in *.
  assert (SR : series_region (val a) (val x)) by (split; [exact H1|split; [exact H2|exact H3]]).
  eexists. split; [exact (proj2 (region_gammp P a x Fa Fx SR))|].
  assert (A0 : 0 < val a) by (simpl in *; lra).
  assert (X0 : 0 < val x) by (apply Rlt_le_trans with (val a / 2 ^ 52); [apply Rmult_lt_0_compat; [exact A0|simpl; lra]|exact H2]).
  pose proof (region_gser G HG P LN EX a x p Fa Fx SR Hp) as [F E].
  pose proof (inc_le_1 G HG (val a) p A0 Hp (val x) X0) as B1. pose proof (inc_pos G (val a) (G_pos G HG _ A0) A0 p Hp (val x) X0) as B0.
  pose proof (q_core P _ _ F (conj B0 B1) E) as [Fr Er]. split; [exact Fr|]. rewrite <- (val_fin _ Fr). exact Er.
Qed.

(** ** Arguments far below a *)

Lemma fmt_down : forall y, fmt y -> 0 < y -> bpow radix2 (-900) <= y -> fmt (y * bpow radix2 (-52)).
Proof.
  intros y F Y0 Hy. assert (M : (-899 <= mag radix2 y)%Z) by (apply mag_ge_bpow; rewrite Rabs_pos_eq by lra; exact Hy).
  assert (MM : mag radix2 (y * bpow radix2 (-52)) = (mag radix2 y + -52)%Z :> Z) by (apply mag_mult_bpow; lra).
  unfold fmt in *. pose proof F as E. unfold generic_format in E.
  set (m := Ztrunc (scaled_mantissa radix2 fexp64 y)) in E. set (e := Generic_fmt.cexp radix2 fexp64 y) in E.
  assert (Ey : y * bpow radix2 (-52) = F2R (Float radix2 m (e + -52))).
  { rewrite E at 1. unfold F2R. cbn [Fnum Fexp]. rewrite bpow_plus. ring. }
  rewrite Ey. apply generic_format_F2R. intros _. rewrite <- Ey. unfold e, Generic_fmt.cexp. rewrite MM, !fexp64_FLT. unfold FLT_exp. lia.
Qed.

Lemma eps_small_guard : forall P a x, fin a -> fin x -> bpow radix2 (-900) <= val a <= 1 -> val x < val a * / 2 ^ 52 -> f64_lt x (f64_mul P a (@epsilon (ieee P))) = true.
Proof.
  intros P a x Fa Fx Ha Hx. destruct eps_facts as [FE VE]. change (@epsilon (ieee (ideal true false))) with (@epsilon (ieee P)) in *.
  pose proof (bpow_gt_0 radix2 (-900)) as B0.
  destruct (mul_spec P a _ Fa FE) as [N V]. rewrite <- (val_fin _ Fa), <- (val_fin _ FE), VE in V.
  apply lt_true. split; [apply fin_nonnan, Fx|]. split; [exact N|]. rewrite V. apply Rlt_le_trans with (val a * / 2 ^ 52); [exact Hx|].
  assert (FM : fmt (val a * / 2 ^ 52)).
  { replace (/ 2 ^ 52) with (bpow radix2 (-52)) by (simpl; lra). apply fmt_down; [apply val_fmt|lra|exact (proj1 Ha)]. }
  apply rs_ge; [exact FM| |lra]. pose proof Om_big as OB. simpl in *. lra.
Qed.

Lemma inc_small : forall G, gamma_function G -> forall u v p, 0 < u <= 1 -> 0 < v -> lower_inc_gamma G u p -> exp (u * ln v - v) <= p v.
Proof.
  intros G HG u v p Hu Hv Hp. pose proof (G_pos G HG u ltac:(lra)) as Ga.
  eapply Rle_trans; [|apply (inc_low G u Ga ltac:(lra) p Hp v Hv)]. rewrite (xa_exp G HG u v ltac:(lra) Hv).
  pose proof (lG_small G HG u Hu) as L. replace (exp (- v + u * ln v - lG G u) / u) with (exp (- v + u * ln v - lG G u + - ln u)) by (rewrite (exp_plus _ (- ln u)), (exp_Ropp (ln u)), exp_ln by lra; reflexivity).
  apply exp_mono. lra.
Qed.

Lemma gammp_tiny : forall G : R -> R, gamma_function G ->
  forall (P : platform) (a x : f64) (p : R -> R), finite a -> finite x ->
  let u := Binary.B2R a in let v := Binary.B2R x in
  bpow radix2 (-900) <= u <= 1 -> 0 < v < u / 2 ^ 52 -> lower_inc_gamma G u p ->
  @gammp (ieee P) a x = Ok (f64_lit 0.0) /\ @gammq (ieee P) a x = Ok (f64_lit 1.0) /\ exp (u * ln v - v) <= p v.
Proof.
  intros G HG P a x p Fa Fx u v Hu Hv Hp. unfold u, v in *. rewrite <- (val_fin a Fa), <- (val_fin x Fx) in *. pose proof (bpow_gt_0 radix2 (-900)) as B0.
  assert (D1 : f64_le (f64_lit 0.0) x = true) by (apply nonneg_true; split; [apply fin_nonnan, Fx|lra]).
  assert (D2 : f64_lt (f64_lit 0.0) a = true) by (apply pos_true; split; [apply fin_nonnan, Fa|lra]).
  unfold gammp, gammq, EPS. ieee_simpl. rewrite D1, D2. cbn [andb]. rewrite (guard_eq x Fx (proj1 Hv)).
  pose proof (eps_small_guard P a x Fa Fx Hu (proj2 Hv)) as GE. ieee_simpl_in GE. rewrite GE.
  split; [reflexivity|]. split; [reflexivity|]. apply (inc_small G HG); [lra|lra|exact Hp].
Qed.

Lemma wit_a : fin (f64_lit 0.0009765625) /\ val (f64_lit 0.0009765625) = / 1024.
Proof. lit_facts 0.0009765625%dec 1%Z 10%Z HF HV. split; [exact HF|]. rewrite HV. lra. Qed.
Lemma wit_x : fin (f64_lit 1e-21) /\ / 2 ^ 70 <= val (f64_lit 1e-21) <= / 2 ^ 69.
Proof.
  destruct (lit_fl 1e-21) as [F E].
  { unfold R_of_dec; cbn [dman dexp]; simpl powerRZ. apply (bpow_le_1000 _ 0); [lia|]. rewrite Rabs_pos_eq; simpl; lra. }
  split; [exact F|]. replace (R_of_dec 1e-21) with (1 / 10 ^ 21) in E by (unfold R_of_dec; cbn [dman dexp]; simpl powerRZ; lra).
  rewrite (Rabs_pos_eq (1 / 10 ^ 21)) in E by (simpl; lra). apply Rabs_le_inv in E. assert (ES : eta <= / 10 ^ 40) by (eapply Rle_trans; [apply eta_small|]; apply Rinv_le_contravar; [apply pow_lt; lra|apply Rle_pow; [lra|lia]]).
  unfold uu in E. clear F. revert E ES. generalize eta (val (f64_lit 1e-21)). intros et v E ES. simpl in *. lra.
Qed.

Lemma wit_r : forall v, / 2 ^ 70 <= v <= / 2 ^ 69 -> 0 < v < / 1024 / 2 ^ 52.
Proof. intros v H. simpl in *. lra. Qed.

Lemma gammp_refuted : exists a x : f64, finite a /\ finite x /\ 0 < Binary.B2R a /\ 0 < Binary.B2R x /\
  (forall (G p : R -> R), gamma_function G -> lower_inc_gamma G (Binary.B2R a) p -> 0.9 <= p (Binary.B2R x)) /\
  forall P : platform, @gammp (ieee P) a x = Ok (f64_lit 0.0) /\ @gammq (ieee P) a x = Ok (f64_lit 1.0).
Proof.
  exists (f64_lit 0.0009765625), (f64_lit 1e-21). destruct wit_a as [Fa Va]. destruct wit_x as [Fx Vx].
  split; [exact Fa|]. split; [exact Fx|]. rewrite <- (val_fin _ Fa), <- (val_fin _ Fx), Va. split; [lra|]. assert (V0 : 0 < val (f64_lit 1e-21) < / 1024 / 2 ^ 52) by (exact (wit_r _ Vx)).
  split; [lra|].
  assert (BA : bpow radix2 (-900) <= / 1024 <= 1) by (split; [change (/ 1024) with (bpow radix2 (-10)); apply bpow_le; lia|lra]).
  split.
  - intros G p HG Hp. pose proof (inc_small G HG (/ 1024) (val (f64_lit 1e-21)) p ltac:(lra) (proj1 V0) Hp) as I. eapply Rle_trans; [|exact I].
    clear Fa Va Fx I BA V0 Hp. set (v := val (f64_lit 1e-21)) in *. clearbody v.
    assert (L : - 70 <= ln v).
    { assert (- ln v <= 70); [|lra]. rewrite <- ln_Rinv by (simpl in *; lra). apply Rle_trans with (ln (bpow radix2 70)); [|apply ln_bpow; lia].
      apply ln_mono; [apply Rinv_0_lt_compat; simpl in *; lra|]. replace (bpow radix2 70) with (/ / 2 ^ 70) by (rewrite Rinv_inv; simpl; lra). apply Rinv_le_contravar; simpl in *; lra. }
    pose proof (exp_ineq1_le (/ 1024 * ln v - v)). simpl in *. lra.
  - intros P.
    pose proof (gammp_tiny GammaExists.GG GammaExists.gamma_exists P (f64_lit 0.0009765625) (f64_lit 1e-21)) as H.
    destruct (inc_gamma_exists GammaExists.GG (/ 1024) (G_pos _ GammaExists.gamma_exists (/ 1024) ltac:(lra)) ltac:(lra)) as [p Hp].
    specialize (H p Fa Fx). cbv zeta in H. rewrite <- (val_fin _ Fa), <- (val_fin _ Fx), Va in H.
    destruct (H BA V0 Hp) as (A & B & _). split; assumption.
Qed.

Lemma ex_gammp : (exists G p, gamma_function G /\ lower_inc_gamma G 2.5 p) /\ accurate_ln (p_ln (ideal true false)) /\ accurate_exp (p_exp (ideal true false)) /\
  (finite (f64_lit 2.5) /\ Binary.B2R (f64_lit 2.5) = 2.5) /\ (finite (f64_lit 1.25) /\ Binary.B2R (f64_lit 1.25) = 1.25) /\
  (/ 2 ^ 16 <= 2.5 /\ 2.5 / 2 ^ 52 <= 1.25 /\ 2.5 < 100 /\ 1.25 <= 2.5 + 0.999).
Proof.
  split.
  { exists GammaExists.GG. destruct (inc_gamma_exists GammaExists.GG 2.5 (G_pos _ GammaExists.gamma_exists 2.5 ltac:(lra)) ltac:(lra)) as [p Hp]. exists p. split; [exact GammaExists.gamma_exists|exact Hp]. }
  split; [apply BetaExamples.ideal_ln_accurate|]. split; [apply ErfcxAcc.ideal_exp_accurate|].
  lit_facts 2.5%dec 5%Z 1%Z HF HV. lit_facts 1.25%dec 5%Z 2%Z HF2 HV2. rewrite (val_fin _ HF) in HV. rewrite (val_fin _ HF2) in HV2.
  split; [split; [exact HF|lra]|]. split; [split; [exact HF2|lra]|]. simpl. lra.
Qed.
Lemma ex_gammp_tiny : (exists G p, gamma_function G /\ lower_inc_gamma G (/ 1024) p) /\
  (finite (f64_lit 0.0009765625) /\ Binary.B2R (f64_lit 0.0009765625) = / 1024) /\ bpow radix2 (-900) <= / 1024 <= 1 /\
  (finite (f64_lit 1e-21) /\ 0 < Binary.B2R (f64_lit 1e-21) < / 1024 / 2 ^ 52).
Proof.
  split.
  { exists GammaExists.GG. destruct (inc_gamma_exists GammaExists.GG (/ 1024) (G_pos _ GammaExists.gamma_exists (/ 1024) ltac:(lra)) ltac:(lra)) as [p Hp]. exists p. split; [exact GammaExists.gamma_exists|exact Hp]. }
  destruct wit_a as [Fa Va]. destruct wit_x as [Fx Vx]. rewrite <- (val_fin _ Fa), <- (val_fin _ Fx).
  split; [split; [exact Fa|exact Va]|]. split; [split; [change (/ 1024) with (bpow radix2 (-10)); apply bpow_le; lia|lra]|]. split; [exact Fx|exact (wit_r _ Vx)].
Qed.
