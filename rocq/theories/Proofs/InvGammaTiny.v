(** * invgammp(p, 1) for p below the machine epsilon *)

From Coq Require Import ZArith Reals Bool Lra Lia List.
From Flocq Require Import Core IEEE754.BinarySingleNaN IEEE754.Binary IEEE754.Bits.
From Verif.Model Require Import Base Arith Utils Gamma.
From Verif.Float Require Import Bits64 Ieee Exact Platforms.
From Verif.Spec Require Import F64Spec Outcome GammaSpec LibmSpec IncGammaSpec PowSpec.
From Verif.Proofs Require Import F64 F64Ops Lits Ext ExpBounds Stirling FlErr GammaAcc LnGammaAcc LnGammaFl LnGammaThms BetaAcc IncGamma IncGammaTotal GserAcc GammaPQ GammaRange GammpAcc GcfLoop GcfThms Ideal.
Import ListNotations.
Open Scope R_scope.
Local Notation exp := Rtrigo_def.exp.
Local Notation ln := Rpower.ln.

Section Tiny.
  Context (P : platform) (LN : accurate_ln (p_ln P)) (EX : accurate_exp (p_exp P)) (PW : powf_one_accurate (p_powf P)).
  Local Notation add := (f64_add P).
  Local Notation sub := (f64_sub P).
  Local Notation mul := (f64_mul P).
  Local Notation div := (f64_div P).
  Variable p : f64.
  Hypothesis Fp : fin p.
  Hypothesis Hp : bpow radix2 (-900) <= val p <= / 2 ^ 54.
  Local Notation one := (f64_lit 1.0).

  Lemma p_pos : 0 < val p.
  Proof. pose proof (bpow_gt_0 radix2 (-900)). lra. Qed.
  Lemma eta_p : eta <= / 10 ^ 20 * val p.
  Proof.
    unfold eta. replace (bpow radix2 (-1000)) with (bpow radix2 (-100) * bpow radix2 (-900)) by (rewrite <- bpow_plus; reflexivity).
    apply Rmult_le_compat; [apply bpow_ge_0|apply bpow_ge_0| |apply Hp]. apply Rle_trans with (bpow radix2 (-68)); [apply bpow_le; lia|]. simpl. lra.
  Qed.
  Lemma small_ok : forall z, Rabs z <= 10 ^ 9 -> Rabs z <= bpow radix2 1000.
  Proof. intros z Hz. apply (below _ (10 ^ 9)); [exact Hz|simpl; lra]. Qed.

  Definition t0 : f64 := sub one (mul one (add (f64_lit 0.253) (mul one (f64_lit 0.12)))).
  Lemma t0_ok : fin t0 /\ 0.6269 <= val t0 <= 0.6271.
  Proof.
    unfold t0. pose proof eta_small as ES. pose proof tiny_20 as T20. pose proof eta_pos as EP.
    destruct (lit_fl 0.253) as [F1 E1]; [unfold R_of_dec; cbn [dman dexp]; simpl powerRZ; apply small_ok; rewrite Rabs_pos_eq; simpl; lra|].
    destruct (lit_fl 0.12) as [F2 E2]; [unfold R_of_dec; cbn [dman dexp]; simpl powerRZ; apply small_ok; rewrite Rabs_pos_eq; simpl; lra|].
    replace (R_of_dec 0.253) with 0.253 in E1 by (unfold R_of_dec; cbn [dman dexp]; simpl powerRZ; lra).
    replace (R_of_dec 0.12) with 0.12 in E2 by (unfold R_of_dec; cbn [dman dexp]; simpl powerRZ; lra).
    rewrite (Rabs_pos_eq 0.253) in E1 by lra. rewrite (Rabs_pos_eq 0.12) in E2 by lra.
    set (c1 := f64_lit 0.253) in *. clearbody c1. set (c2 := f64_lit 0.12) in *. clearbody c2.
    apply Rabs_le_inv in E1. apply Rabs_le_inv in E2. unfold uu in *.
    destruct (mul_fl P _ c2 fin_1 F2) as [F3 E3]; rewrite val_1, Rmult_1_l, (Rabs_pos_eq (val c2)) in * by lra; [apply (below _ 1); [lra|simpl; lra]|].
    set (m := mul one c2) in *. clearbody m. apply Rabs_le_inv in E3. unfold uu in *.
    destruct (add_fl P c1 m F1 F3) as [F4 E4]; rewrite (Rabs_pos_eq (val c1 + val m)) in * by lra; [apply (below _ 1); [lra|simpl; lra]|].
    set (s := add c1 m) in *. clearbody s. apply Rabs_le_inv in E4. unfold uu in *.
    destruct (mul_fl P _ s fin_1 F4) as [F5 E5]; rewrite val_1, Rmult_1_l, (Rabs_pos_eq (val s)) in * by lra; [apply (below _ 1); [lra|simpl; lra]|].
    set (m2 := mul one s) in *. clearbody m2. apply Rabs_le_inv in E5. unfold uu in *.
    destruct (sub_fl P _ m2 fin_1 F5) as [F6 E6]; rewrite val_1, (Rabs_pos_eq (1 - val m2)) in * by lra; [apply (below _ 1); [lra|simpl; lra]|].
    split; [exact F6|]. apply Rabs_le_inv in E6. unfold uu in *. lra.
  Qed.

  (** the first guess *)
  Definition x0 : f64 := p_powf P (div p t0) (div one one).
  Lemma x0_ok : fin x0 /\ 1.594 * val p <= val x0 <= 1.596 * val p.
  Proof.
    destruct t0_ok as [F0 V0]. unfold x0. set (t := t0) in *. clearbody t. pose proof p_pos as PP. pose proof eta_p as EP.
    assert (Q : 1.5945 * val p <= val p / val t <= 1.5953 * val p).
    { unfold Rdiv. rewrite !(Rmult_comm _ (val p)). split; apply Rmult_le_compat_l; try lra.
      - apply Rle_trans with (/ 0.6271); [lra|]. apply Rinv_le_contravar; lra.
      - apply Rle_trans with (/ 0.6269); [|lra]. apply Rinv_le_contravar; lra. }
    assert (P54 : val p <= / 10 ^ 16) by (cbn [pow] in *; lra).
    destruct (div_fl P p t Fp F0 ltac:(lra)) as [F1 E1]; [rewrite Rabs_pos_eq by lra; apply (below _ 1); cbn [pow] in *; lra|].
    rewrite (Rabs_pos_eq (val p / val t)) in E1 by lra. set (y := div p t) in *. clearbody y. apply Rabs_le_inv in E1.
    assert (Y : 1.5944 * val p <= val y <= 1.5954 * val p) by (unfold uu in E1; cbn [pow] in *; lra). clear E1.
    destruct (div_spec P one one fin_1 fin_1) as [NE VE]; [rewrite <- (val_fin _ fin_1), val_1; lra|].
    rewrite <- (val_fin _ fin_1), val_1 in VE. replace (1 / 1) with 1 in VE by lra.
    assert (V1 : val (div one one) = 1).
    { rewrite VE. apply rs_fmt; [apply (fmt_IZR 1); lia|]. rewrite Rabs_pos_eq by lra. pose proof Om_big. lra. }
    destruct (PW y _ F1 NE) as [F2 E2]; [split|exact V1|].
    - apply Rle_trans with (bpow radix2 (-900)); [apply bpow_le; lia|]. lra.
    - cbn [pow] in *; lra.
    - split; [exact F2|]. apply Rabs_le_inv in E2. replace (bpow radix2 (-40)) with (/ 2 ^ 40) in E2 by (simpl; lra). cbn [pow] in *. lra.
  Qed.

  (** the one iteration *)
  Theorem one_step : forall gln, fin gln -> Rabs (val gln) <= / 10 ^ 8 ->
    let a1 := sub one one in
    exists x, @invgammp_body (ieee P) p one gln a1 (libm P (p_ln P) a1) (f64_lit 0.0) 0 x0 = Ok (Break x) /\ fin x /\ 2.5 * val p <= val x <= 2.7 * val p.
  Proof.
    intros gln Fg Bg a1. destruct x0_ok as [F0 V0]. pose proof p_pos as PP. pose proof eta_p as EP. assert (P54 : val p <= / 10 ^ 16) by (cbn [pow] in *; lra).
    assert (P2 : val p <= / 2 ^ 54) by apply Hp.
    pose proof eta_small as ES. pose proof tiny_20 as T20. pose proof eta_pos as E0.
    assert (T16 : / 10 ^ 16 <= 1 / 1000) by (simpl; lra).
    unfold invgammp_body. ieee_simpl. set (x := x0) in *. clearbody x.
    replace (f64_le x (f64_lit 0.0)) with false by (symmetry; apply le_false; [apply fin_nonnan, F0|apply fin_nonnan; reflexivity|rewrite val_0; lra]).
    (* gammp is zero *)
    assert (G0 : @gammp (ieee P) one x = Ok (f64_lit 0.0)).
    { destruct (inc_gamma_exists GammaExists.GG 1 (G_pos _ GammaExists.gamma_exists 1 ltac:(lra)) ltac:(lra)) as [q Hq].
      assert (V1 : Binary.B2R one = 1) by (rewrite <- (val_fin _ fin_1); apply val_1).
      apply (gammp_tiny GammaExists.GG GammaExists.gamma_exists P one x q fin_1 F0).
      - rewrite V1. split; [change 1 with (bpow radix2 0); apply bpow_le; lia|lra].
      - rewrite V1, <- (val_fin _ F0). cbn [pow] in *. lra.
      - rewrite V1. exact Hq. }
    ieee_simpl_in G0. rewrite G0. cbn [bind].
    replace (f64_lt one one) with false by (symmetry; apply lt_false; try (apply fin_nonnan, fin_1); lra).
    (* a1 is zero *)
    destruct (sub_spec P one one fin_1 fin_1) as [N1 V1]. rewrite <- (val_fin _ fin_1), val_1, Rminus_diag_eq in V1 by reflexivity. rewrite rs_0 in V1. fold a1 in N1, V1 |- *.
    assert (F1 : fin a1) by (apply fin_iff_val; [exact N1|rewrite V1, Rabs_R0; apply Om_pos]). clearbody a1.
    (* the error *)
    destruct (sub_fl P (f64_lit 0.0) p eq_refl Fp) as [F2 E2]; rewrite val_0, Rminus_0_l, Rabs_Ropp, (Rabs_pos_eq (val p)) in * by lra; [apply (below _ 1); [lra|simpl; lra]|].
    set (err := sub (f64_lit 0.0) p) in *. clearbody err. apply Rabs_le_inv in E2.
    assert (B2 : - (1.001 * val p) <= val err <= - (0.999 * val p)) by (unfold uu in E2; cbn [pow] in *; lra). clear E2.
    (* the derivative *)
    assert (LB : Rabs (ln (val x)) <= 10 ^ 4).
    { assert (X1 : val x <= 1) by lra. assert (L0 : ln (val x) <= 0) by (rewrite <- ln_1; apply ln_mono; lra).
      rewrite Rabs_left1 by exact L0. rewrite <- ln_Rinv by lra. apply Rle_trans with (ln (bpow radix2 900)); [|eapply Rle_trans; [apply ln_bpow; lia|simpl; lra]].
      apply ln_mono; [apply Rinv_0_lt_compat; lra|]. change 900%Z with (- (-900))%Z. rewrite bpow_opp. apply Rinv_le_contravar; [apply bpow_gt_0|lra]. }
    destruct (ln_fl P LN x F0 ltac:(lra) LB) as [Fl El].
    set (l := libm P (p_ln P) x) in *. clearbody l.
    destruct (mul_spec P a1 l F1 Fl) as [N3 V3]. rewrite <- (val_fin _ F1), V1, Rmult_0_l, rs_0 in V3.
    assert (F3 : fin (mul a1 l)) by (apply fin_iff_val; [exact N3|rewrite V3, Rabs_R0; apply Om_pos]). set (m := mul a1 l) in *. clearbody m.
    assert (FNx : fin (f64_neg x)) by (rewrite fin_neg; exact F0).
    destruct (add_fl P (f64_neg x) m FNx F3) as [F4 E4]; rewrite val_neg, V3, Rplus_0_r, Rabs_Ropp, (Rabs_pos_eq (val x)) in * by lra; [apply (below _ 1); [lra|simpl; lra]|].
    set (s := add (f64_neg x) m) in *. clearbody s. apply Rabs_le_inv in E4.
    assert (B4 : - (2 * / 10 ^ 16) <= val s <= 2 * / 10 ^ 16) by (unfold uu in E4; cbn [pow] in *; lra). clear E4.
    apply Rabs_le_inv in Bg. assert (T8 : / 10 ^ 8 <= / 10 ^ 7) by (simpl; lra).
    destruct (sub_fl P s gln F4 Fg) as [F5 E5]; [apply (below _ 1); [apply Rabs_le; cbn [pow] in *; lra|simpl; lra]|].
    assert (B5a : Rabs (val s - val gln) <= 2 * / 10 ^ 8) by (apply Rabs_le; cbn [pow] in *; lra).
    set (e := sub s gln) in *. clearbody e.
    assert (B5 : Rabs (val e) <= / 10 ^ 7).
    { replace (val e) with ((val e - (val s - val gln)) + (val s - val gln)) by ring. eapply Rle_trans; [apply Rabs_triang|]. unfold uu in E5. cbn [pow] in *. lra. }
    clear E5. pose proof B5 as B5c. apply Rabs_le_inv in B5.
    destruct (EX e (fin_nonnan _ F5) ltac:(cbn [pow] in *; lra)) as [Nq Rq].
    set (q := libm P (p_exp P) e). assert (Eq : q = p_exp P e) by (unfold q; apply libm_nonnan, fin_nonnan, F5). rewrite <- Eq in Nq, Rq. clearbody q. clear Eq.
    assert (EE : Rabs (exp (val e) - 1) <= 2 * / 10 ^ 7).
    { pose proof (exp_near 0 (val e) (/ 10 ^ 7) ltac:(simpl; lra) ltac:(rewrite Rminus_0_r; exact B5c)) as N. rewrite exp_0, Rmult_1_r in N. cbn [pow] in *. lra. }
    apply Rabs_le_inv in EE. replace (bpow radix2 (-50)) with (/ 2 ^ 50) in Rq by (simpl; lra). apply Rabs_le_inv in Rq.
    assert (Bq : 0.9999 <= val q <= 1.0001) by (cbn [pow] in *; lra). clear EE Rq.
    assert (Fq : fin q) by (apply fin_iff_val; [exact Nq|]; rewrite Rabs_pos_eq by lra; pose proof Om_big; lra).
    (* the Newton step *)
    assert (Q6 : - (1.002 * val p) <= val err / val q <= - (0.998 * val p)).
    { assert (QI : 0.9998 <= / val q <= 1.0002) by (split; [apply Rle_trans with (/ 1.0001); [lra|apply Rinv_le_contravar; lra]|apply Rle_trans with (/ 0.9999); [apply Rinv_le_contravar; lra|lra]]).
      unfold Rdiv. assert (A1 : (0.999 * val p) * 0.9998 <= (- val err) * / val q) by (apply Rmult_le_compat; lra).
      assert (A2 : (- val err) * / val q <= (1.001 * val p) * 1.0002) by (apply Rmult_le_compat; lra). lra. }
    destruct (div_fl P err q F2 Fq ltac:(lra)) as [F6 E6]; rewrite (Rabs_left1 (val err / val q)) in * by lra; [apply (below _ 1); [lra|simpl; lra]|].
    set (u := div err q) in *. clearbody u. apply Rabs_le_inv in E6.
    assert (B6 : - (1.003 * val p) <= val u <= - (0.997 * val p)) by (unfold uu in E6; cbn [pow] in *; lra). clear E6 Q6.
    (* Halley's correction *)
    destruct (div_spec P a1 x F1 F0) as [N7 V7]; [rewrite <- (val_fin _ F0); lra|]. rewrite <- (val_fin _ F1), V1 in V7. unfold Rdiv in V7. rewrite Rmult_0_l, rs_0 in V7.
    assert (F7 : fin (div a1 x)) by (apply fin_iff_val; [exact N7|rewrite V7, Rabs_R0; apply Om_pos]). set (d := div a1 x) in *. clearbody d.
    destruct (sub_fl P d one F7 fin_1) as [F8 E8]; rewrite V7, val_1, Rminus_0_l, (Rabs_left1 (- (1))) in * by lra; [apply (below _ 1); [lra|simpl; lra]|].
    set (d1 := sub d one) in *. clearbody d1. apply Rabs_le_inv in E8. assert (B8 : -1.001 <= val d1 <= -0.999) by (unfold uu in E8; lra). clear E8.
    assert (M9 : 0 <= val u * val d1 <= 2 * val p).
    { replace (val u * val d1) with ((- val u) * (- val d1)) by ring. split; [apply Rmult_le_pos; lra|]. apply Rle_trans with (1.003 * val p * 1.001); [apply Rmult_le_compat; lra|lra]. }
    destruct (mul_fl P u d1 F6 F8) as [F9 E9]; rewrite (Rabs_pos_eq (val u * val d1)) in * by lra; [apply (below _ 1); [lra|simpl; lra]|].
    set (w := mul u d1) in *. clearbody w. apply Rabs_le_inv in E9. assert (B9 : - / 10 ^ 10 <= val w <= / 10 ^ 10) by (unfold uu in E9; cbn [pow] in *; lra). clear E9 M9.
    destruct (min_val P one w (fin_nonnan _ fin_1) (fin_nonnan _ F9)) as [NM VM]. rewrite val_1, Rmin_right in VM by (cbn [pow] in *; lra).
    assert (FM : fin (f64_min P one w)) by (apply fin_iff_val; [exact NM|]; rewrite VM; apply fin_iff_val; [apply fin_nonnan, F9|exact F9]).
    set (mn := f64_min P one w) in *. clearbody mn.
    lit_facts 0.5%dec 1%Z 1%Z F5h V5h. assert (V5h' : val (f64_lit 0.5) = / 2) by (rewrite V5h; lra).
    destruct (mul_fl P _ mn F5h FM) as [F10 E10]; [rewrite V5h', VM; apply (below _ 1); [apply Rabs_le; cbn [pow] in *; lra|simpl; lra]|]. rewrite V5h', VM in E10.
    set (hm := mul (f64_lit 0.5) mn) in *. clearbody hm.
    assert (B10 : -0.001 <= val hm <= 0.001).
    { assert (Rabs (/ 2 * val w) <= / 10 ^ 10) by (apply Rabs_le; cbn [pow] in *; lra). apply Rabs_le_inv in E10. unfold uu in E10. cbn [pow] in *. lra. }
    clear E10.
    destruct (sub_fl P _ hm fin_1 F10) as [F11 E11]; rewrite val_1, (Rabs_pos_eq (1 - val hm)) in * by lra; [apply (below _ 2); [lra|simpl; lra]|].
    set (dn := sub one hm) in *. clearbody dn. apply Rabs_le_inv in E11. assert (B11 : 0.998 <= val dn <= 1.002) by (unfold uu in E11; lra). clear E11.
    assert (Q12 : - (1.006 * val p) <= val u / val dn <= - (0.994 * val p)).
    { assert (QI : 0.998 <= / val dn <= 1.0021) by (split; [apply Rle_trans with (/ 1.002); [lra|apply Rinv_le_contravar; lra]|apply Rle_trans with (/ 0.998); [apply Rinv_le_contravar; lra|lra]]).
      unfold Rdiv. assert (A1 : (0.997 * val p) * 0.998 <= (- val u) * / val dn) by (apply Rmult_le_compat; lra).
      assert (A2 : (- val u) * / val dn <= (1.003 * val p) * 1.0021) by (apply Rmult_le_compat; lra). lra. }
    destruct (div_fl P u dn F6 F11 ltac:(lra)) as [F12 E12]; rewrite (Rabs_left1 (val u / val dn)) in * by lra; [apply (below _ 1); [lra|simpl; lra]|].
    set (t := div u dn) in *. clearbody t. apply Rabs_le_inv in E12.
    assert (B12 : - (1.01 * val p) <= val t <= - (0.99 * val p)) by (unfold uu in E12; cbn [pow] in *; lra). clear E12 Q12.
    destruct (sub_fl P x t F0 F12) as [F13 E13]; rewrite (Rabs_pos_eq (val x - val t)) in * by lra; [apply (below _ 1); [lra|simpl; lra]|].
    set (x1 := sub x t) in *. clearbody x1. apply Rabs_le_inv in E13.
    assert (B13 : 2.5 * val p <= val x1 <= 2.7 * val p) by (unfold uu in E13; cbn [pow] in *; lra). clear E13.
    replace (f64_le x1 (f64_lit 0.0)) with false by (symmetry; apply le_false; [apply fin_nonnan, F13|apply fin_nonnan; reflexivity|rewrite val_0; lra]).
    destruct eps_facts as [FE VE]. change (@epsilon (ieee (ideal true false))) with (@epsilon (ieee P)) in *.
    assert (TT : f64_lt (f64_abs t) (f64_max P (mul x1 (@EPS (ieee P))) (@EPS (ieee P))) = true).
    { change (@EPS (ieee P)) with (@epsilon (ieee P)) in *. assert (FA : fin (f64_abs t)) by (rewrite fin_abs; exact F12).
      destruct (mul_spec P x1 _ F13 FE) as [NX _]. destruct (max_val P _ _ NX (fin_nonnan _ FE)) as [NMx VMx].
      apply lt_true. split; [apply fin_nonnan, FA|]. split; [exact NMx|]. rewrite VMx. eapply Rlt_le_trans; [|apply Rmax_r]. rewrite VE.
      rewrite (val_fin _ FA), B2R_abs, <- (val_fin _ F12), Rabs_left1 by lra. cbn [pow] in *. lra. }
    ieee_simpl_in TT. rewrite TT. exists x1. split; [reflexivity|]. split; [exact F13|exact B13].
  Qed.
End Tiny.

Lemma invgammp_tiny : forall G : R -> R, gamma_function G ->
  forall (P : platform) (p : f64) (q : R -> R), accurate_ln (p_ln P) -> accurate_exp (p_exp P) -> powf_one_accurate (p_powf P) -> finite p ->
  let u := Binary.B2R p in bpow radix2 (-900) <= u <= / 2 ^ 54 -> lower_inc_gamma G 1 q ->
  exists r, @invgammp (ieee P) p (f64_lit 1.0) = Ok r /\ finite r /\ 2.5 * u <= Binary.B2R r <= 2.7 * u /\ 2 * u <= q (Binary.B2R r).
Proof.
  intros G HG P p q LN EX PW Fp u Hu Hq. unfold u in *. rewrite <- (val_fin p Fp) in *.
  pose proof (lng_1000 G HG P LN (f64_lit 1.0) fin_1) as LG. rewrite val_1 in LG. specialize (LG ltac:(simpl; lra)).
  destruct LG as (Fg & Eg & _). unfold lG in Eg. destruct HG as (HGp & HG1 & HG2). rewrite HG1, ln_1, Rminus_0_r in Eg.
  assert (P0 : 0 < val p) by (pose proof (bpow_gt_0 radix2 (-900)); lra).
  destruct (one_step P LN EX PW p Fp Hu (@ln_gamma (ieee P) (f64_lit 1.0)) Fg ltac:(cbn [pow] in *; lra)) as (r & E & Fr & Br).
  assert (HG : gamma_function G) by (split; [exact HGp|split; [exact HG1|exact HG2]]).
  exists r. split; [|split; [exact Fr|]].
  - unfold invgammp. set (gln := @ln_gamma (ieee P) (f64_lit 1.0)) in *. clearbody gln. ieee_simpl.
    replace (f64_lt (f64_lit 0.0) (f64_lit 1.0)) with true by (symmetry; apply lt_true; split; [apply fin_nonnan; reflexivity|split; [apply fin_nonnan, fin_1|rewrite val_0, val_1; lra]]).
    replace (f64_le (f64_lit 1.0) p) with false by (symmetry; apply le_false; [apply fin_nonnan, fin_1|apply fin_nonnan, Fp|rewrite val_1; cbn [pow] in *; lra]).
    replace (f64_le p (f64_lit 0.0)) with false by (symmetry; apply le_false; [apply fin_nonnan, Fp|apply fin_nonnan; reflexivity|rewrite val_0; lra]).
    unfold invgammp_guess. ieee_simpl.
    replace (f64_lt (f64_lit 1.0) (f64_lit 1.0)) with false by (symmetry; apply lt_false; try (apply fin_nonnan, fin_1); lra).
    fold (t0 P). destruct (t0_ok P) as [F0 V0].
    replace (f64_lt p (t0 P)) with true by (symmetry; apply lt_true; split; [apply fin_nonnan, Fp|split; [apply fin_nonnan, F0|cbn [pow] in *; lra]]).
    fold (x0 P p). change (range 0 12) with (0 :: range 1 12)%Z. cbn [for_loop].
    ieee_simpl_in E. rewrite E. reflexivity.
  - rewrite <- (val_fin _ Fr). split; [exact Br|].
    pose proof (inc_small G HG 1 (val r) q ltac:(lra) ltac:(lra) Hq) as I. eapply Rle_trans; [|exact I].
    rewrite Rmult_1_l. unfold Rminus. rewrite exp_plus, exp_ln by lra. pose proof (exp_ineq1_le (- val r)).
    apply Rle_trans with (2.5 * val p * 0.9); [lra|]. apply Rmult_le_compat; lra.
Qed.

(** ** A concrete case *)

Lemma ideal_powf_one : forall c f, powf_one_accurate (p_powf (ideal c f)).
Proof.
  intros c f y e Fy Ne Hy He. cbn [p_powf ideal]. pose proof (bpow_gt_0 radix2 (-1000)) as B0.
  assert (Fe : fin e) by (apply fin_iff_val; [exact Ne|rewrite He, Rabs_pos_eq by lra; pose proof Om_big; lra]).
  assert (E : ideal_powf y e = round_to_f64 (val y)).
  { rewrite (val_fin y Fy) in *. rewrite (val_fin e Fe) in *. destruct y as [s|s|s pl H|s m ex H]; try discriminate Fy; [simpl in Hy; lra|].
    destruct s; [exfalso; pose proof (F2R_lt_0 radix2 (Float radix2 (Zneg m) ex) eq_refl) as L; change (F2R (Float radix2 (Zneg m) ex)) with (Binary.B2R (B754_finite true m ex H)) in L; lra|].
    destruct e as [s'|s'|s' pl' H'|s' m' ex' H']; try discriminate Fe; [simpl in He; lra|].
    unfold ideal_powf. rewrite He, Rpower_1 by lra. reflexivity. }
  rewrite E. assert (V : rs (val y) = val y) by (apply rs_fmt; [apply val_fmt|rewrite Rabs_pos_eq by lra; pose proof Om_big; lra]).
  destruct (round_to_f64_spec (val y)) as [N R]. rewrite V in R. split.
  - apply fin_iff_val; [exact N|]. rewrite R, Rabs_pos_eq by lra. pose proof Om_big; lra.
  - rewrite R, Rminus_diag_eq, Rabs_R0 by reflexivity. apply Rmult_le_pos; [apply bpow_ge_0|lra].
Qed.

Lemma wit_p : fin (f64_lit 8.67361737988403547205962240695953369140625e-19) /\ val (f64_lit 8.67361737988403547205962240695953369140625e-19) = / 2 ^ 60.
Proof. lit_facts 8.67361737988403547205962240695953369140625e-19%dec 1%Z 60%Z HF HV. split; [exact HF|]. rewrite HV. simpl. lra. Qed.
Lemma wit_p_range : bpow radix2 (-900) <= / 2 ^ 60 <= / 2 ^ 54.
Proof. split; [replace (/ 2 ^ 60) with (bpow radix2 (-60)) by (simpl; lra); apply bpow_le; lia|simpl; lra]. Qed.

Lemma invgammp_inaccurate : exists p a : f64, finite p /\ 0 < Binary.B2R p < 1 /\ finite a /\ Binary.B2R a = 1 /\
  forall (P : platform) (G q : R -> R), accurate_ln (p_ln P) -> accurate_exp (p_exp P) -> powf_one_accurate (p_powf P) ->
  gamma_function G -> lower_inc_gamma G 1 q ->
  exists r, @invgammp (ieee P) p a = Ok r /\ finite r /\ 2 * Binary.B2R p <= q (Binary.B2R r).
Proof.
  destruct wit_p as [Fp Vp]. pose proof wit_p_range as WR.
  exists (f64_lit 8.67361737988403547205962240695953369140625e-19), (f64_lit 1.0). split; [exact Fp|]. rewrite (val_fin _ Fp) in Vp. split; [rewrite Vp; simpl; lra|]. split; [apply fin_1|].
  split; [rewrite <- (val_fin _ fin_1); apply val_1|]. intros P G q LN EX PW HG Hq.
  destruct (invgammp_tiny G HG P _ q LN EX PW Fp ltac:(rewrite Vp; exact WR) Hq) as (r & E & Fr & _ & B). exists r. split; [exact E|]. split; [exact Fr|exact B].
Qed.

Lemma ex_invgammp_tiny : (exists G q, gamma_function G /\ lower_inc_gamma G 1 q) /\ accurate_ln (p_ln (ideal true false)) /\ accurate_exp (p_exp (ideal true false)) /\
  powf_one_accurate (p_powf (ideal true false)) /\
  (finite (f64_lit 8.67361737988403547205962240695953369140625e-19) /\ Binary.B2R (f64_lit 8.67361737988403547205962240695953369140625e-19) = / 2 ^ 60) /\ bpow radix2 (-900) <= / 2 ^ 60 <= / 2 ^ 54.
Proof.
  split.
  { exists GammaExists.GG. destruct (inc_gamma_exists GammaExists.GG 1 (G_pos _ GammaExists.gamma_exists 1 ltac:(lra)) ltac:(lra)) as [p Hp]. exists p. split; [exact GammaExists.gamma_exists|exact Hp]. }
  split; [apply BetaExamples.ideal_ln_accurate|]. split; [apply ErfcxAcc.ideal_exp_accurate|]. split; [apply ideal_powf_one|].
  destruct wit_p as [Fp Vp]. rewrite (val_fin _ Fp) in Vp. split; [split; [exact Fp|exact Vp]|exact wit_p_range].
Qed.
