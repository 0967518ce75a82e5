(** * A concrete case for the Wronskian theorems: order 1 at x = 2^-40 *)

From Coq Require Import ZArith Reals Bool Lra Lia List.
From Flocq Require Import Core.
From Verif.Model Require Import Base Arith BesselTables Bessel.
From Verif.Float Require Import Exact.
From Verif.Spec Require Import Lower.
From Verif.Proofs Require Import Lits BesselInt BetaSym Wronskian.
Open Scope R_scope.

Lemma for_break_first : forall {S} (body : Z -> S -> S * bool) a b s s', (a < b)%Z ->
  body a s = (s', true) -> for_break (range a b) body s = (s', true).
Proof.
  intros S body a b s s' H E. unfold range.
  replace (Z.to_nat (b - a)) with (Datatypes.S (Z.to_nat (b - a - 1))) by lia.
  cbn [count_from for_break]. rewrite E. reflexivity.
Qed.

Ltac dec_simpl := unfold R_of_dec; cbn [dman dexp]; rewrite ?powerRZ_10;
  repeat match goal with |- context [IZR (10 ^ ?e)] =>
    let v := eval vm_compute in (10 ^ e)%Z in change (10 ^ e)%Z with v end.

Section Ex.
  Context (fma chk : bool).
  Notation A := (exact fma chk).
  Definition x0 : R := 1 / 1099511627776.

  Lemma gam1_bounds : -0.578 <= @chebev A (-1)%R C1 <= -0.577.
  Proof.
    unfold chebev. change (@tl dec C1) with (List.tl C1). unfold C1.
    cbn [List.tl rev app hd]. cbn [fold_left fst snd]. exact_simpl.
    dec_simpl. lra.
  Qed.
  Lemma gam2_bounds : 0.999 <= @chebev A (-1)%R C2 <= 1.001.
  Proof.
    unfold chebev. unfold C2.
    cbn [List.tl rev app hd]. cbn [fold_left fst snd]. exact_simpl.
    dec_simpl. lra.
  Qed.

  Lemma log_bounds : 41 / 2 <= - Rpower.ln (x0 / 2) <= 41.
  Proof.
    replace (x0 / 2) with (/ (2 ^ 41)) by (unfold x0; field_simplify; lra).
    rewrite ln_Rinv by lra. rewrite <- (Rpower_pow 41 2) by lra. unfold Rpower. rewrite ln_exp.
    rewrite INR_IZR_INZ. change (Z.of_nat 41) with 41%Z.
    assert (1 / 2 < Rpower.ln 2).
    { assert (H : 1 < 2 * Rpower.ln 2).
      { replace (2 * Rpower.ln 2) with (Rpower.ln 4).
        - rewrite <- (ln_exp 1) at 1. apply ln_increasing; [apply exp_pos|].
          pose proof exp_le_3. lra.
        - replace 4 with (2 * 2) by ring. rewrite ln_mult by lra. ring. }
      lra. }
    assert (Rpower.ln 2 < 1).
    { rewrite <- (ln_exp 1). apply ln_increasing; [lra|]. pose proof (exp_ineq1 1 ltac:(lra)). lra. }
    lra.
  Qed.

  Lemma eps_val : @EPS A = 1 / 4503599627370496.
  Proof. unfold EPS. exact_simpl. rewrite bpow2_inv_IZR by lia. change (2 ^ (- -52))%Z with 4503599627370496%Z. lra. Qed.
  Lemma fpmin_val : 0 < @FPMIN A < 1 / 1000.
  Proof.
    unfold FPMIN. rewrite eps_val. exact_simpl.
    assert (0 < bpow radix2 (-1022) <= bpow radix2 (-70)) by (split; [apply bpow_gt_0|apply bpow_le; lia]).
    rewrite (bpow2_inv_IZR (-70)) in H by lia. change (2 ^ (- -70))%Z with 1180591620717411303424%Z in H.
    split; [|].
    - apply Rdiv_lt_0_compat; lra.
    - apply Rmult_lt_reg_r with (1 / 4503599627370496); [lra|]. unfold Rdiv at 1. rewrite Rmult_assoc, Rinv_l by lra. lra.
  Qed.

  Definition T : R := 1099511627776.
  Lemma xi_T : 1 / x0 = T. Proof. unfold x0, T. field. Qed.

  Lemma ex_ik_cf1 : exists h, @ik_cf1 A 1 T (2 * T)%R = Ok h /\ 0 < h.
  Proof.
    unfold ik_cf1. pose proof fpmin_val. unfold T in *.
    exact_simpl. rewrite (R_lit 0.0 0) by reflexivity.
    rewrite (Rlt_bool_false (1 * 1099511627776)) by lra.
    eexists. erewrite for_break_first; [|reflexivity|].
    2:{ unfold ik_cf1_body. exact_simpl. rewrite (R_lit 1.0 1), eps_val by reflexivity.
        rewrite Rle_bool_true; [reflexivity|]. apply Rabs_le.
        rewrite (Rmult_1_l 1099511627776). lra. }
    cbv beta iota. split; [reflexivity|]. lra.
  Qed.

  (** the series for K at mu = 0 *)
  Lemma ex_ik_series : exists k k1, @ik_series A x0 0 0 (2 * T)%R = Ok (k, k1) /\ 0 < k /\ 0 < k1.
  Proof.
    unfold ik_series, powi2. exact_simpl.
    replace (@PI A * 0) with 0 by (rewrite Rmult_0_r; reflexivity).
    rewrite Rabs_R0, eps_val.
    rewrite !(Rlt_bool_true 0 (1 / 4503599627370496)) by lra.
    rewrite (Rmult_0_l (- Rpower.ln _)), Rabs_R0, !(Rlt_bool_true 0 (1 / 4503599627370496)) by lra.
    rewrite (proj1 R_half), (R_lit 1.0 1), (R_lit 8.0 8) by reflexivity.
    replace (8 * (0 * 0) - 1) with (-1) by ring.
    replace (1 / 2 * x0) with (x0 / 2) by field.
    pose proof gam1_bounds as G1. pose proof gam2_bounds as G2. pose proof log_bounds as L.
    set (g1 := @chebev A (-1)%R C1) in *. set (g2 := @chebev A (-1)%R C2) in *.
    set (l := - Rpower.ln (x0 / 2)) in *.
    rewrite cosh_0, exp_0. cbv zeta.
    set (ff := 1 * (g1 * 1 + g2 * 1 * l)).
    set (p := 1 / 2 * 1 / (g2 - 0 * g1)). set (q := 1 / 2 / (1 * (g2 + 0 * g1))).
    assert (Hff : 19 <= ff <= 42).
    { unfold ff. assert (0.999 * l <= g2 * l <= 1.001 * l) by (split; apply Rmult_le_compat_r; lra). lra. }
    assert (Hp : 0.4 <= p <= 0.6).
    { unfold p. rewrite Rmult_0_l, Rminus_0_r. split.
      - apply Rmult_le_reg_r with g2; [lra|]. unfold Rdiv. rewrite Rmult_assoc, Rinv_l by lra. lra.
      - apply Rmult_le_reg_r with g2; [lra|]. unfold Rdiv. rewrite Rmult_assoc, Rinv_l by lra. lra. }
    assert (Hq : 0.4 <= q <= 0.6).
    { unfold q. rewrite Rmult_0_l, Rplus_0_r, Rmult_1_l. split.
      - apply Rmult_le_reg_r with g2; [lra|]. unfold Rdiv. rewrite Rmult_assoc, Rinv_l by lra. lra.
      - apply Rmult_le_reg_r with g2; [lra|]. unfold Rdiv. rewrite Rmult_assoc, Rinv_l by lra. lra. }
    assert (Hx : 0 < x0 / 2 * (x0 / 2) <= 1 / 2 ^ 80).
    { unfold x0. lra. }
    set (d := x0 / 2 * (x0 / 2)) in *.
    set (ff1 := (1 * ff + p + q) / (1 * 1 - 0)).
    assert (Hff1 : 19 <= ff1 <= 44) by (unfold ff1; lra).
    assert (B : 0 <= d * ff1 <= 44 / 2 ^ 80).
    { split; [nra|]. apply Rle_trans with (1 / 2 ^ 80 * 44); [|lra]. apply Rmult_le_compat; lra. }
    erewrite for_break_first; [|reflexivity|].
    2:{ unfold ik_series_body. exact_simpl. rewrite eps_val. cbv zeta.
        change (IZR 1) with 1. fold ff1.
        replace (1 * (d / 1)) with d by field.
        rewrite Rlt_bool_true; [reflexivity|].
        rewrite !Rabs_pos_eq by lra. lra. }
    cbv beta iota. do 2 eexists. split; [reflexivity|]. split; [lra|].
    apply Rmult_lt_0_compat; [|unfold T; lra].
    replace (p / (1 - 0) - 1 * ff1) with (p - ff1) by field.
    assert (d * (p - ff1) >= - (1 / 2 ^ 80 * 44)).
    { assert (d * (44 - (ff1 - p)) >= 0) by (apply Rle_ge, Rmult_le_pos; lra). lra. }
    lra.
  Qed.

  Lemma usize_3_2 : @as_usize A (1 + R_of_dec 0.5)%R = 1%Z.
  Proof.
    unfold as_usize. exact_simpl. rewrite (proj1 R_half). rewrite usize_id; [|lra|change (2^64-1)%Z with 18446744073709551615%Z; lra].
    rewrite Ztrunc_floor by lra. apply Zfloor_imp. simpl. lra.
  Qed.

  Lemma ex_besselik : exists i k i' k' : R, @besselik A 1 x0 = Ok (i, k, i', k') /\ i <> 0.
  Proof.
    unfold besselik. exact_simpl. rewrite (R_lit 0.0 0), (R_lit 1.0 1), (R_lit 2.0 2) by reflexivity.
    assert (X : 0 < x0 < 1) by (unfold x0; lra).
    rewrite Rle_bool_false, !Rlt_bool_false, Rlt_bool_true by lra. cbn [orb negb].
    rewrite usize_3_2, xi_T.
    destruct ex_ik_cf1 as (h & E & Hh). rewrite E. cbn [bind].
    rewrite ik_down_eq by lia. cbv zeta.
    replace (@powi2 A (1 - IZR 1)%R) with 0 by (unfold powi2; exact_simpl; ring).
    replace (1 - IZR 1) with 0 by ring.
    destruct ex_ik_series as (k & k1 & E2 & Hk & Hk1). rewrite E2. cbn [bind].
    rewrite (nu_up_eq fma chk Rplus 1) by (intros; ring || lia).
    change (Z.to_nat 1) with 1%nat. cbn [upw down fst snd]. cbv zeta. cbn [fst snd].
    do 4 eexists. split; [reflexivity|].
    pose proof fpmin_val as Hf. set (fp := @FPMIN A : R) in *.
    assert (HT : 0 < T) by (unfold T; lra).
    assert (D : 0 < 1 * T * fp + h * fp) by nra.
    apply Rgt_not_eq. apply Rdiv_lt_0_compat; [|exact D].
    apply Rmult_lt_0_compat; [|lra]. apply Rdiv_lt_0_compat; [exact HT|].
    assert (0 < ((1 - 1) * T * (1 * T * fp + h * fp) + 1 * fp) / (1 * T * fp + h * fp)).
    { apply Rdiv_lt_0_compat; [|exact D]. lra. }
    assert (0 < ((1 - 1) * T * (1 * T * fp + h * fp) + 1 * fp) / (1 * T * fp + h * fp) * k)
      by (apply Rmult_lt_0_compat; assumption).
    lra.
  Qed.

  Lemma pi_bounds : 3.14 <= pi_lit <= 3.15.
  Proof. unfold pi_lit. dec_simpl. lra. Qed.
  Lemma twoopi_bounds : 0.63 <= @TWOOPI A <= 0.64.
  Proof. unfold TWOOPI, FRAC_2_PI. exact_simpl. dec_simpl. lra. Qed.

  Lemma ex_jy_cf1 : exists h, @jy_cf1 A 1 T (2 * T)%R = Ok (h, 1%Z) /\ 0 < h.
  Proof.
    unfold jy_cf1. pose proof fpmin_val. unfold T in *.
    exact_simpl. rewrite (R_lit 0.0 0) by reflexivity.
    rewrite (Rlt_bool_false (1 * 1099511627776)) by lra.
    eexists. erewrite for_break_first; [|reflexivity|].
    2:{ unfold jy_cf1_body, clip_fpmin. exact_simpl. rewrite (R_lit 1.0 1), eps_val by reflexivity.
        rewrite (R_lit 0.0 0) by reflexivity.
        rewrite (Rmult_1_l 1099511627776).
        rewrite (Rlt_bool_false (Rabs _)) by (rewrite Rabs_pos_eq; lra).
        rewrite (Rlt_bool_false (Rabs _)) by (rewrite Rabs_pos_eq; lra).
        rewrite (Rlt_bool_false (1 / _)) by lra.
        rewrite Rle_bool_true; [reflexivity|]. apply Rabs_le. lra. }
    cbv beta iota. split; [reflexivity|]. lra.
  Qed.

  Lemma ex_jy_series : exists y y1 y', @jy_series A x0 0 0 T (2 * T)%R = Ok (y, y1, y') /\
    -30 <= y <= 0 /\ y1 <= -0.5 * T /\ y' = - y1.
  Proof.
    unfold jy_series, powi2. exact_simpl.
    replace (@PI A * 0) with 0 by (rewrite Rmult_0_r; reflexivity).
    rewrite Rabs_R0, eps_val.
    rewrite !(Rlt_bool_true 0 (1 / 4503599627370496)) by lra.
    rewrite (Rmult_0_l (- Rpower.ln _)), Rabs_R0, !(Rlt_bool_true 0 (1 / 4503599627370496)) by lra.
    rewrite (proj1 R_half), (R_lit 1.0 1), (R_lit 8.0 8) by reflexivity.
    replace (1 / 2 * 0) with 0 by ring.
    rewrite Rabs_R0, !(Rlt_bool_true 0 (1 / 4503599627370496)) by lra.
    replace (8 * (0 * 0) - 1) with (-1) by ring.
    replace (1 / 2 * x0) with (x0 / 2) by field.
    change (@PI A) with pi_lit.
    pose proof gam1_bounds as G1. pose proof gam2_bounds as G2. pose proof log_bounds as L.
    pose proof pi_bounds as Pi. pose proof twoopi_bounds as To.
    set (g1 := @chebev A (-1)%R C1) in *. set (g2 := @chebev A (-1)%R C2) in *.
    set (l := - Rpower.ln (x0 / 2)) in *. set (tp := @TWOOPI A) in *.
    rewrite cosh_0, exp_0. cbv zeta.
    set (ff := tp * 1 * (g1 * 1 + g2 * 1 * l)).
    set (p := 1 / ((g2 - 0 * g1) * pi_lit)). set (q := 1 / (1 * pi_lit * (g2 + 0 * g1))).
    assert (Hff : 11 <= ff <= 28).
    { unfold ff. assert (0.999 * l <= g2 * l <= 1.001 * l) by (split; apply Rmult_le_compat_r; lra).
      rewrite !Rmult_1_r. set (m := g1 + g2 * l). assert (19 <= m <= 42) by (unfold m; lra).
      assert (0.63 * 19 <= tp * m) by (apply Rmult_le_compat; lra).
      assert (tp * m <= 0.64 * 42) by (apply Rmult_le_compat; lra). lra. }
    assert (Hgp : 3 <= g2 * pi_lit <= 3.2).
    { assert (0.999 * 3.14 <= g2 * pi_lit) by (apply Rmult_le_compat; lra).
      assert (g2 * pi_lit <= 1.001 * 3.15) by (apply Rmult_le_compat; lra). lra. }
    assert (Hp : 0.31 <= p <= 0.34).
    { unfold p. rewrite Rmult_0_l, Rminus_0_r. set (m := g2 * pi_lit) in *. split.
      - apply Rmult_le_reg_r with m; [lra|]. unfold Rdiv. rewrite Rmult_assoc, Rinv_l by lra. lra.
      - apply Rmult_le_reg_r with m; [lra|]. unfold Rdiv. rewrite Rmult_assoc, Rinv_l by lra. lra. }
    assert (Hq : 0.31 <= q <= 0.34).
    { unfold q. rewrite Rmult_0_l, Rplus_0_r, Rmult_1_l, (Rmult_comm pi_lit). set (m := g2 * pi_lit) in *. split.
      - apply Rmult_le_reg_r with m; [lra|]. unfold Rdiv. rewrite Rmult_assoc, Rinv_l by lra. lra.
      - apply Rmult_le_reg_r with m; [lra|]. unfold Rdiv. rewrite Rmult_assoc, Rinv_l by lra. lra. }
    replace (pi_lit * 0 * 1 * 1) with 0 by ring.
    assert (Hx : 0 < x0 / 2 * (x0 / 2) <= 1 / 2 ^ 80).
    { unfold x0. lra. }
    set (d := x0 / 2 * (x0 / 2)) in *.
    set (ff1 := (1 * ff + p + q) / (1 * 1 - 0)).
    assert (Hff1 : 11 <= ff1 <= 29) by (unfold ff1; lra).
    assert (B : 0 <= d * ff1 <= 29 / 2 ^ 80).
    { split; [apply Rmult_le_pos; lra|]. apply Rle_trans with (1 / 2 ^ 80 * 29); [|lra]. apply Rmult_le_compat; lra. }
    erewrite for_break_first; [|reflexivity|].
    2:{ unfold jy_series_body. exact_simpl. rewrite eps_val, (R_lit 1.0 1) by reflexivity. cbv zeta.
        change (IZR 1) with 1. fold ff1.
        replace (1 * (- d / 1)) with (- d) by field.
        rewrite Rlt_bool_true; [reflexivity|].
        replace (- d * (ff1 + 0 * (q / (1 + 0)))) with (- (d * ff1)) by field.
        rewrite Rabs_Ropp, !Rabs_pos_eq by lra. lra. }
    cbv beta iota. do 3 eexists. split; [reflexivity|].
    replace (- d * (ff1 + 0 * (q / (1 + 0)))) with (- (d * ff1)) by field.
    assert (0 <= d * p <= 1 / 2 ^ 80).
    { split; [apply Rmult_le_pos; lra|]. apply Rle_trans with (1 / 2 ^ 80 * 1); [|lra]. apply Rmult_le_compat; lra. }
    replace (- d * (p / (1 - 0))) with (- (d * p)) by field.
    split; [lra|]. split; [|ring].
    assert (HT : 0 < T) by (unfold T; lra).
    assert (0.3 <= p + (- (d * p) - 1 * - (d * ff1))) by lra.
    assert (0.3 * T <= (p + (- (d * p) - 1 * - (d * ff1))) * T) by (apply Rmult_le_compat_r; lra).
    lra.
  Qed.

  Lemma ex_steps : order_steps 1 x0 1.
  Proof. unfold order_steps, x0. simpl. repeat split; lra. Qed.

  Lemma ex_besseljy : exists j y j' y' : R, @besseljy A 1 x0 = Ok (j, y, j', y') /\
    lowered x0 1 1 j j' <> 0 /\ y <> 0.
  Proof.
    unfold besseljy, jy_steps. exact_simpl. rewrite (R_lit 0.0 0), (R_lit 1.0 1), (R_lit 2.0 2) by reflexivity.
    assert (X : 0 < x0 < 1) by (unfold x0; lra).
    rewrite Rle_bool_false, !Rlt_bool_false, Rlt_bool_true by lra. cbn [orb negb].
    rewrite usize_3_2, xi_T.
    destruct ex_jy_cf1 as (h & E & Hh). rewrite E. cbn [bind].
    rewrite jy_down_eq by lia. cbv zeta.
    replace (@powi2 A (1 - IZR 1)%R) with 0 by (unfold powi2; exact_simpl; ring).
    replace (1 - IZR 1) with 0 by ring.
    destruct ex_jy_series as (y & y1 & y' & E2 & Hy & Hy1 & Hy'). rewrite E2. cbn [bind].
    rewrite (nu_up_eq fma chk Rminus (-1)) by (intros; ring || lia).
    change (Z.to_nat 1) with 1%nat. cbn [upw down fst snd]. cbv zeta. cbn [fst snd].
    change (@PI A) with pi_lit.
    pose proof fpmin_val as Hf. set (fp := @FPMIN A : R) in *.
    assert (HT : T = 1099511627776) by reflexivity.
    set (r0 := IZR 1 * fp). assert (Hr0 : 0 < r0) by (unfold r0; lra).
    assert (D : 0 < 1 * T * r0 + h * r0) by nra.
    rewrite (Req_bool_false (1 * T * r0 + h * r0) 0) by lra.
    do 4 eexists. split; [reflexivity|].
    assert (W : 0 < 2 * T / pi_lit) by (apply Rdiv_lt_0_compat; [lra|apply pi_lit_pos]).
    set (D0 := 1 * T * r0 + h * r0) in *.
    set (f := ((1 - 1) * T * D0 + -1 * r0) / D0).
    assert (Hf0 : -1 <= f <= 0).
    { unfold f. replace (((1 - 1) * T * D0 + -1 * r0) / D0) with (- (r0 / D0)) by (field; lra).
      assert (0 < r0 / D0) by (apply Rdiv_lt_0_compat; lra).
      assert (r0 / D0 <= 1).
      { apply Rmult_le_reg_r with D0; [lra|]. unfold Rdiv. rewrite Rmult_assoc, Rinv_l by lra. unfold D0. nra. }
      lra. }
    assert (B : 0 < y' - f * y).
    { assert (0 <= f * y <= 30).
      { split; [|].
        - replace (f * y) with ((- f) * (- y)) by ring. apply Rmult_le_pos; lra.
        - replace (f * y) with ((- f) * (- y)) by ring. apply Rle_trans with (1 * 30); [|lra]. apply Rmult_le_compat; lra. }
      lra. }
    set (fact := 2 * T / pi_lit / (y' - f * y) / D0).
    assert (Hfact : 0 < fact).
    { unfold fact. apply Rdiv_lt_0_compat; [apply Rdiv_lt_0_compat; [exact W|exact B]|exact D]. }
    split.
    - cbn [lowered]. rewrite xi_T. apply Rgt_not_eq.
      replace (T * (r0 * fact) + h * r0 * fact) with (D0 * fact) by (unfold D0; ring).
      apply Rmult_lt_0_compat; assumption.
    - lra.
  Qed.
End Ex.
