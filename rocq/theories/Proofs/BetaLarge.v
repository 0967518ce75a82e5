(** * betai vanishes for large parameters *)

From Coq Require Import ZArith Reals Bool Lra Lia List.
From Flocq Require Import Core IEEE754.BinarySingleNaN IEEE754.Binary IEEE754.Bits.
From Verif.Model Require Import Base Arith Gamma Beta.
From Verif.Float Require Import Bits64 Ieee Exact Platforms.
From Verif.Spec Require Import F64Spec Outcome.
From Verif.Proofs Require Import F64 F64Ops Lits Ext Boundaries Domains DawsonNeg InvGammaPanic GammaNaN Ideal.
Open Scope R_scope.

Notation lnR := Rpower.ln.

(** ** Real analysis *)

Lemma ln_le_sub1 : forall t, 0 < t -> lnR t <= t - 1.
Proof.
  intros t Ht. rewrite <- (ln_exp (t - 1)).
  assert (H : t <= Rtrigo_def.exp (t - 1)) by (pose proof (exp_ineq1_le (t - 1)); lra).
  destruct H as [H|H]; [left; apply ln_increasing; assumption|right; rewrite <- H; reflexivity].
Qed.

Lemma ln_ge_inv : forall t, 0 < t -> 1 - / t <= lnR t.
Proof.
  intros t Ht. pose proof (ln_le_sub1 (/ t) (Rinv_0_lt_compat t Ht)) as H. rewrite ln_Rinv in H by exact Ht. lra.
Qed.

(** the exponent of the quadrature terms, without the last summand *)
Lemma exponent_real : forall a b t, 3000 <= a -> 3000 <= b -> 0 < t < 1 ->
  (a - 1) * (lnR t - lnR (a / (a + b))) + (b - 1) * lnR (1 - t) <= -1490.
Proof.
  intros a b t Ha Hb Ht. set (s := a + b). assert (Hs : 0 < s) by (unfold s; lra).
  assert (I : 0 < / s) by (apply Rinv_0_lt_compat; exact Hs).
  assert (IA : 0 < / a) by (apply Rinv_0_lt_compat; lra). assert (IB : 0 < / b) by (apply Rinv_0_lt_compat; lra).
  assert (L1 : lnR t - lnR (a / s) <= t * s / a - 1).
  { replace (lnR t - lnR (a / s)) with (lnR (t * s / a)).
    - apply ln_le_sub1. unfold Rdiv. apply Rmult_lt_0_compat; [apply Rmult_lt_0_compat; lra|exact IA].
    - unfold Rdiv. rewrite !ln_mult, !ln_Rinv by (try apply Rmult_lt_0_compat; lra). lra. }
  assert (L2 : lnR (1 - t) <= (1 - t) * s / b - 1 - a / s).
  { replace (lnR (1 - t)) with (lnR ((1 - t) * s / b) + lnR (b / s)).
    - assert (lnR ((1 - t) * s / b) <= (1 - t) * s / b - 1).
      { apply ln_le_sub1. unfold Rdiv. apply Rmult_lt_0_compat; [apply Rmult_lt_0_compat; lra|exact IB]. }
      assert (lnR (b / s) <= b / s - 1) by (apply ln_le_sub1; unfold Rdiv; apply Rmult_lt_0_compat; lra).
      assert (b / s - 1 = - (a / s)) by (unfold s; field; lra). lra.
    - unfold Rdiv. rewrite !ln_mult, !ln_Rinv by (try apply Rmult_lt_0_compat; lra). lra. }
  assert (M1 : (a - 1) * (lnR t - lnR (a / s)) <= (a - 1) * (t * s / a - 1)) by (apply Rmult_le_compat_l; lra).
  assert (M2 : (b - 1) * lnR (1 - t) <= (b - 1) * ((1 - t) * s / b - 1 - a / s)) by (apply Rmult_le_compat_l; lra).
  assert (E : (a - 1) * (t * s / a - 1) + (b - 1) * ((1 - t) * s / b - 1 - a / s)
              = 2 - t * s / a - (1 - t) * s / b - (b - 1) * a / s) by (unfold s; field; unfold s in *; lra).
  assert (P1 : 0 <= t * s / a) by (unfold Rdiv; apply Rmult_le_pos; [apply Rmult_le_pos; lra|lra]).
  assert (P2 : 0 <= (1 - t) * s / b) by (unfold Rdiv; apply Rmult_le_pos; [apply Rmult_le_pos; lra|lra]).
  assert (P3 : 1499 <= (b - 1) * a / s).
  { apply Rmult_le_reg_r with s; [exact Hs|]. unfold Rdiv. rewrite Rmult_assoc, Rinv_l, Rmult_1_r by lra.
    unfold s. assert (0 <= (a - 3000) * (b - 3000)) by (apply Rmult_le_pos; lra). lra. }
  lra.
Qed.

(** ln on [2^-45, 1 - 2^-45] *)
Lemma ln_range : forall t, bpow radix2 (-45) <= t <= 1 -> -45 <= lnR t <= 0.
Proof.
  intros t Ht. pose proof (bpow_gt_0 radix2 (-45)) as B0. split.
  - apply Rle_trans with (lnR (bpow radix2 (-45))).
    + change (bpow radix2 (-45)) with (/ IZR (2 ^ 45)). rewrite ln_Rinv by (apply IZR_lt; lia).
      replace (IZR (2 ^ 45)) with (2 ^ 45)%R by (rewrite pow_IZR; reflexivity). rewrite ln_pow by lra.
      pose proof (ln_le_sub1 2 ltac:(lra)). assert (INR 45 = 45) by (simpl; lra). rewrite H0. lra.
    + destruct (proj1 Ht) as [H|H]; [left; apply ln_increasing; assumption|right; rewrite H; reflexivity].
  - pose proof (ln_le_sub1 t). lra.
Qed.

(** ** Rounding *)

(** absolute error of one rounding *)
Lemma rounds_abs : forall z r k, rounds z r -> (-900 <= k <= 900)%Z -> Rabs r <= bpow radix2 k ->
  fin z /\ Rabs (Binary.B2R z - r) <= bpow radix2 (k - 52).
Proof.
  intros z r k H Hk B. pose proof (rnd_abs_err r) as E.
  assert (B1 : bpow radix2 (-53) * Rabs r <= bpow radix2 (-53) * bpow radix2 k) by (apply Rmult_le_compat_l; [apply bpow_ge_0|exact B]).
  rewrite <- bpow_plus in B1.
  assert (B2 : bpow radix2 (-1075) <= bpow radix2 (-53 + k)) by (apply bpow_le; lia).
  assert (B3 : bpow radix2 (k - 52) = 2 * bpow radix2 (-53 + k)).
  { replace (k - 52)%Z with (1 + (-53 + k))%Z by lia. rewrite bpow_plus. reflexivity. }
  destruct (rounds_small z r H) as [F V].
  - apply Rle_lt_trans with (bpow radix2 k).
    + rewrite <- rnd_abs. apply rnd_le_fmt; [apply fmt_bpow; lia|exact B].
    + unfold Om. apply bpow_lt. lia.
  - split; [exact F|]. rewrite V. lra.
Qed.

(** the same with explicit bounds *)
Lemma rounds_in : forall z r k, rounds z r -> (-900 <= k <= 900)%Z -> - bpow radix2 k <= r <= bpow radix2 k ->
  fin z /\ r - bpow radix2 (k - 52) <= Binary.B2R z <= r + bpow radix2 (k - 52).
Proof.
  intros z r k H Hk B. destruct (rounds_abs z r k H Hk) as [F E]; [apply Rabs_le; exact B|].
  apply Rabs_le_inv in E. split; [exact F|lra].
Qed.

Lemma rounds_pow : forall z r l h, rounds z r -> (-900 <= l)%Z -> (l <= h <= 900)%Z ->
  bpow radix2 l <= r <= bpow radix2 h -> fin z /\ bpow radix2 l <= Binary.B2R z <= bpow radix2 h.
Proof.
  intros z r l h [N V] Hl Hh B. pose proof (bpow_gt_0 radix2 l) as P0.
  assert (O : bpow radix2 h < Om) by (unfold Om; apply bpow_lt; lia).
  assert (L : bpow radix2 l <= val z <= bpow radix2 h).
  { rewrite V. split; [apply rs_ge; [apply fmt_bpow; lia|lra|lra]|apply rs_le_fmt; [apply fmt_bpow; lia|lra|lra]]. }
  assert (F : fin z) by (apply fin_iff_val; [exact N|rewrite Rabs_pos_eq; lra]).
  split; [exact F|]. rewrite <- (val_fin z F). exact L.
Qed.

Section Large.
  Context (P : platform) (LN : accurate_ln (p_ln P)) (EX : exp_underflows (p_exp P)).
  Notation sub := (f64_sub P). Notation mul := (f64_mul P). Notation add := (f64_add P). Notation div := (f64_div P).
  Notation lnF := (libm P (p_ln P)).

  Lemma ln_f64 : forall t : f64, fin t -> bpow radix2 (-45) <= Binary.B2R t <= 1 ->
    fin (lnF t) /\ lnR (Binary.B2R t) - bpow radix2 (-44) <= Binary.B2R (lnF t) <= lnR (Binary.B2R t) + bpow radix2 (-44)
    /\ -46 <= Binary.B2R (lnF t) <= 1.
  Proof.
    intros t F B. pose proof (bpow_gt_0 radix2 (-45)) as B0. pose proof (ln_range _ B) as R.
    rewrite libm_nonnan by (apply fin_nonnan; exact F).
    assert (O1 : bpow radix2 1024 > 1) by (change 1 with (bpow radix2 0); apply bpow_lt; lia).
    destruct (LN t (fin_nonnan _ F)) as [N E]; [rewrite (val_fin t F); lra|].
    rewrite (val_fin t F) in E. rewrite (Rabs_left1 (lnR _)) in E by lra.
    assert (E2 : bpow radix2 (-50) * - lnR (Binary.B2R t) + bpow radix2 (-1000) <= bpow radix2 (-44)).
    { assert (E4 : bpow radix2 (-50) * - lnR (Binary.B2R t) <= bpow radix2 (-50) * 45) by (apply Rmult_le_compat_l; [apply bpow_ge_0|lra]).
      assert (E5 : bpow radix2 (-1000) <= bpow radix2 (-50)) by (apply bpow_le; lia).
      assert (E6 : bpow radix2 (-44) = 64 * bpow radix2 (-50)) by (change (-44)%Z with (6 + -50)%Z; rewrite bpow_plus; reflexivity).
      pose proof (bpow_gt_0 radix2 (-50)). lra. }
    assert (E3 : bpow radix2 (-44) <= 1) by (change 1 with (bpow radix2 0); apply bpow_le; lia).
    apply Rabs_le_inv in E.
    assert (FL : fin (p_ln P t)).
    { apply fin_iff_val; [exact N|]. pose proof Om_big. apply Rabs_lt. lra. }
    rewrite (val_fin _ FL) in E. split; [exact FL|]. lra.
  Qed.

  (** one quadrature term: its exponent is far below the underflow threshold *)
  Lemma exponent_f64 : forall a b t : f64, fin a -> fin b -> fin t ->
    3000 < Binary.B2R a <= bpow radix2 40 -> 3000 < Binary.B2R b <= bpow radix2 40 ->
    bpow radix2 (-40) <= Binary.B2R t <= 1 - bpow radix2 (-40) ->
    let mu := div a (add a b) in
    let e := sub (add (mul (sub a (f64_lit 1.0)) (sub (lnF t) (lnF mu)))
                      (mul (sub b (f64_lit 1.0)) (lnF (sub (f64_lit 1.0) t))))
                 (lnF (sub (f64_lit 1.0) mu)) in
    number e /\ val e <= -1000.
  Proof.
    intros a b t Fa Fb Ft Ba Bb Bt. cbv zeta.
    set (A := Binary.B2R a) in *. set (B := Binary.B2R b) in *. set (T := Binary.B2R t) in *.
    assert (V1 : Binary.B2R (f64_lit 1.0) = 1) by (rewrite <- (val_fin _ fin_1); exact val_1).
    assert (K40 : bpow radix2 41 = 2 * bpow radix2 40) by (change 41%Z with (1 + 40)%Z; rewrite bpow_plus; reflexivity).
    assert (K40' : bpow radix2 40 = 1099511627776) by (rewrite bpow2_nonneg_IZR by lia; reflexivity).
    assert (Km40 : bpow radix2 (-40) = / 1099511627776) by reflexivity.
    assert (Km45 : bpow radix2 (-45) = / 35184372088832) by reflexivity.
    assert (Km44 : bpow radix2 (-44) = / 17592186044416) by reflexivity.
    (* mu *)
    destruct (rounds_near _ _ (add_spec P a b Fa Fb)) as [Fs Vs].
    { fold A B. assert (bpow radix2 (-1000) <= 1) by (change 1 with (bpow radix2 0); apply bpow_le; lia).
      assert (bpow radix2 41 <= bpow radix2 1000) by (apply bpow_le; lia). lra. }
    fold A B in Vs. set (s := add a b) in *. set (S := Binary.B2R s) in *.
    pose proof u_small as U. assert (U53 : bpow radix2 (-53) = / 9007199254740992) by reflexivity.
    rewrite U53 in Vs.
    assert (S0 : 5999 <= S) by lra.
    assert (MU : A / S * (A + B) <= A * (1 + 2 / 9007199254740992)
                 /\ A * (1 - 2 / 9007199254740992) <= A / S * (A + B)).
    { assert (EQ : A / S * S = A) by (field; lra). 
      assert (Q0 : 0 <= A / S) by (unfold Rdiv; apply Rmult_le_pos; [lra|left; apply Rinv_0_lt_compat; lra]).
      split.
      - assert (A / S * ((A + B) * (1 - / 9007199254740992)) <= A / S * S) by (apply Rmult_le_compat_l; lra). lra.
      - assert (A / S * S <= A / S * ((A + B) * (1 + / 9007199254740992))) by (apply Rmult_le_compat_l; lra). lra. }
    assert (Q1 : / 1000000000 <= A / S <= 1).
    { split; apply Rmult_le_reg_r with (A + B); try lra. }
    destruct (rounds_near _ _ (div_spec P a s Fa Fs ltac:(fold S; lra))) as [Fm Vm].
    { fold A S. assert (bpow radix2 (-1000) <= bpow radix2 (-53)) by (apply bpow_le; lia).
      assert (1 <= bpow radix2 1000) by (change 1 with (bpow radix2 0); apply bpow_le; lia). lra. }
    fold A S in Vm. rewrite U53 in Vm. set (mu := div a s) in *. set (M := Binary.B2R mu) in *.
    assert (MR : A * (1 - 4 / 9007199254740992) <= M * (A + B) <= A * (1 + 4 / 9007199254740992)).
    { split.
      - assert (A / S * (1 - / 9007199254740992) * (A + B) <= M * (A + B)) by (apply Rmult_le_compat_r; lra). lra.
      - assert (M * (A + B) <= A / S * (1 + / 9007199254740992) * (A + B)) by (apply Rmult_le_compat_r; lra). lra. }
    assert (M1 : / 1000000000 <= M * 1.5 /\ M <= 1 - / 1500000000).
    { split; apply Rmult_le_reg_r with (A + B); lra. }
    (* 1 - mu *)
    destruct (rounds_in (sub (f64_lit 1.0) mu) _ 1 (sub_spec P _ mu fin_1 Fm)) as [Fmc Vmc]; [lia|rewrite V1; fold M; simpl; lra|].
    rewrite V1 in Vmc. fold M in Vmc. change (bpow radix2 (1 - 52)) with (/ 2251799813685248) in Vmc.
    assert (Hmc : bpow radix2 (-45) <= Binary.B2R (sub (f64_lit 1.0) mu) <= 1).
    { split; [lra|]. destruct (sub_spec P _ mu fin_1 Fm) as [N V]. rewrite (val_fin _ Fmc), V1 in V. rewrite V.
      pose proof Om_big. apply rs_le_fmt; [apply (fmt_IZR 1); lia|lra|fold M; lra]. }
    destruct (ln_f64 _ Fmc Hmc) as (FLmc & _ & Lmc).
    destruct (ln_f64 mu Fm ltac:(fold M; lra)) as (FLm & Lm & Rm). fold M in Lm.
    destruct (ln_f64 t Ft ltac:(fold T; lra)) as (FLt & Lt & Rt). fold T in Lt.
    (* 1 - t *)
    destruct (rounds_near _ _ (sub_spec P _ t fin_1 Ft)) as [Fc Vc].
    { rewrite V1. fold T. assert (bpow radix2 (-1000) <= bpow radix2 (-40)) by (apply bpow_le; lia).
      assert (1 <= bpow radix2 1000) by (change 1 with (bpow radix2 0); apply bpow_le; lia). lra. }
    rewrite V1, U53 in Vc. fold T in Vc.
    assert (Hc : bpow radix2 (-45) <= Binary.B2R (sub (f64_lit 1.0) t) <= 1).
    { split; [lra|]. destruct (sub_spec P _ t fin_1 Ft) as [N V]. rewrite (val_fin _ Fc), V1 in V. rewrite V.
      pose proof Om_big. apply rs_le_fmt; [apply (fmt_IZR 1); lia|lra|fold T; lra]. }
    destruct (ln_f64 _ Fc Hc) as (FLc & Lc & Rc). set (C := Binary.B2R (sub (f64_lit 1.0) t)) in *.
    (* the rounded arguments of ln against the exact ones *)
    assert (LM : lnR (A / (A + B)) - 1 / 1000000000000 <= lnR M).
    { assert (X : 0 < A / (A + B)) by (unfold Rdiv; apply Rmult_lt_0_compat; [lra|apply Rinv_0_lt_compat; lra]).
      replace (lnR M) with (lnR (A / (A + B)) + lnR (M * (A + B) / A)).
      2:{ rewrite <- ln_mult; [|exact X|]. f_equal. field. lra.
          unfold Rdiv. apply Rmult_lt_0_compat; [lra|apply Rinv_0_lt_compat; lra]. }
      set (q := M * (A + B) / A).
      assert (QA : q * A = M * (A + B)) by (unfold q; field; lra).
      assert (Q : 1 - 4 / 9007199254740992 <= q) by (apply Rmult_le_reg_r with A; lra).
      pose proof (ln_ge_inv q ltac:(lra)) as G.
      assert (/ q <= 1 + 1 / 1000000000000).
      { apply Rmult_le_reg_r with q; [lra|]. rewrite Rinv_l by lra. lra. }
      lra. }
    assert (LC : lnR C <= lnR (1 - T) + / 9007199254740992).
    { replace (lnR C) with (lnR (1 - T) + lnR (C / (1 - T))).
      2:{ rewrite <- ln_mult; [|lra|]. f_equal. field. lra.
          unfold Rdiv. apply Rmult_lt_0_compat; [lra|apply Rinv_0_lt_compat; lra]. }
      assert (Q0 : 0 < C / (1 - T)) by (unfold Rdiv; apply Rmult_lt_0_compat; [lra|apply Rinv_0_lt_compat; lra]).
      pose proof (ln_le_sub1 _ Q0).
      assert (C / (1 - T) <= 1 + / 9007199254740992).
      { apply Rmult_le_reg_r with (1 - T); [lra|]. unfold Rdiv. rewrite Rmult_assoc, Rinv_l by lra. lra. }
      lra. }
    set (X := lnR T - lnR (A / (A + B))). set (Z := lnR (1 - T)) in *.
    pose proof (exponent_real A B T ltac:(lra) ltac:(lra) ltac:(lra)) as ER. fold X Z in ER.
    (* ln t - ln mu *)
    destruct (rounds_in (sub (lnF t) (lnF mu)) _ 6 (sub_spec P _ _ FLt FLm)) as [FD VD]; [lia|simpl; lra|].
    change (bpow radix2 (6 - 52)) with (/ 70368744177664) in VD.
    set (D := Binary.B2R (sub (lnF t) (lnF mu))) in *.
    assert (DX : D <= X + 13 / 10000000000000) by (unfold X; lra).
    assert (DB : -48 <= D <= 48) by lra.
    (* a - 1, b - 1 *)
    destruct (rounds_in (sub a (f64_lit 1.0)) _ 40 (sub_spec P a _ Fa fin_1)) as [FA1 VA1]; [lia|fold A; rewrite V1; lra|].
    destruct (rounds_in (sub b (f64_lit 1.0)) _ 40 (sub_spec P b _ Fb fin_1)) as [FB1 VB1]; [lia|fold B; rewrite V1; lra|].
    fold A in VA1. fold B in VB1. rewrite V1 in VA1, VB1.
    change (bpow radix2 (40 - 52)) with (/ 4096) in VA1, VB1.
    set (A1 := Binary.B2R (sub a (f64_lit 1.0))) in *. set (B1 := Binary.B2R (sub b (f64_lit 1.0))) in *.
    set (lc := Binary.B2R (lnF (sub (f64_lit 1.0) t))) in *.
    assert (PA : A1 * D <= (A - 1) * X + 2 /\ - (48 * A1) <= A1 * D <= 48 * A1).
    { assert (E1 : A1 * D = (A - 1) * D + (A1 - (A - 1)) * D) by ring.
      assert (E2 : (A1 - (A - 1)) * D <= / 4096 * 48) by (apply Rle_trans with (Rabs ((A1 - (A - 1)) * D)); [apply Rle_abs|];
        rewrite Rabs_mult; apply Rmult_le_compat; try apply Rabs_pos; apply Rabs_le; lra).
      assert (E3 : (A - 1) * D <= (A - 1) * (X + 13 / 10000000000000)) by (apply Rmult_le_compat_l; lra).
      split; [lra|]. split.
      - assert (A1 * -48 <= A1 * D) by (apply Rmult_le_compat_l; lra). lra.
      - assert (A1 * D <= A1 * 48) by (apply Rmult_le_compat_l; lra). lra. }
    assert (PB : B1 * lc <= (B - 1) * Z + 2 /\ - (48 * B1) <= B1 * lc <= 48 * B1).
    { assert (E1 : B1 * lc = (B - 1) * lc + (B1 - (B - 1)) * lc) by ring.
      assert (E2 : (B1 - (B - 1)) * lc <= / 4096 * 48) by (apply Rle_trans with (Rabs ((B1 - (B - 1)) * lc)); [apply Rle_abs|];
        rewrite Rabs_mult; apply Rmult_le_compat; try apply Rabs_pos; apply Rabs_le; lra).
      assert (E3 : (B - 1) * lc <= (B - 1) * (Z + 1 / 10000000000000)) by (apply Rmult_le_compat_l; lra).
      split; [lra|]. split.
      - assert (B1 * -48 <= B1 * lc) by (apply Rmult_le_compat_l; lra). lra.
      - assert (B1 * lc <= B1 * 48) by (apply Rmult_le_compat_l; lra). lra. }
    assert (K46 : bpow radix2 46 = 64 * bpow radix2 40) by (change 46%Z with (6 + 40)%Z; rewrite bpow_plus; reflexivity).
    assert (K48 : bpow radix2 48 = 256 * bpow radix2 40) by (change 48%Z with (8 + 40)%Z; rewrite bpow_plus; reflexivity).
    destruct (rounds_in (mul (sub a (f64_lit 1.0)) (sub (lnF t) (lnF mu))) _ 46 (mul_spec P _ _ FA1 FD)) as [FM VM];
      [lia|fold A1 D; lra|]. fold A1 D in VM. change (bpow radix2 (46 - 52)) with (/ 64) in VM.
    destruct (rounds_in (mul (sub b (f64_lit 1.0)) (lnF (sub (f64_lit 1.0) t))) _ 46 (mul_spec P _ _ FB1 FLc)) as [FN VN];
      [lia|fold B1 lc; lra|]. fold B1 lc in VN. change (bpow radix2 (46 - 52)) with (/ 64) in VN.
    set (m := mul (sub a (f64_lit 1.0)) (sub (lnF t) (lnF mu))) in *.
    set (n := mul (sub b (f64_lit 1.0)) (lnF (sub (f64_lit 1.0) t))) in *.
    destruct (rounds_in (add m n) _ 48 (add_spec P m n FM FN)) as [FMN VMN]; [lia|lra|].
    change (bpow radix2 (48 - 52)) with (/ 16) in VMN.
    destruct (rounds_in (sub (add m n) (lnF (sub (f64_lit 1.0) mu))) _ 48 (sub_spec P _ _ FMN FLmc)) as [FE VE]; [lia|lra|].
    change (bpow radix2 (48 - 52)) with (/ 16) in VE.
    split; [apply fin_nonnan; exact FE|]. rewrite (val_fin _ FE). lra.
  Qed.

  (** the quadrature nodes and weights *)
  Definition node_ok (yw : dec * dec) : Prop :=
    inb (f64_lit (fst yw)) (131 / 65536) (62915 / 65536) /\ inb (f64_lit (snd yw)) (0 / 65536) (65536 / 65536).

  Lemma nodes_ok : Forall node_ok (combine Y W).
  Proof.
    cbn [combine Y W]. repeat (constructor; [split; cbn [fst snd]; (apply lit_inb; [lia|lia|
      unfold R_of_dec; cbn [dman dexp]; rewrite powerRZ_10; simpl; lra])|]). constructor.
  Qed.

  (** a node of the interval between x and xu *)
  Lemma node_range : forall (x xu y : f64), fin x -> fin xu -> inb y (131 / 65536) (62915 / 65536) ->
    bpow radix2 (-30) <= Binary.B2R x <= 1 - bpow radix2 (-30) -> 0 <= Binary.B2R xu <= 1 ->
    fin (add x (mul (sub xu x) y))
    /\ bpow radix2 (-40) <= Binary.B2R (add x (mul (sub xu x) y)) <= 1 - bpow radix2 (-40).
  Proof.
    intros x xu y Fx Fu [Fy By] Bx Bu.
    assert (K30 : bpow radix2 (-30) = / 1073741824) by reflexivity.
    assert (K40 : bpow radix2 (-40) = / 1099511627776) by reflexivity.
    set (X := Binary.B2R x) in *. set (U := Binary.B2R xu) in *. set (y' := Binary.B2R y) in *.
    destruct (rounds_in (sub xu x) _ 0 (sub_spec P xu x Fu Fx)) as [F1 V1]; [lia|fold X U; simpl; lra|].
    fold X U in V1. change (bpow radix2 (0 - 52)) with (/ 4503599627370496) in V1.
    set (d := sub xu x) in *. set (D := Binary.B2R d) in *.
    assert (DY : (U - X) * y' - / 4503599627370496 <= D * y' <= (U - X) * y' + / 4503599627370496).
    { assert (E : D * y' = (U - X) * y' + (D - (U - X)) * y') by ring.
      assert (Rabs ((D - (U - X)) * y') <= / 4503599627370496 * 1).
      { rewrite Rabs_mult. apply Rmult_le_compat; try apply Rabs_pos; apply Rabs_le; lra. }
      apply Rabs_le_inv in H. lra. }
    assert (UY : - X * (62915 / 65536) <= (U - X) * y' <= (1 - X) * (62915 / 65536)).
    { assert (E1 : (0 - X) * y' <= (U - X) * y') by (apply Rmult_le_compat_r; lra).
      assert (E2 : (U - X) * y' <= (1 - X) * y') by (apply Rmult_le_compat_r; lra).
      assert (E3 : X * y' <= X * (62915 / 65536)) by (apply Rmult_le_compat_l; lra).
      assert (E4 : (1 - X) * y' <= (1 - X) * (62915 / 65536)) by (apply Rmult_le_compat_l; lra). lra. }
    destruct (rounds_in (mul d y) _ 1 (mul_spec P d y F1 Fy)) as [F2 V2]; [lia|fold D y'; simpl; lra|].
    fold D y' in V2. change (bpow radix2 (1 - 52)) with (/ 2251799813685248) in V2.
    destruct (rounds_in (add x (mul d y)) _ 1 (add_spec P x _ Fx F2)) as [F3 V3]; [lia|fold X; simpl; lra|].
    fold X in V3. change (bpow radix2 (1 - 52)) with (/ 2251799813685248) in V3.
    split; [exact F3|]. lra.
  Qed.

  Definition is_zero (z : f64) : Prop := fin z /\ Binary.B2R z = 0.

  Lemma rounds_zero : forall z, rounds z 0 -> is_zero z.
  Proof.
    intros z H. destruct (rounds_small z 0 H) as [F V]; [rewrite rnd_0, Rabs_R0; apply Om_pos|].
    split; [exact F|]. rewrite V. apply rnd_0.
  Qed.

  Lemma mul_zero_r : forall w z, fin w -> is_zero z -> is_zero (mul w z).
  Proof.
    intros w z Fw [Fz Vz]. apply rounds_zero. pose proof (mul_spec P w z Fw Fz) as H. rewrite Vz, Rmult_0_r in H. exact H.
  Qed.
  Lemma mul_zero_l : forall w z, fin w -> is_zero z -> is_zero (mul z w).
  Proof.
    intros w z Fw [Fz Vz]. apply rounds_zero. pose proof (mul_spec P z w Fz Fw) as H. rewrite Vz, Rmult_0_l in H. exact H.
  Qed.
  Lemma add_zero : forall w z, is_zero w -> is_zero z -> is_zero (add w z).
  Proof.
    intros w z [Fw Vw] [Fz Vz]. apply rounds_zero. pose proof (add_spec P w z Fw Fz) as H. rewrite Vw, Vz, Rplus_0_r in H. exact H.
  Qed.
  Lemma zero_of_val : forall z : f64, number z -> val z = 0 -> is_zero z.
  Proof.
    intros z N V. assert (F : fin z) by (apply fin_iff_val; [exact N|rewrite V, Rabs_R0; apply Om_pos]).
    split; [exact F|]. rewrite <- (val_fin z F). exact V.
  Qed.

  Definition nan_or_zero (z : f64) : Prop := is_NaN z \/ (number z /\ val z = 0).

  Lemma mul_zero_any : forall z w, is_zero z -> nan_or_zero (mul z w).
  Proof.
    intros z w Z. destruct (Binary.is_nan w) eqn:N; [left; apply mul_nan_r; exact N|].
    destruct (fin_or_inf w N) as [F|[s ->]].
    - right. destruct (mul_zero_l w z F Z) as [Fm Vm]. split; [apply fin_nonnan; exact Fm|]. rewrite (val_fin _ Fm). exact Vm.
    - left. destruct Z as [Fz Vz]. destruct z as [s'|s'|s' p e|s' m e H]; try discriminate Fz; [reflexivity|exfalso].
      apply eq_0_F2R in Vz. destruct s'; discriminate Vz.
  Qed.

  Lemma quad_zero : forall a b x xu : f64, fin a -> fin b -> fin x -> fin xu ->
    3000 < Binary.B2R a <= bpow radix2 40 -> 3000 < Binary.B2R b <= bpow radix2 40 ->
    bpow radix2 (-30) <= Binary.B2R x <= 1 - bpow radix2 (-30) -> 0 <= Binary.B2R xu <= 1 ->
    let mu := div a (add a b) in
    is_zero (@betai_quad (ieee P) (sub a (f64_lit 1.0)) (sub b (f64_lit 1.0)) (lnF mu) (lnF (sub (f64_lit 1.0) mu)) x xu).
  Proof.
    intros a b x xu Fa Fb Fx Fu Ba Bb Bx Bu. cbv zeta. unfold betai_quad.
    assert (G : forall l sum, Forall node_ok l -> is_zero sum ->
      is_zero (fold_left (fun sum (yw : dec * dec) =>
        @Arith.add (ieee P) sum (@Arith.mul (ieee P) (@lit (ieee P) (snd yw)) (@exp (ieee P)
          (@Arith.sub (ieee P) (@Arith.add (ieee P)
             (@Arith.mul (ieee P) (sub a (f64_lit 1.0)) (@Arith.sub (ieee P) (@ln (ieee P) (@Arith.add (ieee P) x (@Arith.mul (ieee P) (@Arith.sub (ieee P) xu x) (@lit (ieee P) (fst yw))))) (lnF (div a (add a b)))))
             (@Arith.mul (ieee P) (sub b (f64_lit 1.0)) (@ln (ieee P) (@Arith.sub (ieee P) (@lit (ieee P) 1.0) (@Arith.add (ieee P) x (@Arith.mul (ieee P) (@Arith.sub (ieee P) xu x) (@lit (ieee P) (fst yw))))))))
             (lnF (sub (f64_lit 1.0) (div a (add a b)))))))) l sum)).
    { intros l. induction l as [|[y w] l IH]; intros sum Hl Z; [exact Z|]. inversion Hl as [|? ? [Hy Hw] Hl']. subst.
      cbn [fold_left]. apply IH; [exact Hl'|]. cbn [fst snd] in *. ieee_simpl.
      apply add_zero; [exact Z|]. apply mul_zero_r; [apply Hw|].
      destruct (node_range x xu _ Fx Fu Hy Bx Bu) as [Ft Bt].
      destruct (exponent_f64 a b _ Fa Fb Ft Ba Bb Bt) as [N V].
      rewrite libm_nonnan by exact N. destruct (EX _ N V) as [N' V']. apply zero_of_val; assumption. }
    apply G; [exact nodes_ok|]. apply zero_of_val; [apply nn_0|exact val_0].
  Qed.

  Lemma finish_zero : forall a b a1 b1 lm lmc x xu sum, fin x -> fin xu -> 0 <= Binary.B2R x <= 1 -> 0 <= Binary.B2R xu <= 1 ->
    is_zero sum -> nan_or_zero (@betai_finish (ieee P) a b a1 b1 lm lmc x xu sum).
  Proof.
    intros a b a1 b1 lm lmc x xu sum Fx Fu Bx Bu Z. unfold betai_finish. ieee_simpl.
    set (g := libm P (p_exp P) _).
    destruct (rounds_in (sub xu x) _ 0 (sub_spec P xu x Fu Fx)) as [F1 _]; [lia|simpl; lra|].
    pose proof (mul_zero_any _ g (mul_zero_l _ _ F1 Z)) as H. set (ans := mul _ g) in *. clearbody ans.
    destruct H as [H|[N V]].
    - rewrite (lt_nan_r _ ans H). left. unfold is_NaN. rewrite nan_neg. exact H.
    - assert (C : f64_lt (f64_lit 0.0) ans = false) by (apply lt_false; [apply nn_0|exact N|rewrite V, val_0; lra]).
      rewrite C. right. split; [unfold number; rewrite nan_neg; exact N|]. rewrite val_neg. lra.
  Qed.

  (** the standard deviation of the distribution *)
  Lemma sd_range : forall a b : f64, fin a -> fin b ->
    3000 < Binary.B2R a <= bpow radix2 40 -> 3000 < Binary.B2R b <= bpow radix2 40 ->
    let s := add a b in
    let sd := f64_sqrt P (div (mul a b) (mul (mul s s) (add s (f64_lit 1.0)))) in
    fin sd /\ 0 <= Binary.B2R sd <= bpow radix2 50.
  Proof.
    intros a b Fa Fb Ba Bb. cbv zeta.
    assert (K40 : bpow radix2 40 = 1099511627776) by (rewrite bpow2_nonneg_IZR by lia; reflexivity).
    set (A := Binary.B2R a) in *. set (B := Binary.B2R b) in *.
    assert (V1 : Binary.B2R (f64_lit 1.0) = 1) by (rewrite <- (val_fin _ fin_1); exact val_1).
    assert (K11 : bpow radix2 11 = 2048) by reflexivity.
    destruct (rounds_pow (mul a b) _ 22 80 (mul_spec P a b Fa Fb)) as [Fab Vab]; [lia|lia| |].
    { change 22%Z with (11 + 11)%Z. change 80%Z with (40 + 40)%Z. rewrite !bpow_plus. fold A B.
      split; apply Rmult_le_compat; lra. }
    destruct (rounds_pow (add a b) _ 11 41 (add_spec P a b Fa Fb)) as [Fs Vs]; [lia|lia| |].
    { change 41%Z with (1 + 40)%Z. rewrite !bpow_plus. change (bpow radix2 1) with 2. fold A B. lra. }
    set (s := add a b) in *.
    destruct (rounds_pow (mul s s) _ 22 82 (mul_spec P s s Fs Fs)) as [Fss Vss]; [lia|lia| |].
    { change 22%Z with (11 + 11)%Z. change 82%Z with (41 + 41)%Z. rewrite !bpow_plus. pose proof (bpow_gt_0 radix2 41).
      split; apply Rmult_le_compat; lra. }
    destruct (rounds_pow (add s (f64_lit 1.0)) _ 11 42 (add_spec P s _ Fs fin_1)) as [Fs1 Vs1]; [lia|lia| |].
    { change 42%Z with (1 + 41)%Z. rewrite !bpow_plus. change (bpow radix2 1) with 2. rewrite V1.
      assert (bpow radix2 11 <= bpow radix2 41) by (apply bpow_le; lia). lra. }
    destruct (rounds_pow (mul (mul s s) (add s (f64_lit 1.0))) _ 33 124 (mul_spec P _ _ Fss Fs1)) as [Fd Vd]; [lia|lia| |].
    { change 33%Z with (22 + 11)%Z. change 124%Z with (82 + 42)%Z. rewrite !bpow_plus.
      pose proof (bpow_gt_0 radix2 22). pose proof (bpow_gt_0 radix2 82).
      split; apply Rmult_le_compat; lra. }
    set (d := mul (mul s s) (add s (f64_lit 1.0))) in *.
    pose proof (bpow_gt_0 radix2 33) as P33. pose proof (bpow_gt_0 radix2 22) as P22.
    assert (D0 : Binary.B2R d <> 0) by lra.
    destruct (rounds_pow (div (mul a b) d) _ (22 - 124) (80 - 33) (div_spec P _ d Fab Fd D0)) as [Fr Vr]; [lia|lia| |].
    { unfold Zminus. rewrite !bpow_plus, !bpow_opp. unfold Rdiv. split; apply Rmult_le_compat; try lra.
      - left. apply Rinv_0_lt_compat, bpow_gt_0.
      - apply Rinv_le; lra.
      - left. apply Rinv_0_lt_compat. lra.
      - apply Rinv_le; lra. }
    pose proof (bpow_gt_0 radix2 (22 - 124)) as P0.
    destruct (sqrt_spec P _ Fr ltac:(lra)) as [Fq Vq]. split; [exact Fq|]. rewrite Vq. split.
    - apply rnd_pos, sqrt_pos.
    - apply rnd_le_fmt; [apply fmt_bpow; lia|]. rewrite <- (sqrt_bpow radix2 50). apply sqrt_le_1_alt.
      assert (bpow radix2 (80 - 33) <= bpow radix2 (2 * 50)) by (apply bpow_le; lia). lra.
  Qed.

  Lemma approx_zero : forall a b x : f64, fin a -> fin b -> fin x ->
    3000 < Binary.B2R a <= bpow radix2 40 -> 3000 < Binary.B2R b <= bpow radix2 40 ->
    bpow radix2 (-30) <= Binary.B2R x <= 1 - bpow radix2 (-30) ->
    nan_or_zero (@betaiapprox (ieee P) a b x).
  Proof.
    intros a b x Fa Fb Fx Ba Bb Bx.
    pose proof (sd_range a b Fa Fb Ba Bb) as [Fsd Vsd]. cbv zeta in Fsd, Vsd.
    unfold betaiapprox, powi2.
    change (@Arith.lt (ieee P)) with f64_lt. change (@Arith.le (ieee P)) with f64_le. change (@lit (ieee P)) with f64_lit.
    change (@Arith.add (ieee P)) with add. change (@Arith.sub (ieee P)) with sub. change (@Arith.mul (ieee P)) with mul.
    change (@Arith.div (ieee P)) with div. change (@Arith.ln (ieee P)) with lnF. change (@Arith.sqrt (ieee P)) with (f64_sqrt P).
    change (@Arith.fmin (ieee P)) with (f64_min P). change (@Arith.fmax (ieee P)) with (f64_max P).
    set (sd := f64_sqrt P _) in *. set (mu := div a (add a b)).
    pose proof (bpow_gt_0 radix2 (-30)) as P30.
    assert (Nsd : nonneg sd) by (split; [apply fin_nonnan; exact Fsd|rewrite (val_fin _ Fsd); lra]).
    assert (Nx : nonneg x) by (split; [apply fin_nonnan; exact Fx|rewrite (val_fin _ Fx); lra]).
    assert (Nmu : nonneg mu /\ fin mu).
    { destruct (rounds_pow (add a b) _ 11 41 (add_spec P a b Fa Fb)) as [Fs Vs]; [lia|lia| |].
      { change 41%Z with (1 + 40)%Z. rewrite !bpow_plus. change (bpow radix2 1) with 2. change (bpow radix2 11) with 2048. lra. }
      change (bpow radix2 11) with 2048 in Vs.
      assert (D0 : Binary.B2R (add a b) <> 0) by lra.
      destruct (rounds_pow mu _ (0 - 41) (40 - 0) (div_spec P a _ Fa Fs D0)) as [Fm Vm]; [lia|lia| |].
      { unfold Zminus. rewrite !bpow_plus, !bpow_opp. change (bpow radix2 0) with 1. unfold Rdiv. split; apply Rmult_le_compat; try lra.
        - left. apply Rinv_0_lt_compat, bpow_gt_0.
        - apply Rinv_le; lra.
        - left. apply Rinv_0_lt_compat. lra.
        - apply Rinv_le; lra. }
      pose proof (bpow_gt_0 radix2 (0 - 41)).
      split; [split; [apply fin_nonnan; exact Fm|rewrite (val_fin _ Fm); lra]|exact Fm]. }
    destruct Nmu as [Nmu Fmu].
    lit_facts 10.0%dec 10%Z 0%Z F10 V10. lit_facts 5.0%dec 5%Z 0%Z F5 V5.
    assert (N10 : nonneg (mul (f64_lit 10.0) sd)) by (apply fin_mul_nonneg; auto; split; [apply fin_nonnan; exact F10|lra]).
    assert (N5 : nonneg (mul (f64_lit 5.0) sd)) by (apply fin_mul_nonneg; auto; split; [apply fin_nonnan; exact F5|lra]).
    assert (X01 : 0 <= Binary.B2R x <= 1) by lra.
    destruct (f64_lt mu x).
    - assert (C : f64_le (f64_lit 1.0) x = false).
      { apply le_false; [apply nn_1|apply Nx|]. rewrite val_1, (val_fin _ Fx). lra. }
      rewrite C.
      destruct (add_nonneg P mu _ Nmu N10) as [[NA VA] _]. destruct (add_nonneg P x _ Nx N5) as [[NB VB] _].
      destruct (max_val P _ _ NA NB) as [NM VM]. destruct (min_val P (f64_lit 1.0) _ nn_1 NM) as [NU VU].
      set (xu := f64_min P (f64_lit 1.0) _) in *.
      assert (BU : 0 <= val xu <= 1).
      { rewrite VU, VM, val_1. split; [apply Rmin_glb; [lra|eapply Rle_trans; [exact VA|apply Rmax_l]]|apply Rmin_l]. }
      assert (FU : fin xu) by (apply fin_iff_val; [exact NU|pose proof Om_big; rewrite Rabs_pos_eq; lra]).
      rewrite (val_fin _ FU) in BU.
      apply finish_zero; auto. apply quad_zero; auto.
    - assert (C : f64_le x (f64_lit 0.0) = false).
      { apply le_false; [apply Nx|apply nn_0|]. rewrite val_0, (val_fin _ Fx). lra. }
      rewrite C.
      assert (F10s : fin (mul (f64_lit 10.0) sd) /\ fin (mul (f64_lit 5.0) sd)).
      { rewrite (val_fin _ F10) in V10. rewrite (val_fin _ F5) in V5.
        assert (K60 : bpow radix2 60 = 1024 * bpow radix2 50) by (change 60%Z with (10 + 50)%Z; rewrite bpow_plus; reflexivity).
        split.
        - apply (rounds_in _ _ 60 (mul_spec P _ sd F10 Fsd)); [lia|]. rewrite V10. lra.
        - apply (rounds_in _ _ 60 (mul_spec P _ sd F5 Fsd)); [lia|]. rewrite V5. lra. }
      destruct F10s as [F10s F5s].
      pose proof (sub_fin_num P mu _ Fmu (fin_nonnan _ F10s)) as NA. destruct (sub_spec P x _ Fx F5s) as [NB VB].
      destruct (min_val P _ _ NA NB) as [NM VM]. destruct (max_val P (f64_lit 0.0) _ nn_0 NM) as [NU VU].
      set (xu := f64_max P (f64_lit 0.0) _) in *.
      assert (BU : 0 <= val xu <= 1).
      { rewrite VU, VM, val_0. split; [apply Rmax_l|]. apply Rmax_lub; [lra|]. eapply Rle_trans; [apply Rmin_r|].
        rewrite VB. pose proof Om_big. apply rs_le_fmt; [apply (fmt_IZR 1); lia|lra|].
        destruct N5 as [_ N5]. rewrite (val_fin _ F5s) in N5. lra. }
      assert (FU : fin xu) by (apply fin_iff_val; [exact NU|pose proof Om_big; rewrite Rabs_pos_eq; lra]).
      rewrite (val_fin _ FU) in BU.
      apply finish_zero; auto. apply quad_zero; auto.
  Qed.

  Theorem betai_zero_f64 : forall a b x : f64, fin a -> fin b -> fin x ->
    3000 < Binary.B2R a <= bpow radix2 40 -> 3000 < Binary.B2R b <= bpow radix2 40 ->
    bpow radix2 (-30) <= Binary.B2R x <= 1 - bpow radix2 (-30) ->
    exists r, @betai (ieee P) a b x = Ok r /\ nan_or_zero r.
  Proof.
    intros a b x Fa Fb Fx Ba Bb Bx. exists (@betaiapprox (ieee P) a b x). split; [|apply approx_zero; assumption].
    pose proof (bpow_gt_0 radix2 (-30)) as P30.
    unfold betai.
    change (@Arith.lt (ieee P)) with f64_lt. change (@Arith.le (ieee P)) with f64_le. change (@lit (ieee P)) with f64_lit.
    change (@Arith.eq (ieee P)) with f64_eq. change (@of_int (ieee P)) with f64_of_Z.
    pose proof (fin_nonnan _ Fa) as Na. pose proof (fin_nonnan _ Fb) as Nb. pose proof (fin_nonnan _ Fx) as Nx.
    pose proof (val_fin _ Fa) as VA. pose proof (val_fin _ Fb) as VB. pose proof (val_fin _ Fx) as VX.
    assert (C1 : f64_lt (f64_lit 0.0) a = true) by (apply pos_true; split; [exact Na|lra]).
    assert (C2 : f64_lt (f64_lit 0.0) b = true) by (apply pos_true; split; [exact Nb|lra]).
    assert (C3 : f64_le (f64_lit 0.0) x = true) by (apply nonneg_true; split; [exact Nx|lra]).
    assert (C4 : f64_le x (f64_lit 1.0) = true) by (apply le_true; split; [exact Nx|split; [apply nn_1|rewrite val_1; lra]]).
    assert (C5 : f64_eq x (f64_lit 0.0) = false) by (apply eq_false; [exact Nx|apply nn_0|rewrite val_0; lra]).
    assert (C6 : f64_eq x (f64_lit 1.0) = false) by (apply eq_false; [exact Nx|apply nn_1|rewrite val_1; lra]).
    destruct (of_Z_exact 3000 ltac:(lia)) as [F3 V3].
    assert (C7 : f64_lt (f64_of_Z 3000) a = true) by (apply lt_true; split; [apply fin_nonnan; exact F3|split; [exact Na|rewrite (val_fin _ F3); lra]]).
    assert (C8 : f64_lt (f64_of_Z 3000) b = true) by (apply lt_true; split; [apply fin_nonnan; exact F3|split; [exact Nb|rewrite (val_fin _ F3); lra]]).
    rewrite C1, C2, C3, C4, C5, C6, C7, C8. reflexivity.
  Qed.
End Large.

Theorem betai_zero : forall (P : platform) (a b x : f64), accurate_ln (p_ln P) -> exp_underflows (p_exp P) ->
  number a -> number b -> number x -> 3000 < val a <= bpow radix2 40 -> 3000 < val b <= bpow radix2 40 ->
  bpow radix2 (-30) <= val x <= 1 - bpow radix2 (-30) ->
  exists r, @betai (ieee P) a b x = Ok r /\ (is_NaN r \/ (number r /\ val r = 0)).
Proof.
  intros P a b x L E Na Nb Nx Ba Bb Bx. pose proof (bpow_gt_0 radix2 (-30)) as P30.
  assert (K : bpow radix2 40 <= bpow radix2 200) by (apply bpow_le; lia).
  assert (K1 : 1 <= bpow radix2 200) by (change 1 with (bpow radix2 0); apply bpow_le; lia).
  assert (Fa : fin a) by (apply fin_range; [exact Na|lra]).
  assert (Fb : fin b) by (apply fin_range; [exact Nb|lra]).
  assert (Fx : fin x) by (apply fin_range; [exact Nx|lra]).
  rewrite (val_fin _ Fa), (val_fin _ Fb), (val_fin _ Fx) in *.
  exact (betai_zero_f64 P L E a b x Fa Fb Fx Ba Bb Bx).
Qed.
