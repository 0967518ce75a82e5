(** * Accuracy of gamma *)

From Coq Require Import ZArith Reals Bool Lra Lia List.
From Flocq Require Import Core IEEE754.BinarySingleNaN IEEE754.Binary IEEE754.Bits.
From Flocq Require Import Sterbenz.
From Verif.Model Require Import Base Arith Utils Gamma.
From Verif.Float Require Import Bits64 Ieee Exact.
From Verif.Spec Require Import F64Spec Outcome GammaSpec.
From Verif.Proofs Require Import F64 F64Ops Lits Ext Poly ExpBounds Factorial GammaFacts GammaSign Stirling GammaPoly GammaCore.
Import ListNotations.
Open Scope R_scope.
Local Notation exp := Rtrigo_def.exp.
Local Notation ln := Rpower.ln.

(** ** Relative errors on a logarithmic scale *)

Definition mr (t a b : R) : Prop := exists d, Rabs d <= t /\ a = b * exp d.

Lemma mr_refl : forall t a, 0 <= t -> mr t a a.
Proof. intros t a H. exists 0. rewrite Rabs_R0, exp_0. split; [exact H|ring]. Qed.
Lemma mr_weak : forall s t a b, s <= t -> mr s a b -> mr t a b.
Proof. intros s t a b H (d & Hd & E). exists d. split; [lra|exact E]. Qed.
Lemma mr_trans : forall s t a b c, mr s a b -> mr t b c -> mr (s + t) a c.
Proof.
  intros s t a b c (d & Hd & E) (d' & Hd' & E'). exists (d' + d). split; [eapply Rle_trans; [apply Rabs_triang|lra]|].
  rewrite exp_plus, E, E'. ring.
Qed.
Lemma mr_mul : forall s t a b a' b', mr s a b -> mr t a' b' -> mr (s + t) (a * a') (b * b').
Proof.
  intros s t a b a' b' (d & Hd & E) (d' & Hd' & E'). exists (d + d'). split; [eapply Rle_trans; [apply Rabs_triang|lra]|].
  rewrite exp_plus, E, E'. ring.
Qed.
Lemma mr_inv : forall t a b, b <> 0 -> mr t a b -> mr t (/ a) (/ b).
Proof.
  intros t a b Hb (d & Hd & E). exists (- d). split; [rewrite Rabs_Ropp; exact Hd|].
  rewrite E, exp_Ropp. field. split; [|exact Hb]. pose proof (exp_pos d). lra.
Qed.
Lemma mr_sym : forall t a b, mr t a b -> mr t b a.
Proof.
  intros t a b (d & Hd & E). exists (- d). split; [rewrite Rabs_Ropp; exact Hd|]. rewrite E, Rmult_assoc, <- exp_plus.
  replace (d + - d) with 0 by ring. rewrite exp_0. ring.
Qed.
Lemma mr_abs : forall t a b, 0 <= t <= 1 / 2 -> mr t a b -> Rabs (a - b) <= (t + 2 * (t * t)) * Rabs b.
Proof.
  intros t a b Ht (d & Hd & ->). replace (b * exp d - b) with ((exp d - exp 0) * b) by (rewrite exp_0; ring).
  rewrite Rabs_mult. apply Rmult_le_compat_r; [apply Rabs_pos|].
  pose proof (exp_near 0 d t Ht ltac:(rewrite Rminus_0_r; exact Hd)) as N. rewrite exp_0, Rmult_1_r in N. rewrite exp_0. exact N.
Qed.
Lemma mr_of_rel : forall e a b, 0 <= e <= 1 / 1000 -> Rabs (a - b) <= e * Rabs b -> mr (e + 2 * (e * e)) a b.
Proof.
  intros e a b He H. destruct (Req_dec b 0) as [->|Hb].
  { rewrite Rabs_R0, Rmult_0_r, Rminus_0_r in H. pose proof (Rabs_pos a). assert (a = 0) by (destruct (Req_dec a 0) as [|N]; [assumption|apply Rabs_pos_lt in N; lra]). subst a.
    apply mr_refl. nra. }
  set (x := (a - b) / b). assert (Hx : Rabs x <= e).
  { unfold x, Rdiv. rewrite Rabs_mult, Rabs_inv. apply Rmult_le_reg_r with (Rabs b); [apply Rabs_pos_lt, Hb|].
    rewrite Rmult_assoc, Rinv_l, Rmult_1_r by (apply Rabs_no_R0, Hb). exact H. }
  exists (ln (1 + x)). apply Rabs_le_inv in Hx. split.
  - destruct (Rle_or_lt 0 x) as [P|P].
    + pose proof (ln_1p_le x P). pose proof (ln_mono 1 (1 + x) ltac:(lra) ltac:(lra)) as L. rewrite ln_1 in L.
      rewrite Rabs_pos_eq by lra. assert (0 <= e * e) by nra. lra.
    + set (y := - x) in *. assert (Q : ln (1 + x) = - ln (1 + y / (1 - y))).
      { rewrite <- ln_Rinv.
        - f_equal. unfold y. field. lra.
        - assert (0 < / (1 - y)) by (apply Rinv_0_lt_compat; unfold y; lra).
          assert (0 < y * / (1 - y)) by (apply Rmult_lt_0_compat; [unfold y; lra|assumption]). unfold Rdiv. lra. }
      assert (B : y / (1 - y) <= e + 2 * (e * e)).
      { apply Rmult_le_reg_r with (1 - y); [unfold y; lra|]. unfold Rdiv. rewrite Rmult_assoc, Rinv_l, Rmult_1_r by (unfold y; lra).
        assert (Y : 0 < y <= e) by (unfold y; lra). clearbody y.
        apply Rle_trans with ((e + 2 * (e * e)) * (1 - e)).
        - assert (0 <= e * e) by (apply Rmult_le_pos; lra). assert (e * (e * e) <= 1 / 1000 * (e * e)) by (apply Rmult_le_compat_r; lra). lra.
        - apply Rmult_le_compat_l; [|lra]. assert (0 <= e * e) by (apply Rmult_le_pos; lra). lra. }
      assert (B0 : 0 <= y / (1 - y)) by (apply Rmult_le_pos; [unfold y; lra|left; apply Rinv_0_lt_compat; unfold y; lra]).
      pose proof (ln_1p_le _ B0). pose proof (ln_mono 1 (1 + y / (1 - y)) ltac:(lra) ltac:(lra)) as L. rewrite ln_1 in L.
      rewrite Q, Rabs_Ropp, Rabs_pos_eq by exact L. lra.
  - rewrite exp_ln by lra. unfold x. field. exact Hb.
Qed.
(** a crude comparison *)
Lemma mr_le : forall t a b, 0 <= t <= 1 / 2 -> mr t a b -> Rabs b / 2 <= Rabs a <= 2 * Rabs b.
Proof.
  intros t a b Ht H. assert (E1 : forall a b, mr t a b -> Rabs a <= 2 * Rabs b).
  { intros x y (d & Hd & ->). rewrite Rabs_mult, (Rabs_pos_eq (exp d)) by (left; apply exp_pos). rewrite Rmult_comm.
    apply Rmult_le_compat_r; [apply Rabs_pos|]. apply Rabs_le_inv in Hd. apply Rle_trans with (exp (1 / 2)); [apply exp_mono; lra|].
    pose proof (exp_near 0 (1 / 2) (1 / 2) ltac:(lra) ltac:(rewrite Rminus_0_r, Rabs_pos_eq; lra)) as N. rewrite exp_0 in N. apply Rabs_le_inv in N. lra. }
  pose proof (E1 a b H). pose proof (E1 b a (mr_sym _ _ _ H)). lra.
Qed.

(** cost of one rounding *)
Definition vv : R := 11103 / 10 ^ 20.
Lemma rnd_mr : forall r x, rounds r x -> bpow radix2 (-1022) <= Rabs x <= bpow radix2 1023 -> fin r /\ mr vv (val r) x.
Proof.
  intros r x Hr [H1 H2]. pose proof (rnd_rel x H1) as Re.
  replace (bpow radix2 (-53)) with (/ 2 ^ 53) in Re by (simpl; lra).
  destruct (rounds_small _ _ Hr) as [F V].
  - rewrite <- rnd_abs. apply Rle_lt_trans with (bpow radix2 1023).
    + apply rnd_le_fmt; [apply fmt_bpow; lia|exact H2].
    + unfold Om. apply bpow_lt. lia.
  - split; [exact F|]. rewrite (val_fin r F), V. apply mr_weak with (/ 2 ^ 53 + 2 * (/ 2 ^ 53 * / 2 ^ 53)); [unfold vv; lra|].
    apply mr_of_rel; [lra|exact Re].
Qed.

Lemma bp_neg : forall e, (e <= 0)%Z -> bpow radix2 e <= 1.
Proof. intros e H. change 1 with (bpow radix2 0). apply bpow_le, H. Qed.

Lemma ln_2_le : ln 2 <= 1.
Proof. replace 2 with (1 + 1) by ring. apply ln_1p_le. lra. Qed.
Lemma ln_half_ge : - 1 <= ln (1 / 2).
Proof. pose proof ln_2_le. rewrite ln_div, ln_1 by lra. lra. Qed.

(** numbers from 1/2 on are multiples of 2^-53 *)
Lemma grid : forall x, fmt x -> 1 / 2 <= Rabs x -> exists k, x = IZR k * bpow radix2 (-53).
Proof.
  intros x F H. set (e := Generic_fmt.cexp radix2 fexp64 x).
  assert (He : (-53 <= e)%Z).
  { unfold e, Generic_fmt.cexp. rewrite fexp64_FLT. unfold FLT_exp.
    assert (M : (0 <= mag radix2 x)%Z) by (apply mag_ge_bpow; replace (bpow radix2 (0 - 1)) with (1 / 2) by (simpl; lra); exact H). lia. }
  exists (Ztrunc (scaled_mantissa radix2 fexp64 x) * 2 ^ (e + 53))%Z.
  rewrite mult_IZR, <- bpow2_nonneg_IZR, Rmult_assoc, <- bpow_plus by lia. replace (e + 53 + -53)%Z with e by lia. apply F.
Qed.

Section Gam.
  Variable G : R -> R.
  Hypothesis HG : gamma_function G.

  Lemma step_gen : forall x, (forall n, x <> - INR n) -> G (x + 1) = x * G x.
  Proof. destruct HG as (_ & _ & H & _). exact H. Qed.
  Lemma nonint_ne : forall x, nonint x -> forall n, x <> - INR n.
  Proof. intros x N n E. apply (N (- Z.of_nat n)%Z). rewrite opp_IZR, <- INR_IZR_INZ. exact E. Qed.

  Lemma G_fact : forall n, G (INR n + 1) = INR (fact n).
  Proof.
    induction n as [|n IH]; [replace (INR 0 + 1) with 1 by (simpl; lra); destruct HG as (_ & -> & _); reflexivity|].
    rewrite G_step by (exact HG || apply lt_0_INR; lia). rewrite S_INR, IH. change (fact (S n)) with (S n * fact n)%nat.
    rewrite mult_INR, S_INR. reflexivity.
  Qed.

  Lemma G_mono : forall x y, 2 <= x -> x <= y -> G x <= G y.
  Proof.
    intros x y Hx Hy. pose proof (lG_diff G HG x (y - x) ltac:(lra) ltac:(lra)) as [D _]. replace (x + (y - x)) with y in D by ring.
    assert (0 <= (y - x) * ln (x - 1)).
    { apply Rmult_le_pos; [lra|]. rewrite <- ln_1. apply ln_mono; lra. }
    destruct (Rle_or_lt (G x) (G y)) as [|H1]; [assumption|]. apply ln_increasing in H1; [|apply G_pos; [exact HG|lra]].
    unfold lG in D. lra.
  Qed.
  Lemma G_low : forall x, 5 / 2 <= x -> 127 / 100 <= G x.
  Proof.
    intros x Hx. pose proof (G_ge G HG (- (1 / 2)) ltac:(apply Rabs_le; lra)) as H.
    pose proof (G_mono (- (1 / 2) + 3) x ltac:(lra) ltac:(lra)). lra.
  Qed.

  Context (P : platform).
  Notation add := (f64_add P). Notation sub := (f64_sub P).
  Notation mul := (f64_mul P). Notation div := (f64_div P).
  Notation gamma_core := (@gamma_core (ieee P)).
  Notation gamma_up := (@gamma_up (ieee P)).
  Notation gamma_down := (@gamma_down (ieee P)).

  Lemma mul_mr : forall x y, fin x -> fin y -> bpow radix2 (-1022) <= Rabs (val x * val y) <= bpow radix2 1023 ->
    fin (mul x y) /\ mr vv (val (mul x y)) (val x * val y).
  Proof.
    intros x y Fx Fy H. apply rnd_mr; [|exact H]. pose proof (mul_spec P x y Fx Fy) as R.
    rewrite <- (val_fin x Fx), <- (val_fin y Fy) in R. exact R.
  Qed.

  (** ** Going down *)
  Lemma down_acc : forall fuel z f, fin z -> 5 / 2 <= val z <= 1000 -> val z < 7 / 2 + INR fuel -> fin f -> 1 <= val f ->
    val f * G (val z) * exp ((val z - 5 / 2) * vv) <= bpow radix2 1022 ->
    exists z' f', gamma_down fuel z f = Ok (z', f') /\ fin z' /\ 5 / 2 <= val z' < 7 / 2 /\ fin f' /\ 1 <= val f' /\
      mr ((val z - 5 / 2) * vv) (val f' * G (val z')) (val f * G (val z)).
  Proof.
    destruct lit_35 as [F35 V35]. assert (VP : 0 < vv) by (unfold vv; lra).
    induction fuel as [|fuel IH]; intros z f Fz Bz Hf Ff Vf Hb.
    - cbn [Gamma.gamma_down]. ieee_simpl. rewrite le_val, V35 by (apply fin_nonnan; assumption).
      simpl INR in Hf. rewrite Rle_bool_false by lra. exists z, f. repeat (split; auto); try lra. apply mr_refl. apply Rmult_le_pos; lra.
    - cbn [Gamma.gamma_down]. ieee_simpl. rewrite le_val, V35 by (apply fin_nonnan; assumption).
      rewrite S_INR in Hf. case Rle_bool_spec; intros H.
      + cbv zeta. destruct (down_step P z Fz ltac:(lra)) as [F1 V1]. set (z1 := sub z (f64_lit 1.0)) in *.
        assert (GP : 127 / 100 <= G (val z1)) by (apply G_low; lra).
        assert (GE : G (val z) = val z1 * G (val z1)).
        { rewrite <- (G_step G HG) by lra. f_equal. lra. }
        assert (EX : 1 <= exp ((val z - 5 / 2) * vv)) by (rewrite <- exp_0 at 1; apply exp_mono, Rmult_le_pos; lra).
        assert (PR : 1 <= val f * val z1) by (apply Rle_trans with (1 * 1); [lra|apply Rmult_le_compat; lra]).
        assert (UB : val f * val z1 <= bpow radix2 1022).
        { eapply Rle_trans; [|exact Hb]. rewrite GE.
          apply Rle_trans with (val f * val z1 * 1 * 1); [lra|]. rewrite <- (Rmult_assoc (val f)).
          apply Rmult_le_compat; try lra. apply Rmult_le_compat; lra. }
        destruct (mul_mr f z1 Ff F1) as [F2 M2].
        { rewrite Rabs_pos_eq by lra. split; [eapply Rle_trans; [apply bp_neg; lia|exact PR]|eapply Rle_trans; [exact UB|apply bpow_le; lia]]. }
        set (f1 := mul f z1) in *.
        assert (V2 : 1 <= val f1).
        { pose proof (mul_spec P f z1 Ff F1) as [_ R]. fold f1 in R. rewrite R. apply rs_ge_1. rewrite <- (val_fin f Ff), <- (val_fin z1 F1). exact PR. }
        destruct (IH z1 f1 F1) as (z' & f' & E' & Fz' & Bz' & Ff' & Bf' & M'); try assumption; try lra.
        { replace ((val z1 - 5 / 2) * vv) with ((val z - 1 - 5 / 2) * vv) by (rewrite V1; ring). eapply Rle_trans; [|exact Hb]. destruct M2 as (d & Hd & Ed). rewrite Ed, GE.
          replace ((val z - 5 / 2) * vv) with ((val z - 1 - 5 / 2) * vv + vv) by ring. rewrite exp_plus.
          apply Rabs_le_inv in Hd. pose proof (exp_mono d vv ltac:(lra)) as Ex.
          replace (val f * val z1 * exp d * G (val z1) * exp ((val z - 1 - 5 / 2) * vv)) with
            ((val f * (val z1 * G (val z1)) * exp ((val z - 1 - 5 / 2) * vv)) * exp d) by ring.
          replace (val f * (val z1 * G (val z1)) * (exp ((val z - 1 - 5 / 2) * vv) * exp vv)) with
            ((val f * (val z1 * G (val z1)) * exp ((val z - 1 - 5 / 2) * vv)) * exp vv) by ring.
          apply Rmult_le_compat_l; [|exact Ex]. apply Rmult_le_pos; [|left; apply exp_pos]. apply Rmult_le_pos; [lra|]. apply Rmult_le_pos; lra. }
        exists z', f'. split; [exact E'|]. repeat (split; [first [assumption|lra]|]).
        replace ((val z - 5 / 2) * vv) with ((val z1 - 5 / 2) * vv + vv) by (rewrite V1; ring).
        eapply mr_trans; [exact M'|]. rewrite GE. replace (val f * (val z1 * G (val z1))) with ((val f * val z1) * G (val z1)) by ring.
        replace vv with (vv + 0) by ring. apply mr_mul; [exact M2|apply mr_refl; lra].
      + exists z, f. repeat (split; auto); try lra. apply mr_refl. apply Rmult_le_pos; lra.
  Qed.

  (** ** Going up *)

  Lemma lip_2 : forall x y, 3 / 2 <= x <= 7 / 2 -> 3 / 2 <= y <= 7 / 2 -> mr (2 * Rabs (x - y)) (G x) (G y).
  Proof.
    assert (W : forall x y, 3 / 2 <= x -> x <= y -> y <= 7 / 2 -> Rabs (lG G x - lG G y) <= 2 * (y - x)).
    { intros x y Hx Hxy Hy. pose proof (lG_diff G HG x (y - x) ltac:(lra) ltac:(lra)) as [D1 D2]. replace (x + (y - x)) with y in * by ring.
      assert (L1 : - 1 <= ln (x - 1)) by (eapply Rle_trans; [apply ln_half_ge|apply ln_mono; lra]).
      assert (L2 : ln y <= 2).
      { apply Rle_trans with (ln (2 * (1 + 3 / 4))); [apply ln_mono; lra|]. rewrite ln_mult by lra. pose proof ln_2_le. pose proof (ln_1p_le (3 / 4) ltac:(lra)). lra. }
      assert ((y - x) * - 1 <= (y - x) * ln (x - 1)) by (apply Rmult_le_compat_l; lra).
      assert ((y - x) * ln y <= (y - x) * 2) by (apply Rmult_le_compat_l; lra). apply Rabs_le. lra. }
    intros x y Hx Hy. exists (lG G x - lG G y). split.
    - destruct (Rle_or_lt x y) as [L|L].
      + rewrite (Rabs_left1 (x - y)) by lra. replace (- (x - y)) with (y - x) by ring. apply W; lra.
      + rewrite (Rabs_pos_eq (x - y)) by lra. rewrite <- Rabs_Ropp, Ropp_minus_distr. apply W; lra.
    - unfold Rminus. rewrite exp_plus, exp_Ropp. unfold lG. rewrite !exp_ln by (apply G_pos; [exact HG|lra]). field.
      apply Rgt_not_eq, G_pos; [exact HG|lra].
  Qed.
  Lemma lip_3 : forall x y, 1 / 2 <= x <= 7 / 2 -> 1 / 2 <= y <= 7 / 2 -> mr (3 * Rabs (x - y)) (G x) (G y).
  Proof.
    assert (W : forall x y, 1 / 2 <= x -> x <= y -> y <= 7 / 2 -> Rabs (lG G x - lG G y) <= 3 * (y - x)).
    { intros x y Hx Hxy Hy. pose proof (lG_diff G HG (x + 1) (y - x) ltac:(lra) ltac:(lra)) as [D1 D2].
      replace (x + 1 + (y - x)) with (y + 1) in * by ring. replace (x + 1 - 1) with x in D1 by ring.
      rewrite !(lG_step G HG) in D1, D2 by lra.
      assert (L1 : - 1 <= ln x) by (eapply Rle_trans; [apply ln_half_ge|apply ln_mono; lra]).
      assert (L2 : ln (y + 1) <= 3).
      { apply Rle_trans with (ln (2 * (1 + 5 / 4))); [apply ln_mono; lra|]. rewrite ln_mult by lra. pose proof ln_2_le. pose proof (ln_1p_le (5 / 4) ltac:(lra)). lra. }
      assert (L3 : 0 <= ln y - ln x <= 2 * (y - x)).
      { split; [pose proof (ln_mono x y ltac:(lra) Hxy); lra|]. rewrite <- ln_div by lra.
        replace (y / x) with (1 + (y - x) / x) by (field; lra).
        assert (0 <= / x <= 2) by (split; [left; apply Rinv_0_lt_compat; lra|replace 2 with (/ (1 / 2)) by field; apply Rinv_le_contravar; lra]).
        eapply Rle_trans; [apply ln_1p_le; apply Rmult_le_pos; lra|]. unfold Rdiv. rewrite Rmult_comm. apply Rmult_le_compat_r; lra. }
      assert ((y - x) * - 1 <= (y - x) * ln x) by (apply Rmult_le_compat_l; lra).
      assert ((y - x) * ln (y + 1) <= (y - x) * 3) by (apply Rmult_le_compat_l; lra). apply Rabs_le. lra. }
    intros x y Hx Hy. exists (lG G x - lG G y). split.
    - destruct (Rle_or_lt x y) as [L|L].
      + rewrite (Rabs_left1 (x - y)) by lra. replace (- (x - y)) with (y - x) by ring. apply W; lra.
      + rewrite (Rabs_pos_eq (x - y)) by lra. rewrite <- Rabs_Ropp, Ropp_minus_distr. apply W; lra.
    - unfold Rminus. rewrite exp_plus, exp_Ropp. unfold lG. rewrite !exp_ln by (apply G_pos; [exact HG|lra]). field.
      apply Rgt_not_eq, G_pos; [exact HG|lra].
  Qed.

  Lemma mul_range : forall x y a b, fin x -> fin y -> (-1022 <= a)%Z -> (b <= 1023)%Z ->
    bpow radix2 a <= Rabs (val x * val y) <= bpow radix2 b ->
    fin (mul x y) /\ mr vv (val (mul x y)) (val x * val y) /\ bpow radix2 a <= Rabs (val (mul x y)) <= bpow radix2 b.
  Proof.
    intros x y a b Fx Fy Ha Hb [H1 H2].
    assert (AB : (a <= b)%Z).
    { destruct (Z.le_gt_cases a b) as [|L]; [assumption|]. exfalso. pose proof (bpow_lt radix2 _ _ L). lra. }
    destruct (mul_mr x y Fx Fy) as [F1 M1].
    { split; [eapply Rle_trans; [apply bpow_le, Ha|exact H1]|eapply Rle_trans; [exact H2|apply bpow_le, Hb]]. }
    split; [exact F1|]. split; [exact M1|]. pose proof (mul_spec P x y Fx Fy) as R. destruct (rounds_small _ _ R) as [_ V].
    - rewrite <- rnd_abs. apply Rle_lt_trans with (bpow radix2 b).
      + apply rnd_le_fmt; [apply fmt_bpow; lia|]. rewrite <- (val_fin x Fx), <- (val_fin y Fy). exact H2.
      + unfold Om. apply bpow_lt. lia.
    - rewrite (val_fin _ F1), V, <- rnd_abs, <- (val_fin x Fx), <- (val_fin y Fy).
      split; [apply rnd_ge; [apply fmt_bpow; lia|exact H1]|apply rnd_le_fmt; [apply fmt_bpow; lia|exact H2]].
  Qed.

  Lemma up_once : forall n z f, fin z -> fin (mul f z) -> val z <= 5 / 2 ->
    gamma_up (S n) z f = gamma_up n (add z (f64_lit 1.0)) (mul f z).
  Proof.
    intros n z f Fz Fm H. destruct lit_25 as [F25 V25]. cbn [Gamma.gamma_up]. ieee_simpl.
    rewrite le_val, V25 by (apply fin_nonnan; assumption). rewrite Rle_bool_true by exact H. cbv zeta.
    destruct (mul f z); try reflexivity; discriminate.
  Qed.
  Lemma up_stop : forall n z f, fin z -> 5 / 2 < val z -> gamma_up n z f = Ok (Some (z, f)).
  Proof.
    intros n z f Fz H. destruct lit_25 as [F25 V25]. destruct n; cbn [Gamma.gamma_up]; ieee_simpl;
      rewrite le_val, V25 by (apply fin_nonnan; assumption); rewrite Rle_bool_false by exact H; reflexivity.
  Qed.

  (** one step of the quotient *)
  Lemma quot : forall s t z f z1 f1, (forall n, z <> - INR n) -> f <> 0 -> z <> 0 -> mr t (G z1) (G (z + 1)) -> mr s f1 (f * z) -> mr (s + t) (G z1 / f1) (G z / f).
  Proof.
    intros s t z f z1 f1 Nz Hf Hz Mg Mf. rewrite (step_gen z Nz) in Mg.
    replace (G z / f) with ((z * G z) * / (f * z)) by (field; auto). rewrite Rplus_comm. unfold Rdiv. apply mr_mul; [exact Mg|].
    apply mr_inv; [apply Rmult_integral_contrapositive_currified; assumption|exact Mf].
  Qed.

  Lemma abs_nz : forall a x, bpow radix2 a <= Rabs x -> x <> 0.
  Proof. intros a x H E. rewrite E, Rabs_R0 in H. pose proof (bpow_gt_0 radix2 a). lra. Qed.

  Definition c3 : R := 9 / 10 ^ 16.
  Definition c2 : R := 62 / 10 ^ 17.
  Lemma up3 : forall n z f fuel, (n <= 2)%nat -> (n < fuel)%nat -> fin z -> 5 / 2 - INR n <= val z <= 7 / 2 -> fin f ->
    bpow radix2 (-1010 + Z.of_nat n) <= Rabs (val f) <= bpow radix2 (1015 - 2 * Z.of_nat n) ->
    exists z' f', gamma_up fuel z f = Ok (Some (z', f')) /\ fin z' /\ 5 / 2 <= val z' <= 7 / 2 /\ fin f' /\
      bpow radix2 (-1011) <= Rabs (val f') <= bpow radix2 1017 /\ mr (INR (S n) * c3) (G (val z') / val f') (G (val z) / val f).
  Proof.
    assert (C3 : 0 < c3) by (unfold c3; lra).
    induction n as [|n IH]; intros z f fuel Hn Hfu Fz Bz Ff Bf.
    - destruct (Rle_or_lt (val z) (5 / 2)) as [L|L].
      + simpl INR in Bz. assert (E : val z = 5 / 2) by lra.
        destruct fuel as [|fuel]; [exfalso; lia|].
        destruct (mul_range f z (-1011) 1017 Ff Fz ltac:(lia) ltac:(lia)) as (F1 & M1 & B1).
        { rewrite Rabs_mult, E, (Rabs_pos_eq (5 / 2)) by lra. change (Z.of_nat 0) with 0%Z in Bf.
          change (-1010 + 0)%Z with (-1011 + 1)%Z in Bf. change (1015 - 2 * 0)%Z with 1015%Z in Bf.
          rewrite bpow_plus in Bf. change 1017%Z with (1015 + 2)%Z. rewrite (bpow_plus _ 1015).
          change (bpow radix2 1) with 2 in Bf. change (bpow radix2 2) with 4. pose proof (bpow_gt_0 radix2 (-1011)). lra. }
        rewrite (up_once fuel z f Fz F1 L). destruct (up_step_z P z Fz L) as (F2 & V2 & B2).
        assert (V3 : val (add z (f64_lit 1.0)) = 7 / 2).
        { rewrite V2, E. replace (5 / 2 + 1) with (val (f64_lit 3.5)) by (rewrite (proj2 lit_35); lra). rewrite (proj2 lit_35). apply rnd_fmt. rewrite <- (proj2 lit_35). apply val_fmt. }
        rewrite up_stop by (exact F2 || lra). eexists _, _. split; [reflexivity|]. split; [exact F2|]. split; [lra|]. split; [exact F1|]. split; [exact B1|].
        apply mr_weak with (vv + 0); [simpl INR; unfold vv, c3; lra|]. apply quot; [apply not_neg_nat; lra|apply (abs_nz _ _ (proj1 Bf))|lra| |exact M1].
        rewrite V3, E. replace (5 / 2 + 1) with (7 / 2) by lra. apply mr_refl. lra.
      + rewrite up_stop by assumption. exists z, f. split; [reflexivity|]. split; [exact Fz|]. split; [lra|]. split; [exact Ff|].
        split; [|apply mr_refl; simpl INR; lra]. split; [eapply Rle_trans; [|apply Bf]|eapply Rle_trans; [apply Bf|]]; apply bpow_le; lia.
    - destruct (Rle_or_lt (val z) (5 / 2)) as [L|L].
      + assert (Hz : 1 / 2 <= val z).
        { rewrite S_INR in Bz. assert (INR n <= 1) by (apply (le_INR n 1); lia). lra. }
        destruct fuel as [|fuel]; [exfalso; lia|].
        destruct (mul_range f z (-1010 + Z.of_nat n) (1015 - 2 * Z.of_nat n) Ff Fz ltac:(lia) ltac:(lia)) as (F1 & M1 & B1).
        { rewrite Rabs_mult, (Rabs_pos_eq (val z)) by lra.
          replace (-1010 + Z.of_nat (S n))%Z with ((-1010 + Z.of_nat n) + 1)%Z in Bf by lia.
          replace (1015 - 2 * Z.of_nat n)%Z with ((1015 - 2 * Z.of_nat (S n)) + 2)%Z by lia. rewrite bpow_plus in Bf. rewrite (bpow_plus _ _ 2).
          change (bpow radix2 1) with 2 in Bf. change (bpow radix2 2) with 4. pose proof (Rabs_pos (val f)). split.
          - apply Rle_trans with (Rabs (val f) * (1 / 2)); [lra|]. apply Rmult_le_compat_l; lra.
          - apply Rmult_le_compat; lra. }
        rewrite (up_once fuel z f Fz F1 L). destruct (up_step_z P z Fz L) as (F2 & V2 & B2).
        assert (B3 : 5 / 2 - INR n <= val (add z (f64_lit 1.0))).
        { rewrite V2. apply rnd_ge; [|rewrite S_INR in Bz; lra].
          replace (5 / 2 - INR n) with (IZR (10 - 4 * Z.of_nat n) / 4) by (rewrite minus_IZR, mult_IZR, <- INR_IZR_INZ; lra). apply fmt_quarter. lia. }
        assert (B4 : 3 / 2 <= val (add z (f64_lit 1.0))).
        { rewrite V2. apply rnd_ge; [replace (3 / 2) with (IZR 6 / 4) by lra; apply fmt_quarter; lia|lra]. }
        destruct (IH (add z (f64_lit 1.0)) (mul f z) fuel ltac:(lia) ltac:(lia) F2 ltac:(lra) F1 B1) as (z' & f' & E' & Fz' & Bz' & Ff' & Bf' & M').
        exists z', f'. split; [exact E'|]. repeat (split; [assumption|]).
        replace (INR (S (S n)) * c3) with (INR (S n) * c3 + c3) by (rewrite (S_INR (S n)); ring).
        eapply mr_trans; [exact M'|].
        apply mr_weak with (vv + 2 * (/ 2 ^ 53 * (7 / 2))); [unfold vv, c3; lra|].
        apply quot; [apply not_neg_nat; lra|apply (abs_nz _ _ (proj1 Bf))|lra| |exact M1].
        eapply mr_weak; [|apply lip_2; lra]. apply Rmult_le_compat_l; [lra|]. rewrite V2.
        pose proof (rnd_rel (val z + 1)) as Re. rewrite (Rabs_pos_eq (val z + 1)) in Re by lra.
        eapply Rle_trans; [apply Re; eapply Rle_trans; [apply bp_neg; lia|lra]|].
        replace (bpow radix2 (-53)) with (/ 2 ^ 53) by (simpl; lra). apply Rmult_le_compat_l; lra.
      + rewrite up_stop by assumption. exists z, f. split; [reflexivity|]. split; [exact Fz|]. split; [lra|]. split; [exact Ff|].
        split; [|apply mr_refl; apply Rmult_le_pos; [apply pos_INR|lra]]. split; [eapply Rle_trans; [|apply Bf]|eapply Rle_trans; [apply Bf|]]; apply bpow_le; lia.
  Qed.

  Definition good (fuel : nat) (t : R) (z f : f64) : Prop :=
    exists z' f', gamma_up fuel z f = Ok (Some (z', f')) /\ fin z' /\ 5 / 2 <= val z' <= 7 / 2 /\ fin f' /\
      bpow radix2 (-1011) <= Rabs (val f') <= bpow radix2 1017 /\ mr t (G (val z') / val f') (G (val z) / val f).

  Lemma up2 : forall z f fuel, (4 <= fuel)%nat -> fin z -> - (1 / 2) < val z < 1 / 2 -> fin f ->
    bpow radix2 (-1000) <= Rabs (val f * val z) -> Rabs (val f) <= bpow radix2 1009 -> good fuel (c2 + 3 * c3) z f.
  Proof.
    intros z f fuel Hfu Fz Bz Ff L U. destruct fuel as [|fuel]; [exfalso; lia|].
    assert (NZ : val f * val z <> 0) by apply (abs_nz _ _ L).
    assert (Zf : val f <> 0) by (intros E; rewrite E in NZ; lra). assert (Zz : val z <> 0) by (intros E; rewrite E in NZ; lra).
    assert (Z1 : Rabs (val z) <= 1) by (apply Rabs_le; lra).
    destruct (mul_range f z (-1000) 1009 Ff Fz ltac:(lia) ltac:(lia)) as (F1 & M1 & B1).
    { split; [exact L|]. rewrite Rabs_mult. apply Rle_trans with (Rabs (val f) * 1); [apply Rmult_le_compat_l; [apply Rabs_pos|exact Z1]|lra]. }
    destruct (up_step_z P z Fz ltac:(lra)) as (F2 & V2 & B2).
    assert (B3 : 1 / 2 <= val (add z (f64_lit 1.0)) <= 3 / 2).
    { rewrite V2. split; [apply rnd_ge|apply rnd_le_fmt]; try lra.
      - replace (1 / 2) with (IZR 2 / 4) by lra. apply fmt_quarter. lia.
      - replace (3 / 2) with (IZR 6 / 4) by lra. apply fmt_quarter. lia. }
    destruct (up3 2 (add z (f64_lit 1.0)) (mul f z) fuel ltac:(lia) ltac:(lia) F2) as (z' & f' & E' & Fz' & Bz' & Ff' & Bf' & M').
    { simpl INR. lra. }
    { exact F1. }
    { split; [eapply Rle_trans; [|apply B1]|eapply Rle_trans; [apply B1|]]; apply bpow_le; lia. }
    exists z', f'. rewrite (up_once fuel z f Fz F1 ltac:(lra)). split; [exact E'|]. repeat (split; [assumption|]).
    rewrite Rplus_comm. eapply mr_trans; [eapply mr_weak; [|exact M']; simpl INR; lra|].
    apply mr_weak with (vv + 3 * (/ 2 ^ 53 * (3 / 2))); [unfold vv, c2; lra|].
    assert (Nn : forall n, val z <> - INR n).
    { intros [|n] E; [simpl in E; lra|]. rewrite S_INR in E. pose proof (pos_INR n). lra. }
    apply quot; [exact Nn|exact Zf|exact Zz| |exact M1].
    eapply mr_weak; [|apply lip_3; lra]. apply Rmult_le_compat_l; [lra|]. rewrite V2.
    pose proof (rnd_rel (val z + 1)) as Re. rewrite (Rabs_pos_eq (val z + 1)) in Re by lra.
    eapply Rle_trans; [apply Re; apply Rle_trans with (bpow radix2 (-1)); [apply bpow_le; lia|simpl; lra]|].
    replace (bpow radix2 (-53)) with (/ 2 ^ 53) by (simpl; lra). apply Rmult_le_compat_l; lra.
  Qed.

  Lemma bp53 : bpow radix2 (-53) = / 9007199254740992.
  Proof. reflexivity. Qed.

  (** a multiple of 2^-53 other than 0 *)
  Lemma grid_ge : forall k, IZR k * bpow radix2 (-53) <> 0 -> bpow radix2 (-53) <= Rabs (IZR k * bpow radix2 (-53)).
  Proof.
    intros k H. rewrite Rabs_mult, (Rabs_pos_eq (bpow _ _)), <- abs_IZR by apply bpow_ge_0.
    assert (K : 1 <= IZR (Z.abs k)).
    { apply (IZR_le 1). assert (k <> 0)%Z by (intros ->; apply H; ring). lia. }
    pose proof (bpow_gt_0 radix2 (-53)). apply Rle_trans with (1 * bpow radix2 (-53)); [lra|apply Rmult_le_compat_r; lra].
  Qed.
  Lemma grid_next : forall x, fmt x -> 1 / 2 <= Rabs x -> x + 1 <> 0 -> bpow radix2 (-53) <= Rabs (x + 1).
  Proof.
    intros x F H N. destruct (grid x F H) as [k E].
    assert (E1 : x + 1 = IZR (k + 2 ^ 53) * bpow radix2 (-53)).
    { rewrite plus_IZR, Rmult_plus_distr_r, <- E, bp53. change (IZR (2 ^ 53)) with 9007199254740992. field. }
    rewrite E1 in *. apply grid_ge, N.
  Qed.

  Lemma up1 : forall z f fuel, (5 <= fuel)%nat -> fin z -> - 1 < val z < 0 -> bpow radix2 (-53) <= Rabs (val z) -> fin f ->
    1 <= Rabs (val f) <= bpow radix2 1000 -> good fuel (vv + c2 + 3 * c3) z f.
  Proof.
    intros z f fuel Hfu Fz Bz Gz Ff [L U]. assert (VP : 0 < vv) by (unfold vv; lra).
    destruct (Rlt_or_le (- (1 / 2)) (val z)) as [H|H].
    { assert (Q : good fuel (c2 + 3 * c3) z f).
      { apply up2; try assumption; try lia; [lra| |].
        - rewrite Rabs_mult. apply Rle_trans with (1 * bpow radix2 (-53)); [rewrite Rmult_1_l; apply bpow_le; lia|].
          apply Rmult_le_compat; try lra. apply bpow_ge_0.
        - eapply Rle_trans; [exact U|apply bpow_le; lia]. }
      destruct Q as (z' & f' & E & F1 & B1 & F2 & B2 & M). exists z', f'. split; [exact E|]. repeat (split; [assumption|]). eapply mr_weak; [|exact M]. lra. }
    destruct fuel as [|fuel]; [exfalso; lia|].
    assert (FZ : Rabs (val z) = - val z) by (apply Rabs_left; lra).
    assert (ZF : val f <> 0) by (intros E; rewrite E, Rabs_R0 in L; lra).
    destruct (mul_range f z (-1) 1000 Ff Fz ltac:(lia) ltac:(lia)) as (F1 & M1 & B1).
    { rewrite Rabs_mult, FZ. pose proof (Rabs_pos (val f)). split.
      - change (bpow radix2 (-1)) with (/ 2). apply Rle_trans with (1 * (1 / 2)); [lra|]. apply Rmult_le_compat; lra.
      - apply Rle_trans with (Rabs (val f) * 1); [apply Rmult_le_compat_l; lra|lra]. }
    destruct (up_step_z P z Fz ltac:(lra)) as (F2 & V2 & _).
    assert (V3 : val (add z (f64_lit 1.0)) = val z + 1).
    { rewrite V2. apply rnd_fmt. replace (val z + 1) with (1 - - val z) by ring.
      apply sterbenz; [apply fexp64_valid|apply fexp64_mono|apply (fmt_IZR 1); lia|apply fmt_opp, val_fmt|lra]. }
    pose proof (grid_next (val z) (val_fmt z) ltac:(lra) ltac:(lra)) as Gn. rewrite <- V3 in Gn.
    assert (Nn : forall n, val z <> - INR n).
    { intros [|n] E; [simpl in E; lra|]. rewrite S_INR in E. pose proof (pos_INR n). lra. }
    assert (Q : mr vv (G (val (add z (f64_lit 1.0))) / val (mul f z)) (G (val z) / val f)).
    { replace vv with (vv + 0) by ring. apply quot; [exact Nn|exact ZF|lra| |exact M1]. rewrite V3. apply mr_refl. lra. }
    assert (W : good fuel (c2 + 3 * c3) (add z (f64_lit 1.0)) (mul f z)).
    { destruct (Rlt_or_le (val z + 1) (1 / 2)) as [K|K].
      - apply up2; try assumption; try lia; [lra| |].
        + rewrite Rabs_mult. apply Rle_trans with (bpow radix2 (-1) * bpow radix2 (-53)); [rewrite <- bpow_plus; apply bpow_le; lia|].
          apply Rmult_le_compat; try lra; apply bpow_ge_0.
        + eapply Rle_trans; [apply B1|apply bpow_le; lia].
      - destruct (up3 2 (add z (f64_lit 1.0)) (mul f z) fuel ltac:(lia) ltac:(lia) F2) as (z' & f' & E' & Fz' & Bz' & Ff' & Bf' & M').
        { simpl INR. lra. }
        { exact F1. }
        { split; [eapply Rle_trans; [|apply B1]|eapply Rle_trans; [apply B1|]]; apply bpow_le; lia. }
        exists z', f'. split; [exact E'|]. repeat (split; [assumption|]). eapply mr_weak; [|exact M']. simpl INR. unfold c2, c3. lra. }
    destruct W as (z' & f' & E & Fz' & Bz' & Ff' & Bf' & M). exists z', f'. rewrite (up_once fuel z f Fz F1 ltac:(lra)).
    split; [exact E|]. repeat (split; [assumption|]). replace (vv + c2 + 3 * c3) with ((c2 + 3 * c3) + vv) by ring. eapply mr_trans; [exact M|exact Q].
  Qed.

  Lemma up0 : forall N z f fuel, (N + 5 <= fuel)%nat -> fin z -> - INR (S N) < val z < 0 -> nonint (val z) -> bpow radix2 (-53) <= Rabs (val z) -> fin f ->
    1 <= Rabs (val f) -> Rabs (val f) * INR (fact (S N)) * exp (INR N * vv) <= bpow radix2 1000 ->
    good fuel (INR N * vv + (vv + c2 + 3 * c3)) z f.
  Proof.
    assert (VP : 0 < vv) by (unfold vv; lra).
    assert (Fin : forall N f, Rabs (val f) * INR (fact (S N)) * exp (INR N * vv) <= bpow radix2 1000 -> Rabs (val f) <= bpow radix2 1000).
    { intros N f H. eapply Rle_trans; [|exact H]. assert (1 <= INR (fact (S N))) by (apply (le_INR 1), lt_O_fact).
      assert (1 <= exp (INR N * vv)) by (rewrite <- exp_0 at 1; apply exp_mono, Rmult_le_pos; [apply pos_INR|lra]).
      pose proof (Rabs_pos (val f)). apply Rle_trans with (Rabs (val f) * 1 * 1); [lra|]. apply Rmult_le_compat; try lra. apply Rmult_le_compat; lra. }
    induction N as [|N IH]; intros z f fuel Hfu Fz Bz Nz Gz Ff L U.
    - replace (INR 0 * vv + (vv + c2 + 3 * c3)) with (vv + c2 + 3 * c3) by (simpl INR; ring).
      apply (up1 z f fuel Hfu Fz Bz Gz Ff). split; [exact L|]. apply (Fin 0%nat), U.
    - destruct (Rlt_or_le (- 1) (val z)) as [H|H].
      + destruct (up1 z f fuel ltac:(lia) Fz ltac:(lra) Gz Ff (conj L (Fin _ _ U))) as (z' & f' & E' & Fz' & Bz' & Ff' & Bf' & M').
        exists z', f'. split; [exact E'|]. repeat (split; [assumption|]). eapply mr_weak; [|exact M'].
        pose proof (Rmult_le_pos _ _ (pos_INR (S N)) (Rlt_le _ _ VP)). lra.
      + destruct fuel as [|fuel]; [exfalso; lia|]. assert (NM1 : val z <> -1) by apply (Nz (-1)%Z).
        assert (FZ : Rabs (val z) = - val z) by (apply Rabs_left; lra).
        assert (ZF : val f <> 0) by (intros E; rewrite E, Rabs_R0 in L; lra).
        assert (FA : INR (fact (S (S N))) = INR (S (S N)) * INR (fact (S N))) by (rewrite <- mult_INR; reflexivity).
        assert (F1' : 1 <= INR (fact (S N))) by (apply (le_INR 1), lt_O_fact).
        assert (EX : 1 <= exp (INR N * vv)) by (rewrite <- exp_0 at 1; apply exp_mono, Rmult_le_pos; [apply pos_INR|lra]).
        assert (SN : 0 <= INR (S (S N))) by apply pos_INR.
        assert (U' : Rabs (val f) * INR (S (S N)) * INR (fact (S N)) * exp (INR N * vv) * exp vv <= bpow radix2 1000).
        { eapply Rle_trans; [right|exact U]. rewrite FA, (S_INR N), Rmult_plus_distr_r, exp_plus, Rmult_1_l. ring. }
        pose proof (Rabs_pos (val f)) as AF.
        assert (EV : 1 <= exp vv) by (rewrite <- exp_0 at 1; apply exp_mono; lra).
        destruct (mul_range f z 0 1000 Ff Fz ltac:(lia) ltac:(lia)) as (F1 & M1 & B1).
        { rewrite Rabs_mult, FZ. split.
          - change (bpow radix2 0) with 1. apply Rle_trans with (1 * 1); [lra|]. apply Rmult_le_compat; lra.
          - eapply Rle_trans; [|exact U']. apply Rle_trans with (Rabs (val f) * INR (S (S N)) * 1 * 1 * 1); [rewrite !Rmult_1_r; apply Rmult_le_compat_l; lra|].
            apply Rmult_le_compat; try lra; [rewrite !Rmult_1_r; apply Rmult_le_pos; assumption|].
            apply Rmult_le_compat; try lra; [rewrite !Rmult_1_r; apply Rmult_le_pos; assumption|].
            apply Rmult_le_compat_l; [apply Rmult_le_pos; assumption|exact F1']. }
        destruct (up_step_z P z Fz ltac:(lra)) as (F2 & V2 & _).
        assert (V3 : val (add z (f64_lit 1.0)) = val z + 1).
        { rewrite V2. apply rnd_fmt, fmt_add1; [apply val_fmt|exact H|exact Nz]. }
        pose proof (grid_next (val z) (val_fmt z) ltac:(lra) ltac:(lra)) as Gn. rewrite <- V3 in Gn.
        destruct (IH (add z (f64_lit 1.0)) (mul f z) fuel ltac:(lia) F2) as (z' & f' & E' & Fz' & Bz' & Ff' & Bf' & M').
        { rewrite V3. rewrite (S_INR (S N)) in Bz. lra. }
        { rewrite V3. intros k E. apply (Nz (k - 1)%Z). rewrite minus_IZR. lra. }
        { exact Gn. }
        { exact F1. }
        { exact (proj1 B1). }
        { eapply Rle_trans; [|exact U']. destruct M1 as (d & Hd & Ed). rewrite Ed, !Rabs_mult, FZ, (Rabs_pos_eq (exp d)) by (left; apply exp_pos).
          apply Rabs_le_inv in Hd. pose proof (exp_mono d vv ltac:(lra)) as Ex. pose proof (exp_pos d) as Ep.
          replace (Rabs (val f) * - val z * exp d * INR (fact (S N)) * exp (INR N * vv)) with (Rabs (val f) * (INR (fact (S N)) * exp (INR N * vv)) * (- val z * exp d)) by ring.
          replace (Rabs (val f) * INR (S (S N)) * INR (fact (S N)) * exp (INR N * vv) * exp vv) with (Rabs (val f) * (INR (fact (S N)) * exp (INR N * vv)) * (INR (S (S N)) * exp vv)) by ring.
          apply Rmult_le_compat_l; [apply Rmult_le_pos; [exact AF|apply Rmult_le_pos; lra]|]. apply Rmult_le_compat; lra. }
        exists z', f'. rewrite (up_once fuel z f Fz F1 ltac:(lra)). split; [exact E'|]. repeat (split; [assumption|]).
        replace (INR (S N) * vv + (vv + c2 + 3 * c3)) with ((INR N * vv + (vv + c2 + 3 * c3)) + vv) by (rewrite S_INR; ring).
        eapply mr_trans; [exact M'|]. replace vv with (vv + 0) by ring. apply quot; [apply nonint_ne, Nz|exact ZF|lra| |exact M1].
        rewrite V3. apply mr_refl. lra.
  Qed.

  (** ** The function *)

  Definition cc : R := 441 / 10 ^ 17.
  Lemma core_mr : forall z, fin z -> 5 / 2 <= val z <= 7 / 2 -> fin (gamma_core z) /\ mr cc (val (gamma_core z)) (G (val z)).
  Proof.
    intros z Fz Bz. destruct (core_accurate P G HG z Fz Bz) as [F1 E1]. split; [exact F1|].
    apply mr_weak with (44 / 10 ^ 16 + 2 * (44 / 10 ^ 16 * (44 / 10 ^ 16))); [unfold cc; lra|].
    apply mr_of_rel; [lra|]. rewrite (Rabs_pos_eq (G (val z))); [exact E1|]. left. apply G_pos; [exact HG|lra].
  Qed.

  Lemma exp_le_2 : forall t, t <= 1 / 2 -> exp t <= 2.
  Proof.
    intros t Ht. apply Rle_trans with (exp (1 / 2)); [apply exp_mono, Ht|].
    pose proof (exp_near 0 (1 / 2) (1 / 2) ltac:(lra) ltac:(rewrite Rminus_0_r, Rabs_pos_eq; lra)) as N. rewrite exp_0 in N. apply Rabs_le_inv in N. lra.
  Qed.

  Lemma fact_zfact : forall n, INR (fact n) = IZR (zfact n).
  Proof. intros n. rewrite <- fz_zfact. unfold fz. rewrite Nat2Z.id. reflexivity. Qed.
  Lemma fact_165 : INR (fact 165) * 2 <= bpow radix2 1000.
  Proof.
    rewrite (fact_zfact 165), bpow2_nonneg_IZR by lia.
    assert (H : IZR (zfact 165 * 2) <= IZR (2 ^ 1000)) by (apply IZR_le; vm_compute; discriminate). rewrite mult_IZR in H. exact H.
  Qed.
  Lemma fact_170 : fz 170 * 8 <= bpow radix2 1023.
  Proof.
    change 170%Z with (Z.of_nat 170). rewrite fz_zfact, bpow2_nonneg_IZR by lia.
    assert (H : IZR (zfact 170 * 8) <= IZR (2 ^ 1023)) by (apply IZR_le; vm_compute; discriminate). rewrite mult_IZR in H. exact H.
  Qed.

  Lemma up_good : forall z fuel, (280 <= fuel)%nat -> fin z -> -165 <= val z < 5 / 2 -> bpow radix2 (-1000) <= Rabs (val z) -> nonint (val z) ->
    good fuel (INR 164 * vv + (vv + c2 + 3 * c3)) z (f64_lit 1.0).
  Proof.
    intros z fuel Hfu Fz Bz Hz Nz. assert (VP : 0 < vv) by (unfold vv; lra). assert (I0 : 0 <= INR 164 * vv) by (apply Rmult_le_pos; [apply pos_INR|lra]).
    assert (N0 : val z <> 0) by apply (Nz 0%Z).
    destruct (Rle_or_lt (val z) (- (1 / 2))) as [A|A]; [|destruct (Rlt_or_le (val z) (1 / 2)) as [B|B]].
    - apply up0; try assumption; try lia.
      + split; [|lra]. replace (INR 165) with 165 by (rewrite INR_IZR_INZ; reflexivity). assert (val z <> -165) by apply (Nz (-165)%Z). lra.
      + apply Rle_trans with (1 / 2); [rewrite bp53; lra|]. rewrite Rabs_left by lra. lra.
      + apply fin_1.
      + rewrite val_1, Rabs_R1. lra.
      + rewrite val_1, Rabs_R1, Rmult_1_l. eapply Rle_trans; [|exact fact_165]. apply Rmult_le_compat_l; [apply pos_INR|].
        apply exp_le_2. replace (INR 164) with 164 by (rewrite INR_IZR_INZ; reflexivity). unfold vv. lra.
    - destruct (up2 z (f64_lit 1.0) fuel ltac:(lia) Fz ltac:(lra) fin_1) as (z' & f' & E' & Fz' & Bz' & Ff' & Bf' & M').
      { rewrite val_1, Rmult_1_l. exact Hz. }
      { rewrite val_1, Rabs_R1. change 1 with (bpow radix2 0). apply bpow_le. lia. }
      exists z', f'. split; [exact E'|]. repeat (split; [assumption|]). eapply mr_weak; [|exact M']. lra.
    - destruct (up3 2 z (f64_lit 1.0) fuel ltac:(lia) ltac:(lia) Fz) as (z' & f' & E' & Fz' & Bz' & Ff' & Bf' & M').
      { simpl INR. lra. }
      { apply fin_1. }
      { rewrite val_1, Rabs_R1. split; change 1 with (bpow radix2 0); apply bpow_le; lia. }
      exists z', f'. split; [exact E'|]. repeat (split; [assumption|]). eapply mr_weak; [|exact M']. simpl INR. unfold c2, c3 in *. lra.
  Qed.

  Lemma mr_45 : forall t a b, 0 <= t <= 275 / 10 ^ 16 -> mr t a b -> Rabs (a - b) <= bpow radix2 (-45) * Rabs b.
  Proof.
    intros t a b Ht M. eapply Rle_trans; [apply (mr_abs t); [lra|exact M]|]. apply Rmult_le_compat_r; [apply Rabs_pos|].
    assert (t * t <= 275 / 10 ^ 16 * (275 / 10 ^ 16)) by (apply Rmult_le_compat; lra).
    replace (bpow radix2 (-45)) with (/ 2 ^ 45) by (simpl; lra). lra.
  Qed.

  Lemma gamma_general_acc : forall z fuel, (280 <= fuel)%nat -> fin z -> -165 <= val z <= 171 -> bpow radix2 (-1000) <= Rabs (val z) -> nonint (val z) ->
    exists r, gamma_general P fuel z = Ok r /\ fin r /\ Rabs (val r - G (val z)) <= bpow radix2 (-45) * Rabs (G (val z)).
  Proof.
    intros z fuel Hfu Fz Bz Hz Nz. assert (VP : 0 < vv) by (unfold vv; lra).
    destruct lit_35 as [F35 V35]. destruct lit_25 as [F25 V25].
    unfold gamma_general. rewrite !lt_val by (apply fin_nonnan; assumption). rewrite V35, V25.
    assert (BP : 0 < bpow radix2 1023) by apply bpow_gt_0.
    case Rlt_bool_spec; intros H1; [|case Rlt_bool_spec; intros H2].
    - assert (GU : G (val z) <= fz 170).
      { unfold fz. rewrite <- G_fact. apply G_mono; [lra|]. replace (INR (Z.to_nat 170)) with 170 by (rewrite INR_IZR_INZ; reflexivity). lra. }
      assert (E2 : exp ((val z - 5 / 2) * vv) <= 2).
      { apply exp_le_2. apply Rle_trans with (1000 * vv); [apply Rmult_le_compat_r; lra|unfold vv; lra]. }
      pose proof fact_170 as F7. pose proof (G_low (val z) ltac:(lra)) as GL.
      destruct (down_acc fuel z (f64_lit 1.0) Fz ltac:(lra)) as (z' & f' & E' & Fz' & Bz' & Ff' & Bf' & M').
      { assert (INR 280 <= INR fuel) by (apply le_INR, Hfu). replace (INR 280) with 280 in H by (rewrite INR_IZR_INZ; reflexivity). lra. }
      { apply fin_1. }
      { rewrite val_1. lra. }
      { rewrite val_1, Rmult_1_l. apply Rle_trans with (fz 170 * 2).
        - apply Rmult_le_compat; try lra. left. apply exp_pos.
        - change 1023%Z with (1022 + 1)%Z in F7. rewrite bpow_plus in F7. change (bpow radix2 1) with 2 in F7. pose proof (fz_pos 170). lra. }
      rewrite E'. cbn [bind]. destruct (core_mr z' Fz' ltac:(lra)) as [Fc Mc]. rewrite val_1, Rmult_1_l in M'.
      set (t1 := (val z - 5 / 2) * vv) in *. assert (T1 : 0 <= t1 <= 169 * vv) by (unfold t1; split; [apply Rmult_le_pos|apply Rmult_le_compat_r]; lra).
      assert (MP : mr (cc + t1) (val (gamma_core z') * val f') (G (val z))).
      { eapply mr_trans; [|exact M']. rewrite (Rmult_comm (val f')). replace cc with (cc + 0) by ring. apply mr_mul; [exact Mc|apply mr_refl; lra]. }
      assert (S1 : 0 <= cc + t1 <= 1 / 2) by (unfold cc, vv in *; lra).
      pose proof (mr_le _ _ _ S1 MP) as RG. rewrite (Rabs_pos_eq (G _)) in RG by lra.
      destruct (mul_mr (gamma_core z') f' Fc Ff') as [Fr Mr].
      { split; [apply Rle_trans with (G (val z) / 2); [|apply RG]; apply Rle_trans with (bpow radix2 (-1)); [apply bpow_le; lia|simpl; lra]|].
        eapply Rle_trans; [apply RG|]. lra. }
      eexists. split; [reflexivity|]. split; [exact Fr|]. apply mr_45 with (vv + (cc + t1)); [unfold cc, vv in *; lra|]. eapply mr_trans; [exact Mr|exact MP].
    - destruct (up_good z fuel Hfu Fz ltac:(lra) Hz Nz) as (z' & f' & E' & Fz' & Bz' & Ff' & Bf' & M').
      rewrite E'. cbn [bind]. destruct (core_mr z' Fz' Bz') as [Fc Mc]. rewrite val_1 in M'. unfold Rdiv in M' at 2. rewrite Rinv_1, Rmult_1_r in M'.
      assert (Zf : val f' <> 0) by apply (abs_nz _ _ (proj1 Bf')).
      assert (AI : bpow radix2 (-1017) <= Rabs (/ val f') <= bpow radix2 1011).
      { rewrite Rabs_inv. change (-1017)%Z with (Z.opp 1017). change 1011%Z with (Z.opp (-1011)). rewrite !bpow_opp.
        split; apply Rinv_le_contravar; try apply Bf'; [|apply bpow_gt_0]. eapply Rlt_le_trans; [|apply Bf']. apply bpow_gt_0. }
      assert (DV : fin (div (f64_lit 1.0) f') /\ mr vv (val (div (f64_lit 1.0) f')) (/ val f')).
      { apply rnd_mr.
        - pose proof (div_spec P (f64_lit 1.0) f' fin_1 Ff') as R. rewrite <- (val_fin _ fin_1), val_1, <- (val_fin f' Ff') in R.
          specialize (R Zf). unfold Rdiv in R. rewrite Rmult_1_l in R. exact R.
        - split; [eapply Rle_trans; [|apply AI]|eapply Rle_trans; [apply AI|]]; apply bpow_le; lia. }
      destruct DV as [Fd Md]. set (t1 := INR 164 * vv + (vv + c2 + 3 * c3)) in *.
      assert (T1 : 0 <= t1 <= 220 / 10 ^ 16).
      { unfold t1. replace (INR 164) with 164 by (rewrite INR_IZR_INZ; reflexivity). unfold vv, c2, c3. lra. }
      assert (MP : mr (cc + vv) (val (gamma_core z') * val (div (f64_lit 1.0) f')) (G (val z') / val f')) by (apply mr_mul; assumption).
      assert (S1 : 0 <= cc + vv <= 1 / 2) by (unfold cc, vv in *; lra).
      pose proof (mr_le _ _ _ S1 MP) as RG.
      assert (GB : 1 <= G (val z') <= 8).
      { split; [pose proof (G_low (val z') ltac:(lra)); lra|]. apply Rle_trans with (G 4); [apply G_mono; lra|].
        replace 4 with (INR 3 + 1) at 1 by (simpl; lra). rewrite G_fact. simpl. lra. }
      assert (QB : bpow radix2 (-1017) <= Rabs (G (val z') / val f') <= bpow radix2 1014).
      { unfold Rdiv. rewrite Rabs_mult, (Rabs_pos_eq (G _)) by lra. change 1014%Z with (3 + 1011)%Z. rewrite bpow_plus. change (bpow radix2 3) with 8.
        pose proof (bpow_gt_0 radix2 (-1017)). split.
        - apply Rle_trans with (1 * bpow radix2 (-1017)); [lra|]. apply Rmult_le_compat; lra.
        - apply Rmult_le_compat; lra. }
      destruct (mul_mr (gamma_core z') (div (f64_lit 1.0) f') Fc Fd) as [Fr Mr].
      { split.
        - apply Rle_trans with (bpow radix2 (-1018)); [apply bpow_le; lia|]. change (-1018)%Z with (-1017 + -1)%Z. rewrite bpow_plus. change (bpow radix2 (-1)) with (/ 2). lra.
        - apply Rle_trans with (bpow radix2 1015); [|apply bpow_le; lia]. change 1015%Z with (1014 + 1)%Z. rewrite bpow_plus. change (bpow radix2 1) with 2. lra. }
      eexists. split; [reflexivity|]. split; [exact Fr|]. apply mr_45 with (vv + ((cc + vv) + t1)); [unfold cc, vv in *; lra|].
      eapply mr_trans; [exact Mr|]. eapply mr_trans; [exact MP|exact M'].
    - destruct (core_mr z Fz ltac:(lra)) as [Fc Mc]. pose proof (G_low (val z) H2) as GL.
      assert (GB : G (val z) <= 6).
      { apply Rle_trans with (G 4); [apply G_mono; lra|]. replace 4 with (INR 3 + 1) by (simpl; lra). rewrite G_fact. simpl. lra. }
      assert (S1 : 0 <= cc <= 1 / 2) by (unfold cc; lra). pose proof (mr_le _ _ _ S1 Mc) as RG. rewrite (Rabs_pos_eq (G _)) in RG by lra.
      destruct (mul_mr (gamma_core z) (f64_lit 1.0) Fc fin_1) as [Fr Mr].
      { rewrite val_1, Rmult_1_r. split; [apply Rle_trans with (bpow radix2 (-1)); [apply bpow_le; lia|simpl; lra]|].
        apply Rle_trans with (bpow radix2 4); [simpl; lra|apply bpow_le; lia]. }
      rewrite val_1, Rmult_1_r in Mr.
      eexists. split; [reflexivity|]. split; [exact Fr|]. apply mr_45 with (vv + cc); [unfold cc, vv in *; lra|]. eapply mr_trans; [exact Mr|exact Mc].
  Qed.

  Theorem gamma_accurate : forall z fuel, (280 <= fuel)%nat -> finite z -> -165 <= val z <= 171 -> bpow radix2 (-1000) <= Rabs (val z) ->
    (forall n, val z <> - INR n) ->
    exists r, @gamma (ieee P) fuel z = Ok r /\ finite r /\ Rabs (val r - G (val z)) <= bpow radix2 (-45) * Rabs (G (val z)).
  Proof.
    intros z fuel Hfu Fz Bz Hz Nz. destruct (max_input) as [Fm [Bm Um]].
    destruct (Req_dec (val z) (IZR (Ztrunc (val z)))) as [I|I].
    - set (k := Ztrunc (val z)) in *. assert (K : (1 <= k <= 171)%Z).
      { split; [|apply le_IZR; lra]. destruct (Z.le_gt_cases 1 k) as [|L]; [assumption|]. exfalso.
        apply (Nz (Z.to_nat (- k))). rewrite I, INR_IZR_INZ, Z2Nat.id, opp_IZR by lia. ring. }
      destruct (factorial_error P (k - 1) fuel ltac:(lia) ltac:(lia)) as (r & E & Fr & Er).
      exists r. split; [rewrite (gamma_posint P fuel z k Fz I K); exact E|]. split; [exact Fr|]. rewrite <- (val_fin r Fr) in Er.
      assert (GE : G (val z) = INR (fact (Z.to_nat (k - 1)))).
      { rewrite <- G_fact. f_equal. rewrite I, INR_IZR_INZ, Z2Nat.id, minus_IZR by lia. ring. }
      rewrite GE, (Rabs_pos_eq (INR _)) by apply pos_INR. exact Er.
    - assert (N : nonint (val z)). { intros k E. apply I. rewrite E, Ztrunc_IZR. reflexivity. }
      rewrite (gamma_nonint P fuel z Fz N ltac:(lra)). apply gamma_general_acc; assumption.
  Qed.
End Gam.
