(** * The inverse complementary error function is accurate *)

From Coq Require Import ZArith Reals Bool Lra Lia List.
From Flocq Require Import Core IEEE754.BinarySingleNaN IEEE754.Binary IEEE754.Bits.
From Verif.Model Require Import Base Arith Utils Error.
From Verif.Float Require Import Bits64 Ieee Exact Platforms.
From Verif.Spec Require Import F64Spec Outcome ErfSpec LibmSpec.
From Verif.Proofs Require Import F64 F64Ops Lits Ext PolyZ PolyTree BesselRat RatODE ErfcODE ErfcxAsym ErfcxAcc ErfcAcc GaussInt InvGuess InvHalley PiBounds BetaiAcc EulerGamma Symmetry.
Import ListNotations.
Open Scope R_scope.
Local Notation exp := Rtrigo_def.exp. Local Notation sqrt := R_sqrt.sqrt. Local Notation ln := Rpower.ln. Local Notation PI := Rtrigo1.PI.

(** ** bounds of the rational function *)
Local Notation L := Leaf. Local Notation N := Node. Local Notation r2 := (sqrt 2).
Definition cb (c : Z) : list Z :=
  psub (pscale 10000000000 (pmul [112; 0; 50]%Z (pmul [18; 16]%Z (pmul [18; 16]%Z [18; 16]%Z))))
       (pscale c (pmul [100000; 99229; 4481]%Z (pmul [100000; 99229; 4481]%Z [100000; 99229; 4481]%Z))).
Lemma cb_chk : (neg_chk (N (N (N (N (N (N L L) L) (N L L)) (N L L)) (N L L)) L) 18 36 (cb 162)
  && neg_chk (N (N (N (N (N L L) L) L) L) (N L L)) 13 12 (cb 100))%bool = true.
Proof. vm_compute. reflexivity. Qed.
Lemma cb_eq : forall c t, peval (cb c) t = 10 ^ 21 * ((1.12 + t * t / 2) * ((0.018 + 0.016 * t) * ((0.018 + 0.016 * t) * (0.018 + 0.016 * t))))
  - 10 ^ 15 * (IZR c * (gD t * (gD t * gD t))).
Proof.
  intros c t. unfold cb. rewrite peval_psub, !peval_pscale, !peval_pmul. unfold gD.
  assert (A : peval [112; 0; 50]%Z t = 100 * (1.12 + t * t / 2)) by (unfold peval; simpl; lra).
  assert (B : peval [18; 16]%Z t = 1000 * (0.018 + 0.016 * t)) by (unfold peval; simpl; lra).
  assert (C : peval [100000; 99229; 4481]%Z t = 100000 * (1 + t * (0.99229 + t * 0.04481))) by (unfold peval; simpl; lra).
  rewrite A, B, C. generalize (1.12 + t * t / 2) (0.018 + 0.016 * t) (1 + t * (0.99229 + t * 0.04481)). intros. ring.
Qed.
Lemma cub36 : forall t, 0 <= t <= 36 -> (1.12 + t * t / 2) * ((0.018 + 0.016 * t) * ((0.018 + 0.016 * t) * (0.018 + 0.016 * t))) <= 162 / 10 ^ 6 * (gD t * (gD t * gD t)).
Proof.
  intros t Ht. pose proof cb_chk as C. apply andb_prop in C. destruct C as [C _].
  pose proof (neg_ok _ 18 36 (cb 162) t ltac:(lia) ltac:(lia) C ltac:(simpl (IZR 36); lra)) as G. rewrite cb_eq in G. simpl (IZR 162) in G.
  set (A := (1.12 + t * t / 2) * _) in *. set (D := gD t * _) in *. lra.
Qed.
Lemma cub12 : forall t, 0 <= t <= 12 -> (1.12 + t * t / 2) * ((0.018 + 0.016 * t) * ((0.018 + 0.016 * t) * (0.018 + 0.016 * t))) <= 100 / 10 ^ 6 * (gD t * (gD t * gD t)).
Proof.
  intros t Ht. pose proof cb_chk as C. apply andb_prop in C. destruct C as [_ C].
  pose proof (neg_ok _ 13 12 (cb 100) t ltac:(lia) ltac:(lia) C ltac:(simpl (IZR 12); lra)) as G. rewrite cb_eq in G. simpl (IZR 100) in G.
  set (A := (1.12 + t * t / 2) * _) in *. set (D := gD t * _) in *. lra.
Qed.

(** ** the initial guess in floating point *)

Lemma flA : forall r x, rounds r x -> Rabs x <= 10 ^ 6 -> fin r /\ Rabs (Binary.B2R r - x) <= u53 * Rabs x + / 2 ^ 100.
Proof.
  intros r x Hr Hx. pose proof (rnd_abs_err x) as Re.
  replace (bpow radix2 (-53)) with u53 in Re by (simpl; lra).
  assert (T : bpow radix2 (-1075) <= / 2 ^ 100).
  { replace (/ 2 ^ 100) with (bpow radix2 (-100)) by (simpl; lra). apply bpow_le. lia. }
  destruct (rounds_small _ _ Hr) as [F V].
  - replace (rnd x) with (x + (rnd x - x)) by ring. eapply Rle_lt_trans; [apply Rabs_triang|]. pose proof Om_big.
    assert (B : 10 ^ 8 < Om). { unfold Om in *. apply Rlt_le_trans with (bpow radix2 27); [simpl; lra|apply bpow_le; lia]. }
    assert (u53 * Rabs x <= 1 * 10 ^ 6) by (apply Rmult_le_compat; try lra; apply Rabs_pos). lra.
  - split; [exact F|]. rewrite V. lra.
Qed.

Ltac litR F H d v :=
  let V := fresh in assert (V : R_of_dec d = v) by (unfold R_of_dec; cbn [dman dexp]; rewrite powerRZ_10; simpl; lra);
  destruct (flA _ _ (lit_spec d)) as [F H]; [rewrite V; rewrite Rabs_pos_eq; lra|];
  rewrite V in H; rewrite (Rabs_pos_eq v) in H by lra; clear V; apply Rabs_le_inv in H.

Lemma ln_diff : forall a b, 0 < a -> 0 < b -> ln a - ln b <= (a - b) / b.
Proof.
  intros a b Ha Hb. pose proof (exp_ineq1_le (ln a - ln b)) as X. unfold Rminus in X. rewrite exp_plus, exp_Ropp, !exp_ln in X by assumption.
  replace ((a - b) / b) with (a * / b - 1) by (field; lra). lra.
Qed.

Lemma sqrt_diff : forall a b d, 1 <= a -> 1 <= b -> Rabs (a - b) <= d -> Rabs (sqrt a - sqrt b) <= d.
Proof.
  intros a b d Ha Hb H. pose proof (sqrt_sqrt a ltac:(lra)) as Sa. pose proof (sqrt_sqrt b ltac:(lra)) as Sb.
  assert (A1 : 1 <= sqrt a) by (rewrite <- sqrt_1; apply sqrt_le_1_alt; lra).
  assert (B1 : 1 <= sqrt b) by (rewrite <- sqrt_1; apply sqrt_le_1_alt; lra).
  assert (Q : Rabs (a - b) = Rabs (sqrt a - sqrt b) * (sqrt a + sqrt b)).
  { rewrite <- Sa, <- Sb at 1. replace (sqrt a * sqrt a - sqrt b * sqrt b) with ((sqrt a - sqrt b) * (sqrt a + sqrt b)) by ring.
    rewrite Rabs_mult. f_equal. apply Rabs_pos_eq. lra. }
  apply Rle_trans with (Rabs (a - b)); [|exact H]. rewrite Q. pose proof (Rabs_pos (sqrt a - sqrt b)).
  apply Rle_trans with (Rabs (sqrt a - sqrt b) * 1); [lra|]. apply Rmult_le_compat_l; lra.
Qed.

Definition tt0 (p : R) : R := sqrt (-2 * ln (p / 2)).
Lemma tt0_facts : forall p, bpow radix2 (-930) <= p <= 1 ->
  2 * ln 2 <= -2 * ln (p / 2) <= 1296 /\ 1.177 <= tt0 p <= 36 /\ p = 2 * exp (- (tt0 p * tt0 p / 2)) /\ (/ 2 ^ 100 <= p -> tt0 p <= 12).
Proof.
  intros p [H1 H2]. pose proof (bpow_gt_0 radix2 (-930)) as B0. pose proof ln2_low as L1. pose proof ln2_up as L2.
  assert (HL : forall k, bpow radix2 k <= p -> IZR k * ln 2 - ln 2 <= ln (p / 2)).
  { intros k Hk. pose proof (bpow_gt_0 radix2 k). rewrite <- (ln_bpow_eq k). unfold Rdiv. rewrite ln_mult, ln_Rinv by lra.
    destruct (Rle_lt_or_eq_dec _ _ Hk) as [L|L]; [pose proof (ln_increasing _ _ H L); lra|rewrite <- L; lra]. }
  assert (HU : ln (p / 2) <= - ln 2).
  { unfold Rdiv. rewrite ln_mult, ln_Rinv by lra. destruct (Rle_lt_or_eq_dec _ _ H2) as [L|L]; [pose proof (ln_increasing p 1 ltac:(lra) L) as Q; rewrite ln_1 in Q; lra|rewrite L, ln_1; lra]. }
  pose proof (HL _ H1) as HL1. simpl (IZR (-930)) in HL1.
  assert (S : 2 * ln 2 <= -2 * ln (p / 2) <= 1296) by lra. split; [exact S|].
  assert (SQ : tt0 p * tt0 p = -2 * ln (p / 2)) by (apply sqrt_sqrt; lra).
  split; [split|split].
  - unfold tt0. rewrite <- (sqrt_square 1.177) by lra. apply sqrt_le_1_alt. lra.
  - unfold tt0. rewrite <- (sqrt_square 36) by lra. apply sqrt_le_1_alt. lra.
  - rewrite SQ. replace (- (-2 * ln (p / 2) / 2)) with (ln (p / 2)) by lra. rewrite exp_ln by lra. lra.
  - intros H. pose proof (HL (-100)%Z) as Q. replace (bpow radix2 (-100)) with (/ 2 ^ 100) in Q by (simpl; lra). specialize (Q H). simpl (IZR (-100)) in Q.
    unfold tt0. rewrite <- (sqrt_square 12) by lra. apply sqrt_le_1_alt. lra.
Qed.

Definition guess0 (P : platform) (pp : f64) : f64 :=
  let t := f64_sqrt P (f64_mul P (f64_neg (f64_lit 2.0)) (libm P (p_ln P) (f64_div P pp (f64_lit 2.0)))) in
  f64_mul P (f64_neg (f64_lit 0.707106781186547524400844362104849039))
    (f64_sub P (f64_div P (f64_add P (f64_lit 2.30753) (f64_mul P t (f64_lit 0.27061)))
                 (f64_add P (f64_lit 1.0) (f64_mul P t (f64_add P (f64_lit 0.99229) (f64_mul P t (f64_lit 0.04481)))))) t).

Lemma guess_t : forall P pp, accurate_ln (p_ln P) -> fin pp -> bpow radix2 (-930) <= Binary.B2R pp <= 1 ->
  let t := f64_sqrt P (f64_mul P (f64_neg (f64_lit 2.0)) (libm P (p_ln P) (f64_div P pp (f64_lit 2.0)))) in
  fin t /\ Rabs (Binary.B2R t - tt0 (Binary.B2R pp)) <= / 2 ^ 37.
Proof.
  intros P pp HL Fp Hp. cbv zeta. destruct (tt0_facts _ Hp) as (S & Ht & _ & _). set (p := Binary.B2R pp) in *.
  pose proof (bpow_gt_0 radix2 (-930)) as B0. pose proof ln2_low as L1. pose proof ln2_up as L2.
  pose proof val_2 as V2. rewrite (val_fin _ fin_2) in V2.
  destruct (rel_fl _ _ (div_spec P pp (f64_lit 2.0) Fp fin_2 ltac:(rewrite V2; lra))) as [Fh Bh].
  { fold p. rewrite V2, Rabs_pos_eq by lra. split.
    - replace (bpow radix2 (-1022)) with (bpow radix2 (-1023) * 2); [|change 2 with (bpow radix2 1) at 1; rewrite <- bpow_plus; reflexivity].
      assert (bpow radix2 (-1022) <= bpow radix2 (-931)) by (apply bpow_le; lia).
      assert (bpow radix2 (-930) = bpow radix2 (-931) * 2) by (change 2 with (bpow radix2 1) at 1; rewrite <- bpow_plus; reflexivity).
      assert (bpow radix2 (-1022) = bpow radix2 (-1023) * 2) by (change 2 with (bpow radix2 1) at 1; rewrite <- bpow_plus; reflexivity). lra.
    - apply Rle_trans with (bpow radix2 0); [simpl; lra|apply bpow_le; lia]. }
  set (h := f64_div P pp (f64_lit 2.0)) in *. fold p in Bh. rewrite V2, (Rabs_pos_eq (p / 2)) in Bh by lra. pose proof Bh as Bh'. apply Rabs_le_inv in Bh'.
  assert (H0 : 0 < Binary.B2R h) by lra.
  assert (LH : Rabs (ln (Binary.B2R h) - ln (p / 2)) <= / 2 ^ 52).
  { apply Rabs_le. split.
    - pose proof (ln_diff (p / 2) (Binary.B2R h) ltac:(lra) H0) as Q.
      assert ((p / 2 - Binary.B2R h) / Binary.B2R h <= / 2 ^ 52); [|lra].
      apply Rmult_le_reg_r with (Binary.B2R h); [exact H0|]. unfold Rdiv at 1. rewrite Rmult_assoc, Rinv_l by lra. lra.
    - pose proof (ln_diff (Binary.B2R h) (p / 2) H0 ltac:(lra)) as Q.
      assert ((Binary.B2R h - p / 2) / (p / 2) <= / 2 ^ 52); [|lra].
      apply Rmult_le_reg_r with (p / 2); [lra|]. unfold Rdiv at 1. rewrite Rmult_assoc, Rinv_l by lra. lra. }
  rewrite (libm_nonnan P (p_ln P)) by (apply fin_nonnan, Fh).
  destruct (HL h) as [Nl Bl].
  { apply fin_nonnan, Fh. }
  { rewrite (val_fin _ Fh). split; [exact H0|]. apply Rle_lt_trans with (bpow radix2 0); [simpl; lra|apply bpow_lt; lia]. }
  rewrite (val_fin _ Fh) in Bl. set (l := p_ln P h) in *. set (lh := ln (Binary.B2R h)) in *. set (lp := ln (p / 2)) in *.
  pose proof LH as LH'. apply Rabs_le_inv in LH'.
  assert (LB : Rabs lh <= 649) by (apply Rabs_le; lra).
  assert (Bl2 : Rabs (val l - lp) <= / 2 ^ 40).
  { replace (val l - lp) with ((val l - lh) + (lh - lp)) by ring. eapply Rle_trans; [apply Rabs_triang|].
    replace (bpow radix2 (-50)) with (/ 2 ^ 50) in Bl by (simpl; lra).
    assert (bpow radix2 (-1000) <= / 2 ^ 100) by (replace (/ 2 ^ 100) with (bpow radix2 (-100)) by (simpl; lra); apply bpow_le; lia).
    assert (/ 2 ^ 50 * Rabs lh <= / 2 ^ 50 * 649) by (apply Rmult_le_compat_l; lra). lra. }
  pose proof Bl2 as Bl2'. apply Rabs_le_inv in Bl2'.
  assert (Fl : fin l). { apply fin_iff_val; [exact Nl|]. pose proof Om_big. apply Rabs_lt. lra. }
  rewrite (val_fin _ Fl) in Bl2, Bl2'.
  destruct (flA _ _ (mul_spec P (f64_neg (f64_lit 2.0)) l ltac:(rewrite fin_neg; exact fin_2) Fl)) as [Fs Bs].
  { rewrite B2R_neg, V2. apply Rabs_le. lra. }
  set (s := f64_mul P (f64_neg (f64_lit 2.0)) l) in *. rewrite B2R_neg, V2 in Bs.
  assert (Bs2 : Rabs (Binary.B2R s - -2 * lp) <= / 2 ^ 38).
  { replace (Binary.B2R s - -2 * lp) with ((Binary.B2R s - - 2 * Binary.B2R l) + (-2) * (Binary.B2R l - lp)) by ring. eapply Rle_trans; [apply Rabs_triang|].
    rewrite (Rabs_mult (-2)), (Rabs_left (-2)) by lra.
    assert (Rabs (- 2 * Binary.B2R l) <= 1297) by (apply Rabs_le; lra).
    assert (u53 * Rabs (- 2 * Binary.B2R l) <= u53 * 1297) by (apply Rmult_le_compat_l; lra).
    replace (Ropp 2 * Binary.B2R l) with (- 2 * Binary.B2R l) in Bs by lra. lra. }
  pose proof Bs2 as Bs2'. apply Rabs_le_inv in Bs2'.
  destruct (sqrt_spec P s Fs ltac:(lra)) as [Ft Vt]. split; [exact Ft|]. rewrite Vt.
  pose proof (sqrt_diff (Binary.B2R s) (-2 * lp) _ ltac:(lra) ltac:(lra) Bs2) as Sd. unfold tt0 in *. fold lp in Ht |- *.
  pose proof (rnd_abs_err (sqrt (Binary.B2R s))) as Re. replace (bpow radix2 (-53)) with u53 in Re by (simpl; lra).
  assert (T : bpow radix2 (-1075) <= / 2 ^ 100) by (replace (/ 2 ^ 100) with (bpow radix2 (-100)) by (simpl; lra); apply bpow_le; lia).
  pose proof Sd as Sd'. apply Rabs_le_inv in Sd'.
  rewrite (Rabs_pos_eq (sqrt (Binary.B2R s))) in Re by apply sqrt_pos.
  replace (rnd (sqrt (Binary.B2R s)) - sqrt (-2 * lp)) with ((rnd (sqrt (Binary.B2R s)) - sqrt (Binary.B2R s)) + (sqrt (Binary.B2R s) - sqrt (-2 * lp))) by ring.
  eapply Rle_trans; [apply Rabs_triang|]. lra.
Qed.

Lemma quot_diff : forall n N d D x y, 1 <= d -> 1 <= D -> 0 <= N <= 2.4 * D -> Rabs (n - N) <= x -> Rabs (d - D) <= y -> Rabs (n / d - N / D) <= x + 2.4 * y.
Proof.
  intros n N d D x y Hd HD HN Hx Hy.
  replace (n / d - N / D) with ((n - N) * / d + (N / D) * ((D - d) * / d)) by (field; lra). eapply Rle_trans; [apply Rabs_triang|].
  assert (I : 0 < / d <= 1). { split; [apply Rinv_0_lt_compat; lra|]. rewrite <- Rinv_1. apply Rinv_le_contravar; lra. }
  assert (Q : 0 <= N / D <= 2.4). { split; [apply Rmult_le_pos; [lra|left; apply Rinv_0_lt_compat; lra]|]. apply Rmult_le_reg_r with D; [lra|]. unfold Rdiv. rewrite Rmult_assoc, Rinv_l by lra. lra. }
  rewrite !Rabs_mult, (Rabs_pos_eq (/ d)), (Rabs_pos_eq (N / D)), (Rabs_minus_sym D d) by lra.
  pose proof (Rabs_pos (n - N)). pose proof (Rabs_pos (d - D)).
  assert (Rabs (n - N) * / d <= x * 1) by (apply Rmult_le_compat; lra).
  assert (A : Rabs (d - D) * / d <= y * 1) by (apply Rmult_le_compat; lra).
  assert (N / D * (Rabs (d - D) * / d) <= 2.4 * (y * 1)) by (apply Rmult_le_compat; try lra; apply Rmult_le_pos; lra). lra.
Qed.

Lemma isr2 : Rabs (707106781186547524400844362104849039 / 10 ^ 36 - / r2) <= / 2 ^ 60.
Proof.
  pose proof r2_pos. pose proof r2_rng as RR.
  assert (S : / r2 * / r2 = / 2). { rewrite <- Rinv_mult. rewrite r2_sq. reflexivity. }
  assert (0 < / r2) by (apply Rinv_0_lt_compat, r2_pos). set (i := / r2) in *. clearbody i.
  apply Rabs_le. split; (apply Rnot_lt_le; intros C; nra).
Qed.

Definition nr (x : f64) (X e : R) : Prop := fin x /\ Rabs (Binary.B2R x - X) <= e.
Lemma nr_add : forall P x X a y Y b M c, nr x X a -> nr y Y b -> Rabs (X + Y) <= M -> 0 <= a <= 1 -> 0 <= b <= 1 -> M <= 1000 ->
  a + b + u53 * (M + 2) + / 2 ^ 100 <= c -> nr (f64_add P x y) (X + Y) c.
Proof.
  intros P x X a y Y b M c [Fx Bx] [Fy By] HM Ha Hb H1 Hc.
  assert (S : Rabs ((Binary.B2R x + Binary.B2R y) - (X + Y)) <= a + b).
  { replace ((Binary.B2R x + Binary.B2R y) - (X + Y)) with ((Binary.B2R x - X) + (Binary.B2R y - Y)) by ring. eapply Rle_trans; [apply Rabs_triang|]. lra. }
  assert (S2 : Rabs (Binary.B2R x + Binary.B2R y) <= M + 2). { apply Rabs_le_inv in S. apply Rabs_le_inv in HM. apply Rabs_le. lra. }
  destruct (flA _ _ (add_spec P x y Fx Fy)) as [F B]; [lra|]. split; [exact F|].
  replace (Binary.B2R (f64_add P x y) - (X + Y)) with ((Binary.B2R (f64_add P x y) - (Binary.B2R x + Binary.B2R y)) + ((Binary.B2R x + Binary.B2R y) - (X + Y))) by ring.
  eapply Rle_trans; [apply Rabs_triang|]. assert (u53 * Rabs (Binary.B2R x + Binary.B2R y) <= u53 * (M + 2)) by (apply Rmult_le_compat_l; lra). lra.
Qed.
Lemma nr_sub : forall P x X a y Y b M c, nr x X a -> nr y Y b -> Rabs (X - Y) <= M -> 0 <= a <= 1 -> 0 <= b <= 1 -> M <= 1000 ->
  a + b + u53 * (M + 2) + / 2 ^ 100 <= c -> nr (f64_sub P x y) (X - Y) c.
Proof.
  intros P x X a y Y b M c [Fx Bx] [Fy By] HM Ha Hb H1 Hc.
  assert (S : Rabs ((Binary.B2R x - Binary.B2R y) - (X - Y)) <= a + b).
  { replace ((Binary.B2R x - Binary.B2R y) - (X - Y)) with ((Binary.B2R x - X) + - (Binary.B2R y - Y)) by ring. eapply Rle_trans; [apply Rabs_triang|]. rewrite Rabs_Ropp. lra. }
  assert (S2 : Rabs (Binary.B2R x - Binary.B2R y) <= M + 2). { apply Rabs_le_inv in S. apply Rabs_le_inv in HM. apply Rabs_le. lra. }
  destruct (flA _ _ (sub_spec P x y Fx Fy)) as [F B]; [lra|]. split; [exact F|].
  replace (Binary.B2R (f64_sub P x y) - (X - Y)) with ((Binary.B2R (f64_sub P x y) - (Binary.B2R x - Binary.B2R y)) + ((Binary.B2R x - Binary.B2R y) - (X - Y))) by ring.
  eapply Rle_trans; [apply Rabs_triang|]. assert (u53 * Rabs (Binary.B2R x - Binary.B2R y) <= u53 * (M + 2)) by (apply Rmult_le_compat_l; lra). lra.
Qed.
Lemma nr_mul : forall P x X a y Y b mx my M c, nr x X a -> nr y Y b -> Rabs X <= mx -> Rabs Y <= my -> 0 <= a <= 1 -> 0 <= b <= 1 -> (mx + 1) * (my + 1) <= M -> M <= 10 ^ 6 ->
  a * (my + 1) + mx * b + u53 * M + / 2 ^ 100 <= c -> nr (f64_mul P x y) (X * Y) c.
Proof.
  intros P x X a y Y b mx my M c [Fx Bx] [Fy By] Hx Hy Ha Hb HM H1 Hc.
  assert (Bx1 : Rabs (Binary.B2R x) <= mx + 1) by (apply Rabs_le_inv in Bx; apply Rabs_le_inv in Hx; apply Rabs_le; lra).
  assert (By1 : Rabs (Binary.B2R y) <= my + 1) by (apply Rabs_le_inv in By; apply Rabs_le_inv in Hy; apply Rabs_le; lra).
  assert (S2 : Rabs (Binary.B2R x * Binary.B2R y) <= M).
  { rewrite Rabs_mult. eapply Rle_trans; [|exact HM]. apply Rmult_le_compat; try apply Rabs_pos; assumption. }
  assert (S : Rabs (Binary.B2R x * Binary.B2R y - X * Y) <= a * (my + 1) + mx * b).
  { replace (Binary.B2R x * Binary.B2R y - X * Y) with ((Binary.B2R x - X) * Binary.B2R y + X * (Binary.B2R y - Y)) by ring. eapply Rle_trans; [apply Rabs_triang|]. rewrite !Rabs_mult.
    apply Rplus_le_compat; apply Rmult_le_compat; try apply Rabs_pos; assumption. }
  destruct (flA _ _ (mul_spec P x y Fx Fy)) as [F B]; [lra|]. split; [exact F|].
  replace (Binary.B2R (f64_mul P x y) - X * Y) with ((Binary.B2R (f64_mul P x y) - Binary.B2R x * Binary.B2R y) + (Binary.B2R x * Binary.B2R y - X * Y)) by ring.
  eapply Rle_trans; [apply Rabs_triang|]. assert (u53 * Rabs (Binary.B2R x * Binary.B2R y) <= u53 * M) by (apply Rmult_le_compat_l; lra). lra.
Qed.

Lemma gD_rng : forall t, 1 <= t <= 36 -> 2 <= gD t <= 96 /\ 0.5 * t <= gD t /\ 0 <= 2.30753 + t * 0.27061 <= 13 /\ 2.30753 + t * 0.27061 <= 2.4 * gD t.
Proof.
  intros t Ht. unfold gD. assert (1 <= t * t) by nra. assert (t * t <= 36 * 36) by (apply Rmult_le_compat; lra).
  assert (Q : forall a b, 1 + t * (a + t * b) = 1 + t * a + t * t * b) by (intros; ring). rewrite Q. repeat split; lra.
Qed.

Lemma guess_fl : forall P pp, accurate_ln (p_ln P) -> fin pp -> bpow radix2 (-930) <= Binary.B2R pp <= 1 ->
  nr (guess0 P pp) (yg 0 0 (tt0 (Binary.B2R pp)) / r2) (/ 2 ^ 27).
Proof.
  intros P pp HL Fp Hp. destruct (tt0_facts _ Hp) as (_ & Ht & _ & _). destruct (guess_t P pp HL Fp Hp) as [Ft Bt]. unfold guess0.
  set (tf := f64_sqrt P _) in *. set (t := tt0 (Binary.B2R pp)) in *. cbv zeta.
  litR F1 H1 0.04481%dec 0.04481. litR F2 H2 0.99229%dec 0.99229. litR F3 H3 0.27061%dec 0.27061. litR F4 H4 2.30753%dec 2.30753.
  litR F5 H5 0.707106781186547524400844362104849039%dec (707106781186547524400844362104849039 / 10 ^ 36).
  set (c1 := f64_lit 0.04481) in *. set (c2 := f64_lit 0.99229) in *. set (c3 := f64_lit 0.27061) in *. set (c4 := f64_lit 2.30753) in *.
  set (c5 := f64_lit 0.707106781186547524400844362104849039) in *.
  pose proof isr2 as I2. pose proof I2 as I2'. apply Rabs_le_inv in I2'.
  assert (N1 : nr c1 0.04481 (/ 2 ^ 53)) by (split; [exact F1|apply Rabs_le; lra]).
  assert (N2 : nr c2 0.99229 (/ 2 ^ 52)) by (split; [exact F2|apply Rabs_le; lra]).
  assert (N3 : nr c3 0.27061 (/ 2 ^ 53)) by (split; [exact F3|apply Rabs_le; lra]).
  assert (N4 : nr c4 2.30753 (/ 2 ^ 50)) by (split; [exact F4|apply Rabs_le; lra]).
  assert (N5 : nr (f64_neg c5) (- / r2) (/ 2 ^ 52)).
  { split; [rewrite fin_neg; exact F5|]. rewrite B2R_neg. apply Rabs_le. lra. }
  assert (N0 : nr (f64_lit 1.0) 1 0).
  { split; [exact fin_1|]. pose proof val_1 as V1. rewrite (val_fin _ fin_1) in V1. rewrite V1, Rminus_eq_0, Rabs_R0. lra. }
  assert (NT : nr tf t (/ 2 ^ 37)) by (split; assumption).
  clear F1 F2 F3 F4 F5 H1 H2 H3 H4 H5 Ft Bt. clearbody tf t c1 c2 c3 c4 c5.
  destruct (gD_rng t ltac:(lra)) as (G1 & G2 & G3 & G4).
  assert (A : Rabs t <= 36) by (rewrite Rabs_pos_eq; lra).
  pose proof (nr_mul P tf t _ c1 _ _ 36 0.05 40 (/ 2 ^ 36) NT N1 A ltac:(rewrite Rabs_pos_eq; lra) ltac:(lra) ltac:(lra) ltac:(lra) ltac:(lra) ltac:(lra)) as M1.
  assert (W : 0 <= 0.99229 + t * 0.04481 <= 2.7) by lra.
  pose proof (nr_add P c2 _ _ _ _ _ 3 (/ 2 ^ 35) N2 M1 ltac:(rewrite Rabs_pos_eq; lra) ltac:(lra) ltac:(lra) ltac:(lra) ltac:(lra)) as M2.
  pose proof (nr_mul P tf t _ _ _ _ 36 2.7 200 (/ 2 ^ 29) NT M2 A ltac:(rewrite Rabs_pos_eq; lra) ltac:(lra) ltac:(lra) ltac:(lra) ltac:(lra) ltac:(lra)) as M3.
  pose proof (nr_add P (f64_lit 1.0) 1 0 _ _ _ 100 (1.01 / 2 ^ 29) N0 M3 ltac:(fold (gD t); rewrite Rabs_pos_eq; lra) ltac:(lra) ltac:(lra) ltac:(lra) ltac:(lra)) as M4.
  pose proof (nr_mul P tf t _ c3 _ _ 36 0.3 100 (/ 2 ^ 36) NT N3 A ltac:(rewrite Rabs_pos_eq; lra) ltac:(lra) ltac:(lra) ltac:(lra) ltac:(lra) ltac:(lra)) as M5.
  pose proof (nr_add P c4 _ _ _ _ _ 13 (/ 2 ^ 35) N4 M5 ltac:(rewrite Rabs_pos_eq; lra) ltac:(lra) ltac:(lra) ltac:(lra) ltac:(lra)) as M6.
  fold (gD t) in M4. set (nf := f64_add P c4 _) in *. set (df := f64_add P (f64_lit 1.0) _) in *. destruct M4 as [Fd Bd]. destruct M6 as [Fn Bn].
  pose proof Bd as Bd'. apply Rabs_le_inv in Bd'.
  pose proof (quot_diff (Binary.B2R nf) (2.30753 + t * 0.27061) (Binary.B2R df) (gD t) (/ 2 ^ 35) (1.01 / 2 ^ 29) ltac:(lra) ltac:(lra) (conj (proj1 G3) G4) Bn Bd) as Qd.
  set (q0 := (2.30753 + t * 0.27061) / gD t) in *.
  assert (Q0 : 0 <= q0 <= 2.4). { unfold q0. split; [apply Rmult_le_pos; [lra|left; apply Rinv_0_lt_compat; lra]|]. apply Rmult_le_reg_r with (gD t); [lra|]. unfold Rdiv. rewrite Rmult_assoc, Rinv_l by lra. lra. }
  pose proof Qd as Qd'. apply Rabs_le_inv in Qd'.
  destruct (flA _ _ (div_spec P nf df Fn Fd ltac:(lra))) as [Fq Bq]; [apply Rabs_le; lra|].
  assert (NQ : nr (f64_div P nf df) q0 (2.51 / 2 ^ 29)).
  { split; [exact Fq|]. replace (Binary.B2R (f64_div P nf df) - q0) with ((Binary.B2R (f64_div P nf df) - Binary.B2R nf / Binary.B2R df) + (Binary.B2R nf / Binary.B2R df - q0)) by ring.
    eapply Rle_trans; [apply Rabs_triang|]. assert (u53 * Rabs (Binary.B2R nf / Binary.B2R df) <= u53 * 3) by (apply Rmult_le_compat_l; [lra|apply Rabs_le; lra]). lra. }
  pose proof (nr_sub P _ _ _ _ _ _ 40 (2.53 / 2 ^ 29) NQ NT ltac:(apply Rabs_le; lra) ltac:(lra) ltac:(lra) ltac:(lra) ltac:(lra)) as M7.
  pose proof (nr_mul P _ _ _ _ _ _ 1 40 100 (/ 2 ^ 27) N5 M7 ltac:(rewrite Rabs_Ropp; apply Rabs_le; lra) ltac:(apply Rabs_le; lra) ltac:(lra) ltac:(lra) ltac:(lra) ltac:(lra) ltac:(lra)) as M8.
  replace (yg 0 0 t / r2) with (- / r2 * (q0 - t)); [exact M8|].
  unfold yg. replace (2.30753 - 0 + t * (0.27061 - 0)) with (2.30753 + t * 0.27061) by ring. fold q0. unfold Rdiv. ring.
Qed.

(** ** two steps *)
Lemma exp_2a : forall a, 0 <= a < 1 -> exp (2 * a) <= / ((1 - a) * (1 - a)).
Proof.
  intros a Ha. pose proof (exp_ineq1_le (- a)) as X. rewrite exp_Ropp in X. pose proof (exp_pos a) as P0.
  replace (2 * a) with (a + a) by ring. rewrite exp_plus, Rinv_mult.
  assert (U : exp a <= / (1 - a)).
  { apply Rmult_le_reg_r with (1 - a); [lra|]. rewrite Rinv_l by lra. apply Rmult_le_reg_l with (/ exp a); [apply Rinv_0_lt_compat, P0|]. rewrite <- Rmult_assoc, Rinv_l by lra. lra. }
  apply Rmult_le_compat; lra.
Qed.

Definition gG (t : R) : R := (0.018 + 0.016 * t) / gD t.
Lemma gG_rng : forall t, 1.177 <= t <= 36 -> 0.005 <= gG t <= 0.018 /\ t * gG t <= 0.2399 /\ - 0.01 <= yg 0 0 t <= t - 0.1.
Proof.
  intros t Ht. destruct (gD_rng t ltac:(lra)) as (G1 & _ & _ & _). unfold gG.
  assert (T2 : 1.177 * 1.177 <= t * t) by (apply Rmult_le_compat; lra). assert (T2' : t * t <= 36 * t) by (apply Rmult_le_compat_r; lra).
  assert (T3 : 1.177 * (1.177 * 1.177) <= t * (t * t)) by (apply Rmult_le_compat; lra).
  assert (Q : gD t = 1 + t * 0.99229 + t * t * 0.04481). { unfold gD. generalize 0.99229 0.04481. intros. ring. }
  assert (Q3 : t * gD t = t + t * t * 0.99229 + t * (t * t) * 0.04481). { rewrite Q. generalize 0.99229 0.04481. intros. ring. }
  assert (DV : forall a b, a <= b * gD t -> a / gD t <= b). { intros a b H. apply Rmult_le_reg_r with (gD t); [lra|]. unfold Rdiv. rewrite Rmult_assoc, Rinv_l by lra. lra. }
  assert (DL : forall a b, b * gD t <= a -> b <= a / gD t). { intros a b H. apply Rmult_le_reg_r with (gD t); [lra|]. unfold Rdiv. rewrite Rmult_assoc, Rinv_l by lra. lra. }
  split; [split|split; [|split]].
  - apply DL. rewrite Q. lra.
  - apply DV. rewrite Q. lra.
  - unfold Rdiv. rewrite <- Rmult_assoc. apply DV. rewrite Q. replace (t * (0.018 + 0.016 * t)) with (0.018 * t + 0.016 * (t * t)) by (generalize 0.018 0.016; intros; ring). lra.
  - unfold yg. assert ((2.30753 - 0 + t * (0.27061 - 0)) / gD t <= t + 0.01); [|lra]. apply DV. rewrite Rmult_plus_distr_r, Q3, Q. lra.
  - unfold yg. assert (0.1 <= (2.30753 - 0 + t * (0.27061 - 0)) / gD t); [|lra]. apply DL. rewrite Q. lra.
Qed.

Section Two.
  Variable E : R -> R.
  Hypothesis HE : erfc_function E.

  Lemma two_steps : forall P pp z kp et m B, accurate_exp (p_exp P) -> accurate_ln (p_ln P) -> fin pp ->
    bpow radix2 (-930) <= Binary.B2R pp <= 1 -> E z = Binary.B2R pp ->
    let t := tt0 (Binary.B2R pp) in
    (1.12 + t * t / 2) * ((0.018 + 0.016 * t) * ((0.018 + 0.016 * t) * (0.018 + 0.016 * t))) <= kp * (gD t * (gD t * gD t)) ->
    0.1816 * kp + 2.3 / 2 ^ 40 <= et <= 3 / 10 ^ 5 -> t <= 1.414 * (m - 0.02) -> m <= 25.5 ->
    0.3344 * (1.001 + m * m) * (et * (et * et)) + 1.46 / 2 ^ 40 <= B ->
    exists x1 x2, @inverfc_step (ieee P) pp (guess0 P pp) = Ok x1 /\ @inverfc_step (ieee P) pp x1 = Ok x2 /\ fin x2 /\ Rabs (Binary.B2R x2 - z) <= B.
  Proof.
    intros P pp z kp et m B HX HL Fp Hp Hz t Hk Het Hm Hm2 HB.
    destruct (tt0_facts _ Hp) as (_ & Ht & Pt & _). fold t in Ht, Pt.
    destruct (guess_fl P pp HL Fp Hp) as [F0 B0]. fold t in B0. set (x0 := guess0 P pp) in *. clearbody x0. set (X := Binary.B2R x0) in *.
    pose proof (guess_ok E HE t _ z Ht Pt Hz) as GO. fold (gG t) in GO. destruct (gG_rng t Ht) as (G1 & G2 & G3). destruct (gD_rng t ltac:(lra)) as (GD & _).
    pose proof r2_rng as RR. assert (IR : 0.706 <= / r2 <= 0.7073).
    { split; (apply Rmult_le_reg_r with r2; [lra|]; rewrite Rinv_l by lra; lra). }
    set (i := / r2) in *. assert (I2 : i * i = / 2) by (unfold i; rewrite <- Rinv_mult, r2_sq; reflexivity).
    unfold Rdiv in GO at 1 2. unfold Rdiv in B0. fold i in GO, B0.
    assert (z0 : 0 <= z). { apply Rnot_lt_le. intros C. pose proof (E_lt E HE z 0 C) as Q. rewrite (erfc_0 E HE) in Q. lra. }
    (* the guess *)
    set (e0 := Rabs (X - z)). set (w := 1.00001 * (gG t * i)).
    assert (GI : 0.0035 <= gG t * i <= 0.0128).
    { split; [apply Rle_trans with (0.005 * 0.706); [lra|apply Rmult_le_compat; lra]|apply Rle_trans with (0.018 * 0.7073); [apply Rmult_le_compat; lra|lra]]. }
    assert (E0 : e0 <= w).
    { unfold e0, w. replace (X - z) with ((X - yg 0 0 t * i) + (yg 0 0 t * i - z)) by (generalize (yg 0 0 t * i); intros; ring). eapply Rle_trans; [apply Rabs_triang|]. lra. }
    assert (e00 : 0 <= e0) by apply Rabs_pos.
    assert (E0b : e0 <= 0.013) by (unfold w in E0; lra).
    apply Rabs_le_inv in B0.
    assert (TI : 0.83 <= t * i). { apply Rle_trans with (1.177 * 0.706); [lra|apply Rmult_le_compat; lra]. }
    assert (XU : X <= t * i). { assert (yg 0 0 t * i <= (t - 0.1) * i) by (apply Rmult_le_compat_r; lra). lra. }
    assert (XL : - (1 / 100) <= X). { assert (- 0.01 * i <= yg 0 0 t * i) by (apply Rmult_le_compat_r; lra). assert (- 0.01 * i >= - 0.008) by lra. lra. }
    assert (XA : Rabs X <= t * i) by (apply Rabs_le; lra).
    assert (TM : t * i <= m - 0.02). { apply Rmult_le_reg_r with r2; [lra|]. unfold i. rewrite Rmult_assoc, Rinv_l, Rmult_1_r by lra.
      eapply Rle_trans; [exact Hm|]. rewrite (Rmult_comm (m - 0.02)). apply Rmult_le_compat_r; [|lra]. apply Rmult_le_reg_l with 1.414; lra. }
    assert (XE : Rabs (X * (X - z)) <= 3 / 25).
    { rewrite Rabs_mult. fold e0. apply Rle_trans with (t * i * w); [apply Rmult_le_compat; try apply Rabs_pos; assumption|].
      replace (t * i * w) with (1.00001 * (t * gG t) * (i * i)) by (unfold w; generalize 1.00001; intros; ring). rewrite I2. lra. }
    assert (Q1 : exp (2 * (3 / 25)) <= 1.3).
    { eapply Rle_trans; [apply exp_2a; lra|]. apply Rmult_le_reg_r with ((1 - 3 / 25) * (1 - 3 / 25)); [lra|]. rewrite Rinv_l by lra. lra. }
    destruct (step_fl E HE P x0 pp z (3 / 25) 1.3 HX F0 ltac:(fold X; lra) Fp ltac:(symmetry; exact Hz) ltac:(lra) ltac:(lra) Q1 XE ltac:(fold X e0; lra)) as (x1 & S1 & F1 & B1).
    fold X in B1. fold e0 in B1.
    assert (X2 : X * X <= t * t / 2).
    { rewrite <- (Rabs_pos_eq (X * X)) by nra. rewrite Rabs_mult. apply Rle_trans with (t * i * (t * i)); [apply Rmult_le_compat; try apply Rabs_pos; assumption|].
      replace (t * i * (t * i)) with (t * t * (i * i)) by ring. rewrite I2. lra. }
    assert (CU : (1 + X * X + 3 / 25) * (e0 * (e0 * e0)) <= 0.35367 * kp).
    { assert (W3 : e0 * (e0 * e0) <= w * (w * w)). { apply Rmult_le_compat; [lra|apply Rmult_le_pos; lra|exact E0|]. apply Rmult_le_compat; lra. }
      assert (EE : 0 <= e0 * (e0 * e0)) by (apply Rmult_le_pos; [lra|apply Rmult_le_pos; lra]).
      assert (T0 : 0 <= t * t) by nra.
      apply Rle_trans with ((1.12 + t * t / 2) * (w * (w * w))); [apply Rmult_le_compat; try lra; nra|].
      assert (ID : (1.12 + t * t / 2) * (w * (w * w)) = 1.00001 * 1.00001 * 1.00001 * (i * i) * i * ((1.12 + t * t / 2) * (gG t * (gG t * gG t)))).
      { unfold w. generalize 1.00001 1.12. intros. ring. }
      rewrite ID, I2.
      assert (CG : (1.12 + t * t / 2) * (gG t * (gG t * gG t)) <= kp).
      { unfold gG. set (D := gD t) in *. set (n := 0.018 + 0.016 * t) in *. set (f := 1.12 + t * t / 2) in *.
        replace (f * (n / D * (n / D * (n / D)))) with (f * (n * (n * n)) * / (D * (D * D))) by (field; lra).
        assert (D3 : 0 < D * (D * D)) by (apply Rmult_lt_0_compat; [lra|apply Rmult_lt_0_compat; lra]).
        apply Rmult_le_reg_r with (D * (D * D)); [exact D3|]. rewrite Rmult_assoc, Rinv_l by lra. lra. }
      assert (C0 : 0 <= (1.12 + t * t / 2) * (gG t * (gG t * gG t))). { apply Rmult_le_pos; [lra|]. apply Rmult_le_pos; [lra|]. apply Rmult_le_pos; lra. }
      apply Rmult_le_compat; try assumption; try lra. }
    assert (K0 : 0 <= (1 + X * X + 3 / 25) * (e0 * (e0 * e0))). { apply Rmult_le_pos; [nra|]. apply Rmult_le_pos; [lra|apply Rmult_le_pos; lra]. }
    assert (E1 : Rabs (Binary.B2R x1 - z) <= et).
    { eapply Rle_trans; [exact B1|].
      assert (Q : 1.3 * (1 + X * X + 3 / 25) / 3 * (e0 * (e0 * e0)) / (1 - 1.3 * (3 / 25)) = 1.3 / 3 / (1 - 1.3 * (3 / 25)) * ((1 + X * X + 3 / 25) * (e0 * (e0 * e0)))).
      { unfold Rdiv. generalize 1.3 (/ (1 - 1.3 * (3 * / 25))). intros. ring. }
      rewrite Q. assert (1.3 / 3 / (1 - 1.3 * (3 / 25)) <= 0.51343). { apply Rmult_le_reg_r with (1 - 1.3 * (3 / 25)); [lra|]. unfold Rdiv at 1. rewrite Rmult_assoc, Rinv_l by lra. lra. }
      assert (1.3 / 3 / (1 - 1.3 * (3 / 25)) * ((1 + X * X + 3 / 25) * (e0 * (e0 * e0))) <= 0.51343 * (0.35367 * kp)).
      { apply Rle_trans with (0.51343 * ((1 + X * X + 3 / 25) * (e0 * (e0 * e0)))); [apply Rmult_le_compat_r; assumption|apply Rmult_le_compat_l; [lra|exact CU]]. }
      lra. }
    (* the second step *)
    set (Y := Binary.B2R x1) in *. assert (e10 : 0 <= Rabs (Y - z)) by apply Rabs_pos. set (e1 := Rabs (Y - z)) in *. pose proof E1 as E1'. unfold e1 in E1'. apply Rabs_le_inv in E1'.
    assert (ZU : z <= m - 0.006). { unfold e0 in E0b. apply Rabs_le_inv in E0b. lra. }
    assert (YA : Rabs Y <= m) by (apply Rabs_le; lra).
    assert (M0 : 0 <= m) by (pose proof (Rabs_pos Y); lra).
    assert (YE : Rabs (Y * (Y - z)) <= 0.00077).
    { rewrite Rabs_mult. fold e1. apply Rle_trans with (25.5 * (3 / 10 ^ 5)); [apply Rmult_le_compat; try apply Rabs_pos; lra|lra]. }
    assert (Q2 : exp (2 * 0.00077) <= 1.002).
    { eapply Rle_trans; [apply exp_2a; lra|]. apply Rmult_le_reg_r with ((1 - 0.00077) * (1 - 0.00077)); [lra|]. rewrite Rinv_l by lra. lra. }
    destruct (step_fl E HE P x1 pp z 0.00077 1.002 HX F1 ltac:(fold Y; apply Rabs_le_inv in YA; lra) Fp ltac:(symmetry; exact Hz) ltac:(lra) ltac:(lra) Q2 YE ltac:(fold Y e1; lra)) as (x2 & S2 & F2 & B2).
    fold Y in B2. fold e1 in B2. exists x1, x2. split; [exact S1|]. split; [exact S2|]. split; [exact F2|].
    eapply Rle_trans; [exact B2|]. eapply Rle_trans; [|exact HB].
    assert (Q : 1.002 * (1 + Y * Y + 0.00077) / 3 * (e1 * (e1 * e1)) / (1 - 1.002 * 0.00077) = 1.002 / 3 / (1 - 1.002 * 0.00077) * ((1 + Y * Y + 0.00077) * (e1 * (e1 * e1)))).
    { unfold Rdiv. generalize 1.002 0.00077 (/ (1 - 1.002 * 0.00077)). intros. ring. }
    rewrite Q. assert (C1 : 1.002 / 3 / (1 - 1.002 * 0.00077) <= 0.3344). { apply Rmult_le_reg_r with (1 - 1.002 * 0.00077); [lra|]. unfold Rdiv at 1. rewrite Rmult_assoc, Rinv_l by lra. lra. }
    assert (Y2 : Y * Y <= m * m). { rewrite <- (Rabs_pos_eq (Y * Y)) by nra. rewrite Rabs_mult. apply Rmult_le_compat; try apply Rabs_pos; assumption. }
    assert (Y20 : 0 <= Y * Y) by nra.
    assert (E3 : e1 * (e1 * e1) <= et * (et * et)). { apply Rmult_le_compat; [lra|apply Rmult_le_pos; lra|lra|]. apply Rmult_le_compat; lra. }
    assert (E30 : 0 <= e1 * (e1 * e1)) by (apply Rmult_le_pos; [lra|apply Rmult_le_pos; lra]).
    assert (C2 : (1 + Y * Y + 0.00077) * (e1 * (e1 * e1)) <= (1.001 + m * m) * (et * (et * et))) by (apply Rmult_le_compat; lra).
    assert (C20 : 0 <= (1 + Y * Y + 0.00077) * (e1 * (e1 * e1))) by (apply Rmult_le_pos; lra).
    assert (C3 : 1.002 / 3 / (1 - 1.002 * 0.00077) * ((1 + Y * Y + 0.00077) * (e1 * (e1 * e1))) <= 0.3344 * ((1.001 + m * m) * (et * (et * et)))).
    { eapply Rle_trans; [apply Rmult_le_compat_r; [exact C20|exact C1]|]. apply Rmult_le_compat_l; [lra|exact C2]. }
    assert (/ 2 ^ 34 * e1 <= / 2 ^ 34 * (3 / 10 ^ 5)) by (apply Rmult_le_compat_l; lra).
    rewrite <- Rmult_assoc in C3. lra.
  Qed.
End Two.
