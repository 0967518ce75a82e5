(** * Domains, end points and NaN arguments of gamma.rs, beta.rs, error.rs *)

From Coq Require Import ZArith Reals Bool Lra Lia List.
From Flocq Require Import Core IEEE754.BinarySingleNaN IEEE754.Binary IEEE754.Bits.
From Verif.Model Require Import Base Arith Gamma Beta Error Bessel.
From Verif.Float Require Import Bits64 Ieee Exact.
From Verif.Spec Require Import F64Spec Outcome.
From Verif.Proofs Require Import F64 F64Ops Lits Ext.
Open Scope R_scope.

#[export] Hint Resolve add_nan_l add_nan_r sub_nan_l sub_nan_r mul_nan_l mul_nan_r
  div_nan_l div_nan_r sqrt_nan libm_nan : nan.

Lemma neg_nan : forall x, Binary.is_nan x = true -> Binary.is_nan (f64_neg x) = true.
Proof. intros x H. rewrite nan_neg. exact H. Qed.
Lemma abs_nan : forall x, Binary.is_nan x = true -> Binary.is_nan (f64_abs x) = true.
Proof. intros x H. rewrite nan_abs. exact H. Qed.
#[export] Hint Resolve neg_nan abs_nan : nan.

Lemma lt_nan_l : forall x y, Binary.is_nan x = true -> f64_lt x y = false.
Proof. intros x y H. apply (cmp_nan_l x y H). Qed.
Lemma lt_nan_r : forall x y, Binary.is_nan y = true -> f64_lt x y = false.
Proof. intros x y H. apply (cmp_nan_r x y H). Qed.
Lemma le_nan_l : forall x y, Binary.is_nan x = true -> f64_le x y = false.
Proof. intros x y H. apply (cmp_nan_l x y H). Qed.
Lemma le_nan_r : forall x y, Binary.is_nan y = true -> f64_le x y = false.
Proof. intros x y H. apply (cmp_nan_r x y H). Qed.
Lemma eq_nan_l : forall x y, Binary.is_nan x = true -> f64_eq x y = false.
Proof. intros x y H. apply (cmp_nan_l x y H). Qed.

Lemma nonneg_dec : forall x, nonneg x \/ ~ nonneg x.
Proof. intros x. destruct (f64_le (f64_lit 0.0) x) eqn:E; [left|right]; [apply nonneg_true|apply nonneg_false]; exact E. Qed.
Lemma positive_dec : forall x, positive x \/ ~ positive x.
Proof. intros x. destruct (f64_lt (f64_lit 0.0) x) eqn:E; [left|right]; [apply pos_true|apply pos_false]; exact E. Qed.

(** ** gammp, gammq *)

Lemma ret_if : forall {A} (b : bool) (x y : res A), returns x -> returns y -> returns (if b then x else y).
Proof. intros A [] x y; auto. Qed.
Lemma ret_ok : forall {A} (r : A), returns (Ok r).
Proof. intros A r. exists r. reflexivity. Qed.
#[export] Hint Resolve ret_if ret_ok : ret.

Lemma gammp_returns : forall P a x, nonneg x -> positive a -> returns (@gammp (ieee P) a x).
Proof.
  intros P a x Hx Ha. unfold gammp. ieee_simpl.
  rewrite (proj2 (nonneg_true x) Hx), (proj2 (pos_true a) Ha). cbn [andb]. auto 10 with ret.
Qed.

Lemma gammq_returns : forall P a x, nonneg x -> positive a -> returns (@gammq (ieee P) a x).
Proof.
  intros P a x Hx Ha. unfold gammq. ieee_simpl.
  rewrite (proj2 (nonneg_true x) Hx), (proj2 (pos_true a) Ha). cbn [andb]. auto 10 with ret.
Qed.

Lemma dom2 : forall a x, ~ (nonneg x /\ positive a) ->
  (f64_le (f64_lit 0.0) x && f64_lt (f64_lit 0.0) a)%bool = false.
Proof.
  intros a x H. destruct (f64_le (f64_lit 0.0) x) eqn:E; [|reflexivity].
  destruct (f64_lt (f64_lit 0.0) a) eqn:E'; [|reflexivity].
  exfalso. apply H. split; [apply nonneg_true|apply pos_true]; assumption.
Qed.

Lemma gammp_panics : forall P a x, ~ (nonneg x /\ positive a) -> panics (@gammp (ieee P) a x).
Proof. intros P a x H. unfold gammp. ieee_simpl. rewrite dom2 by exact H. eexists; reflexivity. Qed.
Lemma gammq_panics : forall P a x, ~ (nonneg x /\ positive a) -> panics (@gammq (ieee P) a x).
Proof. intros P a x H. unfold gammq. ieee_simpl. rewrite dom2 by exact H. eexists; reflexivity. Qed.

Lemma gammp_domain : forall P a x,
  (panics (@gammp (ieee P) a x) <-> ~ (nonneg x /\ positive a))
  /\ (returns (@gammp (ieee P) a x) <-> (nonneg x /\ positive a)).
Proof.
  intros P a x. assert (D : (nonneg x /\ positive a) \/ ~ (nonneg x /\ positive a)).
  { destruct (nonneg_dec x), (positive_dec a); tauto. }
  destruct D as [[Hx Ha]|D].
  - pose proof (gammp_returns P a x Hx Ha) as R. pose proof (not_panic_returns _ R). tauto.
  - pose proof (gammp_panics P a x D) as R.
    assert (~ returns (@gammp (ieee P) a x)) by (intros Q; apply (not_panic_returns _ Q R)). tauto.
Qed.

Lemma gammq_domain : forall P a x,
  (panics (@gammq (ieee P) a x) <-> ~ (nonneg x /\ positive a))
  /\ (returns (@gammq (ieee P) a x) <-> (nonneg x /\ positive a)).
Proof.
  intros P a x. assert (D : (nonneg x /\ positive a) \/ ~ (nonneg x /\ positive a)).
  { destruct (nonneg_dec x), (positive_dec a); tauto. }
  destruct D as [[Hx Ha]|D].
  - pose proof (gammq_returns P a x Hx Ha) as R. pose proof (not_panic_returns _ R). tauto.
  - pose proof (gammq_panics P a x D) as R.
    assert (~ returns (@gammq (ieee P) a x)) by (intros Q; apply (not_panic_returns _ Q R)). tauto.
Qed.

(** *** saturation *)

Notation f64_eps := (@B754_finite 53 1024 false (2 ^ 52) (-104) eq_refl).

Lemma val_eps : val f64_eps = bpow radix2 (-52).
Proof.
  change (val f64_eps) with (IZR (2 ^ 52) * bpow radix2 (-104)).
  rewrite <- (bpow2_nonneg_IZR 52), <- bpow_plus by lia. reflexivity.
Qed.

Lemma inf_mul_eps : forall P, f64_mul P (B754_infinity false) f64_eps = B754_infinity false.
Proof. reflexivity. Qed.

Lemma bpow_m52_lt1 : 0 < bpow radix2 (-52) < 1.
Proof. split; [apply bpow_gt_0|]. change 1 with (bpow radix2 0). apply bpow_lt. lia. Qed.

Lemma eps_thr : forall P a, positive a ->
  number (f64_mul P a f64_eps)
  /\ rnd (val a * bpow radix2 (-52)) <= val (f64_mul P a f64_eps) <= val a.
Proof.
  intros P a [Na Va]. pose proof bpow_m52_lt1 as B. pose proof Om_pos as OM.
  assert (L : 0 <= val a * bpow radix2 (-52) <= val a) by nra.
  destruct (fin_or_inf a Na) as [Fa|[s ->]].
  - destruct (mul_spec P a f64_eps Fa eq_refl) as [N V].
    assert (E : Binary.B2R a * Binary.B2R f64_eps = val a * bpow radix2 (-52)).
    { rewrite <- !val_fin by (exact Fa || reflexivity). rewrite val_eps. reflexivity. }
    split; [exact N|]. rewrite V, E.
    assert (S : rnd (val a * bpow radix2 (-52)) <= val a).
    { apply rnd_le_fmt; [apply val_fmt|lra]. }
    pose proof (rnd_pos _ (proj1 L)). pose proof (val_bound a).
    rewrite rs_in; [lra|]. rewrite Rabs_pos_eq by assumption. lra.
  - destruct s; [exfalso; rewrite val_inf_t in Va; lra|].
    rewrite inf_mul_eps. split; [reflexivity|]. rewrite val_inf_f in *. split; [|lra].
    apply rnd_le_fmt; [apply fmt_Om|lra].
Qed.

Lemma gamm_low : forall P a x, positive a -> nonneg x ->
  val x = 0 \/ val x < rnd (val a * bpow radix2 (-52)) ->
  @gammp (ieee P) a x = Ok (f64_lit 0.0) /\ @gammq (ieee P) a x = Ok (f64_lit 1.0).
Proof.
  intros P a x Ha Hx C. unfold gammp, gammq, EPS. ieee_simpl.
  rewrite (proj2 (nonneg_true x) Hx), (proj2 (pos_true a) Ha). cbn [andb].
  destruct (f64_eq x (f64_lit 0.0)) eqn:E; [split; reflexivity|].
  assert (L : f64_lt x (f64_mul P a f64_eps) = true).
  { destruct C as [C|C].
    - exfalso. apply eq_false in E; [|apply Hx|apply nn_0]. apply E. rewrite val_0. exact C.
    - destruct (eps_thr P a Ha) as [N V]. apply lt_true. repeat split; [apply Hx|exact N|lra]. }
  rewrite L. split; reflexivity.
Qed.

Lemma rnd_up : forall r, bpow radix2 (-1022) <= r -> r * (1 - bpow radix2 (-53)) <= rnd r <= r * (1 + bpow radix2 (-53)).
Proof.
  intros r H. pose proof (bpow_gt_0 radix2 (-1022)).
  pose proof (rnd_rel r) as Q. rewrite (Rabs_pos_eq r) in Q by lra. specialize (Q H).
  apply Rabs_le_inv in Q. lra.
Qed.

Lemma rs_le_rnd : forall r, 0 <= r -> rs r <= rnd r.
Proof.
  intros r H. unfold rs. pose proof (rnd_pos r H). pose proof Om_pos.
  apply Rmax_lub; [lra|apply Rmin_r].
Qed.

(** [c * (sqrt a + 1)], [c * sqrt a]: the rounded result is within a few ulps *)
Lemma m1022_le : forall r, 1 / 2 <= r -> bpow radix2 (-1022) <= r.
Proof.
  intros r H. apply Rle_trans with (2 := H). apply Rle_trans with (bpow radix2 (-1)).
  - apply bpow_le. lia.
  - change (bpow radix2 (-1)) with (/ 2). lra.
Qed.

Lemma u_small : 0 < bpow radix2 (-53) < 1 / 1000000.
Proof.
  split; [apply bpow_gt_0|]. rewrite bpow2_inv_IZR by lia.
  apply Rlt_le_trans with (/ IZR (2 ^ 20)).
  - apply Rinv_lt_contravar; [|apply IZR_lt; reflexivity].
    rewrite <- mult_IZR. apply IZR_lt. reflexivity.
  - unfold Rdiv. rewrite Rmult_1_l. apply Rinv_le_contravar; [lra|]. apply IZR_le. vm_compute. discriminate.
Qed.

Lemma rounds_upper : forall z r u, rounds z r -> 0 <= r -> r <= u -> bpow radix2 (-1022) <= u ->
  val z <= u * (1 + bpow radix2 (-53)).
Proof.
  intros z r u [_ V] Hr L H. rewrite V.
  apply Rle_trans with (rnd r); [apply rs_le_rnd; exact Hr|].
  apply Rle_trans with (rnd u); [apply rnd_le; exact L|]. apply rnd_up. exact H.
Qed.

Lemma fin_of_lt : forall x b : f64, number x -> 0 <= val x < Om -> fin x.
Proof. intros x b N H. apply fin_iff_val; [exact N|]. rewrite Rabs_pos_eq; lra. Qed.

Lemma gamm_threshold : forall P a, positive a -> fin a ->
  let t := f64_add P a (f64_mul P (f64_lit 20.0) (f64_add P (f64_sqrt P a) (f64_lit 1.0))) in
  number t /\ val a <= val t
  /\ val t <= (val a + 20 * (R_sqrt.sqrt (val a) + 1)) * (1 + bpow radix2 (-50)).
Proof.
  intros P a [Na Va] Fa. cbn zeta. pose proof u_small as U. set (u := bpow radix2 (-53)) in *.
  assert (E50 : bpow radix2 (-50) = 8 * u).
  { unfold u. replace (-50)%Z with (3 + -53)%Z by lia. rewrite bpow_plus. reflexivity. }
  rewrite E50. lit_facts 20.0%dec 20%Z 0%Z F20 V20.
  destruct (sqrt_spec P a Fa) as [Fs Vs]; [rewrite <- val_fin by exact Fa; lra|].
  rewrite <- (val_fin a) in Vs by exact Fa. rewrite <- val_fin in Vs by exact Fs.
  set (s := f64_sqrt P a) in *. set (q := R_sqrt.sqrt (val a)) in *.
  assert (Q0 : 0 <= q) by apply sqrt_pos.
  assert (S0 : 0 <= val s) by (rewrite Vs; apply rnd_pos; exact Q0).
  assert (S1 : val s + 1 <= (q + 1) * (1 + u)).
  { destruct (Rle_lt_dec (bpow radix2 (-1022)) q) as [C|C].
    - pose proof (rnd_up q C) as R. fold u in R. rewrite Vs. nra.
    - assert (val s <= bpow radix2 (-1022)).
      { rewrite Vs. apply rnd_le_fmt; [apply fmt_bpow; lia|lra]. }
      assert (bpow radix2 (-1022) <= u) by (apply bpow_le; lia). nra. }
  destruct (add_spec P s (f64_lit 1.0) Fs fin_1) as [N1 V1].
  rewrite <- !val_fin in V1 by (exact Fs || exact fin_1). rewrite val_1 in V1.
  set (s1 := f64_add P s (f64_lit 1.0)) in *.
  assert (B1 : val s1 <= (q + 1) * (1 + u) * (1 + u)).
  { apply (rounds_upper s1 (val s + 1)); [split; assumption|lra|exact S1|].
    apply m1022_le. nra. }
  assert (P1 : 1 <= val s1).
  { rewrite V1. apply rs_ge; [apply (fmt_IZR 1); vm_compute; discriminate| |lra].
    pose proof Om_big. lra. }
  assert (Om1 : Om > (q + 1) * 1000).
  { assert (q < bpow radix2 512).
    { unfold q. replace (bpow radix2 512) with (R_sqrt.sqrt (bpow radix2 1024)).
      - apply sqrt_lt_1_alt. split; [lra|]. apply fin_abs_val in Fa. unfold Om in Fa.
        rewrite Rabs_pos_eq in Fa; lra.
      - replace 1024%Z with (2 * 512)%Z by lia. apply sqrt_bpow. }
    unfold Om. replace 1024%Z with (512 + 512)%Z by lia. rewrite bpow_plus.
    assert (2 ^ 10 <= bpow radix2 512).
    { apply Rle_trans with (bpow radix2 10); [|apply bpow_le; lia]. cbn. lra. }
    nra. }
  assert (Fs1 : fin s1).
  { apply (fin_of_lt s1 s1); [exact N1|]. split; [lra|]. nra. }
  destruct (mul_spec P (f64_lit 20.0) s1 F20 Fs1) as [N2 V2].
  rewrite <- !val_fin in V2 by (exact F20 || exact Fs1). rewrite V20 in V2.
  set (m := f64_mul P (f64_lit 20.0) s1) in *.
  assert (B2 : val m <= 20 * ((q + 1) * (1 + u) * (1 + u)) * (1 + u)).
  { apply (rounds_upper m (20 / 1 * val s1)); [split; assumption|lra|lra|].
    apply m1022_le. nra. }
  assert (P2 : 0 <= val m).
  { rewrite V2. apply rs_pos. lra. }
  assert (Fm : fin m).
  { apply (fin_of_lt m m); [exact N2|]. split; [lra|]. nra. }
  destruct (add_spec P a m Fa Fm) as [N3 V3].
  rewrite <- !val_fin in V3 by assumption. set (t := f64_add P a m) in *.
  split; [exact N3|]. split.
  - rewrite V3. apply rs_ge; [apply val_fmt|apply val_bound|lra].
  - apply Rle_trans with ((val a + 20 * ((q + 1) * (1 + u) * (1 + u)) * (1 + u)) * (1 + u)).
    + apply (rounds_upper t (val a + val m)); [split; assumption|lra|lra|].
      apply m1022_le. nra.
    + assert (C : (1 + u) * (1 + u) * (1 + u) * (1 + u) <= 1 + 8 * u) by nra.
      assert (C' : 1 + u <= 1 + 8 * u) by nra.
      assert (0 <= 20 * (q + 1)) by lra.
      apply Rle_trans with (val a * (1 + u) + 20 * (q + 1) * ((1 + u) * (1 + u) * (1 + u) * (1 + u))).
      * right. ring.
      * apply Rle_trans with (val a * (1 + 8 * u) + 20 * (q + 1) * (1 + 8 * u)); [|right; ring].
        apply Rplus_le_compat; apply Rmult_le_compat_l; lra.
Qed.

Lemma gamm_high : forall P a x, positive a -> number x ->
  (val a + 20 * (R_sqrt.sqrt (val a) + 1)) * (1 + bpow radix2 (-50)) < val x ->
  @gammp (ieee P) a x = Ok (f64_lit 1.0) /\ @gammq (ieee P) a x = Ok (f64_lit 0.0).
Proof.
  intros P a x Ha Nx H.
  assert (Q : 0 <= R_sqrt.sqrt (val a)) by apply sqrt_pos.
  pose proof (bpow_gt_0 radix2 (-50)) as B50.
  assert (Va : 0 < val a) by apply Ha.
  assert (L : val a < val x) by nra.
  assert (Fa : fin a).
  { apply (fin_of_lt a a); [apply Ha|]. pose proof (val_bound x). lra. }
  destruct (gamm_threshold P a Ha Fa) as (Nt & Lt & Ut).
  destruct (eps_thr P a Ha) as [Ne Ve].
  unfold gammp, gammq, EPS. ieee_simpl.
  rewrite (proj2 (nonneg_true x)) by (split; [exact Nx|lra]).
  rewrite (proj2 (pos_true a) Ha). cbn [andb].
  replace (f64_eq x (f64_lit 0.0)) with false.
  2:{ symmetry. apply eq_false; [exact Nx|apply nn_0|]. rewrite val_0. lra. }
  replace (f64_lt x (f64_mul P a f64_eps)) with false.
  2:{ symmetry. apply lt_false; [exact Nx|exact Ne|lra]. }
  replace (f64_lt _ x) with true.
  2:{ symmetry. apply lt_true. repeat split; [exact Nt|exact Nx|lra]. }
  split; reflexivity.
Qed.
