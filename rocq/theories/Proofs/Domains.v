(** * Domains, end points and NaN arguments: invgammp, beta.rs, error.rs, projections *)

From Coq Require Import ZArith Reals Bool Lra Lia List.
From Flocq Require Import Core IEEE754.BinarySingleNaN IEEE754.Binary IEEE754.Bits.
From Verif.Model Require Import Base Arith Gamma Beta Error Bessel.
From Verif.Float Require Import Bits64 Ieee Exact.
From Verif.Spec Require Import F64Spec Outcome.
From Verif.Proofs Require Import F64 F64Ops Lits Ext Boundaries UtilsBits.
Open Scope R_scope.

(** ** invgammp *)

Lemma le_real : forall (x : f64) d r, nonnan (f64_lit d) -> val (f64_lit d) = r ->
  (f64_le x (f64_lit d) = true <-> number x /\ val x <= r).
Proof. intros x d r N V. rewrite le_true, V. unfold number. tauto. Qed.
Lemma ge_real : forall (x : f64) d r, nonnan (f64_lit d) -> val (f64_lit d) = r ->
  (f64_le (f64_lit d) x = true <-> number x /\ r <= val x).
Proof. intros x d r N V. rewrite le_true, V. unfold number. tauto. Qed.

Lemma invgammp_zero : forall P p a, positive a -> number p -> val p <= 0 ->
  @invgammp (ieee P) p a = Ok (f64_lit 0.0).
Proof.
  intros P p a Ha Np Vp. unfold invgammp. ieee_simpl. rewrite (proj2 (pos_true a) Ha).
  replace (f64_le (f64_lit 1.0) p) with false.
  2:{ symmetry. apply le_false; [apply nn_1|exact Np|]. rewrite val_1. lra. }
  replace (f64_le p (f64_lit 0.0)) with true.
  2:{ symmetry. apply (le_real p 0.0 0 nn_0 val_0). split; [exact Np|lra]. }
  reflexivity.
Qed.

Lemma invgammp_bad_a : forall P p a, ~ positive a -> panics (@invgammp (ieee P) p a).
Proof.
  intros P p a Ha. unfold invgammp. ieee_simpl. rewrite (proj2 (pos_false a) Ha).
  eexists; reflexivity.
Qed.

Lemma pos_ge_min : forall a : f64, positive a -> bpow radix2 (-1074) <= val a.
Proof.
  intros a [Na Va]. destruct a as [sg|[]|sg pl H|sg m e B].
  - cbn in Va. lra.
  - rewrite val_inf_t in Va. pose proof Om_pos. lra.
  - rewrite val_inf_f. unfold Om. apply bpow_le. lia.
  - discriminate.
  - pose proof (bounded_mant m e B) as (_ & Q & _). destruct sg.
    + exfalso. apply Rlt_not_le in Va. apply Va.
      change (val (B754_finite true m e B)) with (IZR (Z.neg m) * bpow radix2 e).
      assert (IZR (Z.neg m) <= 0) by (apply IZR_le; lia). pose proof (bpow_gt_0 radix2 e). nra.
    + change (val (B754_finite false m e B)) with (IZR (Z.pos m) * bpow radix2 e).
      apply Rle_trans with (1 * bpow radix2 e).
      * rewrite Rmult_1_l. apply bpow_le. lia.
      * apply Rmult_le_compat_r; [apply bpow_ge_0|]. apply IZR_le. lia.
Qed.

(** relative error of an expression that is not too small *)
Lemma rounds_close : forall z r, rounds z r -> bpow radix2 (-1022) <= r ->
  r * (1 + bpow radix2 (-53)) < Om ->
  fin z /\ r * (1 - bpow radix2 (-53)) <= val z <= r * (1 + bpow radix2 (-53)).
Proof.
  intros z r R H L. pose proof (bpow_gt_0 radix2 (-1022)). pose proof (rnd_up r H) as U.
  assert (0 <= rnd r) by (apply rnd_pos; lra).
  destruct (rounds_small z r R) as [F V]; [rewrite Rabs_pos_eq by assumption; lra|].
  split; [exact F|]. rewrite val_fin, V by exact F. exact U.
Qed.

Lemma Rmax_close : forall c t r e, 0 <= e -> 0 < c -> 0 < r -> r * (1 - e) <= t <= r * (1 + e) ->
  Rabs (Rmax c t - Rmax c r) <= e * Rmax c r.
Proof.
  intros c t r e He Hc Hr [T1 T2].
  unfold Rmax. destruct (Rle_dec c t), (Rle_dec c r); apply Rabs_le; nra.
Qed.

Lemma invgammp_one : forall P p a, positive a -> val a <= bpow radix2 1023 ->
  number p -> 1 <= val p ->
  exists r, @invgammp (ieee P) p a = Ok r /\ finite r
  /\ Rabs (val r - Rmax 100 (val a + 100 * R_sqrt.sqrt (val a)))
     <= bpow radix2 (-50) * Rmax 100 (val a + 100 * R_sqrt.sqrt (val a)).
Proof.
  intros P p a [Na Va] Ba Np Vp.
  unfold invgammp. ieee_simpl. rewrite (proj2 (pos_true a)) by (split; assumption).
  replace (f64_le (f64_lit 1.0) p) with true.
  2:{ symmetry. apply (ge_real p 1.0 1 nn_1 val_1). split; [exact Np|lra]. }
  eexists. split; [reflexivity|].
  pose proof u_small as U. set (u := bpow radix2 (-53)) in *.
  assert (E50 : bpow radix2 (-50) = 8 * u).
  { unfold u. replace (-50)%Z with (3 + -53)%Z by lia. rewrite bpow_plus. reflexivity. }
  rewrite E50. lit_facts 100.0%dec 100%Z 0%Z F100 V100.
  assert (HOm : Om = 2 * bpow radix2 1023).
  { unfold Om. replace 1024%Z with (1 + 1023)%Z by lia. rewrite bpow_plus. reflexivity. }
  assert (Big : bpow radix2 512 * 1000000 < bpow radix2 1023 / 1000).
  { replace 1023%Z with (512 + 511)%Z by lia. rewrite bpow_plus.
    assert (1000000000 * 2 < bpow radix2 511).
    { apply Rlt_le_trans with (bpow radix2 40); [cbn; lra|apply bpow_le; lia]. }
    pose proof (bpow_gt_0 radix2 512). nra. }
  assert (Fa : fin a).
  { apply (fin_of_lt a a); [exact Na|]. pose proof (bpow_gt_0 radix2 1023). lra. }
  destruct (sqrt_spec P a Fa) as [Fs Vs]; [rewrite <- val_fin by exact Fa; lra|].
  rewrite <- (val_fin a) in Vs by exact Fa. rewrite <- val_fin in Vs by exact Fs.
  set (s := f64_sqrt P a) in *. set (q := R_sqrt.sqrt (val a)) in *.
  assert (Q512 : q <= bpow radix2 512).
  { unfold q. replace (bpow radix2 512) with (R_sqrt.sqrt (bpow radix2 1024)).
    - apply sqrt_le_1_alt. unfold Om in HOm. pose proof (bpow_gt_0 radix2 1023). lra.
    - replace 1024%Z with (2 * 512)%Z by lia. apply sqrt_bpow. }
  (* a >= 2^-1074, so its root is at least 2^-537 *)
  assert (A0 : bpow radix2 (-1074) <= val a).
  { apply pos_ge_min. split; assumption. }
  assert (Q0 : bpow radix2 (-537) <= q).
  { unfold q. replace (bpow radix2 (-537)) with (R_sqrt.sqrt (bpow radix2 (-1074))).
    - apply sqrt_le_1_alt. exact A0.
    - replace (-1074)%Z with (2 * -537)%Z by lia. apply sqrt_bpow. }
  assert (L537 : bpow radix2 (-1022) <= bpow radix2 (-537)) by (apply bpow_le; lia).
  pose proof (bpow_gt_0 radix2 (-1022)) as P1022.
  assert (Cs : q * (1 - u) <= val s <= q * (1 + u)).
  { rewrite Vs. apply rnd_up. lra. }
  assert (Rm : rounds (f64_mul P (f64_lit 100.0) s) (100 * val s)).
  { pose proof (mul_spec P (f64_lit 100.0) s F100 Fs) as M.
    rewrite <- !val_fin in M by assumption. rewrite V100 in M.
    replace (100 / 1 * val s) with (100 * val s) in M by field. exact M. }
  destruct (rounds_close _ _ Rm) as [Fm Cm]; [nra|fold u; nra|]. fold u in Cm.
  set (m := f64_mul P (f64_lit 100.0) s) in *.
  pose proof (add_spec P a m Fa Fm) as Rt. rewrite <- !val_fin in Rt by assumption.
  assert (Vm0 : 0 < val m) by nra.
  assert (Vm1 : val m < bpow radix2 1023 / 1000) by nra.
  pose proof (bpow_gt_0 radix2 1023) as P1023.
  destruct (rounds_close _ _ Rt) as [Ft Ct]; [|fold u; rewrite HOm; nra|].
  { apply Rle_trans with (val m); [|lra]. nra. }
  fold u in Ct. set (t := f64_add P a m) in *.
  assert (T : (val a + 100 * q) * (1 - 8 * u) <= val t <= (val a + 100 * q) * (1 + 8 * u)).
  { split.
    - apply Rle_trans with ((val a + val m) * (1 - u)); [|apply Ct].
      assert (100 * (q * (1 - u)) * (1 - u) <= val m) by nra.
      apply Rle_trans with ((val a + 100 * (q * (1 - u)) * (1 - u)) * (1 - u)); [|nra].
      assert (1 - 8 * u <= (1 - u) * (1 - u) * (1 - u)) by nra.
      assert (1 - 8 * u <= 1 - u) by nra.
      replace ((val a + 100 * (q * (1 - u)) * (1 - u)) * (1 - u))
        with (val a * (1 - u) + 100 * q * ((1 - u) * (1 - u) * (1 - u))) by ring.
      rewrite (Rmult_plus_distr_r (val a) (100 * q)).
      apply Rplus_le_compat; apply Rmult_le_compat_l; nra.
    - apply Rle_trans with ((val a + val m) * (1 + u)); [apply Ct|].
      assert (val m <= 100 * (q * (1 + u)) * (1 + u)) by nra.
      apply Rle_trans with ((val a + 100 * (q * (1 + u)) * (1 + u)) * (1 + u)); [nra|].
      assert ((1 + u) * (1 + u) * (1 + u) <= 1 + 8 * u) by nra.
      replace ((val a + 100 * (q * (1 + u)) * (1 + u)) * (1 + u))
        with (val a * (1 + u) + 100 * q * ((1 + u) * (1 + u) * (1 + u))) by ring.
      rewrite (Rmult_plus_distr_r (val a) (100 * q)).
      apply Rplus_le_compat; apply Rmult_le_compat_l; nra. }
  destruct (max_val P (f64_lit 100.0) t (fin_nonnan _ F100) (fin_nonnan _ Ft)) as [Nx Vx].
  rewrite V100 in Vx. replace (100 / 1) with 100 in Vx by field.
  assert (Vt1 : val t < Om) by (rewrite HOm; nra).
  split.
  - apply (fin_of_lt (f64_max P (f64_lit 100.0) t) t Nx). rewrite Vx. split.
    + apply Rle_trans with 100; [lra|apply Rmax_l].
    + apply Rmax_lub_lt; [pose proof Om_big; lra|exact Vt1].
  - rewrite Vx. assert (0 < val a + 100 * q) by nra.
    apply Rmax_close; lra.
Qed.

(** NaN probability: the second iteration at the latest calls [gammp] with NaN *)
Lemma invgammp_nan_step : forall P p a gln a1 lna1 afac j x, Binary.is_nan p = true -> positive a ->
  nonneg x -> 0 < val x ->
  exists y, @invgammp_body (ieee P) p a gln a1 lna1 afac j x = Ok (Next y) /\ Binary.is_nan y = true.
Proof.
  intros P p a gln a1 lna1 afac j x Np Ha Hx Vx. unfold invgammp_body. ieee_simpl.
  replace (f64_le x (f64_lit 0.0)) with false.
  2:{ symmetry. apply le_false; [apply Hx|apply nn_0|]. rewrite val_0. exact Vx. }
  destruct (gammp_returns P a x Hx Ha) as [g E]. ieee_simpl_in E. rewrite E. cbn [bind].
  set (u := f64_div P (f64_sub P g p) _).
  assert (Nu : Binary.is_nan u = true) by (unfold u; auto with nan).
  set (t := f64_div P u _). assert (Nt : Binary.is_nan t = true) by (unfold t; auto with nan).
  assert (Nx : Binary.is_nan (f64_sub P x t) = true) by auto with nan.
  rewrite (le_nan_l (f64_sub P x t)) by exact Nx.
  rewrite (lt_nan_l (f64_abs t)) by auto with nan.
  eexists. split; [reflexivity|exact Nx].
Qed.

Lemma invgammp_nan_x : forall P p a gln a1 lna1 afac j x, Binary.is_nan x = true ->
  panics (@invgammp_body (ieee P) p a gln a1 lna1 afac j x).
Proof.
  intros P p a gln a1 lna1 afac j x Nx. unfold invgammp_body. ieee_simpl.
  rewrite (le_nan_l x) by exact Nx.
  destruct (gammp_panics P a x) as [q E].
  { intros [[H _] _]. unfold number in H. congruence. }
  ieee_simpl_in E. rewrite E. eexists; reflexivity.
Qed.

Lemma nn_001 : Binary.is_nan (f64_lit 0.001) = false.
Proof. vm_compute. reflexivity. Qed.

Lemma max_nan_r : forall P x y, nonnan x -> Binary.is_nan y = true -> f64_max P x y = x.
Proof. intros P x y Nx Ny. unfold f64_max, f64_is_nan. rewrite Nx, Ny. reflexivity. Qed.

Lemma pos_001 : positive (f64_lit 0.001).
Proof. apply pos_true. vm_compute. reflexivity. Qed.

Lemma invgammp_guess_nan : forall P p a gln a1 lna1, Binary.is_nan p = true ->
  let x := fst (@invgammp_guess (ieee P) p a gln a1 lna1) in
  Binary.is_nan x = true \/ (nonneg x /\ 0 < val x).
Proof.
  intros P p a gln a1 lna1 Np. cbn zeta. unfold invgammp_guess. ieee_simpl.
  rewrite (lt_nan_l p (f64_lit 0.5) Np). rewrite (lt_nan_l p _ Np).
  destruct (f64_lt (f64_lit 1.0) a); cbn [fst].
  - right. rewrite max_nan_r.
    + pose proof pos_001 as [C1 C2]. repeat split; auto; lra.
    + exact nn_001.
    + unfold powi3. ieee_simpl. set (t := f64_sqrt P (f64_mul P _ _)).
      assert (Nt : Binary.is_nan t = true) by (unfold t; auto 10 with nan).
      apply mul_nan_r, mul_nan_l, sub_nan_r, div_nan_l, sub_nan_r, Nt.
  - left. apply sub_nan_r, libm_nan, sub_nan_r, div_nan_l, sub_nan_l, Np.
Qed.

Lemma invgammp_loop_nan : forall P p a gln a1 lna1 afac x, Binary.is_nan p = true -> positive a ->
  Binary.is_nan x = true \/ (nonneg x /\ 0 < val x) ->
  panics (for_loop (range 0 12) (@invgammp_body (ieee P) p a gln a1 lna1 afac) x).
Proof.
  intros P p a gln a1 lna1 afac x Np Ha Hx.
  change (range 0 12) with (0 :: 1 :: range 2 12)%Z. cbn [for_loop].
  destruct Hx as [Hx|[Hx Vx]].
  - destruct (invgammp_nan_x P p a gln a1 lna1 afac 0 x Hx) as [q E]. rewrite E. eexists; reflexivity.
  - destruct (invgammp_nan_step P p a gln a1 lna1 afac 0 x Np Ha Hx Vx) as (y & E & Ny). rewrite E.
    destruct (invgammp_nan_x P p a gln a1 lna1 afac 1 y Ny) as [q E']. rewrite E'. eexists; reflexivity.
Qed.

Lemma invgammp_nan : forall P p a, is_NaN p -> positive a -> panics (@invgammp (ieee P) p a).
Proof.
  intros P p a Np Ha. unfold is_NaN in Np. unfold invgammp.
  change (@lt (ieee P)) with f64_lt. change (@le (ieee P)) with f64_le.
  change (@lit (ieee P)) with f64_lit.
  rewrite (proj2 (pos_true a) Ha), (le_nan_r _ p Np), (le_nan_l p _ Np).
  set (gln := @ln_gamma (ieee P) a). set (a1 := @sub (ieee P) a _). set (lna1 := @ln (ieee P) a1).
  pose proof (invgammp_guess_nan P p a gln a1 lna1 Np) as Hx.
  destruct (@invgammp_guess (ieee P) p a gln a1 lna1) as [x afac]. cbn [fst] in Hx.
  destruct (invgammp_loop_nan P p a gln a1 lna1 afac x Np Ha Hx) as [q E].
  rewrite E. eexists; reflexivity.
Qed.

(** ** beta *)

Lemma beta_domain : forall P z w,
  (panics (@beta (ieee P) z w) <-> ~ (positive z /\ positive w))
  /\ (returns (@beta (ieee P) z w) <-> (positive z /\ positive w)).
Proof.
  intros P z w. unfold beta. ieee_simpl.
  destruct (positive_dec z) as [Hz|Hz].
  - rewrite (proj2 (pos_true z) Hz). destruct (positive_dec w) as [Hw|Hw].
    + rewrite (proj2 (pos_true w) Hw). cbn [andb].
      match goal with |- (panics ?m <-> _) /\ _ =>
        assert (R : returns m) by apply ret_ok; pose proof (not_panic_returns _ R) end. tauto.
    + rewrite (proj2 (pos_false w) Hw). cbn [andb].
      split; split; try tauto; try (intros [r E]; discriminate); try (intros; eexists; reflexivity).
  - rewrite (proj2 (pos_false z) Hz). cbn [andb].
    split; split; try tauto; try (intros [r E]; discriminate); try (intros; eexists; reflexivity).
Qed.

Lemma beta_comm : forall P z w, positive z -> positive w ->
  exists r r', @beta (ieee P) z w = Ok r /\ @beta (ieee P) w z = Ok r' /\ r ~= r'.
Proof.
  intros P z w Hz Hw. unfold beta. ieee_simpl.
  rewrite (proj2 (pos_true z) Hz), (proj2 (pos_true w) Hw). cbn [andb].
  do 2 eexists. repeat split.
  assert (E : f64_add P z w = f64_add P w z).
  { apply eqn_nonnan; [apply add_comm|].
    destruct (add_nonneg P z w) as [[N _] _]; [split; [apply Hz|destruct Hz; lra]
      |split; [apply Hw|destruct Hw; lra]|]. exact N. }
  rewrite E. apply libm_eqn, sub_eqn; [apply add_comm|reflexivity].
Qed.

Lemma beta_nonneg : forall P z w r, never_negative (p_exp P) ->
  @beta (ieee P) z w = Ok r -> is_NaN r \/ 0 <= val r.
Proof.
  intros P z w r H. unfold beta. ieee_simpl.
  destruct (_ && _)%bool; [|discriminate]. intros E. apply ok_inj in E. subst r.
  match goal with |- context [libm P _ ?y] => set (y0 := y) end.
  destruct (Binary.is_nan y0) eqn:N.
  - left. apply libm_nan. exact N.
  - rewrite libm_nonnan by exact N. apply H. exact N.
Qed.

(** ** betai, invbetai *)

Lemma betai_domain : forall P a b x,
  (panics (@betai (ieee P) a b x) <-> ~ (positive a /\ positive b /\ between 0 1 x))
  /\ (returns (@betai (ieee P) a b x) <-> (positive a /\ positive b /\ between 0 1 x)).
Proof.
  intros P a b x.
  assert (B : (f64_le (f64_lit 0.0) x && f64_le x (f64_lit 1.0))%bool = true <-> between 0 1 x).
  { rewrite andb_true_iff, nonneg_true, (le_real x 1.0 1 nn_1 val_1).
    unfold nonneg, between. tauto. }
  assert (D : (f64_lt (f64_lit 0.0) a && f64_lt (f64_lit 0.0) b)%bool = true <-> positive a /\ positive b).
  { rewrite andb_true_iff, !pos_true. tauto. }
  unfold betai. ieee_simpl.
  destruct (f64_lt (f64_lit 0.0) a && f64_lt (f64_lit 0.0) b)%bool.
  - destruct (f64_le (f64_lit 0.0) x && f64_le x (f64_lit 1.0))%bool.
    + match goal with |- (panics ?m <-> _) /\ _ =>
        assert (R : returns m) by auto 10 with ret; pose proof (not_panic_returns _ R) end.
      assert (positive a /\ positive b) by tauto. assert (between 0 1 x) by tauto. tauto.
    + assert (~ between 0 1 x) by (intros Q; apply B in Q; discriminate).
      split; split; try tauto; try (intros [r E]; discriminate); try (intros; eexists; reflexivity).
  - assert (~ (positive a /\ positive b)) by (intros Q; apply D in Q; discriminate).
    split; split; try tauto; try (intros [r E]; discriminate); try (intros; eexists; reflexivity).
Qed.

Lemma betai_ends : forall P a b x, positive a -> positive b -> number x ->
  val x = 0 \/ val x = 1 -> @betai (ieee P) a b x = Ok x.
Proof.
  intros P a b x Ha Hb Nx V. unfold betai. ieee_simpl.
  rewrite (proj2 (pos_true a) Ha), (proj2 (pos_true b) Hb).
  rewrite (proj2 (nonneg_true x)) by (split; [exact Nx|lra]).
  rewrite (proj2 (le_real x 1.0 1 nn_1 val_1)) by (split; [exact Nx|lra]). cbn [andb].
  replace (f64_eq x (f64_lit 0.0) || f64_eq x (f64_lit 1.0))%bool with true; [reflexivity|].
  symmetry. apply orb_true_iff. rewrite !eq_true, val_0, val_1.
  pose proof nn_0. pose proof nn_1. unfold number in Nx. tauto.
Qed.

Lemma invbetai_ends : forall P p a b, number p ->
  (val p <= 0 -> @invbetai (ieee P) p a b = Ok (f64_lit 0.0))
  /\ (1 <= val p -> @invbetai (ieee P) p a b = Ok (f64_lit 1.0)).
Proof.
  intros P p a b Np. unfold invbetai. ieee_simpl. split; intros V.
  - rewrite (proj2 (le_real p 0.0 0 nn_0 val_0)) by (split; assumption). reflexivity.
  - replace (f64_le p (f64_lit 0.0)) with false.
    2:{ symmetry. apply le_false; [exact Np|apply nn_0|]. rewrite val_0. lra. }
    rewrite (proj2 (ge_real p 1.0 1 nn_1 val_1)) by (split; assumption). reflexivity.
Qed.

(** ** erf, erfc, inverfc, inverf *)

Lemma erfccheb_ok : forall P z, nonneg z -> returns (@erfccheb (ieee P) z).
Proof.
  intros P z Hz. unfold erfccheb. ieee_simpl. rewrite (proj2 (nonneg_true z) Hz).
  destruct (erfccheb_clenshaw _) as [d dd]. apply ret_ok.
Qed.

Lemma erfccheb_bad : forall P z, ~ nonneg z -> panics (@erfccheb (ieee P) z).
Proof.
  intros P z Hz. unfold erfccheb. ieee_simpl. rewrite (proj2 (nonneg_false z) Hz).
  eexists; reflexivity.
Qed.

Lemma erf_branch : forall x, number x ->
  { nonneg x /\ f64_le (f64_lit 0.0) x = true } + { nonneg (f64_neg x) /\ f64_le (f64_lit 0.0) x = false }.
Proof.
  intros x N. destruct (f64_le (f64_lit 0.0) x) eqn:E; [left|right]; split; auto.
  - apply nonneg_true. exact E.
  - split; [unfold number; rewrite nan_neg; exact N|]. rewrite val_neg.
    apply le_false in E; [|apply nn_0|exact N]. rewrite val_0 in E. lra.
Qed.

Lemma erf_domain : forall P x, (returns (@erf (ieee P) x) <-> number x)
  /\ (panics (@erf (ieee P) x) <-> is_NaN x).
Proof.
  intros P x. unfold number, is_NaN. destruct (Binary.is_nan x) eqn:N.
  - assert (Q : panics (@erf (ieee P) x)).
    { unfold erf. ieee_simpl. rewrite (le_nan_r _ x N).
      destruct (erfccheb_bad P (f64_neg x)) as [q E].
      { intros [H _]. unfold number in H. rewrite nan_neg in H. congruence. }
      ieee_simpl_in E. rewrite E. eexists; reflexivity. }
    split; split; auto; try discriminate. intros R. destruct (not_panic_returns _ R Q).
  - assert (Q : returns (@erf (ieee P) x)).
    { unfold erf. ieee_simpl. destruct (erf_branch x N) as [[H ->]|[H ->]];
        destruct (erfccheb_ok P _ H) as [e E]; ieee_simpl_in E; rewrite E; eexists; reflexivity. }
    split; split; auto; try discriminate. intros R. destruct (not_panic_returns _ Q R).
Qed.

Lemma erfc_domain : forall P x, (returns (@erfc (ieee P) x) <-> number x)
  /\ (panics (@erfc (ieee P) x) <-> is_NaN x).
Proof.
  intros P x. unfold number, is_NaN. destruct (Binary.is_nan x) eqn:N.
  - assert (Q : panics (@erfc (ieee P) x)).
    { unfold erfc. ieee_simpl. rewrite (le_nan_r _ x N).
      destruct (erfccheb_bad P (f64_neg x)) as [q E].
      { intros [H _]. unfold number in H. rewrite nan_neg in H. congruence. }
      ieee_simpl_in E. rewrite E. eexists; reflexivity. }
    split; split; auto; try discriminate. intros R. destruct (not_panic_returns _ R Q).
  - assert (Q : returns (@erfc (ieee P) x)).
    { unfold erfc. ieee_simpl. destruct (erf_branch x N) as [[H ->]|[H ->]];
        destruct (erfccheb_ok P _ H) as [e E]; ieee_simpl_in E; rewrite E; eexists; reflexivity. }
    split; split; auto; try discriminate. intros R. destruct (not_panic_returns _ Q R).
Qed.

Lemma inverfc_nan : forall P p, is_NaN p -> panics (@inverfc (ieee P) p).
Proof.
  intros P p Np. unfold is_NaN in Np. unfold inverfc. ieee_simpl.
  rewrite (le_nan_r _ p Np), (le_nan_l p _ Np), (lt_nan_l p _ Np).
  match goal with |- context [inverfc_step ?pp ?x] => set (x0 := x); set (pp0 := pp) end.
  assert (Nx : Binary.is_nan x0 = true).
  { unfold x0. apply mul_nan_r, sub_nan_r, sqrt_nan, mul_nan_r, libm_nan, div_nan_l, sub_nan_r, Np. }
  assert (Q : panics (@inverfc_step (ieee P) pp0 x0)).
  { unfold inverfc_step. destruct (proj2 (proj2 (erfc_domain P x0)) Nx) as [q E].
    ieee_simpl. ieee_simpl_in E. rewrite E. eexists; reflexivity. }
  destruct Q as [q E]. ieee_simpl_in E. rewrite E. eexists; reflexivity.
Qed.

Lemma inverf_nan : forall P p, is_NaN p -> panics (@inverf (ieee P) p).
Proof. intros P p Np. unfold inverf. apply inverfc_nan. ieee_simpl. apply sub_nan_r, Np. Qed.

