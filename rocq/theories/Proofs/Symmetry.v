(** * Parity and reflection: erf, erfc, inverfc, dawson *)

From Coq Require Import ZArith Reals Bool Lra Lia List.
From Flocq Require Import Core IEEE754.BinarySingleNaN IEEE754.Binary IEEE754.Bits.
From Flocq Require Import Sterbenz Plus_error.
From Verif.Model Require Import Base Arith Utils Error Dawson.
From Verif.Float Require Import Bits64 Ieee Exact.
From Verif.Spec Require Import F64Spec Outcome.
From Verif.Proofs Require Import F64 F64Ops Lits Ext Boundaries Domains.
Open Scope R_scope.

(** ** erf and erfc *)

Lemma ge0_pos : forall x, positive x -> f64_le (f64_lit 0.0) x = true.
Proof. intros x [N V]. apply nonneg_true. split; [exact N|lra]. Qed.

Lemma ge0_neg_pos : forall x, positive x -> f64_le (f64_lit 0.0) (f64_neg x) = false.
Proof.
  intros x [N V]. apply nonneg_false. intros [_ H]. rewrite val_neg in H. lra.
Qed.

Lemma erf_erfc_pos : forall P x, positive x -> exists e,
  @erfc (ieee P) x = Ok e
  /\ @erfc (ieee P) (f64_neg x) = Ok (f64_sub P (f64_lit 2.0) e)
  /\ @erf (ieee P) x = Ok (f64_sub P (f64_lit 1.0) e)
  /\ @erf (ieee P) (f64_neg x) = Ok (f64_sub P e (f64_lit 1.0)).
Proof.
  intros P x Hx. unfold erf, erfc. ieee_simpl.
  rewrite (ge0_pos x Hx), (ge0_neg_pos x Hx), neg_neg.
  destruct (erfccheb_ok P x) as [e E]; [split; [apply Hx|destruct Hx; lra]|].
  ieee_simpl_in E. exists e. rewrite E. repeat split.
Qed.

Lemma erf_odd_pos : forall P x, positive x -> exists r r',
  @erf (ieee P) x = Ok r /\ @erf (ieee P) (f64_neg x) = Ok r'
  /\ (r' ~= f64_neg r \/ (r = f64_zero /\ r' = f64_zero)).
Proof.
  intros P x Hx. destruct (erf_erfc_pos P x Hx) as (e & _ & _ & E1 & E2).
  do 2 eexists. split; [exact E1|]. split; [exact E2|].
  set (r := f64_sub P (f64_lit 1.0) e).
  destruct (Binary.is_nan r) eqn:N.
  - left. right. split; [|rewrite nan_neg; exact N].
    destruct (Binary.is_nan e) eqn:Ne; [apply sub_nan_l; exact Ne|].
    exfalso. assert (number r) by (apply sub_fin_num; [apply fin_1|exact Ne]).
    unfold number in *. congruence.
  - assert (D : val r <> 0 \/ val r = 0) by lra. destruct D as [D|D].
    + left. left. apply sub_swap; assumption.
    + right.
      destruct (Binary.is_nan e) eqn:Ne.
      { unfold r in N. rewrite sub_nan_r in N by exact Ne. discriminate. }
      destruct (fin_or_inf e Ne) as [Fe|[s ->]].
      * destruct (sub_spec P (f64_lit 1.0) e fin_1 Fe) as [_ V]. fold r in V.
        rewrite <- !val_fin in V by (exact fin_1 || exact Fe). rewrite val_1 in V.
        rewrite D in V.
        (* 1 - e = 0 since the difference of two numbers rounds to 0 only if it is 0 *)
        assert (Z : 1 - val e = 0).
        { destruct (Req_dec (1 - val e) 0) as [Z|Z]; [exact Z|exfalso].
          assert (R0 : rnd (1 - val e) = 0).
          { unfold rs in V. pose proof Om_pos. unfold Rmax, Rmin in V.
            destruct (Rle_dec Om (rnd (1 - val e))), Rle_dec in V; lra. }
          revert R0. unfold rnd. intros R0.
          pose proof (round_plus_neq_0 radix2 (SpecFloat.fexp 53 1024) ZnearestE) as Q.
          specialize (Q 1 (- val e)). apply Q; [apply (fmt_IZR 1); vm_compute; discriminate
            |apply fmt_opp, val_fmt|exact Z|exact R0]. }
        assert (E : e = f64_lit 1.0).
        { apply f64_ext_nz; [exact Ne|apply nn_1|rewrite val_1; lra|lra]. }
        subst e. unfold r. assert (E0 : f64_sub P (f64_lit 1.0) (f64_lit 1.0) = f64_zero).
        { apply f64_ext; [exact N|reflexivity|exact D|].
          rewrite sub_sign by apply fin_1.
          replace (Binary.B2R (f64_lit 1.0) - Binary.B2R (f64_lit 1.0)) with 0 by ring.
          rewrite Rcompare_Eq by reflexivity.
          rewrite (sign_pos (f64_lit 1.0)); [reflexivity|apply nn_1|rewrite val_1; lra]. }
        split; exact E0.
      * exfalso. pose proof Om_pos. unfold r in D.
        replace (f64_sub P (f64_lit 1.0) (B754_infinity s)) with (B754_infinity (negb s) : f64) in D.
        -- destruct s; cbn in D; lra.
        -- pose proof fin_1 as F1. destruct (f64_lit 1.0); try discriminate; destruct s; reflexivity.
Qed.

(** ** bounds *)

Lemma erfccheb_nonneg : forall P z e, never_negative (p_exp P) ->
  @erfccheb (ieee P) z = Ok e -> is_NaN e \/ nonneg e.
Proof.
  intros P z e H. unfold erfccheb. ieee_simpl.
  destruct (f64_le (f64_lit 0.0) z) eqn:Z; [|discriminate].
  apply nonneg_true in Z. destruct (erfccheb_clenshaw _) as [d dd]. intros E.
  apply ok_inj in E. subst e.
  destruct (add_nonneg P (f64_lit 2.0) z) as (A1 & A2 & A3).
  { split; [apply nn_2|rewrite val_2; lra]. } { exact Z. }
  rewrite val_2 in A2.
  assert (T : nonneg (f64_div P (f64_lit 2.0) (f64_add P (f64_lit 2.0) z))).
  { apply div_fin_nonneg; [split; [apply nn_2|rewrite val_2; lra]|apply fin_2|].
    split; [apply A1|lra]. }
  match goal with |- context [libm P _ ?y] => set (y0 := y) end.
  destruct (Binary.is_nan y0) eqn:N.
  - left. apply mul_nan_r, libm_nan, N.
  - rewrite libm_nonnan by exact N. destruct (H y0 N) as [Q|Q].
    + left. apply mul_nan_r, Q.
    + destruct (Binary.is_nan (p_exp P y0)) eqn:Nn; [left; apply mul_nan_r, Nn|].
      apply mul_nonneg; [exact T|split; assumption].
Qed.

Lemma erf_bounds : forall P x, never_negative (p_exp P) -> number x ->
  exists c e, @erfc (ieee P) x = Ok c /\ @erf (ieee P) x = Ok e
  /\ (0 <= val x -> (is_NaN c \/ 0 <= val c) /\ (is_NaN e \/ val e <= 1))
  /\ (val x < 0 -> (is_NaN c \/ val c <= 2) /\ (is_NaN e \/ -1 <= val e)).
Proof.
  intros P x H N. unfold erf, erfc. ieee_simpl.
  destruct (erf_branch x N) as [[B ->]|[B Q]].
  - destruct (erfccheb_ok P x B) as [e E]. ieee_simpl_in E. rewrite E.
    pose proof (erfccheb_nonneg P x e H E) as C.
    do 2 eexists. repeat split; try (destruct B; lra).
    + destruct C as [C|[_ C]]; auto.
    + destruct C as [C|C]; [left; apply sub_nan_r, C|].
      destruct (Binary.is_nan (f64_sub P (f64_lit 1.0) e)) eqn:Nn; [left; exact Nn|right].
      rewrite <- val_1. apply sub_le; assumption.
  - rewrite Q. destruct (erfccheb_ok P (f64_neg x) B) as [e E]. ieee_simpl_in E. rewrite E.
    pose proof (erfccheb_nonneg P _ e H E) as C.
    assert (VX : val x < 0).
    { apply le_false in Q; [|apply nn_0|exact N]. rewrite val_0 in Q. exact Q. }
    do 2 eexists. repeat split; try lra.
    + destruct C as [C|C]; [left; apply sub_nan_r, C|].
      destruct (Binary.is_nan (f64_sub P (f64_lit 2.0) e)) eqn:Nn; [left; exact Nn|right].
      rewrite <- val_2. apply sub_le; assumption.
    + destruct C as [C|C]; [left; apply sub_nan_l, C|].
      destruct (Binary.is_nan (f64_sub P e (f64_lit 1.0))) eqn:Nn; [left; exact Nn|right].
      apply Rle_trans with (val (f64_sub P (f64_lit 0.0) (f64_lit 1.0))).
      * destruct (sub_spec P (f64_lit 0.0) (f64_lit 1.0) eq_refl fin_1) as [_ V]. rewrite V.
        rewrite <- !val_fin by (apply fin_1 || reflexivity). rewrite val_0, val_1.
        replace (0 - 1) with (-1) by ring. right. symmetry. apply rs_fmt.
        -- apply (fmt_IZR (-1)). vm_compute. discriminate.
        -- rewrite <- abs_IZR. pose proof Om_big. cbn. lra.
      * apply sub_mono_l; [apply fin_1|reflexivity|apply C|]. rewrite val_0. apply C.
Qed.

(** ** inverfc *)

Lemma inverfc_ends : forall P p, number p ->
  (2 <= val p -> @inverfc (ieee P) p = Ok (f64_neg (f64_lit 100.0)))
  /\ (val p <= 0 -> @inverfc (ieee P) p = Ok (f64_lit 100.0)).
Proof.
  intros P p N. unfold inverfc. ieee_simpl. split; intros V.
  - rewrite (proj2 (ge_real p 2.0 2 nn_2 val_2)) by (split; assumption). reflexivity.
  - replace (f64_le (f64_lit 2.0) p) with false.
    2:{ symmetry. apply le_false; [apply nn_2|exact N|]. rewrite val_2. lra. }
    rewrite (proj2 (le_real p 0.0 0 nn_0 val_0)) by (split; assumption). reflexivity.
Qed.

Lemma two_minus : forall P p, number p -> 1 < val p < 2 ->
  number (f64_sub P (f64_lit 2.0) p) /\ val (f64_sub P (f64_lit 2.0) p) = 2 - val p.
Proof.
  intros P p N V. assert (Fp : fin p).
  { apply (fin_of_lt p p N). pose proof Om_big. lra. }
  destruct (sub_spec P (f64_lit 2.0) p fin_2 Fp) as [Nn W]. split; [exact Nn|].
  rewrite W. rewrite <- !val_fin by (apply fin_2 || exact Fp). rewrite val_2.
  apply rs_fmt.
  - apply sterbenz; [apply fexp64_valid|apply fexp64_mono| |apply val_fmt|lra].
    rewrite <- val_2. apply val_fmt.
  - rewrite Rabs_pos_eq by lra. pose proof Om_big. lra.
Qed.

Lemma inverfc_antisym : forall P p, number p -> 1 < val p < 2 ->
  @inverfc (ieee P) p
  = match @inverfc (ieee P) (f64_sub P (f64_lit 2.0) p) with
    | Ok x => Ok (f64_neg x)
    | o => o
    end.
Proof.
  intros P p N V. destruct (two_minus P p N V) as [Nq Vq].
  set (q := f64_sub P (f64_lit 2.0) p) in *.
  unfold inverfc. ieee_simpl. fold q.
  assert (C : forall z, number z -> 0 < val z < 2 ->
    f64_le (f64_lit 2.0) z = false /\ f64_le z (f64_lit 0.0) = false).
  { intros z Nz Vz. split; (apply le_false; [first [apply nn_2|exact Nz]|first [exact Nz|apply nn_0]|]).
    - rewrite val_2. lra.
    - rewrite val_0. lra. }
  destruct (C p N) as [-> ->]; [lra|]. destruct (C q Nq) as [-> ->]; [lra|].
  replace (f64_lt p (f64_lit 1.0)) with false.
  2:{ symmetry. apply lt_false; [exact N|apply nn_1|]. rewrite val_1. lra. }
  replace (f64_lt q (f64_lit 1.0)) with true.
  2:{ symmetry. apply lt_true. split; [exact Nq|split; [apply nn_1|]]. rewrite val_1. lra. }
  match goal with |- context [inverfc_step q ?x] => set (x0 := x) end.
  destruct (@inverfc_step (ieee P) q x0) as [x1| |]; cbn [bind]; auto.
  destruct (@inverfc_step (ieee P) q x1) as [x2| |]; cbn [bind]; auto.
Qed.

Lemma inverf_def : forall P p, @inverf (ieee P) p = @inverfc (ieee P) (f64_sub P (f64_lit 1.0) p).
Proof. reflexivity. Qed.

(** ** dawson *)

Lemma neg_neg_eqn : forall x, f64_neg (f64_neg x) ~= x.
Proof. intros x. rewrite neg_neg. reflexivity. Qed.

Lemma mul_neg_neg : forall P x y, f64_mul P (f64_neg x) (f64_neg y) ~= f64_mul P x y.
Proof.
  intros P x y. rewrite mul_neg_l. rewrite (mul_neg_r P x y). rewrite neg_neg. reflexivity.
Qed.

Lemma dawson_series_neg : forall P x,
  @dawson_series (ieee P) (f64_neg x) ~= f64_neg (@dawson_series (ieee P) x).
Proof.
  intros P x. unfold dawson_series. ieee_simpl.
  rewrite mul_neg_l. apply neg_eqn. rewrite (mul_neg_neg P x x). reflexivity.
Qed.

Lemma sign_neg_r : forall P a b, @sign (ieee P) a (f64_neg b) = f64_neg (@sign (ieee P) a b).
Proof.
  intros P a b. unfold sign. ieee_simpl. destruct b as [[]|[]|[] ? ?|[] ? ? ?]; cbn;
    rewrite ?neg_neg; reflexivity.
Qed.

Lemma dawson_sampled_neg : forall P x n0,
  @dawson_sampled (ieee P) (f64_neg x) n0 ~= f64_neg (@dawson_sampled (ieee P) x n0).
Proof.
  intros P x n0. unfold dawson_sampled. ieee_simpl. rewrite abs_neg.
  destruct (fold_left _ _ _) as [[[d1 d2] e1] sum].
  pose proof (sign_neg_r P) as SN. ieee_simpl_in SN. rewrite SN.
  rewrite mul_neg_r, mul_neg_l. reflexivity.
Qed.

Lemma dawson_odd : forall P x,
  match @dawson (ieee P) x, @dawson (ieee P) (f64_neg x) with
  | Ok r, Ok r' => r' ~= f64_neg r
  | Panic p, Panic p' => p = p'
  | _, _ => False
  end.
Proof.
  intros P x. unfold dawson. ieee_simpl. rewrite abs_neg.
  destruct (f64_lt (f64_abs x) (f64_lit 0.2)).
  - apply dawson_series_neg.
  - destruct (arith_u _ _ _) as [n0|p|] eqn:E; cbn [bind].
    + apply dawson_sampled_neg.
    + reflexivity.
    + unfold arith_u in E. destruct in_range in E; [discriminate|]. destruct (p_checks P) in E; discriminate.
Qed.
