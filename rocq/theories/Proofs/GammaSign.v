(** * gamma: case analysis of the whole function; NaN, poles, sign *)

From Coq Require Import ZArith Reals Bool Lra Lia Psatz List.
From Flocq Require Import Core IEEE754.BinarySingleNaN IEEE754.Binary IEEE754.Bits.
From Flocq Require Import Plus_error.
From Verif.Model Require Import Base Arith Utils Gamma.
From Verif.Float Require Import Bits64 Ieee Exact.
From Verif.Spec Require Import F64Spec Outcome.
From Verif.Proofs Require Import F64 F64Ops Lits Ext Poly Factorial GammaFacts.
Import ListNotations.
Open Scope R_scope.

Lemma rnd_sub_zero : forall x y, fmt x -> fmt y -> rnd (x - y) = 0 -> x = y.
Proof.
  intros x y Fx Fy H. destruct (Req_dec x y) as [E|N]; [exact E|exfalso].
  assert (FTZ : Exp_not_FTZ fexp64).
  { intros e. rewrite !fexp64_FLT. unfold FLT_exp. lia. }
  revert H. unfold rnd. unfold Rminus. apply round_plus_neq_0; auto with typeclass_instances.
  - apply fmt_opp, Fy.
  - lra.
Qed.

Lemma nonint_iff : forall x, nonint x <-> x <> IZR (Ztrunc x).
Proof.
  intros x. split.
  - intros H. apply H.
  - intros H k E. apply H. rewrite E, Ztrunc_IZR. reflexivity.
Qed.

Lemma max_input : fin (f64_lit 171.624_376_956_302_7) /\
  343 / 2 <= val (f64_lit 171.624_376_956_302_7) <= 687 / 4.
Proof.
  destruct (lit_spec 171.624_376_956_302_7) as [N V].
  assert (E : R_of_dec 171.624_376_956_302_7 = 1716243769563027 / 10000000000000).
  { unfold R_of_dec. cbn [dman dexp]. rewrite powerRZ_10.
    match goal with |- _ * (IZR ?a / IZR ?b) = _ =>
      let a' := eval vm_compute in a in let b' := eval vm_compute in b in
      change a with a'; change b with b' end. lra. }
  rewrite E in V. pose proof Om_1000 as HO.
  assert (B : 343 / 2 <= val (f64_lit 171.624_376_956_302_7) <= 687 / 4).
  { rewrite V. split.
    - apply rs_ge; [|lra|lra]. replace (343 / 2) with (686 / 4) by lra. apply (fmt_quarter 686). lia.
    - apply rs_le_fmt; [|lra|lra]. apply (fmt_quarter 687). lia. }
  split; [|exact B]. apply (fin_of_bound _ 1000 N); [apply Rabs_le; lra|lra].
Qed.

(** parity as a sign *)
Definition msign (k : Z) : R := if Z.even k then 1 else -1.

Lemma msign_succ : forall k, msign (k + 1) = - msign k.
Proof. intros k. unfold msign. rewrite Z.even_add. simpl. destruct (Z.even k); simpl; lra. Qed.

Section Gamma.
  Context (P : platform).

  Notation add := (f64_add P). Notation sub := (f64_sub P).
  Notation mul := (f64_mul P). Notation div := (f64_div P).
  Notation gamma_core := (@gamma_core (ieee P)).
  Notation gamma_up := (@gamma_up (ieee P)).
  Notation gamma_down := (@gamma_down (ieee P)).
  Notation gamma := (@gamma (ieee P)).
  Notation factorial := (@factorial (ieee P)).

  Lemma fract_zero : forall z, fin z ->
    f64_eq (sub z (f64_trunc P z)) (f64_lit 0.0) = true <-> val z = IZR (Ztrunc (val z)).
  Proof.
    intros z Fz. destruct (trunc_spec P z Fz) as [Ft Vt].
    pose proof (sub_spec P z _ Fz Ft) as R. rewrite Vt in R. rewrite (val_fin z Fz).
    destruct R as [N V]. rewrite eq_val by (exact N || exact nn_0).
    rewrite val_0, V. split.
    - intros H. apply Req_bool_true_iff in H || (revert H; case Req_bool_spec; [intros H _|discriminate]).
      apply rnd_sub_zero; [apply fmt_B2R|rewrite <- Vt; apply fmt_B2R|].
      revert H. unfold rs, Rmax, Rmin. pose proof Om_pos. repeat destruct Rle_dec; lra.
    - intros H. rewrite Req_bool_true; [reflexivity|].
      rewrite <- H. replace (Binary.B2R z - Binary.B2R z) with 0 by ring. apply rs_0.
  Qed.

  (** the branch taken by every finite non-integer argument in range *)
  Definition gamma_general (fuel : nat) (z : f64) : res f64 :=
    if f64_lt (f64_lit 3.5) z then
      bind (gamma_down fuel z (f64_lit 1.0)) (fun zf =>
        let (z, f) := zf in Ok (mul (gamma_core z) f))
    else if f64_lt z (f64_lit 2.5) then
      bind (gamma_up fuel z (f64_lit 1.0)) (fun o =>
        match o with
        | None => Ok (f64_lit 0.0)
        | Some (z, f) => Ok (mul (gamma_core z) (div (f64_lit 1.0) f))
        end)
    else Ok (mul (gamma_core z) (f64_lit 1.0)).

  Lemma gamma_nonint : forall fuel z, fin z -> nonint (val z) ->
    val z <= val (f64_lit 171.624_376_956_302_7) -> gamma fuel z = gamma_general fuel z.
  Proof.
    intros fuel z Fz N B. destruct max_input as [Fm _].
    unfold Gamma.gamma, MAX_INPUT. ieee_simpl.
    rewrite lt_val by (apply fin_nonnan; assumption). rewrite Rlt_bool_false by exact B.
    rewrite (eq_val z) by (exact nn_0 || exact (fin_nonnan _ Fz)).
    rewrite val_0, Req_bool_false by (apply (N 0%Z)).
    unfold fract. ieee_simpl.
    destruct (f64_eq (sub z (f64_trunc P z)) (f64_lit 0.0)) eqn:E.
    { exfalso. apply (N (Ztrunc (val z))). apply (fract_zero z Fz). exact E. }
    destruct (f64_eq z (f64_neg f64_INF)) eqn:E1.
    { exfalso. apply eq_true in E1. destruct E1 as (_ & _ & E1). pose proof (fin_abs_val z Fz) as A.
      rewrite E1 in A. change (val (f64_neg f64_INF)) with (- Om) in A.
      rewrite Rabs_Ropp, Rabs_pos_eq in A; pose proof Om_pos; lra. }
    change (f64_is_nan z) with (Binary.is_nan z). rewrite (fin_nonnan z Fz). reflexivity.
  Qed.

  Lemma gamma_above : forall fuel z, number z -> val (f64_lit 171.624_376_956_302_7) < val z ->
    gamma fuel z = Ok f64_INF.
  Proof.
    intros fuel z N B. destruct max_input as [Fm _].
    unfold Gamma.gamma, MAX_INPUT. ieee_simpl.
    rewrite lt_val by (exact N || apply fin_nonnan; assumption). rewrite Rlt_bool_true by exact B.
    reflexivity.
  Qed.

  Lemma gamma_negint : forall fuel z k, fin z -> val z = IZR k -> (k < 0)%Z ->
    gamma fuel z = Ok f64_NAN.
  Proof.
    intros fuel z k Fz E Hk. destruct max_input as [Fm [Bm _]].
    assert (K : IZR k < 0) by (apply IZR_lt; exact Hk).
    unfold Gamma.gamma, MAX_INPUT. ieee_simpl.
    rewrite lt_val by (apply fin_nonnan; assumption). rewrite Rlt_bool_false by lra.
    rewrite (eq_val z) by (exact nn_0 || exact (fin_nonnan _ Fz)).
    rewrite val_0, Req_bool_false by lra.
    unfold fract. ieee_simpl.
    assert (Q : f64_eq (sub z (f64_trunc P z)) (f64_lit 0.0) = true).
    { apply (fract_zero z Fz). rewrite E, Ztrunc_IZR. reflexivity. }
    rewrite Q. rewrite lt_val by (exact nn_0 || exact (fin_nonnan _ Fz)).
    rewrite val_0, Rlt_bool_true by lra. reflexivity.
  Qed.

  Lemma gamma_posint : forall fuel z k, fin z -> val z = IZR k -> (1 <= k <= 171)%Z ->
    gamma fuel z = factorial fuel (k - 1).
  Proof.
    intros fuel z k Fz E Hk. destruct max_input as [Fm [Bm _]].
    assert (K : 1 <= IZR k <= 171) by (split; apply IZR_le; lia).
    unfold Gamma.gamma, MAX_INPUT. ieee_simpl.
    rewrite lt_val by (apply fin_nonnan; assumption). rewrite Rlt_bool_false by lra.
    rewrite (eq_val z) by (exact nn_0 || exact (fin_nonnan _ Fz)).
    rewrite val_0, Req_bool_false by lra.
    unfold fract. ieee_simpl.
    assert (Q : f64_eq (sub z (f64_trunc P z)) (f64_lit 0.0) = true).
    { apply (fract_zero z Fz). rewrite E, Ztrunc_IZR. reflexivity. }
    rewrite Q. rewrite lt_val by (exact nn_0 || exact (fin_nonnan _ Fz)).
    rewrite val_0, Rlt_bool_false by lra.
    unfold as_usize. ieee_simpl. rewrite to_int_fin by exact Fz. rewrite E, Ztrunc_IZR.
    replace (Z.max 0 (Z.min (2 ^ 64 - 1) k)) with k by lia.
    unfold arith_u, in_range. destruct (Z.leb_spec 0 (k - 1)) as [_|L]; [|exfalso; lia].
    destruct (Z.leb_spec (k - 1) (2 ^ 64 - 1)) as [_|L]; [|exfalso; lia]. reflexivity.
  Qed.

  Lemma gamma_zero : forall fuel s, gamma fuel (B754_zero s) = Ok (B754_infinity s).
  Proof.
    intros fuel s. destruct max_input as [Fm [Bm _]].
    unfold Gamma.gamma, MAX_INPUT. ieee_simpl.
    rewrite lt_val by (reflexivity || apply fin_nonnan; assumption).
    change (val (B754_zero s)) with 0. rewrite Rlt_bool_false by lra.
    change (f64_eq (B754_zero s) (f64_lit 0.0)) with true. reflexivity.
  Qed.

  Lemma gamma_neginf : forall fuel, gamma fuel (B754_infinity true) = Ok f64_NAN.
  Proof.
    intros fuel. destruct max_input as [Fm [Bm _]].
    unfold Gamma.gamma, MAX_INPUT. ieee_simpl.
    rewrite lt_val by (reflexivity || apply fin_nonnan; assumption).
    change (val (B754_infinity true)) with (- Om). pose proof Om_pos.
    rewrite Rlt_bool_false by lra.
    change (f64_eq (B754_infinity true) (f64_lit 0.0)) with false. cbv iota.
    unfold fract. ieee_simpl.
    destruct (cmp_nan_l (sub (B754_infinity true) (f64_trunc P (B754_infinity true))) (f64_lit 0.0))
      as (_ & _ & Q); [reflexivity|].
    rewrite Q. change (f64_eq (B754_infinity true) (f64_neg f64_INF)) with true. reflexivity.
  Qed.

  Lemma gamma_nan : forall fuel z, is_NaN z -> gamma fuel z = Ok f64_NAN.
  Proof.
    intros fuel z N. unfold is_NaN in N.
    unfold Gamma.gamma, MAX_INPUT. ieee_simpl.
    destruct (cmp_nan_r (f64_lit 171.624_376_956_302_7) z N) as (Q & _ & _). rewrite Q.
    destruct (cmp_nan_l z (f64_lit 0.0) N) as (_ & _ & Q1). rewrite Q1.
    unfold fract. ieee_simpl.
    destruct (cmp_nan_l (sub z (f64_trunc P z)) (f64_lit 0.0)) as (_ & _ & Q2).
    { apply sub_nan_l. exact N. }
    rewrite Q2. destruct (cmp_nan_l z (f64_neg f64_INF) N) as (_ & _ & Q3). rewrite Q3.
    change (f64_is_nan z) with (Binary.is_nan z). rewrite N. reflexivity.
  Qed.

  (** every f64 is one of these *)
  Lemma gamma_cases : forall z : f64,
    is_NaN z \/ z = B754_infinity true \/ (exists s, z = B754_zero s) \/
    (number z /\ val (f64_lit 171.624_376_956_302_7) < val z) \/
    (exists k, fin z /\ val z = IZR k /\ (k < 0)%Z) \/
    (exists k, fin z /\ val z = IZR k /\ (1 <= k <= 171)%Z) \/
    (fin z /\ nonint (val z) /\ val z <= val (f64_lit 171.624_376_956_302_7)).
  Proof.
    intros z. destruct max_input as [Fm [Bm Um]].
    destruct (Binary.is_nan z) eqn:N; [left; exact N|].
    destruct (Rlt_or_le (val (f64_lit 171.624_376_956_302_7)) (val z)) as [A|A]; [tauto|].
    destruct (fin_or_inf z N) as [Fz|[s ->]].
    - destruct (Req_dec (val z) (IZR (Ztrunc (val z)))) as [I|I].
      + set (k := Ztrunc (val z)) in *.
        destruct (Z.lt_trichotomy k 0) as [K|[K|K]].
        * right; right; right; right; left. exists k. auto.
        * right; right; left. rewrite K in I. destruct z as [s| | |s m e B]; try discriminate Fz.
          { exists s. reflexivity. }
          exfalso. revert I. simpl. unfold F2R. cbn [Fnum Fexp]. intros I.
          pose proof (bpow_gt_0 radix2 e). apply Rmult_integral in I. destruct I as [I|I]; [|lra].
          apply (eq_IZR _ 0) in I. destruct s; discriminate.
        * right; right; right; right; right; left. exists k. split; [exact Fz|]. split; [exact I|].
          assert (IZR k < IZR 172) by lra. apply lt_IZR in H. lia.
      + right; right; right; right; right; right. split; [exact Fz|]. split; [|exact A].
        apply nonint_iff. exact I.
    - destruct s; [tauto|]. exfalso. change (val (B754_infinity false)) with Om in A.
      pose proof Om_1000. lra.
  Qed.

  (** ** Termination *)

  Lemma INR_fuel : forall fuel, (280 <= fuel)%nat -> 280 <= INR fuel.
  Proof.
    intros fuel H. rewrite INR_IZR_INZ. apply IZR_le. lia.
  Qed.

  Lemma general_down : forall z, fin z -> 7 / 2 < val z -> val z <= val (f64_lit 171.624_376_956_302_7) ->
    exists z' f', gamma_down 280 z (f64_lit 1.0) = Ok (z', f') /\
      fin z' /\ 5 / 2 <= val z' < 7 / 2 /\ number f' /\ 1 <= val f'.
  Proof.
    intros z Fz L U. destruct max_input as [Fm [Bm Um]].
    pose proof (INR_fuel 280 ltac:(lia)). apply down_ok; [exact Fz|lra|lra|apply nn_1|rewrite val_1; lra].
  Qed.

  Theorem gamma_terminates : forall z, exists r, forall fuel, (280 <= fuel)%nat -> gamma fuel z = Ok r.
  Proof.
    intros z. destruct (gamma_cases z) as [H|[->|[[s ->]|[[N H]|[[k (Fz & E & K)]|[[k (Fz & E & K)]|(Fz & I & U)]]]]]].
    - exists f64_NAN. intros. apply gamma_nan, H.
    - exists f64_NAN. intros. apply gamma_neginf.
    - exists (B754_infinity s). intros. apply gamma_zero.
    - exists f64_INF. intros. apply gamma_above; assumption.
    - exists f64_NAN. intros. apply (gamma_negint _ z k); assumption.
    - destruct (factorial_returns P (k - 1) ltac:(lia)) as (r & Hr & _). exists r. intros fuel Hf.
      rewrite (gamma_posint _ z k) by assumption. apply Hr. lia.
    - destruct lit_35 as [F35 V35]. destruct lit_25 as [F25 V25].
      enough (Q : exists r, forall fuel, (280 <= fuel)%nat -> gamma_general fuel z = Ok r).
      { destruct Q as [r Q]. exists r. intros fuel Hf. rewrite gamma_nonint by assumption. auto. }
      unfold gamma_general. rewrite !lt_val by (apply fin_nonnan; assumption). rewrite V35, V25.
      case Rlt_bool_spec; intros H1; [|case Rlt_bool_spec; intros H2].
      + destruct (general_down z Fz H1 U) as (z' & f' & E & _).
        eexists. intros fuel Hf. rewrite (down_fuel P 280 fuel z _ _ E Hf). reflexivity.
      + destruct (up_returns P 280 z ltac:(lia) Fz) as [o E].
        destruct o as [[z' f']|]; eexists; intros fuel Hf;
          rewrite (up_fuel P 280 fuel z _ _ E Hf); reflexivity.
      + eexists. reflexivity.
  Qed.

  (** ** Sign *)

  (** What the upward loop maintains: below zero [f] is at least 1 in
      magnitude; above zero the next product is at least the smallest
      positive number. *)
  Definition good (z f : f64) : Prop :=
    fin z /\ fin f /\
    ((val z < 0 /\ nonint (val z) /\ 1 <= Rabs (val f)) \/
     (0 < val z /\ bpow radix2 (-1074) <= Rabs (val f) * Rmin 1 (val z))).

  (** number of negative factors still to come *)
  Definition negs (x : R) : Z := Z.max 0 (- Zfloor x).

  Lemma negs_pos : forall x, 0 < x -> negs x = 0%Z.
  Proof.
    intros x H. unfold negs. assert (0 <= Zfloor x)%Z by (apply Zfloor_lub; simpl; lra). lia.
  Qed.

  Lemma negs_unit : forall x, -1 < x < 0 -> negs x = 1%Z.
  Proof.
    intros x H. unfold negs. rewrite (Zfloor_imp (-1)); [reflexivity|]. simpl. lra.
  Qed.

  Lemma negs_succ : forall x, x < -1 -> nonint x -> negs x = (negs (x + 1) + 1)%Z.
  Proof.
    intros x H N. unfold negs.
    assert (E : Zfloor (x + 1) = (Zfloor x + 1)%Z).
    { apply Zfloor_imp. rewrite !plus_IZR. pose proof (Zfloor_lb x). pose proof (Zfloor_ub x). simpl. lra. }
    rewrite E. assert (Zfloor x < -1)%Z.
    { apply lt_IZR. pose proof (Zfloor_lb x). simpl. lra. }
    lia.
  Qed.

  Lemma tiny_add_1 : forall z, fin z -> - bpow radix2 (-60) <= val z <= 0 ->
    val (add z (f64_lit 1.0)) = 1.
  Proof.
    intros z Fz Hz. destruct (up_step_z P z Fz ltac:(lra)) as (_ & E & _). rewrite E.
    apply Rle_antisym.
    - apply rnd_le_fmt; [apply (fmt_IZR 1); lia|lra].
    - assert (H : rnd (- bpow radix2 (-60) + 1) = 1).
      { pose (w := @B754_finite 53 1024 true (2 ^ 52) (-112) eq_refl : f64).
        assert (V : Binary.B2R w = - bpow radix2 (-60)).
        { unfold w. cbn [Binary.B2R SpecFloat.cond_Zopp]. unfold F2R. cbn [Fnum Fexp].
          change (-60)%Z with (52 + -112)%Z. rewrite bpow_plus.
          change (bpow radix2 52) with (IZR (2 ^ 52)). change (- Z.pos (2 ^ 52))%Z with (- (2 ^ 52))%Z.
          rewrite opp_IZR. ring. }
        assert (Fw : fin w) by reflexivity.
        pose proof (add_spec P w (f64_lit 1.0) Fw fin_1) as R.
        rewrite V, <- (val_fin _ fin_1), val_1 in R.
        assert (C : Binary.B2FF (add w (f64_lit 1.0)) = Binary.F754_finite false (2 ^ 52) (-52)).
        { vm_compute. reflexivity. }
        assert (C1 : val (add w (f64_lit 1.0)) = 1).
        { destruct (add w (f64_lit 1.0)) as [| | |s m e Bd]; try discriminate.
          cbn [Binary.B2FF] in C. injection C as -> -> ->. unfold val. cbn [Binary.B2R SpecFloat.cond_Zopp].
          unfold F2R. cbn [Fnum Fexp]. rewrite bpow2_inv_IZR by lia.
          change (IZR (Z.pos (2 ^ 52))) with (IZR (2 ^ (- -52))). field. apply IZR_neq. discriminate. }
        destruct R as [_ V2]. rewrite C1 in V2. symmetry in V2.
        revert V2. unfold rs, Rmax, Rmin. pose proof Om_1000. repeat destruct Rle_dec; lra. }
      rewrite <- H. apply rnd_le. lra.
  Qed.

  Lemma abs_mul_sign : forall x y, fin x -> fin y -> fin (mul x y) -> val (mul x y) <> 0 ->
    0 < val (mul x y) * (val x * val y).
  Proof.
    intros x y Fx Fy Fm Z. destruct (mul_spec P x y Fx Fy) as [_ V].
    rewrite <- (val_fin x Fx), <- (val_fin y Fy) in V. set (p := val x * val y) in *.
    destruct (Rtotal_order p 0) as [L|[E|L]].
    - assert (val (mul x y) <= 0).
      { rewrite V. rewrite <- (Ropp_involutive p), rs_opp. pose proof (rs_pos (- p) ltac:(lra)). lra. }
      nra.
    - exfalso. apply Z. rewrite V, E. apply rs_0.
    - assert (0 <= val (mul x y)) by (rewrite V; apply rs_pos; lra). nra.
  Qed.

  Lemma fmt_above_m1 : forall x, fmt x -> -1 < x -> -1 + bpow radix2 (-53) <= x.
  Proof.
    intros x F H.
    assert (Q : pred radix2 fexp64 1 = 1 - bpow radix2 (-53)).
    { change 1 with (bpow radix2 0) at 1. rewrite pred_bpow by (auto with typeclass_instances).
      rewrite fexp64_FLT. unfold FLT_exp. change (Z.max (0 - 53) (-1074)) with (-53)%Z. reflexivity. }
    assert (L : - x <= pred radix2 fexp64 1).
    { apply pred_ge_gt; auto with typeclass_instances.
      - apply fmt_opp, F.
      - apply (fmt_IZR 1). lia.
      - lra. }
    lra.
  Qed.


  Lemma abs_ge_min : forall x, fmt x -> x <> 0 -> bpow radix2 (-1074) <= Rabs x.
  Proof.
    intros x F Z. apply Rnot_lt_le. intros L.
    assert (E : rnd x = x) by (apply rnd_fmt, F).
    assert (H : Generic_fmt.cexp radix2 fexp64 x = (-1074)%Z).
    { unfold Generic_fmt.cexp. rewrite fexp64_FLT. unfold FLT_exp.
      assert (mag radix2 x <= -1074)%Z by (apply mag_le_bpow; assumption). lia. }
    assert (E2 : x = IZR (Ztrunc (scaled_mantissa radix2 fexp64 x)) * bpow radix2 (-1074)).
    { rewrite <- H. apply F. }
    set (m := Ztrunc (scaled_mantissa radix2 fexp64 x)) in *.
    assert (M : m <> 0%Z) by (intros M; rewrite M in E2; lra).
    rewrite E2, Rabs_mult, <- abs_IZR, (Rabs_pos_eq (bpow _ _)) in L by apply bpow_ge_0.
    pose proof (bpow_gt_0 radix2 (-1074)).
    assert (1 <= IZR (Z.abs m)) by (apply (IZR_le 1); lia). nra.
  Qed.

  (** from a positive start the upward loop cannot overflow *)
  Lemma up_no_overflow : forall z, fin z -> 0 < val z -> val z < 5 / 2 ->
    gamma_up 280 z (f64_lit 1.0) = Ok None -> False.
  Proof.
    destruct lit_25 as [F25 V25].
    assert (G : forall fuel z f, fin z -> fin f -> 0 < val z -> val z <= 7 / 2 ->
      IZR (3 - Z.of_nat fuel) <= val z -> (fuel <= 3)%nat ->
      Rabs (val f) <= bpow radix2 (6 - 2 * Z.of_nat fuel) ->
      gamma_up fuel z f <> Ok None).
    { induction fuel as [|fuel IH]; intros z f Fz Ff Pz Bz Hz Hn Hf; cbn [Gamma.gamma_up]; ieee_simpl;
        rewrite le_val, V25 by (apply fin_nonnan; assumption).
      - change (3 - Z.of_nat 0)%Z with 3%Z in Hz. rewrite Rle_bool_false by lra. discriminate.
      - case Rle_bool_spec; intros L; [|discriminate]. cbv zeta.
        destruct (mul_spec P f z Ff Fz) as [Nm Vm]. rewrite <- (val_fin f Ff), <- (val_fin z Fz) in Vm.
        assert (Am : Rabs (val (mul f z)) <= bpow radix2 (6 - 2 * Z.of_nat fuel)).
        { assert (Ab : Rabs (val f * val z) <= bpow radix2 (6 - 2 * Z.of_nat fuel)).
          { replace (6 - 2 * Z.of_nat fuel)%Z with (6 - 2 * Z.of_nat (S fuel) + 2)%Z by lia.
            rewrite bpow_plus, Rabs_mult. apply Rmult_le_compat; try apply Rabs_pos; [exact Hf|].
            rewrite Rabs_pos_eq by lra. change (bpow radix2 2) with 4. lra. }
          apply Rabs_le_inv in Ab. rewrite Vm. apply Rabs_le. split.
          - apply rs_ge; [apply fmt_opp, fmt_bpow; lia| |lra].
            pose proof (bpow_ge_0 radix2 (6 - 2 * Z.of_nat fuel)). pose proof Om_pos. lra.
          - apply rs_le_fmt; [apply fmt_bpow; lia| |lra].
            pose proof (bpow_ge_0 radix2 (6 - 2 * Z.of_nat fuel)). pose proof Om_pos. lra. }
        assert (Fm : fin (mul f z)).
        { apply (fin_of_bound _ _ Nm Am). apply bpow_lt. lia. }
        assert (I : f64_is_infinite (mul f z) = false) by (destruct (mul f z); try discriminate Fm; reflexivity).
        rewrite I. destruct (up_step_z P z Fz L) as (F1 & V1 & B1).
        apply IH; auto; try lra; [|lia].
        replace (3 - Z.of_nat fuel)%Z with (3 - Z.of_nat (S fuel) + 1)%Z by lia.
        apply up_step_ge; auto. lia. }
    intros z Fz Pz Bz H.
    destruct (up_near P 3 z (f64_lit 1.0)) as [o E]; [lia|exact Fz|apply fin_1|change (3 - Z.of_nat 3)%Z with 0%Z; lra|].
    rewrite (up_fuel P 3 280 z _ _ E) in H by lia. rewrite H in E.
    apply (G 3%nat z (f64_lit 1.0)); [exact Fz|apply fin_1|exact Pz|lra| |lia| |exact E].
    - change (3 - Z.of_nat 3)%Z with 0%Z. lra.
    - rewrite val_1, Rabs_R1. change (bpow radix2 (6 - 2 * Z.of_nat 3)) with 1. lra.
  Qed.

  Lemma msign_sq : forall k, msign k * msign k = 1.
  Proof. intros k. unfold msign. destruct (Z.even k); lra. Qed.

  Lemma nz_of_ge : forall x e, bpow radix2 e <= Rabs x -> x <> 0.
  Proof. intros x e H E. rewrite E, Rabs_R0 in H. pose proof (bpow_gt_0 radix2 e). lra. Qed.

  Lemma good_step : forall z f, good z f -> val z <= 5 / 2 -> fin (mul f z) ->
    good (add z (f64_lit 1.0)) (mul f z) /\
    0 < (val (mul f z) * msign (negs (val (add z (f64_lit 1.0))))) * (val f * msign (negs (val z))).
  Proof.
    intros z f (Fz & Ff & G) Hz Fm.
    destruct (up_step_z P z Fz Hz) as (F1 & V1 & B1).
    pose proof (val_fmt z) as FM.
    destruct G as [(L & N & A)|(L & A)].
    - (* below zero *)
      assert (A1 : Rabs (val z) <= Rabs (val (mul f z))).
      { destruct (mul_spec P f z Ff Fz) as [_ V]. rewrite <- (val_fin f Ff), <- (val_fin z Fz) in V.
        destruct (rounds_small (mul f z) (val f * val z)) as [_ V2].
        - split; [|exact V]. apply fin_nonnan, Fm.
        - pose proof (fin_abs_val _ Fm) as Q. rewrite V in Q.
          revert Q. unfold rs, Rmax, Rmin. pose proof Om_pos.
          repeat destruct Rle_dec; rewrite ?Rabs_Ropp, ?(Rabs_pos_eq Om) by lra; lra.
        - rewrite (val_fin _ Fm), V2, <- rnd_abs. apply rnd_ge.
          + rewrite <- val_abs. apply val_fmt.
          + rewrite Rabs_mult. pose proof (Rabs_pos (val z)). nra. }
      assert (Z0 : val (mul f z) <> 0).
      { intros E. rewrite E, Rabs_R0, (Rabs_left (val z)) in A1 by exact L. lra. }
      pose proof (abs_mul_sign f z Ff Fz Fm Z0) as S.
      destruct (Rlt_or_le (val z) (-1)) as [L1|L1].
      + (* exact step *)
        assert (E : val (add z (f64_lit 1.0)) = val z + 1).
        { rewrite V1. apply rnd_fmt, fmt_add1; [exact FM|lra|exact N]. }
        split.
        * split; [exact F1|]. split; [exact Fm|]. left. split; [rewrite E; lra|]. split.
          { intros k K. apply (N (k - 1)%Z). rewrite minus_IZR. lra. }
          { rewrite (Rabs_left (val z)) in A1 by exact L. lra. }
        * rewrite E, (negs_succ (val z) L1 N), msign_succ.
          pose proof (msign_sq (negs (val z + 1))). nra.
      + assert (L2 : -1 < val z) by (destruct L1 as [L1|L1]; [exact L1|exfalso; apply (N (-1)%Z); lra]).
        pose proof (fmt_above_m1 (val z) FM L2) as L3.
        assert (Z1 : bpow radix2 (-53) <= val (add z (f64_lit 1.0))).
        { rewrite V1. apply rnd_ge; [apply fmt_bpow; lia|lra]. }
        pose proof (bpow_gt_0 radix2 (-53)) as Bp.
        split.
        * split; [exact F1|]. split; [exact Fm|]. right. split; [lra|].
          destruct (Rle_or_lt (- bpow radix2 (-60)) (val z)) as [T|T].
          { rewrite (tiny_add_1 z Fz) by lra. rewrite Rmin_left, Rmult_1_r by lra.
            eapply Rle_trans; [|exact A1].
            apply abs_ge_min; [exact FM|lra]. }
          { apply Rle_trans with (bpow radix2 (-60) * bpow radix2 (-53)).
            - rewrite <- bpow_plus. apply bpow_le. lia.
            - apply Rmult_le_compat; try apply bpow_ge_0.
              + rewrite (Rabs_left (val z)) in A1 by exact L. lra.
              + apply Rmin_glb; [|exact Z1]. change 1 with (bpow radix2 0). apply bpow_le. lia. }
        * rewrite (negs_unit (val z)) by lra. rewrite negs_pos by lra.
          change (msign 1) with (-1). change (msign 0) with 1. nra.
    - (* above zero *)
      assert (M1 : Rmin 1 (val z) <= val z) by apply Rmin_r.
      assert (A2 : bpow radix2 (-1074) <= Rabs (val f) * Rabs (val z)).
      { eapply Rle_trans; [exact A|]. rewrite (Rabs_pos_eq (val z)) by lra.
        apply Rmult_le_compat_l; [apply Rabs_pos|exact M1]. }
      pose proof (mul_abs_ge P f z (-1074) Ff Fz ltac:(lia) A2 Fm) as A3.
      pose proof (abs_mul_sign f z Ff Fz Fm (nz_of_ge _ _ A3)) as S.
      assert (Z1 : 1 <= val (add z (f64_lit 1.0))).
      { rewrite V1. apply rnd_ge; [apply (fmt_IZR 1); lia|lra]. }
      split.
      + split; [exact F1|]. split; [exact Fm|]. right. split; [lra|].
        rewrite Rmin_left, Rmult_1_r by lra. exact A3.
      + rewrite !negs_pos by lra. change (msign 0) with 1. nra.
  Qed.

  Lemma up_sign : forall fuel z f z' f', good z f -> val z <= 7 / 2 ->
    gamma_up fuel z f = Ok (Some (z', f')) ->
    fin z' /\ 5 / 2 < val z' <= 7 / 2 /\ fin f' /\ 0 < val f' * (val f * msign (negs (val z))).
  Proof.
    destruct lit_25 as [F25 V25].
    induction fuel as [|fuel IH]; intros z f z' f' G B H.
    - cbn [Gamma.gamma_up] in H. ieee_simpl_in H. pose proof G as (Fz & Ff & D).
      rewrite le_val, V25 in H by (apply fin_nonnan; assumption).
      revert H. case Rle_bool_spec; intros L H; [discriminate|]. apply ok_inj in H. injection H as <- <-.
      split; [exact Fz|]. split; [lra|]. split; [exact Ff|].
      rewrite negs_pos by lra. change (msign 0) with 1. destruct D as [(D & _)|(_ & D)]; [exfalso; lra|].
      rewrite Rmin_left, Rmult_1_r in D by lra. pose proof (nz_of_ge _ _ D). nra.
    - cbn [Gamma.gamma_up] in H. ieee_simpl_in H. pose proof G as (Fz & Ff & D).
      rewrite le_val, V25 in H by (apply fin_nonnan; assumption).
      revert H. case Rle_bool_spec; intros L H.
      + cbv zeta in H. destruct (f64_is_infinite (mul f z)) eqn:I; [discriminate|].
        pose proof (not_infinite P f z Ff Fz I) as Fm.
        destruct (good_step z f G L Fm) as [G' S'].
        destruct (up_step_z P z Fz L) as (_ & _ & B1).
        destruct (IH _ _ _ _ G' (proj2 B1) H) as (Fz' & Bz' & Ff' & S2).
        split; [exact Fz'|]. split; [exact Bz'|]. split; [exact Ff'|].
        set (s1 := val (mul f z) * msign (negs (val (add z (f64_lit 1.0))))) in *.
        set (s0 := val f * msign (negs (val z))) in *.
        assert (0 < s1 * s1) by nra. 
        assert (0 < (val f' * s0) * (s1 * s1)) by (replace ((val f' * s0) * (s1 * s1)) with ((val f' * s1) * (s1 * s0)) by ring; nra).
        nra.
      + apply ok_inj in H. injection H as <- <-.
        split; [exact Fz|]. split; [lra|]. split; [exact Ff|].
        rewrite negs_pos by lra. change (msign 0) with 1. destruct D as [(D & _)|(_ & D)]; [exfalso; lra|].
        rewrite Rmin_left, Rmult_1_r in D by lra. pose proof (nz_of_ge _ _ D). nra.
  Qed.

  (** dividing 1 by a finite nonzero number and scaling by something in 1..4 *)
  Lemma recip_sign : forall g f, fin g -> 1 <= val g <= 4 -> fin f -> val f <> 0 ->
    number (mul g (div (f64_lit 1.0) f)) /\ 0 < val (mul g (div (f64_lit 1.0) f)) * val f.
  Proof.
    intros g f Fg Bg Ff Zf.
    pose proof (div_spec P (f64_lit 1.0) f fin_1 Ff) as R.
    rewrite <- (val_fin _ fin_1), val_1, <- (val_fin f Ff) in R. specialize (R Zf).
    destruct R as [N V].
    pose proof (fin_abs_val f Ff) as Bf.
    assert (Af : 0 < Rabs (val f)) by (apply Rabs_pos_lt; exact Zf).
    assert (A : bpow radix2 (-1024) <= Rabs (rs (1 / val f))).
    { assert (E : Rabs (rs (1 / val f)) = rs (Rabs (1 / val f))).
      { unfold Rabs at 2. destruct Rcase_abs as [C|C].
        - rewrite rs_opp. rewrite Rabs_left1; [reflexivity|].
          rewrite <- (Ropp_involutive (1 / val f)), rs_opp. pose proof (rs_pos (- (1 / val f)) ltac:(lra)). lra.
        - rewrite Rabs_pos_eq; [reflexivity|]. apply rs_pos. lra. }
      rewrite E. apply rs_ge.
      - apply fmt_bpow. lia.
      - apply bpow_le. lia.
      - unfold Rdiv. rewrite Rmult_1_l, Rabs_inv. change (-1024)%Z with (- (1024))%Z. rewrite (bpow_opp radix2 1024).
        apply Rlt_le, Rinv_lt_contravar; [|exact Bf].
        apply Rmult_lt_0_compat; [exact Af|apply bpow_gt_0]. }
    rewrite <- V in A.
    assert (S : 0 < val (div (f64_lit 1.0) f) * val f).
    { assert (Z : val (div (f64_lit 1.0) f) <> 0) by (apply (nz_of_ge _ _ A)).
      destruct (Rtotal_order (val f) 0) as [L|[E|L]]; [|exfalso; lra|].
      - assert (val (div (f64_lit 1.0) f) <= 0).
        { rewrite V, <- (Ropp_involutive (1 / val f)), rs_opp.
          assert (0 <= - (1 / val f)).
          { unfold Rdiv. rewrite Rmult_1_l. pose proof (Rinv_lt_0_compat _ L). lra. }
          pose proof (rs_pos _ H). lra. }
        nra.
      - assert (0 <= val (div (f64_lit 1.0) f)).
        { rewrite V. apply rs_pos. unfold Rdiv. rewrite Rmult_1_l.
          apply Rlt_le, Rinv_0_lt_compat, L. }
        nra. }
    destruct (fin_or_inf _ N) as [Fq|[s E]].
    - destruct (mul_spec P g _ Fg Fq) as [Nm Vm].
      rewrite <- (val_fin g Fg), <- (val_fin _ Fq) in Vm. split; [exact Nm|].
      set (q := val (div (f64_lit 1.0) f)) in *. rewrite Vm.
      pose proof Om_1000 as HO.
      assert (O : bpow radix2 (-1024) <= Om) by (apply bpow_le; lia).
      pose proof (bpow_gt_0 radix2 (-1024)) as Bp.
      destruct (Rlt_or_le 0 q) as [Q|Q].
      + rewrite Rabs_pos_eq in A by lra.
        assert (bpow radix2 (-1024) <= rs (val g * q)).
        { apply rs_ge; [apply fmt_bpow; lia|exact O|nra]. }
        assert (0 < val f) by nra. nra.
      + rewrite Rabs_left1 in A by lra.
        assert (bpow radix2 (-1024) <= - rs (val g * q)).
        { rewrite <- rs_opp. apply rs_ge; [apply fmt_bpow; lia|exact O|nra]. }
        assert (val f < 0) by nra. nra.
    - rewrite E in *. pose proof (mul_comm P g (B754_infinity s)) as C.
      rewrite (inf_fin_mul P s g Fg) in C by lra.
      rewrite (sign_pos g (fin_nonnan _ Fg)), xorb_false_r in C by lra.
      destruct C as [->|[_ C]]; [|discriminate]. split; [reflexivity|exact S].
  Qed.

  (** ** The whole function *)

  (** starting state of the upward loop *)
  Lemma good_start : forall z, fin z -> nonint (val z) -> good z (f64_lit 1.0).
  Proof.
    intros z Fz N. split; [exact Fz|]. split; [apply fin_1|]. rewrite val_1, Rabs_R1, Rmult_1_l.
    destruct (Rtotal_order (val z) 0) as [L|[E|L]].
    - left. split; [exact L|]. split; [exact N|lra].
    - exfalso. apply (N 0%Z E).
    - right. split; [exact L|]. apply Rmin_glb.
      + change 1 with (bpow radix2 0). apply bpow_le. lia.
      + rewrite <- (Rabs_pos_eq (val z)) by lra. apply abs_ge_min; [apply val_fmt|lra].
  Qed.

  (** value and sign of gamma at a non-integer *)
  Lemma general_sign : forall fuel z, (280 <= fuel)%nat -> fin z -> nonint (val z) ->
    val z <= val (f64_lit 171.624_376_956_302_7) ->
    exists r, gamma_general fuel z = Ok r /\ number r /\
      ((val z < 0 /\ r = f64_lit 0.0) \/ 0 < val r * msign (negs (val z))).
  Proof.
    intros fuel z Hf Fz N U. destruct lit_35 as [F35 V35]. destruct lit_25 as [F25 V25].
    destruct max_input as [Fm [Bm Um]]. pose proof (INR_fuel fuel Hf) as HI.
    unfold gamma_general. rewrite !lt_val by (apply fin_nonnan; assumption). rewrite V35, V25.
    case Rlt_bool_spec; intros H1; [|case Rlt_bool_spec; intros H2].
    - destruct (down_ok P fuel z (f64_lit 1.0)) as (z' & f' & E & Fz' & Bz' & Nf' & Vf');
        [exact Fz|lra|lra|apply nn_1|rewrite val_1; lra|].
      rewrite E. cbn [bind]. rewrite (val_fin z' Fz') in Bz'.
      destruct (core_range P z' Fz' ltac:(lra)) as [Fc Bc].
      eexists. split; [reflexivity|].
      split; [apply (mul_big P (gamma_core z') f' (fin_nonnan _ Fc) Nf'); [lra|exact Vf']|]. right.
      rewrite negs_pos by lra. change (msign 0) with 1.
      pose proof (mul_big_1 P (gamma_core z') f' (fin_nonnan _ Fc) Nf' ltac:(lra) Vf'). lra.
    - destruct (up_returns P 280 z ltac:(lia) Fz) as [o E].
      rewrite (up_fuel P 280 fuel z _ _ E Hf). cbn [bind].
      destruct o as [[z' f']|].
      + destruct (up_sign 280 z (f64_lit 1.0) z' f' (good_start z Fz N) ltac:(lra) E)
          as (Fz' & Bz' & Ff' & S).
        rewrite val_1, Rmult_1_l in S.
        rewrite (val_fin z' Fz') in Bz'. destruct (core_range P z' Fz' ltac:(lra)) as [Fc Bc].
        assert (Zf : val f' <> 0) by (intros Q; rewrite Q in S; lra).
        destruct (recip_sign (gamma_core z') f' Fc Bc Ff' Zf) as [Nr Sr].
        eexists. split; [reflexivity|]. split; [exact Nr|]. right.
        set (r := val (mul (gamma_core z') (div (f64_lit 1.0) f'))) in *.
        assert (0 < (r * msign (negs (val z))) * (val f' * val f')).
        { replace ((r * msign (negs (val z))) * (val f' * val f')) with
            ((r * val f') * (val f' * msign (negs (val z)))) by ring.
          apply Rmult_lt_0_compat; assumption. }
        assert (0 < val f' * val f') by nra. nra.
      + eexists. split; [reflexivity|]. split; [apply nn_0|]. left. split; [|reflexivity].
        apply Rnot_le_lt. intros Q.
        (* above zero the product cannot overflow *)
        assert (Pz : 0 < val z) by (destruct Q as [Q|Q]; [exact Q|exfalso; apply (N 0%Z); lra]).
        apply (up_no_overflow z Fz Pz H2 E).
    - assert (Bz : 5 / 2 <= Binary.B2R z <= 7 / 2) by (rewrite <- (val_fin z Fz); lra).
      destruct (core_range P z Fz Bz) as [Fc Bc].
      eexists. split; [reflexivity|]. split.
      + apply (mul_big P (gamma_core z) (f64_lit 1.0) (fin_nonnan _ Fc) nn_1); [lra|rewrite val_1; lra].
      + right. rewrite negs_pos by lra. change (msign 0) with 1.
        pose proof (mul_big_1 P (gamma_core z) (f64_lit 1.0) (fin_nonnan _ Fc) nn_1 ltac:(lra)
                      ltac:(rewrite val_1; lra)). lra.
  Qed.
End Gamma.
