(** * gamma: termination, NaN, sign *)

From Coq Require Import ZArith Reals Bool Lra Lia Psatz List.
From Flocq Require Import Core IEEE754.BinarySingleNaN IEEE754.Binary IEEE754.Bits.
From Verif.Model Require Import Base Arith Utils Gamma.
From Verif.Float Require Import Bits64 Ieee Exact.
From Verif.Spec Require Import F64Spec Outcome.
From Verif.Proofs Require Import F64 F64Ops Lits Ext Poly Factorial.
Import ListNotations.
Open Scope R_scope.

(** ** Adding 1 on grids finer than 1 *)

Lemma fmt_sub1 : forall x, fmt x -> 1 <= x <= bpow radix2 52 -> fmt (x - 1).
Proof.
  intros x F [L U]. set (e := Generic_fmt.cexp radix2 fexp64 x).
  assert (He : (-1074 <= e <= 0)%Z).
  { unfold e, Generic_fmt.cexp. rewrite fexp64_FLT. unfold FLT_exp.
    assert (M : (mag radix2 x <= 53)%Z).
    { apply mag_le_bpow; [lra|]. rewrite Rabs_pos_eq by lra.
      eapply Rle_lt_trans; [exact U|]. apply bpow_lt. lia. }
    lia. }
  assert (E : x = IZR (Ztrunc (scaled_mantissa radix2 fexp64 x)) * bpow radix2 e).
  { apply F. }
  set (m := Ztrunc (scaled_mantissa radix2 fexp64 x)) in *.
  assert (B1 : bpow radix2 e * IZR (2 ^ (- e)) = 1).
  { rewrite <- bpow2_nonneg_IZR, <- bpow_plus by lia. replace (e + - e)%Z with 0%Z by ring. reflexivity. }
  pose proof (bpow_gt_0 radix2 e) as Be.
  assert (M0 : (2 ^ (- e) <= m)%Z).
  { apply le_IZR. apply Rmult_le_reg_r with (bpow radix2 e); [exact Be|]. lra. }
  assert (M1 : (m <= 2 ^ 53)%Z).
  { apply le_IZR. apply Rmult_le_reg_r with (bpow radix2 e); [exact Be|]. rewrite <- E.
    unfold e, Generic_fmt.cexp. rewrite fexp64_FLT. unfold FLT_exp.
    apply Rle_trans with (bpow radix2 (mag radix2 x)).
    - pose proof (bpow_mag_gt radix2 x) as G. rewrite Rabs_pos_eq in G by lra. lra.
    - rewrite <- bpow2_nonneg_IZR, <- bpow_plus by lia. apply bpow_le. lia. }
  replace (x - 1) with (IZR (m - 2 ^ (- e)) * bpow radix2 e).
  - apply fmt_F2R; [|lia]. assert (0 <= 2 ^ (- e))%Z by (apply Z.pow_nonneg; lia). lia.
  - rewrite minus_IZR, Rmult_minus_distr_r, <- E. lra.
Qed.

(** a format number of magnitude at least 2^52 is an integer *)
Lemma fmt_big_int : forall x, fmt x -> bpow radix2 52 <= Rabs x -> exists k, x = IZR k.
Proof.
  intros x F H. set (e := Generic_fmt.cexp radix2 fexp64 x).
  assert (He : (0 <= e)%Z).
  { unfold e, Generic_fmt.cexp. rewrite fexp64_FLT. unfold FLT_exp.
    assert (M : (53 <= mag radix2 x)%Z) by (apply mag_ge_bpow; exact H). lia. }
  exists (Ztrunc (scaled_mantissa radix2 fexp64 x) * 2 ^ e)%Z.
  rewrite mult_IZR, <- bpow2_nonneg_IZR by exact He. apply F.
Qed.

Definition nonint (x : R) : Prop := forall k : Z, x <> IZR k.

Lemma fmt_add1 : forall x, fmt x -> x <= -1 -> nonint x -> fmt (x + 1).
Proof.
  intros x F H N. replace (x + 1) with (- (- x - 1)) by ring. apply fmt_opp, fmt_sub1.
  - apply fmt_opp, F.
  - split; [lra|]. destruct (Rle_or_lt (- x) (bpow radix2 52)) as [L|L]; [exact L|].
    exfalso. destruct (fmt_big_int x F) as [k Hk]; [rewrite Rabs_left1; lra|]. apply (N k Hk).
Qed.

(** ** Literals *)

Lemma lit_35 : fin (f64_lit 3.5) /\ val (f64_lit 3.5) = 7 / 2.
Proof. lit_facts 3.5%dec 7%Z 1%Z HF HV. split; [exact HF|]. rewrite HV. reflexivity. Qed.
Lemma lit_25 : fin (f64_lit 2.5) /\ val (f64_lit 2.5) = 5 / 2.
Proof. lit_facts 2.5%dec 5%Z 1%Z HF HV. split; [exact HF|]. rewrite HV. reflexivity. Qed.
Lemma lit_3 : fin (f64_lit 3.0) /\ val (f64_lit 3.0) = 3.
Proof. lit_facts 3.0%dec 3%Z 0%Z HF HV. split; [exact HF|]. rewrite HV. change (IZR (2 ^ 0)) with 1. lra. Qed.
Lemma lit_325 : fin (f64_lit 3.25) /\ val (f64_lit 3.25) = 13 / 4.
Proof. lit_facts 3.25%dec 13%Z 2%Z HF HV. split; [exact HF|]. rewrite HV. reflexivity. Qed.
Lemma lit_275 : fin (f64_lit 2.75) /\ val (f64_lit 2.75) = 11 / 4.
Proof. lit_facts 2.75%dec 11%Z 2%Z HF HV. split; [exact HF|]. rewrite HV. reflexivity. Qed.

Lemma Om_1000 : 1000 < Om.
Proof. generalize Om_big. assert (1000 < 2 ^ 60) by (rewrite pow_IZR; apply IZR_lt; reflexivity). lra. Qed.

Lemma fmt_quarter : forall m, (Z.abs m <= 2 ^ 53)%Z -> fmt (IZR m / 4).
Proof.
  intros m H. replace (IZR m / 4) with (IZR m * bpow radix2 (-2)) by (simpl; lra).
  apply fmt_F2R; lia.
Qed.

Section Gamma.
  Context (P : platform).

  Notation add := (f64_add P). Notation sub := (f64_sub P).
  Notation mul := (f64_mul P). Notation div := (f64_div P).
  Notation gamma_core := (@gamma_core (ieee P)).
  Notation gamma_up := (@gamma_up (ieee P)).
  Notation gamma_down := (@gamma_down (ieee P)).
  Notation gamma := (@gamma (ieee P)).
  Notation factorial := (@factorial (ieee P)).

  (** ** The polynomials *)

  Lemma poly_hi : forall x, fin x -> Rabs (Binary.B2R x) <= 1 / 4 ->
    fin (@polynomial (ieee P) x GAMMA_HI) /\
    1 <= Binary.B2R (@polynomial (ieee P) x GAMMA_HI) <= 4.
  Proof.
    intros x Fx Hx. change GAMMA_HI with (removelast GAMMA_HI ++ [2.549_256_966_718_529%dec]).
    destruct (polynomial_near P 1 4 x (removelast GAMMA_HI) 2.549_256_966_718_529%dec 8 10)
      as [F1 B1]; [lia|lia|lia|exact Fx|exact Hx|vm_compute; reflexivity|].
    split; [exact F1|]. apply Rabs_le_inv in B1.
    assert (E : R_of_dec 2.549_256_966_718_529 = 2549256966718529 / 1000000000000000).
    { unfold R_of_dec. cbn [dman dexp]. rewrite powerRZ_10.
      match goal with |- _ * (IZR ?a / IZR ?b) = _ =>
        let a' := eval vm_compute in a in let b' := eval vm_compute in b in
        change a with a'; change b with b' end. lra. }
    rewrite E in B1. lra.
  Qed.

  Lemma poly_lo : forall x, fin x -> Rabs (Binary.B2R x) <= 1 / 4 ->
    fin (@polynomial (ieee P) x GAMMA_LO) /\
    1 <= Binary.B2R (@polynomial (ieee P) x GAMMA_LO) <= 4.
  Proof.
    intros x Fx Hx. change GAMMA_LO with (removelast GAMMA_LO ++ [1.608_359_421_985_545_5%dec]).
    destruct (polynomial_near P 1 4 x (removelast GAMMA_LO) 1.608_359_421_985_545_5%dec 4 10)
      as [F1 B1]; [lia|lia|lia|exact Fx|exact Hx|vm_compute; reflexivity|].
    split; [exact F1|]. apply Rabs_le_inv in B1.
    assert (E : R_of_dec 1.608_359_421_985_545_5 = 16083594219855455 / 10000000000000000).
    { unfold R_of_dec. cbn [dman dexp]. rewrite powerRZ_10.
      match goal with |- _ * (IZR ?a / IZR ?b) = _ =>
        let a' := eval vm_compute in a in let b' := eval vm_compute in b in
        change a with a'; change b with b' end. lra. }
    rewrite E in B1. lra.
  Qed.

  (** subtracting from numbers near 3 *)
  Lemma sub_quarter : forall z c lo hi, fin z -> fin c -> fmt lo -> fmt hi ->
    - 1000 <= lo -> hi <= 1000 ->
    lo <= Binary.B2R z - Binary.B2R c <= hi ->
    fin (sub z c) /\ lo <= Binary.B2R (sub z c) <= hi.
  Proof.
    intros z c lo hi Fz Fc L H L0 H0 B. pose proof (sub_spec P z c Fz Fc) as R.
    pose proof (rnd_ge _ _ L (proj1 B)) as R1. pose proof (rnd_le_fmt _ _ H (proj2 B)) as R2.
    destruct (rounds_small _ _ R) as [F1 V1].
    - apply Rabs_lt. pose proof Om_1000. lra.
    - rewrite V1. auto.
  Qed.

  Lemma core_range : forall z, fin z -> 5 / 2 <= Binary.B2R z <= 7 / 2 ->
    fin (gamma_core z) /\ 1 <= val (gamma_core z) <= 4.
  Proof.
    intros z Fz Bz. unfold Gamma.gamma_core. ieee_simpl.
    destruct lit_3 as [F3 V3]. destruct lit_325 as [F325 V325]. destruct lit_275 as [F275 V275].
    assert (Q1 : fmt (-1 / 4)) by (apply (fmt_quarter (-1)); lia).
    assert (Q2 : fmt (1 / 4)) by (apply (fmt_quarter 1); lia).
    rewrite !lt_val by (apply fin_nonnan; assumption). rewrite V3, (val_fin z Fz).
    case Rlt_bool_spec; intros H1; [|case Rlt_bool_spec; intros H2].
    - destruct (sub_quarter z (f64_lit 3.25) (-1 / 4) (1 / 4)) as [Fs Bs]; auto; try lra.
      { rewrite <- (val_fin _ F325), V325. lra. }
      destruct (poly_hi _ Fs) as [F1 B1]; [apply Rabs_le; lra|].
      split; [exact F1|]. rewrite (val_fin _ F1). exact B1.
    - destruct (sub_quarter z (f64_lit 2.75) (-1 / 4) (1 / 4)) as [Fs Bs]; auto; try lra.
      { rewrite <- (val_fin _ F275), V275. lra. }
      destruct (poly_lo _ Fs) as [F1 B1]; [apply Rabs_le; lra|].
      split; [exact F1|]. rewrite (val_fin _ F1). exact B1.
    - split; [apply fin_2|]. rewrite val_2. lra.
  Qed.

  (** ** Going down *)

  Lemma down_step : forall z, fin z -> 7 / 2 <= val z <= 1000 ->
    fin (sub z (f64_lit 1.0)) /\ val (sub z (f64_lit 1.0)) = val z - 1.
  Proof.
    intros z Fz Bz. pose proof (sub_spec P z (f64_lit 1.0) Fz fin_1) as R.
    rewrite <- (val_fin z Fz), <- (val_fin _ fin_1), val_1 in R.
    assert (E : rnd (val z - 1) = val z - 1).
    { apply rnd_fmt, fmt_sub1; [apply val_fmt|]. split; [lra|].
      apply Rle_trans with 1000; [lra|]. rewrite bpow2_nonneg_IZR by lia. apply IZR_le.
      vm_compute. discriminate. }
    destruct (rounds_small _ _ R) as [F1 V1].
    - rewrite E. apply Rabs_lt. pose proof Om_1000. lra.
    - split; [exact F1|]. rewrite (val_fin _ F1), V1. exact E.
  Qed.

  Lemma down_ok : forall fuel z f, fin z -> 5 / 2 <= val z <= 1000 ->
    val z < 7 / 2 + INR fuel -> number f -> 1 <= val f ->
    exists z' f', gamma_down fuel z f = Ok (z', f') /\
      fin z' /\ 5 / 2 <= val z' < 7 / 2 /\ number f' /\ 1 <= val f'.
  Proof.
    destruct lit_35 as [F35 V35].
    induction fuel as [|fuel IH]; intros z f Fz Bz Hf Nf Vf.
    - cbn [Gamma.gamma_down]. ieee_simpl. rewrite le_val, V35 by (apply fin_nonnan; assumption).
      simpl INR in Hf. rewrite Rle_bool_false by lra. exists z, f. repeat (split; auto); lra.
    - cbn [Gamma.gamma_down]. ieee_simpl. rewrite le_val, V35 by (apply fin_nonnan; assumption).
      rewrite S_INR in Hf. case Rle_bool_spec; intros H.
      + cbv zeta. destruct (down_step z Fz ltac:(lra)) as [F1 V1].
        assert (G1 : 1 <= val (sub z (f64_lit 1.0))) by lra.
        apply IH; auto; try lra.
        * apply (mul_big P f _ Nf (fin_nonnan _ F1) Vf G1).
        * apply (mul_big_1 P f _ Nf (fin_nonnan _ F1) Vf G1).
      + exists z, f. repeat (split; auto); lra.
  Qed.

  (** ** Going up *)

  Lemma up_step_z : forall z, fin z -> val z <= 5 / 2 ->
    fin (add z (f64_lit 1.0)) /\ val (add z (f64_lit 1.0)) = rnd (val z + 1) /\
    val z <= val (add z (f64_lit 1.0)) <= 7 / 2.
  Proof.
    intros z Fz Bz. pose proof (add_spec P z (f64_lit 1.0) Fz fin_1) as R.
    rewrite <- (val_fin z Fz), <- (val_fin _ fin_1), val_1 in R.
    assert (L : val z <= rnd (val z + 1)) by (apply rnd_ge; [apply val_fmt|lra]).
    assert (Q : fmt (7 / 2)).
    { replace (7 / 2) with (14 / 4) by lra. apply (fmt_quarter 14). lia. }
    assert (U : rnd (val z + 1) <= 7 / 2) by (apply rnd_le_fmt; [exact Q|lra]).
    pose proof Om_1000 as HO. pose proof (fin_abs_val z Fz) as A. apply Rabs_lt_inv in A.
    destruct (rounds_small _ _ R) as [F1 V1]; [apply Rabs_lt; lra|].
    split; [exact F1|]. rewrite (val_fin _ F1), V1. auto.
  Qed.

  Lemma up_step_ge : forall z k, fin z -> val z <= 5 / 2 -> (Z.abs k <= 2 ^ 52)%Z -> IZR k <= val z ->
    IZR (k + 1) <= val (add z (f64_lit 1.0)).
  Proof.
    intros z k Fz Bz Hk H. destruct (up_step_z z Fz Bz) as (_ & -> & _).
    apply rnd_ge; [apply fmt_IZR; lia|]. rewrite plus_IZR. lra.
  Qed.

  Lemma up_step_le : forall z k, fin z -> val z <= 5 / 2 -> (Z.abs k <= 2 ^ 52)%Z -> val z <= IZR k ->
    val (add z (f64_lit 1.0)) <= IZR (k + 1).
  Proof.
    intros z k Fz Bz Hk H. destruct (up_step_z z Fz Bz) as (_ & -> & _).
    apply rnd_le_fmt; [apply fmt_IZR; lia|]. rewrite plus_IZR. lra.
  Qed.

  Lemma not_infinite : forall x y, fin x -> fin y -> f64_is_infinite (mul x y) = false ->
    fin (mul x y).
  Proof.
    intros x y Fx Fy H. destruct (mul_spec P x y Fx Fy) as [N _].
    destruct (fin_or_inf _ N) as [Ff|[s E]]; [exact Ff|]. rewrite E in H. discriminate.
  Qed.

  Lemma up_near : forall fuel z f, (fuel <= 1000)%nat -> fin z -> fin f ->
    IZR (3 - Z.of_nat fuel) <= val z -> exists o, gamma_up fuel z f = Ok o.
  Proof.
    destruct lit_25 as [F25 V25].
    induction fuel as [|fuel IH]; intros z f Hn Fz Ff Hz.
    - cbn [Gamma.gamma_up]. ieee_simpl. rewrite le_val, V25 by (apply fin_nonnan; assumption).
      change (3 - Z.of_nat 0)%Z with 3%Z in Hz. rewrite Rle_bool_false by lra. eauto.
    - cbn [Gamma.gamma_up]. ieee_simpl. rewrite le_val, V25 by (apply fin_nonnan; assumption).
      case Rle_bool_spec; intros H; [|eauto]. cbv zeta.
      destruct (f64_is_infinite (mul f z)) eqn:I; [eauto|].
      apply IH; [lia| | |].
      + apply (up_step_z z Fz H).
      + apply not_infinite; assumption.
      + replace (3 - Z.of_nat fuel)%Z with (3 - Z.of_nat (S fuel) + 1)%Z by lia.
        apply up_step_ge; auto. lia.
  Qed.

  Lemma mul_abs_ge : forall x y e, fin x -> fin y -> (-1074 <= e)%Z ->
    bpow radix2 e <= Rabs (val x) * Rabs (val y) -> fin (mul x y) ->
    bpow radix2 e <= Rabs (val (mul x y)).
  Proof.
    intros x y e Fx Fy He H Fm. destruct (mul_spec P x y Fx Fy) as [N V].
    rewrite <- (val_fin x Fx), <- (val_fin y Fy) in V.
    assert (G : bpow radix2 e <= Rabs (rnd (val x * val y))).
    { rewrite <- rnd_abs. apply rnd_ge; [apply fmt_bpow; exact He|]. rewrite Rabs_mult. exact H. }
    pose proof (fin_abs_val _ Fm) as Q.
    assert (S : Rabs (rnd (val x * val y)) <= Om).
    { apply Rnot_lt_le. intros K. revert K V Q. unfold Rabs at 1. destruct Rcase_abs; intros K V Q.
      - rewrite rs_under in V by lra. rewrite V, Rabs_Ropp, Rabs_pos_eq in Q; pose proof Om_pos; lra.
      - rewrite rs_over in V by lra. rewrite V, Rabs_pos_eq in Q; pose proof Om_pos; lra. }
    rewrite V, rs_in by exact S. exact G.
  Qed.

  Lemma up_far : forall j fuel z f, (j <= 147)%nat -> (j <= fuel)%nat -> fin z -> fin f ->
    val z <= IZR (- (128 + Z.of_nat j)) ->
    bpow radix2 (1029 - 7 * Z.of_nat j) <= Rabs (val f) ->
    gamma_up fuel z f = Ok None.
  Proof.
    destruct lit_25 as [F25 V25].
    induction j as [|j IH]; intros fuel z f Hj Hn Fz Ff Hz Hf.
    - exfalso. pose proof (fin_abs_val f Ff). assert (Om < bpow radix2 (1029 - 7 * Z.of_nat 0)).
      { apply bpow_lt. lia. } lra.
    - destruct fuel as [|fuel]; [exfalso; lia|].
      assert (Zn : val z <= -129).
      { eapply Rle_trans; [exact Hz|]. apply IZR_le. lia. }
      cbn [Gamma.gamma_up]. ieee_simpl. rewrite le_val, V25 by (apply fin_nonnan; assumption).
      rewrite Rle_bool_true by lra. cbv zeta.
      destruct (f64_is_infinite (mul f z)) eqn:I; [reflexivity|].
      pose proof (not_infinite f z Ff Fz I) as Fm.
      apply IH; [lia|lia| |exact Fm| |].
      + apply (up_step_z z Fz). lra.
      + replace (- (128 + Z.of_nat j))%Z with (- (128 + Z.of_nat (S j)) + 1)%Z by lia.
        apply up_step_le; auto; [lra|lia].
      + apply mul_abs_ge; auto; [lia|].
        replace (1029 - 7 * Z.of_nat j)%Z with ((1029 - 7 * Z.of_nat (S j)) + 7)%Z by lia.
        rewrite bpow_plus. apply Rmult_le_compat; try apply bpow_ge_0; [exact Hf|].
        rewrite Rabs_left by lra. change (bpow radix2 7) with 128. lra.
  Qed.

  Lemma up_returns : forall fuel z, (280 <= fuel <= 1000)%nat -> fin z ->
    exists o, gamma_up fuel z (f64_lit 1.0) = Ok o.
  Proof.
    intros fuel z Hn Fz. destruct (Rle_or_lt (val z) (-275)) as [H|H].
    - exists None. apply (up_far 147); [lia|lia|exact Fz|apply fin_1| |].
      + eapply Rle_trans; [exact H|]. apply IZR_le. lia.
      + rewrite val_1, Rabs_R1. change (bpow radix2 (1029 - 7 * Z.of_nat 147)) with 1. lra.
    - apply up_near; [lia|exact Fz|apply fin_1|]. apply Rle_trans with (-275); [|lra].
      apply IZR_le. lia.
  Qed.

  (** enough fuel is enough *)
  Lemma up_fuel : forall fuel fuel' z f o, gamma_up fuel z f = Ok o -> (fuel <= fuel')%nat ->
    gamma_up fuel' z f = Ok o.
  Proof.
    induction fuel as [|fuel IH]; intros fuel' z f o H L.
    - cbn [Gamma.gamma_up] in H. destruct fuel' as [|fuel']; cbn [Gamma.gamma_up];
        destruct (@le (ieee P) z _); try discriminate; exact H.
    - destruct fuel' as [|fuel']; [exfalso; lia|]. cbn [Gamma.gamma_up] in *.
      destruct (@le (ieee P) z _); [|exact H]. cbv zeta in *.
      destruct (@is_infinite (ieee P) _); [exact H|]. apply IH; [exact H|lia].
  Qed.

  Lemma down_fuel : forall fuel fuel' z f o, gamma_down fuel z f = Ok o -> (fuel <= fuel')%nat ->
    gamma_down fuel' z f = Ok o.
  Proof.
    induction fuel as [|fuel IH]; intros fuel' z f o H L.
    - cbn [Gamma.gamma_down] in H. destruct fuel' as [|fuel']; cbn [Gamma.gamma_down];
        destruct (@le (ieee P) _ z); try discriminate; exact H.
    - destruct fuel' as [|fuel']; [exfalso; lia|]. cbn [Gamma.gamma_down] in *.
      destruct (@le (ieee P) _ z); [|exact H]. cbv zeta in *. apply IH; [exact H|lia].
  Qed.
End Gamma.
