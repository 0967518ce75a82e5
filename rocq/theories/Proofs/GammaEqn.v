(** * gamma: the theorems, and the functional equation in both readings *)

From Coq Require Import ZArith Reals Bool Lra Lia Psatz List.
From Flocq Require Import Core IEEE754.BinarySingleNaN IEEE754.Binary IEEE754.Bits.
From Verif.Model Require Import Base Arith Utils Gamma.
From Verif.Float Require Import Bits64 Ieee Exact.
From Verif.Spec Require Import F64Spec Outcome.
From Verif.Proofs Require Import F64 F64Ops Lits Ext Poly Factorial GammaFacts GammaSign.
Open Scope R_scope.

Section Ieee.
  Context (P : platform).
  Notation add := (f64_add P). Notation sub := (f64_sub P).
  Notation mul := (f64_mul P). Notation div := (f64_div P).
  Notation gamma_core := (@gamma_core (ieee P)).
  Notation gamma_down := (@gamma_down (ieee P)).
  Notation gamma := (@gamma (ieee P)).

  (** C10 *)
  Theorem gamma_nan_iff : forall fuel z r, (280 <= fuel)%nat -> gamma fuel z = Ok r ->
    (is_NaN r <-> is_NaN z \/ z = B754_infinity true \/
                  (finite z /\ exists k : Z, (k < 0)%Z /\ Binary.B2R z = IZR k)).
  Proof.
    intros fuel z r Hf H.
    destruct (gamma_cases z) as [C|[->|[[s ->]|[[N C]|[[k (Fz & E & K)]|[[k (Fz & E & K)]|(Fz & I & U)]]]]]].
    - rewrite gamma_nan in H by exact C. apply ok_inj in H. subst r. split; [tauto|reflexivity].
    - rewrite gamma_neginf in H. apply ok_inj in H. subst r. split; [tauto|reflexivity].
    - rewrite gamma_zero in H. apply ok_inj in H. subst r. split; [discriminate|].
      intros [Q|[Q|[_ (k & K & Q)]]]; try discriminate. exfalso.
      change (Binary.B2R (B754_zero s)) with 0 in Q. apply (eq_IZR 0) in Q. lia.
    - rewrite gamma_above in H by assumption. apply ok_inj in H. subst r. split; [discriminate|].
      destruct max_input as [_ [Bm _]]. pose proof Om_pos.
      intros [Q|[->|[Q (k & K & E)]]].
      + unfold is_NaN in Q. unfold number in N. congruence.
      + exfalso. change (val (B754_infinity true)) with (- Om) in C. lra.
      + exfalso. rewrite (val_fin z Q), E in C. apply IZR_lt in K. lra.
    - rewrite (gamma_negint P fuel z k) in H by assumption. apply ok_inj in H. subst r.
      split; [|reflexivity]. intros _. right; right. split; [exact Fz|]. exists k.
      split; [exact K|]. rewrite <- (val_fin z Fz). exact E.
    - rewrite (gamma_posint P fuel z k) in H by assumption.
      destruct (factorial_returns P (k - 1) ltac:(lia)) as (r' & Hr & N & _).
      rewrite Hr in H by lia. apply ok_inj in H. subst r'.
      split; [unfold is_NaN; unfold number in N; congruence|].
      intros [Q|[->|[_ (k' & K' & Q)]]]; [|discriminate|].
      + unfold is_NaN in Q. rewrite (fin_nonnan z Fz) in Q. discriminate.
      + exfalso. rewrite <- (val_fin z Fz), E in Q. apply eq_IZR in Q. lia.
    - rewrite gamma_nonint in H by assumption.
      destruct (general_sign P fuel z Hf Fz I U) as (r' & E & N & _).
      rewrite E in H. apply ok_inj in H. subst r'.
      split; [unfold is_NaN; unfold number in N; congruence|].
      intros [Q|[->|[_ (k' & K' & Q)]]]; [|discriminate|].
      + unfold is_NaN in Q. rewrite (fin_nonnan z Fz) in Q. discriminate.
      + exfalso. apply (I k'). rewrite (val_fin z Fz). exact Q.
  Qed.

  Theorem gamma_zeros : forall fuel s, gamma fuel (B754_zero s) = Ok (B754_infinity s).
  Proof. apply gamma_zero. Qed.

  Theorem gamma_large : forall fuel z, number z ->
    val (f64_lit 171.624_376_956_302_7) < val z -> gamma fuel z = Ok (B754_infinity false).
  Proof. intros fuel z N H. apply gamma_above; assumption. Qed.

  (** C11 *)
  Theorem gamma_integer : forall fuel n, (1 <= n <= 171)%Z ->
    gamma fuel (f64_of_Z n) = @factorial (ieee P) fuel (n - 1).
  Proof.
    intros fuel n Hn. destruct (of_Z_exact n ltac:(lia)) as [Fn Vn].
    apply gamma_posint; [exact Fn| |exact Hn]. rewrite (val_fin _ Fn). exact Vn.
  Qed.

  (** C13 *)
  Theorem gamma_positive : forall fuel z r, (280 <= fuel)%nat -> positive z -> gamma fuel z = Ok r ->
    positive r.
  Proof.
    intros fuel z r Hf [Nz Vz] H.
    destruct (gamma_cases z) as [C|[->|[[s ->]|[[N C]|[[k (Fz & E & K)]|[[k (Fz & E & K)]|(Fz & I & U)]]]]]].
    - unfold is_NaN in C. unfold number in Nz. congruence.
    - exfalso. change (val (B754_infinity true)) with (- Om) in Vz. pose proof Om_pos. lra.
    - exfalso. change (val (B754_zero s)) with 0 in Vz. lra.
    - rewrite gamma_above in H by assumption. apply ok_inj in H. subst r. split; [reflexivity|].
      change (0 < Om). apply Om_pos.
    - exfalso. apply IZR_lt in K. lra.
    - rewrite (gamma_posint P fuel z k) in H by assumption.
      destruct (factorial_returns P (k - 1) ltac:(lia)) as (r' & Hr & N & V).
      rewrite Hr in H by lia. apply ok_inj in H. subst r'. split; [exact N|lra].
    - rewrite gamma_nonint in H by assumption.
      destruct (general_sign P fuel z Hf Fz I U) as (r' & E & N & S).
      rewrite E in H. apply ok_inj in H. subst r'. split; [exact N|].
      destruct S as [[S _]|S]; [exfalso; lra|]. rewrite negs_pos in S by exact Vz.
      change (msign 0) with 1 in S. lra.
  Qed.

  Theorem gamma_negative : forall fuel z r k, (280 <= fuel)%nat -> finite z -> (1 <= k)%Z ->
    - IZR k < Binary.B2R z < - IZR k + 1 -> gamma fuel z = Ok r ->
    number r /\ (val r = 0 \/ (if Z.even k then 0 < val r else val r < 0)).
  Proof.
    intros fuel z r k Hf Fz Hk B H. unfold finite in Fz. rewrite <- (val_fin z Fz) in B.
    assert (I : nonint (val z)).
    { intros j E. rewrite E in B. rewrite <- opp_IZR in B. destruct B as [B1 B2].
      rewrite <- plus_IZR in B2. apply lt_IZR in B1, B2. lia. }
    assert (K : 1 <= IZR k) by (apply IZR_le; exact Hk).
    assert (U : val z <= val (f64_lit 171.624_376_956_302_7)).
    { destruct max_input as [_ [Bm _]]. lra. }
    rewrite gamma_nonint in H by assumption.
    destruct (general_sign P fuel z Hf Fz I U) as (r' & E & N & S).
    rewrite E in H. apply ok_inj in H. subst r'. split; [exact N|].
    destruct S as [[_ ->]|S]; [left; apply val_0|right].
    assert (G : negs (val z) = k).
    { unfold negs. rewrite (Zfloor_imp (- k)); [lia|].
      replace (- k + 1)%Z with (- k + 1)%Z by ring. rewrite plus_IZR, opp_IZR. lra. }
    rewrite G in S. unfold msign in S. destruct (Z.even k); lra.
  Qed.

  (** ** The functional equation, with rounding *)

  (** [(x - 1)(x - 2)...(x - n)] *)
  Fixpoint dprod (n : nat) (x : R) : R :=
    match n with O => 1 | S n' => (x - 1) * dprod n' (x - 1) end.

  Lemma down_near : forall m z, fin z -> 5 / 2 <= val z <= 1000 -> val z < 7 / 2 + INR m ->
    exists n z', (n <= m)%nat /\ fin z' /\ val z' = val z - INR n /\ 5 / 2 <= val z' < 7 / 2 /\
      forall fuel f a X, (m <= fuel)%nat -> number f -> 1 <= val f -> near a X (val f) ->
      exists f', gamma_down fuel z f = Ok (z', f') /\ number f' /\ 1 <= val f' /\
        near (n + a) (X * dprod n (val z)) (val f').
  Proof.
    destruct lit_35 as [F35 V35].
    induction m as [|m IH]; intros z Fz Bz Hz.
    - simpl INR in Hz. exists 0%nat, z. split; [lia|]. split; [exact Fz|]. split; [simpl; lra|].
      split; [lra|]. intros fuel f a X _ Nf Vf Hn. exists f. split.
      + destruct fuel; cbn [Gamma.gamma_down]; ieee_simpl;
          rewrite le_val, V35 by (apply fin_nonnan; assumption); rewrite Rle_bool_false by lra; reflexivity.
      + split; [exact Nf|]. split; [exact Vf|]. cbn [dprod Nat.add]. rewrite Rmult_1_r. exact Hn.
    - rewrite S_INR in Hz. destruct (Rlt_or_le (val z) (7 / 2)) as [L|L].
      + exists 0%nat, z. split; [lia|]. split; [exact Fz|]. split; [simpl; lra|].
        split; [lra|]. intros fuel f a X _ Nf Vf Hn. exists f. split.
        * destruct fuel; cbn [Gamma.gamma_down]; ieee_simpl;
            rewrite le_val, V35 by (apply fin_nonnan; assumption); rewrite Rle_bool_false by lra; reflexivity.
        * split; [exact Nf|]. split; [exact Vf|]. cbn [dprod Nat.add]. rewrite Rmult_1_r. exact Hn.
      + destruct (down_step P z Fz ltac:(lra)) as [F1 V1].
        destruct (IH (sub z (f64_lit 1.0)) F1 ltac:(lra) ltac:(lra)) as (n & z' & Hn & Fz' & Vz' & Bz' & G).
        exists (S n), z'. split; [lia|]. split; [exact Fz'|].
        split; [rewrite S_INR; lra|]. split; [exact Bz'|].
        intros fuel f a X Hf Nf Vf Hnear. destruct fuel as [|fuel]; [exfalso; lia|].
        assert (G1 : 1 <= val (sub z (f64_lit 1.0))) by lra.
        destruct (mul_big P f _ Nf (fin_nonnan _ F1) Vf G1) as [Nm Vm].
        pose proof (mul_big_1 P f _ Nf (fin_nonnan _ F1) Vf G1) as Vm1.
        destruct (G fuel (mul f (sub z (f64_lit 1.0))) (S (a + 0)) (X * (val z - 1))) as (f' & E & R).
        * lia.
        * exact Nm.
        * exact Vm1.
        * rewrite Vm. apply near_mul; auto. rewrite V1. apply near_exact.
        * exists f'. split.
          { cbn [Gamma.gamma_down]. ieee_simpl. rewrite le_val, V35 by (apply fin_nonnan; assumption).
            rewrite Rle_bool_true by lra. exact E. }
          { destruct R as (R1 & R2 & R3). split; [exact R1|]. split; [exact R2|].
            replace (S n + a)%nat with (n + S (a + 0))%nat by lia. cbn [dprod].
            rewrite <- Rmult_assoc. rewrite <- V1 at 2. exact R3. }
  Qed.

  Lemma dprod_ge_1 : forall n x, 5 / 2 <= x - INR n -> 1 <= dprod n x.
  Proof.
    induction n as [|n IH]; intros x H; cbn [dprod]; [lra|]. rewrite S_INR in H.
    specialize (IH (x - 1) ltac:(lra)). pose proof (pos_INR n). nra.
  Qed.

  Lemma one_mul_eq : forall y, number y -> 1 <= val y -> mul (f64_lit 1.0) y = y.
  Proof.
    intros y N V. apply f64_ext_nz.
    - apply (mul_big P (f64_lit 1.0) y nn_1 N); [rewrite val_1; lra|exact V].
    - exact N.
    - apply one_mul; assumption.
    - rewrite one_mul by assumption. lra.
  Qed.

  (** C14, f64 *)
  Theorem gamma_step_ieee : forall fuel z z1 g g1, (280 <= fuel)%nat ->
    finite z -> finite z1 -> 7 / 2 < Binary.B2R z -> Binary.B2R z1 = Binary.B2R z + 1 ->
    (forall k : Z, Binary.B2R z <> IZR k) -> Binary.B2R z1 <= val (f64_lit 171.624_376_956_302_7) ->
    gamma fuel z = Ok g -> gamma fuel z1 = Ok g1 -> finite g1 ->
    finite g /\
    Rabs (Binary.B2R g1 - Binary.B2R z * Binary.B2R g)
      <= bpow radix2 (-43) * (Binary.B2R z * Binary.B2R g).
  Proof.
    intros fuel z z1 g g1 Hf Fz Fz1 L E1 I U Hg Hg1 Fg1. unfold finite in *.
    rewrite <- (val_fin z Fz), <- (val_fin z1 Fz1) in *.
    destruct max_input as [Fm [Bm Um]]. destruct lit_35 as [F35 V35]. destruct lit_25 as [F25 V25].
    assert (I1 : nonint (val z1)).
    { intros k Hk. apply (I (k - 1)%Z). rewrite minus_IZR. lra. }
    rewrite gamma_nonint in Hg, Hg1 by (auto; lra).
    unfold gamma_general in Hg, Hg1.
    rewrite lt_val in Hg, Hg1 by (apply fin_nonnan; assumption).
    rewrite V35 in Hg, Hg1. rewrite Rlt_bool_true in Hg, Hg1 by lra.
    destruct fuel as [|fuel]; [exfalso; lia|].
    assert (HI : 200 <= INR 200) by (rewrite INR_IZR_INZ; apply IZR_le; lia).
    destruct (down_near 200 z Fz ltac:(lra) ltac:(lra)) as (n & z' & Hn & Fz' & Vz' & Bz' & G).
    (* the run from z *)
    destruct (G (S fuel) (f64_lit 1.0) 0%nat 1) as (f' & E & Nf & Vf & Hnear);
      [lia|apply nn_1|rewrite val_1; lra|rewrite val_1; apply near_exact|].
    rewrite E in Hg. cbn [bind] in Hg. apply ok_inj in Hg.
    (* the run from z + 1 *)
    assert (S1 : sub z1 (f64_lit 1.0) = z).
    { destruct (down_step P z1 Fz1 ltac:(lra)) as [Fs Vs].
      apply f64_ext_nz; [apply fin_nonnan, Fs|apply fin_nonnan, Fz|lra|lra]. }
    assert (D1 : gamma_down (S fuel) z1 (f64_lit 1.0) = gamma_down fuel z z).
    { cbn [Gamma.gamma_down]. ieee_simpl. rewrite le_val, V35 by (apply fin_nonnan; assumption).
      rewrite Rle_bool_true by lra. cbv zeta. rewrite S1.
      rewrite one_mul_eq by (try apply fin_nonnan; auto; lra). reflexivity. }
    destruct (G fuel z 0%nat (val z)) as (f1' & E' & Nf1 & Vf1 & Hnear1);
      [lia|apply fin_nonnan, Fz|lra|apply near_exact|].
    rewrite D1, E' in Hg1. cbn [bind] in Hg1. apply ok_inj in Hg1.
    (* compare *)
    rewrite (val_fin z' Fz') in Bz'. destruct (core_range P z' Fz' ltac:(lra)) as [Fc Bc].
    rewrite <- (val_fin z' Fz') in Bz'.
    destruct (mul_big P (gamma_core z') f' (fin_nonnan _ Fc) Nf ltac:(lra) Vf) as [Ng Vg].
    destruct (mul_big P (gamma_core z') f1' (fin_nonnan _ Fc) Nf1 ltac:(lra) Vf1) as [Ng1 Vg1].
    rewrite Hg in Ng, Vg. rewrite Hg1 in Ng1, Vg1.
    pose proof (near_mul _ _ _ _ _ _ (near_exact (val (gamma_core z'))) Hnear ltac:(lra) Vf) as M.
    pose proof (near_mul _ _ _ _ _ _ (near_exact (val (gamma_core z'))) Hnear1 ltac:(lra) Vf1) as M1.
    rewrite <- Vg in M. rewrite <- Vg1 in M1.
    replace (S (0 + (n + 0))) with (S n) in M, M1 by lia.
    assert (Dp : 1 <= dprod n (val z)) by (apply dprod_ge_1; lra).
    set (C := val (gamma_core z')) in *. set (D := dprod n (val z)) in *.
    assert (Y1 : 1 <= C * D) by nra.
    rewrite Rmult_1_l in M. destruct M as [M_l M_u]. destruct M1 as [M1_l M1_u].
    replace (C * (val z * D)) with (val z * (C * D)) in M1_l, M1_u by ring.
    set (Y := C * D) in *.
    assert (Hn1 : (S n <= 201)%nat) by lia.
    pose proof (pow_up (S n) ltac:(lia)) as PU. pose proof (pow_down (S n)) as PD.
    pose proof u53_small as Hu.
    assert (IN : 0 <= INR (S n) <= 201).
    { split; [apply pos_INR|]. replace 201 with (INR 201) by (rewrite INR_IZR_INZ; reflexivity).
      apply le_INR. exact Hn1. }
    assert (e1 : 3 / 2 * INR (S n) * u53 <= 302 * u53) by (apply Rmult_le_compat_r; lra).
    assert (e2 : INR (S n) * u53 <= 201 * u53) by (apply Rmult_le_compat_r; lra).
    set (pu := (1 + u53) ^ S n) in *. set (pd := (1 - u53) ^ S n) in *.
    assert (PU2 : pu <= 1 + 302 * u53) by lra.
    assert (PD2 : 1 - 201 * u53 <= pd) by lra.
    pose proof (fin_abs_val g1 Fg1) as A1. apply Rabs_lt_inv in A1.
    assert (YZ : 1 <= val z * Y) by nra.
    assert (L1 : pd * (val z * Y) <= val g1).
    { revert M1_l. unfold Rmin. destruct Rle_dec; lra. }
    assert (YO : (7 / 2 * pd) * Y < Om).
    { assert (0 <= pd) by lra. assert (7 / 2 * (pd * Y) <= val z * (pd * Y)) by (apply Rmult_le_compat_r; nra). nra. }
    assert (GO : val g < Om).
    { eapply Rle_lt_trans; [exact M_u|]. eapply Rle_lt_trans; [|exact YO].
      apply Rmult_le_compat_r; lra. }
    assert (L2 : pd * Y <= val g).
    { revert M_l. unfold Rmin. destruct Rle_dec; lra. }
    assert (Fg : fin g).
    { apply fin_iff_val; [exact Ng|]. rewrite Rabs_pos_eq; [exact GO|]. assert (0 <= pd * Y) by nra. lra. }
    split; [exact Fg|]. rewrite <- (val_fin g Fg), <- (val_fin g1 Fg1).
    assert (B43 : 1000 * u53 <= bpow radix2 (-43)).
    { unfold u53. change (-43)%Z with (10 + -53)%Z. rewrite bpow_plus.
      apply Rmult_le_compat_r; [apply bpow_ge_0|]. change (bpow radix2 10) with 1024. lra. }
    set (q := val z * val g).
    assert (W1 : (1 - 201 * u53) * (val z * Y) <= pd * (val z * Y)) by (apply Rmult_le_compat_r; lra).
    assert (W2 : pu * (val z * Y) <= (1 + 302 * u53) * (val z * Y)) by (apply Rmult_le_compat_r; lra).
    assert (Q1 : (1 - 201 * u53) * (val z * Y) <= q).
    { unfold q. eapply Rle_trans; [exact W1|].
      replace (pd * (val z * Y)) with (val z * (pd * Y)) by ring. apply Rmult_le_compat_l; lra. }
    assert (Q2 : q <= (1 + 302 * u53) * (val z * Y)).
    { unfold q. eapply Rle_trans; [|exact W2].
      replace (pu * (val z * Y)) with (val z * (pu * Y)) by ring. apply Rmult_le_compat_l; lra. }
    assert (Q3 : (1 - 201 * u53) * (val z * Y) <= val g1) by lra.
    assert (Q4 : val g1 <= (1 + 302 * u53) * (val z * Y)) by lra.
    clear M_l M_u M1_l M1_u.
    set (T := val z * Y) in *.
    assert (Q0 : 99 / 100 * T <= q).
    { eapply Rle_trans; [|exact Q1]. apply Rmult_le_compat_r; lra. }
    assert (Q5 : T <= 11 / 10 * q) by lra.
    assert (Q6 : 503 * u53 * T <= 503 * u53 * (11 / 10 * q)) by (apply Rmult_le_compat_l; lra).
    assert (Q7 : 1000 * u53 * q <= bpow radix2 (-43) * q) by (apply Rmult_le_compat_r; [lra|exact B43]).
    assert (Q8 : 0 <= u53 * q) by (apply Rmult_le_pos; lra).
    apply Rabs_le. split; lra.
  Qed.
End Ieee.

(** ** The functional equation over the reals *)

Section Exact.
  Context (fma chk : bool).
  Notation A := (exact fma chk).
  Notation gamma := (@gamma A).

  Lemma R_lit_half : R_of_dec 3.5 = 7 / 2 /\ R_of_dec 2.5 = 5 / 2 /\ R_of_dec 1.0 = 1 /\ R_of_dec 0.0 = 0.
  Proof. unfold R_of_dec. cbn [dman dexp]. rewrite !powerRZ_10.
    repeat match goal with |- context [IZR (10 ^ ?e)] =>
      let v := eval vm_compute in (10 ^ e)%Z in change (10 ^ e)%Z with v end.
    repeat split; lra. Qed.

  Lemma R_max_input : R_of_dec 171.624_376_956_302_7 = 171.6243769563027.
  Proof. unfold R_of_dec. cbn [dman dexp]. rewrite !powerRZ_10.
    repeat match goal with |- context [IZR (10 ^ ?e)] =>
      let v := eval vm_compute in (10 ^ e)%Z in change (10 ^ e)%Z with v end.
    lra. Qed.

  Lemma exact_down : forall n z, z < 7 / 2 + INR n -> exists z' p, forall fuel f, (n <= fuel)%nat ->
    @gamma_down A fuel z f = Ok (z', f * p).
  Proof.
    destruct R_lit_half as (E35 & E25 & E1 & E0).
    assert (Stop : forall z, z < 7 / 2 -> forall fuel f, @gamma_down A fuel z f = Ok (z, f * 1)).
    { intros z H fuel f. destruct fuel; cbn [gamma_down]; cbn [exact F lit le add sub mul];
        rewrite E35, Rle_bool_false, Rmult_1_r by lra; reflexivity. }
    induction n as [|n IH]; intros z H.
    - simpl INR in H. exists z, 1. intros. apply Stop. lra.
    - rewrite S_INR in H. destruct (Rlt_or_le z (7 / 2)) as [L|L].
      + exists z, 1. intros. apply Stop. exact L.
      + destruct (IH (z - 1)) as (z' & p & G); [lra|]. exists z', ((z - 1) * p).
        intros fuel f Hf. destruct fuel as [|fuel]; [exfalso; lia|].
        cbn [gamma_down]. cbn [exact F lit le add sub mul]. rewrite E35, Rle_bool_true, E1 by lra.
        rewrite G by lia. f_equal. f_equal. ring.
  Qed.

  Lemma exact_up : forall n z, nonint z -> 5 / 2 < z + INR n -> exists z' p, p <> 0 /\
    forall fuel f, (n <= fuel)%nat -> @gamma_up A fuel z f = Ok (Some (z', f * p)).
  Proof.
    destruct R_lit_half as (E35 & E25 & E1 & E0).
    assert (Stop : forall z, 5 / 2 < z -> forall fuel f, @gamma_up A fuel z f = Ok (Some (z, f * 1))).
    { intros z H fuel f. destruct fuel; cbn [gamma_up]; cbn [exact F lit le add sub mul is_infinite];
        rewrite E25, Rle_bool_false, Rmult_1_r by lra; reflexivity. }
    induction n as [|n IH]; intros z I H.
    - simpl INR in H. exists z, 1. split; [lra|]. intros. apply Stop. lra.
    - rewrite S_INR in H. destruct (Rlt_or_le (5 / 2) z) as [L|L].
      + exists z, 1. split; [lra|]. intros. apply Stop. exact L.
      + destruct (IH (z + 1)) as (z' & p & Z & G); [|lra|].
        { intros k K. apply (I (k - 1)%Z). rewrite minus_IZR. lra. }
        exists z', (z * p). split; [apply Rmult_integral_contrapositive; split; [apply (I 0%Z)|exact Z]|].
        intros fuel f Hf. destruct fuel as [|fuel]; [exfalso; lia|].
        cbn [gamma_up]. cbn [exact F lit le add sub mul is_infinite].
        rewrite E25, Rle_bool_true, E1 by lra. cbv zeta.
        rewrite G by lia. rewrite Rmult_assoc. reflexivity.
  Qed.

  Definition gamma_gen (fuel : nat) (z : R) : res R :=
    if Rlt_bool (7 / 2) z then
      bind (@gamma_down A fuel z 1) (fun zf => let (z, f) := zf in Ok (@gamma_core A z * f))
    else if Rlt_bool z (5 / 2) then
      bind (@gamma_up A fuel z 1) (fun o =>
        match o with
        | None => Ok 0
        | Some (z, f) => Ok (@gamma_core A z * (1 / f))
        end)
    else Ok (@gamma_core A z * 1).

  Lemma exact_nonint : forall fuel z, nonint z -> z <= 171.6243769563027 -> gamma fuel z = gamma_gen fuel z.
  Proof.
    intros fuel z I U. destruct R_lit_half as (E35 & E25 & E1 & E0). pose proof R_max_input as M.
    unfold Gamma.gamma, MAX_INPUT, fract, recip, gamma_gen.
    cbn [exact F lit le lt eq add sub mul div neg is_infinite is_nan trunc infinity nan copysign].
    rewrite E35, E25, E1, E0. rewrite (Rlt_bool_false _ z) by lra.
    rewrite (Req_bool_false z 0) by (apply (I 0%Z)).
    rewrite (Req_bool_false (z - _) 0).
    2:{ intros Q. apply (I (Ztrunc z)). lra. }
    rewrite (Req_bool_false z (- 0)).
    2:{ rewrite Ropp_0. apply (I 0%Z). }
    reflexivity.
  Qed.

  (** C14, exact arithmetic *)
  Theorem gamma_step_exact : forall z, nonint z -> z + 1 <= 171.6243769563027 ->
    z <> 1.5 -> z <> 2.5 -> z <> 3.5 ->
    exists n0, forall fuel, (n0 <= fuel)%nat -> exists g g1 : R,
      @Gamma.gamma A fuel z = Ok g /\ @Gamma.gamma A fuel (z + 1)%R = Ok g1 /\ g1 = z * g.
  Proof.
    intros z I U N1 N2 N3.
    assert (I1 : nonint (z + 1)).
    { intros k K. apply (I (k - 1)%Z). rewrite minus_IZR. lra. }
    assert (Z0 : z <> 0) by (apply (I 0%Z)).
    destruct R_lit_half as (E35 & E25 & E1 & E0).
    destruct (Rlt_or_le (7 / 2) z) as [C1|C1].
    - assert (HI : 200 <= INR 200) by (rewrite INR_IZR_INZ; apply IZR_le; lia).
      destruct (exact_down 200 z ltac:(lra)) as (z' & p & G). exists 201%nat. intros fuel Hf.
      rewrite !exact_nonint by (auto; lra). unfold gamma_gen.
      rewrite !Rlt_bool_true by lra.
      destruct fuel as [|fuel]; [exfalso; lia|].
      assert (D : @gamma_down A (S fuel) (z + 1)%R 1 = @gamma_down A fuel z z).
      { cbn [gamma_down]. cbn [exact F lit le add sub mul]. rewrite E35, Rle_bool_true, E1 by lra.
        replace (z + 1 - 1) with z by ring. rewrite Rmult_1_l. reflexivity. }
      rewrite D, !G by lia. cbn [bind]. do 2 eexists. split; [reflexivity|]. split; [reflexivity|]. ring.
    - destruct (Rlt_or_le z (5 / 2)) as [C2|C2].
      + destruct (Rle_or_lt (z + 1) (5 / 2)) as [C3|C3].
        * (* both go up *)
          assert (exists n, 5 / 2 < z + 1 + INR n) as [n Hn].
          { exists (Z.to_nat (Rdefinitions.up (5 / 2 - z))). destruct (archimed (5 / 2 - z)) as [Ar _].
            rewrite INR_IZR_INZ, Z2Nat.id.
            - lra.
            - apply le_IZR. simpl. lra. }
          destruct (exact_up n (z + 1) I1 Hn) as (z' & p & Zp & G). exists (S n). intros fuel Hf.
          rewrite !exact_nonint by (auto; lra). unfold gamma_gen.
          rewrite !(Rlt_bool_false (7 / 2)) by lra. rewrite !Rlt_bool_true by lra.
          destruct fuel as [|fuel]; [exfalso; lia|].
          assert (D : @gamma_up A (S fuel) z 1 = @gamma_up A fuel (z + 1)%R z).
          { cbn [gamma_up]. cbn [exact F lit le add sub mul is_infinite]. rewrite E25, Rle_bool_true, E1 by lra.
            cbv zeta. rewrite Rmult_1_l. reflexivity. }
          rewrite D, !G by lia. cbn [bind]. do 2 eexists. split; [reflexivity|]. split; [reflexivity|].
          field. auto.
        * (* one step up *)
          exists 2%nat. intros fuel Hf. rewrite !exact_nonint by (auto; lra). unfold gamma_gen.
          rewrite !(Rlt_bool_false (7 / 2)) by lra. rewrite (Rlt_bool_true z), (Rlt_bool_false (z + 1)) by lra.
          destruct fuel as [|[|fuel]]; [exfalso; lia|exfalso; lia|].
          assert (D : @gamma_up A (S (S fuel)) z 1 = Ok (Some ((z + 1)%R, z))).
          { cbn [gamma_up]. cbn [exact F lit le add sub mul is_infinite]. rewrite E25, E1.
            rewrite (Rle_bool_true z), (Rle_bool_false (z + 1)) by lra. rewrite Rmult_1_l. reflexivity. }
          rewrite D. cbn [bind]. do 2 eexists. split; [reflexivity|]. split; [reflexivity|]. field. exact Z0.
      + (* one step down *)
        exists 2%nat. intros fuel Hf. rewrite !exact_nonint by (auto; lra). unfold gamma_gen.
        rewrite (Rlt_bool_false _ z), (Rlt_bool_true _ (z + 1)), (Rlt_bool_false z) by lra.
        destruct fuel as [|[|fuel]]; [exfalso; lia|exfalso; lia|].
        assert (D : @gamma_down A (S (S fuel)) (z + 1)%R 1 = Ok (z, z)).
        { cbn [gamma_down]. cbn [exact F lit le add sub mul]. rewrite E35, E1.
          replace (z + 1 - 1) with z by ring.
          rewrite (Rle_bool_true _ (z + 1)), (Rle_bool_false _ z), Rmult_1_l by lra. reflexivity. }
        rewrite D. cbn [bind]. do 2 eexists. split; [reflexivity|]. split; [reflexivity|]. ring.
  Qed.
End Exact.
