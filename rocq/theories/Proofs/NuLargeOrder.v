(** * Large orders: the downward recurrences of besseljy and besselik overflow *)

From Coq Require Import ZArith Reals Bool Lra Lia List String.
From Flocq Require Mult_error.
From Flocq Require Import Core IEEE754.BinarySingleNaN IEEE754.Binary IEEE754.Bits.
From Verif.Model Require Import Base Arith BesselTables Bessel.
From Verif.Float Require Import Bits64 Ieee Exact Platforms.
From Verif.Spec Require Import F64Spec Outcome.
From Verif.Proofs Require Import F64 F64Ops Lits Ext ExpBounds FlErr GammaAcc GserAcc GcfLoop DawsonNeg DawsonLarge NuPanic KHalfOver KHalfI.
Import ListNotations.
Open Scope R_scope.
Local Notation B := Binary.B2R.
Local Notation u := (/ 2 ^ 53).

Lemma jy_cf1_gen : forall {A : arith} (inv : nat -> F A * F A * F A * F A * Z -> Prop) (nu xi xi2 h : F A) (s : Z),
  (forall j i st, (Z.of_nat j < 10000)%Z -> inv j st -> inv (S j) (fst (jy_cf1_body xi2 i st))) ->
  inv 0%nat (@mul A xi2 nu, @lit A 0.0%dec, (if @lt A (@mul A nu xi) FPMIN then FPMIN else @mul A nu xi), (if @lt A (@mul A nu xi) FPMIN then FPMIN else @mul A nu xi), 1%Z) ->
  jy_cf1 nu xi xi2 = Ok (h, s) -> exists m b d c, inv m (b, d, c, h, s).
Proof.
  intros A inv nu xi xi2 h s HS H0 E. unfold jy_cf1 in E.
  assert (LL : (Z.of_nat (List.length (range 0 MAXIT)) <= 10000)%Z) by (unfold range; rewrite count_len; unfold MAXIT; lia).
  destruct (for_break_ix (jy_cf1_body xi2) inv 10000%Z (range 0 MAXIT) 0 _ HS ltac:(cbn [Z.of_nat]; lia) H0) as [m Hm].
  destruct (for_break _ _ _) as [[[[[b d] c] h'] s'] ok]. cbn [fst] in Hm. destruct ok; [|discriminate]. injection E as <- <-. exists m, b, d, c. exact Hm.
Qed.

Lemma jy_large_inv : forall {A : arith} (x xmu xmu2 xi w f rjl a b c : F A), jy_large x xmu xmu2 xi w f rjl = Ok (a, b, c) -> exists p q g t,
  g = @div A (@sub A p f) q /\ t = @Arith.sqrt A (@div A w (@add A (@mul A (@sub A p f) g) q)) /\
  a = (if @lt A rjl (@lit A 0.0%dec) then @neg A t else t) /\ b = @mul A g a /\
  c = @sub A (@mul A (@mul A xmu xi) b) (@mul A b (@add A p (@div A q g))).
Proof.
  intros A x xmu xmu2 xi w f rjl a b c E. unfold jy_large in E. destruct (jy_cf2 x xmu2 xi) as [[p q]|e|]; cbn [bind] in E; try discriminate.
  injection E as <- <- <-. exists p, q. eexists. eexists. split; [reflexivity|]. split; [reflexivity|]. split; [reflexivity|]. split; reflexivity.
Qed.

Lemma besseljy_inv : forall {A : arith} (nu x j y j' y' : F A), @lt A x (@lit A 2.0%dec) = false -> besseljy nu x = Ok (j, y, j', y') ->
  exists h s rl rp a b c yn,
    let nl := Z.max 0 (as_usize (@add A (@sub A nu x) (@lit A 1.5%dec))) in
    let xi := @div A (@lit A 1.0%dec) x in let xi2 := @mul A (@lit A 2.0%dec) xi in
    let xmu := @sub A nu (of_int nl) in
    let r0 := @mul A (of_int s) FPMIN in
    let rl' := if @Arith.eq A rl (@lit A 0.0%dec) then EPS else rl in
    jy_cf1 nu xi xi2 = Ok (h, s) /\ jy_down nl nu xi r0 (@mul A h r0) = (rl, rp) /\
    jy_large x xmu (powi2 xmu) xi (@div A xi2 (@Arith.PI A)) (@div A rp rl') rl' = Ok (a, b, c) /\
    j = @mul A r0 (@div A a rl') /\ nu_up (@sub A) nl xmu xi2 b c = (y, yn).
Proof.
  intros A nu x j y j' y' L E. unfold besseljy, jy_steps in E. rewrite L in E.
  destruct (negb _); [|discriminate].
  destruct (jy_cf1 _ _ _) as [[h s]|e|] eqn:EC; cbn [bind] in E; try discriminate.
  destruct (jy_down _ _ _ _ _) as [rl rp] eqn:ED.
  destruct (jy_large _ _ _ _ _ _ _) as [[[a b] c]|e|] eqn:EL; cbn [bind] in E; try discriminate.
  destruct (nu_up _ _ _ _ _ _) as [yo yn] eqn:EU. injection E as <- <- _ _.
  exists h, s, rl, rp, a, b, c, yn. cbv zeta. repeat (split; [first [assumption|reflexivity]|]). exact EU.
Qed.

Lemma besselik_inv : forall {A : arith} (nu x i k i' k' : F A), besselik nu x = Ok (i, k, i', k') ->
  exists h ril ripl rk z,
    let xi := @div A (@lit A 1.0%dec) x in
    ik_cf1 nu xi (@mul A (@lit A 2.0%dec) xi) = Ok h /\
    ik_down (as_usize (@add A nu (@lit A 0.5%dec))) nu xi FPMIN (@mul A h FPMIN) = (ril, ripl) /\
    i = @div A (@mul A (@div A xi (@sub A (@mul A (@div A ripl ril) rk) z)) FPMIN) ril.
Proof.
  intros A nu x i k i' k' E. unfold besselik in E.
  destruct (negb _); [|discriminate].
  destruct (ik_cf1 _ _ _) as [h|e|] eqn:EC; cbn [bind] in E; try discriminate.
  destruct (ik_down _ _ _ _ _) as [ril ripl] eqn:ED.
  match type of E with context [bind ?t _] => destruct t as [[rk r1]|e|] end; cbn [bind] in E; try discriminate.
  destruct (nu_up _ _ _ _ _ _) as [yo yn]. injection E as <- _ _ _.
  exists h, ril, ripl, rk. eexists. cbv zeta. split; [exact EC|]. split; [exact ED|]. reflexivity.
Qed.

Section Large.
  Context (P : platform).
  Local Notation add := (f64_add P). Local Notation mul := (f64_mul P). Local Notation sub := (f64_sub P). Local Notation div := (f64_div P).
  Local Notation nf := (fun z : f64 => Binary.is_finite z = false).
  Local Notation isnan := (fun z : f64 => Binary.is_nan z = true).

  Lemma sub_nf : forall a z, nf a -> nf z -> nf (sub a z).
  Proof.
    intros a z Ha H. destruct (nf_cases z H) as [N|[s ->]]; [apply nan_nf, sub_nan_r, N|].
    destruct (nf_cases a Ha) as [N|[s' ->]]; [apply nan_nf, sub_nan_l, N|]. destruct s, s'; reflexivity.
  Qed.
  Lemma sub_inf_fin : forall z, fin z -> sub (B754_infinity false) z = B754_infinity false.
  Proof. intros [s|s|s pl E|s m e E] F; try discriminate; reflexivity. Qed.

  Lemma fmt_two : forall r, fmt r -> fmt (2 * r).
  Proof. intros r H. rewrite Rmult_comm. change 2 with (bpow radix2 1). apply Mult_error.mult_bpow_pos_exact_FLT; [exact H|lia]. Qed.

  Lemma mul_ge2 : forall w z, fin w -> 2 <= val w -> positive z -> positive (mul w z) /\ (val z = Om \/ Rmin Om (2 * val z) <= val (mul w z)) /\ (val z = Om -> mul w z = B754_infinity false).
  Proof.
    intros w z Fw Hw [Nz Vz]. destruct (fin_or_inf z Nz) as [Fz|[s ->]].
    - destruct (mul_spec P w z Fw Fz) as [N V]. rewrite <- !val_fin in V by assumption.
      assert (L : 2 * val z <= val w * val z) by (apply Rmult_le_compat_r; lra). pose proof (val_bound z) as [_ VB]. pose proof Om_pos as O0.
      assert (Q : Rmin Om (2 * val z) <= val (mul w z)).
      { rewrite V. unfold Rmin. destruct (Rle_dec Om (2 * val z)) as [A|A].
        - apply rs_ge; [rewrite Om_bpow; apply fmt_bpow; lia|lra|lra].
        - apply rs_ge; [apply fmt_two, val_fmt|lra|exact L]. }
      split; [split; [exact N|]|split; [right; exact Q|]].
      + eapply Rlt_le_trans; [|exact Q]. apply Rmin_glb_lt; lra.
      + intros E. exfalso. apply fin_iff_val in Fz; [|exact Nz]. rewrite E, Rabs_pos_eq in Fz; lra.
    - assert (s = false) by (apply inf_nonneg; lra). subst s. rewrite mul_fin_inf by (try assumption; lra). rewrite val_inf_f.
      split; [split; [reflexivity|rewrite val_inf_f; apply Om_pos]|]. split; [left; reflexivity|reflexivity].
  Qed.

  Definition jstep (xi : f64) (s : f64 * f64 * f64) (_ : Z) : f64 * f64 * f64 :=
    let '(fact, r, r') := s in let t := add (mul fact r) r' in let fact := sub fact xi in (fact, t, sub (mul fact t) r).

  Lemma jstep_nf : forall xi l f r r', nf r -> nf r' -> let '(_, a, b) := fold_left (jstep xi) l (f, r, r') in nf a /\ nf b.
  Proof.
    intros xi l. induction l as [|i l IH]; intros f r r' H H'; [split; assumption|]. cbn [fold_left jstep].
    assert (T : nf (add (mul f r) r')) by (apply add_nf; [apply mul_nf, H|exact H']).
    apply IH; [exact T|]. apply sub_nf; [apply mul_nf, T|exact H].
  Qed.

  Section Down.
    Variables (xi : f64) (N : R).
    Hypotheses (Fxi : fin xi) (Vxi : 144 / 100000 <= val xi <= 51 / 100) (HN : 4000 <= N <= 2 ^ 33).

    Definition jinv (j : nat) (s : f64 * f64 * f64) : Prop := let '(f, r, r') := s in
      (nf r /\ nf r') \/
      (fin f /\ Rabs (val f - (N - INR j) * val xi) <= (INR j + 1) / 2 ^ 19 /\ fin r /\ nonneg r' /\ bpow radix2 (-970 + Z.of_nat j) <= val r).

    Lemma jinv_step : forall j s i, (j < 2000)%nat -> jinv j s -> jinv (S j) (jstep xi s i).
    Proof.
      intros j [[f r] r'] i Hj [[A1 A2]|(Ff & Vf & Fr & Pr' & Vr)]; unfold jstep, jinv.
      { left. assert (T : nf (add (mul f r) r')) by (apply add_nf; [apply mul_nf, A1|exact A2]).
        split; [exact T|]. apply sub_nf; [apply mul_nf, T|exact A1]. }
      destruct (dinv_fact xi N Vxi HN j f ltac:(lia) Vf) as [Rf J].
      pose proof (bpow_gt_0 radix2 (-970 + Z.of_nat j)) as B0.
      assert (Pr : positive r) by (split; [apply fin_nonnan, Fr|lra]).
      assert (RO : val r < Om). { apply fin_iff_val in Fr; [|apply fin_nonnan, Fr]. rewrite Rabs_pos_eq in Fr by lra. exact Fr. }
      destruct (mul_ge2 f r Ff ltac:(lra) Pr) as ([N1 M0] & [M1|M1] & _); [lra|].
      destruct (add_nonneg P (mul f r) r') as ([Na _] & Va & _); [split; [exact N1|lra]|exact Pr'|].
      set (t := add (mul f r) r') in *. assert (Pt : positive t) by (split; [exact Na|lra]).
      assert (R : rounds (sub f xi) (val f - val xi)) by (rewrite (val_fin _ Ff), (val_fin _ Fxi); apply sub_spec; assumption).
      assert (B5 : bpow radix2 (-1022) <= 1) by (apply (bpow_le radix2 (-1022) 0); lia).
      assert (B6 : 2 ^ 40 <= bpow radix2 1000) by (apply Rle_trans with (bpow radix2 40); [simpl; lra|apply bpow_le; lia]).
      destruct (fpos _ _ R) as [F V]; [lra|]. set (f' := sub f xi) in *. clearbody f'.
      assert (Vf' : Rabs (val f' - (N - INR (S j)) * val xi) <= (INR (S j) + 1) / 2 ^ 19).
      { rewrite S_INR, val_fin by exact F. apply Rabs_le_inv in Vf. apply Rabs_le.
        replace ((N - (INR j + 1)) * val xi) with ((N - INR j) * val xi - val xi) by ring. lra. }
      destruct (dinv_fact xi N Vxi HN (S j) f' ltac:(lia) Vf') as [Rf' _].
      destruct (mul_ge2 f' t F ltac:(lra) Pt) as ([N2 M2] & M3 & M4).
      destruct (fin_or_inf t Na) as [Ft|[s Et]].
      - assert (TO : val t < Om). { pose proof Ft as G. apply fin_iff_val in G; [|exact Na]. destruct Pt. rewrite Rabs_pos_eq in G by lra. exact G. }
        assert (T2 : 2 * val r <= val t). { unfold Rmin in M1. destruct (Rle_dec Om (2 * val r)); lra. }
        destruct M3 as [M3|M3]; [lra|]. right. split; [exact F|]. split; [exact Vf'|]. split; [exact Ft|]. split.
        + destruct (fin_or_inf (mul f' t) N2) as [Fa|[s Ea]].
          * destruct (sub_spec P _ _ Fa Fr) as [Ns Vs]. split; [exact Ns|]. rewrite Vs. apply rs_pos. rewrite <- !val_fin by assumption.
            unfold Rmin in M3. destruct (Rle_dec Om (2 * val t)); lra.
          * rewrite Ea in M2. assert (s = false) by (apply inf_nonneg; lra). subst s. rewrite Ea, sub_inf_fin by exact Fr.
            split; [reflexivity|]. rewrite val_inf_f. pose proof Om_pos. lra.
        + replace (-970 + Z.of_nat (S j))%Z with (1 + (-970 + Z.of_nat j))%Z by lia. rewrite bpow_plus. change (bpow radix2 1) with 2. lra.
      - left. assert (s = false). { apply inf_nonneg. rewrite <- Et. destruct Pt. lra. } subst s.
        split; [rewrite Et; reflexivity|]. rewrite M4 by (rewrite Et; reflexivity). rewrite sub_inf_fin by exact Fr. reflexivity.
    Qed.

    Lemma jinv_run : forall m i j s, (j + m <= 2000)%nat -> jinv j s -> jinv (j + m) (fold_left (jstep xi) (count_from i m) s).
    Proof.
      induction m as [|m IH]; intros i j s Hj H; [rewrite Nat.add_0_r; exact H|].
      change (count_from i (S m)) with (i :: count_from (i + 1) m). cbn [fold_left]. replace (j + S m)%nat with (S j + m)%nat by lia.
      apply IH; [lia|]. apply jinv_step; [lia|exact H].
    Qed.

    Lemma jrun_nf : forall n f r r', (2000 <= n)%nat -> jinv 0 (f, r, r') ->
      let '(_, a, b) := fold_left (jstep xi) (count_from 0 n) (f, r, r') in nf a /\ nf b.
    Proof.
      intros n f r r' Hn H. replace n with (2000 + (n - 2000))%nat by lia. rewrite count_from_app, fold_left_app.
      pose proof (jinv_run 2000 0%Z 0%nat _ ltac:(lia) H) as D. change (0 + 2000)%nat with 2000%nat in D.
      destruct (fold_left (jstep xi) (count_from 0 2000) (f, r, r')) as [[f1 r1] r1'].
      assert (NF : nf r1 /\ nf r1').
      { destruct D as [D|(_ & _ & F1 & _ & V1)]; [exact D|]. exfalso. apply fin_iff_val in F1; [|apply fin_nonnan, F1].
        pose proof (bpow_gt_0 radix2 (-970 + Z.of_nat 2000)). rewrite Rabs_pos_eq in F1 by lra.
        assert (bpow radix2 1024 <= bpow radix2 (-970 + Z.of_nat 2000)) by (apply bpow_le; lia). rewrite Om_bpow in F1. lra. }
      apply jstep_nf; apply NF.
    Qed.
  End Down.

  Lemma usize_ge : forall z k, fin z -> (0 <= k < 2 ^ 60)%Z -> IZR k <= val z -> (k <= @as_usize (ieee P) z)%Z.
  Proof.
    intros z k F Hk H. unfold as_usize. ieee_simpl. rewrite to_int_fin by exact F. apply Ztrunc_le in H. rewrite Ztrunc_IZR in H.
    change (2 ^ 64 - 1)%Z with 18446744073709551615%Z. lia.
  Qed.

  (** the first continued fraction of besseljy yields no negative number and keeps the sign *)
  Definition cinv (j : nat) (st : f64 * f64 * f64 * f64 * Z) : Prop := let '(b, d, c, h, s) := st in
    fin b /\ 10 <= B b <= 2 ^ 35 + 2 * INR j /\ fin d /\ 0 <= B d <= 1 /\ fin c /\ 4 <= B c <= 2 ^ 36 /\ nonneg h /\ s = 1%Z.

  Lemma clip_id : forall z, fin z -> / 2 <= B z -> @clip_fpmin (ieee P) z = z.
  Proof.
    intros z Fz Vz. unfold clip_fpmin. ieee_simpl. destruct (fpmin_facts P) as [Fp Vp].
    replace (f64_lt (f64_abs z) (@FPMIN (ieee P))) with false; [reflexivity|].
    assert (FA : fin (f64_abs z)) by (rewrite fin_abs; exact Fz).
    symmetry. apply lt_false; [apply fin_nonnan, FA|apply fin_nonnan, Fp|]. rewrite Vp, (val_fin _ FA), B2R_abs, Rabs_pos_eq by lra.
    apply Rle_trans with (bpow radix2 (-1)); [apply bpow_le; lia|simpl; lra].
  Qed.

  Lemma recip : forall z, fin z -> 4 <= B z <= 2 ^ 37 -> fin (div (f64_lit 1.0) z) /\ / 2 ^ 40 <= B (div (f64_lit 1.0) z) <= 3 / 10.
  Proof.
    intros z Fz Vz. assert (I : / 2 ^ 38 <= / B z <= / 4) by (split; apply Rinv_le_contravar; lra).
    assert (B5 : bpow radix2 (-1022) <= / 2 ^ 60) by (apply Rle_trans with (bpow radix2 (-60)); [apply bpow_le; lia|simpl; lra]).
    assert (B6 : 2 ^ 60 <= bpow radix2 1000) by (apply Rle_trans with (bpow radix2 60); [simpl; lra|apply bpow_le; lia]).
    pose proof (div_spec P (f64_lit 1.0) z fin_1 Fz ltac:(lra)) as R. rewrite <- (val_fin _ fin_1), val_1 in R. unfold Rdiv in R. rewrite Rmult_1_l in R.
    destruct (fpos _ _ R) as [F V]; [lra|]. split; [exact F|lra].
  Qed.

  Lemma cinv_step : forall xi2 j i st, fin xi2 -> 0 <= B xi2 <= 11 / 10 -> (Z.of_nat j < 10000)%Z -> cinv j st ->
    cinv (S j) (fst (@jy_cf1_body (ieee P) xi2 i st)).
  Proof.
    intros xi2 j i [[[[b d] c] h] s] Fx2 Vx2 Hj (Fb & Vb & Fd & Vd & Fc & Vc & Hh & Hs).
    assert (J : 0 <= INR j <= 10000). { split; [apply pos_INR|]. rewrite INR_IZR_INZ. apply IZR_le. lia. }
    assert (B5 : bpow radix2 (-1022) <= / 2 ^ 60) by (apply Rle_trans with (bpow radix2 (-60)); [apply bpow_le; lia|simpl; lra]).
    assert (B6 : 2 ^ 60 <= bpow radix2 1000) by (apply Rle_trans with (bpow radix2 60); [simpl; lra|apply bpow_le; lia]).
    assert (EQ : fst (@jy_cf1_body (ieee P) xi2 i (b, d, c, h, s)) =
      (let b := add b xi2 in let d := div (f64_lit 1.0) (@clip_fpmin (ieee P) (sub b d)) in let c := @clip_fpmin (ieee P) (sub b (div (f64_lit 1.0) c)) in
       (b, d, c, mul h (mul c d), if f64_lt d (f64_lit 0.0) then (- s)%Z else s))) by reflexivity.
    rewrite EQ. clear EQ. cbv zeta.
    destruct (fpos _ _ (add_spec P b xi2 Fb Fx2)) as [F3 V3]; [lra|].
    assert (GE : B b <= B (add b xi2)).
    { rewrite <- (val_fin _ Fb), <- (val_fin _ F3). apply (add_nonneg P b xi2); (split; [apply fin_nonnan; assumption|rewrite val_fin by assumption; lra]). }
    set (b' := add b xi2) in *. clearbody b'.
    assert (V3' : 10 * (1 - u) <= B b' <= 2 ^ 35 + 2 * INR j + 2) by (split; lra).
    assert (V3l : 10 <= B b') by lra.
    destruct (fpos _ _ (sub_spec P b' d F3 Fd)) as [F4 V4]; [lra|]. rewrite (clip_id (sub b' d)) by (try assumption; lra). set (q := sub b' d) in *. clearbody q.
    destruct (recip q F4 ltac:(lra)) as [F5 V5]. set (d' := div (f64_lit 1.0) q) in *. clearbody d'.
    destruct (recip c Fc ltac:(lra)) as [F6 V6]. set (ci := div (f64_lit 1.0) c) in *. clearbody ci.
    destruct (fpos _ _ (sub_spec P b' ci F3 F6)) as [F7 V7]; [lra|]. rewrite (clip_id (sub b' ci)) by (try assumption; lra). set (c' := sub b' ci) in *. clearbody c'.
    assert (L8 : / 2 ^ 40 <= B c' * B d' <= 2 ^ 37).
    { split; [apply Rle_trans with (4 * / 2 ^ 40); [lra|apply Rmult_le_compat; lra]|apply Rle_trans with (2 ^ 36 * 1); [apply Rmult_le_compat; lra|lra]]. }
    destruct (fpos _ _ (mul_spec P c' d' F7 F5)) as [F8 V8]; [lra|]. set (del := mul c' d') in *. clearbody del.
    replace (f64_lt d' (f64_lit 0.0)) with false by (symmetry; apply lt_false; [apply fin_nonnan, F5|apply nn_0|rewrite val_0, val_fin by exact F5; lra]).
    assert (NN : nonneg (mul h del)) by (apply mul_nonneg_fin; [exact Hh|exact F8|rewrite val_fin by exact F8; lra]).
    unfold cinv. rewrite S_INR. repeat (split; [first [assumption|lra]|]). assumption.
  Qed.

  Lemma jy_cf1_nonneg : forall nu xi xi2 h s, fin nu -> 4000 <= val nu <= 2 ^ 33 -> fin xi -> 144 / 100000 <= val xi <= 51 / 100 ->
    fin xi2 -> 289 / 100000 <= val xi2 <= 11 / 10 -> @jy_cf1 (ieee P) nu xi xi2 = Ok (h, s) -> nonneg h /\ s = 1%Z.
  Proof.
    intros nu xi xi2 h s Fu Vu Fxi Vxi Fx2 Vx2 E.
    assert (B5 : bpow radix2 (-1022) <= / 2 ^ 60) by (apply Rle_trans with (bpow radix2 (-60)); [apply bpow_le; lia|simpl; lra]).
    assert (B6 : 2 ^ 60 <= bpow radix2 1000) by (apply Rle_trans with (bpow radix2 60); [simpl; lra|apply bpow_le; lia]).
    pose proof (mul_spec P nu xi Fu Fxi) as R1. rewrite <- !val_fin in R1 by assumption.
    assert (L1 : 5 <= val nu * val xi <= 2 ^ 33). { split; [apply Rle_trans with (4000 * (144 / 100000)); [lra|apply Rmult_le_compat; lra]|apply Rle_trans with (2 ^ 33 * 1); [apply Rmult_le_compat; lra|lra]]. }
    destruct (fpos _ _ R1) as [F1 V1]; [lra|].
    destruct (fpmin_facts P) as [Fp Vp].
    assert (Vp1 : bpow radix2 (-970) <= 1) by (apply (bpow_le radix2 (-970) 0); lia).
    assert (LT : f64_lt (mul nu xi) (@FPMIN (ieee P)) = false) by (apply lt_false; [apply fin_nonnan, F1|apply fin_nonnan, Fp|rewrite Vp, val_fin by exact F1; lra]).
    pose proof (mul_spec P xi2 nu Fx2 Fu) as R2. rewrite <- !val_fin in R2 by assumption.
    assert (L2 : 11 <= val xi2 * val nu <= 2 ^ 34). { split; [apply Rle_trans with (289 / 100000 * 4000); [lra|apply Rmult_le_compat; lra]|apply Rle_trans with (11 / 10 * 2 ^ 33); [apply Rmult_le_compat; lra|lra]]. }
    destruct (fpos _ _ R2) as [F2 V2]; [lra|]. rewrite (val_fin _ Fx2) in Vx2.
    assert (C0 : cinv 0 (mul xi2 nu, f64_lit 0.0, mul nu xi, mul nu xi, 1%Z)).
    { unfold cinv. assert (F0 : fin (f64_lit 0.0)) by reflexivity. rewrite <- (val_fin _ F0), val_0.
      repeat (split; [first [assumption|exact F0|simpl INR; lra]|]). split; [|reflexivity]. split; [apply fin_nonnan, F1|]. rewrite val_fin by exact F1. lra. }
    destruct (@jy_cf1_gen (ieee P) cinv nu xi xi2 h s) as (m & b & d & c & Hm); [| |exact E|split; apply Hm].
    - intros j i st Hj. exact (cinv_step xi2 j i st Fx2 ltac:(lra) Hj).
    - ieee_simpl. rewrite LT. exact C0.
  Qed.

  Lemma xi_facts : forall x, number x -> 2 <= val x <= 690 -> let xi := div (f64_lit 1.0) x in
    fin xi /\ 144 / 100000 <= val xi <= 51 / 100 /\ fin (mul (f64_lit 2.0) xi) /\ 289 / 100000 <= val (mul (f64_lit 2.0) xi) <= 11 / 10.
  Proof.
    intros x Nx Hx xi.
    assert (Fx : fin x) by (apply fin_iff_val; [exact Nx|]; pose proof Om_big; rewrite Rabs_pos_eq; lra).
    assert (Y : / 690 <= / B x <= / 2) by (rewrite <- val_fin by exact Fx; split; apply Rinv_le_contravar; lra).
    assert (B5 : bpow radix2 (-1022) <= / 2 ^ 60) by (apply Rle_trans with (bpow radix2 (-60)); [apply bpow_le; lia|simpl; lra]).
    assert (B6 : 2 ^ 60 <= bpow radix2 1000) by (apply Rle_trans with (bpow radix2 60); [simpl; lra|apply bpow_le; lia]).
    pose proof (div_spec P (f64_lit 1.0) x fin_1 Fx ltac:(rewrite <- val_fin by exact Fx; lra)) as R. rewrite <- (val_fin _ fin_1), val_1 in R. unfold Rdiv in R. rewrite Rmult_1_l in R.
    destruct (fpos _ _ R) as [F V]; [lra|]. fold xi in F, V. rewrite (val_fin _ F). split; [exact F|]. split; [lra|].
    pose proof (mul_spec P (f64_lit 2.0) xi fin_2 F) as R2. rewrite <- (val_fin _ fin_2), val_2 in R2.
    destruct (fpos _ _ R2) as [F2 V2]; [lra|]. rewrite (val_fin _ F2). split; [exact F2|]. lra.
  Qed.

  Lemma range_mul : forall nu xi, fin nu -> 4000 <= val nu <= 2 ^ 33 -> fin xi -> 144 / 100000 <= val xi <= 51 / 100 ->
    fin (mul nu xi) /\ Rabs (val (mul nu xi) - (val nu - INR 0) * val xi) <= (INR 0 + 1) / 2 ^ 19.
  Proof.
    intros nu xi Fu Vu Fxi Vxi.
    assert (R : rounds (mul nu xi) (val nu * val xi)) by (rewrite (val_fin _ Fu), (val_fin _ Fxi); apply mul_spec; assumption).
    assert (L : 1 <= val nu * val xi <= 2 ^ 33) by (split; [apply Rle_trans with (4000 * (144 / 100000)); [lra|apply Rmult_le_compat; lra]|apply Rle_trans with (2 ^ 33 * 1); [apply Rmult_le_compat; lra|lra]]).
    assert (B5 : bpow radix2 (-1022) <= 1) by (apply (bpow_le radix2 (-1022) 0); lia).
    assert (B6 : 2 ^ 40 <= bpow radix2 1000) by (apply Rle_trans with (bpow radix2 40); [simpl; lra|apply bpow_le; lia]).
    destruct (fpos _ _ R) as [F V]; [lra|]. split; [exact F|]. rewrite (val_fin _ F). simpl INR. apply Rabs_le. lra.
  Qed.

  Lemma jy_down_nf : forall nl nu xi r r' a b, (2000 <= nl)%Z -> fin nu -> 4000 <= val nu <= 2 ^ 33 -> fin xi -> 144 / 100000 <= val xi <= 51 / 100 ->
    fin r -> bpow radix2 (-970) <= val r -> nonneg r' -> @jy_down (ieee P) nl nu xi r r' = (a, b) -> nf a /\ nf b.
  Proof.
    intros nl nu xi r r' a b Hn Fu Vu Fxi Vxi Fr Vr Pr' E. destruct (range_mul nu xi Fu Vu Fxi Vxi) as [F V].
    assert (J0 : jinv xi (val nu) 0 (mul nu xi, r, r')).
    { right. split; [exact F|]. split; [exact V|]. split; [exact Fr|]. split; [exact Pr'|]. exact Vr. }
    pose proof (jrun_nf xi (val nu) Fxi Vxi Vu (Z.to_nat (nl - 0)) _ _ _ ltac:(lia) J0) as W.
    unfold jy_down, range in E.
    assert (E' : (let '(_, a, b) := fold_left (jstep xi) (count_from 0 (Z.to_nat (nl - 0))) (mul nu xi, r, r') in (a, b)) = (a, b)) by exact E.
    destruct (fold_left (jstep xi) (count_from 0 (Z.to_nat (nl - 0))) (mul nu xi, r, r')) as [[f1 r1] r2]. injection E' as <- <-. exact W.
  Qed.

  Lemma up_nan : forall xmu xi2 l c n, isnan c -> isnan n ->
    let r := fold_left (fun (s : f64 * f64) (i : Z) => (snd s, sub (mul (mul (add xmu (f64_of_Z i)) xi2) (snd s)) (fst s))) l (c, n) in isnan (fst r) /\ isnan (snd r).
  Proof.
    intros xmu xi2 l. induction l as [|i l IH]; intros c n Hc Hn; [split; assumption|]. cbn [fold_left fst snd]. apply IH; [exact Hn|apply sub_nan_r, Hc].
  Qed.

  Lemma jy_large_nan : forall x xmu xmu2 xi w f rjl a b c, isnan f -> @jy_large (ieee P) x xmu xmu2 xi w f rjl = Ok (a, b, c) -> isnan a /\ isnan b /\ isnan c.
  Proof.
    intros x xmu xmu2 xi w f rjl a b c Hf E. destruct (jy_large_inv _ _ _ _ _ _ _ _ _ _ E) as (p & q & g & t & Eg & Et & Ea & Eb & Ec). clear E.
    ieee_simpl_in Eg. ieee_simpl_in Et. ieee_simpl_in Ea. ieee_simpl_in Eb. ieee_simpl_in Ec.
    assert (G : isnan g) by (rewrite Eg; apply div_nan_l, sub_nan_r, Hf).
    assert (S : isnan t) by (rewrite Et; apply sqrt_nan, div_nan_r, add_nan_l, mul_nan_r, G).
    assert (T : isnan a) by (rewrite Ea; destruct (f64_lt rjl (f64_lit 0.0)); [rewrite nan_neg; exact S|exact S]).
    assert (T2 : isnan b) by (rewrite Eb; apply mul_nan_l, G).
    split; [exact T|]. split; [exact T2|]. rewrite Ec. apply sub_nan_r, mul_nan_l, T2.
  Qed.

  Lemma fin_x : forall x, number x -> 0 <= val x <= 2 ^ 40 -> fin x.
  Proof. intros x N V. apply fin_iff_val; [exact N|]. pose proof Om_big. rewrite Rabs_pos_eq; lra. Qed.

  Theorem besseljy_nan : forall (nu x j y j' y' : f64), number nu -> 4000 <= val nu <= 2 ^ 32 -> number x -> 2 <= val x <= 690 ->
    @besseljy (ieee P) nu x = Ok (j, y, j', y') -> ~ number j /\ ~ number y.
  Proof.
    intros nu x j y j' y' Nu Vu Nx Hx E.
    assert (Fu : fin nu) by (apply fin_x; [exact Nu|lra]). assert (Fx : fin x) by (apply fin_x; [exact Nx|lra]).
    destruct (xi_facts x Nx Hx) as (Fxi & Vxi & Fx2 & Vx2).
    assert (L2 : f64_lt x (f64_lit 2.0) = false) by (apply lt_false; [exact Nx|apply fin_nonnan, fin_2|rewrite val_2; lra]).
    destruct (@besseljy_inv (ieee P) nu x j y j' y' L2 E) as (h & s & rl & rp & a & b & c & yn & H). clear E. cbv zeta in H. ieee_simpl_in H.
    destruct H as (EC & ED & EL & Ej & EU).
    assert (NL : (2000 <= Z.max 0 (@as_usize (ieee P) (add (sub nu x) (f64_lit 1.5))))%Z).
    { assert (B5 : bpow radix2 (-1022) <= 1) by (apply (bpow_le radix2 (-1022) 0); lia).
      assert (B6 : 2 ^ 40 <= bpow radix2 1000) by (apply Rle_trans with (bpow radix2 40); [simpl; lra|apply bpow_le; lia]).
      rewrite (val_fin _ Fu) in Vu. rewrite (val_fin _ Fx) in Hx.
      destruct (fpos _ _ (sub_spec P nu x Fu Fx)) as [F V]; [lra|]. lit_facts 1.5%dec 3%Z 1%Z F15 V15. rewrite (val_fin _ F15) in V15.
      destruct (fpos _ _ (add_spec P _ _ F F15)) as [F' V']; [rewrite V15; lra|]. rewrite V15 in V'.
      pose proof (usize_ge (add (sub nu x) (f64_lit 1.5)) 2000 F' ltac:(lia)) as U. specialize (U ltac:(rewrite (val_fin _ F'); lra)). lia. }
    set (nl := Z.max 0 (@as_usize (ieee P) (add (sub nu x) (f64_lit 1.5)))) in *. clearbody nl.
    set (xi := div (f64_lit 1.0) x) in *. clearbody xi. set (xi2 := mul (f64_lit 2.0) xi) in *. clearbody xi2.
    destruct (jy_cf1_nonneg nu xi xi2 h s Fu ltac:(lra) Fxi Vxi Fx2 Vx2 EC) as [Hh ->].
    destruct (fpmin_facts P) as [Fp Vp]. pose proof (bpow_gt_0 radix2 (-970)) as B0.
    assert (RJ : fin (mul (f64_of_Z 1) (@FPMIN (ieee P))) /\ val (mul (f64_of_Z 1) (@FPMIN (ieee P))) = bpow radix2 (-970)).
    { destruct (of_Z_exact 1 ltac:(lia)) as [F1 V1]. pose proof (mul_spec P _ _ F1 Fp) as [N V]. rewrite V1, Rmult_1_l, <- (val_fin _ Fp), Vp in V.
      assert (LB : bpow radix2 (-970) <= Om) by (rewrite Om_bpow; apply bpow_le; lia).
      rewrite rs_fmt in V by (try (apply fmt_bpow; lia); rewrite Rabs_pos_eq; lra). split; [|exact V].
      apply fin_iff_val; [exact N|]. rewrite V, Rabs_pos_eq, Om_bpow by lra. apply bpow_lt. lia. }
    destruct RJ as [FJ VJ]. set (r0 := mul (f64_of_Z 1) (@FPMIN (ieee P))) in *. clearbody r0.
    assert (P0 : nonneg (mul h r0)) by (apply mul_nonneg_fin; [exact Hh|exact FJ|lra]).
    set (r1 := mul h r0) in *. clearbody r1.
    destruct (jy_down_nf nl nu xi r0 r1 rl rp NL Fu ltac:(lra) Fxi Vxi FJ ltac:(lra) P0 ED) as [N1 N2].
    assert (Z0 : f64_eq rl (f64_lit 0.0) = false).
    { destruct (nf_cases rl N1) as [N|[q ->]]; [apply cmp_nan_l, N|destruct q; reflexivity]. }
    rewrite Z0 in EL, Ej. assert (G : isnan (div rp rl)) by (apply div_nf; assumption). set (f := div rp rl) in *. clearbody f.
    destruct (jy_large_nan _ _ _ _ _ _ _ _ _ _ G EL) as (Ha & Hb & Hc). split.
    - intros C. unfold number in C. rewrite Ej, (mul_nan_r P r0 _ (div_nan_l P a rl Ha)) in C. discriminate.
    - intros C. assert (Y : isnan y).
      { pose proof (up_nan (sub nu (f64_of_Z nl)) xi2 (range 1 (nl + 1)) b c Hb Hc) as U. cbv zeta in U.
        exact (proj1 (eq_ind _ (fun r : f64 * f64 => isnan (fst r) /\ isnan (snd r)) U (y, yn) EU)). }
      unfold number in C. rewrite Y in C. discriminate.
  Qed.

  Theorem besselik_I_nan : forall (nu x i k i' k' : f64), number nu -> 4000 <= val nu <= 2 ^ 32 -> number x -> 2 <= val x <= 690 ->
    @besselik (ieee P) nu x = Ok (i, k, i', k') -> ~ number i.
  Proof.
    intros nu x i k i' k' Nu Vu Nx Hx E.
    assert (Fu : fin nu) by (apply fin_x; [exact Nu|lra]).
    destruct (xi_facts x Nx Hx) as (Fxi & Vxi & Fx2 & Vx2).
    destruct (@besselik_inv (ieee P) nu x i k i' k' E) as (h & ril & ripl & rk & z & H). clear E. cbv zeta in H. ieee_simpl_in H.
    destruct H as (EC & ED & Ei).
    assert (NL : (2000 <= @as_usize (ieee P) (add nu (f64_lit 0.5)))%Z).
    { assert (B5 : bpow radix2 (-1022) <= 1) by (apply (bpow_le radix2 (-1022) 0); lia).
      assert (B6 : 2 ^ 40 <= bpow radix2 1000) by (apply Rle_trans with (bpow radix2 40); [simpl; lra|apply bpow_le; lia]).
      rewrite (val_fin _ Fu) in Vu. lit_facts 0.5%dec 1%Z 1%Z F15 V15. rewrite (val_fin _ F15) in V15.
      destruct (fpos _ _ (add_spec P _ _ Fu F15)) as [F' V']; [rewrite V15; lra|]. rewrite V15 in V'.
      apply (usize_ge (add nu (f64_lit 0.5)) 2000 F' ltac:(lia)). rewrite (val_fin _ F'). lra. }
    ieee_simpl_in NL. set (nl := @as_usize (ieee P) (add nu (f64_lit 0.5))) in *. ieee_simpl_in nl.
    assert (EN : exists n, n = nl) by (eexists; reflexivity). destruct EN as [n EN]. fold nl in ED. rewrite <- EN in ED, NL. clear nl EN.
    set (xi := div (f64_lit 1.0) x) in *. clearbody xi. set (xi2 := mul (f64_lit 2.0) xi) in *. clearbody xi2.
    assert (HN : 4000 <= val nu <= 2 ^ 33) by lra.
    pose proof (cf1_nonneg P nu xi xi2 h Fu HN Fxi Vxi Fx2 Vx2 EC) as Hh.
    destruct (fpmin_facts P) as [Fp Vp]. pose proof (bpow_gt_0 radix2 (-970)) as B0.
    assert (Pp : nonneg (mul h (@FPMIN (ieee P)))) by (apply mul_nonneg_fin; [exact Hh|exact Fp|lra]).
    set (r0 := mul h (@FPMIN (ieee P))) in *. clearbody r0. set (p := @FPMIN (ieee P)) in *. clearbody p.
    destruct (range_mul nu xi Fu HN Fxi Vxi) as [F V].
    assert (NF : nf ril /\ nf ripl).
    { unfold ik_down, range in ED.
      assert (ED' : (let '(_, a, b) := fold_left (down_step P xi) (count_from 0 (Z.to_nat (n - 0))) (mul nu xi, p, r0) in (a, b)) = (ril, ripl)) by exact ED.
      clear ED. rename ED' into ED.
      replace (Z.to_nat (n - 0)) with (2000 + (Z.to_nat n - 2000))%nat in ED by lia.
      rewrite count_from_app, fold_left_app in ED.
      assert (D0 : dinv xi (val nu) 0 (mul nu xi, p, r0)).
      { unfold dinv. split; [exact F|]. split; [exact V|].
        split; [split; [apply fin_nonnan, Fp|lra]|]. split; [exact Pp|]. split; [cbn [Z.of_nat]; change (Z.min 1024 (-970 + 0)) with (-970)%Z; lra|]. intros A. lia. }
      pose proof (dinv_run P xi (val nu) Fxi Vxi HN 2000 0%Z 0%nat _ ltac:(lia) D0) as D. change (0 + 2000)%nat with 2000%nat in D.
      destruct (fold_left (down_step P xi) (count_from 0 2000) (mul nu xi, p, r0)) as [[f r] r'].
      destruct D as (_ & _ & Pr & Pr' & Vr & Vr'). specialize (Vr' ltac:(lia)).
      change (Z.min 1024 (-970 + Z.of_nat 2000)) with 1024%Z in Vr, Vr'. pose proof (bpow_gt_0 radix2 1024).
      assert (Pq : positive r') by (destruct Pr' as [A1 A2]; split; [exact A1|lra]).
      rewrite (top_inf r Pr Vr), (top_inf r' Pq Vr') in ED.
      pose proof (down_nf P xi (count_from (0 + Z.of_nat 2000) (Z.to_nat n - 2000)) f (B754_infinity false) (B754_infinity false) eq_refl eq_refl) as W.
      destruct (fold_left (down_step P xi) (count_from (0 + Z.of_nat 2000) (Z.to_nat n - 2000)) (f, B754_infinity false, B754_infinity false)) as [[f1 r1] r2].
      injection ED as <- <-. exact W. }
    destruct NF as [NF1 NF2]. intros C. unfold number in C. rewrite Ei in C.
    rewrite (div_nan_l P _ ril (mul_nan_l P _ p (div_nan_r P xi _ (sub_nan_l P _ z (mul_nan_l P _ rk (div_nf P _ _ NF2 NF1)))))) in C. discriminate.
  Qed.
End Large.

Theorem Jnu_Ynu_nan : forall (P : platform) (nu x j y : f64), number nu -> 4000 <= val nu <= 2 ^ 32 -> number x -> 2 <= val x <= 690 ->
  @Jnu_Ynu (ieee P) nu x = Ok (j, y) -> ~ number j /\ ~ number y.
Proof.
  intros P nu x j y Nu Vu Nx Hx E. unfold Jnu_Ynu in E.
  destruct (@besseljy (ieee P) nu x) as [[[[j0 y0] j'] y']|e|] eqn:Q; cbn [bind] in E; try discriminate.
  injection E as <- <-. exact (besseljy_nan P nu x j0 y0 j' y' Nu Vu Nx Hx Q).
Qed.

Lemma ex_jy_order : forall P : platform, number (f64_lit 4000.0) /\ val (f64_lit 4000.0) = 4000 /\ number (f64_lit 2.0) /\ val (f64_lit 2.0) = 2
  /\ exists r, @besseljy (ieee P) (f64_lit 4000.0) (f64_lit 2.0) = Ok r.
Proof.
  intros P. lit_facts 4000.0%dec 4000%Z 0%Z F1 V1. split; [apply fin_nonnan, F1|].
  split; [rewrite V1; lra|].
  split; [apply fin_nonnan, fin_2|]. rewrite val_2. split; [reflexivity|].
  assert (Q : match @besseljy (ieee P) (f64_lit 4000.0) (f64_lit 2.0) with Ok _ => true | _ => false end = true) by (vm_compute; reflexivity).
  destruct (@besseljy (ieee P) (f64_lit 4000.0) (f64_lit 2.0)); [eexists; reflexivity|discriminate|discriminate].
Qed.

Lemma Jnu_Ynu_nan_refuted : forall P : platform, exists nu x : f64, positive nu /\ positive x /\ finite nu /\ finite x
  /\ exists j y, @Jnu_Ynu (ieee P) nu x = Ok (j, y) /\ ~ number j /\ ~ number y.
Proof.
  intros P. destruct (ex_jy_order P) as (N1 & V1 & N2 & V2 & [[[j y] j'] y'] & E). exists (f64_lit 4000.0), (f64_lit 2.0).
  split; [split; [exact N1|lra]|]. split; [split; [exact N2|lra]|]. split; [reflexivity|]. split; [reflexivity|].
  assert (G : @Jnu_Ynu (ieee P) (f64_lit 4000.0) (f64_lit 2.0) = Ok (j, y)) by (unfold Jnu_Ynu; rewrite E; reflexivity).
  exists j, y. split; [exact G|]. apply (Jnu_Ynu_nan P (f64_lit 4000.0) (f64_lit 2.0) j y N1 ltac:(lra) N2 ltac:(lra) G).
Qed.

Theorem Inu_Knu_I_nan : forall (P : platform) (nu x i k : f64), number nu -> 4000 <= val nu <= 2 ^ 32 -> number x -> 2 <= val x <= 690 ->
  @Inu_Knu (ieee P) nu x = Ok (i, k) -> ~ number i.
Proof.
  intros P nu x i k Nu Vu Nx Hx E. unfold Inu_Knu in E.
  destruct (@besselik (ieee P) nu x) as [[[[i0 k0] i'] k']|e|] eqn:Q; cbn [bind] in E; try discriminate.
  injection E as <- _. exact (besselik_I_nan P nu x i0 k0 i' k' Nu Vu Nx Hx Q).
Qed.

Lemma ex_ik_order : forall P : platform, number (f64_lit 4000.25) /\ 4000 <= val (f64_lit 4000.25) <= 2 ^ 32 /\ number (f64_lit 2.0) /\ 2 <= val (f64_lit 2.0) <= 690
  /\ exists r, @besselik (ieee P) (f64_lit 4000.25) (f64_lit 2.0) = Ok r.
Proof.
  intros P. lit_facts 4000.25%dec 16001%Z 2%Z F1 V1. split; [apply fin_nonnan, F1|].
  split; [rewrite V1; lra|].
  split; [apply fin_nonnan, fin_2|]. rewrite val_2. split; [lra|].
  assert (Q : match @besselik (ieee P) (f64_lit 4000.25) (f64_lit 2.0) with Ok _ => true | _ => false end = true) by (vm_compute; reflexivity).
  destruct (@besselik (ieee P) (f64_lit 4000.25) (f64_lit 2.0)); [eexists; reflexivity|discriminate|discriminate].
Qed.
