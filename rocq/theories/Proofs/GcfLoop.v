(** * The continued-fraction loop of the incomplete gamma function *)

From Coq Require Import ZArith Reals Bool Lra Lia List.
From Flocq Require Import Core IEEE754.BinarySingleNaN IEEE754.Binary IEEE754.Bits.
From Verif.Model Require Import Base Arith Utils Gamma.
From Verif.Float Require Import Bits64 Ieee Exact Platforms.
From Verif.Spec Require Import F64Spec Outcome GammaSpec LibmSpec IncGammaSpec.
From Verif.Proofs Require Import F64 F64Ops Lits Ext ExpBounds Stirling FlErr GammaAcc LnGammaAcc LnGammaFl LnGammaThms IncGamma IncGammaTotal GserAcc GcfReal GcfBounds.
Import ListNotations.
Open Scope R_scope.
Local Notation exp := Rtrigo_def.exp.
Local Notation ln := Rpower.ln.

Lemma core_den : forall an anf v Dn D1 bv b p s T, 0 <= T <= / 10 ^ 22 ->
  1 <= Dn -> 1 <= D1 -> D1 = bv + an / Dn -> Rabs an / Dn <= 982 / 1000 * D1 -> 0 < bv ->
  Rabs (anf - an) <= 201 / 100 * uu * Rabs an + T -> mr (520 * vv) v (/ Dn) ->
  Rabs (p - anf * v) <= uu * Rabs (anf * v) + T -> Rabs (b - bv) <= 2001 / 1000 * uu * bv ->
  Rabs (s - (p + b)) <= uu * Rabs (p + b) + T -> mr (519 * vv) s D1.
Proof.
  intros an anf v Dn D1 bv b p s T HT HD HD1 E Hq Hb Ha Hv Hp Hbb Hs.
  apply mr_abs in Hv; [|unfold vv; lra]. set (q := an / Dn) in *.
  assert (ID : 0 < / Dn <= 1) by (split; [apply Rinv_0_lt_compat; lra|rewrite <- Rinv_1; apply Rinv_le_contravar; lra]).
  rewrite (Rabs_pos_eq (/ Dn)) in Hv by lra. set (A := Rabs q) in *.
  assert (EA : Rabs an / Dn = A) by (unfold A, q, Rdiv; rewrite Rabs_mult, (Rabs_pos_eq (/ Dn)) by lra; reflexivity). rewrite EA in Hq.
  assert (A0 : 0 <= A) by apply Rabs_pos.
  set (W := 520 * vv + 2 * (520 * vv * (520 * vv))) in *.
  assert (W1 : 0 <= W <= 520001 / 1000 * vv) by (unfold W, vv; lra).
  (* anf * v *)
  assert (R1 : Rabs (anf * v - q) <= A * W + 10001 / 10000 * (201 / 100 * uu * A + T)).
  { replace (anf * v - q) with (an * (v - / Dn) + (anf - an) * v) by (unfold q; field; lra).
    eapply Rle_trans; [apply Rabs_triang|]. rewrite !Rabs_mult. apply Rplus_le_compat.
    - apply Rle_trans with (Rabs an * (W * / Dn)); [apply Rmult_le_compat_l; [apply Rabs_pos|exact Hv]|]. rewrite <- EA. right. unfold Rdiv. ring.
    - assert (V : Rabs v <= 10001 / 10000 * / Dn).
      { replace v with (v - / Dn + / Dn) by ring. eapply Rle_trans; [apply Rabs_triang|]. rewrite (Rabs_pos_eq (/ Dn)) by lra.
        assert (W * / Dn <= / 10000 * / Dn) by (apply Rmult_le_compat_r; [lra|unfold vv in W1; lra]). lra. }
      apply Rle_trans with ((201 / 100 * uu * Rabs an + T) * (10001 / 10000 * / Dn)); [apply Rmult_le_compat; try apply Rabs_pos; assumption|].
      assert (T * / Dn <= T * 1) by (apply Rmult_le_compat_l; lra).
      replace ((201 / 100 * uu * Rabs an + T) * (10001 / 10000 * / Dn)) with (10001 / 10000 * (201 / 100 * uu * (Rabs an / Dn) + T * / Dn)) by (unfold Rdiv; ring). rewrite EA. lra. }
  assert (AW : A * W <= A * (520001 / 1000 * vv)) by (apply Rmult_le_compat_l; lra).
  assert (R1' : Rabs (anf * v - q) <= 52203 / 100 * vv * A + 2 * T) by (unfold uu, vv in *; lra).
  assert (R2 : Rabs (p - anf * v) <= 101 / 100 * uu * A + 2 * T).
  { eapply Rle_trans; [exact Hp|]. assert (Rabs (anf * v) <= A + Rabs (anf * v - q)) by (replace (anf * v) with (q + (anf * v - q)) at 1 by ring; apply Rabs_triang). unfold uu, vv in *; lra. }
  assert (BV : bv <= D1 + A) by (assert (- q <= A) by (unfold A; rewrite <- Rabs_Ropp; apply Rle_abs); lra).
  assert (R3 : Rabs (b - bv) <= 2001 / 1000 * uu * (D1 + A)) by (eapply Rle_trans; [exact Hbb|]; apply Rmult_le_compat_l; [unfold uu; lra|exact BV]).
  assert (S1 : Rabs (p + b - D1) <= Rabs (anf * v - q) + Rabs (p - anf * v) + Rabs (b - bv)).
  { replace (p + b - D1) with ((anf * v - q) + (p - anf * v) + (b - bv)) by (rewrite E; unfold q; ring).
    eapply Rle_trans; [apply Rabs_triang|]. apply Rplus_le_compat_r. apply Rabs_triang. }
  assert (S2 : Rabs (p + b) <= D1 + Rabs (p + b - D1)) by (replace (p + b) with (D1 + (p + b - D1)) at 1 by ring; eapply Rle_trans; [apply Rabs_triang|]; rewrite (Rabs_pos_eq D1) by lra; lra).
  assert (S3 : Rabs (s - D1) <= Rabs (s - (p + b)) + Rabs (p + b - D1)) by (replace (s - D1) with ((s - (p + b)) + (p + b - D1)) by ring; apply Rabs_triang).
  assert (F : Rabs (s - D1) <= 5189 / 10 * vv * Rabs D1).
  { rewrite (Rabs_pos_eq D1) by lra. unfold uu, vv in *. simpl in HT. lra. }
  apply mr_of_rel in F; [|unfold vv; lra]. eapply mr_weak; [|exact F]. unfold vv; lra.
Qed.

(** ** The partial numerators b: adding 2 loses something only when the exponent grows *)
Section B.
  Context (P : platform).
  Local Notation add := (f64_add P).

  Definition Binv (B0 : R) (n : nat) (b : f64) : Prop :=
    fin b /\ exists e, (0 <= e <= 40)%Z /\ bpow radix2 e <= val b < bpow radix2 (e + 1) /\ Rabs (val b - (B0 + 2 * INR n)) <= bpow radix2 (e - 52).

  Lemma Binv_step : forall B0 n b, Binv B0 n b -> B0 + 2 * INR n <= 10 ^ 5 -> Binv B0 (S n) (add b (f64_lit 2.0)).
  Proof.
    intros B0 n b (Fb & e & He & [L U] & Er) HB. pose proof fin_2 as F2. pose proof val_2 as V2.
    assert (P52 : bpow radix2 (e - 52) = bpow radix2 e * / 2 ^ 52).
    { replace (e - 52)%Z with (e + Z.opp 52)%Z by lia. rewrite bpow_plus. f_equal. simpl. lra. }
    assert (P1 : bpow radix2 (e + 1) = 2 * bpow radix2 e) by (rewrite bpow_plus; change (bpow radix2 1) with 2; ring).
    assert (e1 : 1 <= bpow radix2 e) by (change 1 with (bpow radix2 0); apply bpow_le; lia).
    assert (UB : val b <= 2 * 10 ^ 5). { apply Rabs_le_inv in Er. assert (val b * (1 - / 2 ^ 52) <= 10 ^ 5) by (rewrite P52 in Er; lra). simpl in *. lra. }
    assert (He' : (e <= 20)%Z).
    { apply Z.lt_succ_r. apply (lt_bpow radix2). eapply Rle_lt_trans; [exact L|]. eapply Rle_lt_trans; [exact UB|]. simpl. lra. }
    pose proof (add_spec P b _ Fb F2) as R. rewrite <- (val_fin _ Fb), <- (val_fin _ F2), V2 in R.
    assert (Fy : fmt (val b)) by apply val_fmt.
    assert (Mb : mag radix2 (val b) = (e + 1)%Z :> Z).
    { apply mag_unique. rewrite Rabs_pos_eq by lra. replace (e + 1 - 1)%Z with e by lia. lra. }
    assert (Cx : forall y e', (0 <= e' <= 100)%Z -> bpow radix2 e' <= y < bpow radix2 (e' + 1) -> Generic_fmt.cexp radix2 fexp64 y = (e' - 52)%Z).
    { intros y e' H1 H2. unfold Generic_fmt.cexp. rewrite (mag_unique radix2 y (e' + 1)); [rewrite fexp64_FLT; unfold FLT_exp; lia|].
      pose proof (bpow_gt_0 radix2 e'). rewrite Rabs_pos_eq by lra. replace (e' + 1 - 1)%Z with e' by lia. exact H2. }
    destruct (Rlt_le_dec (val b + 2) (bpow radix2 (e + 1))) as [S1|S1].
    - (* same binade: exact *)
      assert (Fs : fmt (val b + 2)).
      { unfold fmt in Fy. pose proof Fy as EF. unfold generic_format in EF. rewrite (Cx (val b) e ltac:(lia) (conj L U)) in EF.
        set (m := Ztrunc (scaled_mantissa radix2 fexp64 (val b))) in EF. unfold F2R in EF. cbn [Fnum Fexp] in EF.
        assert (E2 : 2 = IZR (2 ^ (53 - e)) * bpow radix2 (e - 52)).
        { rewrite <- (bpow2_nonneg_IZR (53 - e)) by lia. rewrite <- bpow_plus. replace (53 - e + (e - 52))%Z with 1%Z by lia. simpl. lra. }
        assert (E3 : val b + 2 = IZR (m + 2 ^ (53 - e)) * bpow radix2 (e - 52)) by (rewrite plus_IZR, Rmult_plus_distr_r, <- E2, <- EF; reflexivity).
        rewrite E3. apply fmt_F2R; [|lia]. pose proof (bpow_gt_0 radix2 (e - 52)) as B0'.
        assert (0 <= m + 2 ^ (53 - e))%Z. { apply le_IZR. apply Rmult_le_reg_r with (bpow radix2 (e - 52)); [exact B0'|]. rewrite <- E3. lra. }
        rewrite Z.abs_eq by assumption. apply le_IZR. apply Rmult_le_reg_r with (bpow radix2 (e - 52)); [exact B0'|]. rewrite <- E3, <- (bpow2_nonneg_IZR 53), <- bpow_plus by lia.
        replace (53 + (e - 52))%Z with (e + 1)%Z by lia. lra. }
      destruct (rounds_small _ _ R) as [F V].
      { rewrite rnd_fmt by exact Fs. rewrite Rabs_pos_eq by lra. eapply Rlt_le_trans; [exact S1|]. apply bpow_le; lia. }
      rewrite rnd_fmt in V by exact Fs. rewrite <- (val_fin _ F) in V. split; [exact F|]. exists e. split; [lia|]. rewrite V. split; [lra|]. rewrite S_INR.
      replace (val b + 2 - (B0 + 2 * (INR n + 1))) with (val b - (B0 + 2 * INR n)) by ring. exact Er.
    - (* next binade *)
      assert (S2 : val b + 2 < bpow radix2 (e + 2)) by (replace (bpow radix2 (e + 2)) with (4 * bpow radix2 e) by (rewrite bpow_plus; change (bpow radix2 2) with 4; ring); lra).
      assert (Rn : bpow radix2 (e + 1) <= rnd (val b + 2) <= bpow radix2 (e + 2)).
      { split; [apply rnd_ge; [apply fmt_bpow; lia|exact S1]|apply rnd_le_fmt; [apply fmt_bpow; lia|lra]]. }
      destruct (rounds_small _ _ R) as [F V].
      { rewrite Rabs_pos_eq by lra. eapply Rle_lt_trans; [apply Rn|]. apply bpow_lt; lia. }
      rewrite <- (val_fin _ F) in V. split; [exact F|].
      assert (HU : Rabs (rnd (val b + 2) - (val b + 2)) <= bpow radix2 (e - 52)).
      { eapply Rle_trans; [apply error_le_half_ulp; typeclasses eauto|]. rewrite ulp_neq_0 by lra. rewrite (Cx (val b + 2) (e + 1)%Z) by (try lia; replace (e + 1 + 1)%Z with (e + 2)%Z by lia; lra).
        right. replace (e + 1 - 52)%Z with (1 + (e - 52))%Z by lia. rewrite bpow_plus. change (bpow radix2 1) with 2. field. }
      assert (ER : Rabs (rnd (val b + 2) - (B0 + 2 * INR (S n))) <= bpow radix2 (e + 1 - 52)).
      { rewrite S_INR. replace (rnd (val b + 2) - (B0 + 2 * (INR n + 1))) with ((rnd (val b + 2) - (val b + 2)) + (val b - (B0 + 2 * INR n))) by ring.
        eapply Rle_trans; [apply Rabs_triang|]. replace (e + 1 - 52)%Z with (1 + (e - 52))%Z by lia. rewrite bpow_plus. change (bpow radix2 1) with 2. lra. }
      rewrite V. destruct (Rlt_le_dec (rnd (val b + 2)) (bpow radix2 (e + 2))) as [S3|S3].
      + exists (e + 1)%Z. split; [lia|]. replace (e + 1 + 1)%Z with (e + 2)%Z by lia. split; [lra|exact ER].
      + exists (e + 2)%Z. split; [lia|]. split; [split; [exact S3|]|].
        * eapply Rle_lt_trans; [apply Rn|]. apply bpow_lt; lia.
        * eapply Rle_trans; [exact ER|]. apply bpow_le; lia.
  Qed.
  Lemma Binv_rel : forall B0 n b, Binv B0 n b -> 0 < B0 + 2 * INR n -> Rabs (val b - (B0 + 2 * INR n)) <= 2001 / 1000 * uu * (B0 + 2 * INR n).
  Proof.
    intros B0 n b (Fb & e & He & [L U] & Er) HB.
    assert (P52 : bpow radix2 (e - 52) = bpow radix2 e * (2 * uu)).
    { replace (e - 52)%Z with (e + Z.opp 52)%Z by lia. rewrite bpow_plus. f_equal. unfold uu. simpl. lra. }
    eapply Rle_trans; [exact Er|]. rewrite P52 in *. apply Rabs_le_inv in Er. unfold uu in *. simpl in *. lra.
  Qed.
  Lemma Binv_0 : forall b, fin b -> 1 <= val b <= 1000 -> Binv (val b) 0 b.
  Proof.
    intros b Fb Hb. split; [exact Fb|]. exists (mag radix2 (val b) - 1)%Z. destruct (mag radix2 (val b)) as [k Hk]. cbn. specialize (Hk ltac:(lra)). rewrite Rabs_pos_eq in Hk by lra.
    assert (1 <= k)%Z. { apply Z.lt_pred_le. apply (lt_bpow radix2). change (bpow radix2 (Z.pred 1)) with 1. lra. }
    assert (k - 1 < 10)%Z. { apply (lt_bpow radix2). change (bpow radix2 10) with 1024. lra. }
    split; [lia|]. replace (k - 1 + 1)%Z with k by lia. split; [exact Hk|]. replace (val b - (val b + 2 * 0)) with 0 by ring. rewrite Rabs_R0. apply bpow_ge_0.
  Qed.
End B.

Lemma fpmin_facts : forall P, fin (@FPMIN (ieee P)) /\ val (@FPMIN (ieee P)) = bpow radix2 (-970).
Proof.
  intros P. destruct eps_facts as [FE VE]. change (@epsilon (ieee (ideal true false))) with (@epsilon (ieee P)) in *.
  assert (FM : fin (@min_positive (ieee P))) by reflexivity.
  assert (VM : val (@min_positive (ieee P)) = bpow radix2 (-1022)).
  { rewrite val_fin by reflexivity. change (@Binary.B2R 53 1024 (@min_positive (ieee P))) with (IZR (2 ^ 52) * bpow radix2 (-1074)). rewrite <- (bpow2_nonneg_IZR 52) by lia. rewrite <- bpow_plus. reflexivity. }
  pose proof (div_spec P _ _ FM FE) as R. rewrite <- (val_fin _ FM), <- (val_fin _ FE), VE, VM in R.
  specialize (R ltac:(apply Rgt_not_eq, Rinv_0_lt_compat, pow_lt; lra)).
  replace (bpow radix2 (-1022) / / 2 ^ 52) with (bpow radix2 (-970)) in R.
  2:{ change (-970)%Z with (-1022 + 52)%Z. rewrite bpow_plus. replace (bpow radix2 52) with (2 ^ 52) by (rewrite bpow2_nonneg_IZR, pow_IZR by lia; reflexivity). field. }
  assert (Ff : fmt (bpow radix2 (-970))) by (apply fmt_bpow; lia).
  destruct (rounds_small _ _ R) as [F V].
  { rewrite rnd_fmt by exact Ff. rewrite Rabs_pos_eq by apply bpow_ge_0. apply bpow_lt. lia. }
  rewrite rnd_fmt in V by exact Ff. rewrite <- (val_fin _ F) in V. split; [exact F|exact V].
Qed.

Section Body.
  Context (P : platform).
  Local Notation add := (f64_add P).
  Local Notation sub := (f64_sub P).
  Local Notation mul := (f64_mul P).
  Local Notation div := (f64_div P).
  Variable a : f64.
  Definition anf (i : Z) : f64 := mul (f64_neg (f64_of_Z i)) (sub (f64_of_Z i) a).

  Lemma body_eq : forall i b c d h,
    let b' := add b (f64_lit 2.0) in let d1 := add (mul (anf i) d) b' in let c1 := add b' (div (anf i) c) in
    let d' := div (f64_lit 1.0) d1 in let del := mul d' c1 in
    f64_lt (f64_abs d1) (@FPMIN (ieee P)) = false -> f64_lt (f64_abs c1) (@FPMIN (ieee P)) = false ->
    @gcf_body (ieee P) a i (b, c, d, h) = ((b', c1, d', mul h del), f64_lt (f64_abs (sub del (f64_lit 1.0))) (@epsilon (ieee P))).
  Proof.
    intros i b c d h b' d1 c1 d' del H1 H2. unfold gcf_body. cbv zeta.
    change (@lt (ieee P) (@abs (ieee P) (@Arith.add (ieee P) (@Arith.mul (ieee P) (@Arith.mul (ieee P) (@neg (ieee P) (@of_int (ieee P) i)) (@Arith.sub (ieee P) (@of_int (ieee P) i) a)) d) (@Arith.add (ieee P) b (@lit (ieee P) 2.0)))) (@FPMIN (ieee P))) with (f64_lt (f64_abs d1) (@FPMIN (ieee P))).
    change (@lt (ieee P) (@abs (ieee P) (@Arith.add (ieee P) (@Arith.add (ieee P) b (@lit (ieee P) 2.0)) (@Arith.div (ieee P) (@Arith.mul (ieee P) (@neg (ieee P) (@of_int (ieee P) i)) (@Arith.sub (ieee P) (@of_int (ieee P) i) a)) c))) (@FPMIN (ieee P))) with (f64_lt (f64_abs c1) (@FPMIN (ieee P))).
    rewrite H1, H2. reflexivity.
  Qed.

  Hypothesis Fa : fin a.
  Hypothesis Ha : 0 < val a < 100.

  Lemma eta_22 : 10 ^ 5 * eta <= / 10 ^ 22.
  Proof.
    pose proof eta_small. apply Rle_trans with (10 ^ 5 * / 10 ^ 100); [apply Rmult_le_compat_l; [apply pow_le; lra|exact H]|].
    replace (10 ^ 100) with (10 ^ 27 * 10 ^ 73) by (rewrite <- pow_add; reflexivity). rewrite Rinv_mult.
    assert (/ 10 ^ 73 <= 1) by (rewrite <- Rinv_1; apply Rinv_le_contravar; [lra|apply pow_R1_Rle; lra]).
    assert (0 < / 10 ^ 73) by (apply Rinv_0_lt_compat, pow_lt; lra). revert H0 H1. generalize (/ 10 ^ 73). intros t H0 H1.
    apply Rle_trans with (10 ^ 5 * (/ 10 ^ 27 * 1)); [apply Rmult_le_compat_l; [apply pow_le; lra|apply Rmult_le_compat_l; [left; apply Rinv_0_lt_compat, pow_lt; lra|exact H0]]|]. simpl. lra.
  Qed.

  Lemma below : forall z c, z <= c -> c <= 2 ^ 32 -> z <= bpow radix2 1000.
  Proof. intros z c H H2. apply Rle_trans with (1 := H). apply Rle_trans with (1 := H2). replace (2 ^ 32) with (bpow radix2 32) by (simpl; lra). apply bpow_le; lia. Qed.

  Lemma anf_core : forall I w s m e, 1 <= I <= 10000 -> 0 <= e <= / 10 ^ 22 -> Rabs w <= 10000 -> Rabs (s - w) <= uu * Rabs w + e -> Rabs (m - - I * s) <= uu * Rabs (- I * s) + e ->
    Rabs (m - - (I * w)) <= 201 / 100 * uu * Rabs (- (I * w)) + 20001 * e /\ Rabs m <= 2 * 10 ^ 8.
  Proof.
    intros I w s m e HI He Hw Hs Hm. rewrite Rabs_Ropp, Rabs_mult, (Rabs_pos_eq I) by lra.
    assert (S1 : Rabs s <= Rabs w * (1 + uu) + e) by (replace s with (w + (s - w)) by ring; eapply Rle_trans; [apply Rabs_triang|lra]).
    rewrite Rabs_mult, Rabs_Ropp, (Rabs_pos_eq I) in Hm by lra.
    assert (S2 : I * Rabs s <= I * (Rabs w * (1 + uu) + e)) by (apply Rmult_le_compat_l; lra).
    assert (S3 : Rabs (m - - (I * w)) <= Rabs (m - - I * s) + I * Rabs (s - w)).
    { replace (m - - (I * w)) with ((m - - I * s) + - (I * (s - w))) by ring. eapply Rle_trans; [apply Rabs_triang|]. rewrite Rabs_Ropp, Rabs_mult, (Rabs_pos_eq I) by lra. lra. }
    assert (S4 : I * Rabs (s - w) <= I * (uu * Rabs w + e)) by (apply Rmult_le_compat_l; lra).
    assert (S5 : I * e <= 10000 * e) by (apply Rmult_le_compat_r; lra).
    pose proof (Rabs_pos w) as W0. assert (S6 : 0 <= I * Rabs w) by (apply Rmult_le_pos; lra).
    assert (S7 : I * Rabs w <= 10000 * 10000) by (apply Rmult_le_compat; lra).
    assert (R1 : Rabs (m - - (I * w)) <= 201 / 100 * uu * (I * Rabs w) + 20001 * e) by (unfold uu in *; lra).
    split; [exact R1|]. replace m with ((m - - (I * w)) + - (I * w)) by ring. eapply Rle_trans; [apply Rabs_triang|]. rewrite Rabs_Ropp, Rabs_mult, (Rabs_pos_eq I) by lra.
    unfold uu in R1. simpl in *. lra.
  Qed.

  Lemma anf_ok : forall n, INR n + 1 <= 10000 ->
    fin (anf (Z.of_nat (S n))) /\ Rabs (val (anf (Z.of_nat (S n))) - an (val a) (S n)) <= 201 / 100 * uu * Rabs (an (val a) (S n)) + 20001 * eta /\ Rabs (val (anf (Z.of_nat (S n)))) <= 2 * 10 ^ 8.
  Proof.
    intros n Hn. pose proof (pos_INR n) as I0. pose proof eta_22 as E22. pose proof eta_pos as E0.
    assert (HZ : (Z.of_nat (S n) <= 10000)%Z) by (apply le_IZR; rewrite <- INR_IZR_INZ, S_INR; exact Hn).
    destruct (of_Z_exact (Z.of_nat (S n)) ltac:(lia)) as [Fi Vi]. rewrite <- (val_fin _ Fi), <- INR_IZR_INZ, S_INR in Vi.
    unfold anf, an. rewrite S_INR. set (i := f64_of_Z (Z.of_nat (S n))) in *. clearbody i.
    assert (Wb : Rabs (INR n + 1 - val a) <= 10000) by (apply Rabs_le; lra).
    destruct (sub_fl P i a Fi Fa) as [Fs Es]; [rewrite Vi; apply (below _ 10000); [exact Wb|simpl; lra]|]. rewrite Vi in Es.
    set (s := sub i a) in *. clearbody s.
    assert (Fn : fin (f64_neg i)) by (rewrite fin_neg; exact Fi).
    assert (Vn : val (f64_neg i) = - (INR n + 1)) by (rewrite (val_fin _ Fn), B2R_neg, <- (val_fin _ Fi), Vi; reflexivity).
    assert (Sb : Rabs (val s) <= 10001).
    { replace (val s) with ((val s - (INR n + 1 - val a)) + (INR n + 1 - val a)) by ring. eapply Rle_trans; [apply Rabs_triang|]. unfold uu in Es. simpl in *. lra. }
    destruct (mul_fl P _ s Fn Fs) as [Fm Em].
    { rewrite Vn, Rabs_mult, Rabs_Ropp, (Rabs_pos_eq (INR n + 1)) by lra. apply (below _ (10000 * 10001)); [apply Rmult_le_compat; try lra; apply Rabs_pos|simpl; lra]. }
    rewrite Vn in Em. split; [exact Fm|]. apply (anf_core (INR n + 1) (INR n + 1 - val a) (val s)); try assumption; [lra|]. split; [lra|]. simpl in *. lra.
  Qed.
End Body.
