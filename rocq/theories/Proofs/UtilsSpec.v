(** * frexp, ldexp and sign: the facts used by the property theorems *)

From Coq Require Import ZArith Reals Bool Lra Lia Psatz.
From Flocq Require Import Core IEEE754.BinarySingleNaN IEEE754.Binary IEEE754.Bits.
From Verif.Model Require Import Base Arith Utils.
From Verif.Float Require Import Bits64 Ieee.
From Verif.Spec Require Import F64Spec.
From Verif.Proofs Require Import F64 F64Ops CacheFacts UtilsBits.
Open Scope Z_scope.

Lemma B2R_finite : forall s m e H,
  Binary.B2R (@B754_finite 53 1024 s m e H) = ((if s then -1 else 1) * IZR (Z.pos m) * bpow radix2 e)%R.
Proof.
  intros s m e H. unfold Binary.B2R, F2R. cbn [Fnum Fexp]. destruct s; cbn [SpecFloat.cond_Zopp].
  - rewrite opp_IZR. ring.
  - ring.
Qed.

Lemma abs_B2R_finite : forall s m e H,
  Rabs (Binary.B2R (@B754_finite 53 1024 s m e H)) = (IZR (Z.pos m) * bpow radix2 e)%R.
Proof.
  intros s m e H. rewrite B2R_finite, !Rabs_mult.
  rewrite (Rabs_pos_eq (bpow radix2 e)) by apply bpow_ge_0.
  rewrite (Rabs_pos_eq (IZR (Z.pos m))) by (apply IZR_le; lia).
  destruct s; [replace (-1)%R with (-(1))%R by lra; rewrite Rabs_Ropp|]; rewrite Rabs_R1; ring.
Qed.

Lemma IZR_bpow : forall k, 0 <= k -> bpow radix2 k = IZR (2 ^ k).
Proof. intros k Hk. rewrite <- (IZR_Zpower radix2) by auto. reflexivity. Qed.

Lemma mant_bpow_ge : forall m e k, 0 <= k -> 2 ^ k <= Z.pos m -> (bpow radix2 (k + e) <= IZR (Z.pos m) * bpow radix2 e)%R.
Proof.
  intros m e k Hk H. rewrite bpow_plus. apply Rmult_le_compat_r; [apply bpow_ge_0|].
  rewrite IZR_bpow by auto. now apply IZR_le.
Qed.

Lemma mant_bpow_lt : forall m e k, 0 <= k -> Z.pos m < 2 ^ k -> (IZR (Z.pos m) * bpow radix2 e < bpow radix2 (k + e))%R.
Proof.
  intros m e k Hk H. rewrite bpow_plus. apply Rmult_lt_compat_r; [apply bpow_gt_0|].
  rewrite IZR_bpow by auto. now apply IZR_lt.
Qed.

Lemma normal_inv : forall x, normal x -> exists s m e H,
  x = B754_finite s m e H /\ 2 ^ 52 <= Z.pos m < 2 ^ 53 /\ -1074 <= e <= 971.
Proof.
  intros x [F N]. unfold min_normal in N. pose proof (bpow_gt_0 radix2 (-1022)).
  destruct x as [s|s|s pl H0|s m e H0]; try discriminate.
  - simpl in N. rewrite Rabs_R0 in N. lra.
  - exists s, m, e, H0. pose proof (bounded_mant m e H0) as (B1 & B2 & B3).
    split; [reflexivity|]. split; [split; [|lia]|lia].
    destruct B3 as [B3| ->]; auto. rewrite abs_B2R_finite in N.
    destruct (Z.lt_ge_cases (Z.pos m) (2 ^ 52)); auto.
    apply (mant_bpow_lt _ (-1074)) in H1; [|lia]. simpl Z.add in H1. lra.
Qed.

Lemma subnormal_inv : forall x, subnormal x -> exists s m H,
  x = B754_finite s m (-1074) H /\ Z.pos m < 2 ^ 52.
Proof.
  intros x [F [N1 N2]]. unfold min_normal in N2.
  destruct x as [s|s|s pl H0|s m e H0]; try discriminate.
  - simpl in N1. rewrite Rabs_R0 in N1. lra.
  - pose proof (bounded_mant m e H0) as (B1 & B2 & B3). rewrite abs_B2R_finite in N2.
    assert (Z.pos m < 2 ^ 52).
    { destruct (Z.lt_ge_cases (Z.pos m) (2 ^ 52)); auto.
      apply (mant_bpow_ge _ e) in H; [|lia].
      assert (bpow radix2 (-1022) <= bpow radix2 (52 + e))%R by (apply bpow_le; lia). lra. }
    assert (e = -1074) by (destruct B3; auto; lia). subst e.
    exists s, m, H0. auto.
Qed.

Lemma mk_normal : forall s m e, 2 ^ 52 <= Z.pos m < 2 ^ 53 -> -1074 <= e <= 971 ->
  exists H, from_bits (mk s (e + 1075) (Z.pos m - 2 ^ 52)) = B754_finite s m e H.
Proof.
  intros s m e Hm He. exists (bounded_norm m e Hm He). apply to_bits_inj.
  rewrite to_from_bits by (apply mk_range; unfold frac_ok, exp_ok; lia).
  symmetry. apply bits_normal. lia.
Qed.

Section S.
  Context (P : platform).
  Notation frexp64 := (@frexp (ieee P)).
  Notation ldexp64 := (@ldexp (ieee P)).

  Lemma frexp_normal : forall x, normal x ->
    let (m, e) := frexp64 x in
    finite m /\ (/ 2 <= Rabs (Binary.B2R m) < 1)%R /\ scaled m e = Binary.B2R x.
  Proof.
    intros x N. destruct (normal_inv x N) as (s & m & e & H & -> & Hm & He).
    assert (Hf : frac_ok (Z.pos m - 2 ^ 52)) by (unfold frac_ok; lia).
    change frexp64 with (frexp_bits (p_mul_nan P)).
    rewrite (frexp_fields P _ s (e + 1075) _ Hf); [|unfold exp_ok; lia|apply bits_normal; lia|destruct s; reflexivity].
    split; [reflexivity|]. rewrite half_float_B2R. replace (Z.pos m - 2 ^ 52 + 2 ^ 52) with (Z.pos m) by ring.
    split.
    - pose proof (mant_bpow_ge m (-53) 52 ltac:(lia) ltac:(lia)) as G.
      pose proof (mant_bpow_lt m (-53) 53 ltac:(lia) ltac:(lia)) as L.
      change (bpow radix2 (52 + -53)) with (/ 2)%R in G. change (bpow radix2 (53 + -53)) with 1%R in L.
      replace (Rabs ((if s then -1 else 1) * IZR (Z.pos m) * bpow radix2 (-53)))%R
        with (IZR (Z.pos m) * bpow radix2 (-53))%R; [lra|].
      rewrite !Rabs_mult, (Rabs_pos_eq (bpow radix2 _)), (Rabs_pos_eq (IZR _)) by
        (try apply bpow_ge_0; apply IZR_le; lia).
      destruct s; [replace (-1)%R with (-(1))%R by lra; rewrite Rabs_Ropp|]; rewrite Rabs_R1; ring.
    - unfold scaled. rewrite half_float_B2R, B2R_finite.
      replace (Z.pos m - 2 ^ 52 + 2 ^ 52) with (Z.pos m) by ring.
      replace (bpow radix2 e) with (bpow radix2 (-53) * bpow radix2 (e + 1075 - 1022))%R; [ring|].
      rewrite <- bpow_plus. f_equal. lia.
  Qed.

  Lemma frexp_zero : forall s, frexp64 (B754_zero s) = (B754_zero false, 0).
  Proof. intros []; reflexivity. Qed.

  (** every subnormal: x/2 + 2^-1023 in magnitude *)
  Lemma frexp_subnormal : forall x, subnormal x ->
    let (m, e) := frexp64 x in
    (Rabs (scaled m e) = Rabs (Binary.B2R x) / 2 + bpow radix2 (-1023))%R.
  Proof.
    intros x N. destruct (subnormal_inv x N) as (s & m & H & -> & Hm).
    assert (Hf : frac_ok (Z.pos m)) by (unfold frac_ok; lia).
    change frexp64 with (frexp_bits (p_mul_nan P)).
    rewrite (frexp_fields P _ s 0 _ Hf); [|unfold exp_ok; lia|apply bits_subnormal; lia|destruct s; reflexivity].
    unfold scaled. rewrite half_float_B2R, abs_B2R_finite.
    rewrite !Rabs_mult, !(Rabs_pos_eq (bpow radix2 _)), (Rabs_pos_eq (IZR _)) by
      (try apply bpow_ge_0; apply IZR_le; lia).
    replace (Rabs (if s then -1 else 1)) with 1%R.
    2:{ destruct s; [replace (-1)%R with (-(1))%R by lra; rewrite Rabs_Ropp|]; now rewrite Rabs_R1. }
    rewrite plus_IZR. change (2 ^ 52) with (Zpower radix2 52). rewrite (IZR_Zpower radix2) by lia.
    change (-1074) with (-53 + (0 - 1022) + 1). change (-1023) with (52 + -53 + (0 - 1022)).
    rewrite !bpow_plus. change (bpow radix2 1) with 2%R. field.
  Qed.

  Lemma frexp_subnormal_wrong : forall x, subnormal x ->
    let (m, e) := frexp64 x in (Rabs (Binary.B2R x) < Rabs (scaled m e))%R.
  Proof.
    intros x N. pose proof (frexp_subnormal x N) as E. destruct (frexp64 x) as [m e].
    rewrite E. destruct N as [_ [N1 N2]]. unfold min_normal in N2.
    change (-1022) with (-1023 + 1) in N2. rewrite bpow_plus in N2. change (bpow radix2 1) with 2%R in N2. lra.
  Qed.

  Lemma ldexp_normal : forall x e, normal x ->
    (min_normal <= Rabs (scaled x e) < overflow)%R ->
    exists y, ldexp64 x e = Ok y /\ finite y /\ Binary.B2R y = scaled x e
      /\ Binary.Bsign y = Binary.Bsign x.
  Proof.
    intros x e N [L U]. destruct (normal_inv x N) as (s & m & k & H & -> & Hm & He).
    change ldexp64 with (ldexp_bits (p_checks P)).
    assert (E : Rabs (scaled (B754_finite s m k H) e) = (IZR (Z.pos m) * bpow radix2 (k + e))%R).
    { unfold scaled. rewrite Rabs_mult, abs_B2R_finite, (Rabs_pos_eq (bpow radix2 e)) by apply bpow_ge_0.
      rewrite bpow_plus. ring. }
    rewrite E in L, U. unfold min_normal in L. unfold overflow in U.
    assert (R1 : -1074 <= k + e).
    { destruct (Z.lt_ge_cases (k + e) (-1074)); auto.
      pose proof (mant_bpow_lt m (k + e) 53 ltac:(lia) ltac:(lia)).
      assert (bpow radix2 (53 + (k + e)) <= bpow radix2 (-1022))%R by (apply bpow_le; lia). lra. }
    assert (R2 : k + e <= 971).
    { destruct (Z.lt_ge_cases 971 (k + e)); auto.
      pose proof (mant_bpow_ge m (k + e) 52 ltac:(lia) ltac:(lia)).
      assert (bpow radix2 1024 <= bpow radix2 (52 + (k + e)))%R by (apply bpow_le; lia). lra. }
    destruct (Z.eq_dec e 0) as [->|E0].
    { exists (B754_finite s m k H). unfold ldexp_bits. rewrite orb_true_r.
      repeat split; auto. unfold scaled. simpl bpow. ring. }
    rewrite (ldexp_fields _ _ s (k + 1075) (Z.pos m - 2 ^ 52) e); auto;
      [|unfold frac_ok; lia|unfold exp_ok; lia|apply bits_normal; lia|destruct s; reflexivity|lia].
    replace (k + 1075 + e) with (k + e + 1075) by ring.
    destruct (mk_normal s m (k + e) Hm ltac:(lia)) as [H' ->].
    eexists. split; [reflexivity|]. split; [reflexivity|]. split; [|reflexivity].
    unfold scaled. rewrite !B2R_finite, bpow_plus. ring.
  Qed.

  Lemma ldexp_zero_exp : forall x, ldexp64 x 0 = Ok x.
  Proof. intros x. change ldexp64 with (ldexp_bits (p_checks P)). unfold ldexp_bits. now rewrite orb_true_r. Qed.

  Lemma ldexp_zero : forall s e, ldexp64 (B754_zero s) e = Ok (B754_zero s).
  Proof. intros [] e; reflexivity. Qed.

  (** The checked i32 addition on line 80 *)
  Lemma ldexp_overflows : forall x e, is_i32 e ->
    (is_panic (ldexp64 x e) = true <->
     p_checks P = true /\ f64_eq x f64_zero = false /\ 2 ^ 31 <= biased_exponent (to_bits x) + e).
  Proof.
    intros x e HE. change ldexp64 with (ldexp_bits (p_checks P)). unfold ldexp_bits.
    destruct (to_bits_fields x) as (s & E & m & Hm & HEx & HB & _). rewrite HB, mk_exp by auto.
    destruct (f64_eq x f64_zero) eqn:Z0; cbn [orb].
    { split; [discriminate|]. intros (_ & H & _). discriminate. }
    unfold is_i32, exp_ok in *. destruct (Z.eqb_spec e 0).
    { split; [discriminate|]. intros (_ & _ & H). lia. }
    unfold arith_s. destruct (in_range (- 2 ^ (32 - 1)) (2 ^ (32 - 1) - 1) (E + e)) eqn:R.
    - apply andb_true_iff in R as [R1 R2]. apply Z.leb_le in R1, R2. cbn [bind].
      split; [|lia]. destruct (in_range 0 2047 (E + e)); cbn [negb]; [discriminate|].
      destruct (negb _); discriminate.
    - apply andb_false_iff in R. rewrite !Z.leb_gt in R.
      destruct (p_checks P); cbn [bind].
      + split; [|reflexivity]. intros _. repeat split; auto. lia.
      + split; [|intros [H _]; discriminate].
        destruct (in_range 0 2047 _); cbn [negb]; [discriminate|].
        destruct (negb _); discriminate.
  Qed.

  (** Out-of-range exponents give an infinity, on both sides *)
  Lemma ldexp_out : forall x s E m e, frac_ok m -> exp_ok E -> to_bits x = mk s E m ->
    f64_eq x f64_zero = false -> is_i32 e ->
    (E + e < 0 \/ 2047 < E + e < 2 ^ 31) ->
    ldexp64 x e = Ok (B754_infinity s).
  Proof.
    intros x s E m e Hm HE HB HZ He HR. change ldexp64 with (ldexp_bits (p_checks P)).
    unfold ldexp_bits. rewrite HZ, HB, mk_exp, mk_sign by auto. unfold is_i32, exp_ok in *.
    destruct (Z.eqb_spec e 0); [lia|]. cbn [orb].
    unfold arith_s. replace (in_range (- 2 ^ (32 - 1)) (2 ^ (32 - 1) - 1) (E + e)) with true.
    2:{ symmetry. apply andb_true_iff. split; apply Z.leb_le; lia. }
    cbn [bind]. replace (in_range 0 2047 (E + e)) with false.
    2:{ symmetry. apply andb_false_iff. rewrite !Z.leb_gt. lia. }
    cbn [negb]. destruct s; reflexivity.
  Qed.

  Lemma ldexp_underflow : forall x e, normal x -> is_i32 e ->
    (Rabs (scaled x e) < bpow radix2 (-1075))%R ->
    ldexp64 x e = Ok (B754_infinity (Binary.Bsign x)).
  Proof.
    intros x e N He U. destruct (normal_inv x N) as (s & m & k & H & -> & Hm & Hk).
    apply (ldexp_out _ s (k + 1075) (Z.pos m - 2 ^ 52));
      [unfold frac_ok; lia|unfold exp_ok; lia|apply bits_normal; lia|destruct s; reflexivity|auto|].
    left. destruct (Z.lt_ge_cases (k + 1075 + e) 0); auto.
    assert (E : Rabs (scaled (B754_finite s m k H) e) = (IZR (Z.pos m) * bpow radix2 (k + e))%R).
    { unfold scaled. rewrite Rabs_mult, abs_B2R_finite, (Rabs_pos_eq (bpow radix2 e)) by apply bpow_ge_0.
      rewrite bpow_plus. ring. }
    rewrite E in U. pose proof (mant_bpow_ge m (k + e) 52 ltac:(lia) ltac:(lia)).
    assert (bpow radix2 (-1075) <= bpow radix2 (52 + (k + e)))%R by (apply bpow_le; lia). lra.
  Qed.

  (** Overflow by exactly one binade: NaN unless the significand is a power of two *)
  Lemma ldexp_first_overflow : forall x e, normal x ->
    (overflow < Rabs (scaled x e) < 2 * overflow)%R ->
    exists y, ldexp64 x e = Ok y /\ is_NaN y.
  Proof.
    intros x e N [L U]. destruct (normal_inv x N) as (s & m & k & H & -> & Hm & Hk).
    assert (E : Rabs (scaled (B754_finite s m k H) e) = (IZR (Z.pos m) * bpow radix2 (k + e))%R).
    { unfold scaled. rewrite Rabs_mult, abs_B2R_finite, (Rabs_pos_eq (bpow radix2 e)) by apply bpow_ge_0.
      rewrite bpow_plus. ring. }
    rewrite E in L, U. unfold overflow in *.
    assert (R1 : k + e = 972).
    { apply Z.le_antisymm.
      - destruct (Z.lt_ge_cases 972 (k + e)); auto.
        pose proof (mant_bpow_ge m (k + e) 52 ltac:(lia) ltac:(lia)).
        assert (bpow radix2 1025 <= bpow radix2 (52 + (k + e)))%R by (apply bpow_le; lia).
        change 1025 with (1 + 1024) in H2. rewrite bpow_plus in H2. change (bpow radix2 1) with 2%R in H2. lra.
      - destruct (Z.lt_ge_cases (k + e) 972); auto; try lia.
        pose proof (mant_bpow_lt m (k + e) 53 ltac:(lia) ltac:(lia)).
        assert (bpow radix2 (53 + (k + e)) <= bpow radix2 1024)%R by (apply bpow_le; lia). lra. }
    assert (R2 : Z.pos m <> 2 ^ 52).
    { intros M. rewrite R1, M in L. change (2 ^ 52) with (Zpower radix2 52) in L.
      rewrite (IZR_Zpower radix2), <- bpow_plus in L by lia. simpl Z.add in L. lra. }
    change ldexp64 with (ldexp_bits (p_checks P)).
    rewrite (ldexp_fields _ _ s (k + 1075) (Z.pos m - 2 ^ 52) e);
      [|unfold frac_ok; lia|unfold exp_ok; lia|apply bits_normal; lia|destruct s; reflexivity|lia|lia].
    eexists. split; [reflexivity|]. replace (k + 1075 + e) with 2047 by lia.
    set (b := mk s 2047 (Z.pos m - 2 ^ 52)).
    assert (B : to_bits (from_bits b) = b) by (apply to_from_bits, mk_range; unfold frac_ok, exp_ok; lia).
    unfold is_NaN. destruct (from_bits b) as [s'|s'|s' pl H'|s' m' e' H']; [| |reflexivity|].
    - assert (T : mk s' 0 0 = b) by exact B.
      apply mk_inj in T as (_ & T & _); try (unfold frac_ok, exp_ok; lia).
    - assert (T : mk s' 2047 0 = b) by exact B.
      apply mk_inj in T as (_ & _ & T); try (unfold frac_ok, exp_ok; lia).
    - pose proof (bounded_mant m' e' H') as (B1 & B2 & B3).
      destruct (Z.lt_ge_cases (Z.pos m') (2 ^ 52)) as [C|C].
      + rewrite bits_subnormal in B by auto.
        apply mk_inj in B as (_ & T & _); try (unfold frac_ok, exp_ok; lia).
      + rewrite bits_normal in B by auto.
        apply mk_inj in B as (_ & T & _); try (unfold frac_ok, exp_ok; lia).
  Qed.

  (** ldexp of an infinity with a negative exponent is finite *)
  Lemma ldexp_inf : forall s e, -2046 <= e < 0 ->
    exists y, ldexp64 (B754_infinity s) e = Ok y /\ finite y
     /\ Binary.B2R y = ((if s then -1 else 1) * bpow radix2 (1024 + e))%R.
  Proof.
    intros s e He. change ldexp64 with (ldexp_bits (p_checks P)).
    rewrite (ldexp_fields _ _ s 2047 0 e); try (unfold frac_ok, exp_ok; lia);
      [|reflexivity|destruct s; reflexivity].
    eexists. split; [reflexivity|].
    destruct (mk_normal s (2 ^ 52)%positive (972 + e) ltac:(lia) ltac:(lia)) as [H' E'].
    replace (2047 + e) with (972 + e + 1075) by ring.
    change 0 with (Z.pos (2 ^ 52) - 2 ^ 52) at 1 2. rewrite E'. split; [reflexivity|].
    rewrite B2R_finite. replace (1024 + e) with (52 + (972 + e)) by ring. rewrite (bpow_plus radix2 52).
    rewrite (IZR_bpow 52) by lia. change (IZR (2 ^ 52)) with (IZR (Z.pos (2 ^ 52))). ring.
  Qed.

  Lemma ldexp_frexp_id : forall x, x <> B754_zero true ->
    let (m, e) := frexp64 x in ldexp64 m e = Ok x.
  Proof. exact (ldexp_frexp P (p_checks P)). Qed.

  Lemma frexp_range : forall x, let (m, e) := frexp64 x in -1022 <= e <= 1025.
  Proof.
    intros x. change frexp64 with (frexp_bits (p_mul_nan P)).
    destruct (f64_eq x f64_zero) eqn:Z0.
    - unfold frexp_bits. rewrite Z0. lia.
    - destruct (to_bits_fields x) as (s & E & m & Hm & HE & HB & _).
      rewrite (frexp_fields P x s E m Hm HE HB Z0). unfold exp_ok in HE. lia.
  Qed.

  (** sign *)
  Lemma sign_bits : forall a b : f64, exists s E m,
    frac_ok m /\ exp_ok E /\ to_bits a = mk s E m /\
    to_bits (@sign (ieee P) a b) = mk (Binary.Bsign b) E m.
  Proof.
    intros a b. destruct (to_bits_fields a) as (s & E & m & Hm & HE & HB & Hs).
    exists s, E, m. repeat split; try apply Hm; try apply HE; auto.
    assert (G : @sign (ieee P) a b = f64_set_sign (Binary.Bsign b) a).
    { unfold sign; simpl. rewrite f64_sign_Bsign. destruct (Binary.Bsign b); simpl.
      - destruct a; reflexivity.
      - reflexivity. }
    rewrite G. subst s. clear G. generalize (Binary.Bsign b) as t. intros t.
    destruct a as [s|s|s pl H|s m0 e0 H].
    - assert (T : mk s 0 0 = mk s E m) by exact HB.
      apply mk_inj in T as (_ & <- & <-); auto; unfold frac_ok, exp_ok; lia.
    - assert (T : mk s 2047 0 = mk s E m) by exact HB.
      apply mk_inj in T as (_ & <- & <-); auto; unfold frac_ok, exp_ok; lia.
    - assert (T : mk s 2047 (Z.pos pl) = mk s E m) by exact HB.
      apply mk_inj in T as (_ & <- & <-); auto; try (unfold exp_ok; lia). now apply nan_pl_ok.
    - pose proof (bounded_mant m0 e0 H) as (B1 & B2 & B3).
      destruct (Z.lt_ge_cases (Z.pos m0) (2 ^ 52)) as [C|C].
      + cbn [f64_set_sign]. rewrite bits_subnormal in * by auto. simpl Binary.Bsign in HB.
        apply mk_inj in HB as (_ & <- & <-); auto; unfold frac_ok, exp_ok; lia.
      + cbn [f64_set_sign]. rewrite bits_normal in * by auto. simpl Binary.Bsign in HB.
        apply mk_inj in HB as (_ & <- & <-); auto; unfold frac_ok, exp_ok; lia.
  Qed.

  Lemma Bsign_bit : forall x : f64, Binary.Bsign x = Z.testbit (to_bits x) 63.
  Proof.
    intros x. destruct (to_bits_fields x) as (s & E & m & Hm & HE & HB & Hs).
    rewrite HB, mk_testbit by (auto; lia). simpl. now symmetry.
  Qed.

  (** Bit k of sign(a, b) is bit k of a below 63, and bit 63 is that of b *)
  Lemma sign_testbit : forall (a b : f64) k, 0 <= k < 64 ->
    Z.testbit (to_bits (@sign (ieee P) a b)) k
    = if k =? 63 then Z.testbit (to_bits b) 63 else Z.testbit (to_bits a) k.
  Proof.
    intros a b k Hk. destruct (sign_bits a b) as (s & E & m & Hm & HE & HA & HS).
    rewrite HS, HA, <- Bsign_bit, !mk_testbit by (auto; lia).
    destruct (Z.eqb_spec k 63) as [->|N]; [reflexivity|].
    destruct (Z.ltb_spec k 52); auto.
  Qed.
End S.
