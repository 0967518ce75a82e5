(** * frexp and ldexp on bit patterns *)

From Coq Require Import ZArith Reals Bool Lra Lia Psatz.
From Flocq Require Import Core IEEE754.BinarySingleNaN IEEE754.Binary IEEE754.Bits.
From Verif.Model Require Import Base Arith.
From Verif.Float Require Import Bits64 Ieee.
From Verif.Proofs Require Import F64 F64Ops CacheFacts.
Open Scope Z_scope.

(** The pattern with sign [s], biased exponent [E], fraction [m] *)
Notation mk s E m := (join_bits 52 11 s m E).

Definition frac_ok (m : Z) := 0 <= m < 2 ^ 52.
Definition exp_ok (E : Z) := 0 <= E < 2 ^ 11.

Lemma testbit_high : forall m k n, 0 <= m < 2 ^ k -> 0 <= k <= n -> Z.testbit m n = false.
Proof.
  intros m k n H Hn. destruct (Z.eq_dec m 0) as [->|N]; [apply Z.bits_0|].
  apply Z.bits_above_log2; [lia|]. apply Z.log2_lt_pow2; [lia|].
  apply Z.lt_le_trans with (2 ^ k); [lia|]. apply Z.pow_le_mono_r; lia.
Qed.

Lemma add_lor : forall a b, Z.land a b = 0 -> a + b = Z.lor a b.
Proof. intros a b H. apply Z.add_nocarry_lxor in H as E. rewrite E. now apply Z.lxor_lor. Qed.

Lemma shiftl_low : forall a m k, 0 <= k -> 0 <= m < 2 ^ k -> Z.shiftl a k + m = Z.lor (Z.shiftl a k) m.
Proof.
  intros a m k Hk H. apply add_lor. apply Z.bits_inj'. intros n Hn. rewrite Z.land_spec, Z.bits_0.
  destruct (Z.lt_ge_cases n k).
  - rewrite Z.shiftl_spec_low by lia. reflexivity.
  - rewrite (testbit_high m k n) by lia. apply andb_false_r.
Qed.

Lemma mk_testbit : forall s E m n, frac_ok m -> exp_ok E -> 0 <= n ->
  Z.testbit (mk s E m) n =
  if n <? 52 then Z.testbit m n
  else if n <? 63 then Z.testbit E (n - 52)
  else (n =? 63) && s.
Proof.
  intros s E m n Hm HE Hn. unfold join_bits. rewrite shiftl_low by (unfold frac_ok in *; lia).
  rewrite Z.lor_spec. destruct (Z.ltb_spec n 52).
  { rewrite Z.shiftl_spec_low by lia. reflexivity. }
  rewrite (testbit_high m 52 n) by (unfold frac_ok in *; lia). rewrite orb_false_r.
  rewrite Z.shiftl_spec_high by lia.
  replace (if s then 2 ^ 11 else 0) with (Z.shiftl (Z.b2z s) 11) by (destruct s; reflexivity).
  rewrite shiftl_low by (unfold exp_ok in *; lia). rewrite Z.lor_spec.
  destruct (Z.ltb_spec n 63).
  { rewrite Z.shiftl_spec_low by lia. reflexivity. }
  rewrite (testbit_high E 11 (n - 52)) by (unfold exp_ok in *; lia). rewrite orb_false_r.
  rewrite Z.shiftl_spec_high by lia. destruct (Z.eqb_spec n 63) as [->|N].
  - simpl. destruct s; reflexivity.
  - simpl. apply (testbit_high _ 1); [destruct s; simpl; lia|lia].
Qed.

Lemma mk_sign : forall s E m, frac_ok m -> exp_ok E -> Z.shiftr (mk s E m) 63 = Z.b2z s.
Proof.
  intros s E m Hm HE. apply Z.bits_inj'. intros n Hn. rewrite Z.shiftr_spec by lia.
  rewrite mk_testbit by (auto; lia).
  destruct (Z.ltb_spec (n + 63) 52); [lia|]. destruct (Z.ltb_spec (n + 63) 63); [lia|].
  destruct (Z.eqb_spec (n + 63) 63) as [E0|N].
  - replace n with 0 by lia. destruct s; reflexivity.
  - symmetry. apply (testbit_high _ 1); [destruct s; simpl; lia|lia].
Qed.

Lemma mk_exp : forall s E m, frac_ok m -> exp_ok E -> biased_exponent (mk s E m) = E.
Proof.
  intros s E m Hm HE. unfold biased_exponent. change 2047 with (Z.ones 11).
  apply Z.bits_inj'. intros n Hn. rewrite Z.land_spec, Z.shiftr_spec by lia.
  rewrite mk_testbit by (auto; lia).
  destruct (Z.ltb_spec (n + 52) 52); [lia|].
  destruct (Z.lt_ge_cases n 11).
  - rewrite Z.ones_spec_low by lia. destruct (Z.ltb_spec (n + 52) 63); [|lia].
    rewrite andb_true_r. f_equal. lia.
  - rewrite Z.ones_spec_high by lia. rewrite andb_false_r.
    symmetry. apply (testbit_high _ 11); auto. lia.
Qed.

Lemma mk_frac : forall s E m, frac_ok m -> exp_ok E -> Z.land (mk s E m) 0xfffffffffffff = m.
Proof.
  intros s E m Hm HE. change 0xfffffffffffff with (Z.ones 52).
  apply Z.bits_inj'. intros n Hn. rewrite Z.land_spec. rewrite mk_testbit by auto.
  destruct (Z.ltb_spec n 52).
  - rewrite Z.ones_spec_low by lia. apply andb_true_r.
  - rewrite Z.ones_spec_high by lia. rewrite andb_false_r.
    symmetry. apply (testbit_high _ 52); auto. lia.
Qed.

Lemma lor_half : forall m, frac_ok m -> Z.lor m 0x3fe0000000000000 = mk false 1022 m.
Proof.
  intros m Hm. unfold join_bits. rewrite shiftl_low by (unfold frac_ok in *; lia).
  rewrite Z.lor_comm. reflexivity.
Qed.

Lemma mk_replace : forall s E E' m, frac_ok m -> exp_ok E -> exp_ok E' ->
  Z.lor (Z.land (mk s E m) 0x800fffffffffffff) (Z.shiftl E' 52) = mk s E' m.
Proof.
  intros s E E' m Hm HE HE'.
  change 0x800fffffffffffff with (Z.lor (Z.ones 52) (Z.shiftl 1 63)).
  apply Z.bits_inj'. intros n Hn. rewrite Z.lor_spec, Z.land_spec, Z.lor_spec.
  rewrite !mk_testbit by auto. destruct (Z.ltb_spec n 52).
  - rewrite Z.ones_spec_low, (Z.shiftl_spec_low E') by lia.
    now rewrite orb_false_r, andb_true_r.
  - rewrite Z.ones_spec_high by lia. rewrite (Z.shiftl_spec_high E') by lia.
    destruct (Z.ltb_spec n 63).
    + rewrite Z.shiftl_spec_low by lia. rewrite andb_false_r. reflexivity.
    + rewrite (testbit_high E' 11 (n - 52)) by (unfold exp_ok in *; lia). rewrite orb_false_r.
      destruct (Z.eqb_spec n 63) as [->|N]; simpl; auto.
      destruct s; reflexivity.
Qed.

(** ** The fields of a float *)

Lemma bounded_mant : forall m e, SpecFloat.bounded 53 1024 m e = true ->
  Z.pos m < 2 ^ 53 /\ -1074 <= e <= 971 /\ (2 ^ 52 <= Z.pos m \/ e = -1074).
Proof.
  intros m e H. unfold SpecFloat.bounded, SpecFloat.canonical_mantissa, SpecFloat.fexp, SpecFloat.emin in H.
  apply andb_true_iff in H as [H1 H2]. apply Zeq_bool_eq in H1. apply Zle_bool_imp_le in H2.
  rewrite Digits.Zpos_digits2_pos in H1.
  pose proof (Digits.Zdigits_correct radix2 (Z.pos m)) as [D1 D2].
  set (d := Digits.Zdigits radix2 (Z.pos m)) in *. rewrite Z.abs_eq in D1, D2 by lia.
  assert (0 < d) by (apply Digits.Zdigits_gt_0; lia).
  change (Zpower radix2) with (Z.pow 2) in *.
  assert (d <= 53) by lia. split; [|split].
  - apply Z.lt_le_trans with (2 ^ d); auto. apply Z.pow_le_mono_r; lia.
  - lia.
  - destruct (Z.eq_dec e (-1074)); [auto|left].
    replace d with 53 in * by lia. exact D1.
Qed.

Lemma nan_pl_ok : forall pl, Binary.nan_pl 53 pl = true -> frac_ok (Z.pos pl).
Proof.
  intros pl H. unfold Binary.nan_pl in H. apply Z.ltb_lt in H.
  rewrite Digits.Zpos_digits2_pos in H.
  pose proof (Digits.Zdigits_correct radix2 (Z.pos pl)) as [_ D2]. rewrite Z.abs_eq in D2 by lia.
  change (Zpower radix2) with (Z.pow 2) in D2.
  assert (2 ^ Digits.Zdigits radix2 (Z.pos pl) <= 2 ^ 52) by (apply Z.pow_le_mono_r; lia).
  unfold frac_ok; lia.
Qed.

(** Every float has a sign, exponent field and fraction field *)
Lemma to_bits_fields : forall x : f64, exists s E m,
  frac_ok m /\ exp_ok E /\ to_bits x = mk s E m /\ s = Binary.Bsign x.
Proof.
  intros x. unfold frac_ok, exp_ok. destruct x as [s|s|s pl H|s m e H].
  - exists s, 0, 0. repeat split; lia.
  - exists s, 2047, 0. repeat split; lia.
  - exists s, 2047, (Z.pos pl). pose proof (nan_pl_ok pl H) as D. unfold frac_ok in D.
    repeat split; lia.
  - pose proof (bounded_mant m e H) as (B1 & B2 & B3).
    unfold to_bits, bits_of_b64, bits_of_binary_float.
    change (SpecFloat.emin (52 + 1) (2 ^ (11 - 1))) with (-1074).
    destruct (Z.leb_spec 0 (Z.pos m - 2 ^ 52)).
    + exists s, (e - -1074 + 1), (Z.pos m - 2 ^ 52). repeat split; lia.
    + exists s, 0, (Z.pos m). repeat split; lia.
Qed.

Lemma to_bits_range : forall x, 0 <= to_bits x < 2 ^ 64.
Proof. intros x. apply (bits_of_binary_float_range 52 11); lia. Qed.

Lemma to_from_bits : forall b, 0 <= b < 2 ^ 64 -> to_bits (from_bits b) = b.
Proof. intros b H. apply (bits_of_binary_float_of_bits 52 11). exact H. Qed.

Lemma mk_range : forall s E m, frac_ok m -> exp_ok E -> 0 <= mk s E m < 2 ^ 64.
Proof. intros s E m Hm HE. apply (join_bits_range 52 11); auto. Qed.

Lemma mk_inj : forall s E m s' E' m', frac_ok m -> exp_ok E -> frac_ok m' -> exp_ok E' ->
  mk s E m = mk s' E' m' -> s = s' /\ E = E' /\ m = m'.
Proof.
  intros s E m s' E' m' H1 H2 H3 H4 H.
  pose proof (split_join_bits 52 11 s m E H1 H2) as S1.
  pose proof (split_join_bits 52 11 s' m' E' H3 H4) as S2.
  rewrite H, S2 in S1. now injection S1 as -> -> ->.
Qed.

Lemma bits_normal : forall s m e H, 2 ^ 52 <= Z.pos m ->
  to_bits (@B754_finite 53 1024 s m e H) = mk s (e + 1075) (Z.pos m - 2 ^ 52).
Proof.
  intros s m e H N. unfold to_bits, bits_of_b64, bits_of_binary_float.
  change (SpecFloat.emin (52 + 1) (2 ^ (11 - 1))) with (-1074).
  destruct (Z.leb_spec 0 (Z.pos m - 2 ^ 52)); [|lia].
  f_equal. lia.
Qed.

Lemma bits_subnormal : forall s m e H, Z.pos m < 2 ^ 52 ->
  to_bits (@B754_finite 53 1024 s m e H) = mk s 0 (Z.pos m).
Proof.
  intros s m e H N. unfold to_bits, bits_of_b64, bits_of_binary_float.
  change (SpecFloat.emin (52 + 1) (2 ^ (11 - 1))) with (-1074).
  destruct (Z.leb_spec 0 (Z.pos m - 2 ^ 52)); [lia|reflexivity].
Qed.

Lemma bounded_norm : forall m e, 2 ^ 52 <= Z.pos m < 2 ^ 53 -> -1074 <= e <= 971 ->
  SpecFloat.bounded 53 1024 m e = true.
Proof.
  intros m e Hm He. unfold SpecFloat.bounded, SpecFloat.canonical_mantissa, SpecFloat.fexp, SpecFloat.emin.
  apply andb_true_iff. split.
  - apply Zeq_bool_true. rewrite Digits.Zpos_digits2_pos.
    rewrite (Digits.Zdigits_unique radix2 (Z.pos m) 53).
    + lia.
    + rewrite Z.abs_eq by lia. change (Zpower radix2) with (Z.pow 2). lia.
  - apply Zle_imp_le_bool. lia.
Qed.

(** The float with sign [s] and magnitude [M * 2^-53], [M] a 53-bit number *)
Definition half_float (s : bool) (m : Z) (H : frac_ok m) : f64.
Proof.
  refine (@B754_finite 53 1024 s (Z.to_pos (m + 2 ^ 52)) (-53) _).
  unfold frac_ok in H. apply bounded_norm; rewrite ?Z2Pos.id by lia; lia.
Defined.

Lemma half_float_bits : forall s m H, to_bits (half_float s m H) = mk s 1022 m.
Proof.
  intros s m H. pose proof H as H'. unfold frac_ok in H'. unfold half_float.
  rewrite bits_normal by (rewrite Z2Pos.id by lia; lia).
  f_equal. rewrite Z2Pos.id by lia. lia.
Qed.

Lemma half_float_B2R : forall s m H,
  Binary.B2R (half_float s m H)
  = ((if s then -1 else 1) * IZR (m + 2 ^ 52) * bpow radix2 (-53))%R.
Proof.
  intros s m H. pose proof H as H'. unfold frac_ok in H'. unfold half_float, Binary.B2R, F2R.
  cbn [Fnum Fexp]. rewrite Z2Pos.id by lia. destruct s; cbn [SpecFloat.cond_Zopp].
  - rewrite opp_IZR. ring.
  - ring.
Qed.

Lemma sign_factor_spec : forall b s, Z.shiftr b 63 = Z.b2z s ->
  fin (sign_factor b) /\ Binary.B2R (sign_factor b) = (if s then -1 else 1)%R
  /\ Binary.Bsign (sign_factor b) = s.
Proof.
  intros b s H. unfold sign_factor. rewrite H.
  destruct s; cbn [Z.b2z Z.eqb negb].
  - destruct (of_Z_exact (-1)) as [H1 H2]; [simpl; lia|]. unfold f64_of_Z in *.
    split; [exact H1|]. split; [exact H2|]. reflexivity.
  - destruct (of_Z_exact 1) as [H1 H2]; [simpl; lia|]. unfold f64_of_Z in *.
    split; [exact H1|]. split; [exact H2|]. reflexivity.
Qed.

Section Frexp.
  Context (P : platform).
  Notation frexp64 := (frexp_bits (p_mul_nan P)).

  (** frexp on every nonzero pattern *)
  Lemma frexp_fields : forall x s E m (Hm : frac_ok m), exp_ok E ->
    to_bits x = mk s E m -> f64_eq x f64_zero = false ->
    frexp64 x = (half_float s m Hm, E - 1022).
  Proof.
    intros x s E m Hm HE HB HZ. unfold frexp_bits. rewrite HZ, HB.
    rewrite mk_exp, mk_frac, lor_half by auto. f_equal; [|lia].
    rewrite <- (half_float_bits false m Hm), from_to_bits.
    destruct (sign_factor_spec (mk s E m) s (mk_sign s E m Hm HE)) as (F1 & V1 & S1).
    assert (F2 : fin (half_float false m Hm)) by reflexivity.
    destruct (mul_spec P (sign_factor (mk s E m)) (half_float false m Hm) F1 F2) as [N V].
    fold (f64_mul P (sign_factor (mk s E m)) (half_float false m Hm)).
    apply f64_ext; auto.
    - rewrite V, V1, half_float_B2R, val_fin, half_float_B2R by reflexivity.
      assert (FM : fmt (IZR (m + 2 ^ 52) * bpow radix2 (-53))%R).
      { apply fmt_F2R; [|lia]. unfold frac_ok in Hm. lia. }
      assert (BM : (Rabs (IZR (m + 2 ^ 52) * bpow radix2 (-53)) <= Om)%R).
      { pose proof (B2R_lt_Om (half_float false m Hm)) as B. rewrite half_float_B2R in B.
        rewrite Rmult_1_l in B. lra. }
      destruct s.
      + replace (-1 * (1 * IZR (m + 2 ^ 52) * bpow radix2 (-53)))%R
          with (- (IZR (m + 2 ^ 52) * bpow radix2 (-53)))%R by ring.
        rewrite rs_opp, rs_fmt by auto. ring.
      + rewrite Rmult_1_l, Rmult_1_l. now apply rs_fmt.
    - rewrite mul_sign, S1 by auto. simpl. now rewrite xorb_false_r.
  Qed.

  Lemma nonzero_bits : forall x s E m, frac_ok m -> exp_ok E -> to_bits x = mk s E m ->
    (f64_eq x f64_zero = false <-> (E <> 0 \/ m <> 0)).
  Proof.
    intros x s E m Hm HE HB.
    destruct x as [s0|s0|s0 pl H0|s0 m0 e0 H0].
    - assert (mk s0 0 0 = mk s E m) by exact HB.
      apply mk_inj in H as (_ & <- & <-); auto; try (unfold frac_ok, exp_ok; lia).
      split; [discriminate|lia].
    - assert (mk s0 2047 0 = mk s E m) by exact HB.
      apply mk_inj in H as (_ & <- & <-); auto; try (unfold frac_ok, exp_ok; lia).
      split; [lia|]. intros _. destruct s0; reflexivity.
    - destruct (to_bits_fields (B754_nan s0 pl H0)) as (s1 & E1 & m1 & A1 & A2 & A3 & A4).
      split; [|intros; reflexivity]. intros _. left. intros ->.
      pose proof (nan_pl_ok pl H0) as D.
      assert (mk s0 2047 (Z.pos pl) = mk s 0 m) by exact HB.
      apply mk_inj in H as (_ & H & _); auto; try (unfold exp_ok; lia).
    - pose proof (bounded_mant m0 e0 H0) as (B1 & B2 & B3).
      assert (Z : f64_eq (B754_finite s0 m0 e0 H0) f64_zero = false) by (destruct s0; reflexivity).
      rewrite Z. split; auto. intros _.
      destruct (Z.lt_ge_cases (Z.pos m0) (2 ^ 52)).
      + rewrite bits_subnormal in HB by auto.
        apply mk_inj in HB as (_ & <- & <-); auto; try (unfold frac_ok, exp_ok; lia).
      + rewrite bits_normal in HB by auto.
        apply mk_inj in HB as (_ & <- & <-); auto; try (unfold frac_ok, exp_ok; lia).
  Qed.

  Lemma ldexp_fields : forall chk x s E m e, frac_ok m -> exp_ok E -> to_bits x = mk s E m ->
    f64_eq x f64_zero = false -> e <> 0 -> 0 <= E + e <= 2047 ->
    ldexp_bits chk x e = Ok (from_bits (mk s (E + e) m)).
  Proof.
    intros chk x s E m e Hm HE HB HZ He HR. unfold ldexp_bits. rewrite HZ.
    destruct (Z.eqb_spec e 0); [lia|]. cbn [orb]. rewrite HB, mk_exp by auto.
    unfold arith_s. replace (in_range (- 2 ^ (32 - 1)) (2 ^ (32 - 1) - 1) (E + e)) with true.
    2:{ symmetry. apply andb_true_iff. split; apply Z.leb_le; unfold exp_ok in HE; lia. }
    cbn [bind]. replace (in_range 0 2047 (E + e)) with true.
    2:{ symmetry. apply andb_true_iff. split; apply Z.leb_le; lia. }
    cbn [negb]. rewrite mk_replace by (auto; unfold exp_ok; lia). reflexivity.
  Qed.

  (** ldexp undoes frexp *)
  Lemma ldexp_frexp : forall chk x, x <> B754_zero true ->
    let (m, e) := frexp64 x in ldexp_bits chk m e = Ok x.
  Proof.
    intros chk x NZ. destruct (f64_eq x f64_zero) eqn:Z.
    - assert (x = B754_zero false).
      { destruct x as [[]|[]|s pl H|[] m e H]; try discriminate; try congruence; reflexivity. }
      subst x. reflexivity.
    - destruct (to_bits_fields x) as (s & E & m & Hm & HE & HB & _).
      rewrite (frexp_fields x s E m Hm HE HB Z).
      assert (Z' : f64_eq (half_float s m Hm) f64_zero = false) by (destruct s; reflexivity).
      destruct (Z.eq_dec (E - 1022) 0) as [E0|E0].
      + unfold ldexp_bits. rewrite E0, orb_true_r. f_equal.
        apply to_bits_inj. rewrite half_float_bits, HB. f_equal. lia.
      + rewrite (ldexp_fields chk _ s 1022 m (E - 1022)); auto; try (unfold exp_ok in *; lia).
        * f_equal. apply to_bits_inj. rewrite to_from_bits by (apply mk_range; auto; unfold exp_ok in *; lia).
          rewrite HB. f_equal. lia.
        * apply half_float_bits.
  Qed.
End Frexp.
