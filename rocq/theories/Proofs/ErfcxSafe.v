(** * erfcx: reduction to a table entry, absence of panics *)

From Coq Require Import ZArith Reals Bool Lra Lia List.
From Flocq Require Import Core IEEE754.BinarySingleNaN IEEE754.Binary IEEE754.Bits.
From Flocq Require Import Sterbenz.
From Verif.Model Require Import Base Arith Utils ErrorTables Error.
From Verif.Float Require Import Bits64 Ieee Exact.
From Verif.Spec Require Import F64Spec Outcome.
From Verif.Proofs Require Import F64 F64Ops Lits Ext Boundaries UtilsSpec.
Open Scope R_scope.

Lemma fmt_scale : forall (x : f64) k, (0 <= k)%Z -> fmt (Binary.B2R x * bpow radix2 k).
Proof.
  intros x k Hk. destruct x as [s|s|s p H|s m e H]; try (simpl; rewrite Rmult_0_l; apply fmt_0).
  rewrite B2R_finite, Rmult_assoc, <- bpow_plus.
  destruct (proj1 (andb_true_iff _ _) H) as [C _]. unfold SpecFloat.canonical_mantissa in C.
  apply Zeq_bool_eq in C. unfold SpecFloat.fexp, SpecFloat.emin in C.
  rewrite Digits.Zpos_digits2_pos in C.
  assert (Hm : (Z.pos m < 2 ^ 53)%Z).
  { apply (Digits.Zpower_gt_Zdigits radix2 53 (Z.pos m)). lia. }
  replace (if s then -1 else 1) with (IZR (if s then -1 else 1)) by (destruct s; reflexivity).
  rewrite <- mult_IZR. apply fmt_F2R; destruct s; lia.
Qed.

Lemma index_ok : forall {A} (l : list A) i, (0 <= i < Z.of_nat (length l))%Z ->
  exists a, index l i = Ok a /\ nth_error l (Z.to_nat i) = Some a.
Proof.
  intros A l i H. unfold index. rewrite (proj2 (Z.ltb_ge i 0)) by lia.
  destruct (nth_error l (Z.to_nat i)) as [a|] eqn:E; [exists a; auto|].
  apply nth_error_None in E. lia.
Qed.

Lemma len_0 : Z.of_nat (length CHEBYSHEV_COEFFS_0) = 896%Z.
Proof. vm_compute. reflexivity. Qed.
Lemma len_1 : Z.of_nat (length CHEBYSHEV_COEFFS_1) = 3584%Z.
Proof. vm_compute. reflexivity. Qed.

Section Erfcx.
  Context (P : platform).

  (** the subinterval is indexed by the binary exponent [e] and the leading
      bits [ip] of the mantissa; the local coordinate is computed exactly *)
  Lemma cheb_reduce_exact : forall x : f64, fin x -> 1 / 8 <= Binary.B2R x <= 12 ->
    exists e ip t, (-2 <= e <= 4)%Z /\ (64 <= ip <= 127)%Z /\ (0 <= e * 64 + ip - -64 <= 416)%Z /\
    fin t /\ Rabs (Binary.B2R t) <= 1 /\
    Binary.B2R x = bpow radix2 (e - 8) * (Binary.B2R t + (1 + 2 * IZR ip)) /\
    @cheb_interpolant (ieee P) x =
      @cheb_poly (ieee P) ((e * 64 + ip - -64) * 8) ((e * 64 + ip - -64) * 2) t.
  Proof.
    intros x Fx Hx.
    assert (N : normal x).
    { split; [exact Fx|]. unfold min_normal. rewrite Rabs_pos_eq by lra.
      apply Rle_trans with (1 / 8); [|lra]. replace (1 / 8) with (bpow radix2 (-3)) by (simpl; lra).
      apply bpow_le. lia. }
    pose proof (frexp_normal P x N) as H. unfold cheb_interpolant.
    destruct (@frexp (ieee P) x) as [m e]. destruct H as (Fm & Hm & Hs). unfold scaled in Hs.
    assert (Pm : 0 < Binary.B2R m).
    { destruct (Rle_or_lt (Binary.B2R m) 0) as [L|L]; [|exact L]. exfalso.
      pose proof (bpow_gt_0 radix2 e). nra. }
    rewrite Rabs_pos_eq in Hm by lra.
    assert (E : (-2 <= e <= 4)%Z).
    { split.
      - destruct (Z_lt_le_dec e (-2)) as [L|L]; [|exact L]. exfalso.
        assert (bpow radix2 e <= bpow radix2 (-3)) by (apply bpow_le; lia).
        replace (bpow radix2 (-3)) with (1 / 8) in H by (simpl; lra). pose proof (bpow_gt_0 radix2 e). nra.
      - destruct (Z_lt_le_dec 4 e) as [L|L]; [|exact L]. exfalso.
        assert (bpow radix2 5 <= bpow radix2 e) by (apply bpow_le; lia).
        replace (bpow radix2 5) with 32 in H by (simpl; lra). nra. }
    ieee_simpl.
    destruct (of_Z_exact 128 ltac:(lia)) as [F128 V128]. destruct (of_Z_exact 256 ltac:(lia)) as [F256 V256].
    assert (M128 : fin (f64_mul P (f64_of_Z 128) m) /\ Binary.B2R (f64_mul P (f64_of_Z 128) m) = 128 * Binary.B2R m).
    { assert (Ef : rnd (128 * Binary.B2R m) = 128 * Binary.B2R m).
      { apply rnd_fmt. replace (128 * Binary.B2R m) with (Binary.B2R m * bpow radix2 7) by (rewrite (Rmult_comm _ (bpow _ _)); reflexivity).
        apply fmt_scale. lia. }
      destruct (rounds_small _ _ (mul_spec P _ m F128 Fm)) as [F1 V1].
      - rewrite V128, Ef, Rabs_pos_eq by lra. pose proof Om_big. lra.
      - split; [exact F1|]. rewrite V1, V128. exact Ef. }
    destruct M128 as [F1 V1].
    assert (M256 : fin (f64_mul P (f64_of_Z 256) m) /\ Binary.B2R (f64_mul P (f64_of_Z 256) m) = 256 * Binary.B2R m).
    { assert (Ef : rnd (256 * Binary.B2R m) = 256 * Binary.B2R m).
      { apply rnd_fmt. replace (256 * Binary.B2R m) with (Binary.B2R m * bpow radix2 8) by (rewrite (Rmult_comm _ (bpow _ _)); reflexivity).
        apply fmt_scale. lia. }
      destruct (rounds_small _ _ (mul_spec P _ m F256 Fm)) as [F2 V2].
      - rewrite V256, Ef, Rabs_pos_eq by lra. pose proof Om_big. lra.
      - split; [exact F2|]. rewrite V2, V256. exact Ef. }
    destruct M256 as [F2 V2].
    unfold as_i32. ieee_simpl.
    rewrite to_int_fin by exact F1. rewrite (val_fin _ F1), V1.
    set (ip := Ztrunc (128 * Binary.B2R m)).
    assert (Ip : IZR ip <= 128 * Binary.B2R m < IZR ip + 1).
    { unfold ip. rewrite Ztrunc_floor by lra. split; [apply Zfloor_lb|apply Zfloor_ub]. }
    assert (R1 : (64 <= ip <= 127)%Z).
    { split; apply Z.lt_succ_r; unfold Z.succ; apply lt_IZR; rewrite ?plus_IZR; lra. }
    assert (R2 : e = 4%Z -> (ip <= 96)%Z).
    { intros ->. apply Z.lt_succ_r. apply lt_IZR. unfold Z.succ. rewrite plus_IZR.
      change (bpow radix2 4) with 16 in Hs. lra. }
    replace (Z.max (- 2 ^ 31) (Z.min (2 ^ 31 - 1) ip)) with ip by lia.
    destruct (of_Z_exact (1 + 2 * ip) ltac:(lia)) as [Fo Vo].
    assert (T : rounds (f64_sub P (f64_mul P (f64_of_Z 256) m) (f64_of_Z (1 + 2 * ip)))
                  (256 * Binary.B2R m - (1 + 2 * IZR ip))).
    { rewrite <- V2. replace (1 + 2 * IZR ip) with (Binary.B2R (f64_of_Z (1 + 2 * ip)))
        by (rewrite Vo, plus_IZR, mult_IZR; reflexivity).
      apply sub_spec; assumption. }
    set (tr := 256 * Binary.B2R m - (1 + 2 * IZR ip)) in *.
    assert (Ht : Rabs tr <= 1) by (apply Rabs_le; unfold tr; lra).
    assert (Ef : rnd tr = tr).
    { apply rnd_fmt. unfold tr. rewrite <- V2.
      replace (1 + 2 * IZR ip) with (Binary.B2R (f64_of_Z (1 + 2 * ip))) by (rewrite Vo, plus_IZR, mult_IZR; reflexivity).
      pose proof (IZR_le 64 ip ltac:(lia)). pose proof (IZR_le ip 127 ltac:(lia)).
      apply sterbenz; [apply fexp64_valid|apply fexp64_mono|apply fmt_B2R|apply fmt_B2R|]. rewrite V2, Vo, plus_IZR, mult_IZR. lra. }
    destruct (rounds_small _ _ T) as [Ft Vt]; [rewrite Ef; pose proof Om_big; lra|].
    rewrite Ef in Vt.
    exists e, ip. eexists. split; [exact E|]. split; [exact R1|]. split; [|split; [exact Ft|split; [rewrite Vt; exact Ht|split]]].
    - assert (e = 4%Z \/ (e <= 3)%Z) as [->|E4] by lia; [specialize (R2 eq_refl); lia|lia].
    - rewrite Vt. unfold tr. replace (e - 8)%Z with (e + -8)%Z by lia. rewrite bpow_plus.
      change (bpow radix2 (-8)) with (/ 256). rewrite <- Hs. field.
    - rewrite (proj2 (Z.leb_le 0 _)) by lia. rewrite (proj2 (Z.leb_le 0 _)) by lia. reflexivity.
  Qed.

  Lemma cheb_reduce : forall x : f64, fin x -> 1 / 8 <= Binary.B2R x <= 12 ->
    exists n t, (0 <= n <= 416)%Z /\ fin t /\ Rabs (Binary.B2R t) <= 1 /\
    @cheb_interpolant (ieee P) x = @cheb_poly (ieee P) (n * 8) (n * 2) t.
  Proof.
    intros x Fx Hx. destruct (cheb_reduce_exact x Fx Hx) as (e & ip & t & _ & _ & Hn & Ft & Ht & _ & H).
    exists (e * 64 + ip - -64)%Z, t. auto.
  Qed.

  Lemma cheb_poly_returns : forall n t, (0 <= n <= 416)%Z -> returns (@cheb_poly (ieee P) (n * 8) (n * 2) t).
  Proof.
    intros n t Hn. unfold cheb_poly. pose proof len_0. pose proof len_1.
    repeat match goal with
    | |- context [index CHEBYSHEV_COEFFS_1 ?i] =>
        destruct (index_ok CHEBYSHEV_COEFFS_1 i ltac:(lia)) as (? & -> & _); cbn [bind]
    | |- context [index CHEBYSHEV_COEFFS_0 ?i] =>
        destruct (index_ok CHEBYSHEV_COEFFS_0 i ltac:(lia)) as (? & -> & _); cbn [bind]
    end.
    eexists. reflexivity.
  Qed.

  Lemma cheb_returns : forall x : f64, fin x -> 1 / 8 <= Binary.B2R x <= 12 ->
    returns (@cheb_interpolant (ieee P) x).
  Proof.
    intros x Fx Hx. destruct (cheb_reduce x Fx Hx) as (n & t & Hn & _ & _ & ->).
    apply cheb_poly_returns. exact Hn.
  Qed.

  Lemma val_125 : fin (f64_lit 0.125) /\ val (f64_lit 0.125) = 1 / 8.
  Proof. lit_facts 0.125%dec 1%Z 3%Z HF HV. auto. Qed.
  Lemma val_12 : fin (f64_lit 12.0) /\ val (f64_lit 12.0) = 12.
  Proof. lit_facts 12.0%dec 12%Z 0%Z HF HV. split; [exact HF|lra]. Qed.
  Lemma val_6_1 : fin (f64_lit 6.1) /\ 6 <= val (f64_lit 6.1) <= 7.
  Proof.
    assert (R_of_dec 6.1 = 61 / 10) by (unfold R_of_dec; cbn [dman dexp]; rewrite powerRZ_10; simpl; lra).
    destruct (lit_spec 6.1) as [N V]. rewrite H in V.
    assert (B : 6 <= rnd (61 / 10) <= 7).
    { split; [apply (rnd_ge 6); [apply (fmt_IZR 6); lia|lra]|apply (rnd_le_fmt 7); [apply (fmt_IZR 7); lia|lra]]. }
    assert (O : Rabs (rnd (61 / 10)) < Om) by (rewrite Rabs_pos_eq by lra; pose proof Om_big; lra).
    destruct (rounds_small _ _ (conj N V)) as [F1 V1]; [exact O|].
    split; [exact F1|]. rewrite (val_fin _ F1), V1. exact B.
  Qed.

  Theorem erfcx_returns : forall x : f64, returns (@erfcx (ieee P) x).
  Proof.
    intros x. unfold erfcx. ieee_simpl.
    destruct val_125 as [F8 V8]. destruct val_12 as [F12 V12]. destruct val_6_1 as [F6 V6].
    destruct (f64_lt (f64_abs x) (f64_lit 0.125)) eqn:C1; [apply ret_ok|].
    destruct (f64_lt x (f64_lit 0.0)) eqn:C2.
    - destruct (f64_lt x (f64_neg (f64_lit 26.7))) eqn:C3; [apply ret_ok|].
      destruct (f64_lt x (f64_neg (f64_lit 6.1))) eqn:C4; [apply ret_ok|].
      apply lt_true in C2. destruct C2 as (Nx & _ & C2). rewrite val_0 in C2.
      apply lt_false in C4; [|exact Nx|rewrite nan_neg; apply fin_nonnan; exact F6].
      rewrite val_neg in C4.
      assert (Fx : fin x) by (apply fin_iff_val; [exact Nx|rewrite Rabs_left by lra; pose proof Om_big; lra]).
      apply lt_false in C1; [|rewrite nan_abs; exact Nx|apply fin_nonnan; exact F8].
      rewrite val_abs, V8, Rabs_left in C1 by lra.
      destruct (cheb_returns (f64_neg x)) as [r ->].
      + rewrite fin_neg. exact Fx.
      + rewrite B2R_neg, <- (val_fin x Fx). lra.
      + cbn [bind]. apply ret_ok.
    - destruct (f64_le x (f64_lit 12.0)) eqn:C3.
      + apply le_true in C3. destruct C3 as (Nx & _ & C3).
        apply lt_false in C2; [|exact Nx|exact nn_0]. rewrite val_0 in C2.
        apply lt_false in C1; [|rewrite nan_abs; exact Nx|apply fin_nonnan; exact F8].
        rewrite val_abs, V8, Rabs_pos_eq in C1 by lra.
        assert (Fx : fin x) by (apply fin_iff_val; [exact Nx|rewrite Rabs_pos_eq by lra; pose proof Om_big; lra]).
        apply cheb_returns; [exact Fx|]. rewrite <- (val_fin x Fx). lra.
      + repeat apply ret_if; apply ret_ok.
  Qed.
End Erfcx.
