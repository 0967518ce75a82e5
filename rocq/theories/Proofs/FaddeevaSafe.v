(** * faddeeva never panics, except through dawson *)

From Coq Require Import ZArith Reals Bool Lra Lia List.
From Flocq Require Import Core IEEE754.BinarySingleNaN IEEE754.Binary IEEE754.Bits.
From Verif.Model Require Import Base Arith Utils Error Dawson FaddeevaTables Faddeeva.
From Verif.Float Require Import Bits64 Ieee Exact Platforms.
From Verif.Spec Require Import F64Spec Outcome.
From Verif.Proofs Require Import F64 F64Ops Lits Ext Poly Boundaries ErfcxSafe DawsonBad DawsonNeg.
Import ListNotations.
Open Scope R_scope.

(** ** The table of tiles *)

(** tile number [pos] = 50 i + j *)
Definition tile_ok (pos kp nk : Z) : bool :=
  let i := (pos / 50)%Z in let j := (pos mod 50)%Z in
  ((i =? 0)%Z && (j =? 0)%Z) || (49 <=? i)%Z || (49 <=? j)%Z || (2401 <? i * i + j * j)%Z
  || ((0 <=? kp)%Z && (kp <=? 62)%Z && (1 <=? nk)%Z && (nk <=? 23)%Z).

Fixpoint tiles_ok (l : list Z) (pos : Z) : bool :=
  match l with
  | kp :: nk :: r => tile_ok pos kp nk && tiles_ok r (pos + 1)
  | _ => true
  end.

Lemma tiles_nth : forall n l pos kp nk, tiles_ok l pos = true ->
  nth_error l (2 * n) = Some kp -> nth_error l (2 * n + 1) = Some nk ->
  tile_ok (pos + Z.of_nat n) kp nk = true.
Proof.
  induction n as [|n IH]; intros l pos kp nk H A B.
  - destruct l as [|a [|b r]]; try discriminate. injection A as <-. injection B as <-.
    cbn [tiles_ok] in H. apply andb_prop in H. rewrite Z.add_0_r. tauto.
  - destruct l as [|a [|b r]]; [discriminate| |].
    + replace (2 * S n)%nat with (S (S (2 * n))) in A by lia. cbn in A. destruct (n + (n + 0))%nat; discriminate.
    + cbn [tiles_ok] in H. apply andb_prop in H.
      replace (pos + Z.of_nat (S n))%Z with (pos + 1 + Z.of_nat n)%Z by lia.
      apply (IH r); [tauto| |].
      * replace (2 * S n)%nat with (S (S (2 * n))) in A by lia. exact A.
      * replace (2 * S n + 1)%nat with (S (S (2 * n + 1))) in B by lia. exact B.
Qed.

Lemma tiles_all : tiles_ok TILES 0 = true.
Proof. vm_compute. reflexivity. Qed.
Lemma tiles_len : Z.of_nat (length TILES) = 5000%Z.
Proof. vm_compute. reflexivity. Qed.
Lemma coeffs_len : Z.of_nat (length TAYLOR_COEFFS) = 3024%Z.
Proof. vm_compute. reflexivity. Qed.

Lemma tile_at : forall i j, (0 <= i <= 48)%Z -> (0 <= j <= 48)%Z -> (0 < i + j)%Z -> (i * i + j * j <= 2401)%Z ->
  exists kp nk, index TILES (2 * (i * 50 + j)) = Ok kp /\ index TILES (2 * (i * 50 + j) + 1) = Ok nk
  /\ (0 <= kp <= 62)%Z /\ (1 <= nk <= 23)%Z.
Proof.
  intros i j Hi Hj Hp Hs.
  destruct (index_ok TILES (2 * (i * 50 + j))) as (kp & A1 & A2); [rewrite tiles_len; lia|].
  destruct (index_ok TILES (2 * (i * 50 + j) + 1)) as (nk & B1 & B2); [rewrite tiles_len; lia|].
  exists kp, nk. split; [exact A1|]. split; [exact B1|].
  pose proof (tiles_nth (Z.to_nat (i * 50 + j)) TILES 0 kp nk tiles_all) as T.
  replace (Z.to_nat (2 * (i * 50 + j))) with (2 * Z.to_nat (i * 50 + j))%nat in A2 by lia.
  replace (Z.to_nat (2 * (i * 50 + j) + 1)) with (2 * Z.to_nat (i * 50 + j) + 1)%nat in B2 by lia.
  specialize (T A2 B2). rewrite Z2Nat.id in T by lia. rewrite Z.add_0_l in T.
  unfold tile_ok in T.
  replace ((i * 50 + j) / 50)%Z with i in T by (apply (Z.div_unique _ _ _ j); lia).
  replace ((i * 50 + j) mod 50)%Z with j in T by (apply (Z.mod_unique _ _ i); lia).
  rewrite !orb_true_iff, !andb_true_iff in T.
  rewrite !Z.eqb_eq, !Z.leb_le, Z.ltb_lt in T. lia.
Qed.

Section Safe.
  Context (P : platform).

  Lemma coeff_returns : forall idx k, (0 <= idx)%Z -> (0 <= k)%Z -> (idx + 2 * k + 1 < 3024)%Z ->
    returns (@taylor_coeff (ieee P) idx k).
  Proof.
    intros idx k Hi Hk H. unfold taylor_coeff.
    destruct (index_ok TAYLOR_COEFFS (idx + 2 * k)) as (a & A & _); [rewrite coeffs_len; lia|].
    destruct (index_ok TAYLOR_COEFFS (idx + 2 * k + 1)) as (b & B & _); [rewrite coeffs_len; lia|].
    rewrite A. cbn [bind]. rewrite B. eexists. reflexivity.
  Qed.

  Lemma loop_returns : forall idx dz ks acc, (0 <= idx <= 48 * 62)%Z ->
    (forall k, List.In k ks -> (0 <= k <= 23)%Z) -> returns (@taylor_loop (ieee P) idx dz ks acc).
  Proof.
    intros idx dz ks. induction ks as [|k ks IH]; intros acc Hi Hk; [eexists; reflexivity|].
    cbn [taylor_loop]. assert (B : (0 <= k <= 23)%Z) by (apply Hk; left; reflexivity).
    destruct (coeff_returns idx k) as [c E]; [lia|lia|lia|].
    rewrite E. cbn [bind]. apply IH; [exact Hi|]. intros k' H. apply Hk. right. exact H.
  Qed.

  Lemma In_count : forall n a k, List.In k (count_from a n) -> (a <= k < a + Z.of_nat n)%Z.
  Proof.
    induction n as [|n IH]; intros a k H; [destruct H|].
    destruct H as [H|H]; [lia|]. apply IH in H. lia.
  Qed.

  (** ** The tile reached *)

  (** no f64 lies strictly between 7 - 2^-50 and 7 *)
  Lemma below_7 : forall a, fmt a -> a < 7 -> a <= 7 - bpow radix2 (-50).
  Proof.
    intros a Fa La. destruct (Rle_or_lt a 4) as [L|L].
    { assert (bpow radix2 (-50) <= 1) by (change 1 with (bpow radix2 0); apply bpow_le; lia). lra. }
    assert (M : mag radix2 a = 3%Z :> Z).
    { apply mag_unique. rewrite Rabs_pos_eq by lra. change (3 - 1)%Z with 2%Z. simpl. lra. }
    unfold fmt, generic_format, scaled_mantissa, Generic_fmt.cexp in Fa. rewrite M in Fa.
    change (SpecFloat.fexp 53 1024 3) with (-50)%Z in Fa. unfold F2R in Fa. cbn [Fnum Fexp] in Fa.
    set (m := Ztrunc _) in Fa. pose proof (bpow_gt_0 radix2 (-50)) as B50.
    assert (E : bpow radix2 50 * bpow radix2 (-50) = 1) by (rewrite <- bpow_plus; reflexivity).
    change (bpow radix2 50) with 1125899906842624 in E.
    assert (B : (m < 7881299347898368)%Z).
    { apply lt_IZR. apply Rmult_lt_reg_r with (bpow radix2 (-50)); [exact B50|]. lra. }
    assert (B' : (m <= 7881299347898367)%Z) by lia. apply IZR_le in B'.
    assert (IZR m * bpow radix2 (-50) <= 7881299347898367 * bpow radix2 (-50)) by (apply Rmult_le_compat_r; lra).
    lra.
  Qed.

  Lemma lit_7 : fin (f64_lit 7.0) /\ Binary.B2R (f64_lit 7.0) = 7.
  Proof. lit_facts 7.0%dec 7%Z 0%Z HF HV. split; [exact HF|]. rewrite (val_fin _ HF) in HV. lra. Qed.
  Lemma lit_49 : fin (f64_lit 49.0) /\ val (f64_lit 49.0) = 49.
  Proof. lit_facts 49.0%dec 49%Z 0%Z HF HV. split; [exact HF|]. lra. Qed.

  Definition coord (x : f64) : Z := f64_to_int (- 2 ^ 63) (2 ^ 63 - 1) (f64_mul P (f64_lit 7.0) (f64_abs x)).

  (** the coordinate of an argument below 7, as a function of its value *)
  Lemma coord_spec : forall x, fin x -> Rabs (Binary.B2R x) < 7 ->
    (0 <= coord x <= 48)%Z /\ IZR (coord x) <= 7 * Rabs (Binary.B2R x) + 1 / 1000000
    /\ (coord x = 0%Z -> Rabs (Binary.B2R x) <= 0.143).
  Proof.
    intros x Fx Bx. destruct lit_7 as [F7 V7].
    assert (FA : fin (f64_abs x)) by (rewrite fin_abs; exact Fx).
    pose proof (mul_spec P _ _ F7 FA) as M. rewrite V7, B2R_abs in M.
    set (a := Rabs (Binary.B2R x)) in *.
    assert (Pa : 0 <= a) by apply Rabs_pos.
    assert (La : a <= 7 - bpow radix2 (-50)).
    { apply below_7; [|exact Bx]. unfold a. rewrite <- B2R_abs. apply fmt_B2R. }
    assert (I : inb (f64_mul P (f64_lit 7.0) (f64_abs x)) 0 (49 - bpow radix2 (-47))).
    { assert (B47 : bpow radix2 (-47) = 8 * bpow radix2 (-50)).
      { change (-47)%Z with (3 + -50)%Z. rewrite bpow_plus. reflexivity. }
      assert (E47 : 140737488355328 * bpow radix2 (-47) = 1).
      { change 140737488355328 with (bpow radix2 47). rewrite <- bpow_plus. reflexivity. }
      assert (E52 : bpow radix2 (-47) = 8 * bpow radix2 (-50)) by exact B47.
      pose proof (bpow_gt_0 radix2 (-50)) as P50.
      assert (F49 : fmt (49 - bpow radix2 (-47))).
      { replace (49 - bpow radix2 (-47)) with (IZR 6896136929411071 * bpow radix2 (-47)) by lra.
        apply fmt_F2R; lia. }
      destruct M as [N V].
      assert (U : rs (7 * a) <= 49 - bpow radix2 (-47)).
      { apply Rle_trans with (rs (7 * (7 - bpow radix2 (-50)))).
        - apply rs_le. lra.
        - (* 49 - 7/8 ulp is nearer to 49 - ulp than to 49 *)
          assert (H : rnd (7 * (7 - bpow radix2 (-50))) <= 49 - bpow radix2 (-47)).
          { apply round_N_le_midp; [typeclasses eauto|exact F49|].
            rewrite succ_eq_pos by lra. rewrite ulp_neq_0 by lra. unfold Generic_fmt.cexp.
            rewrite (mag_unique radix2 (49 - bpow radix2 (-47)) 6); [|rewrite Rabs_pos_eq by lra; change (6 - 1)%Z with 5%Z; simpl; simpl in E47; lra].
            change (SpecFloat.fexp 53 1024 6) with (-47)%Z. lra. }
          rewrite rs_in; [exact H|].
          assert (G : 0 <= rnd (7 * (7 - bpow radix2 (-50)))) by (apply rnd_pos; lra).
          pose proof Om_big. rewrite Rabs_pos_eq; lra. }
      assert (L : 0 <= rs (7 * a)) by (apply rs_pos; lra).
      assert (Fz : fin (f64_mul P (f64_lit 7.0) (f64_abs x))).
      { apply fin_iff_val; [exact N|]. pose proof Om_big. rewrite V, Rabs_pos_eq by exact L. lra. }
      split; [exact Fz|]. rewrite <- (val_fin _ Fz), V. lra. }
    destruct I as [Fz Hz]. unfold coord.
    rewrite to_int_fin by exact Fz.
    rewrite (val_fin _ Fz). destruct M as [_ M]. rewrite (val_fin _ Fz) in M.
    set (w := Binary.B2R (f64_mul P (f64_lit 7.0) (f64_abs x))) in *.
    pose proof (bpow_gt_0 radix2 (-47)) as P47.
    assert (T0 : (0 <= Ztrunc w <= 48)%Z).
    { rewrite Ztrunc_floor by lra. split.
      - apply Zfloor_lub. simpl. lra.
      - assert (Zfloor w < 49)%Z; [|lia]. apply lt_IZR. eapply Rle_lt_trans; [apply Zfloor_lb|]. lra. }
    rewrite Z.min_r by lia. rewrite Z.max_r by lia.
    split; [exact T0|]. split.
    - rewrite Ztrunc_floor by lra. eapply Rle_trans; [apply Zfloor_lb|].
      rewrite M. apply Rle_trans with (rnd (7 * a)).
      + rewrite rs_in; [lra|]. rewrite Rabs_pos_eq by (apply rnd_pos; lra).
        pose proof Om_big. apply Rle_trans with 49; [|lra]. apply rnd_le_fmt; [apply (fmt_IZR 49); lia|lra].
      + pose proof (rnd_abs_err (7 * a)) as E. rewrite (Rabs_pos_eq (7 * a)) in E by lra.
        apply Rabs_le_inv in E.
        assert (bpow radix2 (-53) <= bpow radix2 (-40)) by (apply bpow_le; lia).
        assert (bpow radix2 (-1075) <= bpow radix2 (-40)) by (apply bpow_le; lia).
        assert (bpow radix2 (-40) <= 1 / 1000000000) by (simpl; lra).
        assert (bpow radix2 (-53) * (7 * a) <= 1 / 1000000000 * 49) by (apply Rmult_le_compat; try lra; apply bpow_ge_0).
        lra.
    - intros T. destruct (Rle_or_lt a 0.143) as [L|L]; [exact L|exfalso].
      assert (G : 1 <= w).
      { rewrite M. apply (rs_ge 1); [apply (fmt_IZR 1); lia|pose proof Om_big; lra|lra]. }
      assert (1 <= Ztrunc w)%Z; [|lia]. rewrite <- (Ztrunc_IZR 1). apply Ztrunc_le. exact G.
  Qed.

  Definition zsq (x y : f64) : f64 := f64_add P (f64_mul P (f64_abs x) (f64_abs x)) (f64_mul P y y).

  (** the square of the modulus, when below 49 *)
  Lemma zsq_spec : forall x y, number x -> number y -> f64_lt (zsq x y) (f64_lit 49.0) = true ->
    fin x /\ fin y /\ Rabs (Binary.B2R x) < 7 /\ Rabs (Binary.B2R y) < 7
    /\ Binary.B2R x * Binary.B2R x + Binary.B2R y * Binary.B2R y <= 49 + 1 / 1000000
    /\ val (zsq x y) = rs (rs (Binary.B2R x * Binary.B2R x) + rs (Binary.B2R y * Binary.B2R y)).
  Proof.
    intros x y Nx Ny H. apply lt_true in H. destruct H as (NZ & _ & L). rewrite (proj2 lit_49) in L.
    unfold zsq in *.
    assert (SQ : forall z : f64, number z -> nonneg (f64_mul P z z) /\
       (fin z -> val (f64_mul P z z) = rs (Binary.B2R z * Binary.B2R z)) /\
       (~ fin z -> f64_mul P z z = B754_infinity false)).
    { intros z Nz. destruct (fin_or_inf z Nz) as [Fz|[s ->]].
      - destruct (mul_spec P z z Fz Fz) as [N V]. split; [split; [exact N|]|].
        + rewrite V. apply rs_pos. pose proof (Rle_0_sqr (Binary.B2R z)) as S0. exact S0.
        + split; [intros _; exact V|contradiction].
      - split; [split; destruct s; try reflexivity; change (0 <= Om); pose proof Om_pos; lra|].
        split; [discriminate|intros _; destruct s; reflexivity]. }
    assert (NA : number (f64_abs x)) by (unfold number; rewrite nan_abs; exact Nx).
    destruct (SQ _ NA) as (X1 & X2 & X3). destruct (SQ y Ny) as (Y1 & Y2 & Y3).
    destruct (add_nonneg P _ _ X1 Y1) as (A1 & A2 & A3).
    set (X := f64_mul P (f64_abs x) (f64_abs x)) in *. set (Y := f64_mul P y y) in *.
    assert (VX : val X < 49) by (destruct A1; lra). assert (VY : val Y < 49) by (destruct A1; lra).
    pose proof Om_big as OB.
    assert (Fx : fin x).
    { rewrite <- fin_abs. destruct (Binary.is_finite (f64_abs x)) eqn:E; [reflexivity|exfalso].
      rewrite X3 in VX by congruence. rewrite val_inf_f in VX. lra. }
    assert (Fy : fin y).
    { destruct (Binary.is_finite y) eqn:E; [reflexivity|exfalso].
      rewrite Y3 in VY by congruence. rewrite val_inf_f in VY. lra. }
    split; [exact Fx|]. split; [exact Fy|].
    assert (FA : fin (f64_abs x)) by (rewrite fin_abs; exact Fx).
    specialize (X2 FA). specialize (Y2 Fy). rewrite B2R_abs in X2.
    assert (AA : Rabs (Binary.B2R x) * Rabs (Binary.B2R x) = Binary.B2R x * Binary.B2R x).
    { rewrite <- Rabs_mult. apply Rabs_pos_eq. exact (Rle_0_sqr (Binary.B2R x)). }
    rewrite AA in X2.
    assert (SM : forall z : f64, rs (Binary.B2R z * Binary.B2R z) < 49 -> Rabs (Binary.B2R z) < 7).
    { intros z Hz. destruct (Rlt_or_le (Rabs (Binary.B2R z)) 7) as [G|G]; [exact G|exfalso].
      assert (49 <= Binary.B2R z * Binary.B2R z).
      { replace (Binary.B2R z * Binary.B2R z) with (Rabs (Binary.B2R z) * Rabs (Binary.B2R z)).
        - nra.
        - rewrite <- Rabs_mult. apply Rabs_pos_eq. exact (Rle_0_sqr (Binary.B2R z)). }
      assert (49 <= rs (Binary.B2R z * Binary.B2R z)) by (apply (rs_ge 49); [apply (fmt_IZR 49); lia|lra|lra]).
      lra. }
    split; [apply SM; lra|]. split; [apply SM; lra|].
    assert (FX : fin X) by (apply fin_iff_val; [apply X1|destruct X1; rewrite Rabs_pos_eq; lra]).
    assert (FY : fin Y) by (apply fin_iff_val; [apply Y1|destruct Y1; rewrite Rabs_pos_eq; lra]).
    destruct (add_spec P X Y FX FY) as [_ V]. rewrite <- (val_fin X FX), <- (val_fin Y FY), X2, Y2 in V.
    split; [|exact V].
    assert (S49 : rs (Binary.B2R x * Binary.B2R x) + rs (Binary.B2R y * Binary.B2R y) < 49).
    { destruct (Rlt_or_le (rs (Binary.B2R x * Binary.B2R x) + rs (Binary.B2R y * Binary.B2R y)) 49) as [G|G]; [exact G|exfalso].
      assert (49 <= rs (rs (Binary.B2R x * Binary.B2R x) + rs (Binary.B2R y * Binary.B2R y)))
        by (apply (rs_ge 49); [apply (fmt_IZR 49); lia|lra|exact G]). lra. }
    assert (LB : forall z : f64, rs (Binary.B2R z * Binary.B2R z) < 49 ->
               Binary.B2R z * Binary.B2R z <= rs (Binary.B2R z * Binary.B2R z) + 1 / 2000000).
    { intros z Hz. pose proof (SM z Hz) as B7. pose proof (Rle_0_sqr (Binary.B2R z)) as S0. unfold Rsqr in S0.
      assert (SQ49 : Binary.B2R z * Binary.B2R z <= 49).
      { apply Rabs_lt_inv in B7. nra. }
      rewrite rs_in.
      - pose proof (rnd_abs_err (Binary.B2R z * Binary.B2R z)) as E. rewrite (Rabs_pos_eq _ S0) in E.
        apply Rabs_le_inv in E.
        assert (bpow radix2 (-53) <= bpow radix2 (-40)) by (apply bpow_le; lia).
        assert (bpow radix2 (-1075) <= bpow radix2 (-40)) by (apply bpow_le; lia).
        assert (bpow radix2 (-40) <= 1 / 1000000000) by (simpl; lra).
        assert (bpow radix2 (-53) * (Binary.B2R z * Binary.B2R z) <= 1 / 1000000000 * 49)
          by (apply Rmult_le_compat; try lra; apply bpow_ge_0).
        lra.
      - rewrite Rabs_pos_eq by (apply rnd_pos; exact S0).
        apply Rle_trans with 49; [|lra]. apply rnd_le_fmt; [apply (fmt_IZR 49); lia|exact SQ49]. }
    pose proof (LB x ltac:(lra)). pose proof (LB y ltac:(lra)). lra.
  Qed.

  Lemma lit_053 : fin (f64_lit 0.053) /\ 0.05 <= val (f64_lit 0.053).
  Proof.
    destruct (lit_spec 0.053) as [N V].
    assert (B : R_of_dec 0.053 = 0.053) by (unfold R_of_dec; cbn [dman dexp]; rewrite powerRZ_10; simpl; lra).
    assert (L : 3 / 64 <= val (f64_lit 0.053) <= 1).
    { rewrite V, B. pose proof Om_big. split; [apply rs_ge; [fq 3%Z 6%Z|lra|lra]|apply rs_le_fmt; [fq 1%Z 0%Z|lra|lra]]. }
    assert (L2 : 52 / 1024 <= val (f64_lit 0.053)).
    { rewrite V, B. pose proof Om_big. apply rs_ge; [fq 52%Z 10%Z|lra|lra]. }
    split; [|lra]. apply fin_iff_val; [exact N|]. pose proof Om_big. rewrite Rabs_pos_eq; lra.
  Qed.

  (** the coordinates of the tile of an argument reaching the Taylor branch *)
  Lemma tile_range : forall x y, number x -> number y ->
    f64_lt (zsq x y) (f64_lit 0.053) = false -> f64_lt (zsq x y) (f64_lit 49.0) = true ->
    (0 <= coord x <= 48)%Z /\ (0 <= coord y <= 48)%Z /\ (0 < coord x + coord y)%Z
    /\ (coord x * coord x + coord y * coord y <= 2401)%Z.
  Proof.
    intros x y Nx Ny H1 H2. destruct (zsq_spec x y Nx Ny H2) as (Fx & Fy & Bx & By & S & V).
    apply lt_true in H2. destruct H2 as (NZ & _ & _).
    destruct lit_053 as [F5 V5]. apply lt_false in H1; [|exact NZ|apply fin_nonnan; exact F5].
    destruct (coord_spec x Fx Bx) as (X1 & X2 & X3). destruct (coord_spec y Fy By) as (Y1 & Y2 & Y3).
    split; [exact X1|]. split; [exact Y1|]. split.
    - destruct (Z_lt_le_dec 0 (coord x + coord y)) as [G|G]; [exact G|exfalso].
      specialize (X3 ltac:(lia)). specialize (Y3 ltac:(lia)).
      assert (SQ : forall z, Rabs z <= 0.143 -> 0 <= z * z <= 21 / 1024).
      { intros z Hz. apply Rabs_le_inv in Hz. split; nra. }
      pose proof (SQ _ X3) as QX. pose proof (SQ _ Y3) as QY. pose proof Om_big.
      assert (RX : rs (Binary.B2R x * Binary.B2R x) <= 21 / 1024) by (apply rs_le_fmt; [fq 21%Z 10%Z|lra|lra]).
      assert (RY : rs (Binary.B2R y * Binary.B2R y) <= 21 / 1024) by (apply rs_le_fmt; [fq 21%Z 10%Z|lra|lra]).
      assert (rs (rs (Binary.B2R x * Binary.B2R x) + rs (Binary.B2R y * Binary.B2R y)) <= 42 / 1024)
        by (apply rs_le_fmt; [fq 42%Z 10%Z|lra|lra]).
      lra.
    - assert (Q : IZR (coord x * coord x + coord y * coord y) < IZR 2402).
      { rewrite plus_IZR, !mult_IZR.
        assert (CX : 0 <= IZR (coord x)) by (apply IZR_le; lia).
        assert (CY : 0 <= IZR (coord y)) by (apply IZR_le; lia).
        set (a := Rabs (Binary.B2R x)) in *. set (b := Rabs (Binary.B2R y)) in *.
        assert (EA : a * a = Binary.B2R x * Binary.B2R x)
          by (unfold a; rewrite <- Rabs_mult; apply Rabs_pos_eq; exact (Rle_0_sqr (Binary.B2R x))).
        assert (EB : b * b = Binary.B2R y * Binary.B2R y)
          by (unfold b; rewrite <- Rabs_mult; apply Rabs_pos_eq; exact (Rle_0_sqr (Binary.B2R y))).
        assert (IZR (coord x) * IZR (coord x) <= (7 * a + 1 / 1000000) * (7 * a + 1 / 1000000))
          by (apply Rmult_le_compat; lra).
        assert (IZR (coord y) * IZR (coord y) <= (7 * b + 1 / 1000000) * (7 * b + 1 / 1000000))
          by (apply Rmult_le_compat; lra).
        lra. }
      apply lt_IZR in Q. lia.
  Qed.

  Lemma tile_index_eq : forall x y, @tile_index (ieee P) x y = (2 * (coord x * 50 + coord y))%Z.
  Proof. reflexivity. Qed.

  Lemma taylor_returns : forall x y, number x -> number y ->
    f64_lt (zsq x y) (f64_lit 0.053) = false -> f64_lt (zsq x y) (f64_lit 49.0) = true ->
    returns (@faddeeva_taylor (ieee P) x y).
  Proof.
    intros x y Nx Ny H1 H2. destruct (tile_range x y Nx Ny H1 H2) as (A & B & C & D).
    destruct (tile_at _ _ A B C D) as (kp & nk & K & N & HK & HN).
    unfold faddeeva_taylor. rewrite tile_index_eq, K. cbn [bind].
    rewrite (proj2 (Z.leb_le 0 kp)) by lia.
    destruct (index_ok TAYLOR_COEFFS (2 * (23 + 1) * kp)) as (t & T & _); [rewrite coeffs_len; lia|].
    destruct (index_ok TAYLOR_COEFFS (2 * (23 + 1) * kp + 1)) as (t' & T' & _); [rewrite coeffs_len; lia|].
    cbv zeta. rewrite T. cbn [bind]. rewrite T'. cbn [bind]. rewrite N. cbn [bind].
    destruct (coeff_returns (2 * (23 + 1) * kp) nk) as [c E]; [lia|lia|lia|].
    rewrite E. cbn [bind]. apply loop_returns; [lia|].
    intros k Hk. apply in_rev in Hk. unfold range in Hk. apply In_count in Hk. lia.
  Qed.

  (** ** The whole function *)

  Lemma faddeeva_unfold_eq : forall x y, @faddeeva (ieee P) x y =
    if f64_lt (f64_abs y) (f64_mul P (f64_lit 1e-8) (f64_abs x)) then @faddeeva_near_real (ieee P) x y
    else if f64_lt (f64_abs x) (f64_mul P (f64_lit 1e-8) (f64_abs y)) then @faddeeva_near_imag (ieee P) x y
    else if f64_lt (zsq x y) (f64_lit 0.053) then Ok (@faddeeva_small (ieee P) x y (zsq x y))
    else if f64_le (f64_lit 49.0) (zsq x y) then Ok (@faddeeva_large (ieee P) x y (zsq x y))
    else if Binary.is_nan (f64_abs x) then Ok (f64_abs x, f64_abs x)
    else if Binary.is_nan y then Ok (y, y)
    else bind (@faddeeva_taylor (ieee P) x y) (fun r => Ok (@faddeeva_unfold (ieee P) x y r)).
  Proof. reflexivity. Qed.

  Lemma zsq_number : forall x y, number x -> number y -> number (zsq x y).
  Proof.
    intros x y Nx Ny. unfold zsq.
    assert (SQ : forall z : f64, number z -> nonneg (f64_mul P z z)).
    { intros z Nz. destruct (fin_or_inf z Nz) as [Fz|[s ->]].
      - destruct (mul_spec P z z Fz Fz) as [N V]. split; [exact N|].
        rewrite V. apply rs_pos. exact (Rle_0_sqr (Binary.B2R z)).
      - split; destruct s; try reflexivity; change (0 <= Om); pose proof Om_pos; lra. }
    apply (add_nonneg P); apply SQ; [unfold number; rewrite nan_abs; exact Nx|exact Ny].
  Qed.

  Definition near_real_axis (x y : f64) : Prop :=
    f64_lt (f64_abs y) (f64_mul P (f64_lit 1e-8) (f64_abs x)) = true.

  Lemma faddeeva_off_axis : forall x y, ~ near_real_axis x y -> returns (@faddeeva (ieee P) x y).
  Proof.
    intros x y H. unfold near_real_axis in H. rewrite faddeeva_unfold_eq.
    destruct (f64_lt (f64_abs y) (f64_mul P (f64_lit 1e-8) (f64_abs x))); [contradiction H; reflexivity|].
    destruct (f64_lt (f64_abs x) (f64_mul P (f64_lit 1e-8) (f64_abs y))).
    { unfold faddeeva_near_imag. destruct (erfcx_returns P y) as [r E]. rewrite E. cbn [bind].
      destruct (@Arith.eq (ieee P) _ _); eexists; reflexivity. }
    destruct (f64_lt (zsq x y) (f64_lit 0.053)) eqn:C3; [eexists; reflexivity|].
    destruct (f64_le (f64_lit 49.0) (zsq x y)) eqn:C4; [eexists; reflexivity|].
    rewrite nan_abs. destruct (Binary.is_nan x) eqn:Nx; [eexists; reflexivity|].
    destruct (Binary.is_nan y) eqn:Ny; [eexists; reflexivity|].
    assert (L : f64_lt (zsq x y) (f64_lit 49.0) = true).
    { pose proof (zsq_number x y Nx Ny) as NZ. destruct lit_49 as [F49 _].
      apply le_false in C4; [|apply fin_nonnan; exact F49|exact NZ].
      apply lt_true. split; [exact NZ|]. split; [apply fin_nonnan; exact F49|exact C4]. }
    destruct (taylor_returns x y Nx Ny C3 L) as [r E]. rewrite E. eexists. reflexivity.
  Qed.

  Lemma near_real_panics : forall x y, near_real_axis x y ->
    (panics (@faddeeva (ieee P) x y) <-> panics (@dawson (ieee P) x))
    /\ (returns (@faddeeva (ieee P) x y) <-> returns (@dawson (ieee P) x)).
  Proof.
    intros x y H. unfold near_real_axis in H. rewrite faddeeva_unfold_eq, H.
    unfold faddeeva_near_real, im_w_of_x.
    destruct (@dawson (ieee P) x) as [d|p|]; cbn [bind].
    - destruct (@Arith.eq (ieee P) _ _); split; split; intros [q E]; try discriminate E; eexists; reflexivity.
    - split; split; intros [q E]; try discriminate E; eexists; reflexivity.
    - split; split; intros [q E]; discriminate E.
  Qed.

  (** C41 *)
  Theorem faddeeva_no_checks : forall x y, p_checks P = false -> returns (@faddeeva (ieee P) x y).
  Proof.
    intros x y H. destruct (f64_lt (f64_abs y) (f64_mul P (f64_lit 1e-8) (f64_abs x))) eqn:C.
    - apply (near_real_panics x y C). apply dawson_no_checks. exact H.
    - apply faddeeva_off_axis. unfold near_real_axis. rewrite C. discriminate.
  Qed.

  Theorem faddeeva_panics_iff : forall x y, p_checks P = true ->
    (panics (@faddeeva (ieee P) x y) <->
     near_real_axis x y /\ number x /\ 7378697629483821056 <= Rabs (val x)).
  Proof.
    intros x y H. destruct (f64_lt (f64_abs y) (f64_mul P (f64_lit 1e-8) (f64_abs x))) eqn:C.
    - rewrite (proj1 (near_real_panics x y C)), (dawson_panics_iff P x H). unfold near_real_axis. tauto.
    - assert (N : ~ near_real_axis x y) by (unfold near_real_axis; rewrite C; discriminate).
      split; [|tauto]. intros Q. exfalso. apply (not_panic_returns _ (faddeeva_off_axis x y N)). exact Q.
  Qed.
End Safe.
