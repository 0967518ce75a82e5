(** * besseljy and besselik return Wronskian pairs, exact arithmetic *)

From Coq Require Import ZArith Reals Bool Lra Lia List.
From Flocq Require Import Core.
From Verif.Model Require Import Base Arith Bessel.
From Verif.Float Require Import Exact.
From Verif.Spec Require Import Lower.
From Verif.Proofs Require Import BesselInt BetaSym.
Open Scope R_scope.

(** ** The two recurrences, with s = -1 for J, Y and s = 1 for I, K *)

Fixpoint down (s xi : R) (n : nat) (v r r' : R) : R * R :=
  match n with
  | O => (r, r')
  | S n' => let r1 := v * xi * r + r' in
            down s xi n' (v - 1) r1 ((v - 1) * xi * r1 + s * r)
  end.

Fixpoint upw (s xi : R) (n : nat) (mu y y1 : R) : R * R :=
  match n with
  | O => (y, y1)
  | S n' => let p := upw s xi n' mu y y1 in
            (snd p, (mu + IZR (Z.of_nat n)) * (2 * xi) * snd p + s * fst p)
  end.

Lemma wronskian_const : forall s xi n v r r' y y1,
  r * (v * xi * fst (upw s xi n (v - IZR (Z.of_nat n)) y y1) - snd (upw s xi n (v - IZR (Z.of_nat n)) y y1))
    - r' * fst (upw s xi n (v - IZR (Z.of_nat n)) y y1)
  = fst (down s xi n v r r') * ((v - IZR (Z.of_nat n)) * xi * y - y1) - snd (down s xi n v r r') * y.
Proof.
  intros s xi. induction n as [|n IH]; intros v r r' y y1.
  - cbn [down upw fst snd]. change (IZR (Z.of_nat 0)) with 0. rewrite Rminus_0_r. ring.
  - cbn [down]. cbv zeta. set (r1 := v * xi * r + r'). set (r1' := (v - 1) * xi * r1 + s * r).
    specialize (IH (v - 1) r1 r1' y y1).
    replace (v - 1 - IZR (Z.of_nat n)) with (v - IZR (Z.of_nat (S n))) in IH.
    2:{ rewrite Nat2Z.inj_succ, <- Z.add_1_r, (plus_IZR (Z.of_nat n) 1). ring. }
    rewrite <- IH. cbn [upw]. cbv zeta. cbn [fst snd].
    set (u := upw s xi n (v - IZR (Z.of_nat (S n))) y y1).
    replace (v - IZR (Z.of_nat (S n)) + IZR (Z.of_nat (S n))) with v by ring.
    unfold r1', r1. ring.
Qed.

Lemma down_linear : forall s xi c n v r r',
  down s xi n v (c * r) (c * r') = (c * fst (down s xi n v r r'), c * snd (down s xi n v r r')).
Proof.
  intros s xi c. induction n as [|n IH]; intros v r r'; [reflexivity|].
  cbn [down]. cbv zeta. rewrite <- IH. f_equal; ring.
Qed.

Lemma upw_zero : forall s xi n mu, upw s xi n mu 0 0 = (0, 0).
Proof.
  intros s xi. induction n as [|n IH]; intros mu; [reflexivity|].
  cbn [upw]. rewrite IH. cbv zeta. cbn [fst snd]. f_equal. ring.
Qed.

Lemma lowered_down : forall x n v r r', lowered x n v r r' = fst (down (-1) (1 / x) n v r r').
Proof.
  intros x. induction n as [|n IH]; intros v r r'; [reflexivity|].
  cbn [lowered down]. cbv zeta. rewrite IH. unfold Rdiv. f_equal. f_equal; ring.
Qed.

(** ** The loops of the code *)

Section Code.
  Context (fma chk : bool).
  Notation A := (exact fma chk).

  Lemma down_J : forall xi n a v r r',
    fold_left (fun (s : R * R * R) (_ : Z) =>
                 let '(fact, rjl, rjpl) := s in
                 let rjtemp := fact * rjl + rjpl in
                 let fact := fact - xi in
                 let rjpl := fact * rjtemp - rjl in
                 (fact, rjtemp, rjpl)) (count_from a n) (v * xi, r, r')
    = ((v - IZR (Z.of_nat n)) * xi, fst (down (-1) xi n v r r'), snd (down (-1) xi n v r r')).
  Proof.
    intros xi. induction n as [|n IH]; intros a v r r'.
    - cbn [count_from fold_left down fst snd]. change (IZR (Z.of_nat 0)) with 0. rewrite Rminus_0_r. reflexivity.
    - cbn [count_from fold_left down]. cbv zeta.
      replace (v * xi - xi) with ((v - 1) * xi) by ring. rewrite IH.
      rewrite Nat2Z.inj_succ, <- Z.add_1_r, (plus_IZR (Z.of_nat n) 1).
      replace (v - 1 - IZR (Z.of_nat n)) with (v - (IZR (Z.of_nat n) + 1)) by ring.
      replace ((v - 1) * xi * (v * xi * r + r') - r) with ((v - 1) * xi * (v * xi * r + r') + -1 * r) by ring.
      reflexivity.
  Qed.

  Lemma down_I : forall xi n a v r r',
    fold_left (fun (s : R * R * R) (_ : Z) =>
                 let '(fact, ril, ripl) := s in
                 let ritemp := fact * ril + ripl in
                 let fact := fact - xi in
                 let ripl := fact * ritemp + ril in
                 (fact, ritemp, ripl)) (count_from a n) (v * xi, r, r')
    = ((v - IZR (Z.of_nat n)) * xi, fst (down 1 xi n v r r'), snd (down 1 xi n v r r')).
  Proof.
    intros xi. induction n as [|n IH]; intros a v r r'.
    - cbn [count_from fold_left down fst snd]. change (IZR (Z.of_nat 0)) with 0. rewrite Rminus_0_r. reflexivity.
    - cbn [count_from fold_left down]. cbv zeta.
      replace (v * xi - xi) with ((v - 1) * xi) by ring. rewrite IH.
      rewrite Nat2Z.inj_succ, <- Z.add_1_r, (plus_IZR (Z.of_nat n) 1).
      replace (v - 1 - IZR (Z.of_nat n)) with (v - (IZR (Z.of_nat n) + 1)) by ring.
      replace ((v - 1) * xi * (v * xi * r + r') + r) with ((v - 1) * xi * (v * xi * r + r') + 1 * r) by ring.
      reflexivity.
  Qed.

  Lemma jy_down_eq : forall n nu xi r r', (0 <= n)%Z ->
    @jy_down A n nu xi r r' = (fst (down (-1) xi (Z.to_nat n) nu r r'), snd (down (-1) xi (Z.to_nat n) nu r r')).
  Proof.
    intros n nu xi r r' H. unfold jy_down, range. exact_simpl. rewrite Z.sub_0_r. rewrite down_J. reflexivity.
  Qed.

  Lemma ik_down_eq : forall n nu xi r r', (0 <= n)%Z ->
    @ik_down A n nu xi r r' = (fst (down 1 xi (Z.to_nat n) nu r r'), snd (down 1 xi (Z.to_nat n) nu r r')).
  Proof.
    intros n nu xi r r' H. unfold ik_down, range. exact_simpl. rewrite Z.sub_0_r. rewrite down_I. reflexivity.
  Qed.

  Lemma nu_up_eq : forall (comb : R -> R -> R) s n mu xi y y1, (forall a b, comb a b = a + s * b) ->
    (0 <= n)%Z -> @nu_up A comb n mu (2 * xi)%R y y1 = upw s xi (Z.to_nat n) mu y y1.
  Proof.
    intros comb s n mu xi y y1 Hc H. unfold nu_up, range. exact_simpl.
    replace (n + 1 - 1)%Z with n by ring.
    rewrite <- (Z2Nat.id n H) at 2. generalize (Z.to_nat n). clear n H.
    induction n as [|n IH]; [reflexivity|].
    rewrite Nat2Z.id in *. rewrite count_from_app, fold_left_app. rewrite IH.
    cbn [fold_left upw]. cbv zeta. rewrite Hc.
    replace (1 + Z.of_nat n)%Z with (Z.of_nat (S n)) by lia. reflexivity.
  Qed.

  Lemma R_half : R_of_dec 0.5 = 1 / 2 /\ R_of_dec 1.5 = 3 / 2.
  Proof.
    unfold R_of_dec. cbn [dman dexp]. change (powerRZ 10 (-1)) with (/ (10 * 1)). split; field.
  Qed.

  Lemma Ztrunc_bounds : forall r, 0 <= r -> IZR (Ztrunc r) <= r < IZR (Ztrunc r) + 1 /\ (0 <= Ztrunc r)%Z.
  Proof.
    intros r H. rewrite Ztrunc_floor by exact H. split; [split; [apply Zfloor_lb|apply Zfloor_ub]|].
    apply Zfloor_lub. exact H.
  Qed.

  Lemma usize_range : forall r, (0 <= R_to_int 0 (2 ^ 64 - 1) r)%Z.
  Proof. intros r. unfold R_to_int. lia. Qed.

  Lemma jy_steps_nonneg : forall nu x, (0 <= @jy_steps A nu x)%Z.
  Proof.
    intros. unfold jy_steps, as_usize. exact_simpl. destruct Rlt_bool; [apply usize_range|lia].
  Qed.

  Lemma usize_id : forall r, 0 <= r -> r < IZR (2 ^ 64 - 1) -> R_to_int 0 (2 ^ 64 - 1) r = Ztrunc r.
  Proof.
    intros r H U. destruct (Ztrunc_bounds r H) as [[L1 L2] N].
    assert (Ztrunc r < 2 ^ 64 - 1)%Z by (apply lt_IZR; lra). unfold R_to_int. lia.
  Qed.

  (** the number of steps is the one of the specification *)
  Lemma steps_spec : forall nu x n, 0 <= nu < 2 ^ 63 -> 0 < x -> order_steps nu x n ->
    Z.to_nat (@jy_steps A nu x) = n.
  Proof.
    intros nu x n Hnu Hx (S1 & S2 & S3).
    destruct R_half as [H5 H15].
    assert (B : 2 ^ 63 + 1 <= IZR (2 ^ 64 - 1)).
    { change (2 ^ 64 - 1)%Z with 18446744073709551615%Z. lra. }
    unfold jy_steps, as_usize. exact_simpl. rewrite (R_lit 2.0 2), H5, H15 by reflexivity.
    assert (U : forall r, 0 <= r < 2 ^ 63 + 1 -> IZR (Z.of_nat n) <= r < IZR (Z.of_nat n) + 1 ->
                R_to_int 0 (2 ^ 64 - 1) r = Z.of_nat n).
    { intros r Hr [L1 L2]. rewrite usize_id by lra. rewrite Ztrunc_floor by lra.
      apply Zfloor_imp. rewrite plus_IZR. lra. }
    destruct (Rlt_bool_spec x 2) as [L|L].
    - rewrite U; [apply Nat2Z.id|lra|]. apply S1. exact L.
    - destruct (Rlt_or_le (nu - x + 3 / 2) 1) as [C|C].
      + rewrite (S2 L C). unfold R_to_int.
        assert (Ztrunc (nu - x + 3 / 2) <= 0)%Z.
        { destruct (Rle_or_lt 0 (nu - x + 3 / 2)) as [P|P].
          - destruct (Ztrunc_bounds _ P) as [[L1 L2] _].
            assert (Ztrunc (nu - x + 3 / 2) < 1)%Z by (apply lt_IZR; lra). lia.
          - rewrite Ztrunc_ceil by lra. apply Zceil_glb. simpl. lra. }
        replace (Z.max 0 (Z.max 0 (Z.min (2 ^ 64 - 1) (Ztrunc (nu - x + 3 / 2))))) with 0%Z by lia.
        reflexivity.
      + rewrite U; [rewrite Z.max_r by lia; apply Nat2Z.id|lra|]. apply S3; assumption.
  Qed.

  (** C53 *)
  Theorem besselik_wronskian : forall nu x i k i' k' : R,
    @besselik A nu x = Ok (i, k, i', k') -> i <> 0 -> i * k' - i' * k = - 1 / x.
  Proof.
    intros nu x i k i' k' H Hi. unfold besselik in H. exact_simpl_in H.
    rewrite (R_lit 0.0 0), (R_lit 1.0 1), (R_lit 2.0 2) in H by reflexivity.
    destruct (negb _); [|discriminate].
    set (nl := as_usize _) in H.
    assert (Hnl : (0 <= nl)%Z) by (apply usize_range).
    destruct (ik_cf1 _ _ _) as [h| |]; cbn [bind] in H; try discriminate.
    rewrite ik_down_eq in H by exact Hnl. cbv zeta in H.
    destruct (if Rlt_bool x 2 then _ else _) as [[rk rk1]| |]; cbn [bind] in H; try discriminate.
    set (fp := @FPMIN A : R) in *.
    rewrite (nu_up_eq Rplus 1) in H by (intros; ring || exact Hnl).
    set (d := down 1 (1 / x) (Z.to_nat nl) nu fp (h * fp)) in *.
    set (u := upw 1 (1 / x) (Z.to_nat nl) (nu - IZR nl) rk rk1) in *.
    destruct u as [u0 u1] eqn:Eu.
    injection H as E1 E2 E3 E4.
    pose proof (wronskian_const 1 (1 / x) (Z.to_nat nl) nu fp (h * fp) rk rk1) as W.
    rewrite Z2Nat.id in W by exact Hnl. fold u d in W. rewrite Eu in W. cbn [fst snd] in W.
    destruct (Req_dec (fst d) 0) as [Z0|N0].
    { exfalso. apply Hi. rewrite <- E1, Z0. unfold Rdiv. rewrite Rinv_0. ring. }
    set (den := snd d / fst d * rk - ((nu - IZR nl) * (1 / x) * rk - rk1)) in *.
    destruct (Req_dec den 0) as [Z1|N1].
    { exfalso. apply Hi. rewrite <- E1, Z1. unfold Rdiv. rewrite Rinv_0. ring. }
    rewrite <- E1, <- E2, <- E3, <- E4.
    replace (1 / x / den * fp / fst d * (nu * (1 / x) * u0 - u1) - 1 / x / den * (h * fp) / fst d * u0)
      with (1 / x / den / fst d * (fp * (nu * (1 / x) * u0 - u1) - h * fp * u0))
      by (unfold Rdiv; ring).
    rewrite W.
    replace (fst d * ((nu - IZR nl) * (1 / x) * rk - rk1) - snd d * rk) with (- (den * fst d))
      by (unfold den; generalize (1 / x); intros; field; exact N0).
    unfold Rdiv at 1 2. replace (1 / x * / den * / fst d * - (den * fst d))
      with (- (1 / x) * (den * / den) * (fst d * / fst d)) by ring.
    rewrite !Rinv_r by assumption. unfold Rdiv. ring.
  Qed.

  Definition pi_lit : R := R_of_dec 3.14159265358979323846264338327950288.

  Lemma pi_lit_pos : 0 < pi_lit.
  Proof.
    unfold pi_lit, R_of_dec. cbn [dman dexp]. apply Rmult_lt_0_compat; [apply IZR_lt; lia|].
    apply powerRZ_lt. lra.
  Qed.

  (** C52 *)
  Theorem besseljy_wronskian : forall (nu x j y j' y' : R) n,
    nu < 2 ^ 63 -> order_steps nu x n ->
    @besseljy A nu x = Ok (j, y, j', y') ->
    lowered x n nu j j' <> 0 -> (y <> 0 \/ y' <> 0) ->
    j * y' - j' * y = 2 / (pi_lit * x).
  Proof.
    intros nu x j y j' y' n Hnu Hn H Hj Hy. unfold besseljy in H. exact_simpl_in H.
    rewrite (R_lit 0.0 0), (R_lit 1.0 1), (R_lit 2.0 2) in H by reflexivity.
    destruct (negb _) eqn:Dom; [|discriminate].
    assert (Hd : 0 < x /\ 0 <= nu).
    { revert Dom. destruct (Rle_bool_spec x 0); [discriminate|]. destruct (Rlt_bool_spec nu 0); [discriminate|].
      intros _. split; assumption. }
    destruct Hd as [Hx Hnu0].
    pose proof (steps_spec nu x n (conj Hnu0 Hnu) Hx Hn) as Sn.
    set (nl := @jy_steps A nu x) in *.
    assert (Hnl : (0 <= nl)%Z) by (apply jy_steps_nonneg).
    destruct (jy_cf1 _ _ _) as [[h isign]| |]; cbn [bind] in H; try discriminate.
    rewrite jy_down_eq in H by exact Hnl. rewrite Sn in H. cbv zeta in H.
    change (@PI A) with pi_lit in H.
    set (r0 := IZR isign * @FPMIN A) in *.
    set (d := down (-1) (1 / x) n nu r0 (h * r0)) in *.
    set (w := 2 * (1 / x) / pi_lit) in *.
    set (rl := if Req_bool (fst d) 0 then _ else _) in *.
    set (f := snd d / rl) in *.
    destruct (if Rlt_bool x 2 then _ else _) as [[[rjmu rymu] ry1]| |] eqn:Eb; cbn [bind] in H; try discriminate.
    rewrite (nu_up_eq Rminus (-1)) in H by (intros; ring || exact Hnl). rewrite Sn in H.
    set (u := upw (-1) (1 / x) n (nu - IZR nl) rymu ry1) in *.
    destruct u as [u0 u1] eqn:Eu.
    injection H as E1 E2 E3 E4.
    (* the downward recurrence did not vanish *)
    assert (Lw : lowered x n nu j j' = rjmu / rl * fst d).
    { rewrite lowered_down.
      replace j with (rjmu / rl * r0) by (rewrite <- E1; ring).
      replace j' with (rjmu / rl * (h * r0)) by (rewrite <- E3; ring).
      rewrite down_linear. reflexivity. }
    rewrite Lw in Hj.
    assert (N0 : fst d <> 0) by (intros Z; apply Hj; rewrite Z; ring).
    assert (Erl : rl = fst d) by (unfold rl; rewrite Req_bool_false by exact N0; reflexivity).
    rewrite Erl in *.
    assert (Nr : rjmu <> 0).
    { intros Z. apply Hj. rewrite Z. unfold Rdiv. ring. }
    (* the base case *)
    set (rymup := (nu - IZR nl) * (1 / x) * rymu - ry1).
    assert (Base : rjmu * (rymup - f * rymu) = w).
    { destruct (Rlt_bool x 2).
      - destruct (jy_series _ _ _ _ _) as [[[a b] c]| |] eqn:Es; cbn [bind] in Eb; try discriminate.
        injection Eb as B1 B2 B3. rewrite B2 in B1.
        assert (Ec : c = rymup).
        { unfold jy_series in Es. exact_simpl_in Es. destruct (for_break _ _ _) as [[[[[[a1 a2] a3] a4] a5] a6] ok].
          destruct ok; [|discriminate]. injection Es as Q1 Q2 Q3. unfold rymup. rewrite <- B2, <- B3, <- Q1, <- Q2, <- Q3.
          reflexivity. }
        rewrite Ec in B1.
        destruct (Req_dec (rymup - f * rymu) 0) as [Z|NZ].
        + exfalso. apply Nr. rewrite <- B1, Z. unfold Rdiv. rewrite Rinv_0. ring.
        + rewrite <- B1. field. exact NZ.
      - unfold jy_large in Eb. exact_simpl_in Eb.
        destruct (jy_cf2 _ _ _) as [[p q]| |]; cbn [bind] in Eb; try discriminate.
        set (gam := (p - f) / q) in *. set (t := w / ((p - f) * gam + q)) in *.
        set (rj := if Rlt_bool _ _ then - R_sqrt.sqrt t else R_sqrt.sqrt t) in *.
        injection Eb as B1 B2 B3.
        assert (Sq : rj * rj = R_sqrt.sqrt t * R_sqrt.sqrt t) by (unfold rj; destruct (Rlt_bool (fst d) _); ring).
        assert (Tp : 0 <= t).
        { destruct (Rle_or_lt 0 t) as [L|L]; [exact L|]. exfalso. apply Nr. rewrite <- B1. unfold rj.
          rewrite (sqrt_neg t) by lra. destruct (Rlt_bool (fst d) _); ring. }
        rewrite sqrt_sqrt in Sq by exact Tp.
        assert (Ng : gam <> 0).
        { intros Z. assert (Y0 : rymu = 0) by (rewrite <- B2, Z; ring).
          assert (Y1 : ry1 = 0) by (rewrite <- B3, Z; ring).
          unfold u in Eu. rewrite Y0, Y1, upw_zero in Eu. injection Eu as U0 U1.
          destruct Hy as [Hy|Hy]; apply Hy; [rewrite <- E2; auto|rewrite <- E4, <- U0, <- U1; ring]. }
        assert (Nden : (p - f) * gam + q <> 0).
        { intros Z. apply Nr. rewrite <- B1. unfold rj, t. rewrite Z. unfold Rdiv. rewrite Rinv_0, Rmult_0_r, sqrt_0.
          destruct (Rlt_bool (fst d) _); ring. }
        replace rymup with (gam * rj * (p + q / gam)) by (unfold rymup; rewrite <- B2, <- B3; ring).
        rewrite <- B2, <- B1.
        replace (rj * (gam * rj * (p + q / gam) - f * (gam * rj)))
          with (rj * rj * ((p - f) * gam + q)) by (field; exact Ng).
        rewrite Sq. unfold t. field. exact Nden. }
    (* the invariant *)
    pose proof (wronskian_const (-1) (1 / x) n nu r0 (h * r0) rymu ry1) as W.
    replace (IZR (Z.of_nat n)) with (IZR nl) in W by (rewrite <- Sn, Z2Nat.id by exact Hnl; reflexivity).
    fold u d in W. rewrite Eu in W. cbn [fst snd] in W. fold rymup in W.
    rewrite <- E1, <- E2, <- E3, <- E4.
    replace (r0 * (rjmu / fst d) * (nu * (1 / x) * u0 - u1) - h * r0 * (rjmu / fst d) * u0)
      with (rjmu / fst d * (r0 * (nu * (1 / x) * u0 - u1) - h * r0 * u0)) by ring.
    rewrite W.
    replace (rjmu / fst d * (fst d * rymup - snd d * rymu)) with (rjmu * (rymup - f * rymu))
      by (unfold f; rewrite Erl; generalize rymup; intros; field; exact N0).
    rewrite Base. unfold w. pose proof pi_lit_pos. field. lra.
  Qed.
End Code.
