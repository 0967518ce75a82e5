(** * besselik at half-integer orders: the recurrence and the theorem *)

From Coq Require Import ZArith Reals Bool Lra Lia List String.
From Flocq Require Import Core IEEE754.BinarySingleNaN IEEE754.Binary IEEE754.Bits.
From Verif.Model Require Import Base Arith BesselTables Bessel.
From Verif.Float Require Import Bits64 Ieee Exact Platforms.
From Verif.Spec Require Import F64Spec Outcome LibmSpec KHalfSpec.
From Verif.Proofs Require Import F64 F64Ops Lits Ext ExpBounds FlErr GammaAcc GserAcc PosHorner KnAcc KPoly KLarge DawsonNeg DawsonLarge ErfcxAcc NuPanic KHalfRec KHalfDeriv KHalf.
Import ListNotations.
Open Scope R_scope.
Local Notation B := Binary.B2R.

Lemma hs_max : forall y, / 700 <= y -> forall n, (forall i, (i <= n)%nat -> hs i y <= 700 * hs n y) /\ (forall i, (i <= S n)%nat -> hs i y <= 700 * hs (S n) y).
Proof.
  intros y Hy. induction n as [|n [IH1 IH2]].
  - split; intros i Hi.
    + replace i with 0%nat by lia. rewrite hs_0. lra.
    + assert (C : (i = 0 \/ i = 1)%nat) by lia. destruct C as [-> | ->]; rewrite ?hs_0, ?hs_1; lra.
  - split; [exact IH2|]. intros i Hi. destruct (hs_ge1 n y ltac:(lra)) as [G1 G2]. destruct (hs_ge1 (S n) y ltac:(lra)) as [_ G3].
    assert (C : (i <= n \/ i = S n \/ i = S (S n))%nat) by lia. destruct C as [C|[-> | ->]].
    + pose proof (IH1 i C). rewrite hs_step. pose proof (pos_INR n).
      assert (0 <= (2 * INR n + 3) * y * hs (S n) y) by (apply Rmult_le_pos; [apply Rmult_le_pos; lra|lra]). lra.
    + apply hs_prev, Hy.
    + lra.
Qed.

Section Rec.
  Context (P : platform) (EX : accurate_exp (p_exp P)).
  Notation add := (f64_add P). Notation mul := (f64_mul P). Notation sub := (f64_sub P). Notation div := (f64_div P).

  (** one step of the recurrence *)
  Lemma h_step : forall w t c p kt kc kp e, fin w -> 1 / 2 <= val w <= 2 ^ 33 -> fin t -> fin c -> fin p -> mr (2 * vv) (val t) kt -> / 345 <= kt <= 1 ->
    bpow radix2 (-1001) <= kc -> 0 < kp -> mr e (val c) kc -> mr e (val p) kp -> e <= 1 / 10 ^ 4 -> val w * kt * kc + kp <= bpow radix2 1020 ->
    let r := add (mul (mul w t) c) p in fin r /\ mr (e + 5 * vv) (val r) (val w * kt * kc + kp).
  Proof.
    intros w t c p kt kc kp e Fw Hw Ft Fc Fp Mt Ht Hc Hp Mc Mp He HB r. pose proof (mr_t0 _ _ _ Mc) as E0.
    assert (B23 : bpow radix2 1023 = 8 * bpow radix2 1020) by (change 8 with (bpow radix2 3); rewrite <- bpow_plus; reflexivity).
    assert (BB : 2 ^ 34 <= bpow radix2 1020) by (apply Rle_trans with (bpow radix2 34); [simpl; lra|apply bpow_le; lia]).
    assert (BT : bpow radix2 (-1022) * 2 ^ 21 = bpow radix2 (-1001)). { change (-1001)%Z with (21 + -1022)%Z. rewrite bpow_plus. simpl (bpow radix2 21). lra. }
    pose proof (bpow_gt_0 radix2 (-1022)) as B22.
    assert (BS : bpow radix2 (-1022) <= / 2 ^ 20) by (apply Rle_trans with (bpow radix2 (-20)); [apply bpow_le; lia|simpl; lra]).
    assert (JT : 1 / 2 * / 345 <= val w * kt <= 2 ^ 33 * 1) by (split; apply Rmult_le_compat; lra).
    assert (JTC : / 690 * bpow radix2 (-1001) <= val w * kt * kc) by (apply Rmult_le_compat; lra).
    assert (M1 : mr (2 * vv) (val w * val t) (val w * kt)) by (apply mr_scale_l, Mt). set (q := val w * kt) in *. clearbody q.
    pose proof (mrn _ _ _ M1 ltac:(unfold vv; lra) ltac:(lra)) as N1.
    destruct (mul_mr P w t Fw Ft) as [F1 R1]; [rewrite Rabs_pos_eq by lra; lra|].
    set (m := mul w t) in *. clearbody m. pose proof (mr_trans _ _ _ _ _ R1 M1) as M2.
    pose proof (mr_mul _ _ _ _ _ _ M2 Mc) as M3.
    assert (QC : 0 < q * kc) by lra. set (z := q * kc) in *. clearbody z.
    pose proof (mrn _ _ _ M3 ltac:(unfold vv; lra) QC) as N3.
    destruct (mul_mr P m c F1 Fc) as [F4 R4]; [rewrite Rabs_pos_eq by lra; lra|].
    set (s := mul m c) in *. clearbody s. pose proof (mr_trans _ _ _ _ _ R4 M3) as M4.
    assert (Mp' : mr (vv + (vv + 2 * vv + e)) (val p) kp) by (eapply mr_weak; [|exact Mp]; unfold vv; lra).
    pose proof (mr_add _ _ _ _ _ QC Hp M4 Mp') as M5.
    pose proof (mrn _ _ _ M5 ltac:(unfold vv; lra) ltac:(lra)) as N5.
    destruct (add_mr P s p F4 Fp) as [F6 R6]; [rewrite Rabs_pos_eq by lra; lra|]. fold r in F6, R6. split; [exact F6|].
    eapply mr_weak; [|exact (mr_trans _ _ _ _ _ R6 M5)]. lra.
  Qed.

  Definition kk (K y : R) (j : nat) : R := match j with O => K | S i => K * hs i y end.
  Lemma kk_step : forall K y j, kk K y (S (S j)) = (2 * INR j + 1) * y * kk K y (S j) + kk K y j.
  Proof.
    intros K y [|j]; unfold kk.
    - rewrite hs_1, hs_0. simpl. ring.
    - rewrite hs_step, S_INR. ring.
  Qed.

  Lemma half_w : forall xmu j, fin xmu -> B xmu = - (1 / 2) -> (Z.of_nat j < 2 ^ 32)%Z ->
    let w := add xmu (f64_of_Z (Z.of_nat j + 1)) in fin w /\ val w = INR j + 1 / 2.
  Proof.
    intros xmu j Fm Vm Hj w. destruct (of_Z_exact (Z.of_nat j + 1) ltac:(lia)) as [Fi Vi].
    pose proof (add_spec P _ _ Fm Fi) as R. fold w in R. rewrite Vm, Vi in R.
    replace (- (1 / 2) + IZR (Z.of_nat j + 1)) with (INR j + 1 / 2) in R by (rewrite plus_IZR, <- INR_IZR_INZ; lra).
    destruct (rex _ _ R) as [F V].
    - apply (fmt_q (2 * Z.of_nat j + 1) 1); [lia|lia|]. rewrite plus_IZR, mult_IZR, <- INR_IZR_INZ. change (IZR (2 ^ 1)) with 2. lra.
    - pose proof (pos_INR j). rewrite Rabs_pos_eq by lra. apply IZR_lt in Hj. rewrite <- INR_IZR_INZ in Hj. change (IZR (2 ^ 32)) with 4294967296 in Hj. lra.
    - split; [exact F|]. rewrite val_fin by exact F. exact V.
  Qed.

  Lemma count_from_snoc : forall m i, count_from i (S m) = count_from i m ++ (i + Z.of_nat m)%Z :: nil.
  Proof.
    induction m as [|m IH]; intros i; [cbn [count_from app Z.of_nat]; f_equal; lia|].
    change (count_from i (S (S m))) with (i :: count_from (i + 1) (S m)). rewrite IH. change (count_from i (S m)) with (i :: count_from (i + 1) m).
    cbn [app]. do 3 f_equal. lia.
  Qed.

  Definition hE (j : nat) : R := 3 / 10 ^ 15 + 5 * vv * INR j.

  Lemma up_half : forall xmu xi2 K y n, fin xmu -> B xmu = - (1 / 2) -> fin xi2 -> mr (2 * vv) (val xi2) (2 * y) -> / 690 <= y <= 1 / 2 ->
    bpow radix2 (-1001) <= K -> (Z.of_nat n < 2 ^ 32)%Z -> kk K y (S n) <= bpow radix2 1010 ->
    forall m j cur next, (j + m = n)%nat -> fin cur -> fin next -> mr (hE j) (val cur) (kk K y j) -> mr (hE j) (val next) (kk K y (S j)) ->
    let r := fst (fold_left (fun (s : f64 * f64) (i : Z) => (snd s, add (mul (mul (add xmu (f64_of_Z i)) xi2) (snd s)) (fst s)))
                   (count_from (Z.of_nat j + 1) (S m)) (cur, next)) in
    fin r /\ mr (hE n) (val r) (kk K y (S n)).
  Proof.
    intros xmu xi2 K y n Fm Vm Fxi Mxi Hy HK Hn HB. pose proof (bpow_gt_0 radix2 (-1001)) as B0.
    induction m as [|m IH]; intros j cur next Hj Fc Fn Mc Mn; cbv zeta.
    - cbn [count_from fold_left fst snd]. replace j with n in * by lia. split; assumption.
    - change (count_from (Z.of_nat j + 1) (S (S m))) with ((Z.of_nat j + 1)%Z :: count_from (Z.of_nat j + 1 + 1) (S m)).
      cbn [fold_left]. cbn [fst snd]. replace (Z.of_nat j + 1 + 1)%Z with (Z.of_nat (S j) + 1)%Z by lia.
      destruct (half_w xmu j Fm Vm ltac:(lia)) as [Fw Vw]. set (w := add xmu (f64_of_Z (Z.of_nat j + 1))) in *. clearbody w.
      pose proof (pos_INR j) as J0.
      assert (J1 : INR j <= 2 ^ 32). { rewrite INR_IZR_INZ. replace (2 ^ 32) with (IZR (2 ^ 32)) by (rewrite (pow_IZR 2 32); reflexivity). apply IZR_le. lia. }
      destruct (hs_ge1 j y ltac:(lra)) as [G1 _].
      assert (K1 : bpow radix2 (-1001) <= kk K y (S j)). { unfold kk. replace (bpow radix2 (-1001)) with (bpow radix2 (-1001) * 1) by ring. apply Rmult_le_compat; lra. }
      assert (K2 : 0 < kk K y j). { unfold kk. destruct j as [|i]; [lra|]. destruct (hs_ge1 i y ltac:(lra)) as [G0 _]. apply Rmult_lt_0_compat; lra. }
      assert (EQ : val w * (2 * y) * kk K y (S j) + kk K y j = kk K y (S (S j))) by (rewrite kk_step, Vw; field).
      assert (UB : kk K y (S (S j)) <= bpow radix2 1020).
      { assert (B20 : bpow radix2 1020 = 1024 * bpow radix2 1010) by (change 1024 with (bpow radix2 10); rewrite <- bpow_plus; reflexivity).
        pose proof (proj1 (hs_max y ltac:(lra) n) (S j) ltac:(lia)) as X. unfold kk in *. assert (K * hs (S j) y <= K * (700 * hs n y)) by (apply Rmult_le_compat_l; lra).
        pose proof (bpow_gt_0 radix2 1010). lra. }
      assert (T : hE j <= 1 / 10 ^ 4) by (unfold hE, vv; lra).
      destruct (h_step w xi2 next cur (2 * y) (kk K y (S j)) (kk K y j) (hE j)) as [Fr Mr]; try assumption; try lra.
      rewrite EQ in Mr. replace (hE j + 5 * vv) with (hE (S j)) in Mr by (unfold hE; rewrite S_INR; ring).
      apply IH; [lia|exact Fn|exact Fr| |exact Mr]. eapply mr_weak; [|exact Mn]. unfold hE. rewrite S_INR. unfold vv. lra.
  Qed.

  Definition up_fold (xmu xi2 : f64) (n : nat) (s : f64 * f64) : f64 * f64 :=
    fold_left (fun (s : f64 * f64) (i : Z) => (snd s, add (mul (mul (add xmu (f64_of_Z i)) xi2) (snd s)) (fst s))) (count_from 1 n) s.

  Theorem besselik_half_run : forall (n : nat) (nu x : f64), (Z.of_nat n < 2 ^ 32)%Z -> number nu -> val nu = INR n + 1 / 2 ->
    number x -> 2 <= val x <= 690 ->
    @besselik (ieee P) nu x = Panic (PExplicit "x too large in besselik; try asymptotic expansion") \/
    exists i i' xi xi2 xmu a b, @besselik (ieee P) nu x = Ok (i, fst (up_fold xmu xi2 (S n) (a, b)), i',
        sub (mul (mul nu xi) (fst (up_fold xmu xi2 (S n) (a, b)))) (snd (up_fold xmu xi2 (S n) (a, b))))
      /\ fin nu /\ fin xi /\ mr vv (val xi) (/ val x) /\ fin xi2 /\ mr (2 * vv) (val xi2) (2 * / val x) /\ fin xmu /\ B xmu = - (1 / 2)
      /\ fin a /\ fin b /\ mr (3 / 10 ^ 15) (val a) (K0h (val x)) /\ mr (3 / 10 ^ 15) (val b) (K0h (val x))
      /\ exists h ril ripl q, @ik_cf1 (ieee P) nu xi xi2 = Ok h /\ @ik_down (ieee P) (Z.of_nat n + 1) nu xi (@FPMIN (ieee P)) (mul h (@FPMIN (ieee P))) = (ril, ripl)
        /\ i = div (mul (div xi (sub (mul (div ripl ril) a) q)) (@FPMIN (ieee P))) ril.
  Proof.
    intros n nu x Hn Nu Vu Nx Hx. pose proof (pos_INR n) as I0.
    assert (I1 : INR n <= 4294967296). { rewrite INR_IZR_INZ. apply (IZR_le _ 4294967296). lia. }
    assert (Fu : fin nu) by (apply fin_iff_val; [exact Nu|]; pose proof Om_big; rewrite Rabs_pos_eq; lra).
    assert (Fx : fin x) by (apply fin_iff_val; [exact Nx|]; pose proof Om_big; rewrite Rabs_pos_eq; lra).
    unfold besselik. ieee_simpl.
    replace (f64_le x (f64_lit 0.0)) with false by (symmetry; apply le_false; [exact Nx|apply nn_0|rewrite val_0; lra]).
    replace (f64_lt nu (f64_lit 0.0)) with false by (symmetry; apply lt_false; [exact Nu|apply nn_0|rewrite val_0; lra]).
    cbn [orb negb].
    lit_facts 0.5%dec 1%Z 1%Z F5 V5. assert (B5 : B (f64_lit 0.5) = 1 / 2) by (rewrite <- val_fin by exact F5; exact V5).
    assert (Bu : B nu = INR n + 1 / 2) by (rewrite <- val_fin by exact Fu; exact Vu).
    assert (NL : @as_usize (ieee P) (add nu (f64_lit 0.5)) = (Z.of_nat n + 1)%Z).
    { pose proof (add_spec P _ _ Fu F5) as R. rewrite Bu, B5 in R.
      replace (INR n + 1 / 2 + 1 / 2) with (IZR (Z.of_nat n + 1)) in R by (rewrite plus_IZR, <- INR_IZR_INZ; lra).
      destruct (exactZ _ _ R ltac:(lia)) as [F V]. unfold as_usize. ieee_simpl. rewrite to_int_fin by exact F.
      rewrite val_fin, V, Ztrunc_IZR by exact F. change (2 ^ 64 - 1)%Z with 18446744073709551615%Z. lia. }
    rewrite NL. clear NL.
    destruct (of_Z_exact (Z.of_nat n + 1) ltac:(lia)) as [Fi Vi].
    pose proof (sub_spec P _ _ Fu Fi) as R. rewrite Bu, Vi in R.
    replace (INR n + 1 / 2 - IZR (Z.of_nat n + 1)) with (- (1 / 2)) in R by (rewrite plus_IZR, <- INR_IZR_INZ; lra).
    destruct (rex _ _ R) as [Fm Vm]. { apply (fmt_q (-1) 1); [lia|lia|]. change (IZR (2 ^ 1)) with 2. lra. } { apply Rabs_le. lra. }
    clear R. set (xmu := sub nu (f64_of_Z (Z.of_nat n + 1))) in *. clearbody xmu. unfold powi2. ieee_simpl.
    pose proof (mul_spec P _ _ Fm Fm) as R. rewrite Vm in R. replace (- (1 / 2) * - (1 / 2)) with (1 / 4) in R by lra.
    destruct (rex _ _ R) as [Fm2 Vm2]. { apply (fmt_q 1 2); [lia|lia|]. change (IZR (2 ^ 2)) with 4. lra. } { apply Rabs_le. lra. }
    clear R. set (xmu2 := mul xmu xmu) in *. clearbody xmu2.
    assert (Y : / 690 <= / val x <= 1 / 2) by (split; [apply Rinv_le_contravar; lra|replace (1 / 2) with (/ 2) by lra; apply Rinv_le_contravar; lra]).
    assert (BS : bpow radix2 (-1022) <= / 2 ^ 20) by (apply Rle_trans with (bpow radix2 (-20)); [apply bpow_le; lia|simpl; lra]).
    assert (BL : 2 <= bpow radix2 1023) by (apply (bpow_le radix2 1); lia).
    assert (E1 : val (f64_lit 1.0) / val x = / val x) by (rewrite val_1; unfold Rdiv; ring).
    destruct (div_mr P (f64_lit 1.0) x fin_1 Fx ltac:(lra)) as [Fxi Mxi]; [rewrite E1, Rabs_pos_eq; lra|]. rewrite E1 in Mxi.
    pose proof (mrn _ _ _ Mxi ltac:(unfold vv; lra) ltac:(lra)) as Nxi.
    set (xi := div (f64_lit 1.0) x) in *. clearbody xi.
    destruct (mul_mr P (f64_lit 2.0) xi fin_2 Fxi) as [Fxi2 Mxi2]; [rewrite val_2, Rabs_pos_eq by lra; lra|]. rewrite val_2 in Mxi2.
    assert (Mx2 : mr (2 * vv) (val (mul (f64_lit 2.0) xi)) (2 * / val x)).
    { replace (2 * vv) with (vv + vv) by ring. eapply mr_trans; [exact Mxi2|]. apply mr_scale_l, Mxi. }
    set (xi2 := mul (f64_lit 2.0) xi) in *. clearbody xi2. clear Mxi2.
    assert (CF : (exists h, @ik_cf1 (ieee P) nu xi xi2 = Ok h) \/ @ik_cf1 (ieee P) nu xi xi2 = Panic (PExplicit "x too large in besselik; try asymptotic expansion")).
    { unfold ik_cf1. cbv zeta. destruct (for_break _ _ _) as [[[[b d] c] h] ok]. destruct ok; [left; eexists; reflexivity|right; reflexivity]. }
    destruct CF as [[h CF]|CF]; rewrite CF; cbn [bind]; [right|left; reflexivity].
    destruct (@ik_down (ieee P) _ _ _ _ _) as [ril ripl] eqn:ED.
    replace (f64_lt x (f64_lit 2.0)) with false by (symmetry; apply lt_false; [exact Nx|apply fin_nonnan, fin_2|rewrite val_2; lra]).
    destruct (ik_large_half P EX x xmu xmu2 xi Fx Hx Fm Vm Fm2 Vm2 Fxi Mxi) as (a & b & EL & Fa & Fb & Ma & Mb).
    rewrite EL. cbn [bind].
    assert (EU : @nu_up (ieee P) add (Z.of_nat n + 1) xmu xi2 a b = up_fold xmu xi2 (S n) (a, b)).
    { unfold nu_up, range, up_fold. replace (Z.to_nat (Z.of_nat n + 1 + 1 - 1)) with (S n) by lia. reflexivity. }
    ieee_simpl. rewrite EU, (surjective_pairing (up_fold xmu xi2 (S n) (a, b))). do 2 eexists. exists xi, xi2, xmu, a, b.
    split; [reflexivity|]. repeat (split; [eassumption|]). exists h, ril, ripl. eexists. split; [exact CF|]. split; [exact ED|]. reflexivity.
  Qed.

  Theorem besselik_half_core : forall (n : nat) (nu x : f64), (Z.of_nat n < 2 ^ 32)%Z -> number nu -> val nu = INR n + 1 / 2 ->
    number x -> 2 <= val x <= 690 -> K_half n (val x) <= bpow radix2 1010 ->
    @besselik (ieee P) nu x = Panic (PExplicit "x too large in besselik; try asymptotic expansion") \/
    exists i k i' xi k1, @besselik (ieee P) nu x = Ok (i, k, i', sub (mul (mul nu xi) k) k1) /\ fin nu /\ fin xi /\ mr vv (val xi) (/ val x) /\ fin k
      /\ mr (hE n) (val k) (K_half n (val x)) /\ 0 < K_half n (val x)
      /\ ((Z.of_nat (S n) < 2 ^ 32)%Z -> K_half (S n) (val x) <= bpow radix2 1010 -> fin k1 /\ mr (hE (S n)) (val k1) (K_half (S n) (val x))).
  Proof.
    intros n nu x Hn Nu Vu Nx Hx HB. pose proof (pos_INR n) as I0.
    destruct (besselik_half_run n nu x Hn Nu Vu Nx Hx) as [Q|(i & i' & xi & xi2 & xmu & a & b & Q & Fu & Fxi & Mxi & Fxi2 & Mx2 & Fm & Vm & Fa & Fb & Ma & Mb & _)]; [left; exact Q|right].
    assert (Y : / 690 <= / val x <= 1 / 2) by (split; [apply Rinv_le_contravar; lra|replace (1 / 2) with (/ 2) by lra; apply Rinv_le_contravar; lra]).
    set (ko := fst (up_fold xmu xi2 (S n) (a, b))) in *. set (kn := snd (up_fold xmu xi2 (S n) (a, b))) in *.
    exists i, ko, i', xi, kn. split; [exact Q|]. split; [exact Fu|]. split; [exact Fxi|]. split; [exact Mxi|].
    destruct (K0h_rng (val x) Hx) as [KR _].
    assert (KE : kk (K0h (val x)) (/ val x) (S n) = K_half n (val x)) by reflexivity.
    pose proof (up_half xmu xi2 (K0h (val x)) (/ val x) n Fm Vm Fxi2 Mx2 Y (proj1 KR) Hn ltac:(rewrite KE; exact HB) n 0%nat a b eq_refl Fa Fb) as U.
    assert (H0 : hE 0 = 3 / 10 ^ 15) by (unfold hE; simpl INR; ring). rewrite H0 in U.
    assert (K1 : kk (K0h (val x)) (/ val x) 1 = K0h (val x)) by (unfold kk; rewrite hs_0; ring). rewrite K1 in U.
    specialize (U Ma Mb). cbv zeta in U.
    assert (EK : fst (fold_left (fun (s : f64 * f64) (i : Z) => (snd s, add (mul (mul (add xmu (f64_of_Z i)) xi2) (snd s)) (fst s)))
                   (count_from (Z.of_nat 0 + 1) (S n)) (a, b)) = ko).
    { reflexivity. }
    assert (U2 : fin ko /\ mr (hE n) (val ko) (K_half n (val x))) by (rewrite <- EK; exact U). destruct U2 as [Fk Mk]. split; [exact Fk|]. split; [exact Mk|]. split.
    { rewrite <- KE. unfold kk. destruct (hs_ge1 n (/ val x) ltac:(lra)) as [G _]. pose proof (bpow_gt_0 radix2 (-1001)). apply Rmult_lt_0_compat; lra. }
    intros Hn1 HB1.
    assert (KE1 : kk (K0h (val x)) (/ val x) (S (S n)) = K_half (S n) (val x)) by reflexivity.
    pose proof (up_half xmu xi2 (K0h (val x)) (/ val x) (S n) Fm Vm Fxi2 Mx2 Y (proj1 KR) Hn1 ltac:(rewrite KE1; exact HB1) (S n) 0%nat a b eq_refl Fa Fb) as U1.
    rewrite H0, K1 in U1. specialize (U1 Ma Mb). cbv zeta in U1.
    assert (EK1 : fst (fold_left (fun (s : f64 * f64) (i : Z) => (snd s, add (mul (mul (add xmu (f64_of_Z i)) xi2) (snd s)) (fst s)))
                   (count_from (Z.of_nat 0 + 1) (S (S n))) (a, b)) = kn).
    { rewrite count_from_snoc, fold_left_app. reflexivity. }
    rewrite <- EK1. exact U1.
  Qed.

  Theorem besselik_half : forall (n : nat) (nu x : f64), (Z.of_nat n < 2 ^ 32)%Z -> number nu -> val nu = INR n + 1 / 2 ->
    number x -> 2 <= val x <= 690 -> K_half n (val x) <= bpow radix2 1010 ->
    @besselik (ieee P) nu x = Panic (PExplicit "x too large in besselik; try asymptotic expansion") \/
    exists i k i' k', @besselik (ieee P) nu x = Ok (i, k, i', k') /\ finite k
      /\ Rabs (val k - K_half n (val x)) <= (4 / 10 ^ 15 + INR n / 10 ^ 15) * K_half n (val x).
  Proof.
    intros n nu x Hn Nu Vu Nx Hx HB. pose proof (pos_INR n) as I0.
    assert (I1 : INR n <= 4294967296). { rewrite INR_IZR_INZ. apply (IZR_le _ 4294967296). lia. }
    destruct (besselik_half_core n nu x Hn Nu Vu Nx Hx HB) as [Q|(i & k & i' & xi & k1 & Q & _ & _ & _ & Fk & Mk & V0 & _)]; [left; exact Q|right].
    do 4 eexists. split; [exact Q|]. split; [exact Fk|].
    apply mr_abs in Mk; [|unfold hE, vv; lra]. rewrite (Rabs_pos_eq (K_half n (val x))) in Mk by lra.
    eapply Rle_trans; [exact Mk|]. apply Rmult_le_compat_r; [lra|].
    assert (HH : 0 <= hE n <= 1 / 10 ^ 4) by (unfold hE, vv; lra).
    assert (hE n * hE n <= 1 / 10 ^ 4 * hE n) by (apply Rmult_le_compat_r; lra). unfold hE, vv in *. lra.
  Qed.

  (** the derivative, nu / x K_nu - K_{nu+1}: both terms are at most twice its absolute value *)
  Theorem besselik_half_deriv : forall (n : nat) (nu x : f64) (d : R), (Z.of_nat n + 1 < 2 ^ 32)%Z -> number nu -> val nu = INR n + 1 / 2 ->
    number x -> 2 <= val x <= 690 -> K_half (S n) (val x) <= bpow radix2 1010 -> derivable_pt_lim (K_half n) (val x) d ->
    @besselik (ieee P) nu x = Panic (PExplicit "x too large in besselik; try asymptotic expansion") \/
    exists i k i' k', @besselik (ieee P) nu x = Ok (i, k, i', k') /\ finite k' /\ d < 0
      /\ Rabs (val k' - d) <= (12 / 10 ^ 15 + 2 * INR n / 10 ^ 15) * Rabs d.
  Proof.
    intros n nu x d Hn Nu Vu Nx Hx HB HD. pose proof (pos_INR n) as I0.
    assert (I1 : INR n <= 4294967296). { rewrite INR_IZR_INZ. apply (IZR_le _ 4294967296). lia. }
    assert (Ed := uniqueness_limite _ _ _ _ HD (K_half_deriv n (val x) ltac:(lra))). clear HD.
    destruct (K0h_rng (val x) Hx) as [KR _]. pose proof (bpow_gt_0 radix2 (-1001)) as B0.
    set (y := / val x) in *.
    assert (Y : / 690 <= y <= 1 / 2) by (unfold y; split; [apply Rinv_le_contravar; lra|replace (1 / 2) with (/ 2) by lra; apply Rinv_le_contravar; lra]).
    assert (KE : kk (K0h (val x)) y (S n) = K_half n (val x)) by reflexivity.
    assert (KE1 : kk (K0h (val x)) y (S (S n)) = K_half (S n) (val x)) by reflexivity.
    assert (LE : K_half n (val x) <= K_half (S n) (val x)).
    { rewrite <- KE, <- KE1. unfold kk. apply Rmult_le_compat_l; [lra|apply hs_mono; lra]. }
    destruct (besselik_half_core n nu x ltac:(lia) Nu Vu Nx Hx ltac:(lra)) as [Q|(i & k & i' & xi & k1 & Q & Fu & Fxi & Mxi & Fk & Mk & V0 & H1)]; [left; exact Q|right].
    destruct (H1 ltac:(lia) HB) as [Fk1 Mk1]. clear H1. do 4 eexists. split; [exact Q|]. clear Q.
    pose proof (kk_step (K0h (val x)) y n) as ST. rewrite KE, KE1 in ST.
    assert (P0 : 0 < kk (K0h (val x)) y n). { unfold kk. destruct n as [|m]; [lra|]. destruct (hs_ge1 m y ltac:(lra)) as [G0 _]. apply Rmult_lt_0_compat; lra. }
    set (p := kk (K0h (val x)) y n) in *. clearbody p.
    set (K := K_half n (val x)) in *. set (K' := K_half (S n) (val x)) in *.
    assert (KL : bpow radix2 (-1001) <= K). { rewrite <- KE. unfold kk. destruct (hs_ge1 n y ltac:(lra)) as [G0 _]. replace (bpow radix2 (-1001)) with (bpow radix2 (-1001) * 1) by ring. apply Rmult_le_compat; lra. }
    clearbody K K'. change (/ val x) with y in Mxi. unfold Rdiv at 1 in Ed. change (/ val x) with y in Ed. clearbody y.
    set (T := (INR n + 1 / 2) * y) in *.
    assert (TR : / 1380 <= T <= 2 ^ 32). { unfold T. split; [replace (/ 1380) with (1 / 2 * / 690) by lra; apply Rmult_le_compat; lra|].
      apply Rle_trans with (4294967297 * (1 / 2)); [apply Rmult_le_compat; lra|lra]. }
    assert (ST' : K' = 2 * (T * K) + p) by (rewrite ST; unfold T; field).
    assert (ED : d = - (T * K + p)) by (rewrite Ed, ST'; unfold T; field).
    assert (TK : 0 < T * K) by (apply Rmult_lt_0_compat; lra).
    assert (TK1 : bpow radix2 (-1020) <= T * K <= bpow radix2 1010).
    { split; [|rewrite ST in HB; replace ((2 * INR n + 1) * y * K) with (2 * (T * K)) in HB by (unfold T; field); lra].
      replace (bpow radix2 (-1020)) with (bpow radix2 (-19) * bpow radix2 (-1001)) by (rewrite <- bpow_plus; reflexivity). apply Rmult_le_compat; try apply bpow_ge_0; [simpl; lra|exact KL]. }
    assert (BB : bpow radix2 (-1022) * 4 = bpow radix2 (-1020)) by (change 4 with (bpow radix2 2); rewrite <- bpow_plus; reflexivity).
    assert (BC : bpow radix2 1023 = 8192 * bpow radix2 1010) by (change 8192 with (bpow radix2 13); rewrite <- bpow_plus; reflexivity).
    assert (BD : bpow radix2 (-1022) <= / 2 ^ 20) by (apply Rle_trans with (bpow radix2 (-20)); [apply bpow_le; lia|simpl; lra]).
    assert (BE : 2 ^ 40 <= bpow radix2 1010) by (apply Rle_trans with (bpow radix2 40); [simpl; lra|apply bpow_le; lia]).
    pose proof (bpow_gt_0 radix2 1010) as B1. pose proof (bpow_gt_0 radix2 (-1022)) as B2.
    assert (HEn : hE (S n) = hE n + 5 * vv) by (unfold hE; rewrite S_INR; ring).
    assert (HE : 0 <= hE n <= 1 / 10 ^ 5) by (unfold hE, vv; lra).
    assert (HF : hE n = 3 / 10 ^ 15 + 5 * vv * INR n) by reflexivity.
    set (e := hE n) in *. clearbody e. rewrite HEn in Mk1. clear HEn.
    (* nu * xi *)
    assert (M1 : mr vv (val nu * val xi) T) by (unfold T; rewrite Vu; apply mr_scale_l, Mxi).
    pose proof (mrn _ _ _ M1 ltac:(unfold vv; lra) ltac:(lra)) as N1.
    destruct (mul_mr P nu xi Fu Fxi) as [F2 M2]; [rewrite Rabs_pos_eq; lra|].
    pose proof (mr_trans _ _ _ _ _ M2 M1) as M3. set (t := mul nu xi) in *. clearbody t.
    pose proof (mr_mul _ _ _ _ _ _ M3 Mk) as M4.
    pose proof (mrn _ _ _ M4 ltac:(unfold vv; lra) TK) as N4.
    destruct (mul_mr P t k F2 Fk) as [F5 M5]; [rewrite Rabs_pos_eq; lra|].
    pose proof (mr_trans _ _ _ _ _ M5 M4) as M6. set (g := mul t k) in *. clearbody g.
    rewrite ST' in Mk1. set (A := T * K) in *. clearbody A.
    assert (c1 : Rabs (val g - A) <= (10001 / 10000 * e + 5 * vv) * A).
    { apply mr_abs in M6; [|unfold vv; lra]. rewrite (Rabs_pos_eq A) in M6 by lra. eapply Rle_trans; [exact M6|]. apply Rmult_le_compat_r; [lra|].
      match goal with |- ?t + 2 * (?t * ?t) <= _ => assert (t * t <= 2 / 10 ^ 5 * t) by (apply Rmult_le_compat_r; unfold vv; lra) end. unfold vv in *. lra. }
    assert (c2 : Rabs (val k1 - (2 * A + p)) <= (10001 / 10000 * e + 6 * vv) * (2 * A + p)).
    { apply mr_abs in Mk1; [|unfold vv; lra]. rewrite (Rabs_pos_eq (2 * A + p)) in Mk1 by lra. eapply Rle_trans; [exact Mk1|]. apply Rmult_le_compat_r; [lra|].
      match goal with |- ?t + 2 * (?t * ?t) <= _ => assert (t * t <= 2 / 10 ^ 5 * t) by (apply Rmult_le_compat_r; unfold vv; lra) end. unfold vv in *. lra. }
    apply Rabs_le_inv in c1. apply Rabs_le_inv in c2.
    assert (eA : 0 <= e * A <= 1 / 10 ^ 5 * A) by (split; [apply Rmult_le_pos; lra|apply Rmult_le_compat_r; lra]).
    assert (ep : 0 <= e * p <= 1 / 10 ^ 5 * p) by (split; [apply Rmult_le_pos; lra|apply Rmult_le_compat_r; lra]).
    assert (W : 99 / 100 * (A + p) <= val k1 - val g <= 101 / 100 * (A + p)) by (unfold vv in *; lra).
    assert (AB : Rabs (val g - val k1) = val k1 - val g) by (rewrite Rabs_left; lra).
    assert (R7 : rounds (sub g k1) (val g - val k1)) by (rewrite (val_fin g F5), (val_fin k1 Fk1); apply sub_spec; assumption).
    destruct (rnd_mr _ _ R7) as [F7 M7]; [rewrite AB; lra|].
    set (s := sub g k1) in *. clearbody s. split; [exact F7|]. split; [lra|].
    apply mr_abs in M7; [|unfold vv; lra]. rewrite AB in M7. apply Rabs_le_inv in M7.
    rewrite ED, Rabs_Ropp, (Rabs_pos_eq (A + p)) by lra.
    assert (Z0 : Rabs (val s - - (A + p)) <= (30003 / 10000 * e + 20 * vv) * (A + p)) by (apply Rabs_le; unfold vv in *; lra).
    eapply Rle_trans; [exact Z0|]. apply Rmult_le_compat_r; [lra|]. rewrite HF. unfold vv. lra.
  Qed.
End Rec.

Theorem Inu_Knu_half : forall (P : platform) (n : nat) (nu x i k : f64), accurate_exp (p_exp P) -> (Z.of_nat n < 2 ^ 32)%Z -> number nu -> val nu = INR n + 1 / 2 ->
  number x -> 2 <= val x <= 690 -> K_half n (val x) <= bpow radix2 1010 -> @Inu_Knu (ieee P) nu x = Ok (i, k) ->
  finite k /\ Rabs (val k - K_half n (val x)) <= (4 / 10 ^ 15 + INR n / 10 ^ 15) * K_half n (val x).
Proof.
  intros P n nu x i k EX Hn Nu Vu Nx Hx HB E. unfold Inu_Knu in E.
  destruct (besselik_half P EX n nu x Hn Nu Vu Nx Hx HB) as [Q|(i0 & k0 & i' & k' & Q & F & A)]; rewrite Q in E; cbn [bind] in E; [discriminate|].
  injection E as _ <-. split; assumption.
Qed.

(** an order and an argument for which the call returns *)
Lemma ex_half : forall P : platform, number (f64_lit 2.5) /\ val (f64_lit 2.5) = INR 2 + 1 / 2 /\ number (f64_lit 3.0) /\ 2 <= val (f64_lit 3.0) <= 690
  /\ K_half 2 (val (f64_lit 3.0)) <= bpow radix2 1010 /\ exists r, @besselik (ieee P) (f64_lit 2.5) (f64_lit 3.0) = Ok r.
Proof.
  intros P. lit_facts 2.5%dec 5%Z 1%Z F1 V1. lit_facts 3.0%dec 3%Z 0%Z F3 V3. split; [apply fin_nonnan, F1|]. split; [rewrite V1; simpl; lra|].
  split; [apply fin_nonnan, F3|]. rewrite V3. replace (3 / 1) with 3 by lra. split; [lra|]. split.
  - destruct (K0h_rng 3 ltac:(lra)) as [[K0 K1] _]. change (K_half 2 3) with (K0h 3 * hs 2 (/ 3)). rewrite hs_step, hs_0, hs_1. simpl INR.
    apply Rle_trans with (bpow radix2 3); [|apply bpow_le; lia]. simpl (bpow radix2 3).
    pose proof (bpow_gt_0 radix2 (-1001)). assert (K0h 3 * (1 + (2 * 0 + 3) * / 3 * (1 + / 3)) <= 1 * (1 + (2 * 0 + 3) * / 3 * (1 + / 3))) by (apply Rmult_le_compat_r; lra). lra.
  - assert (Q : match @besselik (ieee P) (f64_lit 2.5) (f64_lit 3.0) with Ok _ => true | _ => false end = true) by (vm_compute; reflexivity).
    destruct (@besselik (ieee P) (f64_lit 2.5) (f64_lit 3.0)) ; [eexists; reflexivity|discriminate|discriminate].
Qed.

Lemma ex_half_deriv : forall P : platform, number (f64_lit 1.5) /\ val (f64_lit 1.5) = INR 1 + 1 / 2 /\ number (f64_lit 3.0) /\ 2 <= val (f64_lit 3.0) <= 690
  /\ K_half 2 (val (f64_lit 3.0)) <= bpow radix2 1010 /\ (exists d, derivable_pt_lim (K_half 1) (val (f64_lit 3.0)) d)
  /\ exists r, @besselik (ieee P) (f64_lit 1.5) (f64_lit 3.0) = Ok r.
Proof.
  intros P. destruct (ex_half P) as (_ & _ & A & B & C & _). lit_facts 1.5%dec 3%Z 1%Z F1 V1.
  split; [apply fin_nonnan, F1|]. split; [rewrite V1; simpl; lra|]. split; [exact A|]. split; [exact B|]. split; [exact C|].
  split; [eexists; apply K_half_deriv; lra|].
  assert (Q : match @besselik (ieee P) (f64_lit 1.5) (f64_lit 3.0) with Ok _ => true | _ => false end = true) by (vm_compute; reflexivity).
  destruct (@besselik (ieee P) (f64_lit 1.5) (f64_lit 3.0)) ; [eexists; reflexivity|discriminate|discriminate].
Qed.
