(** * Accuracy of ln_gamma *)

From Coq Require Import ZArith Reals Bool Lra Lia List.
From Flocq Require Import Core IEEE754.BinarySingleNaN IEEE754.Binary IEEE754.Bits.
From Verif.Model Require Import Base Arith Utils Gamma.
From Verif.Float Require Import Bits64 Ieee Exact.
From Verif.Spec Require Import F64Spec Outcome GammaSpec.
From Verif.Proofs Require Import F64 F64Ops Lits Ext Poly PolyZ ExpBounds PiBounds Stirling GammaPoly GammaAcc StirlingConst Lanczos FlErr.
Import ListNotations.
Open Scope R_scope.
Local Notation exp := Rtrigo_def.exp.
Local Notation ln := Rpower.ln.

(** ** Facts about the exact sum *)

Definition ti (i : nat) (x : R) : R := lcf i / (x + INR i - 1).
Definition TT (x : R) : R := 1 + (Rabs (ti 1 x) + Rabs (ti 2 x) + Rabs (ti 3 x) + Rabs (ti 4 x) + Rabs (ti 5 x) + Rabs (ti 6 x)).

Lemma AL_ti : forall x, AL x = lcf 0 + (ti 1 x + ti 2 x + ti 3 x + ti 4 x + ti 5 x + ti 6 x).
Proof.
  intros x. unfold AL, ti. simpl INR.
  replace (x + 1 - 1) with x by ring. replace (x + (1 + 1) - 1) with (x + 1) by ring. replace (x + (1 + 1 + 1) - 1) with (x + 2) by ring.
  replace (x + (1 + 1 + 1 + 1) - 1) with (x + 3) by ring. replace (x + (1 + 1 + 1 + 1 + 1) - 1) with (x + 4) by ring.
  replace (x + (1 + 1 + 1 + 1 + 1 + 1) - 1) with (x + 5) by ring. ring.
Qed.
Definition px6 : list Z := [0; 120; 274; 225; 85; 15; 1]%Z.
Lemma px6_ok : forall x, peval px6 x = x6 x.
Proof. intros x. unfold x6, px6, peval. cbn [fold_right]. ring. Qed.
Lemma AL_ge_1 : forall x, 0 < x -> 1 <= AL x.
Proof.
  intros x Hx. pose proof (NL_AL x Hx) as N.
  assert (X : 0 < x6 x) by (unfold x6; repeat apply Rmult_lt_0_compat; lra). assert (S : 0 < IZR SC) by (apply IZR_lt; reflexivity).
  pose proof (peval_nonneg (padd NL (pscale (- SC) px6)) x ltac:(lra) eq_refl) as Q.
  rewrite peval_padd, peval_pscale, px6_ok, opp_IZR, N in Q.
  apply Rmult_le_reg_l with (IZR SC * x6 x); [apply Rmult_lt_0_compat; assumption|]. lra.
Qed.
(** the sum of the absolute values, as a polynomial *)
Definition NA : list Z := Eval vm_compute in
  let m := fold_right (fun k a => pmul [k; 1]%Z a) [1]%Z in let c := fun i => Z.abs (nth i lc 0%Z) in
  fold_right padd [] [pscale SC (m [0; 1; 2; 3; 4; 5]%Z); pscale (c 1%nat) (m [1; 2; 3; 4; 5]%Z); pscale (c 2%nat) (m [0; 2; 3; 4; 5]%Z);
    pscale (c 3%nat) (m [0; 1; 3; 4; 5]%Z); pscale (c 4%nat) (m [0; 1; 2; 4; 5]%Z); pscale (c 5%nat) (m [0; 1; 2; 3; 5]%Z);
    pscale (c 6%nat) (m [0; 1; 2; 3; 4]%Z)].
Lemma ti_abs : forall i x, 0 < x -> (1 <= i)%nat -> Rabs (ti i x) = IZR (Z.abs (nth i lc 0%Z)) / IZR SC / (x + INR i - 1).
Proof.
  intros i x Hx Hi. unfold ti, lcf. assert (1 <= INR i) by (apply (le_INR 1); exact Hi). assert (S : 0 < IZR SC) by (apply IZR_lt; reflexivity).
  unfold Rdiv. rewrite !Rabs_mult, abs_IZR, (Rabs_pos_eq (/ IZR SC)), (Rabs_pos_eq (/ (_ - _))); [reflexivity| |]; left; apply Rinv_0_lt_compat; lra.
Qed.
Lemma NA_TT : forall x, 0 < x -> peval NA x = IZR SC * (x6 x * TT x).
Proof.
  intros x Hx. unfold TT. rewrite !ti_abs by (try lia; lra). simpl INR.
  unfold x6, SC, NA, peval. cbn [fold_right nth lc Z.abs]. change (IZR (10 ^ 20)) with 100000000000000000000.
  field. repeat split; lra.
Qed.
Lemma TT_AL : forall x, 0 < x -> TT x <= 10 * AL x.
Proof.
  intros x Hx. pose proof (NL_AL x Hx) as N. pose proof (NA_TT x Hx) as M.
  assert (X : 0 < x6 x) by (unfold x6; repeat apply Rmult_lt_0_compat; lra). assert (S : 0 < IZR SC) by (apply IZR_lt; reflexivity).
  pose proof (peval_nonneg (padd (pscale 10 NL) (pscale (- 1) NA)) x ltac:(lra) eq_refl) as Q.
  rewrite peval_padd, !peval_pscale, M, N in Q.
  apply Rmult_le_reg_l with (IZR SC * x6 x); [apply Rmult_lt_0_compat; assumption|]. lra.
Qed.
Lemma TT_ge_1 : forall x, 1 <= TT x.
Proof. intros x. unfold TT. pose proof (Rabs_pos (ti 1 x)). pose proof (Rabs_pos (ti 2 x)). pose proof (Rabs_pos (ti 3 x)). pose proof (Rabs_pos (ti 4 x)). pose proof (Rabs_pos (ti 5 x)). pose proof (Rabs_pos (ti 6 x)). lra. Qed.
Lemma TT_le : forall x, bpow radix2 (-41) <= x -> TT x <= bpow radix2 50.
Proof.
  intros x Hx. pose proof (bpow_gt_0 radix2 (-41)) as B.
  assert (I : / x <= bpow radix2 41) by (replace (bpow radix2 41) with (/ bpow radix2 (-41)) by (rewrite <- bpow_opp; reflexivity); apply Rinv_le_contravar; assumption).
  assert (IP : 0 < / x) by (apply Rinv_0_lt_compat; lra).
  assert (H : forall i, (1 <= i)%nat -> Rabs (ti i x) <= IZR (Z.abs (nth i lc 0%Z)) / IZR SC * / x).
  { intros i Hi. rewrite ti_abs by (try assumption; lra). apply Rmult_le_compat_l.
    - apply Rmult_le_pos; [apply IZR_le; lia|left; apply Rinv_0_lt_compat, IZR_lt; reflexivity].
    - apply Rinv_le_contravar; [lra|]. assert (1 <= INR i) by (apply (le_INR 1); exact Hi). lra. }
  unfold TT. pose proof (H 1%nat ltac:(lia)) as H1. pose proof (H 2%nat ltac:(lia)) as H2. pose proof (H 3%nat ltac:(lia)) as H3. pose proof (H 4%nat ltac:(lia)) as H4. pose proof (H 5%nat ltac:(lia)) as H5. pose proof (H 6%nat ltac:(lia)) as H6.
  cbn [nth lc Z.abs] in *. change (IZR SC) with 100000000000000000000 in *.
  change (bpow radix2 41) with 2199023255552 in *. change (bpow radix2 50) with 1125899906842624. lra.
Qed.

Lemma bpow_le_1000 : forall x k, (k <= 1000)%Z -> x <= bpow radix2 k -> x <= bpow radix2 1000.
Proof. intros x k Hk H. eapply Rle_trans; [exact H|apply bpow_le, Hk]. Qed.

(** ** The computed sum *)

Section LG.
  Context (P : platform).
  Notation add := (f64_add P). Notation sub := (f64_sub P).
  Notation mul := (f64_mul P). Notation div := (f64_div P).

  Variable z : f64.
  Hypothesis Fz : fin z.
  Let y : R := val z + 1.
  Hypothesis Hy : bpow radix2 (-41) <= y <= bpow radix2 901.

  Lemma y_pos : 0 < y.
  Proof. pose proof (bpow_gt_0 radix2 (-41)). lra. Qed.

  Lemma den_ok : forall i, (1 <= i <= 6)%Z -> fin (add z (f64_of_Z i)) /\ mr vv (val (add z (f64_of_Z i))) (y + IZR i - 1).
  Proof.
    intros i Hi. destruct (of_Z_exact i ltac:(lia)) as [Fi Vi]. rewrite <- (val_fin _ Fi) in Vi.
    pose proof (add_spec P z (f64_of_Z i) Fz Fi) as R. rewrite <- (val_fin z Fz), <- (val_fin _ Fi), Vi in R.
    replace (val z + IZR i) with (y + IZR i - 1) in R by (unfold y; ring).
    apply rnd_mr; [exact R|]. destruct Hi as [I1 I2]. apply IZR_le in I1, I2. pose proof y_pos. rewrite Rabs_pos_eq by lra. split.
    - apply Rle_trans with (bpow radix2 (-41)); [apply bpow_le; lia|lra].
    - apply Rle_trans with (2 * bpow radix2 901); [|change 2 with (bpow radix2 1); rewrite <- bpow_plus; apply bpow_le; lia].
      assert (bpow radix2 3 <= bpow radix2 901) by (apply bpow_le; lia). simpl (bpow radix2 3) in *. lra.
  Qed.

  Lemma term_ok : forall c i, (1 <= i <= 6)%Z -> bpow radix2 (-20) <= Rabs (R_of_dec c) <= bpow radix2 7 ->
    let q := div (f64_lit c) (add z (f64_of_Z i)) in
    fin q /\ Rabs (val q - R_of_dec c / (y + IZR i - 1)) <= 4 / 10 ^ 16 * Rabs (R_of_dec c / (y + IZR i - 1)).
  Proof.
    intros c i Hi Hc q. destruct (den_ok i Hi) as [Fd Md]. set (d := add z (f64_of_Z i)) in *.
    destruct (rnd_mr _ _ (lit_spec c)) as [Fc Mc]; [split; [apply Rle_trans with (bpow radix2 (-20)); [apply bpow_le; lia|apply Hc]|apply Rle_trans with (bpow radix2 7); [apply Hc|apply bpow_le; lia]]|].
    pose proof y_pos as YP. assert (Hi' : 1 <= IZR i <= 6) by (split; apply IZR_le; lia).
    set (D := y + IZR i - 1) in *. assert (D0 : bpow radix2 (-41) <= D <= bpow radix2 902).
    { unfold D. split; [lra|]. replace (bpow radix2 902) with (2 * bpow radix2 901) by (change 2 with (bpow radix2 1); rewrite <- bpow_plus; reflexivity).
      assert (bpow radix2 3 <= bpow radix2 901) by (apply bpow_le; lia). simpl (bpow radix2 3) in *. lra. }
    assert (DP : 0 < D) by (pose proof (bpow_gt_0 radix2 (-41)); lra).
    assert (V : 0 <= vv <= 1 / 2) by (unfold vv; lra).
    pose proof (mr_le _ _ _ V Md) as Ld. rewrite (Rabs_pos_eq D) in Ld by lra.
    assert (dn : val d <> 0) by (intros E; rewrite E, Rabs_R0 in Ld; lra).
    assert (M2 : mr (vv + vv) (val (f64_lit c) / val d) (R_of_dec c / D)) by (apply mr_mul; [exact Mc|apply mr_inv; [lra|exact Md]]).
    assert (V2 : 0 <= vv + vv <= 1 / 2) by (unfold vv; lra).
    pose proof (mr_le _ _ _ V2 M2) as L2.
    assert (C0 : Rabs (R_of_dec c / D) = Rabs (R_of_dec c) * / D) by (unfold Rdiv; rewrite Rabs_mult, (Rabs_pos_eq (/ D)) by (left; apply Rinv_0_lt_compat, DP); reflexivity).
    assert (C1 : bpow radix2 (-922) <= Rabs (R_of_dec c / D) <= bpow radix2 48).
    { rewrite C0. split.
      - replace (bpow radix2 (-922)) with (bpow radix2 (-20) * / bpow radix2 902) by (rewrite <- bpow_opp, <- bpow_plus; reflexivity).
        apply Rmult_le_compat; [apply bpow_ge_0|left; apply Rinv_0_lt_compat, bpow_gt_0|apply Hc|apply Rinv_le_contravar; lra].
      - replace (bpow radix2 48) with (bpow radix2 7 * / bpow radix2 (-41)) by (rewrite <- bpow_opp, <- bpow_plus; reflexivity).
        apply Rmult_le_compat; [apply Rabs_pos|left; apply Rinv_0_lt_compat, DP|apply Hc|apply Rinv_le_contravar; [apply bpow_gt_0|lra]]. }
    pose proof (div_spec P (f64_lit c) d Fc Fd ltac:(rewrite <- (val_fin d Fd); exact dn)) as R. rewrite <- (val_fin _ Fc), <- (val_fin d Fd) in R.
    destruct (rnd_mr _ _ R) as [Fq Mq].
    { split.
      - apply Rle_trans with (bpow radix2 (-922) / 2); [|lra]. replace (bpow radix2 (-922) / 2) with (bpow radix2 (-923)); [apply bpow_le; lia|].
        change (-922)%Z with (-923 + 1)%Z. rewrite bpow_plus. change (bpow radix2 1) with 2. lra.
      - apply Rle_trans with (bpow radix2 49); [|apply bpow_le; lia]. change (bpow radix2 49) with (2 * bpow radix2 48). lra. }
    split; [exact Fq|]. fold q in Mq. pose proof (mr_trans _ _ _ _ _ Mq M2) as M3.
    eapply Rle_trans; [apply (mr_abs (vv + (vv + vv))); [unfold vv; lra|exact M3]|]. apply Rmult_le_compat_r; [apply Rabs_pos|]. unfold vv. lra.
  Qed.

  (** one addition *)
  Lemma sum_ok : forall s q a t T e, fin s -> fin q -> 1 <= T <= bpow radix2 50 -> 0 <= e <= 1 ->
    Rabs (val s - a) <= e / 10 ^ 13 * T -> Rabs (val q - t) <= 4 / 10 ^ 16 * Rabs t -> Rabs t <= T -> Rabs (a + t) <= T ->
    fin (add s q) /\ Rabs (val (add s q) - (a + t)) <= (e + 1 / 100) / 10 ^ 13 * T.
  Proof.
    intros s q a t T e Fs Fq HT He Hs Hq Ht Hat.
    assert (E1 : e / 10 ^ 13 * T <= 1 / 10 ^ 13 * T) by (apply Rmult_le_compat_r; lra).
    assert (B : Rabs (val s + val q) <= 2 * T).
    { replace (val s + val q) with ((a + t) + ((val s - a) + (val q - t))) by ring. eapply Rle_trans; [apply Rabs_triang|].
      pose proof (Rabs_triang (val s - a) (val q - t)). lra. }
    destruct (add_fl P s q Fs Fq) as [F E].
    { apply (bpow_le_1000 _ 51); [lia|]. change (bpow radix2 51) with (2 * bpow radix2 50). lra. }
    split; [exact F|]. replace (val (add s q) - (a + t)) with ((val (add s q) - (val s + val q)) + ((val s - a) + (val q - t))) by ring.
    eapply Rle_trans; [apply Rabs_triang|]. pose proof (Rabs_triang (val s - a) (val q - t)). pose proof eta_small. unfold uu in E.
    assert (/ 10 ^ 100 <= / 10 ^ 20) by (apply Rinv_le_contravar; [apply pow_lt; lra|apply Rle_pow; [lra|lia]]).
    lra.
  Qed.

  Lemma sum_last : forall s q a t T A, fin s -> fin q -> 1 <= T <= bpow radix2 50 ->
    Rabs (val s - a) <= (6 / 100) / 10 ^ 13 * T -> Rabs (val q - t) <= 4 / 10 ^ 16 * Rabs t -> 1 <= t <= 2 -> Rabs a <= T ->
    A = a + t -> T <= 10 * A -> 1 <= A ->
    fin (add s q) /\ Rabs (val (add s q) - A) <= / 10 ^ 12 * A.
  Proof.
    intros s q a t T A Fs Fq HT Hs Hq Ht Ha -> TA AG. rewrite (Rabs_pos_eq t) in Hq by lra.
    pose proof (Rabs_triang a t) as A7. rewrite (Rabs_pos_eq t) in A7 by lra. rewrite (Rabs_pos_eq (a + t)) in A7 by lra.
    assert (B : Rabs (val s + val q) <= a + t + 1 / 10 ^ 13 * T).
    { replace (val s + val q) with ((a + t) + ((val s - a) + (val q - t))) by ring. eapply Rle_trans; [apply Rabs_triang|].
      pose proof (Rabs_triang (val s - a) (val q - t)). rewrite (Rabs_pos_eq (a + t)) by lra. lra. }
    destruct (add_fl P s q Fs Fq) as [F E].
    { apply (bpow_le_1000 _ 52); [lia|]. change (bpow radix2 52) with 4503599627370496; change (bpow radix2 50) with 1125899906842624 in HT. lra. }
    split; [exact F|]. replace (val (add s q) - (a + t)) with ((val (add s q) - (val s + val q)) + ((val s - a) + (val q - t))) by ring.
    eapply Rle_trans; [apply Rabs_triang|]. pose proof (Rabs_triang (val s - a) (val q - t)). pose proof eta_small. unfold uu in E.
    assert (/ 10 ^ 100 <= / 10 ^ 20) by (apply Rinv_le_contravar; [apply pow_lt; lra|apply Rle_pow; [lra|lia]]).
    lra.
  Qed.

  Definition cdec (i : nat) : dec := nth i LG5N7 (Dec 0 0).
  Lemma cdec_ok : forall i, (i <= 6)%nat -> R_of_dec (cdec i) = lcf i.
  Proof.
    intros i Hi. unfold lcf, SC. change (IZR (10 ^ 20)) with 100000000000000000000.
    destruct i as [|[|[|[|[|[|[|]]]]]]]; try lia; cbn [cdec nth LG5N7 lc]; unfold R_of_dec; cbn [dman dexp]; simpl powerRZ; lra.
  Qed.

  Lemma lanczos_ok : let s := add (@lanczos_sum (ieee P) z) (f64_lit (cdec 0)) in
    fin s /\ Rabs (val s - AL y) <= / 10 ^ 12 * AL y.
  Proof.
    pose proof y_pos as YP. pose proof (TT_le y ltac:(lra)) as T2. pose proof (TT_ge_1 y) as T1.
    assert (HT : 1 <= TT y <= bpow radix2 50) by lra.
    assert (C : forall i, (1 <= i <= 6)%nat -> let q := div (f64_lit (cdec i)) (add z (f64_of_Z (Z.of_nat i))) in
      fin q /\ Rabs (val q - ti i y) <= 4 / 10 ^ 16 * Rabs (ti i y)).
    { intros i Hi. pose proof (term_ok (cdec i) (Z.of_nat i) ltac:(lia)) as H. rewrite cdec_ok, <- INR_IZR_INZ in H by lia. apply H.
      change (bpow radix2 7) with 128. replace (bpow radix2 (-20)) with (/ 1048576) by (simpl; lra). unfold lcf, SC. change (IZR (10 ^ 20)) with 100000000000000000000.
      destruct i as [|[|[|[|[|[|[|]]]]]]]; try lia; cbn [nth lc]; (rewrite Rabs_pos_eq by lra) || (rewrite Rabs_left by lra); lra. }
    pose proof (Rabs_pos (ti 1 y)) as P1. pose proof (Rabs_pos (ti 2 y)) as P2. pose proof (Rabs_pos (ti 3 y)) as P3.
    pose proof (Rabs_pos (ti 4 y)) as P4. pose proof (Rabs_pos (ti 5 y)) as P5. pose proof (Rabs_pos (ti 6 y)) as P6.
    assert (TE : TT y = 1 + (Rabs (ti 1 y) + Rabs (ti 2 y) + Rabs (ti 3 y) + Rabs (ti 4 y) + Rabs (ti 5 y) + Rabs (ti 6 y))) by reflexivity.
    set (T := TT y) in *.
    assert (A1 : Rabs (0 + ti 1 y) <= Rabs (ti 1 y)) by (rewrite Rplus_0_l; lra).
    pose proof (Rabs_triang (0 + ti 1 y) (ti 2 y)) as A2. pose proof (Rabs_triang (0 + ti 1 y + ti 2 y) (ti 3 y)) as A3.
    pose proof (Rabs_triang (0 + ti 1 y + ti 2 y + ti 3 y) (ti 4 y)) as A4. pose proof (Rabs_triang (0 + ti 1 y + ti 2 y + ti 3 y + ti 4 y) (ti 5 y)) as A5.
    pose proof (Rabs_triang (0 + ti 1 y + ti 2 y + ti 3 y + ti 4 y + ti 5 y) (ti 6 y)) as A6.
    destruct (C 1%nat ltac:(lia)) as [F1 E1]. destruct (C 2%nat ltac:(lia)) as [F2 E2]. destruct (C 3%nat ltac:(lia)) as [F3 E3].
    destruct (C 4%nat ltac:(lia)) as [F4 E4]. destruct (C 5%nat ltac:(lia)) as [F5 E5]. destruct (C 6%nat ltac:(lia)) as [F6 E6]. clear C.
    intros s. unfold s, lanczos_sum. change (combine (range 1 7) (tl LG5N7)) with [(1%Z, cdec 1); (2%Z, cdec 2); (3%Z, cdec 3); (4%Z, cdec 4); (5%Z, cdec 5); (6%Z, cdec 6)].
    cbn [fold_left fst snd]. ieee_simpl. clear s.
    destruct (sum_ok (f64_lit 0.0) _ 0 _ T 0 eq_refl F1 HT ltac:(lra) ltac:(rewrite val_0, Rminus_0_r, Rabs_R0; lra) E1 ltac:(lra) ltac:(lra)) as [G1 D1].
    destruct (sum_ok _ _ _ _ T (0 + 1 / 100) G1 F2 HT ltac:(lra) D1 E2 ltac:(lra) ltac:(lra)) as [G2 D2].
    destruct (sum_ok _ _ _ _ T ((0 + 1 / 100) + 1 / 100) G2 F3 HT ltac:(lra) D2 E3 ltac:(lra) ltac:(lra)) as [G3 D3].
    destruct (sum_ok _ _ _ _ T (((0 + 1 / 100) + 1 / 100) + 1 / 100) G3 F4 HT ltac:(lra) D3 E4 ltac:(lra) ltac:(lra)) as [G4 D4].
    destruct (sum_ok _ _ _ _ T ((((0 + 1 / 100) + 1 / 100) + 1 / 100) + 1 / 100) G4 F5 HT ltac:(lra) D4 E5 ltac:(lra) ltac:(lra)) as [G5 D5].
    destruct (sum_ok _ _ _ _ T (((((0 + 1 / 100) + 1 / 100) + 1 / 100) + 1 / 100) + 1 / 100) G5 F6 HT ltac:(lra) D5 E6 ltac:(lra) ltac:(lra)) as [G6 D6].
    assert (L0 : Rabs (R_of_dec (cdec 0)) <= 2).
    { rewrite cdec_ok by lia. unfold lcf, SC. change (IZR (10 ^ 20)) with 100000000000000000000. cbn [nth lc]. rewrite Rabs_pos_eq; lra. }
    destruct (lit_fl (cdec 0)) as [F0 E0]; [apply (bpow_le_1000 _ 1); [lia|exact L0]|].
    rewrite cdec_ok in E0, L0 by lia. assert (LP : 1 <= lcf 0 <= 1 + 1 / 10 ^ 9) by (unfold lcf, SC; change (IZR (10 ^ 20)) with 100000000000000000000; cbn [nth lc]; lra).
    assert (E0' : Rabs (val (f64_lit (cdec 0)) - lcf 0) <= 4 / 10 ^ 16 * Rabs (lcf 0)).
    { eapply Rle_trans; [exact E0|]. rewrite (Rabs_pos_eq (lcf 0)) by lra. pose proof eta_small. unfold uu.
      assert (/ 10 ^ 100 <= / 10 ^ 20) by (apply Rinv_le_contravar; [apply pow_lt; lra|apply Rle_pow; [lra|lia]]). lra. }
    set (a6 := 0 + ti 1 y + ti 2 y + ti 3 y + ti 4 y + ti 5 y + ti 6 y) in *.
    pose proof (TT_AL y YP) as TA. fold T in TA. pose proof (AL_ge_1 y YP) as AG. pose proof (AL_ti y) as AE.
    assert (AE' : AL y = a6 + lcf 0) by (rewrite AE; unfold a6; ring).
    pose proof (Rabs_triang a6 (lcf 0)) as A7. rewrite (Rabs_pos_eq (lcf 0)) in A7 by lra.
    apply (sum_last _ _ a6 (lcf 0) T); try assumption; try lra. eapply Rle_trans; [exact D6|lra].
  Qed.
End LG.
