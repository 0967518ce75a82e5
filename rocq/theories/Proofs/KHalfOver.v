(** * besselik at half-integer orders so large that K overflows *)

From Coq Require Import ZArith Reals Bool Lra Lia List String.
From Flocq Require Import Core IEEE754.BinarySingleNaN IEEE754.Binary IEEE754.Bits.
From Verif.Model Require Import Base Arith BesselTables Bessel.
From Verif.Float Require Import Bits64 Ieee Exact Platforms.
From Verif.Spec Require Import F64Spec Outcome LibmSpec KHalfSpec.
From Verif.Proofs Require Import F64 F64Ops Lits Ext ExpBounds FlErr GammaAcc GserAcc PosHorner KnAcc KPoly KLarge DawsonNeg DawsonLarge ErfcxAcc NuPanic KHalfRec KHalf KHalfThms.
Import ListNotations.
Open Scope R_scope.
Local Notation B := Binary.B2R.

Section Over.
  Context (P : platform).
  Local Notation add := (f64_add P). Local Notation mul := (f64_mul P). Local Notation sub := (f64_sub P). Local Notation div := (f64_div P).

  Lemma Om_bpow : Om = bpow radix2 1024. Proof. reflexivity. Qed.

  Lemma mul_fin_inf : forall w, fin w -> 0 < val w -> mul w (B754_infinity false) = B754_infinity false.
  Proof.
    intros [s|s|s pl H|s m e H] F V; try discriminate; [exfalso; simpl in V; lra|].
    destruct s; [|reflexivity]. exfalso. rewrite val_fin in V by reflexivity. cbn in V.
    assert (F2R (Float radix2 (Zneg m) e) < 0) by (apply F2R_lt_0; reflexivity). cbn in H0. lra.
  Qed.

  Lemma mul_ge : forall w z k, fin w -> 2 <= val w -> positive z -> (-1022 <= k <= 1024)%Z -> bpow radix2 k <= val z ->
    positive (mul w z) /\ bpow radix2 (Z.min 1024 (k + 1)) <= val (mul w z).
  Proof.
    intros w z k Fw Hw [Nz Vz] Hk Hz.
    assert (Q : number (mul w z) /\ bpow radix2 (Z.min 1024 (k + 1)) <= val (mul w z)).
    { destruct (fin_or_inf z Nz) as [Fz|[s ->]].
      - destruct (mul_spec P w z Fw Fz) as [N V]. rewrite <- !val_fin in V by assumption. split; [exact N|]. rewrite V.
        apply rs_ge; [apply fmt_bpow; lia|rewrite Om_bpow; apply bpow_le; lia|].
        apply Rle_trans with (bpow radix2 (1 + k)); [apply bpow_le; lia|]. rewrite bpow_plus. change (bpow radix2 1) with 2. apply Rmult_le_compat; try lra. apply bpow_ge_0.
      - assert (s = false) by (apply inf_nonneg; lra). subst s. rewrite mul_fin_inf by (try assumption; lra). split; [reflexivity|].
        rewrite val_inf_f, Om_bpow. apply bpow_le. lia. }
    destruct Q as [N V]. split; [split; [exact N|]|exact V]. pose proof (bpow_gt_0 radix2 (Z.min 1024 (k + 1))). lra.
  Qed.

  Section Steps.
    Variables (xmu xi2 : f64).
    Hypotheses (Fm : fin xmu) (Vm : B xmu = - (1 / 2)) (Fxi : fin xi2) (Vxi : 289 / 100000 <= val xi2 <= 11 / 10).

    Local Notation stp := (fun (s : f64 * f64) (i : Z) => (snd s, add (mul (mul (add xmu (f64_of_Z i)) xi2) (snd s)) (fst s))).

    Lemma fac : forall j, (Z.of_nat j < 2 ^ 32)%Z -> let t := mul (add xmu (f64_of_Z (Z.of_nat j + 1))) xi2 in
      fin t /\ 0 < val t /\ ((700 <= j)%nat -> 2 <= val t).
    Proof.
      intros j Hj t. destruct (half_w P xmu j Fm Vm Hj) as [Fw Vw]. set (w := add xmu (f64_of_Z (Z.of_nat j + 1))) in *.
      pose proof (pos_INR j) as J0.
      assert (J1 : INR j <= 2 ^ 32). { rewrite INR_IZR_INZ. replace (2 ^ 32) with (IZR (2 ^ 32)) by (rewrite (pow_IZR 2 32); reflexivity). apply IZR_le. lia. }
      assert (R : rounds t (val w * val xi2)) by (unfold t; rewrite (val_fin _ Fw), (val_fin _ Fxi); apply mul_spec; assumption). rewrite Vw in R.
      assert (L : 1 / 1000 <= (INR j + 1 / 2) * val xi2 <= 2 ^ 34).
      { split; [apply Rle_trans with (1 / 2 * (289 / 100000)); [lra|apply Rmult_le_compat; lra]|].
        apply Rle_trans with ((2 ^ 32 + 1) * (11 / 10)); [apply Rmult_le_compat; lra|lra]. }
      destruct (fpos _ _ R) as [F V].
      { split; [apply Rle_trans with (bpow radix2 (-20)); [apply bpow_le; lia|simpl; lra]|apply Rle_trans with (bpow radix2 40); [simpl; lra|apply bpow_le; lia]]. }
      split; [exact F|]. split; [rewrite val_fin by exact F; lra|]. intros H.
      destruct R as [_ E]. rewrite E. apply rs_ge; [apply (fmt_bpow 1); lia|rewrite Om_bpow; apply (bpow_le radix2 1); lia|].
      assert (700 <= INR j) by (change 700 with (IZR (Z.of_nat 700)); rewrite <- INR_IZR_INZ; apply le_INR, H).
      apply Rle_trans with ((700 + 1 / 2) * (289 / 100000)); [lra|apply Rmult_le_compat; lra].
    Qed.

    Lemma low : forall m j c n v, (Z.of_nat (j + m) < 2 ^ 32)%Z -> 0 < v -> number c -> number n -> v <= val c -> v <= val n ->
      let r := fold_left stp (count_from (Z.of_nat j + 1) m) (c, n) in
      number (fst r) /\ number (snd r) /\ v <= val (fst r) /\ v <= val (snd r).
    Proof.
      induction m as [|m IH]; intros j c n v Hj H0 Nc Nn Vc Vn; [cbn; auto|].
      change (count_from (Z.of_nat j + 1) (S m)) with ((Z.of_nat j + 1)%Z :: count_from (Z.of_nat j + 1 + 1) m). cbn [fold_left fst snd].
      replace (Z.of_nat j + 1 + 1)%Z with (Z.of_nat (S j) + 1)%Z by lia.
      destruct (fac j ltac:(lia)) as (Ft & Vt & _). set (t := mul (add xmu (f64_of_Z (Z.of_nat j + 1))) xi2) in *. clearbody t.
      assert (Pt : positive t) by (split; [apply fin_nonnan, Ft|exact Vt]).
      assert (Pn : positive n) by (split; [exact Nn|lra]).
      pose proof (mul_pos P t n Pt Pn) as M.
      destruct (add_nonneg P (mul t n) c M) as ([Na _] & _ & Va); [split; [exact Nc|lra]|].
      apply IH; [lia|exact H0|exact Nn|exact Na|exact Vn|lra].
    Qed.

    Lemma high : forall m j c n k, (Z.of_nat (j + m) < 2 ^ 32)%Z -> (700 <= j)%nat -> positive c -> positive n -> (-1022 <= k)%Z ->
      bpow radix2 (Z.min 1024 (k - 1)) <= val c -> bpow radix2 (Z.min 1024 k) <= val n ->
      let r := fold_left stp (count_from (Z.of_nat j + 1) m) (c, n) in
      positive (fst r) /\ positive (snd r) /\ bpow radix2 (Z.min 1024 (k + Z.of_nat m - 1)) <= val (fst r) /\ bpow radix2 (Z.min 1024 (k + Z.of_nat m)) <= val (snd r).
    Proof.
      induction m as [|m IH]; intros j c n k Hj J7 Pc Pn Hk Vc Vn.
      { cbn [count_from fold_left fst snd Z.of_nat]. rewrite Z.add_0_r. auto. }
      change (count_from (Z.of_nat j + 1) (S m)) with ((Z.of_nat j + 1)%Z :: count_from (Z.of_nat j + 1 + 1) m). cbn [fold_left fst snd].
      replace (Z.of_nat j + 1 + 1)%Z with (Z.of_nat (S j) + 1)%Z by lia.
      destruct (fac j ltac:(lia)) as (Ft & _ & Vt). specialize (Vt J7). set (t := mul (add xmu (f64_of_Z (Z.of_nat j + 1))) xi2) in *. clearbody t.
      destruct (mul_ge t n (Z.min 1024 k) Ft Vt Pn ltac:(lia) Vn) as [[N1 M0] M1].
      replace (Z.min 1024 (Z.min 1024 k + 1)) with (Z.min 1024 (k + 1)) in M1 by lia.
      destruct (add_nonneg P (mul t n) c) as ([Na _] & Va & _); [split; [exact N1|lra]|split; [exact (proj1 Pc)|destruct Pc; lra]|].
      destruct (IH (S j) n (add (mul t n) c) (k + 1)%Z) as (A1 & A2 & A3 & A4);
        [lia|lia|exact Pn|split; [exact Na|lra]|lia| |lra|].
      { replace (k + 1 - 1)%Z with k by lia. exact Vn. }
      replace (k + 1 + Z.of_nat m)%Z with (k + Z.of_nat (S m))%Z in A3, A4 by lia. auto.
    Qed.
  End Steps.

  Lemma count_from_app : forall a b i, count_from i (a + b) = count_from i a ++ count_from (i + Z.of_nat a) b.
  Proof.
    induction a as [|a IH]; intros b i; [cbn [Nat.add count_from app Z.of_nat]; f_equal; lia|].
    change (S a + b)%nat with (S (a + b)). change (count_from i (S (a + b))) with (i :: count_from (i + 1) (a + b)). rewrite IH.
    change (count_from i (S a)) with (i :: count_from (i + 1) a). cbn [app]. do 3 f_equal. lia.
  Qed.

  Lemma top_inf : forall z, positive z -> bpow radix2 1024 <= val z -> z = B754_infinity false.
  Proof. intros z [N _] H. apply val_inf_pos; [exact N|]. pose proof (val_bound z). rewrite Om_bpow in *. lra. Qed.

  Context (EX : accurate_exp (p_exp P)).

  Theorem besselik_half_over : forall (n : nat) (nu x : f64), (3000 <= Z.of_nat n)%Z -> (Z.of_nat n + 1 < 2 ^ 32)%Z -> number nu -> val nu = INR n + 1 / 2 ->
    number x -> 2 <= val x <= 690 ->
    @besselik (ieee P) nu x = Panic (PExplicit "x too large in besselik; try asymptotic expansion") \/
    exists i k i' k', @besselik (ieee P) nu x = Ok (i, k, i', k') /\ k = B754_infinity false /\ ~ number k'.
  Proof.
    intros n nu x Hn0 Hn Nu Vu Nx Hx. pose proof (pos_INR n) as I0.
    assert (I1 : INR n <= 4294967296). { rewrite INR_IZR_INZ. apply (IZR_le _ 4294967296). lia. }
    destruct (besselik_half_run P EX n nu x ltac:(lia) Nu Vu Nx Hx) as [Q|(i & i' & xi & xi2 & xmu & a & b & Q & Fu & Fxi & Mxi & Fxi2 & Mx2 & Fm & Vm & Fa & Fb & Ma & Mb & _)]; [left; exact Q|right].
    assert (Y : / 690 <= / val x <= 1 / 2) by (split; [apply Rinv_le_contravar; lra|replace (1 / 2) with (/ 2) by lra; apply Rinv_le_contravar; lra]).
    pose proof (mrn _ _ _ Mxi ltac:(unfold vv; lra) ltac:(lra)) as Nxi.
    pose proof Mx2 as Mx3. apply mr_abs in Mx3; [|unfold vv; lra]. rewrite (Rabs_pos_eq (2 * / val x)) in Mx3 by lra. apply Rabs_le_inv in Mx3.
    assert (Vxi : 289 / 100000 <= val xi2 <= 11 / 10) by (unfold vv in Mx3; lra).
    destruct (K0h_rng (val x) Hx) as [[KL _] _]. pose proof (bpow_gt_0 radix2 (-1001)) as B0.
    pose proof (mrn _ _ _ Ma ltac:(lra) ltac:(lra)) as Na. pose proof (mrn _ _ _ Mb ltac:(lra) ltac:(lra)) as Nb.
    assert (B2 : bpow radix2 (-1001) = 2 * bpow radix2 (-1002)) by (change (-1001)%Z with (1 + -1002)%Z; rewrite bpow_plus; reflexivity).
    assert (UI : fst (up_fold P xmu xi2 (S n) (a, b)) = B754_infinity false /\ snd (up_fold P xmu xi2 (S n) (a, b)) = B754_infinity false).
    { unfold up_fold. replace (S n) with (700 + (S n - 700))%nat by lia. rewrite count_from_app, fold_left_app.
      destruct (low xmu xi2 Fm Vm Fxi2 Vxi 700 0 a b (bpow radix2 (-1002))) as (C1 & C2 & C3 & C4);
        [lia|apply bpow_gt_0|apply fin_nonnan, Fa|apply fin_nonnan, Fb|lra|lra|].
      change (Z.of_nat 0 + 1)%Z with 1%Z in *. set (r := fold_left _ (count_from 1 700) (a, b)) in *. clearbody r. destruct r as [c d]. cbn [fst snd] in *.
      pose proof (bpow_gt_0 radix2 (-1002)) as B1.
      replace (1 + Z.of_nat 700)%Z with (Z.of_nat 700 + 1)%Z by lia.
      destruct (high xmu xi2 Fm Vm Fxi2 Vxi (S n - 700) 700 c d (-1002)) as (D1 & D2 & D3 & D4);
        [lia|lia|split; [exact C1|lra]|split; [exact C2|lra]|lia| |exact C4|].
      { apply Rle_trans with (bpow radix2 (-1002)); [apply bpow_le; lia|exact C3]. }
      rewrite Z.min_l in D3, D4 by lia. split; apply top_inf; assumption. }
    destruct UI as [U1 U2]. rewrite U1, U2 in Q. do 4 eexists. split; [exact Q|]. split; [reflexivity|].
    assert (T : fin (mul nu xi) /\ 0 < val (mul nu xi)).
    { assert (R : rounds (mul nu xi) (val nu * val xi)) by (rewrite (val_fin _ Fu), (val_fin _ Fxi); apply mul_spec; assumption). rewrite Vu in R.
      destruct (fpos _ _ R) as [F V].
      - split; [apply Rle_trans with (1 / 2 * (1 / 1000)); [apply Rle_trans with (bpow radix2 (-20)); [apply bpow_le; lia|simpl; lra]|apply Rmult_le_compat; lra]|].
        apply Rle_trans with (4294967297 * 1); [apply Rmult_le_compat; lra|apply Rle_trans with (bpow radix2 40); [simpl; lra|apply bpow_le; lia]].
      - split; [exact F|]. rewrite val_fin by exact F. assert (0 < (INR n + 1 / 2) * val xi) by (apply Rmult_lt_0_compat; lra). lra. }
    rewrite mul_fin_inf by apply T. intros N. discriminate.
  Qed.
End Over.
