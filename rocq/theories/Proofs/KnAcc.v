(** * Rounding errors of Kn on (0, 1], for every order *)

From Coq Require Import ZArith Reals Bool Lra Lia List.
From Flocq Require Import Core IEEE754.BinarySingleNaN IEEE754.Binary IEEE754.Bits.
From Verif.Model Require Import Base Arith BesselTables Bessel.
From Verif.Float Require Import Bits64 Ieee Exact Platforms.
From Verif.Spec Require Import F64Spec Outcome BesselSpec Bessel2Spec.
From Verif.Proofs Require Import F64 F64Ops Lits Ext FlErr GammaAcc GserAcc PosHorner BesselAcc BesselSeries BesselRat LnGammaFl SecondSeries SecondRat BesselRec KAcc.
Open Scope R_scope.
Local Notation ln := Rpower.ln.

Lemma K0_bounds : forall x v, 0 < x <= 1 -> is_K 0 x v -> 0 < v.
Proof.
  intros x v Hx Hv. pose proof (k0_ser x v Hx Hv) as S. cbv zeta in S. assert (X2 : 0 <= x * x <= 1) by nra.
  pose proof (tgt_pos 0 10 (x * x) ltac:(lra)) as T1. cbn [pow] in T1. pose proof (pr1_ge 0 10 0 (x * x) ltac:(lra)) as W1.
  assert (L0 : ln x <= 0) by (rewrite <- ln_1; destruct (Rle_lt_or_eq_dec x 1 ltac:(lra)) as [Q| ->]; [left; apply ln_increasing; lra|lra]).
  set (T := tgt 1 0 10 (x * x)) in *. set (W := pr 1 0 0 10 (x * x)) in *. clearbody T W.
  assert (0 <= W * - ln x) by (apply Rmult_le_pos; lra). apply Rabs_le_inv in S. lra.
Qed.

Lemma K1_bounds : forall x v, 0 < x <= 1 -> is_K 1 x v -> / x / 3 <= v.
Proof.
  intros x v Hx Hv. pose proof (k1_ser x v Hx Hv) as S. cbv zeta in S. assert (X2 : 0 <= x * x <= 1) by nra.
  pose proof (tgt_pos 1 10 (x * x) ltac:(lra)) as T1. rewrite pow_1 in T1. pose proof (tgt1_sup (x * x) X2) as T2.
  pose proof (pr1_ge 1 10 0 (x * x) ltac:(lra)) as W1. pose proof (pr_sup1 1 (x * x) ltac:(lia) X2) as W2.
  pose proof (x2_ln x Hx) as XL.
  assert (L0 : ln x <= 0) by (rewrite <- ln_1; destruct (Rle_lt_or_eq_dec x 1 ltac:(lra)) as [Q| ->]; [left; apply ln_increasing; lra|lra]).
  set (T := tgt 1 1 10 (x * x)) in *. set (W := pr 1 1 0 10 (x * x)) in *. clearbody T W.
  set (L := - ln x) in *. assert (L1 : 0 <= L) by (unfold L; lra). clearbody L.
  assert (XU : x * x * (T + W / 2 * L) <= 65 / 100).
  { replace (x * x * (T + W / 2 * L)) with (x * x * T + x * x * L * (W / 2)) by ring.
    assert (x * x * T <= 1 * (48 / 100)) by (apply Rmult_le_compat; lra).
    assert (0 <= x * x * L) by (apply Rmult_le_pos; lra).
    assert (x * x * L * (W / 2) <= 1 / 4 * (13 / 20)) by (apply Rmult_le_compat; lra). lra. }
  set (U := T + W / 2 * L) in *. clearbody U.
  assert (I0 : 0 < / x) by (apply Rinv_0_lt_compat; lra).
  assert (XU' : x * U <= 65 / 100 * / x). { replace (x * U) with (x * x * U * / x) by (field; lra). apply Rmult_le_compat_r; lra. }
  apply Rabs_le_inv in S. lra.
Qed.

Lemma K_step : forall n x a b c, 0 < x -> is_K n x a -> is_K (S n) x b -> is_K (S (S n)) x c -> c = INR (S n) * (2 * / x) * b + a.
Proof.
  intros n x a b c Hx Ha Hb Hc. rewrite (second_rec 1 n x a b c); [field; lra|ring|exact Hx|exact Ha|exact Hb|exact Hc].
Qed.

Lemma K_pos : forall n x a b, 0 < x <= 1 -> is_K n x a -> is_K (S n) x b -> 0 < a /\ / x / 3 <= b.
Proof.
  induction n as [|n IH]; intros x a b Hx Ha Hb.
  - split; [exact (K0_bounds x a Hx Ha)|exact (K1_bounds x b Hx Hb)].
  - destruct (K_exists n x ltac:(lra)) as [z Hz]. destruct (IH x z a Hx Hz Ha) as [Z0 A0].
    assert (I0 : 1 <= / x) by (rewrite <- Rinv_1; apply Rinv_le_contravar; lra).
    split; [lra|]. rewrite (K_step n x z a b ltac:(lra) Hz Ha Hb).
    assert (1 <= INR (S n)) by (rewrite S_INR; pose proof (pos_INR n); lra).
    assert (1 * (2 * 1) * a <= INR (S n) * (2 * / x) * a) by (apply Rmult_le_compat_r; [lra|apply Rmult_le_compat; lra]). lra.
Qed.

Section Fl.
  Context (P : platform) (LN : accurate_ln (p_ln P)).
  Notation mul := (f64_mul P). Notation add := (f64_add P). Notation sub := (f64_sub P). Notation div := (f64_div P).

  Definition ke (n : nat) : R := 41 / 10 ^ 15 + 4 * INR n * vv.
  Lemma ke_ge : forall n, 41 / 10 ^ 15 <= ke n.
  Proof. intros n. unfold ke. pose proof (pos_INR n). assert (0 <= 4 * INR n * vv) by (apply Rmult_le_pos; [lra|unfold vv; lra]). lra. Qed.
  Lemma ke_S : forall n, ke (S n) = ke n + 4 * vv.
  Proof. intros n. unfold ke. rewrite S_INR. ring. Qed.
  Lemma ke_le : forall n, (Z.of_nat n <= 2 ^ 32)%Z -> ke n <= 1 / 10 ^ 5.
  Proof.
    intros n Hn. unfold ke. assert (INR n <= 2 ^ 32). { rewrite INR_IZR_INZ. apply IZR_le in Hn. replace (2 ^ 32) with (IZR (2 ^ 32)) by (rewrite (pow_IZR 2 32); reflexivity). exact Hn. }
    assert (4 * INR n * vv <= 4 * 2 ^ 32 * vv) by (apply Rmult_le_compat_r; [unfold vv; lra|lra]). unfold vv in *. lra.
  Qed.

  Lemma norm_1022 : bpow radix2 (-1022) <= 1 / 10.
  Proof. apply Rle_trans with (bpow radix2 (-4)); [apply bpow_le; lia|simpl; lra]. Qed.

  (** one step of the recurrence *)
  Lemma K_step_fl : forall j t c p kt kc kp e, (1 <= j <= 2 ^ 32)%Z -> fin t -> fin c -> fin p -> mr vv (val t) kt -> 2 <= kt -> 1 / 3 <= kc -> 0 < kp ->
    mr e (val c) kc -> mr e (val p) kp -> e <= 1 / 10 ^ 4 -> IZR j * kt * kc + kp <= bpow radix2 1020 ->
    let r := add (mul (mul (f64_of_Z j) t) c) p in fin r /\ mr (e + 4 * vv) (val r) (IZR j * kt * kc + kp).
  Proof.
    intros j t c p kt kc kp e Hj Ft Fc Fp Mt Ht Hc Hp Mc Mp He HB r. pose proof (mr_t0 _ _ _ Mc) as E0.
    destruct (of_Z_exact j ltac:(lia)) as [Fj Vj]. rewrite <- (val_fin _ Fj) in Vj.
    assert (J1 : 1 <= IZR j) by (apply IZR_le; lia).
    assert (B23 : bpow radix2 1023 = 8 * bpow radix2 1020) by (change 8 with (bpow radix2 3); rewrite <- bpow_plus; reflexivity).
    pose proof (bpow_gt_0 radix2 1020) as B0. pose proof norm_1022 as N22.
    assert (JT : 2 <= IZR j * kt). { replace 2 with (1 * 2) by ring. apply Rmult_le_compat; lra. }
    assert (JTC : IZR j * kt * (1 / 3) <= IZR j * kt * kc) by (apply Rmult_le_compat_l; lra).
    set (q := IZR j * kt) in *. assert (QB : q <= 3 * bpow radix2 1020) by lra.
    assert (M1 : mr vv (IZR j * val t) q) by (apply mr_scale_l, Mt).
    pose proof (mr_near _ _ _ M1 ltac:(unfold vv; lra) ltac:(lra)) as N1.
    assert (V1 : 1 <= IZR j * val t <= 4 * bpow radix2 1020) by (unfold vv in N1; lra).
    destruct (mul_mr P (f64_of_Z j) t Fj Ft) as [F1 R1]; [rewrite Vj, Rabs_pos_eq; lra|]. rewrite Vj in R1.
    set (m := mul (f64_of_Z j) t) in *. clearbody m. pose proof (mr_trans _ _ _ _ _ R1 M1) as M2.
    assert (M3 : mr (vv + vv + e) (val m * val c) (q * kc)) by (apply mr_mul; assumption).
    assert (T3 : 0 <= vv + vv + e <= 1 / 1000) by (unfold vv; lra).
    assert (QC : 2 / 3 <= q * kc) by lra.
    pose proof (mr_near _ _ _ M3 T3 ltac:(lra)) as N3.
    assert (2 * (vv + vv + e) * (q * kc) <= 1 / 100 * (q * kc)) by (apply Rmult_le_compat_r; [lra|unfold vv; lra]).
    assert (V3 : 1 / 3 <= val m * val c <= 2 * bpow radix2 1020) by lra.
    destruct (mul_mr P m c F1 Fc) as [F4 R4]; [rewrite Rabs_pos_eq; lra|].
    set (s := mul m c) in *. clearbody s. pose proof (mr_trans _ _ _ _ _ R4 M3) as M4.
    assert (Mp' : mr (vv + (vv + vv + e)) (val p) kp) by (eapply mr_weak; [|exact Mp]; unfold vv; lra).
    assert (QC0 : 0 < q * kc) by lra. pose proof (mr_add _ _ _ _ _ QC0 Hp M4 Mp') as M5.
    assert (T5 : 0 <= vv + (vv + vv + e) <= 1 / 1000) by (unfold vv; lra).
    pose proof (mr_near _ _ _ M5 T5 ltac:(lra)) as N5.
    assert (2 * (vv + (vv + vv + e)) * (q * kc + kp) <= 1 / 100 * (q * kc + kp)) by (apply Rmult_le_compat_r; [lra|unfold vv; lra]).
    assert (V5 : 1 / 3 <= val s + val p <= 2 * bpow radix2 1020) by lra.
    destruct (add_mr P s p F4 Fp) as [F6 R6]; [rewrite Rabs_pos_eq; lra|]. fold r in F6, R6. split; [exact F6|].
    replace (e + 4 * vv) with (vv + (vv + (vv + vv + e))) by ring. exact (mr_trans _ _ _ _ _ R6 M5).
  Qed.

  Lemma Kn_mr : forall x, fin x -> 0 < val x <= 1 -> forall n a b, (Z.of_nat n < 2 ^ 32 - 1)%Z -> is_K n (val x) a -> is_K (S n) (val x) b -> b <= bpow radix2 1020 ->
    let ra := @Kn (ieee P) (Z.of_nat n) x in let rb := @Kn (ieee P) (Z.of_nat (S n)) x in
    fin ra /\ fin rb /\ mr (ke n) (val ra) a /\ mr (ke n) (val rb) b.
  Proof.
    intros x Fx Hx. assert (I0 : 1 <= / val x) by (rewrite <- Rinv_1; apply Rinv_le_contravar; lra).
    induction n as [|n IH]; intros a b Hn Ha Hb HB; cbv zeta.
    - destruct (K_pos 0 (val x) a b Hx Ha Hb) as [A0 B0].
      destruct (k0_fl P LN x a Fx Hx Ha) as [Fa Ea].
      assert (XN : bpow radix2 (-1022) <= val x).
      { assert (U : / val x <= bpow radix2 1022). { replace (bpow radix2 1022) with (4 * bpow radix2 1020) by (change 4 with (bpow radix2 2); rewrite <- bpow_plus; reflexivity). pose proof (bpow_gt_0 radix2 1020). lra. }
        change (-1022)%Z with (Z.opp 1022). rewrite bpow_opp, <- (Rinv_inv (val x)). apply Rinv_le_contravar; [lra|exact U]. }
      destruct (k1_fl P LN x b Fx ltac:(lra) Hb) as (Fb & Eb & _).
      change (@Kn (ieee P) (Z.of_nat 0) x) with (@k0 (ieee P) x). change (@Kn (ieee P) (Z.of_nat 1) x) with (@k1 (ieee P) x).
      pose proof (ke_ge 0) as K0. split; [exact Fa|split; [exact Fb|split]].
      + eapply mr_weak; [|apply (mr_of_rel (12 / 10 ^ 15)); [lra|rewrite (Rabs_pos_eq a) by lra; exact Ea]]. lra.
      + eapply mr_weak; [|apply (mr_of_rel (4 / 10 ^ 14)); [lra|rewrite (Rabs_pos_eq b) by lra; exact Eb]]. lra.
    - destruct (K_exists n (val x) ltac:(lra)) as [z Hz]. destruct (K_pos n (val x) z a Hx Hz Ha) as [Z0 A0].
      pose proof (K_step n (val x) z a b ltac:(lra) Hz Ha Hb) as EB.
      assert (N1 : 1 <= INR (S n)) by (rewrite S_INR; pose proof (pos_INR n); lra).
      assert (AB : a <= b). { assert (1 * (2 * 1) * a <= INR (S n) * (2 * / val x) * a) by (apply Rmult_le_compat_r; [lra|apply Rmult_le_compat; lra]). lra. }
      destruct (IH z a ltac:(lia) Hz Ha ltac:(lra)) as (Fz & Fa & Mz & Ma). cbv zeta in *.
      split; [exact Fa|].
      assert (XT : / val x <= bpow radix2 1022). { replace (bpow radix2 1022) with (4 * bpow radix2 1020) by (change 4 with (bpow radix2 2); rewrite <- bpow_plus; reflexivity). pose proof (bpow_gt_0 radix2 1020). lra. }
      assert (B23 : bpow radix2 1023 = 2 * bpow radix2 1022) by (change 2 with (bpow radix2 1); rewrite <- bpow_plus; reflexivity).
      pose proof norm_1022 as N22.
      assert (D2 : val (f64_lit 2.0) / val x = 2 * / val x) by (rewrite val_2; reflexivity).
      destruct (div_mr P (f64_lit 2.0) x fin_2 Fx ltac:(lra)) as [Ft Mt]. { rewrite D2, Rabs_pos_eq; lra. }
      rewrite D2 in Mt.
      pose proof (ke_le n ltac:(lia)) as KE.
      pose proof (K_step_fl (Z.of_nat (S n)) (div (f64_lit 2.0) x) (@Kn (ieee P) (Z.of_nat (S n)) x) (@Kn (ieee P) (Z.of_nat n) x) (2 * / val x) a z (ke n) ltac:(lia) Ft Fa Fz Mt ltac:(lra) ltac:(lra) Z0 Ma Mz ltac:(lra)) as St.
      rewrite <- INR_IZR_INZ, <- EB in St. destruct (St HB) as [Fr Mr].
      replace (Z.of_nat (S (S n))) with (Z.of_nat (S n) + 1)%Z by lia. rewrite Kn_recurrence by lia. replace (Z.of_nat (S n) - 1)%Z with (Z.of_nat n) by lia.
      split; [exact Fr|]. rewrite ke_S. split; [|exact Mr]. eapply mr_weak; [|exact Ma]. unfold vv. lra.
  Qed.

  Theorem Kn_fl : forall (n : nat) x v, (Z.of_nat n < 2 ^ 32)%Z -> fin x -> 0 < val x <= 1 -> is_K n (val x) v -> v <= bpow radix2 1020 ->
    fin (@Kn (ieee P) (Z.of_nat n) x) /\ Rabs (val (@Kn (ieee P) (Z.of_nat n) x) - v) <= (42 / 10 ^ 15 + INR n / 10 ^ 15) * v.
  Proof.
    intros n x v Hn Fx Hx Hv HB.
    assert (G : fin (@Kn (ieee P) (Z.of_nat n) x) /\ mr (ke n) (val (@Kn (ieee P) (Z.of_nat n) x)) v /\ 0 < v).
    { destruct n as [|n].
      - pose proof (K0_bounds _ _ Hx Hv) as V0. destruct (k0_fl P LN x v Fx Hx Hv) as [Fa Ea]. split; [exact Fa|split; [|exact V0]]. pose proof (ke_ge 0).
        eapply mr_weak; [|apply (mr_of_rel (12 / 10 ^ 15)); [lra|rewrite (Rabs_pos_eq v) by lra; exact Ea]]. lra.
      - destruct (K_exists n (val x) ltac:(lra)) as [z Hz]. destruct (K_pos n (val x) z v Hx Hz Hv) as [_ V0].
        assert (0 < / val x) by (apply Rinv_0_lt_compat; lra).
        destruct (Kn_mr x Fx Hx n z v ltac:(lia) Hz Hv HB) as (_ & Fr & _ & Mr). split; [exact Fr|split; [|lra]]. rewrite ke_S. eapply mr_weak; [|exact Mr]. unfold vv. lra. }
    destruct G as (F & M & V0). split; [exact F|]. pose proof (ke_ge n) as K1. pose proof (ke_le n ltac:(lia)) as K2.
    apply mr_abs in M; [|lra]. rewrite (Rabs_pos_eq v) in M by lra. eapply Rle_trans; [exact M|]. apply Rmult_le_compat_r; [lra|].
    assert (ke n * ke n <= 1 / 10 ^ 5 * ke n) by (apply Rmult_le_compat_r; lra). unfold ke, vv in *. pose proof (pos_INR n). lra.
  Qed.
End Fl.
