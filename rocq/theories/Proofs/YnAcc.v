(** * Rounding errors of Yn on (0, 1], for every order *)

From Coq Require Import ZArith Reals Bool Lra Lia List.
From Flocq Require Import Core IEEE754.BinarySingleNaN IEEE754.Binary IEEE754.Bits.
From Verif.Model Require Import Base Arith BesselTables Bessel.
From Verif.Float Require Import Bits64 Ieee Exact Platforms.
From Verif.Spec Require Import F64Spec Outcome BesselSpec Bessel2Spec.
From Verif.Proofs Require Import F64 F64Ops Lits Ext ExpBounds FlErr GammaAcc GserAcc HornerErr PolyZ BesselSeries BesselRat PosHorner BesselAcc BesselJAcc LnGammaFl EulerGamma PiBounds SecondSeries SecondRat Domains KAcc YAcc BesselRec.
Import ListNotations.
Open Scope R_scope.

Local Notation exp := Rtrigo_def.exp.
Local Notation ln := Rpower.ln.


(** ** Size of Y_n and its growth with n *)

Lemma chk_y01 : let L0 := tgt_l MY (-1) 0 26 in let N0 := tgt_n MY (-1) 0 26 in let L1 := tgt_l MY (-1) 1 26 in
  (neg_chk (full 3) 150 1 (padd (pscale 5 L0) [(- N0)%Z]) && neg_chk (full 3) 150 1 (padd (pscale (-5) L0) [(- N0)%Z]) && neg_chk (full 3) 150 1 (pscale (-1) L1))%bool = true.
Proof. vm_compute. reflexivity. Qed.

Lemma tgt_y01 : forall y, 0 <= y <= 1 -> Rabs (tgt (-1) 0 26 y) <= 1 / 5 /\ 0 <= tgt (-1) 1 26 y.
Proof.
  intros y Hy. pose proof chk_y01 as C. cbv zeta in C. apply andb_prop in C. destruct C as [C C3]. apply andb_prop in C. destruct C as [C1 C2].
  pose proof (neg_ok (full 3) 150 1 _ y ltac:(lia) ltac:(lia) C1 Hy) as E1. pose proof (neg_ok (full 3) 150 1 _ y ltac:(lia) ltac:(lia) C2 Hy) as E2. pose proof (neg_ok (full 3) 150 1 _ y ltac:(lia) ltac:(lia) C3 Hy) as E3. clear C1 C2 C3.
  rewrite !peval_padd, !peval_pscale, peval_cons, opp_IZR in E1, E2. rewrite peval_pscale in E3. change (peval [] y) with 0 in *.
  rewrite (tgt_eq MY (-1) 0 26 y ltac:(reflexivity) ltac:(reflexivity)) in E1, E2. rewrite (tgt_eq MY (-1) 1 26 y ltac:(reflexivity) ltac:(reflexivity)) in E3.
  assert (P0 : (0 < tgt_n MY (-1) 0 26)%Z) by (apply tgt_n_pos; reflexivity). assert (P1 : (0 < tgt_n MY (-1) 1 26)%Z) by (apply tgt_n_pos; reflexivity).
  apply IZR_lt in P0, P1. set (N0 := IZR (tgt_n MY (-1) 0 26)) in *. set (N1 := IZR (tgt_n MY (-1) 1 26)) in *. clearbody N0 N1.
  split; [apply Rabs_le; split; apply Rmult_le_reg_l with N0; lra|apply Rmult_le_reg_l with N1; lra].
Qed.

Lemma x_ln : forall x, 0 < x <= 1 -> 0 <= x * Rabs (ln x) <= 1 / 2.
Proof.
  intros x Hx. assert (L : ln x <= 0). { rewrite <- ln_1. destruct (Rle_lt_or_eq_dec x 1 ltac:(lra)) as [Q| ->]; [left; apply ln_increasing; lra|lra]. }
  rewrite Rabs_left1 by exact L. split; [apply Rmult_le_pos; lra|].
  set (s := R_sqrt.sqrt x). assert (S0 : 0 < s) by (apply sqrt_lt_R0; lra). assert (SS : s * s = x) by (apply sqrt_sqrt; lra).
  assert (E : ln x = 2 * ln s) by (rewrite <- SS, ln_mult by assumption; ring). rewrite E.
  pose proof (ln_sub1 (/ s) ltac:(apply Rinv_0_lt_compat; exact S0)) as LS. rewrite ln_Rinv in LS by exact S0.
  assert (s * (- ln s) <= 1 - s). { replace (1 - s) with (s * (/ s - 1)) by (field; lra). apply Rmult_le_compat_l; lra. }
  rewrite <- SS. replace (s * s * - (2 * ln s)) with (2 * (s * (s * - ln s))) by ring.
  assert (s * (s * - ln s) <= s * (1 - s)) by (apply Rmult_le_compat_l; lra).
  pose proof (Rle_0_sqr (s - 1 / 2)) as Q. unfold Rsqr in Q. lra.
Qed.

Lemma pi_low : 636 / 1000 <= 2 / Rtrigo1.PI.
Proof. destruct pi_near as [P1 _]. apply Rabs_le_inv in P1. unfold pn, pd in *. lra. Qed.

Lemma Y0_bound : forall x a, 0 < x <= 1 -> is_Y 0 x a -> Rabs a <= 46 / 100 * / x.
Proof.
  intros x a Hx Ha. destruct (y0_ser x a ltac:(lra) Ha) as (b & _ & Bb & S). destruct (tgt_y01 (x * x) ltac:(nra)) as [T0 _]. pose proof (x_ln x Hx) as XL. destruct pi_near as [_ P2]. pose proof pq as PQ.
  assert (I1 : 1 <= / x) by (rewrite <- Rinv_1; apply Rinv_le_contravar; lra).
  assert (LX : Rabs (ln x) <= 1 / 2 * / x). { replace (Rabs (ln x)) with (x * Rabs (ln x) * / x) by (field; lra). apply Rmult_le_compat_r; lra. }
  assert (E1 : Rabs (2 / Rtrigo1.PI * (ln x * b)) <= 637 / 1000 * (1 / 2 * / x * (102 / 100))).
  { rewrite !Rabs_mult, (Rabs_pos_eq (2 / Rtrigo1.PI)) by lra. apply Rmult_le_compat; [lra|apply Rmult_le_pos; apply Rabs_pos|lra|]. apply Rmult_le_compat; try apply Rabs_pos; assumption. }
  assert (E2 : Rabs (IZR pn / IZR pd * tgt (-1) 0 26 (x * x)) <= 637 / 1000 * (1 / 5)). { rewrite Rabs_mult, (Rabs_pos_eq (IZR pn / IZR pd)) by lra. apply Rmult_le_compat; [lra|apply Rabs_pos|lra|exact T0]. }
  apply Rabs_le_inv in S, E1, E2. apply Rabs_le. lra.
Qed.

Lemma Y1_bound : forall x a, 0 < x <= 1 -> is_Y 1 x a -> 47 / 100 * / x <= - a.
Proof.
  intros x a Hx Ha. destruct (y1_ser x a ltac:(lra) Ha) as (b & _ & Bb & S). destruct (tgt_y01 (x * x) ltac:(nra)) as [_ T1]. pose proof (x_ln x Hx) as XL. destruct pi_near as [_ P2]. pose proof pi_low as P3. pose proof pq as PQ.
  assert (I1 : 1 <= / x) by (rewrite <- Rinv_1; apply Rinv_le_contravar; lra).
  assert (E1 : Rabs (ln x * b) <= 1 / 2 * (51 / 100)).
  { rewrite Rabs_mult. apply Rle_trans with (Rabs (ln x) * (51 / 100 * x)); [apply Rmult_le_compat_l; [apply Rabs_pos|exact Bb]|]. replace (Rabs (ln x) * (51 / 100 * x)) with (x * Rabs (ln x) * (51 / 100)) by ring. apply Rmult_le_compat_r; lra. }
  assert (E2 : 2 / Rtrigo1.PI * (74 / 100 * / x) <= 2 / Rtrigo1.PI * (/ x - ln x * b)). { apply Rmult_le_compat_l; [lra|]. apply Rabs_le_inv in E1. lra. }
  assert (E3 : 636 / 1000 * (74 / 100 * / x) <= 2 / Rtrigo1.PI * (74 / 100 * / x)) by (apply Rmult_le_compat_r; lra).
  assert (E4 : 0 <= x * (IZR pn / IZR pd * tgt (-1) 1 26 (x * x))) by (apply Rmult_le_pos; [lra|apply Rmult_le_pos; lra]).
  apply Rabs_le_inv in S. replace (2 / Rtrigo1.PI * (ln x * b - / x)) with (- (2 / Rtrigo1.PI * (/ x - ln x * b))) in S by ring. lra.
Qed.

Lemma Y_step : forall n x a b c, 0 < x -> is_Y n x a -> is_Y (S n) x b -> is_Y (S (S n)) x c -> c = INR (S n) * (2 * / x) * b - a.
Proof.
  intros n x a b c Hx (u & Hu & ->) (v & Hv & ->) (w & Hw & ->). rewrite (second_rec (-1) n x u v w); [|ring|exact Hx|exact Hu|exact Hv|exact Hw].
  pose proof PI_RGT_0. field. lra.
Qed.

Definition grow (n : nat) : R := match n with O => 1 | S k => 2 * INR k + 1 end.

Lemma Y_grow : forall n x a b, 0 < x <= 1 -> is_Y n x a -> is_Y (S n) x b -> grow n * Rabs a <= - b /\ 47 / 100 * / x <= - b.
Proof.
  induction n as [|n IH]; intros x a b Hx Ha Hb.
  - pose proof (Y0_bound x a Hx Ha). pose proof (Y1_bound x b Hx Hb). assert (0 < / x) by (apply Rinv_0_lt_compat; lra). cbn [grow]. lra.
  - destruct (Y_exists n x ltac:(lra)) as [z Hz]. destruct (IH x z a Hx Hz Ha) as [G A0].
    assert (I0 : 1 <= / x) by (rewrite <- Rinv_1; apply Rinv_le_contravar; lra).
    rewrite (Y_step n x z a b ltac:(lra) Hz Ha Hb). rewrite (Rabs_left1 a) by lra.
    assert (N0 : 0 <= INR n) by apply pos_INR.
    assert (Z : Rabs z <= - a). { assert (1 * Rabs z <= grow n * Rabs z); [|lra]. apply Rmult_le_compat_r; [apply Rabs_pos|]. destruct n; cbn [grow]; [lra|]. pose proof (pos_INR n). lra. }
    assert (Q : INR (S n) * (2 * 1) * - a <= INR (S n) * (2 * / x) * - a).
    { apply Rmult_le_compat_r; [lra|]. apply Rmult_le_compat_l; [apply pos_INR|lra]. }
    cbn [grow]. rewrite S_INR in *. apply Rabs_le_inv in Z.
    assert (NA : 0 <= INR n * - a) by (apply Rmult_le_pos; lra). lra.
Qed.

(** ** The recurrence *)

Section Fl.
  Context (P : platform) (LN : accurate_ln (p_ln P)).
  Local Notation mul := (f64_mul P). Local Notation add := (f64_add P). Local Notation sub := (f64_sub P). Local Notation div := (f64_div P).

  (** kc, kp: values of the last two orders, C = - kc, V = minus the next one *)
  Lemma Y_step_fl : forall j t c p kt kc kp V e dp, (1 <= j <= 2 ^ 32)%Z -> fin t -> fin c -> fin p -> Rabs (val t - kt) <= uu * kt + eta -> 2 <= kt -> 47 / 100 <= - kc ->
    V = - (IZR j * kt * kc - kp) -> - kc <= V -> Rabs kp <= V -> Rabs (val c - kc) <= e * - kc -> 0 <= e <= 1 / 10 ^ 4 -> Rabs (val p - kp) <= dp -> dp <= V / 100 -> V <= bpow radix2 1020 ->
    let r := sub (mul (mul (f64_of_Z j) t) c) p in fin r /\ Rabs (val r + V) <= (e + 32 / 10 * uu) * (V + Rabs kp) + dp + 12 / 10 * uu * V.
  Proof.
    intros j t c p kt kc kp V e dp Hj Ft Fc Fp Et Ht Hc EV HV Hkp Ec He Ep Hdp HB r.
    destruct (of_Z_exact j ltac:(lia)) as [Fj Vj]. rewrite <- (val_fin _ Fj) in Vj.
    assert (J1 : 1 <= IZR j) by (apply IZR_le; lia). pose proof eta_pos as E0. pose proof eta_20 as E20.
    assert (B23 : bpow radix2 1023 = 8 * bpow radix2 1020) by (change 8 with (bpow radix2 3); rewrite <- bpow_plus; reflexivity). rewrite <- (Ropp_involutive kc) in EV. set (C := - kc) in *.
    assert (Ekc : kc = - C) by (unfold C; ring). rewrite Ekc in Ec. clearbody C. clear Ekc kc.
    set (M := bpow radix2 1020) in *. clearbody M.
    assert (JT : 2 <= IZR j * kt). { replace 2 with (1 * 2) by ring. apply Rmult_le_compat; lra. }
    assert (JTe : IZR j * (uu * kt + eta) <= (uu + eta) * (IZR j * kt)).
    { replace ((uu + eta) * (IZR j * kt)) with (IZR j * (uu * kt + eta * kt)) by ring. apply Rmult_le_compat_l; [lra|]. assert (eta * 1 <= eta * kt) by (apply Rmult_le_compat_l; lra). lra. }
    assert (E1 : Rabs (IZR j * val t - IZR j * kt) <= (uu + eta) * (IZR j * kt)). { rewrite <- Rmult_minus_distr_l, Rabs_mult, (Rabs_pos_eq (IZR j)) by lra. eapply Rle_trans; [apply Rmult_le_compat_l; [lra|exact Et]|exact JTe]. }
    set (Q := IZR j * kt) in *. set (jt := IZR j * val t) in *.
    assert (QC : Q * C = V - kp) by (rewrite EV; ring).
    assert (QCV : Q * C <= 2 * V) by (apply Rabs_le_inv in Hkp; lra).
    assert (Q47 : Q * (47 / 100) <= Q * C) by (apply Rmult_le_compat_l; lra).
    assert (QB : Q <= 5 * M) by lra.
    assert (BJ : Rabs jt <= 101 / 100 * Q). { assert ((uu + eta) * Q <= 1 / 100 * Q) by (apply Rmult_le_compat_r; [lra|unfold uu; lra]). apply Rabs_le_inv in E1. apply Rabs_le. lra. }
    destruct (mul_23 P (f64_of_Z j) t Fj Ft) as [F1 R1]. { rewrite Vj. fold jt. lra. }
    rewrite Vj in R1. fold jt in R1. set (m := mul (f64_of_Z j) t) in *. clearbody m.
    assert (eQ : eta <= 1 / 10 ^ 20 * Q) by lra.
    assert (E2 : Rabs (val m - Q) <= 203 / 100 * uu * Q).
    { assert (uu * Rabs jt <= uu * (101 / 100 * Q)) by (apply Rmult_le_compat_l; [unfold uu; lra|exact BJ]).
      assert (eta * Q <= 1 / 10 ^ 20 * Q) by (apply Rmult_le_compat_r; lra). apply Rabs_le_inv in E1, R1. unfold uu in *. apply Rabs_le. lra. }
    assert (eC : 0 <= e * C <= 1 / 10 ^ 4 * C) by (split; [apply Rmult_le_pos; lra|apply Rmult_le_compat_r; lra]).
    assert (BC : Rabs (val c) <= 101 / 100 * C) by (apply Rabs_le_inv in Ec; apply Rabs_le; lra).
    assert (QC0 : 0 < Q * C) by (apply Rmult_lt_0_compat; lra).
    assert (E3 : Rabs (val m * val c + Q * C) <= (e + 206 / 100 * uu) * (Q * C)).
    { replace (val m * val c + Q * C) with ((val m - Q) * val c + Q * (val c - - C)) by ring. eapply Rle_trans; [apply Rabs_triang|]. rewrite !Rabs_mult, (Rabs_pos_eq Q) by lra.
      assert (A1 : Rabs (val m - Q) * Rabs (val c) <= 203 / 100 * uu * Q * (101 / 100 * C)) by (apply Rmult_le_compat; try apply Rabs_pos; assumption).
      assert (A2 : Q * Rabs (val c - - C) <= Q * (e * C)) by (apply Rmult_le_compat_l; lra).
      replace (203 / 100 * uu * Q * (101 / 100 * C)) with (203 / 100 * (101 / 100) * uu * (Q * C)) in A1 by ring. replace (Q * (e * C)) with (e * (Q * C)) in A2 by ring.
      assert (203 / 100 * (101 / 100) * uu * (Q * C) <= 206 / 100 * uu * (Q * C)) by (apply Rmult_le_compat_r; [lra|unfold uu; lra]). lra. }
    set (W := Q * C) in *. clearbody W.
    assert (eW : 0 <= e * W <= 1 / 10 ^ 4 * W) by (split; [apply Rmult_le_pos; lra|apply Rmult_le_compat_r; lra]).
    assert (BM : Rabs (val m * val c) <= 101 / 100 * W) by (apply Rabs_le_inv in E3; unfold uu in *; apply Rabs_le; lra).
    destruct (mul_23 P m c F1 Fc) as [F4 R4]; [lra|]. set (s := mul m c) in *. clearbody s.
    assert (W9 : 9 / 10 <= W) by lra.
    assert (E4 : Rabs (val s + W) <= (e + 31 / 10 * uu) * W).
    { assert (uu * Rabs (val m * val c) <= uu * (101 / 100 * W)) by (apply Rmult_le_compat_l; [unfold uu; lra|exact BM]). apply Rabs_le_inv in E3, R4. unfold uu in *. apply Rabs_le. lra. }
    assert (E5 : Rabs (val s - val p + V) <= (e + 31 / 10 * uu) * W + dp). { replace (val s - val p + V) with ((val s + W) + - (val p - kp)) by lra. eapply Rle_trans; [apply Rabs_triang|]. rewrite Rabs_Ropp. lra. }
    assert (V0 : 47 / 100 <= V) by lra.
    assert (B5 : Rabs (val s - val p) <= 102 / 100 * V) by (apply Rabs_le_inv in E5; unfold uu in *; apply Rabs_le; lra).
    destruct (sub_23 P s p F4 Fp) as [F6 R6]; [lra|]. fold r in F6, R6. split; [exact F6|].
    assert (uu * Rabs (val s - val p) <= uu * (102 / 100 * V)) by (apply Rmult_le_compat_l; [unfold uu; lra|exact B5]).
    assert (KP : - Rabs kp <= kp <= Rabs kp) by (apply Rabs_le_inv, Rle_refl).
    assert (WV : (e + 31 / 10 * uu) * W <= (e + 31 / 10 * uu) * (V + Rabs kp)) by (apply Rmult_le_compat_l; [unfold uu; lra|lra]).
    assert (0 <= uu * (V + Rabs kp)) by (apply Rmult_le_pos; [unfold uu; lra|lra]).
    apply Rabs_le_inv in R6, E5. set (K := e * (V + Rabs kp)) in *. replace ((e + 31 / 10 * uu) * (V + Rabs kp)) with (K + 31 / 10 * uu * (V + Rabs kp)) in WV by (unfold K; ring).
    replace ((e + 32 / 10 * uu) * (V + Rabs kp)) with (K + 32 / 10 * uu * (V + Rabs kp)) by (unfold K; ring). clearbody K. unfold uu in *. apply Rabs_le. lra.
  Qed.

  (** relative error from order n + 2 on *)
  Definition ye (n : nat) : R := 96 / 10 ^ 14 * (1 - / (2 * INR n + 3)) + 12 * vv * (INR n + 3).
  Lemma ye_S : forall n rho, 0 <= rho -> rho * ((2 * INR n + 3) * (2 * INR n + 5)) <= 1 -> ye n * (1 + 2 * rho) + 6 * vv <= ye (S n).
  Proof.
    intros n rho R0 H. unfold ye. rewrite S_INR. pose proof (pos_INR n) as N0. set (k := INR n) in *. clearbody k.
    assert (D1 : 0 < (2 * k + 3) * (2 * k + 5)) by (apply Rmult_lt_0_compat; lra).
    set (D := / ((2 * k + 3) * (2 * k + 5))). assert (D0 : 0 < D) by (apply Rinv_0_lt_compat, D1).
    assert (RD : rho <= D). { apply Rmult_le_reg_r with ((2 * k + 3) * (2 * k + 5)); [exact D1|]. unfold D. rewrite Rinv_l; lra. }
    assert (I3 : / (2 * k + 3) = D * (2 * k + 5)) by (unfold D; field; lra). assert (I5 : / (2 * (k + 1) + 3) = D * (2 * k + 3)) by (unfold D; field; lra).
    assert (DK : D * (2 * k + 5) <= 1 / 3). { rewrite <- I3. replace (1 / 3) with (/ 3) by field. apply Rinv_le_contravar; lra. }
    assert (DK0 : 0 <= D * (2 * k + 5)) by (apply Rmult_le_pos; lra). rewrite I3, I5.
    assert (A : (1 - D * (2 * k + 5)) * (1 + 2 * rho) <= 1 - D * (2 * k + 3)).
    { assert ((1 - D * (2 * k + 5)) * (2 * rho) <= 1 * (2 * D)) by (apply Rmult_le_compat; lra). assert (D * (2 * k + 5) = D * (2 * k + 3) + 2 * D) by ring. lra. }
    assert (B : (k + 3) * (2 * rho) <= 4 / 10).
    { apply Rle_trans with ((k + 3) * (2 * D)); [apply Rmult_le_compat_l; lra|]. replace ((k + 3) * (2 * D)) with (2 * (k + 3) * D) by ring.
      apply Rmult_le_reg_r with ((2 * k + 3) * (2 * k + 5)); [exact D1|]. unfold D. rewrite Rmult_assoc, Rinv_l by lra. nra. }
    replace ((96 / 10 ^ 14 * (1 - D * (2 * k + 5)) + 12 * vv * (k + 3)) * (1 + 2 * rho)) with (96 / 10 ^ 14 * ((1 - D * (2 * k + 5)) * (1 + 2 * rho)) + 12 * vv * (k + 3) + 12 * vv * ((k + 3) * (2 * rho))) by ring.
    set (u := (1 - D * (2 * k + 5)) * (1 + 2 * rho)) in *. set (w := (k + 3) * (2 * rho)) in *. clearbody u w.
    assert (12 * vv * w <= 12 * vv * (4 / 10)) by (apply Rmult_le_compat_l; [unfold vv; lra|exact B]). unfold vv in *. lra.
  Qed.
  Lemma ye_ge : forall n, 64 / 10 ^ 14 <= ye n.
  Proof.
    intros n. unfold ye. pose proof (pos_INR n) as N0. assert (/ (2 * INR n + 3) <= 1 / 3). { replace (1 / 3) with (/ 3) by field. apply Rinv_le_contravar; lra. }
    assert (0 <= 12 * vv * (INR n + 3)) by (apply Rmult_le_pos; [unfold vv; lra|lra]). lra.
  Qed.
  Lemma ye_le : forall n, ye n <= 1 / 10 ^ 12 + 2 * (INR n + 2) / 10 ^ 15.
  Proof.
    intros n. unfold ye. pose proof (pos_INR n) as N0. assert (0 < / (2 * INR n + 3)) by (apply Rinv_0_lt_compat; lra). unfold vv. lra.
  Qed.
  Lemma INR_32 : forall n, (Z.of_nat n <= 2 ^ 32)%Z -> INR n <= 2 ^ 32.
  Proof. intros n Hn. rewrite INR_IZR_INZ. apply IZR_le in Hn. replace (2 ^ 32) with (IZR (2 ^ 32)) by (rewrite (pow_IZR 2 32); reflexivity). exact Hn. Qed.
  Lemma ye_small : forall n, (Z.of_nat n <= 2 ^ 32)%Z -> ye n <= 1 / 10 ^ 4.
  Proof. intros n Hn. pose proof (ye_le n). pose proof (INR_32 n Hn). lra. Qed.

  Lemma grow_ge : forall n, 1 <= grow n.
  Proof. intros [|n]; cbn [grow]; [lra|]. pose proof (pos_INR n). lra. Qed.

  Lemma Y_next : forall x n z a b e dp, fin x -> 0 < val x <= 1 -> (Z.of_nat (S n) <= 2 ^ 32)%Z -> is_Y n (val x) z -> is_Y (S n) (val x) a -> is_Y (S (S n)) (val x) b -> - b <= bpow radix2 1020 ->
    let rz := @Yn (ieee P) (Z.of_nat n) x in let ra := @Yn (ieee P) (Z.of_nat (S n)) x in let rb := @Yn (ieee P) (Z.of_nat (S (S n))) x in
    fin rz -> Rabs (val rz - z) <= dp -> dp <= - b / 100 -> fin ra -> Rabs (val ra - a) <= e * - a -> 0 <= e <= 1 / 10 ^ 4 ->
    fin rb /\ Rabs (val rb - b) <= (e + 32 / 10 * uu) * (- b + Rabs z) + dp + 12 / 10 * uu * - b.
  Proof.
    intros x n z a b e dp Fx Hx Hn Hz Ha Hb HB rz ra rb Fz Ez Hd Fa Ea He.
    destruct (Y_grow n (val x) z a Hx Hz Ha) as [G1 A0]. destruct (Y_grow (S n) (val x) a b Hx Ha Hb) as [G2 B0].
    assert (I0 : 1 <= / val x) by (rewrite <- Rinv_1; apply Rinv_le_contravar; lra).
    rewrite (Rabs_left1 a) in G2 by lra. pose proof (grow_ge n) as Gn. pose proof (grow_ge (S n)) as Gs.
    assert (ZA : Rabs z <= - a). { assert (1 * Rabs z <= grow n * Rabs z) by (apply Rmult_le_compat_r; [apply Rabs_pos|lra]). lra. }
    assert (AB : - a <= - b). { assert (1 * - a <= grow (S n) * - a) by (apply Rmult_le_compat_r; lra). lra. }
    pose proof (Y_step n (val x) z a b ltac:(lra) Hz Ha Hb) as EB.
    assert (B23 : bpow radix2 1023 = 8 * bpow radix2 1020) by (change 8 with (bpow radix2 3); rewrite <- bpow_plus; reflexivity).
    assert (D2 : val (f64_lit 2.0) / val x = 2 * / val x) by (rewrite val_2; reflexivity).
    destruct (div_23 P (f64_lit 2.0) x fin_2 Fx ltac:(lra)) as [Ft Et]. { rewrite D2, B23, Rabs_pos_eq; lra. }
    rewrite D2, (Rabs_pos_eq (2 * / val x)) in Et by lra.
    pose proof (Y_step_fl (Z.of_nat (S n)) (div (f64_lit 2.0) x) ra rz (2 * / val x) a z (- b) e dp ltac:(lia) Ft Fa Fz Et ltac:(lra) ltac:(lra)) as St.
    rewrite <- INR_IZR_INZ in St. specialize (St ltac:(rewrite EB; ring) AB ltac:(lra) Ea He Ez Hd HB). cbv zeta in St.
    assert (ER : rb = sub (mul (mul (f64_of_Z (Z.of_nat (S n))) (div (f64_lit 2.0) x)) ra) rz).
    { unfold rb, ra, rz. replace (Z.of_nat (S (S n))) with (Z.of_nat (S n) + 1)%Z by lia. rewrite Yn_recurrence by lia. replace (Z.of_nat (S n) - 1)%Z with (Z.of_nat n) by lia. reflexivity. }
    rewrite <- ER in St. exact St.
  Qed.

  Lemma Y_start : forall x a, fin x -> 0 < val x <= 1 -> is_Y 1 (val x) a -> - a <= bpow radix2 1020 ->
    fin (@Yn (ieee P) 1 x) /\ Rabs (val (@Yn (ieee P) 1 x) - a) <= 68 / 10 ^ 15 * - a.
  Proof.
    intros x a Fx Hx Ha HB. pose proof (Y1_bound (val x) a Hx Ha) as A0.
    assert (I0 : 1 <= / val x) by (rewrite <- Rinv_1; apply Rinv_le_contravar; lra).
    assert (XN : bpow radix2 (-1022) <= val x).
    { assert (U : / val x <= bpow radix2 1022). { replace (bpow radix2 1022) with (4 * bpow radix2 1020) by (change 4 with (bpow radix2 2); rewrite <- bpow_plus; reflexivity). pose proof (bpow_gt_0 radix2 1020). lra. }
      change (-1022)%Z with (Z.opp 1022). rewrite bpow_opp, <- (Rinv_inv (val x)). apply Rinv_le_contravar; [lra|exact U]. }
    destruct (y1_fl P LN x a Fx ltac:(lra) Ha) as [F E]. change (@Yn (ieee P) 1 x) with (@y1 (ieee P) x). split; [exact F|]. eapply Rle_trans; [exact E|].
    pose proof (x_ln (val x) Hx) as XL. replace (1 / 10 ^ 15 / val x) with (1 / 10 ^ 15 * / val x) by reflexivity. replace (val x * (1 + Rabs (ln (val x)))) with (val x + val x * Rabs (ln (val x))) by ring.
    set (I := / val x) in *. set (w := val x * Rabs (ln (val x))) in *. clearbody I w. lra.
  Qed.

  Lemma Y_two : forall x b, fin x -> 0 < val x <= 1 -> is_Y 2 (val x) b -> - b <= bpow radix2 1020 ->
    fin (@Yn (ieee P) 2 x) /\ Rabs (val (@Yn (ieee P) 2 x) - b) <= 39 / 10 ^ 14 * - b.
  Proof.
    intros x b Fx Hx Hb HB. destruct (Y_exists 0 (val x) ltac:(lra)) as [z Hz]. destruct (Y_exists 1 (val x) ltac:(lra)) as [a Ha].
    destruct (Y_grow 0 (val x) z a Hx Hz Ha) as [G1 A0]. destruct (Y_grow 1 (val x) a b Hx Ha Hb) as [G2 B0]. cbn [grow INR] in G1, G2. 
    assert (I0 : 1 <= / val x) by (rewrite <- Rinv_1; apply Rinv_le_contravar; lra). rewrite (Rabs_left1 a) in G2 by lra.
    destruct (y0_fl P LN x z Fx ltac:(lra) Hz) as [Fz Ez]. destruct (Y_start x a Fx Hx Ha ltac:(lra)) as [Fa Ea].
    pose proof (x_ln (val x) Hx) as XL.
    assert (LX : Rabs (ln (val x)) <= 1 / 2 * / val x). { replace (Rabs (ln (val x))) with (val x * Rabs (ln (val x)) * / val x) by (field; lra). apply Rmult_le_compat_r; lra. }
    assert (Ez' : Rabs (val (@y0 (ieee P) x) - z) <= 115 / 10 ^ 15 * / val x) by lra. clear Ez LX XL.
    destruct (Y_next x 0 z a b (68 / 10 ^ 15) (115 / 10 ^ 15 * / val x) Fx Hx ltac:(lia) Hz Ha Hb HB Fz Ez' ltac:(lra) Fa Ea ltac:(lra)) as [Fb Eb].
    split; [exact Fb|]. change (Z.of_nat 2) with 2%Z in Eb. eapply Rle_trans; [exact Eb|].
    assert ((68 / 10 ^ 15 + 32 / 10 * uu) * (- b + Rabs z) <= (68 / 10 ^ 15 + 32 / 10 * uu) * (- b + - b)) by (apply Rmult_le_compat_l; [unfold uu; lra|lra]).
    unfold uu in *. lra.
  Qed.

  Lemma Y_three : forall x b, fin x -> 0 < val x <= 1 -> is_Y 3 (val x) b -> - b <= bpow radix2 1020 ->
    fin (@Yn (ieee P) 3 x) /\ Rabs (val (@Yn (ieee P) 3 x) - b) <= 64 / 10 ^ 14 * - b.
  Proof.
    intros x b Fx Hx Hb HB. destruct (Y_exists 1 (val x) ltac:(lra)) as [z Hz]. destruct (Y_exists 2 (val x) ltac:(lra)) as [a Ha].
    destruct (Y_grow 1 (val x) z a Hx Hz Ha) as [G1 A0]. destruct (Y_grow 2 (val x) a b Hx Ha Hb) as [G2 B0]. cbn [grow INR] in G1, G2. 
    pose proof (Y1_bound (val x) z Hx Hz) as Z0.
    assert (I0 : 1 <= / val x) by (rewrite <- Rinv_1; apply Rinv_le_contravar; lra). rewrite (Rabs_left1 a) in G2 by lra. rewrite (Rabs_left1 z) in G1 by lra.
    destruct (Y_start x z Fx Hx Hz ltac:(lra)) as [Fz Ez]. destruct (Y_two x a Fx Hx Ha ltac:(lra)) as [Fa Ea].
    destruct (Y_next x 1 z a b (39 / 10 ^ 14) (68 / 10 ^ 15 * - z) Fx Hx ltac:(lia) Hz Ha Hb HB Fz Ez ltac:(lra) Fa Ea ltac:(lra)) as [Fb Eb].
    split; [exact Fb|]. change (Z.of_nat 3) with 3%Z in Eb. eapply Rle_trans; [exact Eb|]. rewrite (Rabs_left1 z) by lra. unfold uu in *. lra.
  Qed.

  (** both of two successive orders, with the error the theorem gives for the first *)
  Lemma Y_pair : forall n x a b, fin x -> 0 < val x <= 1 -> (Z.of_nat n + 4 <= 2 ^ 32)%Z -> is_Y (S (S n)) (val x) a -> is_Y (S (S (S n))) (val x) b -> - b <= bpow radix2 1020 ->
    let ra := @Yn (ieee P) (Z.of_nat (S (S n))) x in let rb := @Yn (ieee P) (Z.of_nat (S (S (S n)))) x in
    fin ra /\ Rabs (val ra - a) <= ye n * - a /\ fin rb /\ Rabs (val rb - b) <= ye n * - b.
  Proof.
    induction n as [|n IH]; intros x a b Fx Hx Hn Ha Hb HB ra rb.
    - pose proof (ye_ge 0) as Y0. destruct (Y_grow 2 (val x) a b Hx Ha Hb) as [G2 B0]. cbn [grow INR] in G2.
      destruct (Y_exists 1 (val x) ltac:(lra)) as [z Hz]. destruct (Y_grow 1 (val x) z a Hx Hz Ha) as [_ A0].
      assert (I0 : 1 <= / val x) by (rewrite <- Rinv_1; apply Rinv_le_contravar; lra). rewrite (Rabs_left1 a) in G2 by lra.
      destruct (Y_two x a Fx Hx Ha ltac:(lra)) as [Fa Ea]. destruct (Y_three x b Fx Hx Hb HB) as [Fb Eb].
      split; [exact Fa|]. split; [eapply Rle_trans; [exact Ea|]; apply Rmult_le_compat_r; lra|]. split; [exact Fb|]. eapply Rle_trans; [exact Eb|]. apply Rmult_le_compat_r; lra.
    - destruct (Y_exists (S (S n)) (val x) ltac:(lra)) as [z Hz].
      destruct (Y_grow (S (S n)) (val x) z a Hx Hz Ha) as [G1 A0]. destruct (Y_grow (S (S (S n))) (val x) a b Hx Ha Hb) as [G2 B0].
      assert (I0 : 1 <= / val x) by (rewrite <- Rinv_1; apply Rinv_le_contravar; lra). rewrite (Rabs_left1 a) in G2 by lra.
      cbn [grow] in G1, G2. pose proof (pos_INR n) as N0. rewrite !S_INR in G1. rewrite !S_INR in G2.
      assert (NA : 0 <= INR n * - a) by (apply Rmult_le_pos; lra). assert (NZ : 0 <= INR n * Rabs z) by (apply Rmult_le_pos; [lra|apply Rabs_pos]). pose proof (Rabs_pos z) as Pz.
      destruct (IH x z a Fx Hx ltac:(lia) Hz Ha ltac:(lra)) as (Fz & Ez & Fa & Ea).
      pose proof (ye_ge n) as Yl. pose proof (ye_small n ltac:(lia)) as Yu.
      assert (Ez' : Rabs (val (@Yn (ieee P) (Z.of_nat (S (S n))) x) - z) <= ye n * Rabs z).
      { eapply Rle_trans; [exact Ez|]. apply Rmult_le_compat_l; [lra|]. rewrite <- Rabs_Ropp. apply Rle_abs. }
      assert (Dp : ye n * Rabs z <= - b / 100). { assert (ye n * Rabs z <= 1 / 10 ^ 4 * Rabs z) by (apply Rmult_le_compat_r; lra). lra. }
      destruct (Y_next x (S (S n)) z a b (ye n) (ye n * Rabs z) Fx Hx ltac:(lia) Hz Ha Hb HB Fz Ez' Dp Fa Ea ltac:(lra)) as [Fb Eb].
      set (rho := Rabs z / - b). assert (RB : Rabs z = rho * - b) by (unfold rho; field; lra).
      assert (R0 : 0 <= rho). { unfold rho. apply Rmult_le_pos; [lra|]. left. apply Rinv_0_lt_compat. lra. }
      assert (R1 : rho * ((2 * INR n + 3) * (2 * INR n + 5)) <= 1).
      { apply Rmult_le_reg_r with (- b); [lra|]. replace (rho * ((2 * INR n + 3) * (2 * INR n + 5)) * - b) with ((2 * INR n + 5) * ((2 * INR n + 3) * (rho * - b))) by ring. rewrite <- RB.
        apply Rle_trans with ((2 * INR n + 5) * - a); [apply Rmult_le_compat_l; lra|lra]. }
      pose proof (ye_S n rho R0 R1) as YS. clearbody rho. rewrite RB in Eb.
      assert (R2 : rho <= 1 / 15). { apply Rmult_le_reg_r with 15; [lra|]. assert (0 <= rho * INR n) by (apply Rmult_le_pos; lra). assert (0 <= rho * INR n * INR n) by (apply Rmult_le_pos; lra). lra. }
      assert (Y2 : ye n * - a <= ye (S n) * - a). { apply Rmult_le_compat_r; [lra|]. assert (0 <= ye n * rho) by (apply Rmult_le_pos; lra). unfold vv in YS. lra. }
      split; [exact Fa|]. split; [eapply Rle_trans; [exact Ea|exact Y2]|]. split; [exact Fb|]. eapply Rle_trans; [exact Eb|].
      apply Rle_trans with ((ye n * (1 + 2 * rho) + 6 * vv) * - b); [|apply Rmult_le_compat_r; lra].
      replace ((ye n + 32 / 10 * uu) * (- b + rho * - b) + ye n * (rho * - b) + 12 / 10 * uu * - b) with ((ye n * (1 + 2 * rho) + (32 / 10 * uu * (1 + rho) + 12 / 10 * uu)) * - b) by ring.
      apply Rmult_le_compat_r; [lra|]. apply Rplus_le_compat_l. unfold uu, vv. lra.
  Qed.

  Theorem Yn_fl : forall n x v, fin x -> 0 < val x <= 1 -> (1 <= n)%nat -> (Z.of_nat n < 2 ^ 32)%Z -> is_Y n (val x) v -> Rabs v <= bpow radix2 1020 ->
    let r := @Yn (ieee P) (Z.of_nat n) x in fin r /\ Rabs (val r - v) <= (1 / 10 ^ 12 + 2 * INR n / 10 ^ 15) * Rabs v.
  Proof.
    intros n x v Fx Hx Hn HN Hv HB r. assert (I0 : 1 <= / val x) by (rewrite <- Rinv_1; apply Rinv_le_contravar; lra).
    assert (V0 : 47 / 100 * / val x <= - v). { destruct n as [|n]; [lia|]. destruct (Y_exists n (val x) ltac:(lra)) as [z Hz]. apply (Y_grow n (val x) z v Hx Hz Hv). }
    rewrite (Rabs_left1 v) in * by lra. pose proof (pos_INR n) as N0.
    destruct n as [|[|[|n]]]; [lia| | |].
    - destruct (Y_start x v Fx Hx Hv HB) as [F E]. split; [exact F|]. eapply Rle_trans; [exact E|]. apply Rmult_le_compat_r; lra.
    - destruct (Y_two x v Fx Hx Hv HB) as [F E]. split; [exact F|]. eapply Rle_trans; [exact E|]. apply Rmult_le_compat_r; lra.
    - destruct (Y_exists (S (S n)) (val x) ltac:(lra)) as [a Ha]. destruct (Y_pair n x a v Fx Hx ltac:(lia) Ha Hv HB) as (_ & _ & F & E).
      split; [exact F|]. eapply Rle_trans; [exact E|]. apply Rmult_le_compat_r; [lra|]. pose proof (ye_le n). rewrite !S_INR. lra.
  Qed.
End Fl.
