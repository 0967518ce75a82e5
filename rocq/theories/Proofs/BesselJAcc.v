(** * Rounding errors of j0 and j1 below 8 *)

From Coq Require Import ZArith Reals Bool Lra Lia List.
From Flocq Require Import Core IEEE754.BinarySingleNaN IEEE754.Binary IEEE754.Bits.
From Verif.Model Require Import Base Arith BesselTables Bessel.
From Verif.Float Require Import Bits64 Ieee Exact Platforms.
From Verif.Spec Require Import F64Spec Outcome BesselSpec.
From Verif.Proofs Require Import F64 F64Ops Lits Ext ExpBounds FlErr GammaAcc GserAcc HornerErr PolyZ BesselSeries BesselRat PosHorner BesselAcc.
Import ListNotations.
Open Scope R_scope.

Local Notation exp := Rtrigo_def.exp.

(** ** The real part *)

Lemma j_step1 : forall N Nh E1 E2 d1 d2 K t e0, Rabs N <= K -> K <= 1 -> 0 <= t <= 1 / 10 ^ 14 -> 0 <= e0 <= 1 / 10 ^ 14 ->
  Rabs (Nh - N) <= t * Rabs N + e0 -> Rabs E1 <= 64 -> Rabs E2 <= 64 -> Rabs (d1 - E1) <= 15 / 10 ^ 15 -> Rabs (d2 - E2) <= 15 / 10 ^ 15 ->
  Rabs (Nh * d1 * d2 - N * E1 * E2) <= t * Rabs (N * E1 * E2) + 1936 / 10 ^ 15 * K + 4097 * e0.
Proof.
  intros N Nh E1 E2 d1 d2 K t e0 HN HK Ht He HNh HE1 HE2 Hd1 Hd2. pose proof (Rabs_pos N) as N0.
  assert (B1 : Rabs Nh <= K * (1 + 1 / 10 ^ 14) + e0).
  { replace Nh with ((Nh - N) + N) by ring. eapply Rle_trans; [apply Rabs_triang|].
    assert (t * Rabs N <= 1 / 10 ^ 14 * K) by (apply Rmult_le_compat; lra). lra. }
  assert (D2 : Rabs d2 <= 64 + 15 / 10 ^ 15).
  { replace d2 with ((d2 - E2) + E2) by ring. eapply Rle_trans; [apply Rabs_triang|lra]. }
  replace (Nh * d1 * d2 - N * E1 * E2) with ((Nh - N) * (E1 * E2) + (Nh * ((d1 - E1) * d2) + Nh * (E1 * (d2 - E2)))) by ring.
  eapply Rle_trans; [apply Rabs_triang|]. eapply Rle_trans; [apply Rplus_le_compat_l, Rabs_triang|]. rewrite !Rabs_mult.
  set (A := Rabs (Nh - N)) in *. set (B := Rabs Nh) in *. set (a1 := Rabs E1) in *. set (a2 := Rabs E2) in *. set (c1 := Rabs (d1 - E1)) in *. set (c2 := Rabs (d2 - E2)) in *.
  set (n := Rabs N) in *. set (b2 := Rabs d2) in *.
  assert (P0 : 0 <= A /\ 0 <= B /\ 0 <= a1 /\ 0 <= a2 /\ 0 <= c1 /\ 0 <= c2 /\ 0 <= b2) by (repeat split; apply Rabs_pos).
  destruct P0 as (A0 & B0 & a10 & a20 & c10 & c20 & b20). clearbody A B a1 a2 c1 c2 n b2.
  assert (Q0 : 0 <= a1 * a2 <= 4096) by (split; [apply Rmult_le_pos; lra|replace 4096 with (64 * 64) by ring; apply Rmult_le_compat; lra]).
  assert (Q1 : A * (a1 * a2) <= (t * n + e0) * (a1 * a2)) by (apply Rmult_le_compat_r; lra).
  assert (Q2 : e0 * (a1 * a2) <= e0 * 4096) by (apply Rmult_le_compat_l; lra).
  assert (Q3 : c1 * b2 <= 15 / 10 ^ 15 * (64 + 15 / 10 ^ 15)) by (apply Rmult_le_compat; lra).
  assert (Q4 : a1 * c2 <= 64 * (15 / 10 ^ 15)) by (apply Rmult_le_compat; lra).
  assert (Q5 : B * (c1 * b2) + B * (a1 * c2) <= (K * (1 + 1 / 10 ^ 14) + e0) * (19201 / 10 ^ 16)).
  { rewrite <- Rmult_plus_distr_l. apply Rmult_le_compat; try lra. assert (0 <= c1 * b2) by (apply Rmult_le_pos; lra). assert (0 <= a1 * c2) by (apply Rmult_le_pos; lra). lra. }
  replace (t * (n * a1 * a2)) with (t * n * (a1 * a2)) by ring. replace ((t * n + e0) * (a1 * a2)) with (t * n * (a1 * a2) + e0 * (a1 * a2)) in Q1 by ring.
  set (Z := t * n * (a1 * a2)) in *. assert (K0 : 0 <= K) by lra. lra.
Qed.

Lemma j_step2 : forall p d1 d2 T m1 m2, T = p * d1 * d2 -> Rabs d2 <= 65 -> Rabs (m1 - p * d1) <= uu * Rabs (p * d1) + eta ->
  Rabs (m2 - m1 * d2) <= uu * Rabs (m1 * d2) + eta -> Rabs (m2 - T) <= 201 / 100 * uu * Rabs T + 67 * eta.
Proof.
  intros p d1 d2 T m1 m2 -> Hd H1 H2. pose proof eta_pos as E0. pose proof (Rabs_pos d2) as D0. pose proof (Rabs_pos (p * d1)) as P0.
  assert (A : Rabs (m1 * d2 - p * d1 * d2) <= uu * Rabs (p * d1 * d2) + 65 * eta).
  { replace (m1 * d2 - p * d1 * d2) with ((m1 - p * d1) * d2) by ring. rewrite (Rabs_mult (m1 - p * d1)), (Rabs_mult (p * d1)).
    apply Rle_trans with ((uu * Rabs (p * d1) + eta) * Rabs d2); [apply Rmult_le_compat_r; assumption|].
    assert (eta * Rabs d2 <= eta * 65) by (apply Rmult_le_compat_l; lra). lra. }
  set (T := p * d1 * d2) in *. set (w := m1 * d2) in *. pose proof (Rabs_pos T) as T0.
  assert (B : Rabs w <= (1 + uu) * Rabs T + 65 * eta).
  { replace w with ((w - T) + T) by ring. eapply Rle_trans; [apply Rabs_triang|]. lra. }
  replace (m2 - T) with ((m2 - w) + (w - T)) by ring. eapply Rle_trans; [apply Rabs_triang|].
  assert (C : uu * Rabs w <= uu * ((1 + uu) * Rabs T + 65 * eta)) by (apply Rmult_le_compat_l; [unfold uu; lra|exact B]).
  replace (uu * ((1 + uu) * Rabs T + 65 * eta)) with (uu * Rabs T + uu * (uu * Rabs T) + uu * (65 * eta)) in C by ring.
  assert (D : uu * (uu * Rabs T) <= 1 / 100 * (uu * Rabs T)) by (apply Rmult_le_compat_r; [apply Rmult_le_pos; [unfold uu; lra|exact T0]|unfold uu; lra]).
  assert (F : uu * (65 * eta) <= eta) by (unfold uu; lra). lra.
Qed.

Lemma j_step3 : forall p m2 S0 S r V c e, V = p / S0 -> 1 <= S0 -> mr (28 * vv) S S0 -> 0 <= c <= 1 / 10 ^ 13 -> 0 <= e ->
  Rabs (m2 - p) <= c * Rabs p + e -> Rabs (r - m2 / S) <= uu * Rabs (m2 / S) + eta ->
  Rabs (r - V) <= (c + 31 * uu) * Rabs V + 1001 / 1000 * e + eta.
Proof.
  intros p m2 S0 S r V c e HV HS M Hc He Hm Hr. pose proof eta_pos as E0.
  assert (I0 : 0 < / S0 <= 1) by (split; [apply Rinv_0_lt_compat; lra|replace 1 with (/ 1) by field; apply Rinv_le_contravar; lra]).
  apply mr_inv in M; [|lra]. apply mr_abs in M; [|unfold vv; lra]. rewrite (Rabs_pos_eq (/ S0)) in M by lra.
  assert (M' : Rabs (/ S - / S0) <= 2801 / 100 * vv * / S0) by (eapply Rle_trans; [exact M|apply Rmult_le_compat_r; [lra|unfold vv; lra]]). clear M.
  assert (V1 : Rabs V = Rabs p * / S0) by (rewrite HV; unfold Rdiv; rewrite Rabs_mult, (Rabs_pos_eq (/ S0)); lra).
  pose proof (Rabs_pos p) as P0. pose proof (Rabs_pos V) as V0.
  assert (S1 : Rabs (/ S) <= 1001 / 1000 * / S0 - / S0 / 10000).
  { replace (/ S) with ((/ S - / S0) + / S0) by ring. eapply Rle_trans; [apply Rabs_triang|]. rewrite (Rabs_pos_eq (/ S0)) by lra.
    assert (2801 / 100 * vv * / S0 <= 1 / 100000 * / S0) by (apply Rmult_le_compat_r; [lra|unfold vv; lra]). lra. }
  assert (A : Rabs (m2 / S - V) <= (c + 29 * uu) * Rabs V + (1001 / 1000 - 1 / 10000) * e).
  { replace (m2 / S - V) with ((m2 - p) * / S + p * (/ S - / S0)) by (rewrite HV; unfold Rdiv; ring).
    eapply Rle_trans; [apply Rabs_triang|]. rewrite !Rabs_mult.
    assert (B1 : Rabs p * Rabs (/ S - / S0) <= 2801 / 100 * vv * Rabs V).
    { rewrite V1. apply Rle_trans with (Rabs p * (2801 / 100 * vv * / S0)); [apply Rmult_le_compat_l; assumption|right; ring]. }
    assert (B2 : Rabs (m2 - p) * Rabs (/ S) <= (c * Rabs p + e) * (1001 / 1000 * / S0 - / S0 / 10000)).
    { apply Rmult_le_compat; try apply Rabs_pos; assumption. }
    assert (B3 : c * Rabs p * (1001 / 1000 * / S0 - / S0 / 10000) <= 1001 / 1000 * c * Rabs V).
    { rewrite V1. replace (c * Rabs p * (1001 / 1000 * / S0 - / S0 / 10000)) with ((1001 / 1000 - 1 / 10000) * (c * (Rabs p * / S0))) by (field; lra).
      replace (1001 / 1000 * c * (Rabs p * / S0)) with (1001 / 1000 * (c * (Rabs p * / S0))) by ring. apply Rmult_le_compat_r; [|lra].
      apply Rmult_le_pos; [lra|apply Rmult_le_pos; lra]. }
    assert (B4 : e * (1001 / 1000 * / S0 - / S0 / 10000) <= (1001 / 1000 - 1 / 10000) * e).
    { rewrite (Rmult_comm e). apply Rmult_le_compat_r; [exact He|lra]. }
    assert (B5 : 1 / 1000 * c * Rabs V <= 95 / 100 * uu * Rabs V) by (apply Rmult_le_compat_r; [exact V0|unfold uu; lra]).
    assert (B6 : 2801 / 100 * vv * Rabs V <= 2803 / 100 * uu * Rabs V) by (apply Rmult_le_compat_r; [exact V0|unfold uu, vv; lra]).
    assert (B7 : 0 <= uu * Rabs V) by (apply Rmult_le_pos; [unfold uu; lra|exact V0]). lra. }
  assert (C : Rabs (m2 / S) <= 11 / 10 * Rabs V + 2 * e).
  { replace (m2 / S) with ((m2 / S - V) + V) by ring. eapply Rle_trans; [apply Rabs_triang|].
    assert ((c + 29 * uu) * Rabs V <= 1 / 10 * Rabs V) by (apply Rmult_le_compat_r; [exact V0|unfold uu; lra]). lra. }
  replace (r - V) with ((r - m2 / S) + (m2 / S - V)) by ring. eapply Rle_trans; [apply Rabs_triang|].
  assert (D : uu * Rabs (m2 / S) <= uu * (11 / 10 * Rabs V + 2 * e)) by (apply Rmult_le_compat_l; [unfold uu; lra|exact C]).
  assert (F : uu * (2 * e) <= 1 / 10000 * e) by (rewrite <- Rmult_assoc; apply Rmult_le_compat_r; [exact He|unfold uu; lra]).
  assert (G : 1 / 10 * uu * Rabs V <= uu * Rabs V) by (apply Rmult_le_compat_r; [exact V0|unfold uu; lra]).
  lra.
Qed.

(** the whole chain *)
Lemma j_core : forall N Nh E1 E2 d1 d2 S0 S m1 m2 r K t e0, Rabs N <= K -> K <= 1 -> 0 <= t <= 1 / 10 ^ 14 -> 0 <= e0 <= 1 / 10 ^ 14 ->
  Rabs (Nh - N) <= t * Rabs N + e0 -> Rabs E1 <= 64 -> Rabs E2 <= 64 -> Rabs (d1 - E1) <= 15 / 10 ^ 15 -> Rabs (d2 - E2) <= 15 / 10 ^ 15 ->
  1 <= S0 -> mr (28 * vv) S S0 ->
  Rabs (m1 - Nh * d1) <= uu * Rabs (Nh * d1) + eta -> Rabs (m2 - m1 * d2) <= uu * Rabs (m1 * d2) + eta -> Rabs (r - m2 / S) <= uu * Rabs (m2 / S) + eta ->
  Rabs (r - N * E1 * E2 / S0) <= (t + 34 * uu) * Rabs (N * E1 * E2 / S0) + 2 / 10 ^ 12 * K + 5000 * e0 + 70 * eta.
Proof.
  intros N Nh E1 E2 d1 d2 S0 S m1 m2 r K t e0 HN HK Ht He HNh HE1 HE2 Hd1 Hd2 HS MS H1 H2 H3. pose proof eta_pos as E0.
  pose proof (j_step1 N Nh E1 E2 d1 d2 K t e0 HN HK Ht He HNh HE1 HE2 Hd1 Hd2) as A.
  assert (D2 : Rabs d2 <= 65) by (replace d2 with ((d2 - E2) + E2) by ring; eapply Rle_trans; [apply Rabs_triang|lra]).
  pose proof (j_step2 Nh d1 d2 _ m1 m2 eq_refl D2 H1 H2) as B.
  set (T := Nh * d1 * d2) in *. set (p := N * E1 * E2) in *. clearbody T p.
  pose proof (Rabs_pos N) as N0. assert (K0 : 0 <= K) by lra. pose proof (Rabs_pos p) as P0.
  assert (BT : Rabs T <= (1 + t) * Rabs p + 1936 / 10 ^ 15 * K + 4097 * e0).
  { replace T with ((T - p) + p) by ring. eapply Rle_trans; [apply Rabs_triang|]. lra. }
  assert (C : Rabs (m2 - p) <= (t + 21 / 10 * uu) * Rabs p + (1937 / 10 ^ 15 * K + 4098 * e0 + 67 * eta)).
  { replace (m2 - p) with ((m2 - T) + (T - p)) by ring. eapply Rle_trans; [apply Rabs_triang|].
    assert (X : 201 / 100 * uu * Rabs T <= 201 / 100 * uu * ((1 + t) * Rabs p + 1936 / 10 ^ 15 * K + 4097 * e0)) by (apply Rmult_le_compat_l; [unfold uu; lra|exact BT]).
    assert (X1 : 201 / 100 * uu * ((1 + t) * Rabs p) <= 205 / 100 * uu * Rabs p).
    { rewrite <- Rmult_assoc. apply Rmult_le_compat_r; [exact P0|].
      assert (uu * t <= uu * (1 / 10 ^ 14)) by (apply Rmult_le_compat_l; [unfold uu; lra|lra]). assert (0 < uu) by (unfold uu; lra). lra. }
    assert (X2 : 201 / 100 * uu * (1936 / 10 ^ 15 * K) <= 1 / 10 ^ 15 * K) by (rewrite <- Rmult_assoc; apply Rmult_le_compat_r; [exact K0|unfold uu; lra]).
    assert (X3 : 201 / 100 * uu * (4097 * e0) <= 1 * e0) by (rewrite <- Rmult_assoc; apply Rmult_le_compat_r; [lra|unfold uu; lra]).
    assert (X4 : 205 / 100 * uu * Rabs p <= 21 / 10 * uu * Rabs p) by (apply Rmult_le_compat_r; [exact P0|unfold uu; lra]). lra. }
  assert (UB : 21 / 10 * uu <= 1 / 10 ^ 14 /\ 0 < uu) by (unfold uu; lra).
  pose proof (j_step3 p m2 S0 S r _ (t + 21 / 10 * uu) (1937 / 10 ^ 15 * K + 4098 * e0 + 67 * eta) eq_refl HS MS ltac:(lra) ltac:(lra) C H3) as R.
  eapply Rle_trans; [exact R|]. pose proof (Rabs_pos (p / S0)) as V0. set (V := Rabs (p / S0)) in *. clearbody V.
  assert (0 <= uu * V) by (apply Rmult_le_pos; lra). lra.
Qed.

Lemma eta_20 : eta <= 1 / 10 ^ 20.
Proof. eapply Rle_trans; [apply eta_small|]. unfold Rdiv. rewrite Rmult_1_l. apply Rinv_le_contravar; [apply pow_lt; lra|]. apply Rle_pow; [lra|lia]. Qed.

Section Fl.
  Context (P : platform).
  Notation mul := (f64_mul P). Notation add := (f64_add P). Notation sub := (f64_sub P). Notation div := (f64_div P).

  Lemma root_sub : forall y c, fin y -> 0 <= val y <= 64 -> 1 <= R_of_dec c <= 50 ->
    fin (sub y (f64_lit c)) /\ Rabs (val (sub y (f64_lit c)) - (val y - R_of_dec c)) <= 15 / 10 ^ 15 /\ Rabs (val y - R_of_dec c) <= 64 /\ Rabs (val (sub y (f64_lit c))) <= 65.
  Proof.
    intros y c Fy Hy Hc. assert (EE : eta <= 1 / 10 ^ 20) by exact eta_20.
    destruct (lit_fl c) as [Fc Ec].
    { rewrite Rabs_pos_eq by lra. apply (below_1000 _ 50); lra. }
    rewrite (Rabs_pos_eq (R_of_dec c)) in Ec by lra. set (X := R_of_dec c) in *. set (u := f64_lit c) in *. clearbody X u.
    assert (uu * X <= uu * 50) by (apply Rmult_le_compat_l; [unfold uu; lra|lra]).
    assert (Ec' : Rabs (val u - X) <= 51 * uu) by (unfold uu in *; lra). apply Rabs_le_inv in Ec'.
    assert (BD : Rabs (val y - val u) <= 635 / 10) by (apply Rabs_le; unfold uu in *; lra).
    destruct (sub_fl P y u Fy Fc (below_1000 _ (635 / 10) BD ltac:(lra))) as [Fd Ed].
    assert (ED' : Rabs (val (sub y u) - (val y - val u)) <= 64 * uu).
    { assert (uu * Rabs (val y - val u) <= uu * (635 / 10)) by (apply Rmult_le_compat_l; [unfold uu; lra|exact BD]). unfold uu in *; lra. }
    clear Ed Ec EE H. apply Rabs_le_inv in ED', BD. split; [exact Fd|]. repeat split; apply Rabs_le; unfold uu in *; lra.
  Qed.

  (** products and quotient of the last steps *)
  Lemma j_tail : forall y nh sd c1 c2 N S0 K t e0, fin y -> fin nh -> fin sd -> 0 <= val y <= 64 -> 1 <= R_of_dec c1 <= 50 -> 1 <= R_of_dec c2 <= 50 ->
    Rabs N <= K -> K <= 1 -> 0 <= t <= 1 / 10 ^ 14 -> 0 <= e0 <= 1 / 10 ^ 14 -> Rabs (val nh - N) <= t * Rabs N + e0 ->
    1 <= S0 <= 2 -> mr (28 * vv) (val sd) S0 ->
    let r := div (mul (mul nh (sub y (f64_lit c1))) (sub y (f64_lit c2))) sd in
    let V := N * (val y - R_of_dec c1) * (val y - R_of_dec c2) / S0 in
    fin r /\ Rabs (val r - V) <= (t + 34 * uu) * Rabs V + 2 / 10 ^ 12 * K + 5000 * e0 + 70 * eta.
  Proof.
    intros y nh sd c1 c2 N S0 K t e0 Fy Fn Fs Hy Hc1 Hc2 HN HK Ht He Hn HS MS r V. unfold r, V. clear r V.
    destruct (root_sub y c1 Fy Hy Hc1) as (F1 & A1 & B1 & C1). destruct (root_sub y c2 Fy Hy Hc2) as (F2 & A2 & B2 & C2).
    set (d1 := sub y (f64_lit c1)) in *. set (d2 := sub y (f64_lit c2)) in *. clearbody d1 d2.
    pose proof eta_le1 as E1. pose proof eta_pos as E0. pose proof (Rabs_pos N) as N0.
    assert (BN : Rabs (val nh) <= 2).
    { replace (val nh) with ((val nh - N) + N) by ring. eapply Rle_trans; [apply Rabs_triang|].
      assert (t * Rabs N <= 1 / 10 ^ 14 * 1) by (apply Rmult_le_compat; lra). lra. }
    assert (Bm1 : Rabs (val nh * val d1) <= 130) by (rewrite Rabs_mult; replace 130 with (2 * 65) by ring; apply Rmult_le_compat; try apply Rabs_pos; assumption).
    destruct (mul_fl P nh d1 Fn F1 (below_1000 _ 130 Bm1 ltac:(lra))) as [Fm1 Em1].
    assert (Cm1 : Rabs (val (mul nh d1)) <= 300).
    { replace (val (mul nh d1)) with ((val (mul nh d1) - val nh * val d1) + val nh * val d1) by ring. eapply Rle_trans; [apply Rabs_triang|].
      assert (uu * Rabs (val nh * val d1) <= 1 * Rabs (val nh * val d1)) by (apply Rmult_le_compat_r; [apply Rabs_pos|unfold uu; lra]). lra. }
    set (m1 := mul nh d1) in *. clearbody m1.
    assert (Bm2 : Rabs (val m1 * val d2) <= 19500) by (rewrite Rabs_mult; replace 19500 with (300 * 65) by ring; apply Rmult_le_compat; try apply Rabs_pos; assumption).
    destruct (mul_fl P m1 d2 Fm1 F2 (below_1000 _ 19500 Bm2 ltac:(lra))) as [Fm2 Em2].
    assert (Cm2 : Rabs (val (mul m1 d2)) <= 40000).
    { replace (val (mul m1 d2)) with ((val (mul m1 d2) - val m1 * val d2) + val m1 * val d2) by ring. eapply Rle_trans; [apply Rabs_triang|].
      assert (uu * Rabs (val m1 * val d2) <= 1 * Rabs (val m1 * val d2)) by (apply Rmult_le_compat_r; [apply Rabs_pos|unfold uu; lra]). lra. }
    set (m2 := mul m1 d2) in *. clearbody m2.
    pose proof (mr_near _ _ _ MS ltac:(unfold vv; lra) ltac:(lra)) as [SL _].
    assert (SB : 1 / 2 <= val sd). { apply Rle_trans with (2 := SL). assert (S0 * (2 * (28 * vv)) <= 2 * (1 / 10)) by (apply Rmult_le_compat; unfold vv; lra). lra. }
    assert (IS : 0 < / val sd <= 2). { split; [apply Rinv_0_lt_compat; lra|]. replace 2 with (/ (1 / 2)) by field. apply Rinv_le_contravar; lra. }
    assert (Bq : Rabs (val m2 / val sd) <= 80000).
    { unfold Rdiv. rewrite Rabs_mult, (Rabs_pos_eq (/ val sd)) by lra. replace 80000 with (40000 * 2) by ring. apply Rmult_le_compat; [apply Rabs_pos|lra|exact Cm2|lra]. }
    destruct (div_fl P m2 sd Fm2 Fs ltac:(lra) (below_1000 _ 80000 Bq ltac:(lra))) as [Fr Er].
    split; [exact Fr|].
    exact (j_core N (val nh) _ _ (val d1) (val d2) S0 (val sd) (val m1) (val m2) _ K t e0 HN HK Ht He Hn B1 B2 A1 A2 (proj1 HS) MS Em1 Em2 Er).
  Qed.

  (** the three values computed by [rat] *)
  Lemma rat_fl : forall x r s K, fin x -> Rabs (val x) < 8 -> forallb okd r = true -> forallb okd s = true -> length r = 7%nat -> length s = 7%nat ->
    tab r 64 <= K -> 1 <= tab s 0 -> tab s 64 <= 2 ->
    exists y nh sd, @rat (ieee P) x r s = (y, nh, sd) /\ fin y /\ fin nh /\ fin sd /\ 0 <= val y <= 64 /\ Rabs (val y - val x * val x) <= 65 * uu /\
      mr (35 * vv) (val nh) (tab r (64 - val y)) /\ 0 < tab r (64 - val y) <= K /\ mr (28 * vv) (val sd) (tab s (val y)) /\ 1 <= tab s (val y) <= 2.
  Proof.
    intros x r s K Fx Hx Okr Oks Lr Ls HK Hs0 Hs64. unfold rat, powi2. ieee_simpl.
    destruct lit_64 as [F64 V64]. destruct (square P x 8 Fx ltac:(lia) Hx) as (Fy & By & Ey & _). cbv zeta in *.
    set (y := mul x x) in *. clearbody y. change (IZR (8 * 8)) with 64 in *.
    destruct (refl_sub P y (f64_lit 64.0) 64 Fy F64 V64 By ltac:(lra)) as (Fz & Mz & Bz).
    set (z := sub (f64_lit 64.0) y) in *. clearbody z.
    assert (Nr : r <> []) by (intros ->; discriminate). assert (Ns : s <> []) by (intros ->; discriminate).
    destruct (horner_fl P z r Fz Bz Nr Okr ltac:(lia)) as [Fn Mn]. destruct (horner_fl P y s Fy ltac:(lra) Ns Oks ltac:(lia)) as [Fs Ms].
    rewrite Lr in Mn. rewrite Ls in Ms. replace (4 * INR 7) with 28 in * by (simpl; lra).
    exists y, (@horner_add_first (ieee P) z r), (@horner_add_first (ieee P) y s). split; [reflexivity|].
    pose proof (tab_mr r vv (val z) (64 - val y) Okr ltac:(lra) Mz) as T. rewrite Lr in T. replace (INR 7) with 7 in T by (simpl; lra).
    pose proof (mr_trans _ _ _ _ _ Mn T) as T2. replace (28 * vv + 7 * vv) with (35 * vv) in T2 by ring.
    pose proof (tab_mono r (64 - val y) 64 Okr ltac:(lra)) as R1. pose proof (tab_pos r (64 - val y) Okr Nr ltac:(lra)) as R0.
    pose proof (tab_mono s 0 (val y) Oks ltac:(lra)) as S1. pose proof (tab_mono s (val y) 64 Oks ltac:(lra)) as S2.
    assert (Y2 : Rabs (val y - val x * val x) <= 65 * uu) by (pose proof eta_20; unfold uu in *; lra).
    repeat split; try assumption; lra.
  Qed.

  Lemma ser_j : forall n x v, (n = 0 \/ n = 1)%nat -> Rabs x < 8 -> is_J n x v ->
    Rabs (v - bterm (-1) n x 0 * pr (-1) n 0 26 (x * x)) <= Rabs (bterm (-1) n x 0) / 10 ^ 16.
  Proof.
    intros n x v Hn Hx Hv. assert (X : x * x <= 64) by (apply Rabs_lt_inv in Hx; nra).
    replace (10 ^ 16) with (IZR (10 ^ 16)) by (rewrite pow_IZR; reflexivity).
    apply (series_near 64); try assumption; try lia; try (rewrite Rabs_left; lra); destruct Hn as [-> | ->]; vm_compute; reflexivity.
  Qed.

  Lemma xj_range : (1 <= R_of_dec XJ00d <= 50 /\ 1 <= R_of_dec XJ10d <= 50) /\ (1 <= R_of_dec XJ01d <= 50 /\ 1 <= R_of_dec XJ11d <= 50).
  Proof.
    assert (G : forall c, (dz_ok 60 c && (10 ^ 60 <=? dz 60 c) && (dz 60 c <=? 50 * 10 ^ 60))%Z%bool = true -> 1 <= R_of_dec c <= 50).
    { intros c H. apply andb_prop in H. destruct H as [H H3]. apply andb_prop in H. destruct H as [H1 H2].
      apply Z.leb_le in H2, H3. rewrite (dz_eq 60 c ltac:(lia) H1). apply IZR_le in H2, H3. rewrite mult_IZR in H3.
      assert (T : 0 < IZR (10 ^ 60)) by (apply IZR_lt; reflexivity). set (D := IZR (10 ^ 60)) in *. clearbody D.
      split; apply Rmult_le_reg_r with D; try exact T; replace (IZR (dz 60 c) / D * D) with (IZR (dz 60 c)) by (field; lra); lra. }
    repeat split; apply G; vm_compute; reflexivity.
  Qed.

  Lemma j0_real : forall V v W W0 r, Rabs (V - W) <= 2 / 10 ^ 15 -> Rabs W <= 101 / 100 -> Rabs (W - W0) <= 65 * uu / 3 -> Rabs (v - W0) <= 1 / 10 ^ 16 ->
    Rabs (r - V) <= (35 * vv + 1 * / 10 ^ 16 + 34 * uu) * Rabs V + 2 / 10 ^ 12 * (57 / 10000) + 5000 * 0 + 70 * eta -> Rabs (r - v) <= 3 / 10 ^ 14.
  Proof.
    intros V v W W0 r H1 H2 H3 H4 H5. pose proof eta_20 as E.
    assert (BV : Rabs V <= 102 / 100).
    { replace V with ((V - W) + W) by ring. eapply Rle_trans; [apply Rabs_triang|]. lra. }
    assert (X : (35 * vv + 1 * / 10 ^ 16 + 34 * uu) * Rabs V <= (35 * vv + 1 * / 10 ^ 16 + 34 * uu) * (102 / 100)) by (apply Rmult_le_compat_l; [unfold vv, uu; lra|exact BV]).
    replace (r - v) with ((r - V) + (V - W) + (W - W0) + - (v - W0)) by ring.
    eapply Rle_trans; [apply Rabs_triang|]. rewrite Rabs_Ropp. eapply Rle_trans; [apply Rplus_le_compat_r, Rabs_triang|].
    eapply Rle_trans; [apply Rplus_le_compat_r, Rplus_le_compat_r, Rabs_triang|]. unfold vv, uu in *. lra.
  Qed.

  Lemma mr_rel35 : forall a b, mr (35 * vv) a b -> Rabs (a - b) <= (35 * vv + 1 * / 10 ^ 16) * Rabs b + 0.
  Proof.
    intros a b M. apply mr_abs in M; [|unfold vv; lra]. rewrite Rplus_0_r. eapply Rle_trans; [exact M|]. apply Rmult_le_compat_r; [apply Rabs_pos|unfold vv; lra].
  Qed.

  Lemma j0_fl : forall x v, fin x -> Rabs (val x) < 8 -> is_J 0 (val x) v ->
    fin (@j0 (ieee P) x) /\ Rabs (val (@j0 (ieee P) x) - v) <= 3 / 10 ^ 14.
  Proof.
    intros x v Fx Hx Hv. destruct lit_8 as [F8 V8].
    destruct (rat_fl x J0R J0S (IZR 57 / IZR 10000) Fx Hx eq_refl eq_refl eq_refl eq_refl) as (y & nh & sd & ER & Fy & Fn & Fs & By & Ey & Mn & Bn & Ms & Bs).
    { apply (tab_le_z J0R 64 57 10000); [vm_compute; reflexivity|reflexivity|vm_compute; reflexivity]. }
    { replace 1 with (IZR 1 / IZR 1) by field. apply (tab_ge_z J0S 0 1 1); [vm_compute; reflexivity|reflexivity|vm_compute; reflexivity]. }
    { replace 2 with (IZR 2 / IZR 1) by field. apply (tab_le_z J0S 64 2 1); [vm_compute; reflexivity|reflexivity|vm_compute; reflexivity]. }
    unfold j0. rewrite ER. ieee_simpl. rewrite (below x _ 8 Fx F8 V8 Hx).
    destruct xj_range as [[X1 X2] _].
    destruct (j_tail y nh sd XJ00d XJ10d (tab J0R (64 - val y)) (tab J0S (val y)) (57 / 10000) (35 * vv + 1 * / 10 ^ 16) 0 Fy Fn Fs By X1 X2) as [Fr Er].
    { rewrite Rabs_pos_eq by lra. apply Bn. }
    { lra. } { unfold vv; lra. } { lra. } { apply mr_rel35, Mn. } { exact Bs. } { exact Ms. }
    split; [exact Fr|].
    assert (Q : 0 <= val x * val x <= 64) by (apply Rabs_lt_inv in Hx; nra).
    pose proof (ser_j 0 (val x) v ltac:(lia) Hx Hv) as S. rewrite bterm_0 in S.
    replace ((val x / 2) ^ 0 / INR (fact 0)) with 1 in S by (simpl; field). rewrite Rmult_1_l, Rabs_R1 in S.
    pose proof (pr_j_lip 0 (val y) (val x * val x) ltac:(lia) By Q) as L.
    assert (L' : Rabs (pr (-1) 0 0 26 (val y) - pr (-1) 0 0 26 (val x * val x)) <= 65 * uu / 3) by lra.
    exact (j0_real _ v _ _ _ (rat_j0 _ By) (pr_j_bound 0 _ ltac:(lia) By) L' S Er).
  Qed.

  (** j1: X is the argument *)
  Lemma j1_real : forall X T V v W W0 r, Rabs X < 8 -> V = X / 2 * T -> Rabs (T - W) <= 1 / 10 ^ 15 -> Rabs W <= 101 / 100 -> Rabs (W - W0) <= 65 * uu / 3 ->
    Rabs (v - X / 2 * W0) <= Rabs (X / 2) / 10 ^ 16 ->
    Rabs (r - V) <= (37 * vv + 34 * uu) * Rabs V + 2 / 10 ^ 12 * (7 / 10000 * Rabs X) + 5000 * eta + 70 * eta ->
    Rabs (r - v) <= 1 / 10 ^ 14 * Rabs X + 5070 * eta.
  Proof.
    intros X T V v W W0 r HX HV H1 H2 H3 H4 H5. pose proof (Rabs_pos X) as X0.
    assert (XH : Rabs (X / 2) = Rabs X / 2) by (unfold Rdiv; rewrite Rabs_mult, (Rabs_pos_eq (/ 2)); lra). rewrite XH in H4.
    assert (BT : Rabs T <= 102 / 100).
    { replace T with ((T - W) + W) by ring. eapply Rle_trans; [apply Rabs_triang|]. lra. }
    assert (BV : Rabs V <= Rabs X * (51 / 100)).
    { rewrite HV, Rabs_mult, XH. replace (Rabs X * (51 / 100)) with (Rabs X / 2 * (102 / 100)) by field. apply Rmult_le_compat_l; lra. }
    assert (Y : (37 * vv + 34 * uu) * Rabs V <= (37 * vv + 34 * uu) * (Rabs X * (51 / 100))) by (apply Rmult_le_compat_l; [unfold vv, uu; lra|exact BV]).
    assert (Z : Rabs (V - X / 2 * W0) <= Rabs X / 2 * (1 / 10 ^ 15 + 65 * uu / 3)).
    { rewrite HV. replace (X / 2 * T - X / 2 * W0) with (X / 2 * ((T - W) + (W - W0))) by ring. rewrite Rabs_mult, XH.
      apply Rmult_le_compat_l; [lra|]. eapply Rle_trans; [apply Rabs_triang|]. lra. }
    replace (r - v) with ((r - V) + (V - X / 2 * W0) + - (v - X / 2 * W0)) by ring.
    eapply Rle_trans; [apply Rabs_triang|]. rewrite Rabs_Ropp. eapply Rle_trans; [apply Rplus_le_compat_r, Rabs_triang|].
    unfold vv, uu in *. lra.
  Qed.

  (** x times the numerator *)
  Lemma xn_fl : forall x nh N, fin x -> Rabs (val x) < 8 -> fin nh -> mr (35 * vv) (val nh) N -> 0 < N <= 7 / 10000 ->
    fin (mul x nh) /\ Rabs (val (mul x nh) - val x * N) <= 37 * vv * Rabs (val x * N) + eta.
  Proof.
    intros x nh N Fx Hx Fn M BN. apply mr_abs in M; [|unfold vv; lra]. rewrite (Rabs_pos_eq N) in M by lra. pose proof (Rabs_pos (val x)) as X0.
    assert (M' : Rabs (val nh - N) <= 351 / 10 * vv * N) by (eapply Rle_trans; [exact M|apply Rmult_le_compat_r; [lra|unfold vv; lra]]). clear M.
    assert (A : Rabs (val x * val nh - val x * N) <= 351 / 10 * vv * (Rabs (val x) * N)).
    { replace (val x * val nh - val x * N) with (val x * (val nh - N)) by ring. rewrite Rabs_mult.
      apply Rle_trans with (Rabs (val x) * (351 / 10 * vv * N)); [apply Rmult_le_compat_l; assumption|right; ring]. }
    assert (B : Rabs (val x * N) = Rabs (val x) * N) by (rewrite Rabs_mult, (Rabs_pos_eq N); lra).
    assert (N0 : 0 <= Rabs (val x) * N <= 8 * (7 / 10000)) by (split; [apply Rmult_le_pos; lra|apply Rmult_le_compat; lra]).
    set (w := Rabs (val x) * N) in *. clearbody w.
    assert (C : Rabs (val x * val nh) <= 101 / 100 * w).
    { replace (val x * val nh) with ((val x * val nh - val x * N) + val x * N) by ring. eapply Rle_trans; [apply Rabs_triang|]. rewrite B.
      assert (351 / 10 * vv * w <= 1 / 100 * w) by (apply Rmult_le_compat_r; [lra|unfold vv; lra]). lra. }
    destruct (mul_fl P x nh Fx Fn (below_1000 (Rabs (val x * val nh)) 1 ltac:(lra) ltac:(lra))) as [Fm Em]. split; [exact Fm|]. rewrite B.
    replace (val (mul x nh) - val x * N) with ((val (mul x nh) - val x * val nh) + (val x * val nh - val x * N)) by ring.
    eapply Rle_trans; [apply Rabs_triang|].
    assert (D : uu * Rabs (val x * val nh) <= uu * (101 / 100 * w)) by (apply Rmult_le_compat_l; [unfold uu; lra|exact C]).
    assert (G : uu * (101 / 100 * w) <= 15 / 10 * vv * w) by (rewrite <- Rmult_assoc; apply Rmult_le_compat_r; [lra|unfold uu, vv; lra]).
    assert (0 <= vv * w) by (apply Rmult_le_pos; [unfold vv|]; lra). lra.
  Qed.

  Lemma j1_fl : forall x v, fin x -> Rabs (val x) < 8 -> is_J 1 (val x) v ->
    fin (@j1 (ieee P) x) /\ Rabs (val (@j1 (ieee P) x) - v) <= 1 / 10 ^ 14 * Rabs (val x) + 5070 * eta.
  Proof.
    intros x v Fx Hx Hv. destruct lit_8 as [F8 V8].
    destruct (rat_fl x J1R J1S (IZR 7 / IZR 10000) Fx Hx eq_refl eq_refl eq_refl eq_refl) as (y & nh & sd & ER & Fy & Fn & Fs & By & Ey & Mn & Bn & Ms & Bs).
    { apply (tab_le_z J1R 64 7 10000); [vm_compute; reflexivity|reflexivity|vm_compute; reflexivity]. }
    { replace 1 with (IZR 1 / IZR 1) by field. apply (tab_ge_z J1S 0 1 1); [vm_compute; reflexivity|reflexivity|vm_compute; reflexivity]. }
    { replace 2 with (IZR 2 / IZR 1) by field. apply (tab_le_z J1S 64 2 1); [vm_compute; reflexivity|reflexivity|vm_compute; reflexivity]. }
    unfold j1. rewrite ER. ieee_simpl. rewrite (below x _ 8 Fx F8 V8 Hx).
    destruct xj_range as [_ [X1 X2]]. pose proof (Rabs_pos (val x)) as X0.
    destruct (xn_fl x nh (tab J1R (64 - val y)) Fx Hx Fn Mn Bn) as [Fm Em].
    destruct (j_tail y (mul x nh) sd XJ01d XJ11d (val x * tab J1R (64 - val y)) (tab J1S (val y)) (7 / 10000 * Rabs (val x)) (37 * vv) eta Fy Fm Fs By X1 X2) as [Fr Er].
    { rewrite Rabs_mult, (Rabs_pos_eq (tab _ _)) by lra. rewrite Rmult_comm. apply Rmult_le_compat_r; [exact X0|apply Bn]. }
    { lra. } { unfold vv; lra. } { split; [left; apply eta_pos|]. pose proof eta_20; lra. } { exact Em. } { exact Bs. } { exact Ms. }
    split; [exact Fr|].
    assert (Q : 0 <= val x * val x <= 64) by (apply Rabs_lt_inv in Hx; nra).
    pose proof (ser_j 1 (val x) v ltac:(lia) Hx Hv) as S. rewrite bterm_0 in S.
    replace ((val x / 2) ^ 1 / INR (fact 1)) with (val x / 2) in S by (simpl; field).
    pose proof (pr_j_lip 1 (val y) (val x * val x) ltac:(lia) By Q) as L.
    assert (L' : Rabs (pr (-1) 1 0 26 (val y) - pr (-1) 1 0 26 (val x * val x)) <= 65 * uu / 3) by lra.
    refine (j1_real (val x) _ _ v _ _ _ Hx _ (rat_j1 _ By) (pr_j_bound 1 _ ltac:(lia) By) L' S Er).
    field. lra.
  Qed.
End Fl.
