(** * Rounding errors of j0, j1, y0 and y1 from 8 on *)

From Coq Require Import ZArith Reals Bool Lra Lia List.
From Flocq Require Import Core IEEE754.BinarySingleNaN IEEE754.Binary IEEE754.Bits.
From Verif.Model Require Import Base Arith BesselTables Bessel.
From Verif.Float Require Import Bits64 Ieee Exact Platforms.
From Verif.Spec Require Import F64Spec Outcome BesselSpec Bessel2Spec TrigSpec.
From Verif.Proofs Require Import F64 F64Ops Lits Ext ExpBounds FlErr GammaAcc GserAcc HornerErr PolyZ BesselSeries BesselRat PosHorner BesselAcc BesselJAcc LnGammaFl EulerGamma PiBounds SecondSeries SecondRat Domains KAcc KRat KPoly YAcc Ideal JYrat JYasym.
Import ListNotations.
Open Scope R_scope.
Local Notation cos := Rtrigo_def.cos.
Local Notation sin := Rtrigo_def.sin.
Local Notation sqrt := R_sqrt.sqrt.
Local Notation PI := Rtrigo1.PI.

(** ** a libm that rounds correctly *)
Lemma ideal_trig : forall r c, rounds r c -> Rabs c <= 1 -> fin r /\ Rabs (Binary.B2R r - c) <= bpow radix2 (-50).
Proof.
  intros r c H Hc. destruct (fl23 r c H) as [F E]; [apply Rle_trans with (bpow radix2 0); [exact Hc|apply bpow_le; lia]|]. split; [exact F|]. rewrite <- (val_fin r F).
  eapply Rle_trans; [exact E|]. pose proof eta_20 as E20. replace (bpow radix2 (-50)) with (8 * uu) by (unfold uu; simpl; lra). assert (uu * Rabs c <= uu * 1) by (apply Rmult_le_compat_l; [unfold uu; lra|exact Hc]). unfold uu in *. lra.
Qed.
Lemma abs_cos : forall t, Rabs (cos t) <= 1.
Proof. intros t. apply Rabs_le. pose proof (COS_bound t). lra. Qed.
Lemma abs_sin : forall t, Rabs (sin t) <= 1.
Proof. intros t. apply Rabs_le. pose proof (SIN_bound t). lra. Qed.
Lemma ideal_cos_accurate : forall c f, accurate_cos (p_cos (ideal c f)).
Proof.
  intros c f t F. cbn [p_cos ideal]. unfold ideal_even. destruct t; try discriminate F; apply ideal_trig; try apply round_to_f64_spec; apply abs_cos.
Qed.
Lemma ideal_sin_accurate : forall c f, accurate_sin (p_sin (ideal c f)).
Proof.
  intros c f t F. cbn [p_sin ideal]. unfold ideal_odd. destruct t; try discriminate F.
  - split; [reflexivity|]. change (Binary.B2R (B754_zero s)) with 0. rewrite sin_0, Rminus_0_r, Rabs_R0. apply bpow_ge_0.
  - apply ideal_trig; [apply round_to_f64_spec|apply abs_sin].
Qed.

(** ** Horner with larger coefficients *)
Definition okw (c : dec) : bool := (dz_ok 21 c && (Z.abs (dz 21 c) <=? 2 * 10 ^ 21))%Z%bool.
Lemma okw_range : forall c, okw c = true -> Rabs (R_of_dec c) <= 2.
Proof.
  intros c H. unfold okw in H. apply andb_prop in H. destruct H as [H1 H2]. apply Z.leb_le, IZR_le in H2. rewrite abs_IZR, mult_IZR in H2.
  rewrite (dz_eq 21 c ltac:(lia) H1). assert (T : 0 < IZR (10 ^ 21)) by (apply IZR_lt; reflexivity). set (D := IZR (10 ^ 21)) in *. clearbody D.
  unfold Rdiv. rewrite Rabs_mult, (Rabs_pos_eq (/ D)) by (left; apply Rinv_0_lt_compat, T). apply Rmult_le_reg_r with D; [exact T|]. rewrite Rmult_assoc, Rinv_l by lra. lra.
Qed.
Lemma tab_size_w : forall l x, forallb okw l = true -> 0 <= x <= 65 -> 0 <= tab (map dabs l) x <= 2 * 66 ^ length l.
Proof.
  induction l as [|c l IH]; intros x H Hx; [change (0 <= 0 <= 2 * 1); lra|]. cbn [forallb] in H. apply andb_prop in H. destruct H as [H1 H2].
  apply okw_range in H1. specialize (IH x H2 Hx). change (tab (map dabs (c :: l)) x) with (R_of_dec (dabs c) + x * tab (map dabs l) x). rewrite dabs_eq. cbn [length pow].
  pose proof (Rabs_pos (R_of_dec c)).
  assert (0 <= x * tab (map dabs l) x <= 65 * (2 * 66 ^ length l)) by (split; [apply Rmult_le_pos; lra|apply Rmult_le_compat; lra]).
  assert (1 <= 66 ^ length l) by (apply pow_R1_Rle; lra). lra.
Qed.

Section Fl.
  Context (P : platform).
  Local Notation mul := (f64_mul P). Local Notation add := (f64_add P). Local Notation sub := (f64_sub P). Local Notation div := (f64_div P).

  Lemma horner_w : forall (x : f64) l, fin x -> Rabs (val x) <= 65 -> forallb okw l = true -> l <> [] -> (length l <= 19)%nat ->
    fin (@horner_add_first (ieee P) x l) /\
    Rabs (val (@horner_add_first (ieee P) x l) - tab l (val x)) <= 3 * INR (length l) * uu * tab (map dabs l) (Rabs (val x)) + 70 ^ length l * eta.
  Proof.
    intros x l Fx Hx. pose proof eta_pos as E0. pose proof eta_20 as E20. induction l as [|c l IH]; intros Ok Nl Ln; [congruence|].
    cbn [forallb] in Ok. apply andb_prop in Ok. destruct Ok as [O1 O2]. apply okw_range in O1.
    pose proof (Rabs_pos (R_of_dec c)) as C0.
    destruct (lit_fl c (below_1000 (Rabs (R_of_dec c)) 2 ltac:(lra) ltac:(lra))) as [Fc Ec].
    destruct l as [|d l'] eqn:EL.
    - cbn [length map]. change (@horner_add_first (ieee P) x [c]) with (f64_lit c). split; [exact Fc|].
      change (tab [c] (val x)) with (R_of_dec c + val x * 0). change (tab [dabs c] (Rabs (val x))) with (R_of_dec (dabs c) + Rabs (val x) * 0). rewrite dabs_eq, !Rmult_0_r, !Rplus_0_r. change (INR 1) with 1. rewrite pow_1.
      eapply Rle_trans; [exact Ec|]. unfold uu. lra.
    - rewrite <- EL in *. assert (Nl' : l <> []) by (rewrite EL; discriminate). clear EL d l'. cbn [length] in Ln.
      specialize (IH O2 Nl' ltac:(lia)). destruct IH as [Fh Eh]. rewrite (horner_cons P x c l Nl').
      set (h := @horner_add_first (ieee P) x l) in *. clearbody h.
      pose proof (tab_abs l (val x)) as Bt. pose proof (tab_size_w _ (Rabs (val x)) O2 ltac:(split; [apply Rabs_pos|exact Hx])) as ST.
      set (T := tab (map dabs l) (Rabs (val x))) in *. set (t := tab l (val x)) in *. set (n := length l) in *.
      assert (Kn : 0 <= 3 * INR n * uu <= 1 / 10 ^ 13).
      { assert (INR n <= INR 20) by (apply le_INR; lia). pose proof (pos_INR n). replace (INR 20) with 20 in * by (simpl; lra). unfold uu. split; [|lra]. repeat apply Rmult_le_pos; lra. }
      assert (P66 : 66 ^ n <= 70 ^ n) by (apply pow_incr; lra). assert (P70 : 1 <= 70 ^ n) by (apply pow_R1_Rle; lra).
      assert (Dn : 0 <= 70 ^ n * eta <= 70 ^ n) by (split; [apply Rmult_le_pos; lra|rewrite <- (Rmult_1_r (70 ^ n)) at 2; apply Rmult_le_compat_l; lra]).
      assert (KT : 3 * INR n * uu * T <= 1 * (2 * 70 ^ n)). { apply Rmult_le_compat; lra. }
      assert (B70 : 10 * 70 ^ S n <= bpow radix2 1000) by (apply big70; lia). cbn [pow] in B70.
      assert (Bh : Rabs (val h) <= 5 * 70 ^ n). { replace (val h) with (t + (val h - t)) by ring. eapply Rle_trans; [apply Rabs_triang|]. lra. }
      assert (Bxh : Rabs (val x * val h) <= 65 * (5 * 70 ^ n)) by (rewrite Rabs_mult; apply Rmult_le_compat; try apply Rabs_pos; assumption).
      destruct (mul_fl P x h Fx Fh ltac:(lra)) as [Fm Em]. set (m := mul x h) in *. clearbody m.
      assert (Bm : Rabs (val m) <= 330 * 70 ^ n). { replace (val m) with (val x * val h + (val m - val x * val h)) by ring. eapply Rle_trans; [apply Rabs_triang|]. unfold uu in *. lra. }
      assert (Bc : Rabs (val (f64_lit c)) <= 3). { replace (val (f64_lit c)) with (R_of_dec c + (val (f64_lit c) - R_of_dec c)) by ring. eapply Rle_trans; [apply Rabs_triang|]. unfold uu in *. lra. }
      destruct (add_fl P (f64_lit c) m Fc Fm) as [Fr Er]. { eapply Rle_trans; [apply Rabs_triang|]. lra. }
      split; [exact Fr|]. change (tab (c :: l) (val x)) with (R_of_dec c + val x * t). change (tab (map dabs (c :: l)) (Rabs (val x))) with (R_of_dec (dabs c) + Rabs (val x) * T). rewrite dabs_eq.
      eapply Rle_trans; [exact (step_abs _ _ _ _ _ _ _ _ _ _ Ec Eh Bt Em Er Hx Kn (proj1 Dn))|].
      change (length (c :: l)) with (S n). rewrite S_INR. cbn [pow].
      replace (3 * (INR n + 1) * uu) with (3 * INR n * uu + 3 * uu) by ring. apply Rplus_le_compat_l. assert (eta <= 70 ^ n * eta) by (rewrite <- (Rmult_1_l eta) at 1; apply Rmult_le_compat_r; lra). lra.
  Qed.

  Definition tok (l : list dec) : bool :=
    (forallb okw l && forallb (dz_ok 21) l && forallb (dz_ok 21) (map dabs l) && (length l =? 5)%nat && (10 * pbound 2 1 (z21 (map dabs l)) <=? 53 * 10 ^ 21) && (10 * pbound 2 1 (pder (z21 l)) <=? 35 * 10 ^ 21))%Z%bool.

  Lemma tab_fl : forall (y : f64) Y l, tok l = true -> fin y -> 0 <= Y <= 1 -> Rabs (val y - Y) <= 4 * uu ->
    fin (@horner_add_first (ieee P) y l) /\ Rabs (val (@horner_add_first (ieee P) y l) - tab l Y) <= 11 / 10 ^ 15.
  Proof.
    intros y Y l Ok Fy HY Ey. unfold tok in Ok. apply andb_prop in Ok. destruct Ok as [Ok O6]. apply andb_prop in Ok. destruct Ok as [Ok O5]. apply andb_prop in Ok. destruct Ok as [Ok O4].
    apply andb_prop in Ok. destruct Ok as [Ok O3]. apply andb_prop in Ok. destruct Ok as [O1 O2]. apply Z.leb_le, IZR_le in O5, O6. apply Nat.eqb_eq in O4. rewrite !mult_IZR in O5, O6.
    assert (BY : Rabs (val y) <= 2). { apply Rabs_le_inv in Ey. apply Rabs_le. unfold uu in Ey. lra. }
    destruct (horner_w y l Fy ltac:(lra) O1) as [F E]; [intros ->; discriminate O4|lia|]. split; [exact F|]. rewrite O4 in E. replace (INR 5) with 5 in E by (simpl; lra).
    assert (T : 0 < IZR (10 ^ 21)) by (apply IZR_lt; reflexivity).
    assert (TB : tab (map dabs l) (Rabs (val y)) <= 53 / 10).
    { rewrite (tab_eq21 _ _ O3). pose proof (peval_bound 2 1 (z21 (map dabs l)) (Rabs (val y)) ltac:(lia) ltac:(lia) ltac:(rewrite Rabs_Rabsolu; lra)) as B. apply Rabs_le_inv in B.
      apply Rmult_le_reg_r with (IZR (10 ^ 21)); [exact T|]. unfold Rdiv. rewrite Rmult_assoc, Rinv_l by lra. lra. }
    assert (LP : Rabs (tab l (val y) - tab l Y) <= 35 / 10 * Rabs (val y - Y)).
    { rewrite !(tab_eq21 l _ O2). pose proof (peval_lip 2 1 (z21 l) (val y) Y ltac:(lia) ltac:(lia) ltac:(lra) ltac:(rewrite Rabs_pos_eq; lra)) as H. set (D := IZR (10 ^ 21)) in *. clearbody D.
      rewrite <- Rdiv_minus_distr. unfold Rdiv at 1. rewrite Rabs_mult, (Rabs_pos_eq (/ D)) by (left; apply Rinv_0_lt_compat; exact T).
      apply Rmult_le_reg_r with D; [exact T|]. rewrite Rmult_assoc, Rinv_l, Rmult_1_r by lra. eapply Rle_trans; [exact H|]. pose proof (Rabs_pos (val y - Y)).
      replace (35 / 10 * Rabs (val y - Y) * D) with (35 / 10 * D * Rabs (val y - Y)) by ring. apply Rmult_le_compat_r; [assumption|lra]. }
    set (h := val (@horner_add_first (ieee P) y l)) in *. clearbody h. replace (h - tab l Y) with ((h - tab l (val y)) + (tab l (val y) - tab l Y)) by ring.
    eapply Rle_trans; [apply Rabs_triang|]. pose proof eta_small as ES. pose proof eta_pos.
    assert (3 * 5 * uu * tab (map dabs l) (Rabs (val y)) <= 3 * 5 * uu * (53 / 10)) by (apply Rmult_le_compat_l; [unfold uu; lra|exact TB]).
    unfold uu in *. lra.
  Qed.
End Fl.

(** ** the quotients, over the reals *)
Lemma quot_core : forall n d N D e k, 1 <= D -> Rabs N <= k * D -> 0 <= k <= 2 -> 0 <= e <= / 10 ^ 12 -> Rabs (n - N) <= e -> Rabs (d - D) <= e ->
  1 - / 10 ^ 12 <= d /\ Rabs (n / d - N / D) <= (1 + k) * e * (1 + / 10 ^ 10).
Proof.
  intros n d N D e k HD HN Hk He H1 H2. assert (D1 : 1 - / 10 ^ 12 <= d) by (apply Rabs_le_inv in H2; lra). split; [exact D1|].
  replace (n / d - N / D) with (((n - N) - N / D * (d - D)) * / d) by (field; split; lra). rewrite Rabs_mult, (Rabs_pos_eq (/ d)) by (left; apply Rinv_0_lt_compat; lra).
  assert (Q : Rabs (N / D) <= k). { unfold Rdiv. rewrite Rabs_mult, (Rabs_pos_eq (/ D)) by (left; apply Rinv_0_lt_compat; lra). apply Rmult_le_reg_r with D; [lra|]. rewrite Rmult_assoc, Rinv_l by lra. lra. }
  assert (A : Rabs ((n - N) - N / D * (d - D)) <= (1 + k) * e).
  { eapply Rle_trans; [apply Rabs_triang|]. rewrite Rabs_Ropp, Rabs_mult. assert (Rabs (N / D) * Rabs (d - D) <= k * e) by (apply Rmult_le_compat; try apply Rabs_pos; assumption). lra. }
  assert (I : / d <= 1 + / 10 ^ 10). { apply Rle_trans with (/ (1 - / 10 ^ 12)); [apply Rinv_le_contravar; lra|lra]. }
  apply Rmult_le_compat; [apply Rabs_pos|left; apply Rinv_0_lt_compat; lra|exact A|exact I].
Qed.
(* t * n / d with two roundings *)
Lemma term_core : forall t n d a1 a2 q k e, Rabs t <= 11 / 10 -> 1 / 2 <= d -> Rabs (n / d - q) <= e -> 0 <= e <= / 10 ^ 10 -> Rabs q <= k -> 0 <= k <= 2 ->
  Rabs (a1 - t * n) <= uu * Rabs (t * n) + eta -> Rabs (a2 - a1 / d) <= uu * Rabs (a1 / d) + eta ->
  Rabs (a2 - t * q) <= Rabs t * e + (23 / 10 * k + / 10 ^ 9) * uu + 5 * eta.
Proof.
  intros t n d a1 a2 q k e Ht Hd Hq He Hk Hk2 H1 H2. pose proof eta_pos as E0. pose proof eta_20 as E20. pose proof (Rabs_pos t) as T0.
  assert (I0 : 0 < / d <= 2). { split; [apply Rinv_0_lt_compat; lra|]. apply Rle_trans with (/ (1 / 2)); [apply Rinv_le_contravar; lra|lra]. }
  set (p := n / d) in *. assert (Bp : Rabs p <= k + e) by (replace p with (q + (p - q)) by ring; eapply Rle_trans; [apply Rabs_triang|]; lra).
  assert (Btp : Rabs (t * p) <= 11 / 10 * (k + e)) by (rewrite Rabs_mult; apply Rmult_le_compat; try apply Rabs_pos; assumption).
  assert (D1 : Rabs (a1 / d - t * p) <= uu * Rabs (t * p) + 2 * eta).
  { replace (a1 / d - t * p) with ((a1 - t * n) * / d) by (unfold p; field; lra). replace (t * p) with (t * n * / d) by (unfold p; field; lra). rewrite !Rabs_mult, (Rabs_pos_eq (/ d)) by lra. rewrite <- Rabs_mult.
    apply Rle_trans with ((uu * Rabs (t * n) + eta) * / d); [apply Rmult_le_compat_r; [lra|exact H1]|]. assert (eta * / d <= eta * 2) by (apply Rmult_le_compat_l; lra). lra. }
  assert (Ba : Rabs (a1 / d) <= (1 + uu) * Rabs (t * p) + 2 * eta) by (replace (a1 / d) with (t * p + (a1 / d - t * p)) by ring; eapply Rle_trans; [apply Rabs_triang|]; lra).
  assert (U : uu * Rabs (a1 / d) <= uu * ((1 + uu) * Rabs (t * p) + 2 * eta)) by (apply Rmult_le_compat_l; [unfold uu; lra|exact Ba]).
  assert (D2 : Rabs (t * p - t * q) <= Rabs t * e). { rewrite <- Rmult_minus_distr_l, Rabs_mult. apply Rmult_le_compat_l; assumption. }
  replace (a2 - t * q) with ((a2 - a1 / d) + ((a1 / d - t * p) + (t * p - t * q))) by ring. eapply Rle_trans; [apply Rabs_triang|]. eapply Rle_trans; [apply Rplus_le_compat_l, Rabs_triang|].
  set (B := Rabs (t * p)) in *. assert (B0 : 0 <= B) by apply Rabs_pos. clearbody B p. clear H1 Hq I0. unfold uu in *. lra.
Qed.


Lemma sum_core : forall t1 t2 T1 T2 q1 q2 zz b1 a b w dl, 0 <= dl -> Rabs (t1 - T1) <= dl -> Rabs (t2 - T2) <= dl -> Rabs t1 <= 101 / 100 -> Rabs t2 <= 101 / 100 -> 0 < zz <= 1 -> Rabs q1 <= 102 / 100 -> Rabs q2 <= 5 / 100 ->
  Rabs (b1 - zz * t2) <= 4 * uu -> Rabs (a - t1 * q1) <= 23 / 10 ^ 15 -> Rabs (b - b1 * q2) <= 13 / 10 ^ 15 -> Rabs (w - (a + b)) <= uu * Rabs (a + b) + eta ->
  Rabs (w - (q1 * T1 + zz * q2 * T2)) <= 107 / 100 * dl + 37 / 10 ^ 15 /\ Rabs w <= 12 / 10.
Proof.
  intros t1 t2 T1 T2 q1 q2 zz b1 a b w dl Hd H1 H2 B1 B2 Hz Hq1 Hq2 Hb1 Ha Hb Hw. pose proof eta_20 as E20.
  assert (A1 : Rabs (t1 * q1 - q1 * T1) <= dl * (102 / 100)). { replace (t1 * q1 - q1 * T1) with ((t1 - T1) * q1) by ring. rewrite Rabs_mult. apply Rmult_le_compat; try apply Rabs_pos; assumption. }
  assert (A2 : Rabs (b1 * q2 - zz * t2 * q2) <= 4 * uu * (5 / 100)). { replace (b1 * q2 - zz * t2 * q2) with ((b1 - zz * t2) * q2) by ring. rewrite Rabs_mult. apply Rmult_le_compat; try apply Rabs_pos; assumption. }
  assert (Zq : Rabs (zz * q2) <= 5 / 100). { rewrite Rabs_mult, (Rabs_pos_eq zz) by lra. replace (5 / 100) with (1 * (5 / 100)) by ring. apply Rmult_le_compat; try apply Rabs_pos; lra. }
  assert (A3 : Rabs (zz * t2 * q2 - zz * q2 * T2) <= 5 / 100 * dl). { replace (zz * t2 * q2 - zz * q2 * T2) with (zz * q2 * (t2 - T2)) by ring. rewrite Rabs_mult. apply Rmult_le_compat; try apply Rabs_pos; assumption. }
  assert (N1 : Rabs (t1 * q1) <= 101 / 100 * (102 / 100)) by (rewrite Rabs_mult; apply Rmult_le_compat; try apply Rabs_pos; assumption).
  assert (N2 : Rabs (zz * t2 * q2) <= 5 / 100 * (101 / 100)). { replace (zz * t2 * q2) with (zz * q2 * t2) by ring. rewrite Rabs_mult. apply Rmult_le_compat; try apply Rabs_pos; assumption. }
  set (S := q1 * T1 + zz * q2 * T2) in *.
  assert (AB : Rabs (a + b) <= 11 / 10).
  { replace (a + b) with ((a - t1 * q1) + (t1 * q1 + ((b - b1 * q2) + ((b1 * q2 - zz * t2 * q2) + zz * t2 * q2)))) by ring.
    eapply Rle_trans; [apply Rabs_triang|]. eapply Rle_trans; [apply Rplus_le_compat_l, Rabs_triang|]. eapply Rle_trans; [apply Rplus_le_compat_l, Rplus_le_compat_l, Rabs_triang|]. eapply Rle_trans; [apply Rplus_le_compat_l, Rplus_le_compat_l, Rplus_le_compat_l, Rabs_triang|]. unfold uu in *. lra. }
  assert (W : Rabs (w - (a + b)) <= 15 / 10 ^ 17). { eapply Rle_trans; [exact Hw|]. pose proof eta_small. unfold uu in *. lra. }
  split.
  - replace (w - S) with ((w - (a + b)) + ((a - t1 * q1) + ((t1 * q1 - q1 * T1) + ((b - b1 * q2) + ((b1 * q2 - zz * t2 * q2) + (zz * t2 * q2 - zz * q2 * T2)))))) by (unfold S; ring).
    eapply Rle_trans; [apply Rabs_triang|]. eapply Rle_trans; [apply Rplus_le_compat_l, Rabs_triang|]. eapply Rle_trans; [apply Rplus_le_compat_l, Rplus_le_compat_l, Rabs_triang|]. eapply Rle_trans; [apply Rplus_le_compat_l, Rplus_le_compat_l, Rplus_le_compat_l, Rabs_triang|]. eapply Rle_trans; [apply Rplus_le_compat_l, Rplus_le_compat_l, Rplus_le_compat_l, Rplus_le_compat_l, Rabs_triang|]. unfold uu in *. lra.
  - replace w with ((w - (a + b)) + (a + b)) by ring. eapply Rle_trans; [apply Rabs_triang|]. lra.
Qed.

(* the outer factor *)
Lemma outer_core : forall rx c s w S r d, 0 < rx <= bpow radix2 495 -> 0 < c <= 4 / 5 -> mr (4 * vv) s (c / rx) -> Rabs (w - S) <= d -> Rabs w <= 12 / 10 -> Rabs (r - s * w) <= uu * Rabs (s * w) + eta ->
  Rabs (rx * r - c * S) <= 4 / 5 * d + / 10 ^ 15.
Proof.
  intros rx c s w S r d Hr Hc M Hd Hw H. assert (C0 : 0 < c / rx) by (apply Rdiv_lt_0_compat; lra). apply mr_abs in M; [|unfold vv; lra]. rewrite (Rabs_pos_eq (c / rx)) in M by lra.
  assert (V : Rabs (rx * s - c) <= 5 * vv * c).
  { replace (rx * s - c) with (rx * (s - c / rx)) by (field; lra). rewrite Rabs_mult, (Rabs_pos_eq rx) by lra. apply Rle_trans with (rx * (5 * vv * (c / rx))); [|right; field; lra]. apply Rmult_le_compat_l; [lra|].
    eapply Rle_trans; [exact M|]. apply Rmult_le_compat_r; [lra|unfold vv; lra]. }
  assert (W0 : Rabs ((rx * s - c) * w) <= 5 * vv * c * (12 / 10)) by (rewrite Rabs_mult; apply Rmult_le_compat; try apply Rabs_pos; assumption).
  assert (W1 : Rabs (c * (w - S)) <= 4 / 5 * d) by (rewrite Rabs_mult, (Rabs_pos_eq c) by lra; apply Rmult_le_compat; try apply Rabs_pos; lra).
  assert (Bs : Rabs (rx * s) <= 81 / 100). { apply Rabs_le_inv in V. apply Rabs_le. unfold vv in V. lra. }
  assert (W2 : Rabs (rx * r - rx * s * w) <= uu * (81 / 100 * (12 / 10)) + bpow radix2 (-505)).
  { replace (rx * r - rx * s * w) with (rx * (r - s * w)) by ring. rewrite Rabs_mult, (Rabs_pos_eq rx) by lra. apply Rle_trans with (rx * (uu * Rabs (s * w) + eta)); [apply Rmult_le_compat_l; [lra|exact H]|].
    replace (rx * (uu * Rabs (s * w) + eta)) with (uu * (Rabs rx * Rabs (s * w)) + rx * eta) by (rewrite (Rabs_pos_eq rx) by lra; ring). rewrite <- Rabs_mult, <- Rmult_assoc, Rabs_mult. apply Rplus_le_compat.
    - apply Rmult_le_compat_l; [unfold uu; lra|]. apply Rmult_le_compat; try apply Rabs_pos; assumption.
    - unfold eta. change (-505)%Z with (495 + -1000)%Z. rewrite bpow_plus. apply Rmult_le_compat_r; [apply bpow_ge_0|lra]. }
  assert (B5 : bpow radix2 (-505) <= / 10 ^ 20). { apply Rle_trans with (bpow radix2 (-70)); [apply bpow_le; lia|simpl; lra]. }
  replace (rx * r - c * S) with ((rx * r - rx * s * w) + ((rx * s - c) * w + c * (w - S))) by ring. eapply Rle_trans; [apply Rabs_triang|]. eapply Rle_trans; [apply Rplus_le_compat_l, Rabs_triang|]. unfold uu, vv in *. lra.
Qed.
Lemma mr_sqrt : forall e a b, 0 < b -> mr e a b -> mr (e / 2) (sqrt a) (sqrt b).
Proof.
  intros e a b Hb (d & Hd & ->). exists (d / 2). split; [unfold Rdiv; rewrite Rabs_mult, (Rabs_pos_eq (/ 2)); lra|].
  rewrite sqrt_mult; [|lra|left; apply exp_pos]. f_equal. replace d with (d / 2 + d / 2) at 1 by field. rewrite exp_plus. apply sqrt_square. left. apply exp_pos.
Qed.

Lemma lip_1 : forall f g, (forall t, derivable_pt_lim f t (g t)) -> (forall t, Rabs (g t) <= 1) -> forall a b, Rabs (f a - f b) <= Rabs (a - b).
Proof.
  intros f g D B. assert (L : forall a b, a < b -> Rabs (f b - f a) <= Rabs (b - a)).
  { intros a b H. destruct (MVT_cor2 f g a b H) as (c & -> & _); [intros; apply D|]. rewrite Rabs_mult. rewrite <- (Rmult_1_l (Rabs (b - a))) at 2. apply Rmult_le_compat_r; [apply Rabs_pos|apply B]. }
  intros a b. destruct (Rtotal_order a b) as [H|[->|H]].
  - rewrite Rabs_minus_sym, (Rabs_minus_sym a). apply L, H.
  - unfold Rminus. rewrite !Rplus_opp_r. lra.
  - apply L, H.
Qed.
Lemma cos_lip : forall a b, Rabs (cos a - cos b) <= Rabs (a - b).
Proof. apply (lip_1 cos (fun t => - sin t)); [apply derivable_pt_lim_cos|]. intros t. rewrite Rabs_Ropp. apply abs_sin. Qed.
Lemma sin_lip : forall a b, Rabs (sin a - sin b) <= Rabs (a - b).
Proof. apply (lip_1 sin cos); [apply derivable_pt_lim_sin|]. intros t. apply abs_cos. Qed.

Lemma bhalf' : forall k, bpow radix2 (k - 1) = bpow radix2 k / 2.
Proof. intros k. unfold Zminus. rewrite bpow_plus. simpl (bpow radix2 (-(1))). unfold Rdiv. reflexivity. Qed.

(** ** the tables *)
(* n * q - d * |p| has nonnegative partial sums *)
Fixpoint ratio_go (n d s : Z) (p q : list Z) : bool :=
  match p, q with
  | [], [] => true
  | a :: p', b :: q' => let s' := (s + (n * b - Z.abs a * d))%Z in (0 <=? s')%Z && ratio_go n d s' p' q'
  | _, _ => false
  end.
Definition ratio_ok (n d : Z) (p q : list Z) : bool := ratio_go n d 0 p q.
Lemma ratio_sum : forall n d y p q s, ratio_go n d s p q = true -> 0 <= y <= 1 -> (0 <= s)%Z -> Rabs (peval p y) * IZR d <= IZR s + IZR n * peval q y \/ (d < 0)%Z.
Proof.
  intros n d y p. destruct (Z_lt_le_dec d 0) as [Hd|Hd]; [right; exact Hd|]. apply IZR_le in Hd. induction p as [|a p IH]; intros [|b q] s H Hy Hs; try discriminate H; left.
  - change (peval [] y) with 0. rewrite Rabs_R0. apply IZR_le in Hs. lra.
  - cbn [ratio_go] in H. apply andb_prop in H. destruct H as [H1 H2]. apply Z.leb_le in H1. destruct (IH q _ H2 Hy H1) as [E|E]; [|apply IZR_lt in E; lra]. clear IH H2. apply IZR_le in H1. rewrite plus_IZR, minus_IZR, !mult_IZR, abs_IZR in *.
    rewrite !peval_cons. assert (L : Rabs (IZR a + y * peval p y) <= Rabs (IZR a) + y * Rabs (peval p y)). { eapply Rle_trans; [apply Rabs_triang|]. rewrite Rabs_mult, (Rabs_pos_eq y) by lra. lra. }
    apply (Rmult_le_compat_r (IZR d) _ _ Hd) in L. eapply Rle_trans; [exact L|]. set (S := IZR s + (IZR n * IZR b - Rabs (IZR a) * IZR d)) in *.
    assert (A : 0 <= (1 - y) * S) by (apply Rmult_le_pos; lra). apply (Rmult_le_compat_l y) in E; [|lra].
    replace ((Rabs (IZR a) + y * Rabs (peval p y)) * IZR d) with (y * (Rabs (peval p y) * IZR d) + Rabs (IZR a) * IZR d) by ring. replace (Rabs (IZR a) * IZR d) with (IZR s + IZR n * IZR b - S) by (unfold S; ring). lra.
Qed.
Lemma ratio_le : forall n d p q y, (0 < d)%Z -> ratio_ok n d p q = true -> 0 <= y <= 1 -> Rabs (peval p y) <= IZR n / IZR d * peval q y.
Proof.
  intros n d p q y Hd H Hy. destruct (ratio_sum n d y p q 0 H Hy ltac:(lia)) as [E|E]; [|lia]. apply IZR_lt in Hd. apply Rmult_le_reg_r with (IZR d); [exact Hd|].
  replace (IZR n / IZR d * peval q y * IZR d) with (IZR n * peval q y) by (field; lra). lra.
Qed.
Definition lead1 (l : list Z) : bool := match l with [] => false | c :: _ => (c =? 10 ^ 21)%Z end && posl l.
Lemma lead_ge : forall l y, lead1 (z21 l) = true -> forallb (dz_ok 21) l = true -> 0 <= y -> 1 <= tab l y.
Proof.
  intros l y H O Hy. rewrite (tab_eq21 l y O). unfold lead1 in H. apply andb_prop in H. destruct H as [H1 H2]. assert (T : 0 < IZR (10 ^ 21)) by (apply IZR_lt; reflexivity).
  destruct (z21 l) as [|c l'] eqn:E; [discriminate H1|]. apply Z.eqb_eq in H1. pose proof (peval_ge_hd c l' y Hy H2) as G. rewrite H1 in G at 1. set (D := IZR (10 ^ 21)) in *. clearbody D.
  apply Rmult_le_reg_r with D; [exact T|]. unfold Rdiv. rewrite Rmult_assoc, Rinv_l by lra. lra.
Qed.
Lemma tok_dz : forall l, tok l = true -> forallb (dz_ok 21) l = true.
Proof. intros l H. unfold tok in H. rewrite !andb_true_iff in H. tauto. Qed.
Definition pair_ok (n d : Z) (p q : list dec) : bool := tok p && tok q && lead1 (z21 q) && ratio_ok n d (z21 p) (z21 q).
Lemma pair_facts : forall n d p q, (0 < d)%Z -> pair_ok n d p q = true -> tok p = true /\ tok q = true /\
  forall y, 0 <= y <= 1 -> 1 <= tab q y /\ Rabs (tab p y) <= IZR n / IZR d * tab q y /\ tab p y / tab q y = peval (z21 p) y / peval (z21 q) y.
Proof.
  intros n d p q Hd H. unfold pair_ok in H. apply andb_prop in H. destruct H as [H H4]. apply andb_prop in H. destruct H as [H H3]. apply andb_prop in H. destruct H as [H1 H2].
  split; [exact H1|]. split; [exact H2|]. intros y Hy. pose proof (tok_dz _ H1) as O1. pose proof (tok_dz _ H2) as O2. pose proof (lead_ge q y H3 O2 (proj1 Hy)) as G. split; [exact G|].
  assert (T : 0 < IZR (10 ^ 21)) by (apply IZR_lt; reflexivity).
  assert (Q0 : 0 < peval (z21 q) y). { rewrite (tab_eq21 q y O2) in G. set (D := IZR (10 ^ 21)) in *. clearbody D. apply Rmult_lt_reg_r with (/ D); [apply Rinv_0_lt_compat, T|]. rewrite Rmult_0_l. unfold Rdiv in G. lra. }
  split; [|apply tab_quot21; assumption]. pose proof (ratio_le n d _ _ y Hd H4 Hy) as L. rewrite (tab_eq21 p y O1), (tab_eq21 q y O2). set (D := IZR (10 ^ 21)) in *. clearbody D.
  unfold Rdiv at 1 3. rewrite Rabs_mult, (Rabs_pos_eq (/ D)) by (left; apply Rinv_0_lt_compat, T). rewrite <- Rmult_assoc. apply Rmult_le_compat_r; [left; apply Rinv_0_lt_compat, T|exact L].
Qed.
Lemma pairs_0 : (pair_ok 102 100 J0PN J0PD && pair_ok 5 100 J0QN J0QD)%bool = true. Proof. vm_compute. reflexivity. Qed.
Lemma pairs_1 : (pair_ok 102 100 J1PN J1PD && pair_ok 5 100 J1QN J1QD)%bool = true. Proof. vm_compute. reflexivity. Qed.

Section Asym.
  Context (P : platform).
  Local Notation mul := (f64_mul P). Local Notation add := (f64_add P). Local Notation sub := (f64_sub P). Local Notation div := (f64_div P).
  Local Notation h := (@horner_add_first (ieee P)).

  Lemma zy_fl : forall ax, fin ax -> 8 <= val ax <= bpow radix2 990 ->
    let z := div (f64_lit 8.0) ax in let y := mul z z in
    fin z /\ fin y /\ Rabs (val z - 8 / val ax) <= 11 / 10 * uu /\ 0 < 8 / val ax <= 1 /\ Rabs (val y - 64 / (val ax * val ax)) <= 4 * uu /\ 0 <= 64 / (val ax * val ax) <= 1.
  Proof.
    intros ax Fa Ha z y. destruct lit_8 as [F8 V8]. pose proof eta_20 as E20. pose proof eta_small as ES. set (X := val ax) in *.
    assert (Z1 : 0 < 8 / X <= 1). { split; [apply Rdiv_lt_0_compat; lra|]. apply Rmult_le_reg_r with X; [lra|]. unfold Rdiv. rewrite Rmult_assoc, Rinv_l by lra. lra. }
    assert (B1 : 4 <= bpow radix2 1023) by (apply Rle_trans with (bpow radix2 2); [simpl; lra|apply bpow_le; lia]).
    destruct (div_23 P (f64_lit 8.0) ax F8 Fa) as [Fz Ez]; [fold X; lra|rewrite V8; fold X; rewrite Rabs_pos_eq; lra|]. rewrite V8 in Ez. fold X in Ez. fold z in Fz, Ez. rewrite (Rabs_pos_eq (8 / X)) in Ez by lra.
    replace (64 / (X * X)) with (8 / X * (8 / X)) by (field; lra). set (q := 8 / X) in *. clearbody q. assert (Ez' : Rabs (val z - q) <= 11 / 10 * uu). { eapply Rle_trans; [exact Ez|]. assert (uu * q <= uu * 1) by (apply Rmult_le_compat_l; [unfold uu; lra|lra]). unfold uu in *. lra. }
    assert (Az : Rabs (val z) <= 1001 / 1000). { apply Rabs_le_inv in Ez'. apply Rabs_le. unfold uu in Ez'. lra. }
    assert (Bz : Rabs (val z * val z) <= 101 / 100). { rewrite Rabs_mult. apply Rle_trans with (1001 / 1000 * (1001 / 1000)); [apply Rmult_le_compat; try apply Rabs_pos; assumption|lra]. }
    destruct (mul_23 P z z Fz Fz) as [Fy Ey]; [lra|]. fold y in Fy, Ey.
    split; [exact Fz|]. split; [exact Fy|]. split; [exact Ez'|]. split; [exact Z1|].
    assert (QQ : 0 <= q * q <= 1). { split; [apply Rmult_le_pos; lra|]. replace 1 with (1 * 1) by ring. apply Rmult_le_compat; lra. }
    split; [|exact QQ].
    assert (D : Rabs (val z * val z - q * q) <= 11 / 10 * uu * (2001 / 1000)).
    { replace (val z * val z - q * q) with ((val z - q) * (val z + q)) by ring. rewrite Rabs_mult. apply Rmult_le_compat; try apply Rabs_pos; [exact Ez'|]. eapply Rle_trans; [apply Rabs_triang|]. rewrite (Rabs_pos_eq q); lra. }
    replace (val y - q * q) with ((val y - val z * val z) + (val z * val z - q * q)) by ring. eapply Rle_trans; [apply Rabs_triang|]. unfold uu in *. lra.
  Qed.

  Lemma scale_fl : forall ax, fin ax -> 8 <= val ax <= bpow radix2 990 -> let s := f64_sqrt P (div (f64_lit 0.636619772367581343075535053490057448) ax) in
    fin s /\ mr (4 * vv) (val s) (cc / sqrt (val ax)) /\ 0 < val s <= 2.
  Proof.
    intros ax Fa Ha s. destruct two_pi as [Ft Et]. destruct pi_near as [_ PN]. set (X := val ax) in *. pose proof PI_bounds as PB. replace (IZR (2 ^ 70)) with 1180591620717411303424 in PB by reflexivity. pose proof PI_RGT_0 as P0.
    assert (PL : 63 / 100 <= 2 / PI). { apply Rmult_le_reg_r with PI; [lra|]. replace (2 / PI * PI) with 2 by (field; lra). lra. }
    set (c := 2 / PI) in *. set (t := f64_lit 0.636619772367581343075535053490057448) in *. clearbody t.
    assert (Mt : mr (2 * vv) (val t) c). { apply mr_weak with (159 / 10 ^ 18 + 2 * (159 / 10 ^ 18 * (159 / 10 ^ 18))); [unfold vv; lra|]. apply mr_of_rel; [lra|]. rewrite (Rabs_pos_eq c) by lra. lra. }
    assert (VT : 6 / 10 <= val t <= 7 / 10). { apply Rabs_le_inv in Et. lra. }
    assert (X0 : 0 < / X) by (apply Rinv_0_lt_compat; lra). assert (X8 : / X <= / 8) by (apply Rinv_le_contravar; lra).
    assert (XL : bpow radix2 (-990) <= / X). { replace (bpow radix2 (-990)) with (/ bpow radix2 990) by (rewrite <- bpow_opp; reflexivity). apply Rinv_le_contravar; lra. }
    assert (R : bpow radix2 (-991) <= val t / X <= 1).
    { split; [change (-991)%Z with (-990 - 1)%Z; rewrite bhalf'; unfold Rdiv; apply Rle_trans with (6 / 10 * bpow radix2 (-990)); [pose proof (bpow_gt_0 radix2 (-990)); lra|apply Rmult_le_compat; try lra; apply bpow_ge_0]|].
      unfold Rdiv. apply Rle_trans with (7 / 10 * / 8); [apply Rmult_le_compat; lra|lra]. }
    pose proof (bpow_gt_0 radix2 (-991)) as B0. assert (B1 : 1 <= bpow radix2 1023) by (change 1 with (bpow radix2 0); apply bpow_le; lia).
    destruct (div_mr P t ax Ft Fa) as [Fd Md]; [fold X; lra|fold X; rewrite Rabs_pos_eq by lra; split; [apply Rle_trans with (bpow radix2 (-991)); [apply bpow_le; lia|lra]|lra]|]. fold X in Md.
    set (d := div t ax) in *. clearbody d. pose proof (mr_near _ _ _ Md ltac:(unfold vv; lra) ltac:(lra)) as Nd.
    assert (DL : bpow radix2 (-1000) <= val d).
    { apply Rle_trans with (bpow radix2 (-992)); [apply bpow_le; lia|]. change (-992)%Z with (-991 - 1)%Z; rewrite bhalf'. unfold vv in Nd. lra. }
    destruct (sqrt_mr P d Fd DL) as [Fs Ms]. fold s in Fs, Ms. split; [exact Fs|].
    assert (Mc : mr (3 * vv) (val d) (c / X)). { apply mr_weak with (vv + (2 * vv + 0)); [lra|]. eapply mr_trans; [exact Md|]. unfold Rdiv. apply mr_mul; [exact Mt|]. exists 0. split; [rewrite Rabs_R0; lra|rewrite exp_0; ring]. }
    assert (CX : 0 < c / X) by (apply Rdiv_lt_0_compat; lra).
    apply (mr_sqrt _ _ _ CX) in Mc. rewrite sqrt_div_alt in Mc by lra. change (sqrt c) with cc in Mc.
    assert (M : mr (4 * vv) (val s) (cc / sqrt X)). { apply mr_weak with (vv + 3 * vv / 2); [unfold vv; lra|]. eapply mr_trans; [exact Ms|exact Mc]. }
    split; [exact M|]. pose proof cc_range as CR. assert (SX : 2 <= sqrt X). { replace 2 with (sqrt 4) by (replace 4 with (2 * 2) by ring; apply sqrt_square; lra). apply sqrt_le_1_alt. lra. }
    assert (Q : 0 < cc / sqrt X <= 4 / 5 * / 2). { split; [apply Rdiv_lt_0_compat; lra|]. unfold Rdiv. apply Rmult_le_compat; [lra|left; apply Rinv_0_lt_compat; lra|lra|apply Rinv_le_contravar; lra]. }
    pose proof (mr_near _ _ _ M ltac:(unfold vv; lra) ltac:(lra)) as N. unfold vv in N. split; lra.
  Qed.

  (* t * N / D, rounded twice, given the quotient to within e *)
  Lemma term_fl : forall (t n d : f64) q k e, fin t -> fin n -> fin d -> Rabs (val t) <= 103 / 100 -> 1 / 2 <= val d -> Rabs (val n / val d - q) <= e -> 0 <= e <= / 10 ^ 10 -> Rabs q <= k -> 0 <= k <= 2 -> Rabs (val n) <= 100 ->
    fin (div (mul t n) d) /\ Rabs (val (div (mul t n) d) - val t * q) <= Rabs (val t) * e + (23 / 10 * k + / 10 ^ 9) * uu + 5 * eta.
  Proof.
    intros t n d q k e Ft Fn Fd Ht Hd Hq He Hk Hk2 Hn. pose proof eta_20 as E20. assert (B1 : 1000 <= bpow radix2 1023) by (apply Rle_trans with (bpow radix2 10); [simpl; lra|apply bpow_le; lia]).
    assert (Tn : Rabs (val t * val n) <= 103 / 100 * 100) by (rewrite Rabs_mult; apply Rmult_le_compat; try apply Rabs_pos; assumption).
    destruct (mul_23 P t n Ft Fn) as [Fm Em]; [lra|]. set (m := mul t n) in *. clearbody m.
    assert (Bm : Rabs (val m) <= 104). { replace (val m) with (val t * val n + (val m - val t * val n)) by ring. eapply Rle_trans; [apply Rabs_triang|]. unfold uu in *. lra. }
    assert (I0 : 0 < / val d <= 2). { split; [apply Rinv_0_lt_compat; lra|]. apply Rle_trans with (/ (1 / 2)); [apply Rinv_le_contravar; lra|lra]. }
    destruct (div_23 P m d Fm Fd) as [Fr Er]; [lra| |].
    { unfold Rdiv. rewrite Rabs_mult, (Rabs_pos_eq (/ val d)) by lra. apply Rle_trans with (104 * 2); [apply Rmult_le_compat; try apply Rabs_pos; lra|lra]. }
    split; [exact Fr|]. refine (term_core (val t) (val n) (val d) (val m) _ q k e _ Hd Hq He Hk Hk2 Em Er). lra.
  Qed.

  Lemma pair_fl : forall nn dd p q (y : f64) Y, (0 < dd)%Z -> pair_ok nn dd p q = true -> fin y -> 0 <= Y <= 1 -> Rabs (val y - Y) <= 4 * uu -> 0 <= IZR nn / IZR dd <= 102 / 100 ->
    fin (h y p) /\ fin (h y q) /\ 1 / 2 <= val (h y q) /\ Rabs (val (h y p)) <= 100 /\ Rabs (val (h y p) / val (h y q) - peval (z21 p) Y / peval (z21 q) Y) <= (1 + IZR nn / IZR dd) * (11 / 10 ^ 15) * (1 + / 10 ^ 10) /\ Rabs (peval (z21 p) Y / peval (z21 q) Y) <= IZR nn / IZR dd.
  Proof.
    intros nn dd p q y Y Hdd Ok Fy HY Ey Hk. destruct (pair_facts _ _ _ _ Hdd Ok) as (O1 & O2 & H). destruct (H Y HY) as (D1 & N1 & E). clear H.
    destruct (tab_fl P y Y p O1 Fy HY Ey) as [Fp Ep]. destruct (tab_fl P y Y q O2 Fy HY Ey) as [Fq Eq]. rewrite <- E.
    assert (TQ : tab q Y <= 10).
    { unfold tok in O2. rewrite !andb_true_iff in O2. destruct O2 as (((((_ & _) & O3) & _) & O5) & _). apply Z.leb_le, IZR_le in O5. rewrite !mult_IZR in O5.
      eapply Rle_trans; [apply Rle_abs|]. eapply Rle_trans; [apply tab_abs|]. rewrite (tab_eq21 _ _ O3). pose proof (peval_bound 2 1 (z21 (map dabs q)) (Rabs Y) ltac:(lia) ltac:(lia) ltac:(rewrite Rabs_Rabsolu, Rabs_pos_eq; lra)) as B. apply Rabs_le_inv in B.
      assert (T : 0 < IZR (10 ^ 21)) by (apply IZR_lt; reflexivity). apply Rmult_le_reg_r with (IZR (10 ^ 21)); [exact T|]. unfold Rdiv. rewrite Rmult_assoc, Rinv_l by lra. lra. }
    set (k := IZR nn / IZR dd) in *. clearbody k. set (N := tab p Y) in *. set (D := tab q Y) in *. clearbody N D.
    destruct (quot_core (val (h y p)) (val (h y q)) N D (11 / 10 ^ 15) k D1 N1 ltac:(lra) ltac:(lra) Ep Eq) as [G1 G2].
    split; [exact Fp|]. split; [exact Fq|]. split; [lra|].
    assert (kD : k * D <= 102 / 100 * 10) by (apply Rmult_le_compat; lra).
    split; [|split; [exact G2|]].
    - replace (val (h y p)) with (N + (val (h y p) - N)) by ring. eapply Rle_trans; [apply Rabs_triang|]. lra.
    - unfold Rdiv. rewrite Rabs_mult, (Rabs_pos_eq (/ D)) by (left; apply Rinv_0_lt_compat; lra). apply Rmult_le_reg_r with D; [lra|]. rewrite Rmult_assoc, Rinv_l by lra. lra.
  Qed.

  Definition sgn (b : bool) : R := if b then -1 else 1.
  Lemma pm_fl : forall (b : bool) u v, fin u -> fin v -> Rabs (val u) <= 2 -> Rabs (val v) <= 2 ->
    fin (if b then sub u v else add u v) /\ Rabs (val (if b then sub u v else add u v) - (val u + sgn b * val v)) <= uu * Rabs (val u + sgn b * val v) + eta.
  Proof.
    intros b u v Fu Fv Hu Hv. assert (B1 : 4 <= bpow radix2 1023) by (apply Rle_trans with (bpow radix2 2); [simpl; lra|apply bpow_le; lia]). destruct b; unfold sgn.
    - replace (val u + -1 * val v) with (val u - val v) by ring. apply sub_23; try assumption. unfold Rminus. eapply Rle_trans; [apply Rabs_triang|]. rewrite Rabs_Ropp. lra.
    - replace (val u + 1 * val v) with (val u + val v) by ring. apply add_23; try assumption. eapply Rle_trans; [apply Rabs_triang|]. lra.
  Qed.

  Lemma asym_fl : forall (b : bool) (ax t1 t2 : f64) T1 T2 dl pn pd qn qd, (pair_ok 102 100 pn pd && pair_ok 5 100 qn qd)%bool = true -> fin ax -> 8 <= val ax <= bpow radix2 990 -> fin t1 -> fin t2 ->
    Rabs (val t1) <= 101 / 100 -> Rabs (val t2) <= 101 / 100 -> 0 <= dl -> Rabs (val t1 - T1) <= dl -> Rabs (val t2 - T2) <= dl ->
    let z := div (f64_lit 8.0) ax in let y := mul z z in
    let u := div (mul t1 (h y pn)) (h y pd) in let v := div (mul (mul z t2) (h y qn)) (h y qd) in
    let r := mul (f64_sqrt P (div (f64_lit 0.636619772367581343075535053490057448) ax)) (if b then sub u v else add u v) in
    fin r /\ Rabs (sqrt (val ax) * val r - cc * (pp (z21 pn) (z21 pd) (val ax) * T1 + sgn b * qq (z21 qn) (z21 qd) (val ax) * T2)) <= 86 / 100 * dl + 32 / 10 ^ 15.
  Proof.
    intros b ax t1 t2 T1 T2 dl pn pd qn qd Ok Fa Ha F1 F2 B1 B2 Hdl E1 E2 z y u v r. apply andb_prop in Ok. destruct Ok as [OkP OkQ]. pose proof eta_small as ES. pose proof eta_pos as EP.
    destruct (zy_fl ax Fa Ha) as (Fz & Fy & Ez & Hz & Ey & HY). fold z in Fz, Fy, Ez, Ey. fold y in Fy, Ey. set (X := val ax) in *. change (64 / (X * X)) with (yy X) in *.
    destruct (pair_fl 102 100 pn pd y (yy X) ltac:(lia) OkP Fy HY Ey ltac:(lra)) as (G1 & G2 & G3 & G4 & G5 & G6).
    destruct (pair_fl 5 100 qn qd y (yy X) ltac:(lia) OkQ Fy HY Ey ltac:(lra)) as (K1 & K2 & K3 & K4 & K5 & K6).
    change (peval (z21 pn) (yy X) / peval (z21 pd) (yy X)) with (pp (z21 pn) (z21 pd) X) in G5, G6.
    change (qq (z21 qn) (z21 qd) X) with (8 / X * (peval (z21 qn) (yy X) / peval (z21 qd) (yy X))).
    set (q1 := pp (z21 pn) (z21 pd) X) in *. set (q2 := peval (z21 qn) (yy X) / peval (z21 qd) (yy X)) in *. set (zz := 8 / X) in *. clearbody q1 q2.
    assert (ZT : Rabs (val z * val t2 - zz * val t2) <= 11 / 10 * uu * (101 / 100)). { replace (val z * val t2 - zz * val t2) with ((val z - zz) * val t2) by ring. rewrite Rabs_mult. apply Rmult_le_compat; try apply Rabs_pos; assumption. }
    assert (ZB : Rabs (zz * val t2) <= 1 * (101 / 100)). { rewrite Rabs_mult, (Rabs_pos_eq zz) by lra. apply Rmult_le_compat; try apply Rabs_pos; lra. }
    assert (ZC : Rabs (val z * val t2) <= 102 / 100). { replace (val z * val t2) with ((val z * val t2 - zz * val t2) + zz * val t2) by ring. eapply Rle_trans; [apply Rabs_triang|]. unfold uu in *. lra. }
    assert (B23 : 4 <= bpow radix2 1023) by (apply Rle_trans with (bpow radix2 2); [simpl; lra|apply bpow_le; lia]).
    destruct (mul_23 P z t2 Fz F2) as [Fb Eb]; [lra|]. set (b1 := mul z t2) in *.
    assert (Eb1 : Rabs (val b1 - zz * val t2) <= 4 * uu). { replace (val b1 - zz * val t2) with ((val b1 - val z * val t2) + (val z * val t2 - zz * val t2)) by ring. eapply Rle_trans; [apply Rabs_triang|]. unfold uu in *. lra. }
    assert (Bb : Rabs (val b1) <= 103 / 100). { replace (val b1) with ((val b1 - zz * val t2) + zz * val t2) by ring. eapply Rle_trans; [apply Rabs_triang|]. unfold uu in *. lra. }
    destruct (term_fl t1 (h y pn) (h y pd) q1 (102 / 100) ((1 + 102 / 100) * (11 / 10 ^ 15) * (1 + / 10 ^ 10)) F1 G1 G2 ltac:(lra) G3 G5 ltac:(lra) G6 ltac:(lra) G4) as [Fu Eu]. fold u in Fu, Eu.
    destruct (term_fl b1 (h y qn) (h y qd) q2 (5 / 100) ((1 + 5 / 100) * (11 / 10 ^ 15) * (1 + / 10 ^ 10)) Fb K1 K2 ltac:(lra) K3 K5 ltac:(lra) K6 ltac:(lra) K4) as [Fv Ev]. fold v in Fv, Ev.
    assert (Eu' : Rabs (val u - val t1 * q1) <= 23 / 10 ^ 15) by (unfold uu in *; lra).
    assert (Ev' : Rabs (val v - val b1 * q2) <= 13 / 10 ^ 15) by (unfold uu in *; lra). clear Eu Ev.
    assert (Bu : Rabs (val u) <= 2). { assert (Rabs (val t1 * q1) <= 101 / 100 * (102 / 100)) by (rewrite Rabs_mult; apply Rmult_le_compat; try apply Rabs_pos; assumption). replace (val u) with ((val u - val t1 * q1) + val t1 * q1) by ring. eapply Rle_trans; [apply Rabs_triang|]. lra. }
    assert (Bv : Rabs (val v) <= 2). { assert (Rabs (val b1 * q2) <= 103 / 100 * (5 / 100)) by (rewrite Rabs_mult; apply Rmult_le_compat; try apply Rabs_pos; assumption). replace (val v) with ((val v - val b1 * q2) + val b1 * q2) by ring. eapply Rle_trans; [apply Rabs_triang|]. lra. }
    destruct (pm_fl b u v Fu Fv Bu Bv) as [Fw Ew]. set (w := if b then sub u v else add u v) in *. clearbody w u v.
    assert (SG : Rabs (sgn b) = 1) by (destruct b; unfold sgn; [rewrite Rabs_left; lra|apply Rabs_R1]).
    destruct (sum_core (val t1) (val t2) T1 T2 q1 (sgn b * q2) zz (val b1) (val u) (sgn b * val v) (val w) dl Hdl E1 E2 B1 B2 Hz G6) as [W1 W2]; [rewrite Rabs_mult, SG; lra|exact Eb1|exact Eu'| |exact Ew|].
    { replace (sgn b * val v - val b1 * (sgn b * q2)) with (sgn b * (val v - val b1 * q2)) by ring. rewrite Rabs_mult, SG. lra. }
    destruct (scale_fl ax Fa Ha) as (Fs & Ms & Bs). fold X in Ms. set (s := f64_sqrt P _) in *. clearbody s.
    assert (SW : Rabs (val s * val w) <= 2 * (12 / 10)). { rewrite Rabs_mult, (Rabs_pos_eq (val s)) by lra. apply Rmult_le_compat; try apply Rabs_pos; lra. }
    destruct (mul_23 P s w Fs Fw) as [Fr Er]; [lra|]. fold r in Fr, Er. split; [exact Fr|].
    pose proof cc_range as CR. assert (X0 : 0 < sqrt X) by (apply sqrt_lt_R0; lra).
    assert (XU : sqrt X <= bpow radix2 495). { rewrite <- (sqrt_square (bpow radix2 495)) by apply bpow_ge_0. apply sqrt_le_1_alt. rewrite <- bpow_plus. exact (proj2 Ha). }
    replace (q1 * T1 + sgn b * (zz * q2) * T2) with (q1 * T1 + zz * (sgn b * q2) * T2) by ring.
    pose proof (outer_core (sqrt X) cc (val s) (val w) _ (val r) _ (conj X0 XU) ltac:(lra) Ms W1 W2 Er) as O. eapply Rle_trans; [exact O|]. lra.
  Qed.

  (** ** the phase *)
  Lemma pio4 : fin (f64_lit 0.785398163397448309615660845819875721) /\ Rabs (val (f64_lit 0.785398163397448309615660845819875721) - PI / 4) <= uu.
  Proof.
    pose proof PI_bounds as PB. replace (IZR (2 ^ 70)) with 1180591620717411303424 in PB by reflexivity.
    assert (V : R_of_dec 0.785398163397448309615660845819875721%dec = 785398163397448309615660845819875721 / 10 ^ 36).
    { unfold R_of_dec. cbn [dman dexp]. change (-36)%Z with (Z.opp (Z.of_nat 36)). rewrite powerRZ_neg', <- pow_powerRZ. lra. }
    destruct (lit_fl 0.785398163397448309615660845819875721%dec) as [F E].
    { rewrite V, Rabs_pos_eq by lra. apply (below_1000 _ 1); lra. }
    split; [exact F|]. rewrite V in E. rewrite (Rabs_pos_eq (785398163397448309615660845819875721 / 10 ^ 36)) in E by lra.
    pose proof eta_small. set (w := val _) in *. clearbody w. set (p := PI) in *. clearbody p. apply Rabs_le_inv in E. unfold uu in *. apply Rabs_le. lra.
  Qed.

  Lemma phase_fl : forall (ax f : f64) k, fin ax -> 8 <= val ax <= bpow radix2 990 -> fin f -> val f = k -> 1 <= k <= 3 ->
    let xx := sub ax (mul f (f64_lit 0.785398163397448309615660845819875721)) in
    fin xx /\ Rabs (val xx - (val ax - k * (PI / 4))) <= uu * val ax + 6 * uu.
  Proof.
    intros ax f k Fa Ha Ff Vf Hk xx. destruct pio4 as [Fp Ep]. set (p := f64_lit 0.785398163397448309615660845819875721) in *. clearbody p. pose proof eta_small as ES. pose proof eta_pos as EP.
    pose proof PI_bounds as PB. replace (IZR (2 ^ 70)) with 1180591620717411303424 in PB by reflexivity.
    assert (B23 : 4 <= bpow radix2 990) by (apply Rle_trans with (bpow radix2 2); [simpl; lra|apply bpow_le; lia]). assert (B24 : 2 * bpow radix2 990 <= bpow radix2 1023) by (change (2 * bpow radix2 990) with (IZR radix2 * bpow radix2 990); rewrite <- (bpow_plus_1 radix2 990); apply bpow_le; lia).
    assert (VP : 0 <= val p <= 786 / 1000). { apply Rabs_le_inv in Ep. unfold uu in Ep. lra. }
    assert (KP : 0 <= k * val p <= 3 * (786 / 1000)) by (split; [apply Rmult_le_pos; lra|apply Rmult_le_compat; lra]).
    destruct (mul_23 P f p Ff Fp) as [Fm Em]; [rewrite Vf, Rabs_pos_eq; lra|]. rewrite Vf, (Rabs_pos_eq (k * val p)) in Em by lra. set (m := mul f p) in *.
    assert (Dm : Rabs (val m - k * (PI / 4)) <= 3 * uu + uu * (3 * (786 / 1000)) + eta).
    { replace (val m - k * (PI / 4)) with ((val m - k * val p) + k * (val p - PI / 4)) by ring. eapply Rle_trans; [apply Rabs_triang|]. rewrite (Rabs_mult k), (Rabs_pos_eq k) by lra.
      assert (k * Rabs (val p - PI / 4) <= 3 * uu) by (apply Rmult_le_compat; try apply Rabs_pos; lra). assert (uu * (k * val p) <= uu * (3 * (786 / 1000))) by (apply Rmult_le_compat_l; [unfold uu; lra|lra]). lra. }
    assert (Vm : 0 <= val m <= 3). { apply Rabs_le_inv in Em. unfold uu in Em. assert (0 < 785 / 1000 <= val p) by (apply Rabs_le_inv in Ep; unfold uu in Ep; lra). assert (1 * (785 / 1000) <= k * val p) by (apply Rmult_le_compat; lra). lra. }
    assert (AM : Rabs (val ax - val m) <= val ax) by (rewrite Rabs_pos_eq; lra).
    destruct (sub_23 P ax m Fa Fm) as [Fx Ex]; [lra|]. fold xx in Fx, Ex. split; [exact Fx|].
    replace (val xx - (val ax - k * (PI / 4))) with ((val xx - (val ax - val m)) - (val m - k * (PI / 4))) by ring. unfold Rminus at 1. eapply Rle_trans; [apply Rabs_triang|]. rewrite Rabs_Ropp.
    assert (uu * Rabs (val ax - val m) <= uu * val ax) by (apply Rmult_le_compat_l; [unfold uu; lra|exact AM]). unfold uu in *. lra.
  Qed.

  Lemma trig_fl : forall (f : f64 -> f64) (g : R -> R) xx X dl, (forall t, fin t -> fin (f t) /\ Rabs (Binary.B2R (f t) - g (Binary.B2R t)) <= bpow radix2 (-50)) -> (forall a b, Rabs (g a - g b) <= Rabs (a - b)) -> (forall t, Rabs (g t) <= 1) ->
    fin xx -> Rabs (val xx - X) <= dl -> fin (f xx) /\ Rabs (val (f xx)) <= 101 / 100 /\ Rabs (val (f xx) - g X) <= dl + 8 * uu.
  Proof.
    intros f g xx X dl H L B F E. destruct (H xx F) as [Ff Ef]. rewrite <- (val_fin _ Ff), <- (val_fin _ F) in Ef. replace (bpow radix2 (-50)) with (8 * uu) in Ef by (unfold uu; simpl; lra).
    split; [exact Ff|]. pose proof (B (val xx)) as Bx. pose proof (L (val xx) X) as Lx. split.
    - replace (val (f xx)) with (g (val xx) + (val (f xx) - g (val xx))) by ring. eapply Rle_trans; [apply Rabs_triang|]. unfold uu in *. lra.
    - replace (val (f xx) - g X) with ((val (f xx) - g (val xx)) + (g (val xx) - g X)) by ring. eapply Rle_trans; [apply Rabs_triang|]. lra.
  Qed.
End Asym.

Section Fns.
  Context (P : platform) (CO : accurate_cos (p_cos P)) (SI : accurate_sin (p_sin P)).
  Local Notation mul := (f64_mul P). Local Notation add := (f64_add P). Local Notation sub := (f64_sub P). Local Notation div := (f64_div P).

  Lemma lt_8f : forall ax, fin ax -> 8 <= val ax -> f64_lt ax (f64_lit 8.0) = false.
  Proof. intros ax Fa Ha. destruct lit_8 as [F8 V8]. apply lt_false; [apply fin_nonnan, Fa|apply fin_nonnan, F8|]. lra. Qed.

  Lemma finish : forall X r v A, 8 <= X -> Rabs (sqrt X * r - A) <= 86 / 100 * (uu * X + 6 * uu + 8 * uu) + 32 / 10 ^ 15 -> Rabs (sqrt X * v - A) <= 103 / 10 ^ 15 -> Rabs (r - v) <= (14 / 10 ^ 14 + X / 2 ^ 53) / sqrt X.
  Proof.
    intros X r v A HX H1 H2. assert (S0 : 0 < sqrt X) by (apply sqrt_lt_R0; lra). apply Rmult_le_reg_l with (sqrt X); [exact S0|].
    replace (sqrt X * ((14 / 10 ^ 14 + X / 2 ^ 53) / sqrt X)) with (14 / 10 ^ 14 + X / 2 ^ 53) by (field; lra).
    replace (sqrt X * Rabs (r - v)) with (Rabs ((sqrt X * r - A) - (sqrt X * v - A))) by (rewrite <- (Rabs_pos_eq (sqrt X)) at 3 by lra; rewrite <- Rabs_mult; f_equal; ring).
    unfold Rminus at 1. eapply Rle_trans; [apply Rabs_triang|]. rewrite Rabs_Ropp. unfold uu in *. lra.
  Qed.

  Lemma both : forall ax f k, fin ax -> 8 <= val ax <= bpow radix2 990 -> fin f -> val f = k -> 1 <= k <= 3 ->
    let xx := sub ax (mul f (f64_lit 0.785398163397448309615660845819875721)) in let d := uu * val ax + 6 * uu + 8 * uu in
    (fin (libm P (p_cos P) xx) /\ Rabs (val (libm P (p_cos P) xx)) <= 101 / 100 /\ Rabs (val (libm P (p_cos P) xx) - cos (val ax - k * (PI / 4))) <= d) /\
    (fin (libm P (p_sin P) xx) /\ Rabs (val (libm P (p_sin P) xx)) <= 101 / 100 /\ Rabs (val (libm P (p_sin P) xx) - sin (val ax - k * (PI / 4))) <= d) /\ 0 <= d.
  Proof.
    intros ax f k Fa Ha Ff Vf Hk xx d. destruct (phase_fl P ax f k Fa Ha Ff Vf Hk) as [Fx Ex]. fold xx in Fx, Ex. rewrite !libm_nonnan by (apply fin_nonnan, Fx).
    split; [|split].
    - exact (trig_fl (p_cos P) cos xx _ _ CO cos_lip abs_cos Fx Ex).
    - exact (trig_fl (p_sin P) sin xx _ _ SI sin_lip abs_sin Fx Ex).
    - unfold d. assert (0 <= uu * val ax) by (apply Rmult_le_pos; [unfold uu; lra|lra]). unfold uu in *. lra.
  Qed.

  Lemma j0_large : forall x v, fin x -> 8 <= Rabs (val x) <= bpow radix2 990 -> is_J 0 (Rabs (val x)) v -> fin (@j0 (ieee P) x) /\ Rabs (val (@j0 (ieee P) x) - v) <= (14 / 10 ^ 14 + Rabs (val x) / 2 ^ 53) / sqrt (Rabs (val x)).
  Proof.
    intros x v Fx Hx Hv. unfold j0, asp, powi2, TWOOPI, PIO4, FRAC_2_PI, FRAC_PI_4. ieee_simpl. assert (Fa : fin (f64_abs x)) by (rewrite fin_abs; exact Fx). assert (Va : val (f64_abs x) = Rabs (val x)) by apply val_abs.
    rewrite <- Va in Hx, Hv |- *. set (ax := f64_abs x) in *. clearbody ax. rewrite (lt_8f ax Fa (proj1 Hx)).
    lit_facts 1.0%dec 1%Z 0%Z F1 V1. assert (V1' : val (f64_lit 1.0) = 1) by lra. destruct (both ax (f64_lit 1.0) 1 Fa Hx F1 V1' ltac:(lra)) as ((C1 & C2 & C3) & (S1 & S2 & S3) & D0).
    set (c := libm P (p_cos P) _) in *. set (s := libm P (p_sin P) _) in *. clearbody c s.
    destruct (asym_fl P true ax c s _ _ _ J0PN J0PD J0QN J0QD pairs_0 Fa Hx C1 S1 C2 S2 D0 C3 S3) as [Fr Er]. split; [exact Fr|].
    apply (finish _ _ _ _ (proj1 Hx) Er). pose proof (J0_asym _ v (proj1 Hx) Hv) as A. unfold A0, aa in A. unfold sgn. rewrite Rmult_1_l.
    eapply Rle_trans; [|exact A]. right. f_equal. ring.
  Qed.

  Lemma y0_large : forall x v, fin x -> 8 <= val x <= bpow radix2 990 -> is_Y 0 (val x) v -> fin (@y0 (ieee P) x) /\ Rabs (val (@y0 (ieee P) x) - v) <= (14 / 10 ^ 14 + val x / 2 ^ 53) / sqrt (val x).
  Proof.
    intros ax v Fa Hx Hv. unfold y0, asp, powi2, TWOOPI, PIO4, FRAC_2_PI, FRAC_PI_4. ieee_simpl. rewrite (lt_8f ax Fa (proj1 Hx)).
    change Y0PN with J0PN. change Y0PD with J0PD. change Y0QN with J0QN. change Y0QD with J0QD.
    lit_facts 1.0%dec 1%Z 0%Z F1 V1. assert (V1' : val (f64_lit 1.0) = 1) by lra. destruct (both ax (f64_lit 1.0) 1 Fa Hx F1 V1' ltac:(lra)) as ((C1 & C2 & C3) & (S1 & S2 & S3) & D0).
    set (c := libm P (p_cos P) _) in *. set (s := libm P (p_sin P) _) in *. clearbody c s.
    destruct (asym_fl P false ax s c _ _ _ J0PN J0PD J0QN J0QD pairs_0 Fa Hx S1 C1 S2 C2 D0 S3 C3) as [Fr Er]. split; [exact Fr|].
    apply (finish _ _ _ _ (proj1 Hx) Er). destruct euler_exists as [g Hg]. pose proof (Y0_asym g Hg _ v (proj1 Hx) Hv) as A. unfold A0, aa in A. unfold sgn. rewrite Rmult_1_l.
    replace (val ax - (PI / 4 + PI / 2)) with (val ax - PI / 4 - PI / 2) in A by ring. rewrite cos_m2, sin_m2 in A. eapply Rle_trans; [|exact A]. right. f_equal. ring.
  Qed.
  Lemma y1_large : forall x v, fin x -> 8 <= val x <= bpow radix2 990 -> is_Y 1 (val x) v -> fin (@y1 (ieee P) x) /\ Rabs (val (@y1 (ieee P) x) - v) <= (14 / 10 ^ 14 + val x / 2 ^ 53) / sqrt (val x).
  Proof.
    intros ax v Fa Hx Hv. unfold y1, asp, powi2, TWOOPI, PIO4, FRAC_2_PI, FRAC_PI_4. ieee_simpl. rewrite (lt_8f ax Fa (proj1 Hx)).
    change Y1PN with J1PN. change Y1PD with J1PD. change Y1QN with J1QN. change Y1QD with J1QD.
    lit_facts 3.0%dec 3%Z 0%Z F1 V1. assert (V1' : val (f64_lit 3.0) = 3) by lra. destruct (both ax (f64_lit 3.0) 3 Fa Hx F1 V1' ltac:(lra)) as ((C1 & C2 & C3) & (S1 & S2 & S3) & D0).
    set (c := libm P (p_cos P) _) in *. set (s := libm P (p_sin P) _) in *. clearbody c s.
    destruct (asym_fl P false ax s c _ _ _ J1PN J1PD J1QN J1QD pairs_1 Fa Hx S1 C1 S2 C2 D0 S3 C3) as [Fr Er]. split; [exact Fr|].
    apply (finish _ _ _ _ (proj1 Hx) Er). destruct euler_exists as [g Hg]. pose proof (Y1_asym g Hg _ v (proj1 Hx) Hv) as A. unfold A1, aa in A. unfold sgn.
    replace (val ax - (PI / 4 + PI)) with (val ax - 3 * (PI / 4) - PI / 2) in A by field. rewrite cos_m2, sin_m2 in A. eapply Rle_trans; [|exact A]. right. f_equal. ring.
  Qed.

  Lemma J1_refl : forall x v, is_J 1 x v -> is_J 1 (- x) (- v).
  Proof.
    intros x v H e He. destruct (H e He) as [N HN]. exists N. intros n Hn. specialize (HN n Hn). unfold R_dist in *.
    replace (sum_f_R0 (bterm (-1) 1 (- x)) n) with (- sum_f_R0 (bterm (-1) 1 x) n).
    - replace (- sum_f_R0 (bterm (-1) 1 x) n - - v) with (- (sum_f_R0 (bterm (-1) 1 x) n - v)) by ring. rewrite Rabs_Ropp. exact HN.
    - replace (- sum_f_R0 (bterm (-1) 1 x) n) with (-1 * sum_f_R0 (bterm (-1) 1 x) n) by ring. rewrite scal_sum. apply sum_eq. intros i _. unfold bterm. rewrite !pow_add, !pow_mult, !pow_1. replace ((- x / 2) ^ 2) with ((x / 2) ^ 2) by field. field. split; apply INR_fact_neq_0.
  Qed.
  Lemma J0_refl : forall x v, is_J 0 x v -> is_J 0 (Rabs x) v.
  Proof.
    intros x v H. unfold is_J, Rabs in *. destruct (Rcase_abs x); [|exact H]. intros e He. destruct (H e He) as [N HN]. exists N. intros n Hn. specialize (HN n Hn).
    rewrite (sum_eq (bterm (-1) 0 (- x)) (bterm (-1) 0 x)); [exact HN|]. intros i _. unfold bterm. rewrite !Nat.add_0_r, !pow_mult. replace ((- x / 2) ^ 2) with ((x / 2) ^ 2) by field. reflexivity.
  Qed.

  Lemma j1_large : forall x v, fin x -> 8 <= Rabs (val x) <= bpow radix2 990 -> is_J 1 (val x) v -> fin (@j1 (ieee P) x) /\ Rabs (val (@j1 (ieee P) x) - v) <= (14 / 10 ^ 14 + Rabs (val x) / 2 ^ 53) / sqrt (Rabs (val x)).
  Proof.
    intros x v Fx Hx Hv. unfold j1, asp, powi2, TWOOPI, PIO4, FRAC_2_PI, FRAC_PI_4. ieee_simpl. assert (Fa : fin (f64_abs x)) by (rewrite fin_abs; exact Fx). assert (Va : val (f64_abs x) = Rabs (val x)) by apply val_abs.
    pose proof Hx as Hx'. rewrite <- Va in Hx |- *. set (ax := f64_abs x) in *. rewrite (lt_8f ax Fa (proj1 Hx)).
    lit_facts 3.0%dec 3%Z 0%Z F1 V1. assert (V1' : val (f64_lit 3.0) = 3) by lra. destruct (both ax (f64_lit 3.0) 3 Fa Hx F1 V1' ltac:(lra)) as ((C1 & C2 & C3) & (S1 & S2 & S3) & D0).
    set (c := libm P (p_cos P) _) in *. set (s := libm P (p_sin P) _) in *. clearbody c s.
    destruct (asym_fl P true ax c s _ _ _ J1PN J1PD J1QN J1QD pairs_1 Fa Hx C1 S1 C2 S2 D0 C3 S3) as [Fr Er]. cbv iota zeta in Fr, Er.
    set (r := mul (f64_sqrt P _) _) in *. clearbody r.
    assert (G : forall w, is_J 1 (val ax) w -> Rabs (val r - w) <= (14 / 10 ^ 14 + val ax / 2 ^ 53) / sqrt (val ax)).
    { intros w Hw. apply (finish _ _ _ _ (proj1 Hx) Er). pose proof (J1_asym _ w (proj1 Hx) Hw) as A. unfold A1, aa in A. unfold sgn.
      replace (val ax - (PI / 4 + PI / 2)) with (val ax - 3 * (PI / 4)) in A by field. eapply Rle_trans; [|exact A]. right. f_equal. ring. }
    destruct (Rlt_dec (val x) 0) as [L|L].
    - assert (E : f64_lt x (f64_lit 0.0) = true) by (apply lt_true; rewrite val_0; split; [apply fin_nonnan, Fx|split; [reflexivity|exact L]]). rewrite E. rewrite fin_neg, val_neg. split; [exact Fr|].
      rewrite Rabs_left in Va by exact L. replace (- val r - v) with (- (val r - - v)) by ring. rewrite Rabs_Ropp. apply G. rewrite Va. apply J1_refl, Hv.
    - assert (E : f64_lt x (f64_lit 0.0) = false) by (apply lt_false; [apply fin_nonnan, Fx|reflexivity|]; rewrite val_0; lra). rewrite E. split; [exact Fr|].
      apply G. rewrite Va, Rabs_pos_eq by lra. exact Hv.
  Qed.
End Fns.
