(** * Statements about J0, J1, Y0 and Y1 from 8 on *)

From Coq Require Import ZArith Reals Bool Lra Lia List.
From Flocq Require Import Core IEEE754.BinarySingleNaN IEEE754.Binary IEEE754.Bits.
From Verif.Model Require Import Base Arith BesselTables Bessel.
From Verif.Float Require Import Bits64 Ieee Exact Platforms.
From Verif.Spec Require Import F64Spec Outcome BesselSpec Bessel2Spec TrigSpec.
From Verif.Proofs Require Import F64 F64Ops Lits Ext FlErr GammaAcc PolyZ BesselReal BesselLim BesselRat KRat BesselAcc EulerGamma PiBounds SecondSeries SecondRat YAcc KnAcc YnAcc JYrat JYasym JYLarge UtilsSpec.
Import ListNotations.
Open Scope R_scope.
Local Notation cos := Rtrigo_def.cos.
Local Notation sin := Rtrigo_def.sin.
Local Notation sqrt := R_sqrt.sqrt.
Local Notation PI := Rtrigo1.PI.

Lemma Jn_large : forall (P : platform) (n : nat) (x : f64) (v : R), accurate_cos (p_cos P) -> accurate_sin (p_sin P) -> (n <= 1)%nat -> finite x -> 8 <= Rabs (Binary.B2R x) <= bpow radix2 990 -> is_J n (Binary.B2R x) v ->
  exists r, @Jn (ieee P) (Z.of_nat n) x = Ok r /\ finite r /\ Rabs (Binary.B2R r - v) <= (14 / 10 ^ 14 + Rabs (Binary.B2R x) / 2 ^ 53) / sqrt (Rabs (Binary.B2R x)).
Proof.
  intros P n x v CO SI Hn Fx Hx Hv. rewrite <- (val_fin x Fx) in *. destruct n as [|[|n]]; [| |lia].
  - destruct (j0_large P CO SI x v Fx Hx (J0_refl _ _ Hv)) as [F E]. eexists. split; [reflexivity|]. split; [exact F|]. rewrite <- (val_fin _ F). exact E.
  - destruct (j1_large P CO SI x v Fx Hx Hv) as [F E]. eexists. split; [reflexivity|]. split; [exact F|]. rewrite <- (val_fin _ F). exact E.
Qed.

Lemma Yn_large : forall (P : platform) (n : nat) (x : f64) (v : R), accurate_cos (p_cos P) -> accurate_sin (p_sin P) -> (n <= 1)%nat -> finite x -> 8 <= Binary.B2R x <= bpow radix2 990 -> is_Y n (Binary.B2R x) v ->
  let r := @Yn (ieee P) (Z.of_nat n) x in finite r /\ Rabs (Binary.B2R r - v) <= (14 / 10 ^ 14 + Binary.B2R x / 2 ^ 53) / sqrt (Binary.B2R x).
Proof.
  intros P n x v CO SI Hn Fx Hx Hv r. rewrite <- (val_fin x Fx) in *. destruct n as [|[|n]]; [| |lia].
  - destruct (y0_large P CO SI x v Fx Hx Hv) as [F E]. change r with (@y0 (ieee P) x). split; [exact F|]. rewrite <- (val_fin _ F). exact E.
  - destruct (y1_large P CO SI x v Fx Hx Hv) as [F E]. change r with (@y1 (ieee P) x). split; [exact F|]. rewrite <- (val_fin _ F). exact E.
Qed.

(** ** beyond 2^56 the shift by pi/4 disappears *)
Lemma fmt_mult : forall x, generic_format radix2 (FLT_exp (-1074) 53) x -> bpow radix2 55 <= Rabs x -> exists m, x = IZR m * 8.
Proof.
  intros x F H. rewrite F. unfold F2R. cbn [Fnum Fexp]. set (m := Ztrunc _).
  assert (C : (3 <= Generic_fmt.cexp radix2 (FLT_exp (-1074) 53) x)%Z).
  { unfold Generic_fmt.cexp, FLT_exp. pose proof (mag_ge_bpow radix2 x 56 H). lia. }
  set (e := Generic_fmt.cexp _ _ _) in *. clearbody e m. exists (m * 2 ^ (e - 3))%Z. rewrite mult_IZR. replace e with ((e - 3) + 3)%Z at 1 by ring. rewrite bpow_plus. assert (B8 : bpow radix2 3 = 8) by (simpl; lra). rewrite B8. replace (bpow radix2 (e - 3)) with (IZR (2 ^ (e - 3))); [clear F H; ring|].
  rewrite (IZR_Zpower radix2) by lia. reflexivity.
Qed.
Lemma absorb : forall (P : platform) (x q : f64), fin x -> fin q -> bpow radix2 56 <= val x <= bpow radix2 990 -> 0 <= val q <= 3 -> fin (f64_sub P x q) /\ val (f64_sub P x q) = val x.
Proof.
  intros P x q Fx Fq Hx Hq. assert (B : bpow radix2 990 <= bpow radix2 1023) by (apply bpow_le; lia). assert (B3 : 8 <= bpow radix2 55) by (apply Rle_trans with (bpow radix2 3); [simpl; lra|apply bpow_le; lia]). assert (B6 : bpow radix2 56 = 2 * bpow radix2 55) by (change 56%Z with (55 + 1)%Z; apply bpow_plus_1).
  destruct (sub_23 P x q Fx Fq) as [Fr _]; [rewrite Rabs_pos_eq; lra|]. split; [exact Fr|].
  pose proof (sub_spec P x q Fx Fq) as S. rewrite <- (val_fin x Fx), <- (val_fin q Fq) in S. destruct (rounds_small _ _ S) as [_ V].
  { rewrite <- rnd_abs. apply Rle_lt_trans with (bpow radix2 1023); [apply rnd_le_fmt; [apply fmt_bpow; lia|rewrite Rabs_pos_eq; lra]|unfold Om; apply bpow_lt; lia]. }
  assert (Gx : fmt (val x)) by (rewrite (val_fin x Fx); apply fmt_B2R).
  assert (D : Rabs (val (f64_sub P x q) - (val x - val q)) <= val q).
  { rewrite (val_fin _ Fr), V. destruct (round_N_pt radix2 (FLT_exp (-1074) 53) (fun t => negb (Z.even t)) (val x - val q)) as [_ N]. specialize (N (val x) Gx). replace (val x - (val x - val q)) with (val q) in N by ring. rewrite (Rabs_pos_eq (val q)) in N by lra. exact N. }
  assert (Gr : fmt (val (f64_sub P x q))) by (rewrite (val_fin _ Fr); apply fmt_B2R).
  set (r := val (f64_sub P x q)) in *. clearbody r. apply Rabs_le_inv in D.
  destruct (fmt_mult r Gr) as [a Ha]; [rewrite Rabs_pos_eq; lra|]. destruct (fmt_mult (val x) Gx) as [b Hb]; [rewrite Rabs_pos_eq; lra|].
  assert (Rabs (IZR a - IZR b) < 1) by (apply Rabs_def1; lra). rewrite <- minus_IZR, <- abs_IZR in H. apply lt_IZR in H. replace a with b in Ha by lia. lra.
Qed.

Lemma far_core : forall X c p q C S C' S' rj ry vj vy e K g, 0 < X -> 79 / 100 <= c <= 4 / 5 -> 95 / 100 <= p -> (C - C') * (C - C') + (S - S') * (S - S') = g -> 0 <= e <= 1 / 10 ^ 12 -> 1 / 2 <= K <= 1 -> 222 / 100 * (K * K) <= g ->
  Rabs (X * rj - c * (p * C + - 1 * q * S)) <= e -> Rabs (X * vj - c * (p * C' - q * S')) <= e -> Rabs (X * ry - c * (p * S + 1 * q * C)) <= e -> Rabs (X * vy - c * (p * S' + q * C')) <= e ->
  ~ (Rabs (rj - vj) <= K * (c / X) /\ Rabs (ry - vy) <= K * (c / X)).
Proof.
  intros X c p q C S C' S' rj ry vj vy e K g HX Hc Hp Hg He HK HG J1 J2 Y1 Y2 [HJ HY].
  assert (M : forall u v, Rabs (u - v) <= K * (c / X) -> Rabs (X * u - X * v) <= K * c).
  { intros u v H. rewrite <- Rmult_minus_distr_l, Rabs_mult, (Rabs_pos_eq X) by lra. apply Rle_trans with (X * (K * (c / X))); [apply Rmult_le_compat_l; lra|right; field; lra]. }
  apply M in HJ, HY. clear M. set (a := C - C') in *. set (b := S - S') in *.
  assert (A1 : Rabs (c * (p * a - q * b)) <= K * c + 2 * e).
  { replace (c * (p * a - q * b)) with (- (X * rj - c * (p * C + -1 * q * S)) + (X * vj - c * (p * C' - q * S')) + (X * rj - X * vj)) by (unfold a, b; ring).
    eapply Rle_trans; [apply Rabs_triang|]. eapply Rle_trans; [apply Rplus_le_compat_r, Rabs_triang|]. rewrite Rabs_Ropp. lra. }
  assert (A2 : Rabs (c * (p * b + q * a)) <= K * c + 2 * e).
  { replace (c * (p * b + q * a)) with (- (X * ry - c * (p * S + 1 * q * C)) + (X * vy - c * (p * S' + q * C')) + (X * ry - X * vy)) by (unfold a, b; ring).
    eapply Rle_trans; [apply Rabs_triang|]. eapply Rle_trans; [apply Rplus_le_compat_r, Rabs_triang|]. rewrite Rabs_Ropp. lra. }
  assert (E : K * c + 2 * e <= c * (K * (1 + / 10 ^ 10))). { assert (1 / 2 * (79 / 100) <= K * c) by (apply Rmult_le_compat; lra). lra. }
  assert (G : forall u, Rabs (c * u) <= K * c + 2 * e -> u * u <= (1 + 1 / 10 ^ 9) * (K * K)).
  { intros u H. rewrite Rabs_mult, (Rabs_pos_eq c) in H by lra. assert (Hu : Rabs u <= K * (1 + / 10 ^ 10)) by (apply Rmult_le_reg_l with c; lra).
    replace (u * u) with (Rabs u * Rabs u) by (rewrite <- Rabs_mult; apply Rabs_pos_eq, Rle_0_sqr). apply Rle_trans with (K * (1 + / 10 ^ 10) * (K * (1 + / 10 ^ 10))); [apply Rmult_le_compat; try apply Rabs_pos; assumption|].
    replace (K * (1 + / 10 ^ 10) * (K * (1 + / 10 ^ 10))) with ((1 + / 10 ^ 10) * (1 + / 10 ^ 10) * (K * K)) by ring. apply Rmult_le_compat_r; [apply Rmult_le_pos; lra|lra]. }
  apply G in A1, A2. assert (PQ : (p * a - q * b) * (p * a - q * b) + (p * b + q * a) * (p * b + q * a) = (p * p + q * q) * g) by (rewrite <- Hg; ring).
  assert (K2 : 1 / 2 * (1 / 2) <= K * K) by (apply Rmult_le_compat; lra). assert (P2 : 95 / 100 * (95 / 100) <= p * p + q * q) by (pose proof (Rle_0_sqr q) as Q; unfold Rsqr in Q; assert (95 / 100 * (95 / 100) <= p * p) by (apply Rmult_le_compat; lra); lra).
  assert (95 / 100 * (95 / 100) * g <= (p * p + q * q) * g) by (apply Rmult_le_compat_r; lra). lra.
Qed.

Lemma circle : forall x f, (cos x - cos (x - f)) * (cos x - cos (x - f)) + (sin x - sin (x - f)) * (sin x - sin (x - f)) = 2 - 2 * cos f.
Proof.
  intros x f. assert (E : cos f = cos x * cos (x - f) + sin x * sin (x - f)) by (rewrite <- cos_minus; f_equal; ring).
  rewrite E. pose proof (sin2_cos2 x) as A. pose proof (sin2_cos2 (x - f)) as B. unfold Rsqr in *. lra.
Qed.
Lemma isq2 : 70 / 100 <= 1 / sqrt 2 <= 7072 / 10000.
Proof.
  assert (L : 14141 / 10000 <= sqrt 2). { rewrite <- (sqrt_square (14141 / 10000)) by lra. apply sqrt_le_1_alt. lra. }
  assert (U : sqrt 2 <= 14143 / 10000). { rewrite <- (sqrt_square (14143 / 10000)) by lra. apply sqrt_le_1_alt. lra. }
  split; apply Rmult_le_reg_r with (sqrt 2); try lra; replace (1 / sqrt 2 * sqrt 2) with 1 by (field; lra); lra.
Qed.
Lemma turn_1 : 222 / 100 * (1 / 2 * (1 / 2)) <= 2 - 2 * cos (1 * (PI / 4)).
Proof. rewrite Rmult_1_l, cos_PI4. pose proof isq2. lra. Qed.
Lemma turn_3 : 222 / 100 * (1 * 1) <= 2 - 2 * cos (3 * (PI / 4)).
Proof. replace (3 * (PI / 4)) with (PI - PI / 4) by field. rewrite Rtrigo_facts.cos_pi_minus, cos_PI4. pose proof isq2. lra. Qed.
Lemma p_low0 : forall X, 8 <= X -> 95 / 100 <= pp (z21 J0PN) (z21 J0PD) X.
Proof.
  intros X HX. assert (Y : 0 <= yy X <= 1). { unfold yy. split; [left; apply Rdiv_lt_0_compat; [lra|apply Rmult_lt_0_compat; lra]|]. assert (8 * 8 <= X * X) by (apply Rmult_le_compat; lra). apply Rmult_le_reg_r with (X * X); [lra|]. replace (64 / (X * X) * (X * X)) with 64 by (field; lra). lra. }
  assert (H : Rabs (peval (z21 J0PD) (yy X)) <= IZR 100 / IZR 95 * peval (z21 J0PN) (yy X)) by (apply ratio_le; [lia|vm_compute; reflexivity|exact Y]). pose proof (posd_0 _ (proj1 Y)) as D. rewrite Rabs_pos_eq in H by lra.
  unfold pp, r0. apply Rmult_le_reg_r with (peval (z21 J0PD) (yy X)); [exact D|]. unfold Rdiv at 2. rewrite (Rmult_assoc (peval (z21 J0PN) (yy X))), Rinv_l by lra. lra.
Qed.
Lemma p_low1 : forall X, 8 <= X -> 95 / 100 <= pp (z21 J1PN) (z21 J1PD) X.
Proof.
  intros X HX. assert (Y : 0 <= yy X <= 1). { unfold yy. split; [left; apply Rdiv_lt_0_compat; [lra|apply Rmult_lt_0_compat; lra]|]. assert (8 * 8 <= X * X) by (apply Rmult_le_compat; lra). apply Rmult_le_reg_r with (X * X); [lra|]. replace (64 / (X * X) * (X * X)) with 64 by (field; lra). lra. }
  assert (H : Rabs (peval (z21 J1PD) (yy X)) <= IZR 100 / IZR 95 * peval (z21 J1PN) (yy X)) by (apply ratio_le; [lia|vm_compute; reflexivity|exact Y]). pose proof (posd_1 _ (proj1 Y)) as D. rewrite Rabs_pos_eq in H by lra.
  unfold pp, r0. apply Rmult_le_reg_r with (peval (z21 J1PD) (yy X)); [exact D|]. unfold Rdiv at 2. rewrite (Rmult_assoc (peval (z21 J1PN) (yy X))), Rinv_l by lra. lra.
Qed.

Lemma abs_same : forall x : f64, fin x -> 0 < val x -> f64_abs x = x.
Proof.
  intros x F H. rewrite (val_fin x F) in H. destruct x as [s|s|s pl e|[] m e B]; try discriminate F; try reflexivity; exfalso.
  - change (0 < 0) in H. lra.
  - rewrite B2R_finite in H. assert (0 <= IZR (Z.pos m) * bpow radix2 e); [|lra]. apply Rmult_le_pos; [apply IZR_le; lia|apply bpow_ge_0].
Qed.

Section Far.
  Context (P : platform) (CO : accurate_cos (p_cos P)) (SI : accurate_sin (p_sin P)).
  Local Notation mul := (f64_mul P). Local Notation sub := (f64_sub P).
  Lemma both_far : forall ax f k, fin ax -> bpow radix2 56 <= val ax <= bpow radix2 990 -> fin f -> val f = k -> 1 <= k <= 3 ->
    let xx := sub ax (mul f (f64_lit 0.785398163397448309615660845819875721)) in
    (fin (libm P (p_cos P) xx) /\ Rabs (val (libm P (p_cos P) xx)) <= 101 / 100 /\ Rabs (val (libm P (p_cos P) xx) - cos (val ax)) <= 8 * uu) /\
    (fin (libm P (p_sin P) xx) /\ Rabs (val (libm P (p_sin P) xx)) <= 101 / 100 /\ Rabs (val (libm P (p_sin P) xx) - sin (val ax)) <= 8 * uu).
  Proof.
    intros ax f k Fa Ha Ff Vf Hk xx. destruct pio4 as [Fp Ep]. set (p := f64_lit 0.785398163397448309615660845819875721) in *. clearbody p. pose proof eta_small as ES. pose proof eta_pos as EP.
    pose proof PI_bounds as PB. replace (IZR (2 ^ 70)) with 1180591620717411303424 in PB by reflexivity.
    assert (B23 : 4 <= bpow radix2 1023) by (apply Rle_trans with (bpow radix2 2); [simpl; lra|apply bpow_le; lia]).
    assert (VP : 785 / 1000 <= val p <= 786 / 1000). { apply Rabs_le_inv in Ep. unfold uu in Ep. lra. }
    assert (KP : 1 * (785 / 1000) <= k * val p <= 3 * (786 / 1000)) by (split; apply Rmult_le_compat; lra).
    destruct (mul_23 P f p Ff Fp) as [Fm Em]; [rewrite Vf, Rabs_pos_eq; lra|]. rewrite Vf, (Rabs_pos_eq (k * val p)) in Em by lra. set (m := mul f p) in *.
    assert (Vm : 0 <= val m <= 3). { apply Rabs_le_inv in Em. unfold uu in Em. lra. }
    destruct (absorb P ax m Fa Fm Ha Vm) as [Fx Ex]. fold xx in Fx, Ex. rewrite !libm_nonnan by (apply fin_nonnan, Fx).
    assert (E0 : Rabs (val xx - val ax) <= 0) by (rewrite Ex; unfold Rminus; rewrite Rplus_opp_r, Rabs_R0; lra).
    replace (8 * uu) with (0 + 8 * uu) by ring. split.
    - exact (trig_fl (p_cos P) cos xx _ _ CO cos_lip abs_cos Fx E0).
    - exact (trig_fl (p_sin P) sin xx _ _ SI sin_lip abs_sin Fx E0).
  Qed.

  Lemma far_0 : forall x vj vy, fin x -> bpow radix2 56 <= val x <= bpow radix2 990 -> is_J 0 (val x) vj -> is_Y 0 (val x) vy ->
    ~ (Rabs (val (@j0 (ieee P) x) - vj) <= 1 / 2 * (cc / sqrt (val x)) /\ Rabs (val (@y0 (ieee P) x) - vy) <= 1 / 2 * (cc / sqrt (val x))).
  Proof.
    intros x vj vy Fx Hx Hj Hy. assert (B8 : 8 <= bpow radix2 56) by (apply Rle_trans with (bpow radix2 3); [simpl; lra|apply bpow_le; lia]).
    assert (Hx8 : 8 <= val x <= bpow radix2 990) by lra. assert (S0 : 0 < sqrt (val x)) by (apply sqrt_lt_R0; lra).
    lit_facts 1.0%dec 1%Z 0%Z F1 V1. assert (V1' : val (f64_lit 1.0) = 1) by lra. clear V1.
    unfold j0, y0, asp, powi2, TWOOPI, PIO4, FRAC_2_PI, FRAC_PI_4. ieee_simpl.
    change Y0PN with J0PN. change Y0PD with J0PD. change Y0QN with J0QN. change Y0QD with J0QD.
    assert (AX : f64_abs x = x). { apply abs_same; [exact Fx|lra]. }
    rewrite AX, (lt_8f x Fx (proj1 Hx8)).
    destruct (both_far x (f64_lit 1.0) 1 Fx Hx F1 V1' ltac:(lra)) as ((C1 & C2 & C3) & (S1 & S2 & S3)).
    set (c := libm P (p_cos P) _) in *. set (s := libm P (p_sin P) _) in *. clearbody c s.
    assert (U0 : 0 <= 8 * uu) by (unfold uu; lra).
    destruct (asym_fl P true x c s _ _ _ J0PN J0PD J0QN J0QD pairs_0 Fx Hx8 C1 S1 C2 S2 U0 C3 S3) as [_ EJ].
    destruct (asym_fl P false x s c _ _ _ J0PN J0PD J0QN J0QD pairs_0 Fx Hx8 S1 C1 S2 C2 U0 S3 C3) as [_ EY].
    cbv iota zeta in EJ, EY. set (rj := val (f64_mul P _ (f64_sub P _ _))) in *. set (ry := val (f64_mul P _ (f64_add P _ _))) in *. clearbody rj ry. unfold sgn in EJ, EY.
    pose proof (J0_asym _ vj (proj1 Hx8) Hj) as AJ. destruct euler_exists as [g Hg]. pose proof (Y0_asym g Hg _ vy (proj1 Hx8) Hy) as AY. unfold A0, aa in AJ, AY.
    replace (val x - (PI / 4 + PI / 2)) with (val x - PI / 4 - PI / 2) in AY by ring. rewrite cos_m2, sin_m2 in AY. replace (PI / 4) with (1 * (PI / 4)) in AJ, AY by ring.
    apply (far_core (sqrt (val x)) cc (pp (z21 J0PN) (z21 J0PD) (val x)) (qq (z21 J0QN) (z21 J0QD) (val x)) (cos (val x)) (sin (val x)) (cos (val x - 1 * (PI / 4))) (sin (val x - 1 * (PI / 4))) rj ry vj vy (2 / 10 ^ 13) (1 / 2) (2 - 2 * cos (1 * (PI / 4))) S0 cc_range (p_low0 _ (proj1 Hx8)) (circle _ _) ltac:(lra) ltac:(lra) turn_1).
    - eapply Rle_trans; [exact EJ|unfold uu; lra].
    - eapply Rle_trans; [exact AJ|lra].
    - eapply Rle_trans; [exact EY|unfold uu; lra].
    - eapply Rle_trans; [|apply Rle_trans with (1 := AY); lra]. right. f_equal. ring.
  Qed.
  Lemma far_1 : forall x vj vy, fin x -> bpow radix2 56 <= val x <= bpow radix2 990 -> is_J 1 (val x) vj -> is_Y 1 (val x) vy ->
    ~ (Rabs (val (@j1 (ieee P) x) - vj) <= 1 * (cc / sqrt (val x)) /\ Rabs (val (@y1 (ieee P) x) - vy) <= 1 * (cc / sqrt (val x))).
  Proof.
    intros x vj vy Fx Hx Hj Hy. assert (B8 : 8 <= bpow radix2 56) by (apply Rle_trans with (bpow radix2 3); [simpl; lra|apply bpow_le; lia]).
    assert (Hx8 : 8 <= val x <= bpow radix2 990) by lra. assert (S0 : 0 < sqrt (val x)) by (apply sqrt_lt_R0; lra).
    lit_facts 3.0%dec 3%Z 0%Z F1 V1. assert (V1' : val (f64_lit 3.0) = 3) by lra. clear V1.
    unfold j1, y1, asp, powi2, TWOOPI, PIO4, FRAC_2_PI, FRAC_PI_4. ieee_simpl.
    change Y1PN with J1PN. change Y1PD with J1PD. change Y1QN with J1QN. change Y1QD with J1QD.
    assert (AX : f64_abs x = x). { apply abs_same; [exact Fx|lra]. }
    rewrite AX, (lt_8f x Fx (proj1 Hx8)).
    assert (L0 : f64_lt x (f64_lit 0.0) = false) by (apply lt_false; [apply fin_nonnan, Fx|reflexivity|]; rewrite val_0; lra). rewrite L0.
    destruct (both_far x (f64_lit 3.0) 3 Fx Hx F1 V1' ltac:(lra)) as ((C1 & C2 & C3) & (S1 & S2 & S3)).
    set (c := libm P (p_cos P) _) in *. set (s := libm P (p_sin P) _) in *. clearbody c s.
    assert (U0 : 0 <= 8 * uu) by (unfold uu; lra).
    destruct (asym_fl P true x c s _ _ _ J1PN J1PD J1QN J1QD pairs_1 Fx Hx8 C1 S1 C2 S2 U0 C3 S3) as [_ EJ].
    destruct (asym_fl P false x s c _ _ _ J1PN J1PD J1QN J1QD pairs_1 Fx Hx8 S1 C1 S2 C2 U0 S3 C3) as [_ EY].
    cbv iota zeta in EJ, EY. set (rj := val (f64_mul P _ (f64_sub P _ _))) in *. set (ry := val (f64_mul P _ (f64_add P _ _))) in *. clearbody rj ry. unfold sgn in EJ, EY.
    pose proof (J1_asym _ vj (proj1 Hx8) Hj) as AJ. destruct euler_exists as [g Hg]. pose proof (Y1_asym g Hg _ vy (proj1 Hx8) Hy) as AY. unfold A1, aa in AJ, AY.
    replace (val x - (PI / 4 + PI)) with (val x - 3 * (PI / 4) - PI / 2) in AY by field. rewrite cos_m2, sin_m2 in AY. replace (PI / 4 + PI / 2) with (3 * (PI / 4)) in AJ by field.
    apply (far_core (sqrt (val x)) cc (pp (z21 J1PN) (z21 J1PD) (val x)) (qq (z21 J1QN) (z21 J1QD) (val x)) (cos (val x)) (sin (val x)) (cos (val x - 3 * (PI / 4))) (sin (val x - 3 * (PI / 4))) rj ry vj vy (2 / 10 ^ 13) 1 (2 - 2 * cos (3 * (PI / 4))) S0 cc_range (p_low1 _ (proj1 Hx8)) (circle _ _) ltac:(lra) ltac:(lra) turn_3).
    - eapply Rle_trans; [exact EJ|unfold uu; lra].
    - eapply Rle_trans; [exact AJ|lra].
    - eapply Rle_trans; [exact EY|unfold uu; lra].
    - eapply Rle_trans; [|apply Rle_trans with (1 := AY); lra]. right. f_equal. ring.
  Qed.
End Far.

Lemma amp_eq : forall X, 0 < X -> sqrt (2 / (PI * X)) = cc / sqrt X.
Proof. intros X HX. pose proof PI_RGT_0. unfold cc. replace (2 / (PI * X)) with (2 / PI / X) by (field; lra). apply sqrt_div_alt. exact HX. Qed.

Lemma phase_lost : forall (P : platform) (n : nat) (x : f64) (vj vy : R), accurate_cos (p_cos P) -> accurate_sin (p_sin P) -> (n <= 1)%nat -> finite x -> bpow radix2 56 <= Binary.B2R x <= bpow radix2 990 ->
  is_J n (Binary.B2R x) vj -> is_Y n (Binary.B2R x) vy ->
  let amplitude := sqrt (2 / (PI * Binary.B2R x)) in
  exists rj, @Jn (ieee P) (Z.of_nat n) x = Ok rj /\ (1 / 2 * amplitude < Rabs (Binary.B2R rj - vj) \/ 1 / 2 * amplitude < Rabs (Binary.B2R (@Yn (ieee P) (Z.of_nat n) x) - vy)).
Proof.
  intros P n x vj vy CO SI Hn Fx Hx Hj Hy amplitude. assert (B8 : 8 <= bpow radix2 56) by (apply Rle_trans with (bpow radix2 3); [simpl; lra|apply bpow_le; lia]).
  assert (A : amplitude = cc / sqrt (val x)) by (unfold amplitude; rewrite <- (val_fin x Fx) in *; apply amp_eq; lra). rewrite <- (val_fin x Fx) in *. rewrite A. clear amplitude A.
  assert (S0 : 0 < cc / sqrt (val x)) by (apply Rdiv_lt_0_compat; [pose proof cc_range; lra|apply sqrt_lt_R0; lra]).
  assert (D : forall a b c : R, ~ (a <= c /\ b <= c) -> c < a \/ c < b) by (intros a b c H; destruct (Rle_lt_dec a c), (Rle_lt_dec b c); tauto).
  destruct n as [|[|n]]; [| |lia].
  - exists (@j0 (ieee P) x). split; [reflexivity|]. destruct (j0_large P CO SI x vj Fx) as [Fj _]; [rewrite Rabs_pos_eq; lra|apply J0_refl, Hj|]. destruct (y0_large P CO SI x vy Fx ltac:(lra) Hy) as [Fy _].
    change (@Yn (ieee P) (Z.of_nat 0) x) with (@y0 (ieee P) x). rewrite <- (val_fin _ Fj), <- (val_fin _ Fy). apply D. exact (far_0 P CO SI x vj vy Fx Hx Hj Hy).
  - exists (@j1 (ieee P) x). split; [reflexivity|]. destruct (j1_large P CO SI x vj Fx) as [Fj _]; [rewrite Rabs_pos_eq; lra|exact Hj|]. destruct (y1_large P CO SI x vy Fx ltac:(lra) Hy) as [Fy _].
    change (@Yn (ieee P) (Z.of_nat 1) x) with (@y1 (ieee P) x). rewrite <- (val_fin _ Fj), <- (val_fin _ Fy).
    destruct (D _ _ _ (far_1 P CO SI x vj vy Fx Hx Hj Hy)) as [L|L]; [left|right]; lra.
Qed.

Lemma J_exists : forall n x, exists v, is_J n x v.
Proof. intros n x. exists (BJ x n). apply BJ_is. Qed.

Definition two_60 : f64 := @B754_finite 53 1024 false 4503599627370496 8 eq_refl.
Lemma phase_refuted : exists (P : platform) (x : f64), accurate_cos (p_cos P) /\ accurate_sin (p_sin P) /\ finite x /\ 8 <= Binary.B2R x <= bpow radix2 990 /\
  forall n, (n <= 1)%nat -> exists rj vj vy, @Jn (ieee P) (Z.of_nat n) x = Ok rj /\ is_J n (Binary.B2R x) vj /\ is_Y n (Binary.B2R x) vy /\
    (1 / 2 * sqrt (2 / (PI * Binary.B2R x)) < Rabs (Binary.B2R rj - vj) \/ 1 / 2 * sqrt (2 / (PI * Binary.B2R x)) < Rabs (Binary.B2R (@Yn (ieee P) (Z.of_nat n) x) - vy)).
Proof.
  exists (ideal true false), two_60. split; [apply ideal_cos_accurate|]. split; [apply ideal_sin_accurate|].
  assert (HF : fin two_60) by reflexivity. assert (V : Binary.B2R two_60 = 1152921504606846976) by (unfold two_60, Binary.B2R, F2R; cbn [Fnum Fexp SpecFloat.cond_Zopp]; simpl (bpow radix2 8); lra). set (w := two_60) in *. clearbody w. split; [exact HF|].
  assert (B : 72057594037927936 = bpow radix2 56) by reflexivity. assert (B2 : bpow radix2 60 <= bpow radix2 990) by (apply bpow_le; lia). assert (B3 : bpow radix2 60 = 1152921504606846976) by reflexivity.
  split; [rewrite V; lra|]. intros n Hn. destruct (J_exists n (Binary.B2R w)) as [vj Hj]. destruct (Y_exists n (Binary.B2R w) ltac:(rewrite V; lra)) as [vy Hy].
  destruct (phase_lost (ideal true false) n w vj vy (ideal_cos_accurate _ _) (ideal_sin_accurate _ _) Hn HF ltac:(rewrite V; lra) Hj Hy) as (rj & E & H).
  exists rj, vj, vy. split; [exact E|]. split; [exact Hj|]. split; [exact Hy|exact H].
Qed.

Lemma half_ok : forall X, 8 <= X <= bpow radix2 51 -> (14 / 10 ^ 14 + X / 2 ^ 53) / sqrt X <= 1 / 2 * sqrt (2 / (PI * X)).
Proof.
  intros X HX. rewrite amp_eq by lra. assert (S : 0 < sqrt X) by (apply sqrt_lt_R0; lra). assert (B : bpow radix2 51 = 2251799813685248) by reflexivity. pose proof cc_range.
  replace (1 / 2 * (cc / sqrt X)) with (1 / 2 * cc / sqrt X) by (field; lra). unfold Rdiv at 1 4. apply Rmult_le_compat_r; [left; apply Rinv_0_lt_compat, S|]. lra.
Qed.
Lemma phase_kept : forall (P : platform) (n : nat) (x : f64) (vj vy : R), accurate_cos (p_cos P) -> accurate_sin (p_sin P) -> (n <= 1)%nat -> finite x -> 8 <= Binary.B2R x <= bpow radix2 51 ->
  is_J n (Binary.B2R x) vj -> is_Y n (Binary.B2R x) vy ->
  exists rj, @Jn (ieee P) (Z.of_nat n) x = Ok rj /\ Rabs (Binary.B2R rj - vj) <= 1 / 2 * sqrt (2 / (PI * Binary.B2R x)) /\ Rabs (Binary.B2R (@Yn (ieee P) (Z.of_nat n) x) - vy) <= 1 / 2 * sqrt (2 / (PI * Binary.B2R x)).
Proof.
  intros P n x vj vy CO SI Hn Fx Hx Hj Hy. assert (B : bpow radix2 51 <= bpow radix2 990) by (apply bpow_le; lia). pose proof (half_ok _ Hx) as H.
  destruct (Jn_large P n x vj CO SI Hn Fx ltac:(rewrite Rabs_pos_eq; lra) Hj) as (rj & E & _ & J). rewrite (Rabs_pos_eq (Binary.B2R x)) in J by lra. destruct (Yn_large P n x vy CO SI Hn Fx ltac:(lra) Hy) as [_ Y].
  exists rj. split; [exact E|]. split; lra.
Qed.

Lemma ex_JY_large : accurate_cos (p_cos (ideal true false)) /\ accurate_sin (p_sin (ideal true false)) /\ (finite (f64_lit 100.0) /\ Binary.B2R (f64_lit 100.0) = 100) /\ 8 <= 100 <= bpow radix2 51 /\ forall n, (n <= 1)%nat -> exists vj vy, is_J n 100 vj /\ is_Y n 100 vy.
Proof.
  lit_facts 100.0%dec 100%Z 0%Z HF HV. assert (V : Binary.B2R (f64_lit 100.0) = 100) by (rewrite <- (val_fin _ HF); lra).
  split; [apply ideal_cos_accurate|]. split; [apply ideal_sin_accurate|]. split; [split; [exact HF|exact V]|]. assert (B : bpow radix2 51 = 2251799813685248) by reflexivity. split; [lra|].
  intros n Hn. destruct (J_exists n 100) as [a Ha]. destruct (Y_exists n 100 ltac:(lra)) as [b Hb]. exists a, b. split; assumption.
Qed.
