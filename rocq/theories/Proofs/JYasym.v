(** * J0, J1, Y0 and Y1 from 8 on: the asymptotic quotients of the source *)

From Coq Require Import ZArith Reals Bool Lra Lia List.
From Flocq Require Import Core.
From Verif.Model Require Import Base Arith BesselTables.
From Verif.Spec Require Import BesselSpec Bessel2Spec.
From Verif.Proofs Require Import PolyZ PolyTree PosHorner PiBounds BesselReal BesselODE BesselLim BesselSeries SecondSeries BesselRat RatODE KRat JYode JYrat JYanch.
Import ListNotations.
Open Scope R_scope.
Local Notation cos := Rtrigo_def.cos.
Local Notation sin := Rtrigo_def.sin.
Local Notation sqrt := R_sqrt.sqrt.
Local Notation PI := Rtrigo1.PI.

(** ** sqrt x times a solution *)
Section U.
  Variables f0 f1 : R -> R.
  Hypothesis D0 : forall x, 0 < x -> derivable_pt_lim f0 x (- f1 x).
  Hypothesis D1 : forall x, 0 < x -> derivable_pt_lim f1 x (f0 x - f1 x / x).
  Definition u0 (x : R) : R := sqrt x * f0 x.
  Definition u1 (x : R) : R := sqrt x * f1 x.
  Definition u0' (x : R) : R := sqrt x * (f0 x * (/ 2 / x) - f1 x).
  Definition u1' (x : R) : R := sqrt x * (f0 x - f1 x * (/ 2 / x)).
  Lemma derive_sq : forall x, 0 < x -> derivable_pt_lim sqrt x (sqrt x * (/ 2 / x)).
  Proof.
    intros x Hx. assert (S : 0 < sqrt x) by (apply sqrt_lt_R0, Hx). pose proof (sqrt_sqrt x ltac:(lra)) as E. replace (sqrt x * (/ 2 / x)) with (/ (2 * sqrt x)); [apply derivable_pt_lim_sqrt, Hx|].
    replace (/ 2 / x) with (/ 2 / (sqrt x * sqrt x)) by (rewrite E; reflexivity). field. lra.
  Qed.
  Lemma derive_u0 : forall x, 0 < x -> derivable_pt_lim u0 x (u0' x).
  Proof.
    intros x Hx. unfold u0'. replace (sqrt x * (f0 x * (/ 2 / x) - f1 x)) with (sqrt x * (/ 2 / x) * f0 x + sqrt x * (- f1 x)) by ring.
    apply (derivable_pt_lim_mult sqrt f0); [apply derive_sq, Hx|apply D0, Hx].
  Qed.
  Lemma derive_u1 : forall x, 0 < x -> derivable_pt_lim u1 x (u1' x).
  Proof.
    intros x Hx. unfold u1'. replace (sqrt x * (f0 x - f1 x * (/ 2 / x))) with (sqrt x * (/ 2 / x) * f1 x + sqrt x * (f0 x - f1 x / x)) by (field; lra).
    apply (derivable_pt_lim_mult sqrt f1); [apply derive_sq, Hx|apply D1, Hx].
  Qed.
  Lemma derive_u0' : forall x, 0 < x -> derivable_pt_lim u0' x (- (1 + 1 / 4 / (x * x)) * u0 x).
  Proof.
    intros x Hx. unfold u0', u0.
    replace (- (1 + 1 / 4 / (x * x)) * (sqrt x * f0 x)) with (sqrt x * (/ 2 / x) * (f0 x * (/ 2 / x) - f1 x) + sqrt x * ((- f1 x * (/ 2 / x) + f0 x * (- / 2 / (x * x))) - (f0 x - f1 x / x))) by (field; lra).
    apply (derivable_pt_lim_mult sqrt (fun x => f0 x * (/ 2 / x) - f1 x)); [apply derive_sq, Hx|].
    apply (derivable_pt_lim_minus (fun x => f0 x * (/ 2 / x)) f1); [|apply D1, Hx].
    apply (derivable_pt_lim_mult f0 (fun x => / 2 / x)); [apply D0, Hx|apply derive_inv, Hx].
  Qed.
  Lemma derive_u1' : forall x, 0 < x -> derivable_pt_lim u1' x (- (1 + (-3) / 4 / (x * x)) * u1 x).
  Proof.
    intros x Hx. unfold u1', u1.
    replace (- (1 + (-3) / 4 / (x * x)) * (sqrt x * f1 x)) with (sqrt x * (/ 2 / x) * (f0 x - f1 x * (/ 2 / x)) + sqrt x * (- f1 x - ((f0 x - f1 x / x) * (/ 2 / x) + f1 x * (- / 2 / (x * x))))) by (field; lra).
    apply (derivable_pt_lim_mult sqrt (fun x => f0 x - f1 x * (/ 2 / x))); [apply derive_sq, Hx|].
    apply (derivable_pt_lim_minus f0 (fun x => f1 x * (/ 2 / x))); [apply D0, Hx|].
    apply (derivable_pt_lim_mult f1 (fun x => / 2 / x)); [apply D1, Hx|apply derive_inv, Hx].
  Qed.
End U.

(** ** the tables, with 21 digits *)
Definition t_re : tree := Node (full 3) (Node (full 3) (Node (full 3) (full 4))).
Definition chks (P a Q b : list Z) (k4 : Z) : bool :=
  neg2 t_re 340 1 (10 ^ 16) (nRe P a Q b k4) (pscale (-1) (pmul (bnd 4) (pmul (pmul b b) (pmul a (pmul a a))))) &&
  neg2 (full 6) 340 1 (10 ^ 16) (nIm P a Q b k4) (pscale (-1) (pmul bndi (pmul (pmul a a) (pmul b (pmul b b))))).
Lemma neg2_re : forall t sh P a Q b k4, neg2 t sh 1 (10 ^ 16) (nRe P a Q b k4) (pscale (-1) (pmul (bnd 4) (pmul (pmul b b) (pmul a (pmul a a))))) = true ->
  neg_chk t sh 1 (chk_re P a Q b 1 k4) = true /\ neg_chk t sh 1 (chk_re P a Q b (-1) k4) = true.
Proof. intros t sh P a Q b k4 H. apply andb_prop in H. exact H. Qed.
Lemma neg2_im : forall t sh P a Q b k4, neg2 t sh 1 (10 ^ 16) (nIm P a Q b k4) (pscale (-1) (pmul bndi (pmul (pmul a a) (pmul b (pmul b b))))) = true ->
  neg_chk t sh 1 (chk_im P a Q b 1 k4) = true /\ neg_chk t sh 1 (chk_im P a Q b (-1) k4) = true.
Proof. intros t sh P a Q b k4 H. apply andb_prop in H. exact H. Qed.
Lemma chks_ok : forall P a Q b k4, chks P a Q b k4 = true -> neg_chk t_re 340 1 (chk_re P a Q b 1 k4) = true /\ neg_chk t_re 340 1 (chk_re P a Q b (-1) k4) = true /\
  neg_chk (full 6) 340 1 (chk_im P a Q b 1 k4) = true /\ neg_chk (full 6) 340 1 (chk_im P a Q b (-1) k4) = true.
Proof.
  intros P a Q b k4 C. apply andb_prop in C. destruct C as [C1 C2]. apply neg2_re in C1. apply neg2_im in C2. destruct C1 as [R1 R2], C2 as [I1 I2].
  split; [exact R1|]. split; [exact R2|]. split; [exact I1|exact I2].
Qed.
Lemma chks_0 : chks (z21 J0PN) (z21 J0PD) (z21 J0QN) (z21 J0QD) 1 = true.
Proof. vm_compute. reflexivity. Qed.
Lemma chks_1 : chks (z21 J1PN) (z21 J1PD) (z21 J1QN) (z21 J1QD) (-3) = true.
Proof. vm_compute. reflexivity. Qed.

Section At8.
  Variables P a Q b : list Z.
  Variables p p1 q q1 : Z.
  Definition at8 : bool := ((0 <? zeval 1 a) && (0 <? zeval 1 b) && (E22 * zeval 1 P / zeval 1 a =? p) && (E22 * zeval 1 (wN P a) / (zeval 1 a * zeval 1 a) =? p1)
    && (E22 * zeval 1 Q / zeval 1 b =? q) && (E22 * zeval 1 (wN Q b) / (zeval 1 b * zeval 1 b) =? q1))%Z%bool.
  Hypothesis H : at8 = true.
  Let e := 1 / 10 ^ 22.
  Lemma near_div : forall z d m, (0 < d)%Z -> (E22 * z / d = m)%Z -> Rabs (IZR z / IZR d - IZR m / 10 ^ 22) <= e.
  Proof. intros z d m D E. pose proof (q_div z d E22 m D eq_refl E) as B. rewrite E22_eq in B. unfold e. apply Rabs_le. lra. Qed.
  Lemma at8_ok : Rabs (pp P a 8 - IZR p / 10 ^ 22) <= e /\ Rabs (pp1 P a 8 - - (1 / 4) * (IZR p1 / 10 ^ 22)) <= e /\
    Rabs (qq Q b 8 - IZR q / 10 ^ 22) <= e /\ Rabs (qq1 Q b 8 - (- (1 / 8) * (IZR q / 10 ^ 22) - / 4 * (IZR q1 / 10 ^ 22))) <= e.
  Proof.
    pose proof H as G. unfold at8 in G. do 5 (apply andb_prop in G; let A := fresh "A" in destruct G as [G A]).
    apply Z.ltb_lt in G, A3. apply Z.eqb_eq in A, A0, A1, A2. assert (HA2 : (0 < zeval 1 a * zeval 1 a)%Z) by (apply Z.mul_pos_pos; assumption). assert (HB2 : (0 < zeval 1 b * zeval 1 b)%Z) by (apply Z.mul_pos_pos; assumption).
    pose proof (near_div _ _ _ G A2) as B1. pose proof (near_div _ _ _ HA2 A1) as B2. pose proof (near_div _ _ _ A3 A0) as B3. pose proof (near_div _ _ _ HB2 A) as B4. rewrite !mult_IZR, <- !peval_zeval in B2, B4. rewrite <- !peval_zeval in B1, B3.
    unfold pp, pp1, qq, qq1, r0, t0, s1. replace (yy 8) with (IZR 1) by (unfold yy; simpl; field).
    set (v1 := peval P (IZR 1) / peval a (IZR 1)) in *. set (v2 := peval (wN P a) (IZR 1) / (peval a (IZR 1) * peval a (IZR 1))) in *. set (v3 := peval Q (IZR 1) / peval b (IZR 1)) in *. set (v4 := peval (wN Q b) (IZR 1) / (peval b (IZR 1) * peval b (IZR 1))) in *.
    clearbody v1 v2 v3 v4. unfold e in *. apply Rabs_le_inv in B1, B2, B3, B4. repeat split; apply Rabs_le; lra.
  Qed.
End At8.
Lemma at8_0 : at8 (z21 J0PN) (z21 J0PD) (z21 J0QN) (z21 J0QD) 9989268523363299518717 (-10493247389232902290) (-154881935712209741345) 1311409391644425504 = true.
Proof. vm_compute. reflexivity. Qed.
Lemma at8_1 : at8 (z21 J1PN) (z21 J1PD) (z21 J1QN) (z21 J1QD) 10017981033961398533586 17671375038731158193 466824035150647125878 (-1855966395134287751) = true.
Proof. vm_compute. reflexivity. Qed.

(** ** the phases at 8 *)
Definition cc : R := sqrt (2 / PI).
Lemma cc_eq : cc = sqrt 2 * / sqrt PI.
Proof. unfold cc. pose proof PI_RGT_0. apply sqrt_div_alt. exact H. Qed.
Lemma cc_range : 79 / 100 <= cc <= 4 / 5.
Proof.
  pose proof PI_bounds as B. replace (IZR (2 ^ 70)) with 1180591620717411303424 in B by reflexivity. pose proof PI_RGT_0 as P0.
  assert (C0 : 0 <= cc) by apply sqrt_pos. assert (E : cc * cc * PI = 2). { unfold cc. rewrite sqrt_sqrt; [field; lra|]. apply Rmult_le_pos; [lra|left; apply Rinv_0_lt_compat, P0]. }
  set (c := cc) in *. clearbody c. set (p := PI) in *. clearbody p. split; apply Rnot_lt_le; intros N.
  - assert (c * c * p <= 79 / 100 * (79 / 100) * (3142 / 1000)) by (repeat apply Rmult_le_compat; try apply Rmult_le_pos; lra). lra.
  - assert (4 / 5 * (4 / 5) * (3141 / 1000) <= c * c * p) by (repeat apply Rmult_le_compat; lra). lra.
Qed.
Lemma ph_0 : cc * cos (8 - PI / 4) = c8 /\ cc * sin (8 - PI / 4) = d8.
Proof.
  rewrite cos_minus, sin_minus, cos_PI4, sin_PI4, cc_eq. unfold c8, d8. assert (S : 0 < sqrt 2) by (apply sqrt_lt_R0; lra). assert (S' : 0 < sqrt PI) by (apply sqrt_lt_R0, PI_RGT_0). split; field; lra.
Qed.
Lemma cos_m2 : forall x, cos (x - PI / 2) = sin x. Proof. intros x. rewrite cos_minus, cos_PI2, sin_PI2. ring. Qed.
Lemma sin_m2 : forall x, sin (x - PI / 2) = - cos x. Proof. intros x. rewrite sin_minus, cos_PI2, sin_PI2. ring. Qed.
Lemma ph_1 : cc * cos (8 - (PI / 4 + PI / 2)) = d8 /\ cc * sin (8 - (PI / 4 + PI / 2)) = - c8.
Proof. destruct ph_0 as [A B]. replace (8 - (PI / 4 + PI / 2)) with (8 - PI / 4 - PI / 2) by ring. rewrite cos_m2, sin_m2. split; lra. Qed.
Lemma ph_2 : cc * cos (8 - (PI / 4 + PI)) = - c8 /\ cc * sin (8 - (PI / 4 + PI)) = - d8.
Proof. destruct ph_0 as [A B]. replace (8 - (PI / 4 + PI)) with (8 - PI / 4 - PI / 2 - PI / 2) by field. rewrite cos_m2, !sin_m2, cos_m2. split; lra. Qed.

(** ** the four functions *)
Lemma anchor : forall P a Q b p p1 q q1 phi K L C S u u' U U',
  at8 P a Q b p p1 q q1 = true -> cc * cos (8 - phi) = C -> cc * sin (8 - phi) = S -> Rabs (C - K) <= 1 / 10 ^ 19 -> Rabs (S - L) <= 1 / 10 ^ 19 -> Rabs K <= 1 -> Rabs L <= 1 ->
  Rabs (IZR p / 10 ^ 22) <= 2 -> Rabs (IZR p1 / 10 ^ 22) <= 1 -> Rabs (IZR q / 10 ^ 22) <= 1 -> Rabs (IZR q1 / 10 ^ 22) <= 1 ->
  Rabs (u - U) <= 2 / 10 ^ 15 -> Rabs (u' - U') <= 2 / 10 ^ 15 ->
  let x := IZR p / 10 ^ 22 in let x1 := - (1 / 4) * (IZR p1 / 10 ^ 22) in let y := IZR q / 10 ^ 22 in let y1 := - (1 / 8) * (IZR q / 10 ^ 22) - / 4 * (IZR q1 / 10 ^ 22) in
  Rabs (U - (x * K - y * L)) <= 7 / 10 ^ 15 -> Rabs (U' - ((x1 - y) * K - (x + y1) * L)) <= 7 / 10 ^ 15 ->
  Rabs (u - cc * aa P a Q b phi 8) <= / 10 ^ 14 /\ Rabs (u' - cc * aa1 P a Q b phi 8) <= / 10 ^ 14.
Proof.
  intros P a Q b p p1 q q1 phi K L C S u u' U U' H8 EC ES HC HS HK HL Hp Hp1 Hq Hq1 Hu Hu' x x1 y y1 HU HU'.
  destruct (at8_ok P a Q b p p1 q q1 H8) as (A1 & A2 & A3 & A4). fold x in A1. fold x1 in A2. fold y in A3. fold y1 in A4.
  assert (B2 : Rabs (pp1 P a 8 - qq Q b 8 - (x1 - y)) <= 1 / 10 ^ 21) by (apply Rabs_le_inv in A2, A3; apply Rabs_le; lra).
  assert (B4 : Rabs (pp P a 8 + qq1 Q b 8 - (x + y1)) <= 1 / 10 ^ 21) by (apply Rabs_le_inv in A1, A4; apply Rabs_le; lra).
  assert (M1 : Rabs x <= 3) by (fold x in Hp; lra). assert (M2 : Rabs y <= 3) by (fold y in Hq; lra).
  assert (M3 : Rabs (x1 - y) <= 3) by (unfold x1, y; apply Rabs_le_inv in Hp1, Hq; apply Rabs_le; lra). assert (M4 : Rabs (x + y1) <= 3) by (unfold x, y1; apply Rabs_le_inv in Hp, Hq1, Hq; apply Rabs_le; lra).
  pose proof (prod_near2 _ _ _ _ _ _ 3 1 A1 HC M1 HK) as N1. pose proof (prod_near2 _ _ _ _ _ _ 3 1 A3 HS M2 HL) as N2. pose proof (prod_near2 _ _ _ _ _ _ 3 1 B2 HC M3 HK) as N3. pose proof (prod_near2 _ _ _ _ _ _ 3 1 B4 HS M4 HL) as N4.
  unfold aa, aa1. rewrite !Rmult_minus_distr_l.
  replace (cc * (pp P a 8 * cos (8 - phi))) with (pp P a 8 * C) by (rewrite <- EC; ring). replace (cc * (qq Q b 8 * sin (8 - phi))) with (qq Q b 8 * S) by (rewrite <- ES; ring).
  replace (cc * ((pp1 P a 8 - qq Q b 8) * cos (8 - phi))) with ((pp1 P a 8 - qq Q b 8) * C) by (rewrite <- EC; ring). replace (cc * ((pp P a 8 + qq1 Q b 8) * sin (8 - phi))) with ((pp P a 8 + qq1 Q b 8) * S) by (rewrite <- ES; ring).
  set (n1 := pp P a 8 * C) in *. set (n2 := qq Q b 8 * S) in *. set (n3 := (pp1 P a 8 - qq Q b 8) * C) in *. set (n4 := (pp P a 8 + qq1 Q b 8) * S) in *. clearbody n1 n2 n3 n4.
  set (k1 := x * K) in *. set (k2 := y * L) in *. set (k3 := (x1 - y) * K) in *. set (k4 := (x + y1) * L) in *. clearbody k1 k2 k3 k4.
  apply Rabs_le_inv in N1, N2, N3, N4, Hu, Hu', HU, HU'. split; apply Rabs_le; lra.
Qed.

Definition s8 : R := 28284271247461900976034 / 10 ^ 22.
Lemma u8 : forall f0 f1 F0 F1, Rabs (f0 8 - F0) <= 5 / 10 ^ 16 -> Rabs (f1 8 - F1) <= 5 / 10 ^ 16 -> Rabs F0 <= 1 / 2 -> Rabs F1 <= 1 / 2 ->
  Rabs (u0 f0 8 - s8 * F0) <= 2 / 10 ^ 15 /\ Rabs (u0' f0 f1 8 - s8 * (F0 / 16 - F1)) <= 2 / 10 ^ 15 /\
  Rabs (u1 f1 8 - s8 * F1) <= 2 / 10 ^ 15 /\ Rabs (u1' f0 f1 8 - s8 * (F0 - F1 / 16)) <= 2 / 10 ^ 15.
Proof.
  intros f0 f1 F0 F1 H0 H1 M0 M1. pose proof sqrt_8 as S. fold s8 in S. assert (S3 : Rabs s8 <= 283 / 100) by (unfold s8; nums). unfold u0, u1, u0', u1'. replace (/ 2 / 8) with (/ 16) by field.
  assert (N : forall v V, Rabs (v - V) <= 6 / 10 ^ 16 -> Rabs V <= 1 -> Rabs (sqrt 8 * v - s8 * V) <= 2 / 10 ^ 15).
  { intros v V Hv HV. eapply Rle_trans; [exact (prod_near2 _ _ _ _ _ _ (283 / 100) 1 S Hv S3 HV)|]. lra. }
  apply Rabs_le_inv in H0, H1, M0, M1. split; [|split; [|split]]; apply N; apply Rabs_le; lra.
Qed.
Ltac num8 := cbv zeta; unfold s8; apply Rabs_le; split; lra.

Lemma derive_BJ1 : forall x, 0 < x -> derivable_pt_lim (fun x => BJ x 1) x (BJ x 0 - BJ x 1 / x).
Proof. intros x Hx. replace (BJ x 0 - BJ x 1 / x) with ((x * BJ x 0 - BJ x 1) / x) by (field; lra). apply derive_unx; [exact Hx|apply derive_xBJ1]. Qed.

Lemma posd_0 : forall y, 0 <= y -> 0 < peval (z21 J0PD) y. Proof. intros y. apply posq; vm_compute; reflexivity. Qed.
Lemma posq_0 : forall y, 0 <= y -> 0 < peval (z21 J0QD) y. Proof. intros y. apply posq; vm_compute; reflexivity. Qed.
Lemma posd_1 : forall y, 0 <= y -> 0 < peval (z21 J1PD) y. Proof. intros y. apply posq; vm_compute; reflexivity. Qed.
Lemma posq_1 : forall y, 0 <= y -> 0 < peval (z21 J1QD) y. Proof. intros y. apply posq; vm_compute; reflexivity. Qed.

Definition A0 (phi x : R) : R := cc * aa (z21 J0PN) (z21 J0PD) (z21 J0QN) (z21 J0QD) phi x.
Definition A1 (phi x : R) : R := cc * aa (z21 J1PN) (z21 J1PD) (z21 J1QN) (z21 J1QD) phi x.

Lemma go_0 : forall f0 f1 phi, (forall x, 0 < x -> derivable_pt_lim f0 x (- f1 x)) -> (forall x, 0 < x -> derivable_pt_lim f1 x (f0 x - f1 x / x)) ->
  Rabs (u0 f0 8 - cc * aa (z21 J0PN) (z21 J0PD) (z21 J0QN) (z21 J0QD) phi 8) <= / 10 ^ 14 /\ Rabs (u0' f0 f1 8 - cc * aa1 (z21 J0PN) (z21 J0PD) (z21 J0QN) (z21 J0QD) phi 8) <= / 10 ^ 14 ->
  forall x, 8 <= x -> Rabs (sqrt x * f0 x - A0 phi x) <= 103 / 10 ^ 15.
Proof.
  intros f0 f1 phi D0 D1 [B0 B1] x Hx. destruct (chks_ok _ _ _ _ _ chks_0) as (C1 & C1' & C2 & C2').
  pose proof cc_range. refine (drift _ _ _ _ posd_0 posq_0 phi (u0 f0) (u0' f0 f1) cc 1 _ _ 340 x _ _ _ C1 C1' C2 C2' _ _ B0 B1 Hx); [lia|lra|rewrite Rabs_pos_eq; lra| |].
  - apply derive_u0; assumption.
  - apply derive_u0'; assumption.
Qed.
Lemma go_1 : forall f0 f1 phi, (forall x, 0 < x -> derivable_pt_lim f0 x (- f1 x)) -> (forall x, 0 < x -> derivable_pt_lim f1 x (f0 x - f1 x / x)) ->
  Rabs (u1 f1 8 - cc * aa (z21 J1PN) (z21 J1PD) (z21 J1QN) (z21 J1QD) phi 8) <= / 10 ^ 14 /\ Rabs (u1' f0 f1 8 - cc * aa1 (z21 J1PN) (z21 J1PD) (z21 J1QN) (z21 J1QD) phi 8) <= / 10 ^ 14 ->
  forall x, 8 <= x -> Rabs (sqrt x * f1 x - A1 phi x) <= 103 / 10 ^ 15.
Proof.
  intros f0 f1 phi D0 D1 [B0 B1] x Hx. destruct (chks_ok _ _ _ _ _ chks_1) as (C1 & C1' & C2 & C2').
  pose proof cc_range. refine (drift _ _ _ _ posd_1 posq_1 phi (u1 f1) (u1' f0 f1) cc (-3) _ _ 340 x _ _ _ C1 C1' C2 C2' _ _ B0 B1 Hx); [lia|lra|rewrite Rabs_left; lra| |].
  - apply derive_u1; assumption.
  - apply derive_u1'; assumption.
Qed.

Definition j0v : R := 1716508071375539060908 / 10 ^ 22.
Definition j1v : R := 4 * (586590867134786560953 / 10 ^ 22).
Definition y0v : R := 2235214893875662205273 / 10 ^ 22.
Definition y1v : R := -1580604617312474942556 / 10 ^ 22.

Lemma neg_near : forall a b e, Rabs (a - b) <= e -> Rabs (- a - - b) <= e.
Proof. intros a b e H. replace (- a - - b) with (- (a - b)) by ring. rewrite Rabs_Ropp. exact H. Qed.

Lemma J0_asym : forall x v, 8 <= x -> is_J 0 x v -> Rabs (sqrt x * v - A0 (PI / 4) x) <= 103 / 10 ^ 15.
Proof.
  intros x v Hx Hv. rewrite (infinite_sum_unique _ _ _ Hv (BJ_is x 0)).
  apply (go_0 (fun x => BJ x 0) (fun x => BJ x 1)); [intros; apply derive_BJ0|intros; apply derive_BJ1; assumption| |exact Hx].
  pose proof (J0_8 _ (BJ_is 8 0)) as V0. pose proof (J1_8 _ (BJ_is 8 1)) as V1. destruct cd_8 as [HC HS]. destruct ph_0 as [EC ES].
  destruct (u8 (fun x => BJ x 0) (fun x => BJ x 1) j0v j1v) as (W0 & W1 & _); [apply Rle_trans with (1 := V0); lra|apply Rle_trans with (1 := V1); lra|unfold j0v; nums|unfold j1v; nums|].
  eapply (anchor _ _ _ _ _ _ _ _ (PI / 4) _ _ _ _ _ _ _ _ at8_0 EC ES HC HS); [nums|nums|nums|nums|nums|nums|exact W0|exact W1|unfold j0v, j1v; num8|unfold j0v, j1v; num8].
Qed.
Lemma J1_asym : forall x v, 8 <= x -> is_J 1 x v -> Rabs (sqrt x * v - A1 (PI / 4 + PI / 2) x) <= 103 / 10 ^ 15.
Proof.
  intros x v Hx Hv. rewrite (infinite_sum_unique _ _ _ Hv (BJ_is x 1)).
  apply (go_1 (fun x => BJ x 0) (fun x => BJ x 1)); [intros; apply derive_BJ0|intros; apply derive_BJ1; assumption| |exact Hx].
  pose proof (J0_8 _ (BJ_is 8 0)) as V0. pose proof (J1_8 _ (BJ_is 8 1)) as V1. destruct cd_8 as [HC HS]. destruct ph_1 as [EC ES].
  destruct (u8 (fun x => BJ x 0) (fun x => BJ x 1) j0v j1v) as (_ & _ & W0 & W1); [apply Rle_trans with (1 := V0); lra|apply Rle_trans with (1 := V1); lra|unfold j0v; nums|unfold j1v; nums|].
  eapply (anchor _ _ _ _ _ _ _ _ _ _ _ _ _ _ _ _ _ at8_1 EC ES HS (neg_near _ _ _ HC)); [nums|nums|nums|nums|nums|nums|exact W0|exact W1|unfold j0v, j1v; num8|unfold j0v, j1v; num8].
Qed.

Section G.
  Variable g : R.
  Hypothesis Hg : is_euler g.
  Definition yf0 (x : R) : R := - (2 / PI) * V0 (-1) g abs_m1 (fun x => BJ x 0) x.
  Definition yf1 (x : R) : R := - (2 / PI) * V1 (-1) g abs_m1 (fun x => BJ x 1) x.
  Lemma yf0_is : forall x, is_Y 0 x (yf0 x).
  Proof.
    intros x. exists (V0 (-1) g abs_m1 (fun x => BJ x 0) x). split; [|reflexivity]. exists g, (BJ x 0), (2 * W00 (-1) abs_m1 x). split; [exact Hg|]. split; [apply BJ_is|]. split.
    - apply (isum_ext (fun k => 2 * (harmonic k * bterm (-1) 0 x k))); [intros k; unfold hterm; cbn [Nat.add]; ring|]. apply isum_scal, W00_is.
    - unfold V0. cbn [sum_below pow]. lra.
  Qed.
  Lemma yf1_is : forall x, 0 < x -> is_Y 1 x (yf1 x).
  Proof.
    intros x Hx. exists (V1 (-1) g abs_m1 (fun x => BJ x 1) x). split; [|reflexivity]. exists g, (BJ x 1), (W01 (-1) abs_m1 x + W11 (-1) abs_m1 x). split; [exact Hg|]. split; [apply BJ_is|]. split.
    - apply (isum_ext (fun k => harmonic k * bterm (-1) 1 x k + wh k * bterm (-1) 1 x k)); [intros k; unfold hterm, wh; cbn [Nat.add]; ring|]. apply isum_plus; [apply W01_is|apply W11_is].
    - unfold V1. cbn [sum_below pow]. unfold fterm. simpl. field. lra.
  Qed.
  Lemma derive_yf0 : forall x, 0 < x -> derivable_pt_lim yf0 x (- yf1 x).
  Proof.
    intros x Hx. unfold yf0, yf1. match goal with |- derivable_pt_lim _ _ (- (?a * ?b)) => replace (- (a * b)) with (a * - b) by ring end. apply (derivable_pt_lim_scal (V0 (-1) g abs_m1 (fun x => BJ x 0))).
    exact (derive_V0 (-1) g abs_m1 ltac:(ring) _ _ (fun x => BJ_is x 0) (fun x => BJ_is x 1) x Hx).
  Qed.
  Lemma derive_yf1 : forall x, 0 < x -> derivable_pt_lim yf1 x (yf0 x - yf1 x / x).
  Proof.
    intros x Hx. unfold yf0, yf1. set (p := - (2 / PI)). match goal with |- derivable_pt_lim _ _ (p * ?a - p * ?b / x) => replace (p * a - p * b / x) with (p * ((- -1 * (x * a) - b) / x)) by (field; lra) end.
    apply (derivable_pt_lim_scal (V1 (-1) g abs_m1 (fun x => BJ x 1))). apply derive_unx; [exact Hx|].
    exact (derive_xV1 (-1) g abs_m1 _ _ (fun x => BJ_is x 0) (fun x => BJ_is x 1) x Hx).
  Qed.
  Lemma Y_unique : forall n x v w, is_Y n x v -> is_Y n x w -> v = w.
  Proof. intros n x v w (a & Ha & ->) (b & Hb & ->). rewrite (second_unique _ _ _ _ _ Ha Hb). reflexivity. Qed.

  Lemma y8 : Rabs (yf0 8 - y0v) <= 5 / 10 ^ 16 /\ Rabs (yf1 8 - y1v) <= 5 / 10 ^ 16.
  Proof.
    pose proof (Y0_8 _ (yf0_is 8)) as V0. pose proof (Y1_8 _ (yf1_is 8 ltac:(lra))) as V1. split; [apply Rle_trans with (1 := V0); lra|exact V1].
  Qed.
  Lemma Y0_asym : forall x v, 8 <= x -> is_Y 0 x v -> Rabs (sqrt x * v - A0 (PI / 4 + PI / 2) x) <= 103 / 10 ^ 15.
  Proof.
    intros x v Hx Hv. rewrite (Y_unique _ _ _ _ Hv (yf0_is x)).
    apply (go_0 yf0 yf1 _ derive_yf0 derive_yf1); [|exact Hx].
    destruct y8 as [V0 V1]. destruct cd_8 as [HC HS]. destruct ph_1 as [EC ES].
    destruct (u8 yf0 yf1 y0v y1v V0 V1) as (W0 & W1 & _); [unfold y0v; nums|unfold y1v; nums|].
    eapply (anchor _ _ _ _ _ _ _ _ _ _ _ _ _ _ _ _ _ at8_0 EC ES HS (neg_near _ _ _ HC)); [nums|nums|nums|nums|nums|nums|exact W0|exact W1|unfold y0v, y1v; num8|unfold y0v, y1v; num8].
  Qed.
  Lemma Y1_asym : forall x v, 8 <= x -> is_Y 1 x v -> Rabs (sqrt x * v - A1 (PI / 4 + PI) x) <= 103 / 10 ^ 15.
  Proof.
    intros x v Hx Hv. rewrite (Y_unique _ _ _ _ Hv (yf1_is x ltac:(lra))).
    apply (go_1 yf0 yf1 _ derive_yf0 derive_yf1); [|exact Hx].
    destruct y8 as [V0 V1]. destruct cd_8 as [HC HS]. destruct ph_2 as [EC ES].
    destruct (u8 yf0 yf1 y0v y1v V0 V1) as (_ & _ & W0 & W1); [unfold y0v; nums|unfold y1v; nums|].
    eapply (anchor _ _ _ _ _ _ _ _ _ _ _ _ _ _ _ _ _ at8_1 EC ES (neg_near _ _ _ HC) (neg_near _ _ _ HS)); [nums|nums|nums|nums|nums|nums|exact W0|exact W1|unfold y0v, y1v; num8|unfold y0v, y1v; num8].
  Qed.
End G.
