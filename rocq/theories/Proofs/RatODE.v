(** * Rational functions of c / x and how well they satisfy the equations of
      the scaled modified Bessel functions *)

From Coq Require Import ZArith Reals Bool Lra Lia List.
From Flocq Require Import Core.
From Verif.Proofs Require Import PolyZ BesselRat BesselLim.
Import ListNotations.
Open Scope R_scope.

Section Rat.
  Variables P Q : list Z.
  Definition psub (a b : list Z) : list Z := padd a (pscale (-1) b).
  Lemma peval_psub : forall a b y, peval (psub a b) y = peval a y - peval b y.
  Proof. intros a b y. unfold psub. rewrite peval_padd, peval_pscale. simpl (IZR (-1)). ring. Qed.
  Definition wN : list Z := psub (pmul (pder P) Q) (pmul P (pder Q)).
  Definition wM : list Z := psub (pmul (pder wN) Q) (pscale 2 (pmul wN (pder Q))).

  Lemma derive_rat0 : forall y, peval Q y <> 0 -> derivable_pt_lim (fun y => peval P y / peval Q y) y (peval wN y / (peval Q y * peval Q y)).
  Proof.
    intros y H. unfold wN. rewrite peval_psub, !peval_pmul.
    replace (peval (pder P) y * peval Q y - peval P y * peval (pder Q) y) with (peval (pder P) y * peval Q y - peval (pder Q) y * peval P y) by ring.
    apply (derivable_pt_lim_div (peval P) (peval Q)); [apply derive_peval|apply derive_peval|exact H].
  Qed.
  Lemma derive_rat1 : forall y, peval Q y <> 0 -> derivable_pt_lim (fun y => peval wN y / (peval Q y * peval Q y)) y (peval wM y / (peval Q y * peval Q y * peval Q y)).
  Proof.
    intros y H. unfold wM. rewrite peval_psub, peval_pscale, !peval_pmul. simpl (IZR 2).
    replace ((peval (pder wN) y * peval Q y - 2 * (peval wN y * peval (pder Q) y)) / (peval Q y * peval Q y * peval Q y))
      with ((peval (pder wN) y * (peval Q y * peval Q y) - (peval (pder Q) y * peval Q y + peval Q y * peval (pder Q) y) * peval wN y) / Rsqr (peval Q y * peval Q y)) by (unfold Rsqr; field; exact H).
    apply (derivable_pt_lim_div (peval wN) (fun y => peval Q y * peval Q y)); [apply derive_peval|apply (derivable_pt_lim_mult (peval Q) (peval Q)); apply derive_peval|].
    apply Rmult_integral_contrapositive_currified; exact H.
  Qed.

  Variable c : R.
  Hypothesis Hc : 0 < c.
  Definition q0 (x : R) : R := peval P (c / x) / peval Q (c / x).
  Definition s1 (y : R) : R := peval wN y / (peval Q y * peval Q y).
  Definition s2 (y : R) : R := peval wM y / (peval Q y * peval Q y * peval Q y).
  Definition q1 (x : R) : R := - c / (x * x) * s1 (c / x).
  Definition q2 (x : R) : R := 2 * c / (x * x * x) * s1 (c / x) + c / (x * x) * (c / (x * x)) * s2 (c / x).

  Lemma derive_q0 : forall x, 0 < x -> peval Q (c / x) <> 0 -> derivable_pt_lim q0 x (q1 x).
  Proof.
    intros x Hx H. unfold q0, q1. rewrite Rmult_comm. apply (derivable_pt_lim_comp (fun x => c / x) (fun y => peval P y / peval Q y)); [apply derive_inv, Hx|apply derive_rat0, H].
  Qed.
  Lemma derive_q1 : forall x, 0 < x -> peval Q (c / x) <> 0 -> derivable_pt_lim q1 x (q2 x).
  Proof.
    intros x Hx H. unfold q1, q2.
    replace (2 * c / (x * x * x) * s1 (c / x) + c / (x * x) * (c / (x * x)) * s2 (c / x)) with (- 2 * - c / (x * x * x) * s1 (c / x) + - c / (x * x) * (s2 (c / x) * (- c / (x * x)))) by (field; lra).
    apply (derivable_pt_lim_mult (fun x => - c / (x * x)) (fun x => s1 (c / x))); [apply (derive_inv2 (- c)), Hx|].
    apply (derivable_pt_lim_comp (fun x => c / x) s1); [apply derive_inv, Hx|apply derive_rat1, H].
  Qed.

  (** 4 Q^3 times the residual, h being the constant of the first-order term *)
  Definition wT (h c4 : Z) : list Z :=
    padd (pmul [0%Z; 0%Z; 4%Z] wM) (padd (pmul [(8 * h)%Z; 8%Z] (pmul wN Q)) (pscale c4 (pmul P (pmul Q Q)))).
  Definition chk_t (sg h c4 kn kd : Z) : list Z := psub (pscale (sg * kd) (wT h c4)) (pscale (4 * kn) (pmul Q (pmul Q Q))).

  Lemma res_ok : forall h c4 kn kd t sh x, (0 <= sh)%Z -> (0 < kd)%Z -> c <= x -> 0 < peval Q (c / x) ->
    neg_chk t sh 1 (chk_t 1 h c4 kn kd) = true -> neg_chk t sh 1 (chk_t (-1) h c4 kn kd) = true ->
    Rabs (q2 x - 2 * (IZR h / c) * q1 x + IZR c4 / 4 * q0 x / (x * x)) <= IZR kn / IZR kd / (x * x).
  Proof.
    intros h c4 kn kd t sh x Hsh Hkd Hx HQ C1 C2. assert (X0 : 0 < x) by lra. assert (I0 : 0 < / x) by (apply Rinv_0_lt_compat, X0).
    assert (Y : 0 <= c / x <= IZR 1). { split; [apply Rmult_le_pos; lra|]. apply Rmult_le_reg_r with x; [lra|]. unfold Rdiv. rewrite Rmult_assoc, Rinv_l by lra. simpl (IZR 1). lra. }
    pose proof (neg_ok _ _ 1 _ _ Hsh ltac:(lia) C1 Y) as E1. pose proof (neg_ok _ _ 1 _ _ Hsh ltac:(lia) C2 Y) as E2.
    unfold chk_t, wT in E1, E2. rewrite !peval_psub, !peval_pscale, !peval_padd, !peval_pscale, !peval_pmul, !peval_cons, !mult_IZR in E1, E2. change (peval [] (c / x)) with 0 in *.
    unfold q0, q1, q2, s1, s2. apply IZR_lt in Hkd. set (y := c / x) in *. set (N := peval wN y) in *. set (M := peval wM y) in *. set (q := peval Q y) in *. set (p := peval P y) in *. set (kN := IZR kn) in *. set (kD := IZR kd) in *. set (hh := IZR h) in *. set (cc := IZR c4) in *.
    simpl (IZR 0) in *. simpl (IZR 4) in *. simpl (IZR 8) in *. simpl (IZR 1) in *. simpl (IZR (-1)) in *.
    assert (EX : x = c / y) by (unfold y; field; lra).
    assert (Y0 : 0 < y) by (unfold y; apply Rdiv_lt_0_compat; lra). clearbody y N M q p kN kD hh cc.
    set (T := 4 * (y * y) * M + 8 * (y + hh) * N * q + cc * p * (q * q)).
    assert (F1 : kD * T - 4 * kN * (q * (q * q)) <= 0) by (unfold T; lra). assert (F2 : - kD * T - 4 * kN * (q * (q * q)) <= 0) by (unfold T; lra).
    match goal with |- Rabs ?E <= ?B => replace E with (T / (4 * (q * (q * q))) / (x * x)) by (unfold T; rewrite EX; field; lra) end.
    assert (X2 : 0 < / (x * x)) by (apply Rinv_0_lt_compat, Rmult_lt_0_compat; lra). assert (Q3 : 0 < q * (q * q)) by (repeat apply Rmult_lt_0_compat; lra). clearbody T.
    unfold Rdiv at 1. rewrite Rabs_mult, (Rabs_pos_eq (/ (x * x))) by lra. unfold Rdiv at 2. apply Rmult_le_compat_r; [lra|].
    apply Rabs_le. split; apply Rmult_le_reg_r with (4 * kD * (q * (q * q))); try (apply Rmult_lt_0_compat; lra).
    - replace (- (kN / kD) * (4 * kD * (q * (q * q)))) with (- (4 * kN * (q * (q * q)))) by (field; lra). replace (T / (4 * (q * (q * q))) * (4 * kD * (q * (q * q)))) with (kD * T) by (field; lra). lra.
    - replace (kN / kD * (4 * kD * (q * (q * q)))) with (4 * kN * (q * (q * q))) by (field; lra). replace (T / (4 * (q * (q * q))) * (4 * kD * (q * (q * q)))) with (kD * T) by (field; lra). lra.
  Qed.

  (** bounds for the function and its first derivative *)
  Definition chk_q (n : Z) : list Z := psub [n] Q.
  Definition chk_m (sg n d : Z) : list Z := pscale sg (psub (pscale n Q) (pscale d P)).
  Definition chk_d (sg b : Z) : list Z := psub (pscale sg wN) (pscale b (pmul Q Q)).
  Lemma Q_ok : forall n t sh y, (0 <= sh)%Z -> (0 < n)%Z -> 0 <= y <= 1 -> neg_chk t sh 1 (chk_q n) = true -> 0 < peval Q y.
  Proof.
    intros n t sh y Hsh Hn Hy C. pose proof (neg_ok _ _ 1 _ y Hsh ltac:(lia) C Hy) as E. unfold chk_q in E. rewrite peval_psub, peval_cons in E. change (peval [] y) with 0 in E. apply IZR_lt in Hn. lra.
  Qed.
  Lemma low_ok : forall n d t sh y, (0 <= sh)%Z -> (0 < d)%Z -> 0 <= y <= 1 -> 0 < peval Q y -> neg_chk t sh 1 (chk_m 1 n d) = true -> IZR n / IZR d <= peval P y / peval Q y.
  Proof.
    intros n d t sh y Hsh Hd Hy HQ C. pose proof (neg_ok _ _ 1 _ y Hsh ltac:(lia) C Hy) as E. unfold chk_m in E. rewrite peval_pscale, peval_psub, !peval_pscale in E. simpl (IZR 1) in E. apply IZR_lt in Hd.
    apply Rmult_le_reg_r with (IZR d * peval Q y); [apply Rmult_lt_0_compat; assumption|]. replace (IZR n / IZR d * (IZR d * peval Q y)) with (IZR n * peval Q y) by (field; lra). replace (peval P y / peval Q y * (IZR d * peval Q y)) with (IZR d * peval P y) by (field; lra). lra.
  Qed.
  Lemma up_ok : forall n d t sh y, (0 <= sh)%Z -> (0 < d)%Z -> 0 <= y <= 1 -> 0 < peval Q y -> neg_chk t sh 1 (chk_m (-1) n d) = true -> peval P y / peval Q y <= IZR n / IZR d.
  Proof.
    intros n d t sh y Hsh Hd Hy HQ C. pose proof (neg_ok _ _ 1 _ y Hsh ltac:(lia) C Hy) as E. unfold chk_m in E. rewrite peval_pscale, peval_psub, !peval_pscale in E. simpl (IZR (-1)) in E. apply IZR_lt in Hd.
    apply Rmult_le_reg_r with (IZR d * peval Q y); [apply Rmult_lt_0_compat; assumption|]. replace (IZR n / IZR d * (IZR d * peval Q y)) with (IZR n * peval Q y) by (field; lra). replace (peval P y / peval Q y * (IZR d * peval Q y)) with (IZR d * peval P y) by (field; lra). lra.
  Qed.
  Lemma der_ok : forall b t sh y, (0 <= sh)%Z -> 0 <= y <= 1 -> 0 < peval Q y -> neg_chk t sh 1 (chk_d 1 b) = true -> neg_chk t sh 1 (chk_d (-1) b) = true -> Rabs (s1 y) <= IZR b.
  Proof.
    intros b t sh y Hsh Hy HQ C1 C2. pose proof (neg_ok _ _ 1 _ y Hsh ltac:(lia) C1 Hy) as E1. pose proof (neg_ok _ _ 1 _ y Hsh ltac:(lia) C2 Hy) as E2.
    unfold chk_d in *. rewrite peval_psub, !peval_pscale, peval_pmul in E1, E2. simpl (IZR 1) in *. simpl (IZR (-1)) in *. unfold s1. assert (Q2 : 0 < peval Q y * peval Q y) by (apply Rmult_lt_0_compat; assumption).
    apply Rabs_le. split; apply Rmult_le_reg_r with (peval Q y * peval Q y); try exact Q2; replace (peval wN y / (peval Q y * peval Q y) * (peval Q y * peval Q y)) with (peval wN y) by (field; lra); lra.
  Qed.
End Rat.

(** closeness of another quotient p / q *)
Definition chk_c (sg B : Z) (P Q p q : list Z) : list Z := psub (pscale (sg * B) (psub (pmul p Q) (pmul P q))) (pmul P q).
Lemma close_ok : forall B P Q p q t sh y, (0 <= sh)%Z -> (0 < B)%Z -> 0 <= y <= 1 -> 0 < peval Q y -> 0 < peval q y ->
  neg_chk t sh 1 (chk_c 1 B P Q p q) = true -> neg_chk t sh 1 (chk_c (-1) B P Q p q) = true ->
  Rabs (peval p y / peval q y - peval P y / peval Q y) <= peval P y / peval Q y / IZR B.
Proof.
  intros B P Q p q t sh y Hsh HB Hy HQ Hq C1 C2. pose proof (neg_ok _ _ 1 _ y Hsh ltac:(lia) C1 Hy) as E1. pose proof (neg_ok _ _ 1 _ y Hsh ltac:(lia) C2 Hy) as E2.
  unfold chk_c in *. rewrite !peval_psub, !peval_pscale, !peval_psub, !peval_pmul, !mult_IZR in E1, E2. simpl (IZR 1) in *. simpl (IZR (-1)) in *. apply IZR_lt in HB.
  set (a := peval p y) in *. set (b := peval q y) in *. set (c := peval P y) in *. set (d := peval Q y) in *. set (K := IZR B) in *. clearbody a b c d K.
  assert (BD : 0 < K * (b * d)) by (repeat apply Rmult_lt_0_compat; assumption).
  apply Rabs_le. split; apply Rmult_le_reg_r with (K * (b * d)); try exact BD.
  - replace (- (c / d / K) * (K * (b * d))) with (- (c * b)) by (field; lra). replace ((a / b - c / d) * (K * (b * d))) with (K * (a * d - c * b)) by (field; lra). lra.
  - replace (c / d / K * (K * (b * d))) with (c * b) by (field; lra). replace ((a / b - c / d) * (K * (b * d))) with (K * (a * d - c * b)) by (field; lra). lra.
Qed.

(** ** both signs at once *)
Lemma neg2_t : forall t sh P Q h c4 kn kd, neg2 t sh 1 kd (wT P Q h c4) (pscale (-1) (pscale (4 * kn) (pmul Q (pmul Q Q)))) = true ->
  neg_chk t sh 1 (chk_t P Q 1 h c4 kn kd) = true /\ neg_chk t sh 1 (chk_t P Q (-1) h c4 kn kd) = true.
Proof. intros t sh P Q h c4 kn kd H. apply andb_prop in H. exact H. Qed.
Lemma neg2_c : forall t sh B P Q p q, neg2 t sh 1 B (psub (pmul p Q) (pmul P q)) (pscale (-1) (pmul P q)) = true ->
  neg_chk t sh 1 (chk_c 1 B P Q p q) = true /\ neg_chk t sh 1 (chk_c (-1) B P Q p q) = true.
Proof. intros t sh B P Q p q H. apply andb_prop in H. exact H. Qed.
Lemma neg2_d : forall t sh P Q b, neg2 t sh 1 1 (wN P Q) (pscale (-1) (pscale b (pmul Q Q))) = true ->
  neg_chk t sh 1 (chk_d P Q 1 b) = true /\ neg_chk t sh 1 (chk_d P Q (-1) b) = true.
Proof. intros t sh P Q b H. apply andb_prop in H. exact H. Qed.
