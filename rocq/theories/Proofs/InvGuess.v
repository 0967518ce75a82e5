(** * The initial guess of the inverse complementary error function

    With p = 2 exp (- t^2 / 2) the true inverse z is a function of t; the guess
    x_0(t) is a rational function of t.  Both are compared through the
    derivative of exp (t^2 / 2) erfc (y / sqrt 2), which needs rational bounds
    of the Mills ratio only. *)

From Coq Require Import ZArith Reals Bool Lra Lia List.
From Flocq Require Import Core.Raux.
From Verif.Spec Require Import ErfSpec.
From Verif.Proofs Require Import PolyZ PolyTree BesselRat RatODE ErfcODE ErfcxAsym ErfcxAcc EulerGamma GaussInt.
Import ListNotations.
Open Scope R_scope.

(** ** polynomials *)

Lemma peval_app : forall l m x, peval (l ++ m) x = peval l x + x ^ length l * peval m x.
Proof.
  induction l as [|c l IH]; intros m x; [change (peval m x = 0 + 1 * peval m x); ring|].
  cbn [app length]. rewrite !peval_cons, IH. simpl pow. ring.
Qed.

Lemma peval_rev : forall l y, y <> 0 -> y * peval l y = y ^ length l * peval (rev l) (/ y).
Proof.
  induction l as [|c l IH]; intros y Hy; [change (y * 0 = 1 * 0); ring|].
  cbn [rev length]. rewrite peval_app, !peval_cons. change (peval [] (/ y)) with 0.
  replace (y * (IZR c + y * peval l y)) with (IZR c * y + y * (y * peval l y)) by ring. rewrite (IH y Hy), rev_length.
  simpl pow. assert (E : y ^ length l * (/ y) ^ length l = 1) by (rewrite <- Rpow_mult_distr, Rinv_r, pow1; [reflexivity|exact Hy]).
  set (a := y ^ length l) in *. set (b := (/ y) ^ length l) in *. set (r := peval (rev l) (/ y)) in *. clearbody a b r.
  replace (y * a * (r + b * (IZR c + / y * 0))) with (IZR c * y * (a * b) + y * (a * r)) by ring. rewrite E. ring.
Qed.

(** on the whole half-line *)
Lemma half_ok : forall t1 s1 t2 s2 l y, (0 <= s1)%Z -> (0 <= s2)%Z ->
  neg_chk t1 s1 1 l = true -> neg_chk t2 s2 1 (rev l) = true -> 0 <= y -> peval l y <= 0.
Proof.
  intros t1 s1 t2 s2 l y H1 H2 C1 C2 Hy. destruct (Rle_or_lt y 1) as [L|L].
  - apply (neg_ok t1 s1 1); [exact H1|lia|exact C1|lra].
  - assert (I1 : 0 <= / y <= 1). { split; [left; apply Rinv_0_lt_compat; lra|]. rewrite <- Rinv_1. apply Rinv_le_contravar; lra. }
    pose proof (neg_ok t2 s2 1 (rev l) (/ y) H2 ltac:(lia) C2 I1) as N.
    pose proof (peval_rev l y ltac:(lra)) as R.
    assert (0 < y ^ length l) by (apply pow_lt; lra).
    apply Rmult_le_reg_l with y; [lra|]. rewrite R, Rmult_0_r.
    replace 0 with (y ^ length l * 0) by ring. apply Rmult_le_compat_l; lra.
Qed.

Fixpoint ppow (n : nat) (l : list Z) : list Z := match n with O => [1%Z] | S k => pmul l (ppow k l) end.
Lemma peval_ppow : forall n l x, peval (ppow n l) x = peval l x ^ n.
Proof.
  induction n as [|n IH]; intros l x; [cbn [ppow]; rewrite peval_cons; change (peval [] x) with 0; simpl; ring|].
  cbn [ppow]. rewrite peval_pmul, IH. reflexivity.
Qed.
(** D^(length l) l (N / D) *)
Fixpoint phc (N D l : list Z) : list Z :=
  match l with [] => [] | c :: l' => padd (pscale c (ppow (length l) D)) (pmul N (phc N D l')) end.
Lemma peval_phc : forall N D l x, peval D x <> 0 -> peval (phc N D l) x = peval D x ^ length l * peval l (peval N x / peval D x).
Proof.
  intros N D l x H. induction l as [|c l IH]; [change (0 = 1 * 0); ring|].
  cbn [phc]. rewrite peval_padd, peval_pscale, peval_pmul, IH, peval_ppow, peval_cons. cbn [length]. simpl pow. field. exact H.
Qed.

(** ** rational bounds of the Mills ratio on [-1/50, infinity) *)

Definition mP : list Z := [1229851087850; 1162758176309; 517103748411; 123352875693; 13824225798]%Z.
Definition mQ : list Z := [965674073917; 1690551556533; 1276619232922; 528440272657; 123076648027; 13824225798]%Z.

(** 5000000 Q^2 times the residual of k / 10^5 P / Q *)
Definition m_res (k : Z) : list Z :=
  padd (padd (pscale (50 * k) (psub (pmul (pder mP) mQ) (pmul mP (pder mQ)))) (pscale (- k) (pmul [-1; 50]%Z (pmul mP mQ)))) (pscale 5000000 (pmul mQ mQ)).

Local Notation L := Leaf. Local Notation N := Node.
Definition tr1 : tree := N (N L L) (N L L).
Definition tr2 : tree := N (N (N (N L L) (N L L)) (N (N L L) (N L L))) (N (N L L) (N L L)).

Lemma m_chk : (neg_chk tr1 39 1 (m_res 100001) && neg_chk tr2 38 1 (rev (m_res 100001))
  && neg_chk tr1 39 1 (pscale (-1) (m_res 99999)) && neg_chk tr2 38 1 (rev (pscale (-1) (m_res 99999))))%bool = true.
Proof. vm_compute. reflexivity. Qed.

Definition mA (k : Z) (y : R) : R := IZR k / 100000 * (peval mP (y + 1 / 50) / peval mQ (y + 1 / 50)).
Definition mA' (k : Z) (y : R) : R := IZR k / 100000 * (peval (wN mP mQ) (y + 1 / 50) / (peval mQ (y + 1 / 50) * peval mQ (y + 1 / 50))).

Lemma mPQ_pos : forall s, 0 <= s -> 0 < peval mP s /\ 0 < peval mQ s.
Proof.
  intros s Hs. split.
  - eapply Rlt_le_trans; [|apply (peval_ge_hd 1229851087850 _ s Hs); reflexivity]. apply IZR_lt. reflexivity.
  - eapply Rlt_le_trans; [|apply (peval_ge_hd 965674073917 _ s Hs); reflexivity]. apply IZR_lt. reflexivity.
Qed.

Lemma derive_mA : forall k y, - (1 / 50) <= y -> derivable_pt_lim (mA k) y (mA' k y).
Proof.
  intros k y Hy. destruct (mPQ_pos (y + 1 / 50) ltac:(lra)) as [_ Q].
  apply (derivable_pt_lim_scal (fun y => peval mP (y + 1 / 50) / peval mQ (y + 1 / 50)) (IZR k / 100000)).
  match goal with |- derivable_pt_lim _ _ ?d => replace d with (d * (1 + 0)) by ring end.
  apply (derivable_pt_lim_comp (fun y => y + 1 / 50) (fun s => peval mP s / peval mQ s)).
  - apply (derivable_pt_lim_plus id (fun _ => 1 / 50)); [apply derivable_pt_lim_id|apply derivable_pt_lim_const].
  - apply derive_rat0. lra.
Qed.

Lemma m_res_eq : forall k y, - (1 / 50) <= y ->
  peval (m_res k) (y + 1 / 50) = 5000000 * (peval mQ (y + 1 / 50) * peval mQ (y + 1 / 50)) * (mA' k y - y * mA k y + 1).
Proof.
  intros k y Hy. destruct (mPQ_pos (y + 1 / 50) ltac:(lra)) as [_ Q]. unfold m_res, mA, mA', wN.
  rewrite !peval_padd, !peval_pscale, !peval_psub, !peval_pmul, !peval_cons, mult_IZR, opp_IZR. change (peval [] (y + 1 / 50)) with 0.
  set (q := peval mQ (y + 1 / 50)) in *. set (p := peval mP (y + 1 / 50)). set (q' := peval (pder mQ) (y + 1 / 50)). set (p' := peval (pder mP) (y + 1 / 50)). set (kk := IZR k).
  clearbody q p q' p' kk. field. lra.
Qed.

Lemma m_up : forall y, - (1 / 50) <= y -> mA' 100001 y - y * mA 100001 y + 1 <= 0.
Proof.
  intros y Hy. pose proof m_chk as C. apply andb_prop in C. destruct C as [C H]. apply andb_prop in C. destruct C as [C H0]. apply andb_prop in C. destruct C as [C H1].
  pose proof (half_ok tr1 39 tr2 38 (m_res 100001) (y + 1 / 50) ltac:(lia) ltac:(lia) C H1 ltac:(lra)) as R.
  rewrite m_res_eq in R by exact Hy. destruct (mPQ_pos (y + 1 / 50) ltac:(lra)) as [_ Q].
  set (q := peval mQ (y + 1 / 50)) in *. assert (0 < 5000000 * (q * q)) by (assert (0 < q * q) by (apply Rmult_lt_0_compat; exact Q); lra).
  apply Rmult_le_reg_l with (5000000 * (q * q)); [assumption|]. rewrite Rmult_0_r. exact R.
Qed.
Lemma m_low : forall y, - (1 / 50) <= y -> 0 <= mA' 99999 y - y * mA 99999 y + 1.
Proof.
  intros y Hy. pose proof m_chk as C. apply andb_prop in C. destruct C as [C H]. apply andb_prop in C. destruct C as [C H0]. apply andb_prop in C. destruct C as [C H1].
  pose proof (half_ok tr1 39 tr2 38 (pscale (-1) (m_res 99999)) (y + 1 / 50) ltac:(lia) ltac:(lia) H0 H ltac:(lra)) as R.
  rewrite peval_pscale, m_res_eq in R by exact Hy. destruct (mPQ_pos (y + 1 / 50) ltac:(lra)) as [_ Q].
  set (q := peval mQ (y + 1 / 50)) in *. assert (0 < 5000000 * (q * q)) by (assert (0 < q * q) by (apply Rmult_lt_0_compat; exact Q); lra).
  apply Rmult_le_reg_l with (5000000 * (q * q)); [assumption|]. rewrite Rmult_0_r. simpl (IZR (-1)) in R. lra.
Qed.

(** the ratio is bounded *)
Lemma mA_range : forall k y, (0 < k)%Z -> - (1 / 50) <= y -> 0 < mA k y <= IZR k / 100000 * 2.
Proof.
  intros k y Hk Hy. assert (KP : 0 < IZR k / 100000) by (apply IZR_lt in Hk; lra). destruct (mPQ_pos (y + 1 / 50) ltac:(lra)) as [P Q]. unfold mA. split.
  - apply Rmult_lt_0_compat; [exact KP|apply Rdiv_lt_0_compat; assumption].
  - apply Rmult_le_compat_l; [lra|]. apply Rmult_le_reg_r with (peval mQ (y + 1 / 50)); [exact Q|]. unfold Rdiv at 1. rewrite Rmult_assoc, Rinv_l, Rmult_1_r by lra.
    assert (0 <= peval (psub (pscale 2 mQ) mP) (y + 1 / 50)). 2:{ rewrite peval_psub, peval_pscale in H. simpl (IZR 2) in H. lra. }
    apply peval_nonneg; [lra|reflexivity].
Qed.

Section Guess.
  Variable E : R -> R.
  Hypothesis HE : erfc_function E.

  Notation r2 := (sqrt 2).
  Lemma r2_pos : 0 < r2. Proof. apply sqrt_lt_R0. lra. Qed.
  Lemma r2_sq : r2 * r2 = 2. Proof. apply sqrt_sqrt. lra. Qed.
  Lemma r2_rng : 1.414 < r2 < 1.415. Proof. pose proof r2_pos. pose proof r2_sq. split; apply Rnot_le_lt; intros C.
    - assert (r2 * r2 <= 1.414 * 1.414) by (apply Rmult_le_compat; lra). lra.
    - assert (1.415 * 1.415 <= r2 * r2) by (apply Rmult_le_compat; lra). lra.
  Qed.
  Definition kap : R := K / r2.
  Lemma kap_pos : 0 < kap. Proof. apply Rdiv_lt_0_compat; [apply K_pos|apply r2_pos]. Qed.
  Definition Ey (y : R) : R := E (y / r2).
  Definition ga (y : R) : R := exp (- (y * y / 2)).

  Lemma derive_Ey : forall y, derivable_pt_lim Ey y (- kap * ga y).
  Proof.
    intros y. pose proof r2_pos. destruct HE as [D _]. unfold Ey, ga, kap.
    replace (- (K / r2) * exp (- (y * y / 2))) with (- K * exp (- (y / r2 * (y / r2))) * (1 * / r2 + y * 0)).
    - apply (derivable_pt_lim_comp (fun y => y / r2) E); [|apply D].
      apply (derivable_pt_lim_mult id (fun _ => / r2)); [apply derivable_pt_lim_id|apply derivable_pt_lim_const].
    - assert (H2 : / r2 * / r2 = / 2) by (rewrite <- Rinv_mult, r2_sq; reflexivity).
      replace (y / r2 * (y / r2)) with (y * y / 2); [unfold Rdiv; ring|].
      replace (y / r2 * (y / r2)) with (y * y * (/ r2 * / r2)) by (unfold Rdiv; ring). rewrite H2. reflexivity.
  Qed.
  Lemma derive_ga : forall y, derivable_pt_lim ga y (- y * ga y).
  Proof.
    intros y. unfold ga. replace (- y * exp (- (y * y / 2))) with (exp (- (y * y / 2)) * - ((1 * y + y * 1) * / 2 + y * y * 0)) by field.
    apply (derivable_pt_lim_comp (fun y => - (y * y / 2)) exp); [|apply derivable_pt_lim_exp].
    apply (derivable_pt_lim_opp (fun y => y * y / 2)), (derivable_pt_lim_mult (fun y => y * y) (fun _ => / 2)); [|apply derivable_pt_lim_const].
    apply (derivable_pt_lim_mult id id); apply derivable_pt_lim_id.
  Qed.
  Lemma derive_h : forall (A A' : R -> R) y, derivable_pt_lim A y (A' y) ->
    derivable_pt_lim (fun y => kap * (A y * ga y) - Ey y) y (kap * ga y * (A' y - y * A y + 1)).
  Proof.
    intros A A' y D. replace (kap * ga y * (A' y - y * A y + 1)) with (kap * (A' y * ga y + A y * (- y * ga y)) - - kap * ga y) by ring.
    apply (derivable_pt_lim_minus (fun y => kap * (A y * ga y)) Ey); [|apply derive_Ey].
    apply (derivable_pt_lim_scal (fun y => A y * ga y) kap), (derivable_pt_lim_mult A ga); [exact D|apply derive_ga].
  Qed.
  Lemma ga_pos : forall y, 0 < ga y. Proof. intros. apply exp_pos. Qed.

  Lemma Ey_small : forall eps, 0 < eps -> exists B, 0 <= B /\ forall y, B <= y -> Ey y <= eps.
  Proof.
    intros eps He. destruct HE as [_ Lim]. destruct (Lim eps He) as [B HB]. pose proof r2_pos. exists (Rmax 0 (B * r2)). split; [apply Rmax_l|].
    intros y Hy. assert (B * r2 <= y) by (eapply Rle_trans; [apply Rmax_r|exact Hy]).
    specialize (HB (y / r2)). apply Rabs_le_inv in HB; [apply HB|].
    apply Rmult_le_reg_r with r2; [lra|]. unfold Rdiv. rewrite Rmult_assoc, Rinv_l by lra. lra.
  Qed.

  Lemma bar_up : forall y, - (1 / 50) <= y -> Ey y <= kap * (mA 100001 y * ga y).
  Proof.
    intros a Ha. apply Rnot_lt_le. intros C. set (d := Ey a - kap * (mA 100001 a * ga a)) in *. assert (D0 : 0 < d / 2) by (unfold d; lra).
    destruct (Ey_small (d / 2) D0) as (B & HB0 & HB). set (b := Rmax a B). assert (AB : a <= b) by apply Rmax_l. specialize (HB b (Rmax_r _ _)).
    assert (M : - (kap * (mA 100001 a * ga a) - Ey a) <= - (kap * (mA 100001 b * ga b) - Ey b)).
    { apply (mono_on (fun y => - (kap * (mA 100001 y * ga y) - Ey y)) (fun y => - (kap * ga y * (mA' 100001 y - y * mA 100001 y + 1))) a b AB).
      - intros t Ht. apply (derivable_pt_lim_opp (fun y => kap * (mA 100001 y * ga y) - Ey y)), derive_h, derive_mA. lra.
      - intros t Ht. pose proof (m_up t ltac:(lra)) as U. pose proof kap_pos. pose proof (ga_pos t).
        assert (0 < kap * ga t) by (apply Rmult_lt_0_compat; assumption). set (u := mA' 100001 t - t * mA 100001 t + 1) in *. clearbody u. nra. }
    pose proof (mA_range 100001 b ltac:(lia) ltac:(lra)) as [M0 _]. pose proof kap_pos. pose proof (ga_pos b).
    assert (0 < kap * (mA 100001 b * ga b)) by (apply Rmult_lt_0_compat; [assumption|apply Rmult_lt_0_compat; assumption]). unfold d in *. lra.
  Qed.

  Lemma Ey_pos : forall y, 0 <= Ey y. Proof. intros y. exact (E_nonneg E HE (y / r2)). Qed.

  Lemma bar_low : forall y, - (1 / 50) <= y -> kap * (mA 99999 y * ga y) <= Ey y.
  Proof.
    intros a Ha. apply Rnot_lt_le. intros C. set (d := kap * (mA 99999 a * ga a) - Ey a) in *. assert (D0 : 0 < d) by (unfold d; lra).
    pose proof kap_pos as KP. set (b := Rmax (Rmax a 1) (4 * kap / d + 1)).
    assert (AB : a <= b) by (eapply Rle_trans; [apply (Rmax_l a 1)|apply Rmax_l]). assert (B1 : 1 <= b) by (eapply Rle_trans; [apply (Rmax_r a 1)|apply Rmax_l]).
    assert (B2 : 4 * kap / d + 1 <= b) by apply Rmax_r.
    assert (M : kap * (mA 99999 a * ga a) - Ey a <= kap * (mA 99999 b * ga b) - Ey b).
    { apply (mono_on (fun y => kap * (mA 99999 y * ga y) - Ey y) (fun y => kap * ga y * (mA' 99999 y - y * mA 99999 y + 1)) a b AB).
      - intros t Ht. apply derive_h, derive_mA. lra.
      - intros t Ht. pose proof (m_low t ltac:(lra)) as U. pose proof (ga_pos t). apply Rmult_le_pos; [|exact U]. left. apply Rmult_lt_0_compat; assumption. }
    pose proof (mA_range 99999 b ltac:(lia) ltac:(lra)) as [M0 M1]. pose proof (Ey_pos b) as EP. fold d in M.
    assert (G : ga b * b <= 2).
    { unfold ga. rewrite exp_Ropp. pose proof (exp_ineq1_le (b * b / 2)) as X. pose proof (exp_pos (b * b / 2)) as XP.
      apply Rmult_le_reg_l with (exp (b * b / 2)); [exact XP|]. rewrite <- Rmult_assoc, Rinv_r by lra. nra. }
    assert (H : kap * (mA 99999 b * ga b) < d).
    { apply Rmult_lt_reg_r with b; [lra|].
      assert (Q : mA 99999 b * (ga b * b) <= 2 * 2).
      { apply Rmult_le_compat; [lra| |lra|exact G]. apply Rmult_le_pos; [left; apply ga_pos|lra]. }
      assert (DB : 4 * kap < d * b).
      { apply Rmult_lt_reg_l with (/ d); [apply Rinv_0_lt_compat, D0|]. replace (/ d * (d * b)) with b by (field; lra). replace (/ d * (4 * kap)) with (4 * kap / d) by (field; lra). lra. }
      replace (kap * (mA 99999 b * ga b) * b) with (kap * (mA 99999 b * (ga b * b))) by ring.
      apply Rle_lt_trans with (kap * (2 * 2)); [apply Rmult_le_compat_l; lra|]. lra. }
    lra.
  Qed.

  (** ** the guess *)
  Definition gD (t : R) : R := 1 + t * (0.99229 + t * 0.04481).
  Definition yg (a b t : R) : R := t - (2.30753 - a + t * (0.27061 - b)) / gD t.

  Definition gd : list Z := [223000192249000; 109777274000000; 4481000000000]%Z.
  Definition gn (sg : Z) : list Z := if (sg =? 1)%Z then [8010633122053; 328942589227000; 115141031000000; 4481000000000]%Z
    else [644233122053; 325742589227000; 115141031000000; 4481000000000]%Z.

  Definition g_chk (sg : Z) : list Z :=
    pscale (- sg) (psub (pscale 100000000 (pmul (wN (gn sg) gd) (phc (gn sg) gd mQ)))
      (pscale (100000 + sg) (pmul [1177; 1000]%Z (pmul (ppow 2 gd) (phc (gn sg) gd (mP ++ [0%Z])))))).

  Definition tg1 : tree := N (N (N (N (N (N (N (N (N L L) L) (N L L)) (N L L)) (N (N L L) (N L L))) (N (N L L) (N L L))) (N (N (N L L) L) (N L L))) (N (N (N L L) (N L L)) (N (N L L) (N L L)))) (N (N (N (N L L) (N L L)) (N (N L L) (N L L))) (N (N L L) (N L L))).
  Definition tg2 : tree := N (N (N (N (N (N (N L L) (N L L)) (N (N L L) (N L L))) (N (N (N L L) (N L L)) (N L L))) (N (N (N L L) (N L L)) (N (N L L) (N L L)))) (N (N (N L L) (N L L)) (N (N L L) (N L L)))) (N (N (N (N L L) L) (N L L)) (N (N L L) L)).
  Lemma g_chk_ok : (neg_chk tg1 420 35 (g_chk 1) && neg_chk tg2 420 35 (g_chk (-1)))%bool = true.
  Proof. vm_compute. reflexivity. Qed.

  Lemma gd_pos : forall u, 0 <= u -> 0 < peval gd u.
  Proof. intros u Hu. eapply Rlt_le_trans; [|apply (peval_ge_hd 223000192249000 _ u Hu); reflexivity]. apply IZR_lt. reflexivity. Qed.
  Lemma gn_pos : forall sg u, 0 <= u -> 0 < peval (gn sg) u.
  Proof.
    intros sg u Hu. unfold gn. destruct (sg =? 1)%Z.
    - eapply Rlt_le_trans; [|apply (peval_ge_hd 8010633122053 _ u Hu); reflexivity]. apply IZR_lt. reflexivity.
    - eapply Rlt_le_trans; [|apply (peval_ge_hd 644233122053 _ u Hu); reflexivity]. apply IZR_lt. reflexivity.
  Qed.
  Definition ys (sg : Z) (u : R) : R := peval (gn sg) u / peval gd u - 1 / 50.
  Definition ys' (sg : Z) (u : R) : R := peval (wN (gn sg) gd) u / (peval gd u * peval gd u).
  Lemma derive_ys : forall sg u, 0 <= u -> derivable_pt_lim (ys sg) u (ys' sg u).
  Proof.
    intros sg u Hu. pose proof (gd_pos u Hu). rewrite <- (Rminus_0_r (ys' sg u)).
    apply (derivable_pt_lim_minus (fun u => peval (gn sg) u / peval gd u) (fun _ => 1 / 50)); [apply derive_rat0; lra|apply derivable_pt_lim_const].
  Qed.
  Lemma ys_ge : forall sg u, 0 <= u -> - (1 / 50) <= ys sg u.
  Proof.
    intros sg u Hu. pose proof (gd_pos u Hu). pose proof (gn_pos sg u Hu). unfold ys.
    assert (0 < peval (gn sg) u / peval gd u) by (apply Rdiv_lt_0_compat; assumption). lra.
  Qed.
  Lemma g_eq : forall sg u, 0 <= u -> peval (g_chk sg) u
    = - IZR sg * (100000000 * peval gd u ^ 8 * peval mQ (peval (gn sg) u / peval gd u)) * (ys' sg u - (1177 / 1000 + u) * mA (100000 + sg) (ys sg u)).
  Proof.
    intros sg u Hu. pose proof (gd_pos u Hu) as D0. pose proof (gn_pos sg u Hu) as N0.
    assert (S0 : 0 <= peval (gn sg) u / peval gd u) by (left; apply Rdiv_lt_0_compat; assumption).
    destruct (mPQ_pos _ S0) as [_ Q0]. unfold g_chk, mA, ys'.
    replace (ys sg u + 1 / 50) with (peval (gn sg) u / peval gd u) by (unfold ys; ring).
    rewrite peval_pscale, peval_psub, !peval_pscale, !peval_pmul, peval_ppow, !peval_phc by lra.
    rewrite peval_app, !peval_cons, opp_IZR, plus_IZR. cbn [length app mP mQ]. change (peval [] u) with 0. change (peval [] (peval (gn sg) u / peval gd u)) with 0.
    fold mP mQ. set (s := peval (gn sg) u / peval gd u) in *. set (q := peval mQ s) in *. set (p := peval mP s). set (w := peval (wN (gn sg) gd) u). set (d := peval gd u) in *. set (z := IZR sg).
    clearbody s q p w d z. simpl pow. field. lra.
  Qed.

  (** exp (t^2 / 2) erfc (y / sqrt 2) *)
  Definition tt (u : R) : R := 1177 / 1000 + u.
  Definition V (sg : Z) (u : R) : R := exp (tt u * tt u / 2) * Ey (ys sg u).
  Definition V' (sg : Z) (u : R) : R := exp (tt u * tt u / 2) * (tt u * Ey (ys sg u) - kap * ga (ys sg u) * ys' sg u).
  Lemma derive_V : forall sg u, 0 <= u -> derivable_pt_lim (V sg) u (V' sg u).
  Proof.
    intros sg u Hu. unfold V, V'.
    replace (exp (tt u * tt u / 2) * (tt u * Ey (ys sg u) - kap * ga (ys sg u) * ys' sg u)) with
      ((exp (tt u * tt u / 2) * tt u) * Ey (ys sg u) + exp (tt u * tt u / 2) * (- kap * ga (ys sg u) * ys' sg u)) by ring.
    apply (derivable_pt_lim_mult (fun u => exp (tt u * tt u / 2)) (fun u => Ey (ys sg u))).
    - apply (derivable_pt_lim_comp (fun u => tt u * tt u / 2) exp); [|apply derivable_pt_lim_exp].
      assert (T : derivable_pt_lim tt u 1).
      { unfold tt. replace 1 with (0 + 1) by ring. apply (derivable_pt_lim_plus (fun _ => 1177 / 1000) id); [apply derivable_pt_lim_const|apply derivable_pt_lim_id]. }
      replace (tt u) with ((1 * tt u + tt u * 1) * / 2 + tt u * tt u * 0) by field.
      apply (derivable_pt_lim_mult (fun u => tt u * tt u) (fun _ => / 2)); [|apply derivable_pt_lim_const].
      replace (1 * tt u + tt u * 1) with (1 * tt u + tt u * 1) by ring. apply (derivable_pt_lim_mult tt tt); exact T.
    - apply (derivable_pt_lim_comp (ys sg) Ey); [apply derive_ys, Hu|apply derive_Ey].
  Qed.

  Lemma exp_sq_ga : forall y, exp (y * y / 2) * ga y = 1.
  Proof. intros y. unfold ga. rewrite <- exp_plus, Rplus_opp_r. apply exp_0. Qed.

  Lemma V_up : forall u, 0 <= u <= 35 -> V 1 u <= V 1 0.
  Proof.
    intros u [H0 H1]. enough (- V 1 0 <= - V 1 u) by lra.
    apply (mono_on (fun u => - V 1 u) (fun u => - V' 1 u) 0 u H0).
    - intros v Hv. apply (derivable_pt_lim_opp (V 1)), derive_V. lra.
    - intros v Hv. pose proof g_chk_ok as C. apply andb_prop in C. destruct C as [C _].
      pose proof (neg_ok tg1 420 35 (g_chk 1) v ltac:(lia) ltac:(lia) C ltac:(simpl (IZR 35); lra)) as G. rewrite g_eq in G by lra.
      pose proof (gd_pos v ltac:(lra)) as D0. pose proof (gn_pos 1 v ltac:(lra)) as N0.
      destruct (mPQ_pos (peval (gn 1) v / peval gd v) ltac:(left; apply Rdiv_lt_0_compat; assumption)) as [_ Q0].
      set (c := 100000000 * peval gd v ^ 8 * peval mQ (peval (gn 1) v / peval gd v)) in *.
      assert (C0 : 0 < c) by (unfold c; apply Rmult_lt_0_compat; [|exact Q0]; apply Rmult_lt_0_compat; [lra|apply pow_lt, D0]).
      simpl (100000 + 1)%Z in G. simpl (IZR 1) in G. pose proof (bar_up (ys 1 v) (ys_ge 1 v ltac:(lra))) as B.
      set (y := ys 1 v) in *. set (y' := ys' 1 v) in *. unfold V'. fold y y'. pose proof (ga_pos y) as GP. pose proof kap_pos as KP. pose proof (exp_pos (tt v * tt v / 2)) as XP.
      fold (tt v) in G. assert (T0 : 0 < tt v) by (unfold tt; lra).
      assert (G' : tt v * mA 100001 y <= y'). { apply Rnot_lt_le. intros Z. assert (0 < c * (tt v * mA 100001 y - y')) by (apply Rmult_lt_0_compat; lra). lra. }
      assert (M1 : tt v * Ey y <= tt v * (kap * (mA 100001 y * ga y))) by (apply Rmult_le_compat_l; lra).
      assert (M2 : kap * ga y * (tt v * mA 100001 y) <= kap * ga y * y') by (apply Rmult_le_compat_l; [left; apply Rmult_lt_0_compat; assumption|exact G']).
      assert (0 <= exp (tt v * tt v / 2) * (kap * ga y * y' - tt v * Ey y)) by (apply Rmult_le_pos; lra). lra.
  Qed.
  Lemma V_low : forall u, 0 <= u <= 35 -> V (-1) 0 <= V (-1) u.
  Proof.
    intros u [H0 H1]. apply (mono_on (V (-1)) (V' (-1)) 0 u H0).
    - intros v Hv. apply derive_V. lra.
    - intros v Hv. pose proof g_chk_ok as C. apply andb_prop in C. destruct C as [_ C].
      pose proof (neg_ok tg2 420 35 (g_chk (-1)) v ltac:(lia) ltac:(lia) C ltac:(simpl (IZR 35); lra)) as G. rewrite g_eq in G by lra.
      pose proof (gd_pos v ltac:(lra)) as D0. pose proof (gn_pos (-1) v ltac:(lra)) as N0.
      destruct (mPQ_pos (peval (gn (-1)) v / peval gd v) ltac:(left; apply Rdiv_lt_0_compat; assumption)) as [_ Q0].
      set (c := 100000000 * peval gd v ^ 8 * peval mQ (peval (gn (-1)) v / peval gd v)) in *.
      assert (C0 : 0 < c) by (unfold c; apply Rmult_lt_0_compat; [|exact Q0]; apply Rmult_lt_0_compat; [lra|apply pow_lt, D0]).
      simpl (100000 + -1)%Z in G. simpl (IZR (-1)) in G. pose proof (bar_low (ys (-1) v) (ys_ge (-1) v ltac:(lra))) as B.
      set (y := ys (-1) v) in *. set (y' := ys' (-1) v) in *. unfold V'. fold y y'. pose proof (ga_pos y) as GP. pose proof kap_pos as KP. pose proof (exp_pos (tt v * tt v / 2)) as XP.
      fold (tt v) in G. assert (T0 : 0 < tt v) by (unfold tt; lra).
      assert (G' : y' <= tt v * mA 99999 y). { apply Rnot_lt_le. intros Z. assert (0 < c * (y' - tt v * mA 99999 y)) by (apply Rmult_lt_0_compat; lra). lra. }
      assert (M1 : tt v * (kap * (mA 99999 y * ga y)) <= tt v * Ey y) by (apply Rmult_le_compat_l; lra).
      assert (M2 : kap * ga y * y' <= kap * ga y * (tt v * mA 99999 y)) by (apply Rmult_le_compat_l; [left; apply Rmult_lt_0_compat; assumption|exact G']).
      apply Rmult_le_pos; [left; exact XP|]. lra.
  Qed.

  Lemma ys_yg : forall u, 0 <= u -> ys 1 u = yg 0.018 0.016 (tt u) /\ ys (-1) u = yg (- 0.018) (- 0.016) (tt u).
  Proof.
    intros u Hu. assert (G : 0 < gD (tt u)). { unfold gD, tt. assert (0 <= u * u) by (apply Rle_0_sqr). lra. }
    assert (Q : peval gd u = 100000000000000 * gD (tt u)) by (unfold gd, gD, tt, peval; cbn [fold_right]; lra).
    unfold ys. rewrite Q. unfold yg. set (d := gD (tt u)) in *.
    assert (N1 : peval (gn 1) u = 100000000000000 * ((tt u + 1 / 50) * d - (2.30753 - 0.018 + tt u * (0.27061 - 0.016)))).
    { unfold gn, d, gD, tt, peval; cbn [fold_right Z.eqb Pos.eqb]. lra. }
    assert (N2 : peval (gn (-1)) u = 100000000000000 * ((tt u + 1 / 50) * d - (2.30753 - - 0.018 + tt u * (0.27061 - - 0.016)))).
    { unfold gn, d, gD, tt, peval; cbn [fold_right Z.eqb]. lra. }
    rewrite N1, N2. clearbody d. split; field; lra.
  Qed.

  Lemma E_lt : forall a b, a < b -> E b < E a.
  Proof.
    intros a b Hab. destruct HE as [D _].
    destruct (MVT_cor2 E (fun x => - K * exp (- (x * x))) a b Hab) as (c & Q & _); [intros c _; apply D|].
    pose proof K_pos. pose proof (exp_pos (- (c * c))). assert (0 < K * exp (- (c * c)) * (b - a)) by (apply Rmult_lt_0_compat; [apply Rmult_lt_0_compat; assumption|lra]). lra.
  Qed.
  Lemma E_inv : forall a b, E b <= E a -> a <= b.
  Proof. intros a b H. apply Rnot_lt_le. intros C. apply E_lt in C. lra. Qed.

  Lemma V_0 : V 1 0 <= 2 /\ 2 <= V (-1) 0.
  Proof.
    assert (T : tt 0 * tt 0 / 2 = 1385329 / 2000000) by (unfold tt; field). unfold V. rewrite T.
    assert (X : 1.999 <= exp (1385329 / 2000000) <= 2).
    { pose proof EulerGamma.ln2_low as L1. pose proof EulerGamma.ln2_up as L2. split.
      - replace (1385329 / 2000000) with (ln 2 + - (ln 2 - 1385329 / 2000000)) by ring. rewrite exp_plus, exp_ln by lra.
        pose proof (exp_ineq1_le (- (ln 2 - 1385329 / 2000000))). lra.
      - rewrite <- (exp_ln 2) by lra. left. apply exp_increasing. lra. }
    assert (Y1 : 0 <= ys 1 0) by (unfold ys, gn, gd, peval; cbn [fold_right Z.eqb Pos.eqb]; lra).
    assert (Y2 : ys (-1) 0 <= - 0.015) by (unfold ys, gn, gd, peval; cbn [fold_right Z.eqb]; lra).
    pose proof (erfc_0 E HE) as E0. pose proof r2_rng as R2. pose proof (exp_pos (1385329 / 2000000)) as XP. set (x := exp (1385329 / 2000000)) in *.
    split.
    - apply Rle_trans with (2 * 1); [|lra]. apply Rmult_le_compat; [lra|apply Ey_pos|lra|]. unfold Ey. rewrite <- E0. apply E_decr; [exact HE|].
      apply Rmult_le_pos; [exact Y1|left; apply Rinv_0_lt_compat; lra].
    - apply Rle_trans with (1.999 * 1.001); [lra|]. apply Rmult_le_compat; [lra|lra|lra|].
      apply Rle_trans with (E (- 0.01)).
      + destruct HE as [D _]. destruct (MVT_cor2 E (fun x => - K * exp (- (x * x))) (- 0.01) 0 ltac:(lra)) as (c & Q & Hc); [intros c _; apply D|].
        rewrite E0 in Q. assert (KG : 1 <= K). { pose proof ErfcxAsym.isp_range. unfold Rdiv. lra. }
        assert (XG : 0.9 <= exp (- (c * c))). { pose proof (exp_ineq1_le (- (c * c))). nra. }
        assert (0.9 <= K * exp (- (c * c))) by (rewrite <- (Rmult_1_l 0.9); apply Rmult_le_compat; lra). lra.
      + unfold Ey. apply E_decr; [exact HE|]. apply Rmult_le_reg_r with r2; [lra|]. unfold Rdiv. rewrite Rmult_assoc, Rinv_l by lra. lra.
  Qed.

  Theorem guess_ok : forall t p z, 1.177 <= t <= 36 -> p = 2 * exp (- (t * t / 2)) -> E z = p ->
    Rabs (yg 0 0 t / r2 - z) <= (0.018 + 0.016 * t) / gD t / r2.
  Proof.
    intros t p z Ht Hp Hz. set (u := t - 1177 / 1000). assert (U : 0 <= u <= 35) by (unfold u; lra).
    assert (T : tt u = t) by (unfold tt, u; ring). destruct (ys_yg u (proj1 U)) as [Y1 Y2]. rewrite T in Y1, Y2.
    pose proof (V_up u U) as VU. pose proof (V_low u U) as VL. destruct V_0 as [V1 V2]. unfold V in VU at 1. unfold V in VL at 2. rewrite T, Y1 in VU. rewrite T, Y2 in VL.
    assert (X : exp (t * t / 2) * exp (- (t * t / 2)) = 1) by (rewrite <- exp_plus, Rplus_opp_r; apply exp_0).
    pose proof (exp_pos (t * t / 2)) as XP. pose proof r2_rng as R2.
    assert (A : Ey (yg 0.018 0.016 t) <= p).
    { apply Rmult_le_reg_l with (exp (t * t / 2)); [exact XP|]. rewrite Hp. replace (exp (t * t / 2) * (2 * exp (- (t * t / 2)))) with 2 by (rewrite <- (Rmult_1_r 2) at 1; rewrite <- X; ring). lra. }
    assert (B : p <= Ey (yg (- 0.018) (- 0.016) t)).
    { apply Rmult_le_reg_l with (exp (t * t / 2)); [exact XP|]. rewrite Hp. replace (exp (t * t / 2) * (2 * exp (- (t * t / 2)))) with 2 by (rewrite <- (Rmult_1_r 2) at 1; rewrite <- X; ring). lra. }
    rewrite <- Hz in A, B. unfold Ey in A, B. apply E_inv in A. apply E_inv in B.
    assert (G : 0 < gD t). { unfold gD. assert (0 <= t * t) by apply Rle_0_sqr. lra. }
    assert (QQ : forall a b, yg a b t / r2 = yg 0 0 t / r2 + (a + b * t) / gD t / r2) by (intros a b; unfold yg; field; lra).
    rewrite (QQ 0.018 0.016) in A. rewrite (QQ (- 0.018) (- 0.016)) in B.
    assert (QN : forall a b c d, (- a + - b * t) / c / d = - ((a + b * t) / c / d)) by (intros; unfold Rdiv; ring).
    assert (N1 : - 0.018 = Ropp 0.018) by lra. assert (N2 : - 0.016 = Ropp 0.016) by lra. rewrite N1, N2, QN in B.
    apply Rabs_le. lra.
  Qed.
End Guess.
