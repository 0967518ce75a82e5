(** * Accuracy of Jn and Yn at every order below the argument *)

From Coq Require Import ZArith Reals Bool Lra Lia List.
From Flocq Require Import Core IEEE754.BinarySingleNaN IEEE754.Binary IEEE754.Bits.
From Verif.Model Require Import Base Arith BesselTables Bessel.
From Verif.Float Require Import Bits64 Ieee Exact Platforms.
From Verif.Spec Require Import F64Spec Outcome BesselSpec Bessel2Spec LibmSpec TrigSpec.
From Verif.Proofs Require Import F64 F64Ops Lits Ext FlErr GammaAcc GserAcc PolyZ PolyTree BesselSeries BesselReal BesselODE BesselLim BesselRat KRat BesselAcc BesselJReal BesselJAcc EulerGamma PiBounds ErfcODE SecondSeries SecondRat YAcc KnAcc YnAcc JYrat JYasym JYLarge JYLargeThms UtilsSpec BesselRec LnGammaFl JnThms JYUp.
Import ListNotations.
Open Scope R_scope.
Local Notation cos := Rtrigo_def.cos.
Local Notation sin := Rtrigo_def.sin.
Local Notation sqrt := R_sqrt.sqrt.
Local Notation PI := Rtrigo1.PI.
Local Notation ln := Rpower.ln.

(** ** Sizes of the starting values *)

Lemma amp_core : forall c p q C S, 0 <= c <= 4 / 5 -> Rabs p <= 102 / 100 -> Rabs q <= 5 / 100 -> Rabs C <= 1 -> Rabs S <= 1 -> Rabs (c * (p * C - q * S)) <= 857 / 1000.
Proof.
  intros c p q C S Hc Hp Hq HC HS. rewrite Rabs_mult, (Rabs_pos_eq c) by lra.
  assert (A : Rabs (p * C) <= 102 / 100 * 1) by (rewrite Rabs_mult; apply Rmult_le_compat; try apply Rabs_pos; assumption).
  assert (B : Rabs (q * S) <= 5 / 100 * 1) by (rewrite Rabs_mult; apply Rmult_le_compat; try apply Rabs_pos; assumption).
  assert (D : Rabs (p * C - q * S) <= 107 / 100). { unfold Rminus. eapply Rle_trans; [apply Rabs_triang|]. rewrite Rabs_Ropp. lra. }
  apply Rle_trans with (4 / 5 * (107 / 100)); [|lra]. apply Rmult_le_compat; [lra|apply Rabs_pos|lra|exact D].
Qed.

Lemma yy_range : forall X, 8 <= X -> 0 <= yy X <= 1.
Proof.
  intros X HX. unfold yy. assert (8 * 8 <= X * X) by (apply Rmult_le_compat; lra). split; [left; apply Rdiv_lt_0_compat; lra|].
  apply Rmult_le_reg_r with (X * X); [lra|]. replace (64 / (X * X) * (X * X)) with 64 by (field; lra). lra.
Qed.

Lemma pq_small : forall pn pd qn qd X, (pair_ok 102 100 pn pd && pair_ok 5 100 qn qd)%bool = true -> 8 <= X -> Rabs (pp (z21 pn) (z21 pd) X) <= 102 / 100 /\ Rabs (qq (z21 qn) (z21 qd) X) <= 5 / 100.
Proof.
  intros pn pd qn qd X H HX. apply andb_prop in H. destruct H as [H1 H2]. pose proof (yy_range X HX) as Y.
  destruct (pair_facts 102 100 pn pd ltac:(lia) H1) as (_ & _ & A). destruct (pair_facts 5 100 qn qd ltac:(lia) H2) as (_ & _ & B).
  destruct (A _ Y) as (A1 & A2 & A3). destruct (B _ Y) as (B1 & B2 & B3).
  unfold pp, r0, qq, t0. rewrite <- A3, <- B3.
  assert (Q1 : Rabs (tab pn (yy X) / tab pd (yy X)) <= 102 / 100). { unfold Rdiv at 1. rewrite Rabs_mult, Rabs_inv, (Rabs_pos_eq (tab pd (yy X))) by lra. apply Rmult_le_reg_r with (tab pd (yy X)); [lra|]. rewrite Rmult_assoc, Rinv_l by lra. lra. }
  assert (Q2 : Rabs (tab qn (yy X) / tab qd (yy X)) <= 5 / 100). { unfold Rdiv at 1. rewrite Rabs_mult, Rabs_inv, (Rabs_pos_eq (tab qd (yy X))) by lra. apply Rmult_le_reg_r with (tab qd (yy X)); [lra|]. rewrite Rmult_assoc, Rinv_l by lra. lra. }
  split; [exact Q1|]. rewrite Rabs_mult. assert (E : 0 < 8 / X <= 1). { split; [apply Rdiv_lt_0_compat; lra|]. apply Rmult_le_reg_r with X; [lra|]. replace (8 / X * X) with 8 by (field; lra). lra. }
  rewrite (Rabs_pos_eq (8 / X)) by lra. apply Rle_trans with (1 * (5 / 100)); [|lra]. apply Rmult_le_compat; [lra|apply Rabs_pos|lra|exact Q2].
Qed.

Lemma abs_cos1 : forall x, Rabs (cos x) <= 1. Proof. intros x. apply Rabs_le. split; apply COS_bound. Qed.
Lemma abs_sin1 : forall x, Rabs (sin x) <= 1. Proof. intros x. apply Rabs_le. split; apply SIN_bound. Qed.

Lemma A0_small : forall phi X, 8 <= X -> Rabs (A0 phi X) <= 857 / 1000.
Proof.
  intros phi X HX. unfold A0, aa. destruct (pq_small _ _ _ _ X pairs_0 HX) as [P1 P2]. pose proof cc_range. apply amp_core; [lra|exact P1|exact P2|apply abs_cos1|apply abs_sin1].
Qed.
Lemma A1_small : forall phi X, 8 <= X -> Rabs (A1 phi X) <= 857 / 1000.
Proof.
  intros phi X HX. unfold A1, aa. destruct (pq_small _ _ _ _ X pairs_1 HX) as [P1 P2]. pose proof cc_range. apply amp_core; [lra|exact P1|exact P2|apply abs_cos1|apply abs_sin1].
Qed.

Lemma small_of : forall X v A, 8 <= X -> Rabs (sqrt X * v - A) <= 103 / 10 ^ 15 -> Rabs A <= 857 / 1000 -> Rabs v <= 86 / 100 / sqrt X.
Proof.
  intros X v A HX H HA. assert (S : 0 < sqrt X) by (apply sqrt_lt_R0; lra). apply Rmult_le_reg_r with (sqrt X); [exact S|]. replace (86 / 100 / sqrt X * sqrt X) with (86 / 100) by (field; lra).
  rewrite <- (Rabs_pos_eq (sqrt X)) at 1 by lra. rewrite <- Rabs_mult, Rmult_comm. apply Rabs_le_inv in H, HA. apply Rabs_le. lra.
Qed.

(** the squares of two neighbouring orders 0 and 1 add up to a non-increasing function *)
Lemma energy : forall f0 f1, (forall x, 0 < x -> derivable_pt_lim f0 x (- f1 x)) -> (forall x, 0 < x -> derivable_pt_lim f1 x (f0 x - f1 x / x)) ->
  forall a x, 0 < a <= x -> f0 x * f0 x + f1 x * f1 x <= f0 a * f0 a + f1 a * f1 a.
Proof.
  intros f0 f1 D0 D1 a x Hx.
  enough (- (f0 a * f0 a + f1 a * f1 a) <= - (f0 x * f0 x + f1 x * f1 x)) by lra.
  apply (mono_on (fun x => - (f0 x * f0 x + f1 x * f1 x)) (fun x => - (- f1 x * f0 x + f0 x * - f1 x + ((f0 x - f1 x / x) * f1 x + f1 x * (f0 x - f1 x / x))))); [lra| |].
  - intros t Ht. apply (derivable_pt_lim_opp (fun x => f0 x * f0 x + f1 x * f1 x)). apply (derivable_pt_lim_plus (fun x => f0 x * f0 x) (fun x => f1 x * f1 x)).
    + apply (derivable_pt_lim_mult f0 f0); apply D0; lra.
    + apply (derivable_pt_lim_mult f1 f1); apply D1; lra.
  - intros t Ht. replace (- (- f1 t * f0 t + f0 t * - f1 t + ((f0 t - f1 t / t) * f1 t + f1 t * (f0 t - f1 t / t)))) with (2 * (f1 t * f1 t) * / t) by (field; lra).
    apply Rmult_le_pos; [apply Rmult_le_pos; [lra|apply Rle_0_sqr]|]. left. apply Rinv_0_lt_compat. lra.
Qed.

Lemma J01_small : forall x, 1 <= x -> Rabs (BJ x 0) <= 112 / 100 /\ Rabs (BJ x 1) <= 112 / 100.
Proof.
  intros x Hx. pose proof (energy (fun x => BJ x 0) (fun x => BJ x 1) (fun x _ => derive_BJ0 x) derive_BJ1 1 x ltac:(lra)) as E. cbv beta in E.
  pose proof (BJ_rng 1 0 ltac:(lra)) as R0. pose proof (BJ_rng 1 1 ltac:(lra)) as R1. simpl in R0, R1.
  assert (Q0 : BJ 1 0 * BJ 1 0 <= 1 * 1) by (apply Rmult_le_compat; lra). assert (Q1 : BJ 1 1 * BJ 1 1 <= 1 / 2 * (1 / 2)) by (apply Rmult_le_compat; lra).
  pose proof (Rle_0_sqr (BJ x 0)) as S0. pose proof (Rle_0_sqr (BJ x 1)) as S1. unfold Rsqr in S0, S1.
  split; apply sq_abs; lra.
Qed.

Lemma chk_y1u : let L1 := tgt_l MY (-1) 1 26 in let N1 := tgt_n MY (-1) 1 26 in neg_chk (full 3) 150 1 (padd (pscale 3 L1) [(- N1)%Z]) = true.
Proof. vm_compute. reflexivity. Qed.
Lemma tgt_y1u : forall y, 0 <= y <= 1 -> tgt (-1) 1 26 y <= 1 / 3.
Proof.
  intros y Hy. pose proof chk_y1u as C. cbv zeta in C. pose proof (neg_ok (full 3) 150 1 _ y ltac:(lia) ltac:(lia) C Hy) as E1. clear C.
  rewrite !peval_padd, !peval_pscale, peval_cons, opp_IZR in E1. change (peval [] y) with 0 in *.
  rewrite (tgt_eq MY (-1) 1 26 y ltac:(reflexivity) ltac:(reflexivity)) in E1.
  assert (P1 : (0 < tgt_n MY (-1) 1 26)%Z) by (apply tgt_n_pos; reflexivity). apply IZR_lt in P1. set (N1 := IZR (tgt_n MY (-1) 1 26)) in *. clearbody N1.
  apply Rmult_le_reg_l with N1; lra.
Qed.

Lemma Y01_small : forall x a b, 1 <= x -> is_Y 0 x a -> is_Y 1 x b -> Rabs a <= 101 / 100 /\ Rabs b <= 101 / 100.
Proof.
  intros x a b Hx Ha Hb. destruct euler_exists as [g Hg].
  rewrite (Y_unique _ _ _ _ Ha (yf0_is g Hg x)), (Y_unique _ _ _ _ Hb (yf1_is g Hg x ltac:(lra))).
  pose proof (energy (yf0 g) (yf1 g) (derive_yf0 g) (derive_yf1 g) 1 x ltac:(lra)) as E.
  pose proof (Y0_bound 1 _ ltac:(lra) (yf0_is g Hg 1)) as B0. rewrite Rinv_1 in B0.
  destruct (y1_ser 1 _ ltac:(lra) (yf1_is g Hg 1 ltac:(lra))) as (b1 & _ & _ & S). rewrite ln_1, Rinv_1, Rmult_0_l, !Rmult_1_l, Rmult_1_r in S.
  destruct (tgt_y01 1 ltac:(lra)) as [_ T1]. pose proof (tgt_y1u 1 ltac:(lra)) as T2. destruct pi_near as [P1 P2]. pose proof pq as PQ. 
  assert (E1 : 0 <= IZR pn / IZR pd * tgt (-1) 1 26 1 <= 637 / 1000 * (1 / 3)). { split; [apply Rmult_le_pos; lra|apply Rmult_le_compat; lra]. }
  assert (B1 : Rabs (yf1 g 1) <= 86 / 100). { apply Rabs_le_inv in S. apply Rabs_le. lra. }
  assert (Q0 : yf0 g 1 * yf0 g 1 <= 46 / 100 * (46 / 100)). { replace (yf0 g 1 * yf0 g 1) with (Rabs (yf0 g 1) * Rabs (yf0 g 1)) by (unfold Rabs; destruct (Rcase_abs (yf0 g 1)); ring). apply Rmult_le_compat; try apply Rabs_pos; lra. }
  assert (Q1 : yf1 g 1 * yf1 g 1 <= 86 / 100 * (86 / 100)). { replace (yf1 g 1 * yf1 g 1) with (Rabs (yf1 g 1) * Rabs (yf1 g 1)) by (unfold Rabs; destruct (Rcase_abs (yf1 g 1)); ring). apply Rmult_le_compat; try apply Rabs_pos; lra. }
  pose proof (Rle_0_sqr (yf0 g x)) as S0. pose proof (Rle_0_sqr (yf1 g x)) as S1. unfold Rsqr in S0, S1. split; apply sq_abs; lra.
Qed.

(** ** The recurrence of the model *)

Section Fl.
  Context (P : platform).
  Local Notation mul := (f64_mul P). Local Notation add := (f64_add P). Local Notation sub := (f64_sub P). Local Notation div := (f64_div P).

  Definition ug (tox p c : f64) (n : nat) : f64 := match n with O => p | S _ => snd (@upward (ieee P) sub tox (Z.of_nat n) p c) end.
  Lemma ug_rec : forall tox p c k, ug tox p c (S (S k)) = sub (mul (mul (f64_of_Z (Z.of_nat (S k))) tox) (ug tox p c (S k))) (ug tox p c k).
  Proof.
    intros tox p c k. unfold ug at 1. replace (Z.of_nat (S (S k))) with (Z.of_nat (S k) + 1)%Z by lia. rewrite upward_succ by lia. cbn [snd]. ieee_simpl. change (snd (@upward (ieee P) sub tox (Z.of_nat (S k)) p c)) with (ug tox p c (S k)).
    f_equal. destruct k as [|k]; [reflexivity|]. unfold ug. replace (Z.of_nat (S (S k))) with (Z.of_nat (S k) + 1)%Z by lia. rewrite upward_succ by lia. reflexivity.
  Qed.

  Lemma tox_fl : forall ax, fin ax -> 2 < val ax <= 2 ^ 45 -> fin (div (f64_lit 2.0) ax) /\ Rabs (val (div (f64_lit 2.0) ax) - 2 * / val ax) <= uu * (2 * / val ax) + eta.
  Proof.
    intros ax Fa Hx. assert (I0 : 0 < / val ax < 1) by (split; [apply Rinv_0_lt_compat; lra|rewrite <- Rinv_1; apply Rinv_lt_contravar; lra]).
    assert (D2 : val (f64_lit 2.0) / val ax = 2 * / val ax) by (rewrite val_2; reflexivity).
    assert (BB : 2 <= bpow radix2 1023) by (apply (bpow_le radix2 1 1023); lia).
    destruct (div_23 P (f64_lit 2.0) ax fin_2 Fa ltac:(lra)) as [Ft Et]. { rewrite D2, Rabs_pos_eq; lra. }
    rewrite D2, (Rabs_pos_eq (2 * / val ax)) in Et by lra. split; assumption.
  Qed.

  (** the loop from starting values with error m1 and size A, both over sqrt x *)
  Lemma ug_acc : forall ax p c (B : nat -> R) A m1 n, fin ax -> 2 < val ax <= 2 ^ 45 -> (forall k, B (S (S k)) = INR (S k) * (2 * / val ax) * B (S k) - B k) -> 1 / 2 <= A <= 4 -> 0 <= m1 <= A / 100 ->
    Rabs (B 0%nat) <= A / sqrt (val ax) -> Rabs (B 1%nat) <= A / sqrt (val ax) -> fin p -> fin c -> Rabs (val p - B 0%nat) <= m1 / sqrt (val ax) -> Rabs (val c - B 1%nat) <= m1 / sqrt (val ax) ->
    INR n < val ax -> (Z.of_nat n < 2 ^ 32)%Z ->
    let r := ug (div (f64_lit 2.0) ax) p c n in fin r /\ Rabs (val r - B n) <= (3 / 2 * m1 + 51 * A * INR n / 2 ^ 53) / sqrt (val ax - INR n + 1).
  Proof.
    intros ax p c B A m1 n Fa Hx HB HA Hm B0 B1 Fp Fc Ep Ec Hn HN r. destruct (tox_fl ax Fa Hx) as [Ft Et].
    destruct (up_fl P (val ax) A m1 (div (f64_lit 2.0) ax) B (ug (div (f64_lit 2.0) ax) p c) Hx Ft Et HB (fun k _ _ => ug_rec _ p c k) HA Hm B0 B1 Fp Fc Ep Ec n Hn ltac:(lia)) as [F E].
    split; [exact F|]. eapply Rle_trans; [exact E|]. right. unfold er, ww, uu. f_equal. field.
  Qed.
End Fl.

(** the bound of a small argument in the shape of [ug_acc] *)
Lemma over_sqrt : forall X e, 2 < X < 8 -> 0 <= e -> e <= 283 / 100 * e / sqrt X.
Proof.
  intros X e HX He. assert (S0 : 0 < sqrt X) by (apply sqrt_lt_R0; lra). apply Rmult_le_reg_r with (sqrt X); [exact S0|]. replace (283 / 100 * e / sqrt X * sqrt X) with (e * (283 / 100)) by (field; lra).
  apply Rmult_le_compat_l; [exact He|]. apply Rle_trans with (sqrt (283 / 100 * (283 / 100))); [apply sqrt_le_1; lra|rewrite sqrt_square; lra].
Qed.
Lemma under_sqrt : forall X n N e, INR n < X -> 0 <= N <= e -> N / sqrt (X - INR n + 1) <= e.
Proof.
  intros X n N e HX HN. assert (S1 : 1 <= sqrt (X - INR n + 1)) by (rewrite <- sqrt_1 at 1; apply sqrt_le_1; lra).
  set (s := sqrt (X - INR n + 1)) in *. clearbody s.
  assert (I : / s <= 1) by (rewrite <- Rinv_1; apply Rinv_le_contravar; lra). assert (I0 : 0 < / s) by (apply Rinv_0_lt_compat; lra).
  apply Rle_trans with (N * 1); [apply Rmult_le_compat_l; lra|lra].
Qed.

(** ** J *)

Definition par (x : R) (n : nat) : R := if Rlt_dec x 0 then (-1) ^ n else 1.
Lemma J_parity : forall n x v, is_J n x v -> v = par x n * BJ (Rabs x) n.
Proof.
  intros n x v H. unfold par, Rabs. destruct (Rlt_dec x 0) as [L|L]; destruct (Rcase_abs x) as [C|C]; try lra; [|rewrite Rmult_1_l; apply BJ_unique, H].
  apply (infinite_sum_unique _ _ _ H). intros e He. destruct (BJ_is (- x) n e He) as [N HN]. exists N. intros k Hk. specialize (HN k Hk). unfold R_dist in *.
  rewrite (sum_eq _ (fun i => bterm (-1) n (- x) i * (-1) ^ n)).
  - rewrite <- scal_sum, <- Rmult_minus_distr_l, Rabs_mult, pow_1_abs, Rmult_1_l. exact HN.
  - intros i _. unfold bterm. replace (x / 2) with (-1 * (- x / 2)) at 1 by field. rewrite Rpow_mult_distr. rewrite (pow_add (-1) (2 * i) n), pow_1_even. unfold Rdiv. ring.
Qed.
Lemma par_abs : forall x n, Rabs (par x n) = 1.
Proof. intros x n. unfold par. destruct (Rlt_dec x 0); [apply pow_1_abs|apply Rabs_R1]. Qed.

Lemma parity_mod : forall n, (-1) ^ n = if (Z.of_nat n mod 2 =? 1)%Z then -1 else 1.
Proof.
  induction n as [|n IH]; [reflexivity|]. cbn [pow]. rewrite IH. replace (Z.of_nat (S n)) with (Z.of_nat n + 1)%Z by lia.
  pose proof (Z.mod_pos_bound (Z.of_nat n) 2 ltac:(lia)). rewrite (Z.add_mod (Z.of_nat n) 1 2) by lia. change (1 mod 2)%Z with 1%Z.
  destruct (Z.eqb_spec (Z.of_nat n mod 2) 1) as [E|E]; [rewrite E; simpl; ring|]. replace (Z.of_nat n mod 2)%Z with 0%Z by lia. simpl. ring.
Qed.

Lemma lt0_sign : forall x : f64, fin x -> f64_lt x (f64_lit 0.0) = if Rlt_dec (val x) 0 then true else false.
Proof.
  intros x Fx. destruct (Rlt_dec (val x) 0) as [L|L].
  - apply lt_true. split; [apply fin_nonnan, Fx|]. split; [reflexivity|]. rewrite val_0. exact L.
  - apply lt_false; [apply fin_nonnan, Fx|reflexivity|]. rewrite val_0. lra.
Qed.

Lemma BJ_up : forall x, 0 < x -> forall k, BJ x (S (S k)) = INR (S k) * (2 * / x) * BJ x (S k) - BJ x k.
Proof. intros x Hx k. pose proof (BJ_rec x k Hx). lra. Qed.

Lemma Jn_loop : forall (P : platform) (n : nat) (x : f64) (v A m1 : R), (2 <= n)%nat -> (Z.of_nat n < 2 ^ 32)%Z -> fin x -> INR n < Rabs (val x) <= 2 ^ 45 -> is_J n (val x) v -> let X := Rabs (val x) in
  1 / 2 <= A <= 4 -> 0 <= m1 <= A / 100 -> Rabs (BJ X 0) <= A / sqrt X -> Rabs (BJ X 1) <= A / sqrt X -> fin (@j0 (ieee P) (f64_abs x)) -> fin (@j1 (ieee P) (f64_abs x)) ->
  Rabs (val (@j0 (ieee P) (f64_abs x)) - BJ X 0) <= m1 / sqrt X -> Rabs (val (@j1 (ieee P) (f64_abs x)) - BJ X 1) <= m1 / sqrt X ->
  exists r, @Jn (ieee P) (Z.of_nat n) x = Ok r /\ fin r /\ Rabs (val r - v) <= (3 / 2 * m1 + 51 * A * INR n / 2 ^ 53) / sqrt (X - INR n + 1).
Proof.
  intros P n x v A m1 Hn HN Fx Hx Hv X HA Hm B0 B1 F0 F1 E0 E1. assert (N2 : 2 <= INR n) by (apply (le_INR 2 n), Hn).
  assert (Fa : fin (f64_abs x)) by (rewrite fin_abs; exact Fx). assert (Va : val (f64_abs x) = X) by apply val_abs.
  destruct (ug_acc P (f64_abs x) (@j0 (ieee P) (f64_abs x)) (@j1 (ieee P) (f64_abs x)) (BJ X) A m1 n) as [F E]; try (rewrite Va); try assumption; try (unfold X; lra).
  { apply BJ_up. unfold X. lra. }
  rewrite Va in E. set (r0 := ug P (f64_div P (f64_lit 2.0) (f64_abs x)) (@j0 (ieee P) (f64_abs x)) (@j1 (ieee P) (f64_abs x)) n) in *.
  assert (EJ : snd (jup P (Z.of_nat n) (f64_abs x)) = r0) by (unfold r0, ug, jup; destruct n; [lia|reflexivity]).
  rewrite (Jn_up P (Z.of_nat n) x ltac:(lia) ltac:(apply fin_nonnan, Fx)) by (rewrite <- INR_IZR_INZ; apply Hx). rewrite EJ. eexists. split; [reflexivity|]. rewrite (lt0_sign x Fx).
  rewrite (J_parity n (val x) v Hv). unfold par. fold X. rewrite parity_mod. clearbody r0. clear EJ. destruct (Rlt_dec (val x) 0) as [L|L].
  - cbn [andb]. destruct (Z.of_nat n mod 2 =? 1)%Z.
    + split; [rewrite fin_neg; exact F|]. rewrite val_neg. replace (- val r0 - -1 * BJ X n) with (- (val r0 - BJ X n)) by ring. rewrite Rabs_Ropp. exact E.
    + split; [exact F|]. rewrite Rmult_1_l. exact E.
  - cbn [andb]. split; [exact F|]. rewrite Rmult_1_l. exact E.
Qed.

Lemma Jn_below_8 : forall (P : platform) (n : nat) (x : f64) (v : R), (2 <= n)%nat -> finite x -> INR n < Rabs (Binary.B2R x) < 8 -> is_J n (Binary.B2R x) v ->
  exists r, @Jn (ieee P) (Z.of_nat n) x = Ok r /\ finite r /\ Rabs (Binary.B2R r - v) <= 6 / 10 ^ 13.
Proof.
  intros P n x v Hn Fx Hx Hv. rewrite <- (val_fin x Fx) in *. assert (N2 : 2 <= INR n) by (apply (le_INR 2 n), Hn).
  assert (NZ : (Z.of_nat n < 8)%Z). { apply lt_IZR. rewrite <- INR_IZR_INZ. lra. }
  set (X := Rabs (val x)) in *. assert (Fa : fin (f64_abs x)) by (rewrite fin_abs; exact Fx). assert (Va : val (f64_abs x) = X) by apply val_abs.
  assert (BX : Rabs (val (f64_abs x)) < 8) by (rewrite Va; rewrite Rabs_pos_eq; lra).
  destruct (j0_fl P (f64_abs x) (BJ X 0) Fa BX ltac:(rewrite Va; apply BJ_is)) as [F0 E0]. destruct (j1_fl P (f64_abs x) (BJ X 1) Fa BX ltac:(rewrite Va; apply BJ_is)) as [F1 E1].
  rewrite Va, (Rabs_pos_eq X) in E1 by lra. destruct (J01_small X ltac:(lra)) as [S0 S1]. pose proof eta_small as ES.
  destruct (Jn_loop P n x v (283 / 100 * (112 / 100)) (283 / 100 * (81 / 10 ^ 15)) Hn ltac:(lia) Fx ltac:(fold X; lra) Hv) as (r & Er & Fr & Hr); fold X; try assumption; try lra.
  - eapply Rle_trans; [exact S0|]. apply over_sqrt; lra.
  - eapply Rle_trans; [exact S1|]. apply over_sqrt; lra.
  - eapply Rle_trans; [exact E0|]. apply Rle_trans with (81 / 10 ^ 15); [lra|]. apply over_sqrt; lra.
  - eapply Rle_trans; [exact E1|]. apply Rle_trans with (81 / 10 ^ 15); [lra|]. apply over_sqrt; lra.
  - exists r. split; [exact Er|]. split; [exact Fr|]. rewrite <- (val_fin r Fr). eapply Rle_trans; [exact Hr|]. fold X. apply under_sqrt; lra.
Qed.

Lemma Jn_above_8 : forall (P : platform) (n : nat) (x : f64) (v : R), accurate_cos (p_cos P) -> accurate_sin (p_sin P) -> (2 <= n)%nat -> (Z.of_nat n < 2 ^ 32)%Z -> finite x -> 8 <= Rabs (Binary.B2R x) <= 2 ^ 45 -> INR n < Rabs (Binary.B2R x) -> is_J n (Binary.B2R x) v ->
  exists r, @Jn (ieee P) (Z.of_nat n) x = Ok r /\ finite r /\ Rabs (Binary.B2R r - v) <= (21 / 10 ^ 14 + (3 / 2 * Rabs (Binary.B2R x) + 44 * INR n) / 2 ^ 53) / sqrt (Rabs (Binary.B2R x) - INR n + 1).
Proof.
  intros P n x v CO SI Hn HN Fx Hx HnX Hv. rewrite <- (val_fin x Fx) in *. assert (N2 : 2 <= INR n) by (apply (le_INR 2 n), Hn).
  set (X := Rabs (val x)) in *. assert (Fa : fin (f64_abs x)) by (rewrite fin_abs; exact Fx). assert (Va : val (f64_abs x) = X) by apply val_abs.
  assert (BX : 8 <= Rabs (val (f64_abs x)) <= bpow radix2 990). { rewrite Va, Rabs_pos_eq by lra. split; [lra|]. apply Rle_trans with (bpow radix2 45); [simpl; lra|apply bpow_le; lia]. }
  destruct (j0_large P CO SI (f64_abs x) (BJ X 0) Fa BX ltac:(rewrite Va, Rabs_pos_eq by lra; apply BJ_is)) as [F0 E0]. destruct (j1_large P CO SI (f64_abs x) (BJ X 1) Fa BX ltac:(rewrite Va; apply BJ_is)) as [F1 E1].
  rewrite Va, (Rabs_pos_eq X) in E0, E1 by lra.
  pose proof (small_of X _ _ ltac:(lra) (J0_asym X _ ltac:(lra) (BJ_is X 0)) (A0_small _ X ltac:(lra))) as S0. pose proof (small_of X _ _ ltac:(lra) (J1_asym X _ ltac:(lra) (BJ_is X 1)) (A1_small _ X ltac:(lra))) as S1.
  destruct (Jn_loop P n x v (86 / 100) (14 / 10 ^ 14 + X / 2 ^ 53) Hn ltac:(lia) Fx ltac:(fold X; lra) Hv) as (r & Er & Fr & Hr); fold X; try assumption; try lra.
  exists r. split; [exact Er|]. split; [exact Fr|]. rewrite <- (val_fin r Fr). eapply Rle_trans; [exact Hr|]. fold X. apply Rmult_le_compat_r; [left; apply Rinv_0_lt_compat, sqrt_lt_R0; lra|]. lra.
Qed.

(** ** Y *)

Fixpoint rec2 (x a b : R) (n : nat) : R := match n with O => a | S k => match k with O => b | S j => INR k * (2 * / x) * rec2 x a b k - rec2 x a b j end end.
Lemma rec2_Y : forall x a b, 0 < x -> is_Y 0 x a -> is_Y 1 x b -> forall n, is_Y n x (rec2 x a b n) /\ is_Y (S n) x (rec2 x a b (S n)).
Proof.
  intros x a b Hx Ha Hb. induction n as [|n [I1 I2]]; [split; assumption|]. split; [exact I2|].
  destruct (Y_exists (S (S n)) x ltac:(lra)) as [c Hc]. rewrite <- (Y_step n x _ _ c Hx I1 I2 Hc : c = rec2 x a b (S (S n))). exact Hc.
Qed.

Lemma Yn_loop : forall (P : platform) (n : nat) (x : f64) (v a b A m1 : R), (2 <= n)%nat -> (Z.of_nat n < 2 ^ 32)%Z -> fin x -> INR n < val x <= 2 ^ 45 -> is_Y n (val x) v -> is_Y 0 (val x) a -> is_Y 1 (val x) b -> let X := val x in
  1 / 2 <= A <= 4 -> 0 <= m1 <= A / 100 -> Rabs a <= A / sqrt X -> Rabs b <= A / sqrt X -> fin (@y0 (ieee P) x) -> fin (@y1 (ieee P) x) ->
  Rabs (val (@y0 (ieee P) x) - a) <= m1 / sqrt X -> Rabs (val (@y1 (ieee P) x) - b) <= m1 / sqrt X ->
  let r := @Yn (ieee P) (Z.of_nat n) x in fin r /\ Rabs (val r - v) <= (3 / 2 * m1 + 51 * A * INR n / 2 ^ 53) / sqrt (X - INR n + 1).
Proof.
  intros P n x v a b A m1 Hn HN Fx Hx Hv Ha Hb X HA Hm B0 B1 F0 F1 E0 E1 r. assert (N2 : 2 <= INR n) by (apply (le_INR 2 n), Hn).
  destruct (ug_acc P x (@y0 (ieee P) x) (@y1 (ieee P) x) (rec2 X a b) A m1 n) as [F E]; try assumption; try lra.
  { intros k. reflexivity. }
  replace (rec2 X a b n) with v in E by (apply (Y_unique n X); [exact Hv|apply rec2_Y; [unfold X; lra|exact Ha|exact Hb]]).
  assert (ER : r = ug P (f64_div P (f64_lit 2.0) x) (@y0 (ieee P) x) (@y1 (ieee P) x) n) by (unfold r; rewrite Yn_pos by lia; unfold ug; destruct n; [lia|reflexivity]).
  rewrite ER. split; [exact F|exact E].
Qed.

Lemma ln_8_small : forall x, 1 <= x < 8 -> 0 <= ln x <= 21 / 10.
Proof.
  intros x Hx. assert (L : 0 <= ln x). { rewrite <- ln_1. destruct (Rle_lt_or_eq_dec 1 x ltac:(lra)) as [Q|<-]; [left; apply ln_increasing; lra|lra]. }
  split; [exact L|]. apply Rle_trans with (ln 8); [left; apply ln_increasing; lra|]. pose proof JYanch.ln_8 as Q. apply Rabs_le_inv in Q. lra.
Qed.

Lemma Yn_below_8 : forall (P : platform) (n : nat) (x : f64) (v : R), accurate_ln (p_ln P) -> (2 <= n)%nat -> finite x -> INR n < Binary.B2R x < 8 -> is_Y n (Binary.B2R x) v ->
  let r := @Yn (ieee P) (Z.of_nat n) x in finite r /\ Rabs (Binary.B2R r - v) <= 24 / 10 ^ 13.
Proof.
  intros P n x v LN Hn Fx Hx Hv r. rewrite <- (val_fin x Fx) in *. assert (N2 : 2 <= INR n) by (apply (le_INR 2 n), Hn).
  assert (NZ : (Z.of_nat n < 8)%Z). { apply lt_IZR. rewrite <- INR_IZR_INZ. lra. }
  destruct (Y_exists 0 (val x) ltac:(lra)) as [a Ha]. destruct (Y_exists 1 (val x) ltac:(lra)) as [b Hb].
  destruct (y0_fl P LN x a Fx ltac:(lra) Ha) as [F0 E0]. destruct (y1_fl P LN x b Fx) as [F1 E1]; [split; [|lra]|exact Hb|].
  { apply Rle_trans with 1; [apply (bpow_le radix2 (-1022) 0); lia|lra]. }
  pose proof (ln_8_small (val x) ltac:(lra)) as L. rewrite (Rabs_pos_eq (ln (val x))) in E0, E1 by lra. destruct (Y01_small (val x) a b ltac:(lra) Ha Hb) as [S0 S1].
  assert (XL : val x * (1 + ln (val x)) <= 8 * (31 / 10)) by (apply Rmult_le_compat; lra).
  assert (XI : 1 / 10 ^ 15 / val x <= 1 / 10 ^ 15). { apply Rmult_le_reg_r with (val x); [lra|]. replace (1 / 10 ^ 15 / val x * val x) with (1 / 10 ^ 15) by (field; lra). lra. }
  destruct (Yn_loop P n x v a b (283 / 100 * (101 / 100)) (283 / 100 * (498 / 10 ^ 15)) Hn ltac:(lia) Fx ltac:(lra) Hv Ha Hb) as (Fr & Hr); try assumption; try lra.
  - eapply Rle_trans; [exact S0|]. apply over_sqrt; lra.
  - eapply Rle_trans; [exact S1|]. apply over_sqrt; lra.
  - eapply Rle_trans; [exact E0|]. apply Rle_trans with (498 / 10 ^ 15); [lra|]. apply over_sqrt; lra.
  - eapply Rle_trans; [exact E1|]. apply Rle_trans with (498 / 10 ^ 15); [lra|]. apply over_sqrt; lra.
  - fold r in Fr, Hr. split; [exact Fr|]. rewrite <- (val_fin r Fr). eapply Rle_trans; [exact Hr|]. apply under_sqrt; lra.
Qed.

Lemma Yn_above_8 : forall (P : platform) (n : nat) (x : f64) (v : R), accurate_cos (p_cos P) -> accurate_sin (p_sin P) -> (2 <= n)%nat -> (Z.of_nat n < 2 ^ 32)%Z -> finite x -> 8 <= Binary.B2R x <= 2 ^ 45 -> INR n < Binary.B2R x -> is_Y n (Binary.B2R x) v ->
  let r := @Yn (ieee P) (Z.of_nat n) x in finite r /\ Rabs (Binary.B2R r - v) <= (21 / 10 ^ 14 + (3 / 2 * Binary.B2R x + 44 * INR n) / 2 ^ 53) / sqrt (Binary.B2R x - INR n + 1).
Proof.
  intros P n x v CO SI Hn HN Fx Hx HnX Hv r. rewrite <- (val_fin x Fx) in *. assert (N2 : 2 <= INR n) by (apply (le_INR 2 n), Hn). set (X := val x) in *.
  destruct (Y_exists 0 X ltac:(lra)) as [a Ha]. destruct (Y_exists 1 X ltac:(lra)) as [b Hb]. destruct euler_exists as [g Hg].
  assert (BX : 8 <= val x <= bpow radix2 990). { fold X. split; [lra|]. apply Rle_trans with (bpow radix2 45); [simpl; lra|apply bpow_le; lia]. }
  destruct (y0_large P CO SI x a Fx BX Ha) as [F0 E0]. destruct (y1_large P CO SI x b Fx BX Hb) as [F1 E1]. fold X in E0, E1.
  pose proof (small_of X _ _ ltac:(lra) (Y0_asym g Hg X _ ltac:(lra) Ha) (A0_small _ X ltac:(lra))) as S0. pose proof (small_of X _ _ ltac:(lra) (Y1_asym g Hg X _ ltac:(lra) Hb) (A1_small _ X ltac:(lra))) as S1.
  destruct (Yn_loop P n x v a b (86 / 100) (14 / 10 ^ 14 + X / 2 ^ 53) Hn ltac:(lia) Fx ltac:(fold X; lra) Hv Ha Hb) as (Fr & Hr); fold X; try assumption; try lra.
  fold r in Fr, Hr. split; [exact Fr|]. rewrite <- (val_fin r Fr). eapply Rle_trans; [exact Hr|]. fold X. apply Rmult_le_compat_r; [left; apply Rinv_0_lt_compat, sqrt_lt_R0; lra|]. lra.
Qed.

Lemma ex_up : accurate_cos (p_cos (ideal true false)) /\ accurate_sin (p_sin (ideal true false)) /\ (finite (f64_lit 100.0) /\ Binary.B2R (f64_lit 100.0) = 100) /\ 8 <= 100 <= 2 ^ 45 /\ INR 99 < 100 /\ exists vj vy, is_J 99 100 vj /\ is_Y 99 100 vy.
Proof.
  destruct ex_JY_large as (A & B & C & _). split; [exact A|]. split; [exact B|]. split; [exact C|]. split; [lra|]. split; [rewrite INR_IZR_INZ; apply IZR_lt; reflexivity|].
  destruct (Y_exists 99 100 ltac:(lra)) as [y Hy]. exists (BJ 100 99), y. split; [apply BJ_is|exact Hy].
Qed.
