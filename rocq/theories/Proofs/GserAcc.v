(** * Accuracy of the series for the incomplete gamma function *)

From Coq Require Import ZArith Reals Bool Lra Lia List.
From Flocq Require Import Core IEEE754.BinarySingleNaN IEEE754.Binary IEEE754.Bits.
From Verif.Model Require Import Base Arith Utils Gamma.
From Verif.Float Require Import Bits64 Ieee Exact Platforms.
From Verif.Spec Require Import F64Spec Outcome GammaSpec LibmSpec IncGammaSpec.
From Verif.Proofs Require Import F64 F64Ops Lits Ext ExpBounds Stirling FlErr GammaAcc LnGammaAcc LnGammaFl LnGammaThms IncGamma IncGammaTotal.
Import ListNotations.
Open Scope R_scope.
Local Notation exp := Rtrigo_def.exp.
Local Notation ln := Rpower.ln.

(** ** Real facts *)

Lemma mr_of_bounds : forall t a b, 0 < b -> b * exp (- t) <= a <= b * exp t -> mr t a b.
Proof.
  intros t a b Hb [H1 H2]. assert (A0 : 0 < a) by (pose proof (Rmult_lt_0_compat _ _ Hb (exp_pos (- t))); lra).
  assert (E : a = b * exp (ln (a / b))) by (rewrite exp_ln by (apply Rmult_lt_0_compat; [exact A0|apply Rinv_0_lt_compat, Hb]); field; lra).
  exists (ln (a / b)). split; [|exact E]. apply Rabs_le. rewrite E in H1, H2.
  split; apply Rnot_lt_le; intros N; apply exp_increasing in N; apply (Rmult_lt_compat_l b) in N; lra.
Qed.
Lemma mr_bounds : forall t a b, 0 < b -> mr t a b -> b * exp (- t) <= a <= b * exp t.
Proof.
  intros t a b Hb (d & Hd & ->). apply Rabs_le_inv in Hd. split; apply Rmult_le_compat_l; try lra; apply exp_mono; lra.
Qed.
Lemma mr_add : forall t a b a' b', 0 < b -> 0 < b' -> mr t a b -> mr t a' b' -> mr t (a + a') (b + b').
Proof.
  intros t a b a' b' Hb Hb' M M'. apply mr_bounds in M; [|exact Hb]. apply mr_bounds in M'; [|exact Hb']. apply mr_of_bounds; lra.
Qed.
Lemma mr_near : forall t a b, mr t a b -> 0 <= t <= 1 / 1000 -> 0 < b -> b * (1 - 2 * t) <= a <= b * (1 + 2 * t).
Proof.
  intros t a b M Ht Hb. apply mr_abs in M; [|lra]. rewrite (Rabs_pos_eq b) in M by lra. apply Rabs_le_inv in M.
  assert (2 * (t * t) <= t) by nra. assert ((t + 2 * (t * t)) * b <= 2 * t * b) by (apply Rmult_le_compat_r; lra). lra.
Qed.

Section RealSeries.
  Variables (a x : R).
  Hypothesis Ha : 0 < a.
  Hypothesis Hx : 0 < x.

  Lemma part_ge : forall n, term a 0 x <= part a n x.
  Proof. induction n as [|n IH]; cbn [part]; [lra|]. pose proof (term_pos a Ha (S n) x Hx). lra. Qed.
  Lemma part_up : forall n, x <= a + 1 -> part a n x <= INR (S n) * term a 0 x.
  Proof.
    intros n H. assert (T : forall n, term a n x <= term a 0 x).
    { induction n0 as [|m IH]; [lra|]. rewrite (term_S a Ha). pose proof (term_pos a Ha m x Hx). pose proof (pos_INR m).
      assert (x / (a + INR (S m)) <= 1).
      { apply Rmult_le_reg_r with (a + INR (S m)); [rewrite S_INR; lra|]. replace (x / (a + INR (S m)) * (a + INR (S m))) with x by (field; rewrite S_INR; lra). rewrite S_INR; lra. }
      apply Rle_trans with (term a m x * 1); [apply Rmult_le_compat_l; lra|lra]. }
    induction n as [|n IH]; [simpl; lra|]. cbn [part]. rewrite (S_INR (S n)). pose proof (T (S n)). lra.
  Qed.
End RealSeries.

Fixpoint den100 (n : nat) : Z := match n with O => 1%Z | S k => (den100 k * (100 + Z.of_nat n))%Z end.
Lemma den100_pos : forall n, (0 < den100 n)%Z.
Proof. induction n; cbn [den100]; lia. Qed.

(** 110 terms are enough when a <= 100 and x <= a + 1 *)
Lemma terms_110 : forall a x, 0 < a <= 100 -> 0 < x <= a + 1 -> term a 110 x <= / 2 ^ 60 * term a 0 x.
Proof.
  intros a x Ha Hx.
  assert (H : forall n, IZR (den100 n) * term a n x <= 101 ^ n * term a 0 x).
  { induction n as [|n IH]; [simpl; lra|]. rewrite term_S by lra. cbn [den100]. rewrite mult_IZR, plus_IZR, <- INR_IZR_INZ.
    pose proof (pos_INR n) as Pn. pose proof (term_pos a ltac:(lra) n x ltac:(lra)) as TP. pose proof (IZR_lt _ _ (den100_pos n)) as DP.
    replace (IZR (den100 n) * (100 + INR (S n)) * (term a n x * (x / (a + INR (S n))))) with (IZR (den100 n) * term a n x * ((100 + INR (S n)) * (x / (a + INR (S n))))) by ring.
    replace (101 ^ S n * term a 0 x) with (101 ^ n * term a 0 x * 101) by (simpl; ring).
    assert (Q : 0 <= (100 + INR (S n)) * (x / (a + INR (S n))) <= 101).
    { rewrite S_INR. split; [apply Rmult_le_pos; [lra|apply Rmult_le_pos; [lra|left; apply Rinv_0_lt_compat; lra]]|].
      apply Rmult_le_reg_r with (a + (INR n + 1)); [lra|]. replace ((100 + (INR n + 1)) * (x / (a + (INR n + 1))) * (a + (INR n + 1))) with ((101 + INR n) * x) by (field; lra).
      apply Rle_trans with ((101 + INR n) * (a + 1)); [apply Rmult_le_compat_l; lra|]. assert (0 <= INR n * (100 - a)) by (apply Rmult_le_pos; lra). lra. }
    apply Rmult_le_compat; [apply Rmult_le_pos; lra|lra|exact IH|lra]. }
  specialize (H 110%nat). pose proof (term_pos a ltac:(lra) 0 x ltac:(lra)) as T0.
  assert (C : 101 ^ 110 * 2 ^ 60 <= IZR (den100 110)).
  { rewrite !pow_IZR, <- mult_IZR. apply IZR_le. vm_compute. discriminate. }
  pose proof (IZR_lt _ _ (den100_pos 110)) as DP. revert H C DP. generalize (IZR (den100 110)) (101 ^ 110). intros D Q H C DP.
  apply Rmult_le_reg_l with D; [exact DP|]. eapply Rle_trans; [exact H|]. replace (D * (/ 2 ^ 60 * term a 0 x)) with (D * / 2 ^ 60 * term a 0 x) by ring.
  apply Rmult_le_compat_r; [lra|]. apply Rmult_le_reg_r with (2 ^ 60); [apply pow_lt; lra|]. rewrite Rmult_assoc, Rinv_l by (apply pow_nonzero; lra). lra.
Qed.

(** 35 terms are enough when x <= a / 5 *)
Lemma terms_35 : forall a x, 0 < a -> 0 < x <= a / 5 -> term a 35 x <= / 2 ^ 60 * term a 0 x.
Proof.
  intros a x Ha Hx.
  assert (H : forall n, term a n x <= (1 / 5) ^ n * term a 0 x).
  { induction n as [|n IH]; [simpl; lra|]. rewrite (term_S a Ha). pose proof (pos_INR n). pose proof (term_pos a Ha n x ltac:(lra)).
    replace ((1 / 5) ^ S n * term a 0 x) with ((1 / 5) ^ n * term a 0 x * (1 / 5)) by (simpl; ring). rewrite S_INR.
    apply Rmult_le_compat; [lra|apply Rmult_le_pos; [lra|left; apply Rinv_0_lt_compat; lra]|exact IH|].
    apply Rmult_le_reg_r with (a + (INR n + 1)); [lra|]. replace (x / (a + (INR n + 1)) * (a + (INR n + 1))) with x by (field; lra). lra. }
  eapply Rle_trans; [apply (H 35%nat)|]. pose proof (term_pos a Ha 0 x ltac:(lra)). apply Rmult_le_compat_r; [lra|]. simpl. lra.
Qed.

(** ** The loop *)

Lemma eps_facts : fin (@epsilon (ieee (ideal true false))) /\ val (@epsilon (ieee (ideal true false))) = / 2 ^ 52.
Proof. split; [reflexivity|]. rewrite val_fin by reflexivity. cbn. unfold F2R; cbn. lra. Qed.

Section Loop.
  Context (P : platform).
  Local Notation add := (f64_add P).
  Local Notation mul := (f64_mul P).
  Local Notation div := (f64_div P).

  Lemma add_mr : forall x y, fin x -> fin y -> bpow radix2 (-1022) <= Rabs (val x + val y) <= bpow radix2 1023 ->
    fin (add x y) /\ mr vv (val (add x y)) (val x + val y).
  Proof. intros x y Fx Fy H. apply rnd_mr; [|exact H]. rewrite (val_fin x Fx), (val_fin y Fy). apply add_spec; assumption. Qed.
  Lemma div_mr : forall x y, fin x -> fin y -> val y <> 0 -> bpow radix2 (-1022) <= Rabs (val x / val y) <= bpow radix2 1023 ->
    fin (div x y) /\ mr vv (val (div x y)) (val x / val y).
  Proof. intros x y Fx Fy Hy H. apply rnd_mr; [|exact H]. rewrite (val_fin x Fx), (val_fin y Fy) in *. apply div_spec; assumption. Qed.

  Variables (a x : f64).
  Hypothesis Fa : fin a.
  Hypothesis Fx : fin x.
  Hypothesis Ha : / 2 ^ 16 <= val a <= 1000.
  Hypothesis Hx : / 2 ^ 68 <= val x <= val a + 1.
  Local Notation T := (fun n => term (val a) n (val x)).
  Local Notation S_ := (fun n => part (val a) n (val x)).
  Variable N : nat.
  Hypothesis HN : (N <= 110)%nat.
  Hypothesis TN : term (val a) N (val x) <= / 2 ^ 60 * term (val a) 0 (val x).

  Let Ha0 : 0 < val a. Proof. lra. Qed.
  Let Hx0 : 0 < val x. Proof. lra. Qed.

  Definition Inv (n : nat) (st : f64 * f64 * f64) : Prop :=
    let '(ap, del, sum) := st in
    fin ap /\ fin del /\ fin sum /\ mr (INR n * vv) (val ap) (val a + INR n) /\
    mr (INR (n + 1) ^ 2 * vv) (val del) (T n) /\ mr ((INR (n + 1) ^ 2 + INR n) * vv) (val sum) (S_ n) /\
    / 2 ^ 53 * T 0%nat <= T n.

  Lemma t0_range : 1 / 1000 <= T 0%nat <= 2 ^ 16.
  Proof.
    unfold term. change (1 / 1000 <= 1 / val a <= 2 ^ 16). replace (1 / val a) with (/ val a) by (field; lra). split.
    - replace (1 / 1000) with (/ 1000) by lra. apply Rinv_le_contravar; lra.
    - replace (2 ^ 16) with (/ / 2 ^ 16) by (field; lra). apply Rinv_le_contravar; lra.
  Qed.

  Lemma in_range : forall y, / 2 ^ 200 <= y <= 2 ^ 200 -> bpow radix2 (-1022) <= Rabs y <= bpow radix2 1023.
  Proof.
    intros y Hy. rewrite Rabs_pos_eq by (pose proof (Rinv_0_lt_compat (2 ^ 200) ltac:(apply pow_lt; lra)); lra).
    assert (E : bpow radix2 200 = 2 ^ 200) by (rewrite bpow2_nonneg_IZR, pow_IZR by lia; reflexivity). split.
    - apply Rle_trans with (bpow radix2 (-200)); [apply bpow_le; lia|]. change (-200)%Z with (Z.opp 200). rewrite bpow_opp, E. lra.
    - apply Rle_trans with (bpow radix2 200); [lra|apply bpow_le; lia].
  Qed.

  Lemma inv_init : Inv 0 (a, div (f64_lit 1.0) a, div (f64_lit 1.0) a).
  Proof.
    pose proof fin_1 as F1. pose proof val_1 as V1. pose proof t0_range as R0.
    assert (E0 : T 0%nat = val (f64_lit 1.0) / val a) by (rewrite V1; reflexivity).
    destruct (div_mr (f64_lit 1.0) a F1 Fa ltac:(lra)) as [Fd Md].
    { apply in_range. rewrite <- E0. simpl in *. lra. }
    unfold Inv. repeat split; try assumption.
    - apply mr_weak with 0; [simpl; lra|]. simpl INR. rewrite Rplus_0_r. apply mr_refl. lra.
    - rewrite E0. apply mr_weak with vv; [simpl; lra|exact Md].
    - change (mr ((INR (0 + 1) ^ 2 + INR 0) * vv) (val (div (f64_lit 1.0) a)) (term (val a) 0 (val x))). rewrite E0. apply mr_weak with vv; [simpl; lra|exact Md].
    - simpl in R0 |- *. lra.
  Qed.

  Lemma nn : forall n, (n < 110)%nat -> 0 <= INR n <= 109 /\ INR (S n) = INR n + 1 /\ INR (n + 1) = INR n + 1 /\ INR (S n + 1) = INR n + 2.
  Proof.
    intros n H. assert (INR n <= INR 109) by (apply le_INR; lia). replace (INR 109) with 109 in * by (rewrite INR_IZR_INZ; reflexivity).
    rewrite !plus_INR, S_INR. simpl INR. pose proof (pos_INR n). lra.
  Qed.

  Lemma small_t : forall n, (n <= 110)%nat -> 0 <= INR (n + 1) ^ 2 * vv <= 2 / 10 ^ 12 /\ 0 <= (INR (n + 1) ^ 2 + INR n) * vv <= 2 / 10 ^ 12.
  Proof.
    intros n H. assert (INR n <= INR 110) by (apply le_INR; lia). replace (INR 110) with 110 in * by (rewrite INR_IZR_INZ; reflexivity).
    rewrite plus_INR. simpl (INR 1). pose proof (pos_INR n). assert (0 <= (INR n + 1) ^ 2 <= 111 ^ 2) by (split; [apply pow2_ge_0|apply pow_incr; lra]). unfold vv. simpl in *. lra.
  Qed.

  Lemma term_up : forall n, T n <= T 0%nat.
  Proof.
    induction n as [|n IH]; [lra|]. pose proof (term_S (val a) Ha0 n (val x)) as E. cbv beta in IH |- *. rewrite E. pose proof (term_pos (val a) Ha0 n (val x) Hx0). pose proof (pos_INR n).
    assert (val x / (val a + INR (S n)) <= 1).
    { apply Rmult_le_reg_r with (val a + INR (S n)); [rewrite S_INR; lra|]. replace (val x / (val a + INR (S n)) * (val a + INR (S n))) with (val x) by (field; rewrite S_INR; lra). rewrite S_INR; lra. }
    apply Rle_trans with (term (val a) n (val x) * 1); [apply Rmult_le_compat_l; lra|lra].
  Qed.

  Local Notation body := (@gser_body (ieee P) x).

  Lemma inv_step : forall n i st, (n < 110)%nat -> Inv n st ->
    exists st' b, body i st = (st', b) /\
    (let '(ap, del, sum) := st' in
      fin ap /\ fin del /\ fin sum /\ mr (INR (S n) * vv) (val ap) (val a + INR (S n)) /\
      mr (INR (S n + 1) ^ 2 * vv) (val del) (T (S n)) /\ mr ((INR (S n + 1) ^ 2 + INR (S n)) * vv) (val sum) (S_ (S n))) /\
    (if b then T (S n) <= / 2 ^ 51 * S_ (S n) else Inv (S n) st').
  Proof.
    intros n i [[ap del] sum] Hn (F1 & F2 & F3 & M1 & M2 & M3 & L). destruct (nn n Hn) as (In & Sn & N1 & N2).
    pose proof t0_range as R0. destruct (small_t n ltac:(lia)) as [Sm1 Sm2]. destruct (small_t (S n) ltac:(lia)) as [Sm3 Sm4].
    pose proof (term_pos (val a) Ha0 n (val x) Hx0) as TP. pose proof (term_pos (val a) Ha0 (S n) (val x) Hx0) as TP1. pose proof (part_pos (val a) Ha0 n (val x) Hx0) as SP.
    pose proof (term_S (val a) Ha0 n (val x)) as TE. pose proof (term_up n) as TU. pose proof (term_up (S n)) as TU1. cbv beta in L, R0, TU, TU1, M2, M3.
    assert (V1 := val_1). assert (NV : 0 <= INR n * vv <= 1 / 1000) by (unfold vv; lra).
    assert (VV : 0 < vv <= 1 / 10 ^ 15) by (unfold vv; lra).
    assert (NW : INR n * vv <= 109 * vv) by (apply Rmult_le_compat_r; lra).
    (* ap *)
    pose proof (mr_near _ _ _ M1 NV ltac:(lra)) as A1.
    assert (A2 : 0 <= (val a + INR n) * (2 * (INR n * vv)) <= 1) by (split; [apply Rmult_le_pos; lra|]; apply Rle_trans with ((1000 + 109) * (2 * (109 * vv))); [apply Rmult_le_compat; try lra|unfold vv; lra]).
    assert (A3 : 0 <= (val a + INR n) * (1 - 2 * (INR n * vv))) by (apply Rmult_le_pos; unfold vv; lra).
    destruct (add_mr ap (f64_lit 1.0) F1 fin_1) as [Fap Map].
    { apply in_range. rewrite V1. split; [simpl; lra|]. simpl. lra. }
    set (ap' := add ap (f64_lit 1.0)) in *. rewrite V1 in Map.
    assert (M1' : mr (INR (S n) * vv) (val ap') (val a + INR (S n))).
    { apply mr_weak with (vv + INR n * vv); [rewrite Sn; lra|]. eapply mr_trans; [exact Map|]. rewrite Sn.
      replace (val a + (INR n + 1)) with ((val a + INR n) + 1) by ring. apply mr_add; [lra|lra|exact M1|apply mr_refl; lra]. }
    assert (NV' : 0 <= INR (S n) * vv <= 1 / 1000) by (unfold vv; lra).
    pose proof (mr_near _ _ _ M1' NV' ltac:(rewrite Sn; lra)) as A1'.
    assert (B2 : 1 <= val ap' <= 2000).
    { rewrite Sn in A1'. assert (0 <= (val a + (INR n + 1)) * (2 * ((INR n + 1) * vv)) <= / 2 ^ 17).
      { split; [apply Rmult_le_pos; [lra|apply Rmult_le_pos; [lra|apply Rmult_le_pos; lra]]|]. apply Rle_trans with ((1000 + 110) * (2 * (110 * vv))); [|unfold vv; lra].
        apply Rmult_le_compat; lra. }
      lra. }
    (* x / ap *)
    destruct (div_mr x ap' Fx Fap ltac:(lra)) as [Fq Mq].
    { apply in_range. split.
      - apply Rle_trans with (/ 2 ^ 68 * / 2000); [simpl; lra|]. apply Rmult_le_compat; try lra. apply Rinv_le_contravar; lra.
      - apply Rle_trans with (1001 * / 1); [|simpl; lra]. apply Rmult_le_compat; try lra. left; apply Rinv_0_lt_compat; lra. apply Rinv_le_contravar; lra. }
    set (q := div x ap') in *.
    assert (Mq' : mr (vv + INR (S n) * vv) (val q) (val x / (val a + INR (S n)))).
    { eapply mr_trans; [exact Mq|]. apply mr_weak with (0 + INR (S n) * vv); [lra|]. apply mr_mul; [apply mr_refl; lra|]. apply mr_inv; [rewrite Sn; lra|exact M1']. }
    (* del *)
    assert (Mp : mr (INR (n + 1) ^ 2 * vv + (vv + INR (S n) * vv)) (val del * val q) (T (S n))).
    { cbv beta. rewrite TE. apply mr_mul; assumption. }
    assert (TL : / 2 ^ 145 <= term (val a) (S n) (val x)).
    { rewrite TE, Sn. apply Rle_trans with ((/ 2 ^ 53 * (1 / 1000)) * (/ 2 ^ 68 * / 1110)); [simpl; lra|].
      apply Rmult_le_compat; [apply Rmult_le_pos; simpl; lra|apply Rmult_le_pos; simpl; lra|eapply Rle_trans; [|exact L]; apply Rmult_le_compat_l; [simpl; lra|apply R0]|].
      apply Rmult_le_compat; [simpl; lra|lra|lra|]. apply Rinv_le_contravar; lra. }
    assert (Sm5 : 0 <= INR (n + 1) ^ 2 * vv + (vv + INR (S n) * vv) <= 1 / 1000) by (rewrite Sn; unfold vv in *; simpl in *; lra).
    pose proof (mr_near _ _ _ Mp Sm5 TP1) as Np.
    assert (Rp : / 2 ^ 146 <= val del * val q <= 2 ^ 17).
    { assert (term (val a) (S n) (val x) * (1 / 2) <= val del * val q) by (eapply Rle_trans; [|apply Np]; apply Rmult_le_compat_l; lra).
      assert (val del * val q <= term (val a) (S n) (val x) * 2) by (eapply Rle_trans; [apply Np|]; apply Rmult_le_compat_l; lra). simpl in *. lra. }
    destruct (mul_mr P del q F2 Fq) as [Fd Md]; [apply in_range; simpl in *; lra|]. set (del' := mul del q) in *.
    assert (M2' : mr (INR (S n + 1) ^ 2 * vv) (val del') (T (S n))).
    { apply mr_weak with (vv + (INR (n + 1) ^ 2 * vv + (vv + INR (S n) * vv))); [|eapply mr_trans; [exact Md|exact Mp]].
      rewrite N1, N2, Sn. replace ((INR n + 2) ^ 2 * vv) with (vv + ((INR n + 1) ^ 2 * vv + (vv + (INR n + 1) * vv)) + INR n * vv) by ring. lra. }
    (* sum *)
    pose proof (mr_near _ _ _ M2 ltac:(split; [apply Sm1|lra]) TP) as ND. pose proof (mr_near _ _ _ M3 ltac:(split; [apply Sm2|lra]) SP) as NS.
    pose proof (mr_near _ _ _ M2' ltac:(split; [apply Sm3|lra]) TP1) as ND'. cbv beta in ND'.
    pose proof (part_ge (val a) (val x) Ha0 Hx0 n) as PG. pose proof (part_up (val a) (val x) Ha0 Hx0 n ltac:(lra)) as PU.
    assert (PU' : part (val a) n (val x) <= 2 ^ 24).
    { eapply Rle_trans; [exact PU|]. rewrite Sn. apply Rle_trans with (110 * 2 ^ 16); [apply Rmult_le_compat; lra|simpl; lra]. }
    assert (SR : 1 / 2000 <= val sum <= 2 ^ 25).
    { assert (part (val a) n (val x) * (1 / 2) <= val sum) by (eapply Rle_trans; [|apply NS]; apply Rmult_le_compat_l; lra).
      assert (val sum <= part (val a) n (val x) * 2) by (eapply Rle_trans; [apply NS|]; apply Rmult_le_compat_l; lra). simpl in *; lra. }
    assert (DR : 0 < val del' <= 2 ^ 17).
    { assert (term (val a) (S n) (val x) * (1 / 2) <= val del') by (eapply Rle_trans; [|apply ND']; apply Rmult_le_compat_l; lra).
      assert (val del' <= term (val a) (S n) (val x) * 2) by (eapply Rle_trans; [apply ND'|]; apply Rmult_le_compat_l; lra). simpl in *; lra. }
    destruct (add_mr sum del' F3 Fd) as [Fs Ms]; [apply in_range; simpl in *; lra|]. set (sum' := add sum del') in *.
    assert (M3' : mr ((INR (S n + 1) ^ 2 + INR (S n)) * vv) (val sum') (S_ (S n))).
    { apply mr_weak with (vv + (INR (S n + 1) ^ 2 * vv + INR n * vv)); [rewrite Sn; lra|]. eapply mr_trans; [exact Ms|]. cbn [part].
      apply mr_add; [exact SP|exact TP1| |].
      - eapply mr_weak; [|exact M3]. rewrite N1, N2. assert (0 <= INR n * vv) by lra. ring_simplify. lra.
      - eapply mr_weak; [|exact M2']. lra. }
    (* the test *)
    pose proof (part_pos (val a) Ha0 (S n) (val x) Hx0) as SP1. pose proof (part_ge (val a) (val x) Ha0 Hx0 (S n)) as PG1.
    pose proof (mr_near _ _ _ M3' ltac:(split; [apply Sm4|lra]) SP1) as NS'. cbv beta in NS'.
    assert (SR' : 1 / 2000 <= val sum' <= 2 ^ 26).
    { assert (E : part (val a) (S n) (val x) = part (val a) n (val x) + term (val a) (S n) (val x)) by reflexivity.
      assert (part (val a) (S n) (val x) * (1 / 2) <= val sum') by (eapply Rle_trans; [|apply NS']; apply Rmult_le_compat_l; lra).
      assert (val sum' <= part (val a) (S n) (val x) * 2) by (eapply Rle_trans; [apply NS'|]; apply Rmult_le_compat_l; lra). simpl in *; lra. }
    destruct eps_facts as [FE VE]. set (ep := @epsilon (ieee (ideal true false))) in *.
    assert (AD : fin (f64_abs del') /\ val (f64_abs del') = val del').
    { assert (FA : fin (f64_abs del')) by (rewrite fin_abs; exact Fd). split; [exact FA|]. rewrite (val_fin _ FA), B2R_abs, <- (val_fin _ Fd). apply Rabs_pos_eq. lra. }
    assert (AS : fin (f64_abs sum') /\ val (f64_abs sum') = val sum').
    { assert (FA : fin (f64_abs sum')) by (rewrite fin_abs; exact Fs). split; [exact FA|]. rewrite (val_fin _ FA), B2R_abs, <- (val_fin _ Fs). apply Rabs_pos_eq. lra. }
    destruct (mul_mr P (f64_abs sum') ep (proj1 AS) FE) as [Fm Mm].
    { apply in_range. rewrite (proj2 AS), VE. simpl in *. lra. }
    rewrite (proj2 AS), VE in Mm. pose proof (mr_near _ _ _ Mm ltac:(split; lra) ltac:(simpl in *; lra)) as NM. set (m := mul (f64_abs sum') ep) in *.
    exists (ap', del', sum'), (f64_lt (f64_abs del') m). split; [reflexivity|]. split; [tauto|].
    assert (K1 : val sum' * (/ 2 ^ 52 * (1 - 1 / 10 ^ 10)) <= val m) by (eapply Rle_trans; [|apply NM]; rewrite Rmult_assoc; apply Rmult_le_compat_l; [lra|apply Rmult_le_compat_l; simpl; lra]).
    assert (K2 : val m <= val sum' * (/ 2 ^ 52 * (1 + 1 / 10 ^ 10))) by (eapply Rle_trans; [apply NM|]; rewrite Rmult_assoc; apply Rmult_le_compat_l; [lra|apply Rmult_le_compat_l; simpl; lra]).
    assert (K3 : part (val a) (S n) (val x) * (1 - 1 / 10 ^ 10) <= val sum' <= part (val a) (S n) (val x) * (1 + 1 / 10 ^ 10)).
    { split; [eapply Rle_trans; [|apply NS']|eapply Rle_trans; [apply NS'|]]; apply Rmult_le_compat_l; simpl in *; lra. }
    assert (K4 : term (val a) (S n) (val x) * (1 - 1 / 10 ^ 10) <= val del' <= term (val a) (S n) (val x) * (1 + 1 / 10 ^ 10)).
    { split; [eapply Rle_trans; [|apply ND']|eapply Rle_trans; [apply ND'|]]; apply Rmult_le_compat_l; simpl in *; lra. }
    destruct (f64_lt (f64_abs del') m) eqn:E.
    - apply lt_true in E. destruct E as (_ & _ & E). rewrite (proj2 AD) in E. simpl in *. lra.
    - apply lt_false in E; [|apply fin_nonnan, AD|apply fin_nonnan, Fm]. rewrite (proj2 AD) in E. unfold Inv. repeat split; try assumption. simpl in *. lra.
  Qed.

  Lemma gser_loop : forall k n l st, (n + k = N)%nat -> (k <= length l)%nat -> Inv n st ->
    exists m ap del sum, for_break l body st = ((ap, del, sum), true) /\ (1 <= m <= N)%nat /\ fin sum /\
      mr (2 / 10 ^ 12) (val sum) (S_ m) /\ T m <= / 2 ^ 51 * S_ m.
  Proof.
    induction k as [|k IH]; intros n l st Hk Hl HI.
    - exfalso. destruct st as [[ap del] sum]. destruct HI as (_ & _ & _ & _ & _ & _ & L). replace n with N in L by lia. cbv beta in L. pose proof t0_range as R0. cbv beta in R0.
      simpl in *. lra.
    - destruct l as [|i l]; [simpl in Hl; lia|]. cbn [for_break]. destruct (inv_step n i st ltac:(lia) HI) as ([[ap' del'] sum'] & b & -> & (F1 & F2 & F3 & M1 & M2 & M3) & Hb).
      destruct b.
      + exists (S n), ap', del', sum'. split; [reflexivity|]. split; [lia|]. split; [exact F3|]. split; [|exact Hb]. eapply mr_weak; [|exact M3]. apply small_t. lia.
      + apply (IH (S n) l _); [lia|simpl in Hl; lia|exact Hb].
  Qed.
End Loop.
