(** * The upward recurrence of Jn and Yn below the argument *)

From Coq Require Import ZArith Reals Bool Lra Lia List.
From Flocq Require Import Core IEEE754.BinarySingleNaN IEEE754.Binary IEEE754.Bits.
From Verif.Model Require Import Base Arith BesselTables Bessel.
From Verif.Float Require Import Bits64 Ieee Exact Platforms.
From Verif.Spec Require Import F64Spec Outcome BesselSpec Bessel2Spec TrigSpec.
From Verif.Proofs Require Import F64 F64Ops Lits Ext FlErr GammaAcc PolyZ BesselReal BesselLim BesselRat BesselAcc EulerGamma PiBounds SecondSeries SecondRat YAcc KnAcc YnAcc JYrat JYasym JYLarge UtilsSpec BesselRec.
Import ListNotations.
Open Scope R_scope.
Local Notation cos := Rtrigo_def.cos.
Local Notation sin := Rtrigo_def.sin.
Local Notation sqrt := R_sqrt.sqrt.
Local Notation PI := Rtrigo1.PI.

(** ** A quadratic form the exact step does not increase

    For f(k+1) = c f(k) - f(k-1) with 0 <= c <= 2 growing with k, the quotient
    (a^2 - c a b + b^2) / (2 + c), a = f(k), b = f(k-1), never increases. *)

Definition qf (c a b : R) : R := a * a - c * (a * b) + b * b.
Definition bnd (c M a b : R) : Prop := 0 <= M /\ qf c a b <= (2 + c) * (M * M).

Lemma qf_step : forall c a b, qf c (c * a - b) a = qf c a b.
Proof. intros. unfold qf. ring. Qed.

Lemma sq_abs : forall x y, 0 <= y -> x * x <= y * y -> Rabs x <= y.
Proof. intros x y Hy H. apply Rsqr_le_abs_0 in H. rewrite (Rabs_pos_eq y) in H by exact Hy. exact H. Qed.

Lemma qf_grow : forall c d a b M, 0 <= c -> 0 <= d -> qf c a b <= (2 + c) * (M * M) -> qf (c + d) a b <= (2 + (c + d)) * (M * M).
Proof.
  intros c d a b M Hc Hd H. unfold qf in *. assert (MM : 0 <= M * M) by apply Rle_0_sqr.
  destruct (Rle_or_lt 0 (a * b)) as [N|N].
  - assert (0 <= d * (a * b)) by (apply Rmult_le_pos; assumption). assert (0 <= d * (M * M)) by (apply Rmult_le_pos; assumption). lra.
  - (* 2 + c times minus the product is at most the form *)
    assert (S : 0 <= (a + b) * (a + b)) by apply Rle_0_sqr.
    assert (L : (2 + c) * - (a * b) <= (2 + c) * (M * M)) by lra.
    apply Rmult_le_reg_l in L; [|lra]. assert (d * - (a * b) <= d * (M * M)) by (apply Rmult_le_compat_l; lra). lra.
Qed.

Lemma qf_pert : forall c a b M d, 0 <= c <= 2 -> bnd c M a b -> bnd c (M + Rabs d) (a + d) b.
Proof.
  intros c a b M d Hc [HM H]. split; [pose proof (Rabs_pos d); lra|]. unfold qf in *.
  assert (S : Rabs (2 * a - c * b) <= 2 * ((2 + c) * M)).
  { apply sq_abs; [apply Rmult_le_pos; [lra|apply Rmult_le_pos; lra]|].
    assert (0 <= (4 - c * c) * (b * b)) by (apply Rmult_le_pos; [nra|apply Rle_0_sqr]).
    assert ((2 + c) * (M * M) <= (2 + c) * ((2 + c) * (M * M))). { assert (0 <= (2 + c) * (M * M)) by (apply Rmult_le_pos; [lra|apply Rle_0_sqr]). assert (1 * ((2 + c) * (M * M)) <= (2 + c) * ((2 + c) * (M * M))) by (apply Rmult_le_compat_r; lra). lra. }
    replace ((2 * a - c * b) * (2 * a - c * b)) with (4 * (a * a - c * (a * b) + b * b) - (4 - c * c) * (b * b)) by ring.
    replace (2 * ((2 + c) * M) * (2 * ((2 + c) * M))) with (4 * ((2 + c) * ((2 + c) * (M * M)))) by ring. lra. }
  assert (T : d * (2 * a - c * b) <= Rabs d * (2 * ((2 + c) * M))).
  { eapply Rle_trans; [apply Rle_abs|]. rewrite Rabs_mult. apply Rmult_le_compat_l; [apply Rabs_pos|exact S]. }
  assert (DD : d * d = Rabs d * Rabs d) by (unfold Rabs; destruct (Rcase_abs d); ring).
  replace ((a + d) * (a + d) - c * ((a + d) * b) + b * b) with (a * a - c * (a * b) + b * b + d * (2 * a - c * b) + d * d) by ring.
  replace ((2 + c) * ((M + Rabs d) * (M + Rabs d))) with ((2 + c) * (M * M) + Rabs d * (2 * ((2 + c) * M)) + (2 + c) * (Rabs d * Rabs d)) by ring.
  assert (1 * (Rabs d * Rabs d) <= (2 + c) * (Rabs d * Rabs d)) by (apply Rmult_le_compat_r; [apply Rle_0_sqr|lra]). lra.
Qed.

(** one perturbed step *)
Lemma bnd_step : forall c t M a b d, 0 <= c -> 0 <= t -> c + t <= 2 -> bnd c M a b -> bnd (c + t) (M + Rabs d) (c * a - b + d) a.
Proof.
  intros c t M a b d Hc Ht H2 [HM H]. apply qf_pert; [lra|]. split; [exact HM|]. apply qf_grow; [exact Hc|exact Ht|]. rewrite qf_step. exact H.
Qed.

Lemma bnd_start : forall c M a b, 0 <= c -> Rabs a <= M -> Rabs b <= M -> bnd c M a b.
Proof.
  intros c M a b Hc Ha Hb. assert (HM : 0 <= M) by (pose proof (Rabs_pos a); lra). split; [exact HM|]. unfold qf.
  assert (A : a * a <= M * M). { replace (a * a) with (Rabs a * Rabs a) by (unfold Rabs; destruct (Rcase_abs a); ring). apply Rmult_le_compat; try apply Rabs_pos; assumption. }
  assert (B : b * b <= M * M). { replace (b * b) with (Rabs b * Rabs b) by (unfold Rabs; destruct (Rcase_abs b); ring). apply Rmult_le_compat; try apply Rabs_pos; assumption. }
  assert (AB : - (a * b) <= M * M). { rewrite <- (Rabs_pos_eq (M * M)) by apply Rle_0_sqr. eapply Rle_trans; [apply Rle_abs|]. rewrite Rabs_Ropp, Rabs_mult, (Rabs_pos_eq (M * M)) by apply Rle_0_sqr. apply Rmult_le_compat; try apply Rabs_pos; assumption. }
  assert (c * - (a * b) <= c * (M * M)) by (apply Rmult_le_compat_l; assumption). lra.
Qed.

(** the next value, from the form *)
Lemma bnd_next : forall c M a b w s, bnd c M a b -> 0 < w -> 0 < s -> 0 <= c < 2 -> (2 - c) * (s * s) = 2 * (w * w) -> Rabs (c * a - b) <= 3 / 2 * (M * s) / w.
Proof.
  intros c M a b w s [HM H] W0 S0 Hc E. rewrite <- qf_step in H. set (n := c * a - b) in *. clearbody n. unfold qf in H.
  assert (Q : (2 - c) * (n * n) <= 4 * (M * M)).
  { apply Rmult_le_reg_l with (2 + c); [lra|]. assert (S : 0 <= (2 * a - c * n) * (2 * a - c * n)) by apply Rle_0_sqr.
    replace ((2 + c) * ((2 - c) * (n * n))) with (4 * (n * n - c * (n * a) + a * a) - (2 * a - c * n) * (2 * a - c * n)) by ring. lra. }
  assert (P : Rabs (n * w) <= 3 / 2 * (M * s)).
  { apply sq_abs; [apply Rmult_le_pos; [lra|apply Rmult_le_pos; lra]|].
    replace (n * w * (n * w)) with (1 / 2 * (n * n * (2 * (w * w)))) by field. rewrite <- E. replace (1 / 2 * (n * n * ((2 - c) * (s * s)))) with (1 / 2 * ((2 - c) * (n * n)) * (s * s)) by ring.
    replace (3 / 2 * (M * s) * (3 / 2 * (M * s))) with (9 / 4 * (M * M) * (s * s)) by field. apply Rmult_le_compat_r; [apply Rle_0_sqr|]. pose proof (Rle_0_sqr M) as MM. unfold Rsqr in MM. lra. }
  rewrite Rabs_mult, (Rabs_pos_eq w) in P by lra. apply Rmult_le_reg_r with w; [exact W0|]. replace (3 / 2 * (M * s) / w * w) with (3 / 2 * (M * s)) by (field; lra). exact P.
Qed.

(** ** The recurrence in f64 *)

Lemma uu_val : uu = / 2 ^ 53. Proof. reflexivity. Qed.

Section Fl.
  Context (P : platform).
  Local Notation mul := (f64_mul P). Local Notation add := (f64_add P). Local Notation sub := (f64_sub P). Local Notation div := (f64_div P).

  Lemma up_step_fl : forall j t c p kt W, (1 <= j <= 2 ^ 32)%Z -> fin t -> fin c -> fin p -> Rabs (val t - kt) <= uu * kt + eta -> 0 <= kt -> IZR j * kt <= 2 ->
    Rabs (val c) <= W -> Rabs (val p) <= W -> 1 / 10 ^ 20 <= W <= 10 ->
    let r := sub (mul (mul (f64_of_Z j) t) c) p in fin r /\ Rabs (val r - (IZR j * kt * val c - val p)) <= 10 * uu * W.
  Proof.
    intros j t c p kt W Hj Ft Fc Fp Et Ht HQ Bc Bp HW r.
    destruct (of_Z_exact j ltac:(lia)) as [Fj Vj]. rewrite <- (val_fin _ Fj) in Vj.
    assert (J1 : 1 <= IZR j <= 2 ^ 32). { split; [apply IZR_le; lia|]. replace (2 ^ 32) with (IZR (2 ^ 32)) by (rewrite (pow_IZR 2 32); reflexivity). apply IZR_le. lia. }
    pose proof eta_pos as E0. pose proof eta_small as ES.
    assert (BB : 100 <= bpow radix2 1023). { apply Rle_trans with (bpow radix2 7); [simpl; lra|apply bpow_le; lia]. }
    set (Q := IZR j * kt) in *. assert (Q0 : 0 <= Q) by (apply Rmult_le_pos; lra).
    assert (E1 : Rabs (IZR j * val t - Q) <= uu * Q + IZR j * eta).
    { unfold Q. rewrite <- Rmult_minus_distr_l, Rabs_mult, (Rabs_pos_eq (IZR j)) by lra. eapply Rle_trans; [apply Rmult_le_compat_l; [lra|exact Et]|]. right. ring. }
    assert (JE : IZR j * eta <= 1 / 10 ^ 80). { apply Rle_trans with (2 ^ 32 * / 10 ^ 100); [apply Rmult_le_compat; lra|lra]. }
    set (jt := IZR j * val t) in *. clearbody Q.
    assert (E1' : Rabs (jt - Q) <= 201 / 100 * uu) by (unfold uu in *; lra).
    assert (Bj : Rabs jt <= 201 / 100) by (apply Rabs_le_inv in E1'; unfold uu in *; apply Rabs_le; lra).
    destruct (mul_23 P (f64_of_Z j) t Fj Ft) as [F1 R1]. { rewrite Vj. fold jt. lra. }
    rewrite Vj in R1. fold jt in R1. set (m := mul (f64_of_Z j) t) in *. clearbody m jt.
    assert (E2 : Rabs (val m - Q) <= 405 / 100 * uu). { assert (uu * Rabs jt <= uu * (201 / 100)) by (apply Rmult_le_compat_l; [unfold uu; lra|exact Bj]). apply Rabs_le_inv in E1', R1. unfold uu in *. apply Rabs_le. lra. }
    assert (Bm : Rabs (val m) <= 201 / 100) by (apply Rabs_le_inv in E2; unfold uu in *; apply Rabs_le; lra).
    assert (E3 : Rabs (val m * val c - Q * val c) <= 405 / 100 * uu * W).
    { rewrite <- Rmult_minus_distr_r, Rabs_mult. apply Rmult_le_compat; try apply Rabs_pos; assumption. }
    assert (B3 : Rabs (val m * val c) <= 201 / 100 * W) by (rewrite Rabs_mult; apply Rmult_le_compat; try apply Rabs_pos; assumption).
    destruct (mul_23 P m c F1 Fc) as [F4 R4]; [lra|]. set (s := mul m c) in *. set (mc := val m * val c) in *. clearbody s mc.
    assert (u3 : uu * Rabs mc <= uu * (201 / 100 * W)) by (apply Rmult_le_compat_l; [unfold uu; lra|exact B3]).
    assert (E4 : Rabs (val s - Q * val c) <= 607 / 100 * uu * W). { apply Rabs_le_inv in E3, R4. unfold uu in *. apply Rabs_le. lra. }
    assert (B5 : Rabs (val s - val p) <= 302 / 100 * W).
    { assert (Rabs (val s) <= 2015 / 1000 * W) by (apply Rabs_le_inv in R4, B3; unfold uu in *; apply Rabs_le; lra). eapply Rle_trans; [apply Rabs_triang|]. rewrite Rabs_Ropp. lra. }
    destruct (sub_23 P s p F4 Fp) as [F6 R6]; [lra|]. fold r in F6, R6. split; [exact F6|].
    assert (uu * Rabs (val s - val p) <= uu * (302 / 100 * W)) by (apply Rmult_le_compat_l; [unfold uu; lra|exact B5]).
    set (qc := Q * val c) in *. clearbody qc. apply Rabs_le_inv in R6, E4. unfold uu in *. apply Rabs_le. lra.
  Qed.

  Context (X A m1 : R) (tx : f64) (B : nat -> R) (g : nat -> f64).
  Hypothesis HX : 2 < X <= 2 ^ 45.
  Hypothesis Ft : fin tx.
  Hypothesis Et : Rabs (val tx - 2 * / X) <= uu * (2 * / X) + eta.
  Hypothesis HB : forall k, B (S (S k)) = INR (S k) * (2 * / X) * B (S k) - B k.
  Hypothesis HG : forall k, INR (S (S k)) < X -> (Z.of_nat (S (S k)) <= 2 ^ 32)%Z -> g (S (S k)) = sub (mul (mul (f64_of_Z (Z.of_nat (S k))) tx) (g (S k))) (g k).
  Hypothesis HA : 1 / 2 <= A <= 4.
  Hypothesis Hm : 0 <= m1 <= A / 100.
  Hypothesis B0 : Rabs (B 0) <= A / sqrt X.
  Hypothesis B1 : Rabs (B 1) <= A / sqrt X.
  Hypothesis F0 : fin (g 0).
  Hypothesis F1 : fin (g 1).
  Hypothesis E0 : Rabs (val (g 0%nat) - B 0) <= m1 / sqrt X.
  Hypothesis E1 : Rabs (val (g 1%nat) - B 1) <= m1 / sqrt X.

  Definition ww (k : nat) : R := sqrt (X - INR k + 1).
  Definition er (k : nat) : R := 3 / 2 * m1 + 51 * uu * A * INR k.

  Lemma ww_sq : forall k, INR k < X -> ww k * ww k = X - INR k + 1 /\ 1 <= ww k.
  Proof.
    intros k Hk. unfold ww. split; [apply sqrt_sqrt; lra|]. rewrite <- sqrt_1 at 1. apply sqrt_le_1; lra.
  Qed.
  Lemma ww_1 : ww 1 = sqrt X. Proof. unfold ww. f_equal. simpl. ring. Qed.
  Lemma er_small : forall k, (Z.of_nat k <= 2 ^ 32)%Z -> er k <= A / 10.
  Proof.
    intros k Hk. unfold er. pose proof (INR_32 k Hk) as K. pose proof (pos_INR k) as K0.
    replace (51 * uu * A * INR k) with (51 * uu * INR k * A) by ring. assert (51 * uu * INR k * A <= 8 / 100 * A) by (apply Rmult_le_compat_r; [lra|unfold uu; lra]). lra.
  Qed.
  Lemma er_pos : forall k, 0 <= er k.
  Proof. intros k. unfold er. pose proof (pos_INR k). assert (0 <= 51 * uu * A * INR k) by (repeat apply Rmult_le_pos; unfold uu; lra). lra. Qed.
  Lemma er_S : forall k, er k <= er (S k).
  Proof. intros k. unfold er. rewrite S_INR. assert (0 <= 51 * uu * A) by (repeat apply Rmult_le_pos; unfold uu; lra). lra. Qed.

  Definition inv (j : nat) : Prop := let k := S j in let c := INR k * (2 * / X) in
    fin (g j) /\ fin (g k) /\ bnd c (A / sqrt X) (B k) (B j) /\
    (exists M, bnd c M (val (g k) - B k) (val (g j) - B j) /\ M * sqrt X <= m1 + 34 * uu * A * (sqrt X * (sqrt X - ww k))) /\
    Rabs (val (g k) - B k) <= er k / ww k /\ Rabs (val (g j) - B j) <= er k / ww k /\ Rabs (B k) <= 3 / 2 * A / ww k /\ Rabs (B j) <= 3 / 2 * A / ww k.

  Lemma inv_ok : forall j, INR (S j) < X -> (Z.of_nat (S j) <= 2 ^ 32)%Z -> inv j.
  Proof.
    set (s := sqrt X) in *. assert (S1 : 1 <= s) by (unfold s; rewrite <- sqrt_1 at 1; apply sqrt_le_1; lra).
    assert (SS : s * s = X) by (unfold s; apply sqrt_sqrt; lra).
    assert (SU : s <= 2 ^ 23). { assert (sqrt X <= sqrt (2 ^ 23 * 2 ^ 23)) by (apply sqrt_le_1; lra). rewrite sqrt_square in H by lra. exact H. }
    assert (T0 : 0 < / X) by (apply Rinv_0_lt_compat; lra). assert (U0 : 0 < uu) by (unfold uu; lra).
    induction j as [|j IH]; intros Hk Hn.
    - unfold inv. rewrite ww_1. fold s. change (INR 1) with 1. rewrite Rmult_1_l.
      assert (M1 : m1 / s <= er 1 / s). { apply Rmult_le_compat_r; [left; apply Rinv_0_lt_compat; lra|]. unfold er. change (INR 1) with 1. assert (0 <= 51 * uu * A * 1) by (repeat apply Rmult_le_pos; lra). lra. }
      assert (A1 : A / s <= 3 / 2 * A / s). { apply Rmult_le_compat_r; [left; apply Rinv_0_lt_compat; lra|lra]. }
      split; [exact F0|]. split; [exact F1|]. split; [apply bnd_start; [lra|assumption|assumption]|].
      split. { exists (m1 / s). split; [apply bnd_start; [lra|assumption|assumption]|]. replace (m1 / s * s) with m1 by (field; lra). replace (s * (s - s)) with 0 by ring. lra. }
      repeat split; lra.
    - set (k := S j) in *. assert (Hk' : INR k < X) by (rewrite S_INR in Hk; lra).
      destruct (IH Hk' ltac:(lia)) as (Fj & Fk & Bk & (M & Mk & MM) & Ek & Ej & Vk & Vj). fold k in Fk, Bk, Mk, MM, Ek, Ej, Vk, Vj. fold s in MM.
      destruct (ww_sq k Hk') as [W2 W1]. destruct (ww_sq (S k) Hk) as [V2 V1]. rewrite S_INR in V2. set (w := ww k) in *. set (w' := ww (S k)) in *.
      assert (K1 : 1 <= INR k) by (unfold k; rewrite S_INR; pose proof (pos_INR j); lra).
      assert (WS : w <= s). { apply Rsqr_incr_0; unfold Rsqr; lra. }
      assert (WW : w' <= w). { apply Rsqr_incr_0; unfold Rsqr; lra. }
      set (c := INR k * (2 * / X)) in *. assert (C0 : 0 <= c) by (apply Rmult_le_pos; lra).
      assert (CS : INR (S k) * (2 * / X) = c + 2 * / X) by (rewrite S_INR; unfold c; ring).
      assert (CX : c * X = 2 * INR k) by (unfold c; field; lra). assert (TX : 2 * / X * X = 2) by (field; lra).
      assert (C2 : c + 2 * / X <= 2). { apply Rmult_le_reg_r with X; [lra|]. rewrite Rmult_plus_distr_r, CX, TX. rewrite S_INR in Hk. lra. }
      assert (NX : (2 - c) * (s * s) = 2 * (w' * w')) by (rewrite V2, SS, Rmult_minus_distr_r, CX; ring).
      assert (I0 : 0 < / w <= 1). { split; [apply Rinv_0_lt_compat; lra|rewrite <- Rinv_1; apply Rinv_le_contravar; lra]. }
      assert (I1 : / w <= / w') by (apply Rinv_le_contravar; lra).
      assert (IS : / 2 ^ 23 <= / w) by (apply Rinv_le_contravar; lra).
      pose proof (er_small k ltac:(lia)) as ES. pose proof (er_pos k) as EP.
      assert (Gk : Rabs (val (g k)) <= 8 / 5 * A * / w).
      { replace (val (g k)) with ((val (g k) - B k) + B k) by ring. eapply Rle_trans; [apply Rabs_triang|]. assert (er k * / w <= A / 10 * / w) by (apply Rmult_le_compat_r; lra). unfold Rdiv in *. lra. }
      assert (Gj : Rabs (val (g j)) <= 8 / 5 * A * / w).
      { replace (val (g j)) with ((val (g j) - B j) + B j) by ring. eapply Rle_trans; [apply Rabs_triang|]. assert (er k * / w <= A / 10 * / w) by (apply Rmult_le_compat_r; lra). unfold Rdiv in *. lra. }
      destruct (up_step_fl (Z.of_nat k) tx (g k) (g j) (2 * / X) (8 / 5 * A * / w) ltac:(lia) Ft Fk Fj Et ltac:(lra)) as [Fn Dn]; [rewrite <- INR_IZR_INZ; fold c; lra|exact Gk|exact Gj| |].
      { split.
        - apply Rle_trans with (8 / 5 * (1 / 2) * / 2 ^ 23); [lra|]. apply Rmult_le_compat; lra.
        - apply Rle_trans with (8 / 5 * 4 * 1); [|lra]. apply Rmult_le_compat; lra. }
      pose proof (HG j Hk Hn) as HGj. fold k in HGj. rewrite <- HGj in Fn, Dn. rewrite <- INR_IZR_INZ in Dn. fold c in Dn.
      set (d := val (g (S k)) - (c * val (g k) - val (g j))) in *.
      assert (Dw : Rabs d <= 16 * uu * A * / w) by lra.
      pose proof (HB j) as HBj. fold k in HBj. fold c in HBj.
      assert (En : val (g (S k)) - B (S k) = c * (val (g k) - B k) - (val (g j) - B j) + d) by (rewrite HBj; unfold d; ring).
      assert (Nb : Rabs (B (S k)) <= 3 / 2 * A / w').
      { rewrite HBj. pose proof (bnd_next c (A / s) (B k) (B j) w' s Bk ltac:(lra) ltac:(lra) ltac:(lra) NX) as Q. replace (A / s * s) with A in Q by (field; lra). exact Q. }
      assert (SW : s * (s - w) <= INR k - 1). { apply Rle_trans with ((s + w) * (s - w)); [apply Rmult_le_compat_r; lra|]. replace ((s + w) * (s - w)) with (s * s - w * w) by ring. lra. }
      assert (UA : 0 <= uu * A) by (apply Rmult_le_pos; lra).
      assert (Ne : Rabs (val (g (S k)) - B (S k)) <= er (S k) / w').
      { rewrite En. eapply Rle_trans; [apply Rabs_triang|]. pose proof (bnd_next c M _ _ w' s Mk ltac:(lra) ltac:(lra) ltac:(lra) NX) as Q.
        assert (Q2 : 16 * uu * A * / w <= 16 * uu * A * / w') by (apply Rmult_le_compat_l; lra).
        assert (Q3 : uu * A * (s * (s - w)) <= uu * A * (INR k - 1)) by (apply Rmult_le_compat_l; lra).
        apply Rle_trans with (3 / 2 * (M * s) / w' + 16 * uu * A / w'); [unfold Rdiv in *; lra|].
        replace (3 / 2 * (M * s) / w' + 16 * uu * A / w') with ((3 / 2 * (M * s) + 16 * uu * A) / w') by (field; lra). apply Rmult_le_compat_r; [left; apply Rinv_0_lt_compat; lra|]. unfold er. rewrite S_INR. lra. }
      assert (Ee : er k / w <= er (S k) / w'). { apply Rmult_le_compat; [exact EP|lra|apply er_S|exact I1]. }
      assert (Ea : 3 / 2 * A / w <= 3 / 2 * A / w') by (apply Rmult_le_compat_l; lra).
      unfold inv. fold k w'. rewrite CS. fold s. split; [exact Fk|]. split; [exact Fn|]. split.
      { rewrite HBj. pose proof (bnd_step c (2 * / X) (A / s) (B k) (B j) 0 C0 ltac:(lra) C2 Bk) as Q. rewrite Rabs_R0, !Rplus_0_r in Q. exact Q. }
      split.
      { exists (M + Rabs d). split; [rewrite En; apply bnd_step; [exact C0|lra|exact C2|exact Mk]|].
        assert (DW : / (2 * w) <= w - w').
        { apply Rmult_le_reg_r with (w + w'); [lra|]. replace ((w - w') * (w + w')) with (w * w - w' * w') by ring. rewrite W2, V2. replace (X - INR k + 1 - (X - (INR k + 1) + 1)) with 1 by ring.
          apply Rle_trans with (/ (2 * w) * (2 * w)); [apply Rmult_le_compat_l; [left; apply Rinv_0_lt_compat; lra|lra]|]. right. field. lra. }
        replace (/ (2 * w)) with (/ w / 2) in DW by (field; lra).
        assert (Q : s * (uu * A) * (/ w / 2) <= s * (uu * A) * (w - w')). { apply Rmult_le_compat_l; [apply Rmult_le_pos; lra|exact DW]. }
        assert (Q2 : Rabs d * s <= 16 * uu * A * / w * s) by (apply Rmult_le_compat_r; lra).
        assert (Q0 : 0 <= s * (uu * A) * (/ w / 2)) by (apply Rmult_le_pos; [apply Rmult_le_pos; lra|lra]). lra. }
      split; [exact Ne|]. split; [eapply Rle_trans; [exact Ek|exact Ee]|]. split; [exact Nb|]. eapply Rle_trans; [exact Vk|exact Ea].
  Qed.

  Theorem up_fl : forall n, INR n < X -> (Z.of_nat n <= 2 ^ 32)%Z -> fin (g n) /\ Rabs (val (g n) - B n) <= er n / ww n.
  Proof.
    intros [|j] Hk Hn.
    - split; [exact F0|]. eapply Rle_trans; [exact E0|]. assert (W : 1 <= ww 0) by (apply ww_sq, Hk).
      (* sqrt (X + 1) <= 3/2 sqrt X *)
      assert (S1 : 1 <= sqrt X) by (rewrite <- sqrt_1 at 1; apply sqrt_le_1; lra). assert (SS : sqrt X * sqrt X = X) by (apply sqrt_sqrt; lra).
      assert (Q : ww 0 <= 3 / 2 * sqrt X). { apply Rsqr_incr_0; [|lra|lra]. unfold Rsqr. rewrite (proj1 (ww_sq 0 Hk)). change (INR 0) with 0. lra. }
      unfold er. change (INR 0) with 0. rewrite Rmult_0_r, Rplus_0_r. apply Rmult_le_reg_r with (ww 0 * sqrt X); [apply Rmult_lt_0_compat; lra|].
      replace (m1 / sqrt X * (ww 0 * sqrt X)) with (m1 * ww 0) by (field; lra). replace (3 / 2 * m1 / ww 0 * (ww 0 * sqrt X)) with (m1 * (3 / 2 * sqrt X)) by (field; lra). apply Rmult_le_compat_l; lra.
    - destruct (inv_ok j Hk Hn) as (_ & F & _ & _ & E & _). split; assumption.
  Qed.
End Fl.
