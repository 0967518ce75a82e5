(** * The power series of the Bessel functions: convergence, remainder, and
      the partial sums as integer polynomials *)

From Coq Require Import ZArith Reals Lra Lia List.
From Flocq Require Import Core.Raux.
From Verif.Spec Require Import BesselSpec.
From Verif.Proofs Require Import Poly PolyZ PolyShift PolyTree.
Import ListNotations.
Open Scope R_scope.

(** 4 (k + 1) (k + 1 + n) *)
Definition wz (n k : nat) : Z := (4 * (Z.of_nat k + 1) * (Z.of_nat k + 1 + Z.of_nat n))%Z.

Lemma wz_pos : forall n k, (0 < wz n k)%Z.
Proof. intros. unfold wz. nia. Qed.
Lemma wz_posR : forall n k, 0 < IZR (wz n k).
Proof. intros. apply IZR_lt, wz_pos. Qed.

Lemma bterm_S : forall s n x k, bterm s n x (S k) = bterm s n x k * (s * (x * x) / IZR (wz n k)).
Proof.
  intros s n x k. unfold bterm, wz.
  replace (2 * S k + n)%nat with (S (S (2 * k + n)))%nat by lia. replace (S k + n)%nat with (S (k + n))%nat by lia.
  rewrite !fact_simpl, !mult_INR, !mult_IZR, !plus_IZR, <- !INR_IZR_INZ. rewrite !S_INR, plus_INR. cbn [pow].
  pose proof (INR_fact_neq_0 k). pose proof (INR_fact_neq_0 (k + n)).
  pose proof (pos_INR k). pose proof (pos_INR n). field. repeat split; lra || assumption.
Qed.

Lemma bterm_0 : forall s n x, bterm s n x 0 = (x / 2) ^ n / INR (fact n).
Proof. intros s n x. unfold bterm. rewrite Nat.mul_0_r, !Nat.add_0_l. simpl. field. apply INR_fact_neq_0. Qed.

(** ** Remainders *)

Lemma sum_tail : forall (a : nat -> R) v N, infinite_sum a v ->
  (forall k, (N <= k)%nat -> Rabs (a (S k)) <= Rabs (a k) / 2) ->
  Rabs (v - sum_f_R0 a N) <= Rabs (a N).
Proof.
  intros a v N Hv Hr.
  assert (G : forall m, Rabs (a (N + m)%nat) <= Rabs (a N) * (/ 2) ^ m).
  { induction m as [|m IH]; [rewrite Nat.add_0_r; simpl; lra|].
    rewrite Nat.add_succ_r. specialize (Hr (N + m)%nat ltac:(lia)). cbn [pow]. lra. }
  assert (P : forall m, Rabs (sum_f_R0 a (N + m) - sum_f_R0 a N) <= Rabs (a N) * (1 - (/ 2) ^ m)).
  { induction m as [|m IH].
    - rewrite Nat.add_0_r, Rminus_diag_eq, Rabs_R0 by reflexivity. simpl. lra.
    - rewrite Nat.add_succ_r. cbn [sum_f_R0 pow].
      replace (sum_f_R0 a (N + m) + a (S (N + m)) - sum_f_R0 a N) with ((sum_f_R0 a (N + m) - sum_f_R0 a N) + a (S (N + m))) by ring.
      eapply Rle_trans; [apply Rabs_triang|]. specialize (G (S m)). rewrite Nat.add_succ_r in G. cbn [pow] in G. lra. }
  apply Rnot_lt_le. intros L. set (e := Rabs (v - sum_f_R0 a N) - Rabs (a N)) in *.
  destruct (Hv e ltac:(unfold e; lra)) as [M HM]. specialize (HM (N + M)%nat ltac:(lia)). unfold R_dist in HM.
  specialize (P M). assert (0 < (/ 2) ^ M) by (apply pow_lt; lra). pose proof (Rabs_pos (a N)).
  assert (Rabs (v - sum_f_R0 a N) <= Rabs (sum_f_R0 a (N + M) - v) + Rabs (sum_f_R0 a (N + M) - sum_f_R0 a N)).
  { replace (v - sum_f_R0 a N) with (- (sum_f_R0 a (N + M) - v) + (sum_f_R0 a (N + M) - sum_f_R0 a N)) by ring.
    eapply Rle_trans; [apply Rabs_triang|]. rewrite Rabs_Ropp. lra. }
  assert (Rabs (a N) * (1 - (/ 2) ^ M) <= Rabs (a N)) by (rewrite <- (Rmult_1_r (Rabs (a N))) at 2; apply Rmult_le_compat_l; lra).
  unfold e in HM. lra.
Qed.

Lemma infinite_sum_unique : forall a v w, infinite_sum a v -> infinite_sum a w -> v = w.
Proof. intros a v w H1 H2. exact (UL_sequence (fun N => sum_f_R0 a N) v w H1 H2). Qed.

(** ** Partial sums *)

(** 1 + s y / w_k + s^2 y^2 / (w_k w_(k+1)) + ..., m + 1 terms *)
Fixpoint pr (s : R) (n k m : nat) (y : R) : R :=
  match m with
  | O => 1
  | S m' => 1 + s * y / IZR (wz n k) * pr s n (S k) m' y
  end.

Lemma sum_pr : forall s n x m k, sum_f_R0 (fun j => bterm s n x (k + j)) m = bterm s n x k * pr s n k m (x * x).
Proof.
  intros s n x. induction m as [|m IH]; intros k.
  - cbn [sum_f_R0 pr]. rewrite Nat.add_0_r. ring.
  - rewrite decomp_sum by lia. cbn [pred]. rewrite Nat.add_0_r.
    rewrite (sum_eq _ (fun j => bterm s n x (S k + j))) by (intros i _; f_equal; lia).
    rewrite IH. cbn [pr]. rewrite bterm_S. field. apply Rgt_not_eq, wz_posR.
Qed.

(** the same as an integer polynomial over a common denominator *)
Fixpoint plz (s : Z) (n k m : nat) : list Z * Z :=
  match m with
  | O => ([1%Z], 1%Z)
  | S m' => let '(l, d) := plz s n (S k) m' in ((d * wz n k)%Z :: pscale s l, (d * wz n k)%Z)
  end.

Lemma plz_pos : forall s n m k, (0 < snd (plz s n k m))%Z.
Proof.
  intros s n. induction m as [|m IH]; intros k; [cbn; lia|]. cbn [plz]. specialize (IH (S k)). destruct (plz s n (S k) m) as [l d].
  cbn [snd] in *. pose proof (wz_pos n k). nia.
Qed.

Lemma plz_eq : forall s n m k y, peval (fst (plz s n k m)) y = IZR (snd (plz s n k m)) * pr (IZR s) n k m y.
Proof.
  intros s n. induction m as [|m IH]; intros k y.
  - cbn [plz fst snd pr]. rewrite peval_cons. change (peval [] y) with 0. simpl. ring.
  - cbn [plz pr]. specialize (IH (S k) y). pose proof (plz_pos s n m (S k)) as Dp. destruct (plz s n (S k) m) as [l d].
    cbn [fst snd] in *. rewrite peval_cons, peval_pscale, IH, !mult_IZR. pose proof (wz_posR n k). field. lra.
Qed.

(** a bound of the k-th term relative to the first one, for x^2 <= Y *)
Fixpoint tz (Y : Z) (n m : nat) : Z * Z :=
  match m with
  | O => (1%Z, 1%Z)
  | S m' => let '(u, d) := tz Y n m' in ((u * Y)%Z, (d * wz n m')%Z)
  end.

Lemma tz_pos : forall Y n m, (0 <= Y)%Z -> (0 <= fst (tz Y n m))%Z /\ (0 < snd (tz Y n m))%Z.
Proof.
  intros Y n m HY. induction m as [|m IH]; [cbn; lia|]. cbn [tz]. destruct (tz Y n m) as [u d]. cbn [fst snd] in *.
  pose proof (wz_pos n m). split; nia.
Qed.

Lemma bterm_ratio : forall s n x k, Rabs s = 1 -> Rabs (bterm s n x (S k)) = Rabs (bterm s n x k) * (x * x / IZR (wz n k)).
Proof.
  intros s n x k Hs. rewrite bterm_S, Rabs_mult. f_equal. pose proof (wz_posR n k).
  unfold Rdiv. rewrite !Rabs_mult, Hs, (Rabs_pos_eq (/ _)) by (left; apply Rinv_0_lt_compat; assumption).
  rewrite <- Rabs_mult, (Rabs_pos_eq (x * x)) by nra. ring.
Qed.

Lemma tz_ok : forall Y n s x, (0 <= Y)%Z -> Rabs s = 1 -> x * x <= IZR Y -> forall m,
  Rabs (bterm s n x m) <= Rabs (bterm s n x 0) * (IZR (fst (tz Y n m)) / IZR (snd (tz Y n m))).
Proof.
  intros Y n s x HY Hs Hx. induction m as [|m IH].
  - cbn [tz fst snd]. right. field.
  - rewrite bterm_ratio by exact Hs. cbn [tz]. pose proof (tz_pos Y n m HY) as [U D]. destruct (tz Y n m) as [u d]. cbn [fst snd] in *.
    rewrite !mult_IZR. apply IZR_le in U. apply IZR_lt in D. pose proof (wz_posR n m) as W.
    replace (Rabs (bterm s n x 0) * (IZR u * IZR Y / (IZR d * IZR (wz n m)))) with
      (Rabs (bterm s n x 0) * (IZR u / IZR d) * (IZR Y / IZR (wz n m))) by (field; lra).
    apply Rmult_le_compat; [apply Rabs_pos| |exact IH|].
    + apply Rmult_le_pos; [nra|left; apply Rinv_0_lt_compat, W].
    + unfold Rdiv. apply Rmult_le_compat_r; [left; apply Rinv_0_lt_compat, W|exact Hx].
Qed.

Lemma wz_mono : forall n j k, (j <= k)%nat -> (wz n j <= wz n k)%Z.
Proof. intros. unfold wz. nia. Qed.

(** the value of the series is close to the partial sum *)
Lemma series_near : forall Y n s x v m t, (0 <= Y)%Z -> Rabs s = 1 -> x * x <= IZR Y -> (0 < t)%Z ->
  infinite_sum (bterm s n x) v ->
  (2 * Y <=? wz n m)%Z = true -> (fst (tz Y n m) * t <=? snd (tz Y n m))%Z = true ->
  Rabs (v - bterm s n x 0 * pr s n 0 m (x * x)) <= Rabs (bterm s n x 0) / IZR t.
Proof.
  intros Y n s x v m t HY Hs Hx Ht Hv W T. apply Z.leb_le in W, T.
  assert (S0 : sum_f_R0 (bterm s n x) m = bterm s n x 0 * pr s n 0 m (x * x)) by exact (sum_pr s n x m 0).
  rewrite <- S0.
  eapply Rle_trans; [apply sum_tail; [exact Hv|]|].
  - intros k Hk. rewrite bterm_ratio by exact Hs. unfold Rdiv at 2. apply Rmult_le_compat_l; [apply Rabs_pos|].
    pose proof (wz_posR n k). apply Rmult_le_reg_r with (IZR (wz n k)); [lra|]. unfold Rdiv. rewrite Rmult_assoc, Rinv_l by lra.
    pose proof (wz_mono n m k Hk) as Q. assert (Q2 : (2 * Y <= wz n k)%Z) by lia. apply IZR_le in Q2. rewrite mult_IZR in Q2. lra.
  - eapply Rle_trans; [apply (tz_ok Y); assumption|]. unfold Rdiv at 2. apply Rmult_le_compat_l; [apply Rabs_pos|].
    destruct (tz_pos Y n m HY) as [_ D]. apply IZR_lt in D. apply IZR_le in T. rewrite mult_IZR in T. apply IZR_lt in Ht.
    apply Rmult_le_reg_r with (IZR (snd (tz Y n m))); [exact D|]. unfold Rdiv. rewrite Rmult_assoc, Rinv_l by lra.
    apply Rmult_le_reg_r with (IZR t); [exact Ht|]. rewrite Rmult_comm with (r1 := / IZR t). rewrite (Rmult_assoc (IZR (snd _))), Rinv_l by lra. lra.
Qed.

(** ** Convergence *)

Lemma series_exists : forall s n x, Rabs s = 1 -> exists v, infinite_sum (bterm s n x) v.
Proof.
  intros s n x Hs. destruct (Req_dec x 0) as [->|Hx].
  - exists (bterm s n 0 0). intros e He. exists 0%nat. intros m _. unfold R_dist.
    assert (E : sum_f_R0 (bterm s n 0) m = bterm s n 0 0).
    { induction m as [|m IH]; [reflexivity|]. cbn [sum_f_R0]. rewrite IH, bterm_S. field. apply Rgt_not_eq, wz_posR. }
    rewrite E, Rminus_diag_eq, Rabs_R0 by reflexivity. exact He.
  - destruct (Alembert_C3 (fun k => bterm s n x k) 1) as [v Hv].
    + intros k. unfold bterm. pose proof (INR_fact_neq_0 k). pose proof (INR_fact_neq_0 (k + n)).
      assert (s <> 0) by (intros ->; rewrite Rabs_R0 in Hs; lra).
      unfold Rdiv. apply Rmult_integral_contrapositive_currified.
      * apply Rmult_integral_contrapositive_currified; apply pow_nonzero; lra.
      * apply Rinv_neq_0_compat, Rmult_integral_contrapositive_currified; assumption.
    + intros e He. set (B := x * x / e).
      destruct (archimed B) as [A _]. exists (Z.to_nat (Rdefinitions.up B)). intros k Hk. unfold R_dist.
      rewrite Rminus_0_r, Rabs_Rabsolu.
      assert (N0 : bterm s n x k <> 0).
      { unfold bterm. pose proof (INR_fact_neq_0 k). pose proof (INR_fact_neq_0 (k + n)).
        assert (s <> 0) by (intros ->; rewrite Rabs_R0 in Hs; lra).
        unfold Rdiv. apply Rmult_integral_contrapositive_currified.
        * apply Rmult_integral_contrapositive_currified; apply pow_nonzero; lra.
        * apply Rinv_neq_0_compat, Rmult_integral_contrapositive_currified; assumption. }
      unfold Rdiv. rewrite Rabs_mult, bterm_ratio, Rabs_inv by exact Hs. pose proof (Rabs_pos_lt _ N0) as AP.
      replace (Rabs (bterm s n x k) * (x * x / IZR (wz n k)) * / Rabs (bterm s n x k)) with (x * x / IZR (wz n k)) by (field; pose proof (wz_posR n k); lra).
      pose proof (wz_posR n k) as W. apply Rmult_lt_reg_r with (IZR (wz n k)); [exact W|]. unfold Rdiv. rewrite Rmult_assoc, Rinv_l, Rmult_1_r by lra.
      assert (BW : B < IZR (wz n k)).
      { eapply Rlt_le_trans; [exact A|]. apply IZR_le. unfold wz. assert (Rdefinitions.up B <= Z.of_nat k)%Z by lia. nia. }
      assert (x * x = B * e) by (unfold B; field; lra). rewrite H, Rmult_comm. apply Rmult_lt_compat_l; lra.
    + exists (v). intros e He. destruct (Hv e He) as [N HN]. exists N. intros m Hm. specialize (HN m Hm).
      unfold Pser in *. cbv beta in HN.
      rewrite (sum_eq _ (fun k => bterm s n x k)) in HN by (intros i _; rewrite pow1; ring). exact HN.
Qed.

Lemma I_exists : forall n x, exists v, is_I n x v.
Proof. intros. apply series_exists. apply Rabs_R1. Qed.
Lemma J_exists : forall n x, exists v, is_J n x v.
Proof. intros. apply series_exists. replace (-1) with (- (1)) by ring. rewrite Rabs_Ropp. apply Rabs_R1. Qed.
