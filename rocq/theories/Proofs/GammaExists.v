(** * A gamma function exists *)

From Coq Require Import ZArith Reals Lra Lia List.
From Verif.Spec Require Import GammaSpec.
From Verif.Proofs Require Import Poly PolyZ PolyShift ErfcODE ExpBounds Stirling.
Import ListNotations.
Open Scope R_scope.

Definition s1 : list Z := [0; 1]%Z.
Lemma s0_lo : forall x, 0 < x -> dl [] 1 x <= 0.
Proof. apply dl_nonpos; [reflexivity|reflexivity|vm_compute; reflexivity|vm_compute; reflexivity]. Qed.
Lemma s1_up : forall x, 0 < x -> 0 <= dl s1 12 x.
Proof. apply dl_nonneg; [reflexivity|reflexivity|vm_compute; reflexivity|vm_compute; reflexivity]. Qed.

Definition S0 (x : R) : R := ST [] 1 x.
Definition S1 (x : R) : R := ST s1 12 x.
Lemma S0_S1 : forall x, S1 x = S0 x + / x / 12.
Proof.
  intros x. unfold S0, S1, ST, pinv, s1. rewrite !peval_cons. change (peval [] (/ x)) with 0. generalize (/ x). intros y.
  change (IZR 12) with 12. change (IZR 1) with 1. change (IZR 0) with 0. lra.
Qed.

(** ln x + ln (x + 1) + ... + ln (x + n - 1) *)
Fixpoint lsum (n : nat) (x : R) : R := match n with O => 0 | S k => lsum k x + ln (x + INR k) end.
Lemma lsum_shift : forall n x, lsum (S n) x = ln x + lsum n (x + 1).
Proof.
  induction n as [|n IH]; intros x; [cbn [lsum]; simpl INR; rewrite Rplus_0_r; ring|].
  change (lsum (S (S n)) x) with (lsum (S n) x + ln (x + INR (S n))). rewrite IH. cbn [lsum]. rewrite S_INR.
  replace (x + (INR n + 1)) with (x + 1 + INR n) by ring. ring.
Qed.

Definition an (x : R) (n : nat) : R := S0 (x + INR n) - lsum n x.
Definition bn (x : R) (n : nat) : R := S1 (x + INR n) - lsum n x.

Lemma an_step : forall x n, 0 < x -> an x n <= an x (S n).
Proof.
  intros x n Hx. unfold an. cbn [lsum]. rewrite S_INR. pose proof (pos_INR n). pose proof (s0_lo (x + INR n) ltac:(lra)) as D.
  unfold dl in D. fold S0 in D. replace (x + (INR n + 1)) with (x + INR n + 1) by ring. fold (S0 (x + INR n)) in D. fold (S0 (x + INR n + 1)) in D. lra.
Qed.
Lemma bn_step : forall x n, 0 < x -> bn x (S n) <= bn x n.
Proof.
  intros x n Hx. unfold bn. cbn [lsum]. rewrite S_INR. pose proof (pos_INR n). pose proof (s1_up (x + INR n) ltac:(lra)) as D.
  unfold dl in D. replace (x + (INR n + 1)) with (x + INR n + 1) by ring. fold (S1 (x + INR n)) in D. fold (S1 (x + INR n + 1)) in D. lra.
Qed.
Lemma an_bn : forall x n, 0 < x -> an x n <= bn x n.
Proof.
  intros x n Hx. unfold an, bn. rewrite S0_S1. pose proof (pos_INR n).
  assert (0 < / (x + INR n)) by (apply Rinv_0_lt_compat; lra). lra.
Qed.
Lemma bn_0 : forall x n, 0 < x -> bn x n <= bn x 0.
Proof. intros x n Hx. induction n as [|n IH]; [lra|]. pose proof (bn_step x n Hx). lra. Qed.

Lemma an_cv : forall x, 0 < x -> { l | Un_cv (an x) l }.
Proof.
  intros x Hx. apply growing_cv; [intros n; apply an_step, Hx|]. exists (bn x 0). intros y [n ->].
  eapply Rle_trans; [apply an_bn, Hx|apply bn_0, Hx].
Qed.
Definition L (x : R) : R := match Rlt_dec 0 x with left H => proj1_sig (an_cv x H) | right _ => 0 end.
Lemma L_cv : forall x, 0 < x -> Un_cv (an x) (L x).
Proof. intros x Hx. unfold L. destruct (Rlt_dec 0 x) as [H|H]; [apply (proj2_sig (an_cv x H))|contradiction]. Qed.

Lemma L_step : forall x, 0 < x -> L (x + 1) = L x + ln x.
Proof.
  intros x Hx. apply (UL_sequence (an (x + 1))); [apply L_cv; lra|].
  assert (E : forall n, an (x + 1) n = an x (S n) + ln x).
  { intros n. unfold an. rewrite lsum_shift, S_INR. replace (x + (INR n + 1)) with (x + 1 + INR n) by ring. ring. }
  intros eps He. destruct (L_cv x Hx eps He) as [N HN]. exists N. intros n Hn. rewrite E. unfold R_dist in *.
  replace (an x (S n) + ln x - (L x + ln x)) with (an x (S n) - L x) by ring. apply HN. lia.
Qed.

(** ** Convexity *)
Lemma convex_1 : forall f f1 f2, (forall x, 0 < x -> derivable_pt_lim f x (f1 x)) -> (forall x, 0 < x -> derivable_pt_lim f1 x (f2 x)) ->
  (forall x, 0 < x -> 0 <= f2 x) -> forall x y t, 0 < x -> 0 < y -> 0 <= t <= 1 -> f (t * x + (1 - t) * y) <= t * f x + (1 - t) * f y.
Proof.
  intros f f1 f2 D1 D2 P.
  assert (M : forall a b, 0 < a -> a <= b -> f1 a <= f1 b).
  { intros a b Ha Hb. apply (mono_on f1 f2 a b Hb); intros; [apply D2|apply P]; lra. }
  assert (T : forall m z, 0 < m -> 0 < z -> f m + f1 m * (z - m) <= f z).
  { intros m z Hm Hz. destruct (Rtotal_order m z) as [H|[->|H]]; [| lra |].
    - destruct (MVT_cor2 f f1 m z H) as (c & E & Hc); [intros; apply D1; lra|].
      assert (f1 m * (z - m) <= f1 c * (z - m)) by (apply Rmult_le_compat_r; [lra|apply M; lra]). lra.
    - destruct (MVT_cor2 f f1 z m H) as (c & E & Hc); [intros; apply D1; lra|].
      assert (f1 c * (m - z) <= f1 m * (m - z)) by (apply Rmult_le_compat_r; [lra|apply M; lra]). lra. }
  intros x y t Hx Hy Ht. set (m := t * x + (1 - t) * y).
  assert (Hm : 0 < m).
  { unfold m. destruct (Rle_or_lt t (1 / 2)).
    - assert (0 <= t * x) by (apply Rmult_le_pos; lra). assert (0 < (1 - t) * y) by (apply Rmult_lt_0_compat; lra). lra.
    - assert (0 < t * x) by (apply Rmult_lt_0_compat; lra). assert (0 <= (1 - t) * y) by (apply Rmult_le_pos; lra). lra. }
  pose proof (T m x Hm Hx) as T1. pose proof (T m y Hm Hy) as T2.
  assert (A1 : t * (f m + f1 m * (x - m)) <= t * f x) by (apply Rmult_le_compat_l; lra).
  assert (A2 : (1 - t) * (f m + f1 m * (y - m)) <= (1 - t) * f y) by (apply Rmult_le_compat_l; lra).
  assert (E : t * (f m + f1 m * (x - m)) + (1 - t) * (f m + f1 m * (y - m)) = f m) by (unfold m; ring). lra.
Qed.

Lemma S0_convex : forall x y t, 0 < x -> 0 < y -> 0 <= t <= 1 -> S0 (t * x + (1 - t) * y) <= t * S0 x + (1 - t) * S0 y.
Proof.
  apply (convex_1 (ST [] 1) (ST1 [] 1) (ST2 [] 1)).
  - intros x Hx. apply derive_ST; [lia|exact Hx].
  - intros x Hx. apply derive_ST1; [lia|exact Hx].
  - intros x Hx. unfold ST2.
    replace (pinv (dinv (dinv [])) x / 1) with 0 by (unfold pinv; change (dinv (dinv [])) with [0; 0; 0; 0]%Z; rewrite !peval_cons; change (peval [] (/ x)) with 0; field; lra).
    assert (0 < / x) by (apply Rinv_0_lt_compat, Hx). assert (0 < / (2 * (x * x))) by (apply Rinv_0_lt_compat; repeat apply Rmult_lt_0_compat; lra). lra.
Qed.
Lemma ln_concave : forall x y t, 0 < x -> 0 < y -> 0 <= t <= 1 -> t * ln x + (1 - t) * ln y <= ln (t * x + (1 - t) * y).
Proof.
  intros x y t Hx Hy Ht. enough (- ln (t * x + (1 - t) * y) <= t * - ln x + (1 - t) * - ln y) by lra.
  apply (convex_1 (fun x => - ln x) (fun x => - / x) (fun x => / (x * x))); try assumption.
  - intros z Hz. apply (derivable_pt_lim_opp ln), derive_ln, Hz.
  - intros z Hz. replace (/ (z * z)) with (- ((0 * z - 1 * 1) / Rsqr z)) by (unfold Rsqr; field; lra).
    apply (derivable_pt_lim_opp (fun w => / w)).
    assert (Q : derivable_pt_lim (fun w => 1 / w) z ((0 * z - 1 * 1) / Rsqr z)).
    { apply (derivable_pt_lim_div (fun _ => 1) (fun w => w)); [apply derivable_pt_lim_const|apply derivable_pt_lim_id|lra]. }
    intros eps He. destruct (Q eps He) as [d Hd]. exists d. intros h H1 H2. specialize (Hd h H1 H2). unfold Rdiv in Hd at 2 3. rewrite !Rmult_1_l in Hd. rewrite Rmult_1_l. exact Hd.
  - intros z Hz. left. apply Rinv_0_lt_compat, Rmult_lt_0_compat; exact Hz.
Qed.
Lemma lsum_concave : forall n x y t, 0 < x -> 0 < y -> 0 <= t <= 1 -> t * lsum n x + (1 - t) * lsum n y <= lsum n (t * x + (1 - t) * y).
Proof.
  induction n as [|n IH]; intros x y t Hx Hy Ht; [cbn [lsum]; lra|]. cbn [lsum]. specialize (IH x y t Hx Hy Ht). pose proof (pos_INR n).
  pose proof (ln_concave (x + INR n) (y + INR n) t ltac:(lra) ltac:(lra) Ht) as C.
  replace (t * (x + INR n) + (1 - t) * (y + INR n)) with (t * x + (1 - t) * y + INR n) in C by ring. lra.
Qed.
Lemma an_convex : forall n x y t, 0 < x -> 0 < y -> 0 <= t <= 1 -> an (t * x + (1 - t) * y) n <= t * an x n + (1 - t) * an y n.
Proof.
  intros n x y t Hx Hy Ht. unfold an. pose proof (lsum_concave n x y t Hx Hy Ht). pose proof (pos_INR n).
  pose proof (S0_convex (x + INR n) (y + INR n) t ltac:(lra) ltac:(lra) Ht) as C.
  replace (t * (x + INR n) + (1 - t) * (y + INR n)) with (t * x + (1 - t) * y + INR n) in C by ring. lra.
Qed.
Lemma mix_pos : forall x y t, 0 < x -> 0 < y -> 0 <= t <= 1 -> 0 < t * x + (1 - t) * y.
Proof.
  intros x y t Hx Hy Ht. destruct (Rle_or_lt t (1 / 2)).
  - assert (0 <= t * x) by (apply Rmult_le_pos; lra). assert (0 < (1 - t) * y) by (apply Rmult_lt_0_compat; lra). lra.
  - assert (0 < t * x) by (apply Rmult_lt_0_compat; lra). assert (0 <= (1 - t) * y) by (apply Rmult_le_pos; lra). lra.
Qed.
Lemma L_convex : forall x y t, 0 < x -> 0 < y -> 0 <= t <= 1 -> L (t * x + (1 - t) * y) <= t * L x + (1 - t) * L y.
Proof.
  intros x y t Hx Hy Ht.
  apply (@Rle_cv_lim (an (t * x + (1 - t) * y)) (fun n => t * an x n + (1 - t) * an y n)).
  - intros n. apply an_convex; assumption.
  - apply L_cv, mix_pos; assumption.
  - apply (CV_plus (fun n => t * an x n) (fun n => (1 - t) * an y n)).
    + apply (CV_mult (fun _ => t) (an x)); [|apply L_cv, Hx]. intros eps He. exists 0%nat. intros. unfold R_dist. rewrite Rminus_diag_eq, Rabs_R0 by reflexivity. exact He.
    + apply (CV_mult (fun _ => 1 - t) (an y)); [|apply L_cv, Hy]. intros eps He. exists 0%nat. intros. unfold R_dist. rewrite Rminus_diag_eq, Rabs_R0 by reflexivity. exact He.
Qed.

(** ** The function, extended to the left by the recurrence *)
Definition gpos (x : R) : R := exp (L x - L 1).
Lemma gpos_step : forall x, 0 < x -> gpos (x + 1) = x * gpos x.
Proof. intros x Hx. unfold gpos. rewrite L_step by exact Hx. replace (L x + ln x - L 1) with (ln x + (L x - L 1)) by ring. rewrite exp_plus, exp_ln by exact Hx. reflexivity. Qed.
Fixpoint gext (n : nat) (x : R) : R := match n with O => gpos x | S k => gext k (x + 1) / x end.
Lemma gext_S : forall n x, 0 < x + INR n -> gext (S n) x = gext n x.
Proof.
  induction n as [|n IH]; intros x H.
  - simpl INR in H. cbn [gext]. rewrite gpos_step by lra. field. lra.
  - change (gext (S (S n)) x) with (gext (S n) (x + 1) / x). rewrite IH; [reflexivity|]. rewrite S_INR in H. lra.
Qed.
Lemma gext_plus : forall k n x, 0 < x + INR n -> gext (k + n) x = gext n x.
Proof.
  induction k as [|k IH]; intros n x H; [reflexivity|]. cbn [Nat.add]. rewrite gext_S; [apply IH, H|].
  rewrite plus_INR. pose proof (pos_INR k). lra.
Qed.
Definition depth (x : R) : nat := Z.to_nat (Rdefinitions.up (- x)).
Lemma depth_ok : forall x, 0 < x + INR (depth x).
Proof.
  intros x. unfold depth. destruct (archimed (- x)) as [A _]. rewrite INR_IZR_INZ.
  assert (H : IZR (Rdefinitions.up (- x)) <= IZR (Z.of_nat (Z.to_nat (Rdefinitions.up (- x))))) by (apply IZR_le; lia). lra.
Qed.
Definition GG (x : R) : R := gext (depth x) x.
Lemma GG_any : forall n x, 0 < x + INR n -> GG x = gext n x.
Proof.
  intros n x H. unfold GG. pose proof (depth_ok x) as D. rewrite <- (gext_plus n (depth x) x D), Nat.add_comm. apply gext_plus, H.
Qed.
Lemma GG_pos : forall x, 0 < x -> GG x = gpos x.
Proof. intros x Hx. apply (GG_any 0). simpl INR. lra. Qed.

Theorem gamma_exists : gamma_function GG.
Proof.
  split; [|split; [|split]].
  - intros x Hx. rewrite GG_pos by exact Hx. apply exp_pos.
  - rewrite GG_pos by lra. unfold gpos. rewrite Rminus_diag_eq by reflexivity. apply exp_0.
  - intros x Hn. assert (X0 : x <> 0) by (specialize (Hn 0%nat); simpl in Hn; lra).
    set (n := depth x). pose proof (depth_ok x) as D. fold n in D.
    rewrite (GG_any n (x + 1)) by lra. rewrite (GG_any (S n) x) by (rewrite S_INR; lra). cbn [gext]. field. exact X0.
  - intros x y t Hx Hy Ht. rewrite !GG_pos; [|exact Hy|exact Hx|apply mix_pos; assumption]. unfold gpos. rewrite !ln_exp.
    pose proof (L_convex x y t Hx Hy Ht). lra.
Qed.
