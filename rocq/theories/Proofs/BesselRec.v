(** * Integer-order Bessel functions: recurrences, positivity, panics *)

From Coq Require Import ZArith Reals Bool Lra Lia List String.
From Flocq Require Import Core IEEE754.BinarySingleNaN IEEE754.Binary IEEE754.Bits.
From Verif.Model Require Import Base Arith BesselTables Bessel.
From Verif.Float Require Import Bits64 Ieee Exact.
From Verif.Spec Require Import F64Spec Outcome.
From Verif.Proofs Require Import F64 F64Ops Lits Ext Boundaries Domains UtilsBits UtilsSpec Symmetry BesselInt.
Import ListNotations.
Open Scope R_scope.

(** ** upward recurrences *)

Lemma upward_succ : forall {A : arith} comb tox n (p c : F A), (1 <= n)%Z ->
  upward comb tox (n + 1) p c
  = (snd (upward comb tox n p c),
     comb (mul (mul (of_int n) tox) (snd (upward comb tox n p c))) (fst (upward comb tox n p c))).
Proof.
  intros A comb tox n p c Hn. unfold upward. rewrite range_snoc by exact Hn.
  rewrite fold_left_app. reflexivity.
Qed.

Lemma Yn_pos : forall P n x, (1 <= n)%Z ->
  @Yn (ieee P) n x = snd (@upward (ieee P) (f64_sub P) (f64_div P (f64_lit 2.0) x) n (@y0 (ieee P) x) (@y1 (ieee P) x)).
Proof.
  intros P n x Hn. unfold Yn. replace (n =? 0)%Z with false by (symmetry; apply Z.eqb_neq; lia).
  destruct (Z.eqb_spec n 1) as [->|E]; reflexivity.
Qed.

Lemma Yn_prev : forall P n x, (1 <= n)%Z ->
  @Yn (ieee P) (n - 1) x = fst (@upward (ieee P) (f64_sub P) (f64_div P (f64_lit 2.0) x) n (@y0 (ieee P) x) (@y1 (ieee P) x)).
Proof.
  intros P n x Hn. destruct (Z.eq_dec n 1) as [->|E]; [reflexivity|].
  rewrite Yn_pos by lia. replace n with (n - 1 + 1)%Z at 2 by lia.
  rewrite upward_succ by lia. reflexivity.
Qed.

Lemma Yn_recurrence : forall P n x, (1 <= n)%Z ->
  @Yn (ieee P) (n + 1) x
  = f64_sub P (f64_mul P (f64_mul P (f64_of_Z n) (f64_div P (f64_lit 2.0) x)) (@Yn (ieee P) n x))
      (@Yn (ieee P) (n - 1) x).
Proof.
  intros P n x Hn. rewrite (Yn_pos P (n + 1)) by lia. rewrite upward_succ by lia. cbn [snd].
  rewrite <- Yn_pos, <- Yn_prev by lia. reflexivity.
Qed.

Lemma Kn_pos : forall P n x, (1 <= n)%Z ->
  @Kn (ieee P) n x = snd (@upward (ieee P) (f64_add P) (f64_div P (f64_lit 2.0) x) n (@k0 (ieee P) x) (@k1 (ieee P) x)).
Proof.
  intros P n x Hn. unfold Kn. replace (n =? 0)%Z with false by (symmetry; apply Z.eqb_neq; lia).
  destruct (Z.eqb_spec n 1) as [->|E]; reflexivity.
Qed.

Lemma Kn_prev : forall P n x, (1 <= n)%Z ->
  @Kn (ieee P) (n - 1) x = fst (@upward (ieee P) (f64_add P) (f64_div P (f64_lit 2.0) x) n (@k0 (ieee P) x) (@k1 (ieee P) x)).
Proof.
  intros P n x Hn. destruct (Z.eq_dec n 1) as [->|E]; [reflexivity|].
  rewrite Kn_pos by lia. replace n with (n - 1 + 1)%Z at 2 by lia.
  rewrite upward_succ by lia. reflexivity.
Qed.

Lemma Kn_recurrence : forall P n x, (1 <= n)%Z ->
  @Kn (ieee P) (n + 1) x
  = f64_add P (f64_mul P (f64_mul P (f64_of_Z n) (f64_div P (f64_lit 2.0) x)) (@Kn (ieee P) n x))
      (@Kn (ieee P) (n - 1) x).
Proof.
  intros P n x Hn. rewrite (Kn_pos P (n + 1)) by lia. rewrite upward_succ by lia. cbn [snd].
  rewrite <- Kn_pos, <- Kn_prev by lia. reflexivity.
Qed.

(** ** positivity of K *)

Lemma fmt_min : fmt (bpow radix2 (-1074)).
Proof. apply fmt_bpow. lia. Qed.

Lemma two_over_pos : forall P x, positive x -> finite x -> positive (f64_div P (f64_lit 2.0) x).
Proof.
  intros P x [N V] F. rewrite val_fin in V by exact F.
  destruct (div_spec P (f64_lit 2.0) x fin_2 F) as [Nd Vd]; [lra|]. split; [exact Nd|].
  rewrite Vd. rewrite <- val_fin by apply fin_2. rewrite val_2.
  apply Rlt_le_trans with (bpow radix2 (-1074)); [apply bpow_gt_0|].
  apply rs_ge; [apply fmt_min|apply bpow_le; lia|].
  apply Rle_trans with (bpow radix2 (-1023)); [apply bpow_le; lia|].
  assert (B : Binary.B2R x <= bpow radix2 1024).
  { pose proof (B2R_lt_Om x) as Q. rewrite Rabs_pos_eq in Q by lra. unfold Om in Q. lra. }
  replace (bpow radix2 (-1023)) with (2 / bpow radix2 1024).
  - unfold Rdiv. apply Rmult_le_compat_l; [lra|]. apply Rinv_le_contravar; [exact V|exact B].
  - replace (-1023)%Z with (1 + - (1024))%Z by lia. rewrite bpow_plus, (bpow_opp radix2 1024). reflexivity.
Qed.

(** the product with a number of at least 1 does not underflow *)
Lemma mul_ge1_pos : forall P x y, number x -> 1 <= val x -> positive y -> positive (f64_mul P x y).
Proof.
  intros P x y Nx Vx Hy. assert (Hx : positive x) by (split; [exact Nx|lra]).
  destruct (mul_pos P x y Hx Hy) as [N V]. split; [exact N|].
  destruct (fin_or_inf x Nx) as [Fx|[s ->]].
  - destruct (fin_or_inf y (proj1 Hy)) as [Fy|[s ->]].
    + destruct (mul_spec P x y Fx Fy) as [_ W]. rewrite W. rewrite <- !val_fin by assumption.
      apply Rlt_le_trans with (val y); [apply Hy|].
      apply rs_ge; [apply val_fmt|apply val_bound|]. destruct Hy. nra.
    + assert (s = false) as -> by (apply inf_nonneg; destruct Hy; lra).
      rewrite (eqn_nonnan _ _ (mul_comm P x _) N). rewrite inf_fin_mul; [|exact Fx|lra].
      rewrite sign_pos by (exact Nx || lra). apply Om_pos.
  - assert (s = false) as -> by (apply inf_nonneg; lra).
    destruct (fin_or_inf y (proj1 Hy)) as [Fy|[s ->]].
    + rewrite inf_fin_mul; [|exact Fy|destruct Hy; lra].
      rewrite sign_pos by apply Hy. apply Om_pos.
    + assert (s = false) as -> by (apply inf_nonneg; destruct Hy; lra). apply Om_pos.
Qed.

Lemma of_Z_ge1 : forall n, (1 <= n)%Z -> number (f64_of_Z n) /\ 1 <= val (f64_of_Z n).
Proof.
  intros n Hn. destruct (of_Z_spec n) as [N V]. split; [exact N|]. rewrite V.
  apply rs_ge; [apply (fmt_IZR 1); vm_compute; discriminate|pose proof Om_big; lra|].
  apply IZR_le. exact Hn.
Qed.

(** A nonnegative coefficient times a nonnegative K plus the K before *)
Lemma K_coef : forall P n x, (1 <= n)%Z -> positive x -> finite x ->
  positive (f64_mul P (f64_of_Z n) (f64_div P (f64_lit 2.0) x)).
Proof.
  intros P n x Hn Hx Fx. destruct (of_Z_ge1 n Hn) as [Nn Vn].
  apply mul_ge1_pos; [exact Nn|exact Vn|]. apply two_over_pos; assumption.
Qed.

Lemma K_invariant : forall P x, positive x -> finite x ->
  positive (@k0 (ieee P) x) -> positive (@k1 (ieee P) x) ->
  forall n, (1 <= n)%Z -> positive (@Kn (ieee P) (n - 1) x) /\ positive (@Kn (ieee P) n x).
Proof.
  intros P x Hx Fx H0 H1 n Hn.
  refine (Zlt_lower_bound_ind (fun n => positive (@Kn (ieee P) (n - 1) x) /\ positive (@Kn (ieee P) n x)) 1 _ n Hn).
  clear n Hn. intros n IH Hn. destruct (Z.eq_dec n 1) as [->|E]; [split; assumption|].
  destruct (IH (n - 1)%Z ltac:(lia)) as [A B]. split; [exact B|].
  replace n with (n - 1 + 1)%Z by lia. rewrite Kn_recurrence by lia.
  pose proof (mul_pos P _ _ (K_coef P (n - 1) x ltac:(lia) Hx Fx) B) as Q.
  assert (A' : nonneg (@Kn (ieee P) (n - 1 - 1) x)) by (destruct A; split; [assumption|lra]).
  destruct (add_nonneg P _ _ Q A') as ([N _] & _ & V). split; [exact N|].
  destruct A. lra.
Qed.

Lemma Kn_positive : forall P x, positive x -> finite x ->
  positive (@Kn (ieee P) 0 x) -> positive (@Kn (ieee P) 1 x) ->
  forall n, (0 <= n)%Z ->
  positive (@Kn (ieee P) n x)
  /\ val (@Kn (ieee P) n x) <= val (@Kn (ieee P) (n + 2) x).
Proof.
  intros P x Hx Fx H0 H1 n Hn.
  assert (A : positive (@Kn (ieee P) n x) /\ positive (@Kn (ieee P) (n + 1) x)).
  { replace n with (n + 1 - 1)%Z at 1 by lia. apply K_invariant; try assumption. lia. }
  destruct A as [A B]. split; [exact A|].
  replace (n + 2)%Z with (n + 1 + 1)%Z by lia. rewrite Kn_recurrence by lia.
  replace (n + 1 - 1)%Z with n by lia.
  pose proof (mul_pos P _ _ (K_coef P (n + 1) x ltac:(lia) Hx Fx) B) as Q.
  apply add_nonneg; [exact Q|]. destruct A; split; [assumption|lra].
Qed.

(** ** nonnegative case: a finite coefficient *)
Lemma K_coef_fin : forall P n x, (1 <= n < 2 ^ 32)%Z -> finite x -> bpow radix2 (-900) <= val x ->
  fin (f64_mul P (f64_of_Z n) (f64_div P (f64_lit 2.0) x)).
Proof.
  intros P n x Hn Fx Vx. pose proof (bpow_gt_0 radix2 (-900)) as G.
  destruct (of_Z_exact n) as [Fn En]; [lia|].
  assert (Vx' : 0 < Binary.B2R x) by (rewrite <- val_fin by exact Fx; lra).
  destruct (div_spec P (f64_lit 2.0) x fin_2 Fx) as [Nd Vd]; [lra|].
  rewrite <- !val_fin, val_2 in Vd by (exact Fx || apply fin_2).
  assert (B : 0 <= 2 / val x <= bpow radix2 901).
  { split.
    - apply Rmult_le_pos; [lra|]. left. apply Rinv_0_lt_compat. lra.
    - replace 901%Z with (1 + - (-900))%Z by lia. rewrite bpow_plus, bpow_opp.
      change (bpow radix2 1) with 2. apply Rmult_le_compat_l; [lra|].
      apply Rinv_le_contravar; [exact G|exact Vx]. }
  assert (C : 0 <= val (f64_div P (f64_lit 2.0) x) <= bpow radix2 901).
  { rewrite Vd. split; [apply rs_pos; lra|].
    apply rs_le_fmt; [apply fmt_bpow; lia|pose proof (bpow_gt_0 radix2 901); pose proof Om_pos; lra|lra]. }
  assert (Fd : fin (f64_div P (f64_lit 2.0) x)).
  { apply (fin_of_bound _ (bpow radix2 901)); [exact Nd|rewrite Rabs_pos_eq; lra|apply bpow_lt; lia]. }
  destruct (mul_spec P _ _ Fn Fd) as [Nm Vm]. rewrite En, <- val_fin in Vm by exact Fd.
  apply (fin_of_bound _ (bpow radix2 933)); [exact Nm| |apply bpow_lt; lia].
  assert (D : 0 <= IZR n * val (f64_div P (f64_lit 2.0) x) <= bpow radix2 933).
  { assert (In1 : 0 <= IZR n <= bpow radix2 32).
    { split; [apply IZR_le; lia|]. rewrite bpow2_nonneg_IZR by lia. apply IZR_le. lia. }
    split; [apply Rmult_le_pos; lra|]. replace 933%Z with (32 + 901)%Z by lia. rewrite bpow_plus.
    apply Rmult_le_compat; lra. }
  rewrite Vm, Rabs_pos_eq by (apply rs_pos; lra).
  apply rs_le_fmt; [apply fmt_bpow; lia|pose proof (bpow_gt_0 radix2 933); pose proof Om_pos; lra|lra].
Qed.

Lemma mul_pos_fin_nonneg : forall P c k, positive c -> fin c -> nonneg k -> nonneg (f64_mul P c k).
Proof.
  intros P c k Hc Fc [Nk [Vk|Vk]].
  - apply mul_pos; [exact Hc|split; assumption].
  - apply fin_mul_nonneg; [destruct Hc; split; [assumption|lra]|split; [exact Nk|lra]|exact Fc|].
    apply (fin_of_bound _ 0); [exact Nk|rewrite <- Vk, Rabs_R0; lra|apply Om_pos].
Qed.

Lemma K_invariant0 : forall P x, finite x -> bpow radix2 (-900) <= val x ->
  nonneg (@k0 (ieee P) x) -> nonneg (@k1 (ieee P) x) ->
  forall n, (1 <= n)%Z -> (n < 2 ^ 32)%Z -> nonneg (@Kn (ieee P) (n - 1) x) /\ nonneg (@Kn (ieee P) n x).
Proof.
  intros P x Fx Vx H0 H1 n Hn. pose proof (bpow_gt_0 radix2 (-900)) as G.
  assert (Hx : positive x) by (split; [apply fin_nonnan; exact Fx|lra]).
  refine (Zlt_lower_bound_ind (fun n => (n < 2 ^ 32)%Z -> nonneg (@Kn (ieee P) (n - 1) x) /\ nonneg (@Kn (ieee P) n x)) 1 _ n Hn).
  clear n Hn. intros n IH Hn Hb. destruct (Z.eq_dec n 1) as [->|E]; [split; assumption|].
  destruct (IH (n - 1)%Z ltac:(lia) ltac:(lia)) as [A B]. split; [exact B|].
  replace n with (n - 1 + 1)%Z by lia. rewrite Kn_recurrence by lia.
  apply add_nonneg; [|exact A].
  apply mul_pos_fin_nonneg; [apply K_coef; try assumption; lia|apply K_coef_fin; try assumption; lia|exact B].
Qed.

Lemma Kn_nonneg : forall P x, finite x -> bpow radix2 (-900) <= val x ->
  nonneg (@Kn (ieee P) 0 x) -> nonneg (@Kn (ieee P) 1 x) ->
  forall n, (0 <= n)%Z -> (n + 2 < 2 ^ 32)%Z ->
  nonneg (@Kn (ieee P) n x)
  /\ val (@Kn (ieee P) n x) <= val (@Kn (ieee P) (n + 2) x).
Proof.
  intros P x Fx Vx H0 H1 n Hn Hb. pose proof (bpow_gt_0 radix2 (-900)) as G.
  assert (Hx : positive x) by (split; [apply fin_nonnan; exact Fx|lra]).
  assert (A : nonneg (@Kn (ieee P) n x) /\ nonneg (@Kn (ieee P) (n + 1) x)).
  { replace n with (n + 1 - 1)%Z at 1 by lia. apply K_invariant0; try assumption; lia. }
  destruct A as [A B]. split; [exact A|].
  replace (n + 2)%Z with (n + 1 + 1)%Z by lia. rewrite Kn_recurrence by lia.
  replace (n + 1 - 1)%Z with n by lia.
  apply add_nonneg; [|exact A].
  apply mul_pos_fin_nonneg; [apply K_coef; try assumption; lia|apply K_coef_fin; try assumption; lia|exact B].
Qed.

(** ** Jn beyond its order *)

Lemma gt_of_int : forall x n, (0 <= n <= 2 ^ 53)%Z -> number x -> IZR n < Rabs (val x) ->
  f64_lt (f64_of_Z n) (f64_abs x) = true.
Proof.
  intros x n Hn N V. destruct (of_Z_exact n) as [Fn En]; [lia|]. apply lt_true.
  split; [apply fin_nonnan; exact Fn|]. split; [rewrite nan_abs; exact N|].
  rewrite val_fin by exact Fn. rewrite En, val_abs. exact V.
Qed.

Lemma large_not_small : forall P x, number x -> 1 < Rabs (val x) ->
  f64_le (@powi2 (ieee P) x) (f64_mul P (f64_lit 8.0) f64_tiny) = false.
Proof.
  intros P x N V. destruct (tiny_thr P) as [Nt Vt].
  assert (L : bpow radix2 (-1019) < 1) by (apply (bpow_lt radix2 (-1019) 0); lia).
  unfold powi2. ieee_simpl.
  destruct (fin_or_inf x N) as [Fx|[s ->]].
  - destruct (mul_spec P x x Fx Fx) as [Nm Vm]. apply le_false; [exact Nm|exact Nt|].
    rewrite Vt, Vm, <- !val_fin by exact Fx. apply Rlt_le_trans with 1; [exact L|].
    apply rs_ge; [apply (fmt_IZR 1); vm_compute; discriminate|pose proof Om_big; lra|].
    rewrite <- (Rabs_pos_eq (val x * val x)) by nra. rewrite Rabs_mult. nra.
  - apply le_false; [destruct s; reflexivity|exact Nt|]. rewrite Vt.
    replace (f64_mul P (B754_infinity s) (B754_infinity s)) with (B754_infinity false : f64) by (destruct s; reflexivity).
    rewrite val_inf_f. pose proof Om_big. lra.
Qed.

Definition jup (P : platform) (n : Z) (ax : f64) : f64 * f64 :=
  @upward (ieee P) (f64_sub P) (f64_div P (f64_lit 2.0) ax) n (@j0 (ieee P) ax) (@j1 (ieee P) ax).

Lemma Jn_up : forall P n x, (2 <= n <= 2 ^ 53)%Z -> number x -> IZR n < Rabs (val x) ->
  @Jn (ieee P) n x
  = Ok (if (f64_lt x (f64_lit 0.0) && (n mod 2 =? 1)%Z)%bool then f64_neg (snd (jup P n (f64_abs x)))
        else snd (jup P n (f64_abs x))).
Proof.
  intros P n x Hn N V. assert (V1 : 1 < Rabs (val x)).
  { eapply Rle_lt_trans; [|exact V]. apply IZR_le. lia. }
  unfold Jn. replace (n =? 0)%Z with false by (symmetry; apply Z.eqb_neq; lia).
  replace (n =? 1)%Z with false by (symmetry; apply Z.eqb_neq; lia).
  pose proof (large_not_small P x N V1) as L. pose proof (gt_of_int x n ltac:(lia) N V) as G.
  ieee_simpl. ieee_simpl_in L. rewrite L, G. unfold bind. fold (jup P n (f64_abs x)).
  destruct (_ && _)%bool; reflexivity.
Qed.

Lemma abs_abs : forall x, f64_abs (f64_abs x) = f64_abs x.
Proof. intros []; reflexivity. Qed.

Lemma abs_not_neg : forall x, f64_lt (f64_abs x) (f64_lit 0.0) = false.
Proof.
  intros x. destruct (f64_lt (f64_abs x) (f64_lit 0.0)) eqn:E; [exfalso|reflexivity].
  apply lt0_true in E. destruct E as [_ E]. rewrite val_abs in E. pose proof (Rabs_pos (val x)). lra.
Qed.

Lemma Jn_abs : forall P n x, (1 <= n <= 2 ^ 53)%Z -> number x -> IZR n < Rabs (val x) ->
  @Jn (ieee P) n (f64_abs x) = Ok (snd (jup P n (f64_abs x))).
Proof.
  intros P n x Hn N V. destruct (Z.eq_dec n 1) as [->|E]; [reflexivity|].
  rewrite Jn_up; [|lia|unfold number; rewrite nan_abs; exact N|rewrite val_abs, Rabs_Rabsolu; exact V].
  rewrite abs_abs, abs_not_neg. reflexivity.
Qed.

Lemma Jn_abs_prev : forall P n x, (1 <= n <= 2 ^ 53)%Z -> number x -> IZR n < Rabs (val x) ->
  @Jn (ieee P) (n - 1) (f64_abs x) = Ok (fst (jup P n (f64_abs x))).
Proof.
  intros P n x Hn N V. destruct (Z.eq_dec n 1) as [->|E]; [reflexivity|].
  rewrite Jn_abs; [|lia|exact N|eapply Rle_lt_trans; [|exact V]; apply IZR_le; lia].
  unfold jup at 2. replace n with (n - 1 + 1)%Z at 2 by lia. rewrite upward_succ by lia. reflexivity.
Qed.

Lemma Jn_recurrence : forall P n x, (1 <= n < 2 ^ 53)%Z -> number x -> IZR (n + 1) < Rabs (val x) ->
  exists prev cur, @Jn (ieee P) (n - 1) (f64_abs x) = Ok prev /\ @Jn (ieee P) n (f64_abs x) = Ok cur
  /\ let next := f64_sub P (f64_mul P (f64_mul P (f64_of_Z n) (f64_div P (f64_lit 2.0) (f64_abs x))) cur) prev in
     @Jn (ieee P) (n + 1) x
     = Ok (if (f64_lt x (f64_lit 0.0) && ((n + 1) mod 2 =? 1)%Z)%bool then f64_neg next else next).
Proof.
  intros P n x Hn N V.
  assert (V' : IZR n < Rabs (val x)) by (eapply Rle_lt_trans; [|exact V]; apply IZR_le; lia).
  exists (fst (jup P n (f64_abs x))), (snd (jup P n (f64_abs x))).
  split; [apply Jn_abs_prev; [lia|exact N|exact V']|]. split; [apply Jn_abs; [lia|exact N|exact V']|].
  cbv zeta. rewrite Jn_up by (lia || assumption). unfold jup at 1 2. rewrite upward_succ by lia.
  cbn [snd]. reflexivity.
Qed.
