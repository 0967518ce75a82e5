(** * Stirling's series brackets the logarithm of the gamma function *)

From Coq Require Import ZArith Reals Lra Lia List.
From Flocq Require Import Core.Raux.
From Verif.Spec Require Import GammaSpec.
From Verif.Proofs Require Import Poly PolyZ PolyShift ErfcODE.
Import ListNotations.
Open Scope R_scope.

(** ** Convex functions that vanish at infinity are nonnegative *)

Definition vanishes (f : R -> R) : Prop := forall eps, 0 < eps -> exists B, forall x, B <= x -> Rabs (f x) <= eps.

Lemma convex_vanishing : forall f f1 f2 : R -> R,
  (forall x, 0 < x -> derivable_pt_lim f x (f1 x)) -> (forall x, 0 < x -> derivable_pt_lim f1 x (f2 x)) ->
  (forall x, 0 < x -> 0 <= f2 x) -> vanishes f -> forall x, 0 < x -> 0 <= f x.
Proof.
  intros f f1 f2 D1 D2 H2 V.
  assert (M : forall a b, 0 < a -> a <= b -> f1 a <= f1 b).
  { intros a b Ha Hab. apply (mono_on f1 f2 a b Hab); intros t Ht; [apply D2|apply H2]; lra. }
  assert (N : forall a, 0 < a -> f1 a <= 0).
  { intros a Ha. destruct (Rle_or_lt (f1 a) 0) as [H|H]; [exact H|exfalso].
    destruct (V 1 ltac:(lra)) as [B HB].
    set (x := Rmax B (a + (2 + Rabs (f a)) / f1 a)).
    assert (Px : 0 < (2 + Rabs (f a)) / f1 a) by (apply Rdiv_lt_0_compat; [pose proof (Rabs_pos (f a)); lra|exact H]).
    assert (X1 : B <= x) by apply Rmax_l. assert (X2 : a + (2 + Rabs (f a)) / f1 a <= x) by apply Rmax_r.
    assert (L : f a - f1 a * a <= f x - f1 a * x).
    { apply (mono_on (fun t => f t - f1 a * t) (fun t => f1 t - f1 a) a x); [lra| |].
      - intros t Ht. apply derivable_pt_lim_minus; [apply D1; lra|]. replace (f1 a) with (f1 a * 1) at 2 by ring.
        apply (derivable_pt_lim_scal id (f1 a)), derivable_pt_lim_id.
      - intros t Ht. pose proof (M a t Ha ltac:(lra)). lra. }
    assert (Q : 2 + Rabs (f a) <= f1 a * (x - a)).
    { apply Rle_trans with (f1 a * ((2 + Rabs (f a)) / f1 a)); [right; field; lra|]. apply Rmult_le_compat_l; lra. }
    pose proof (HB x X1) as Hx. apply Rabs_le_inv in Hx. pose proof (Rabs_pos (f a)). pose proof (Rle_abs (- f a)) as Ra. rewrite Rabs_Ropp in Ra. lra. }
  intros x Hx. destruct (Rle_or_lt 0 (f x)) as [H|H]; [exact H|exfalso].
  destruct (V (- f x / 2) ltac:(lra)) as [B HB]. pose proof (HB (Rmax B x) (Rmax_l _ _)) as Hb. apply Rabs_le_inv in Hb.
  assert (L : - f x <= - f (Rmax B x)).
  { apply (mono_on (fun t => - f t) (fun t => - f1 t) x (Rmax B x) (Rmax_r _ _)).
    - intros t Ht. apply (derivable_pt_lim_opp f). apply D1. lra.
    - intros t Ht. pose proof (N t ltac:(lra)). lra. }
  lra.
Qed.

(** ** Polynomials in 1 / x *)

Definition pinv (l : list Z) (x : R) : R := peval l (/ x).
(** minus the derivative *)
Definition dinv (l : list Z) : list Z := (0 :: 0 :: pder l)%Z.

Lemma derive_pinv : forall l x, 0 < x -> derivable_pt_lim (pinv l) x (- pinv (dinv l) x).
Proof.
  intros l x Hx. unfold pinv, dinv. rewrite !peval_cons.
  replace (- (0 + / x * (0 + / x * peval (pder l) (/ x)))) with (peval (pder l) (/ x) * (- / (x * x))) by (field; lra).
  apply (derivable_pt_lim_comp (fun t => / t) (peval l)); [|apply derive_peval].
  apply (derivable_pt_lim_ext (fun t => 1 / t)); [intros t; unfold Rdiv; ring|].
  replace (- / (x * x)) with ((0 * x - 1 * 1) / Rsqr x) by (unfold Rsqr; field; lra).
  apply (derivable_pt_lim_div (fun _ => 1) id); [apply derivable_pt_lim_const|apply derivable_pt_lim_id|unfold id; lra].
Qed.

Lemma peval_rev : forall l x, x <> 0 -> x * peval (rev l) x = x ^ length l * peval l (/ x).
Proof.
  induction l as [|c l IH]; intros x Hx; [change (x * 0 = 1 * 0); ring|].
  assert (App : forall l m, peval (l ++ m) x = peval l x + x ^ length l * peval m x).
  { clear. induction l as [|a l IH]; intros m; [change (peval m x = 0 + 1 * peval m x); ring|].
    change ((a :: l) ++ m) with (a :: (l ++ m)). rewrite !peval_cons, IH. cbn [length pow]. ring. }
  cbn [rev]. rewrite App, rev_length, Rmult_plus_distr_l, IH, !peval_cons by exact Hx. change (peval [] x) with 0. cbn [length pow].
  field. exact Hx.
Qed.

Fixpoint ppow (l : list Z) (n : nat) : list Z := match n with O => [1]%Z | S n' => pmul l (ppow l n') end.
Lemma peval_ppow : forall l n x, peval (ppow l n) x = peval l x ^ n.
Proof.
  induction n as [|n IH]; intros x; cbn [ppow]; [rewrite peval_cons; change (peval [] x) with 0; simpl; ring|].
  rewrite peval_pmul, IH. reflexivity.
Qed.

Lemma peval_nonneg : forall l x, 0 <= x -> forallb (fun c => (0 <=? c)%Z) l = true -> 0 <= peval l x.
Proof.
  induction l as [|c l IH]; intros x Hx H; [change (0 <= 0); lra|].
  cbn [forallb] in H. apply andb_prop in H. destruct H as [H1 H2]. apply Z.leb_le, IZR_le in H1. rewrite peval_cons.
  pose proof (Rmult_le_pos x (peval l x) Hx (IH x Hx H2)). lra.
Qed.

(** ** Logarithms *)

Lemma derive_ln : forall x, 0 < x -> derivable_pt_lim ln x (/ x).
Proof. intros x Hx. apply derivable_pt_lim_ln, Hx. Qed.

Lemma ln_1p_le : forall t, 0 <= t -> ln (1 + t) <= t.
Proof.
  intros t Ht. rewrite <- (ln_exp t) at 2. destruct Ht as [Ht|<-].
  - left. apply ln_increasing; [lra|]. apply exp_ineq1. lra.
  - rewrite Rplus_0_r, exp_0. lra.
Qed.
Lemma ln_1p_ge : forall t, 0 <= t -> t - t * t / 2 <= ln (1 + t).
Proof.
  intros t Ht.
  assert (H : ln (1 + 0) - (0 - 0 * 0 / 2) <= ln (1 + t) - (t - t * t / 2)).
  { apply (mono_on (fun t => ln (1 + t) - (t - t * t / 2)) (fun t => / (1 + t) - (1 - t)) 0 t Ht).
    - intros s Hs. apply derivable_pt_lim_minus.
      + replace (/ (1 + s)) with (/ (1 + s) * (0 + 1)) by ring.
        apply (derivable_pt_lim_comp (fun t => 1 + t) ln); [|apply derive_ln; lra].
        apply derivable_pt_lim_plus; [apply derivable_pt_lim_const|apply derivable_pt_lim_id].
      + apply derivable_pt_lim_minus; [apply derivable_pt_lim_id|].
        replace s with (/ 2 * (1 * s + s * 1)) at 2 by field.
        apply (derivable_pt_lim_ext (fun t => / 2 * (t * t))); [intros; field|].
        apply (derivable_pt_lim_scal (fun t => t * t)). apply (derivable_pt_lim_mult id id); apply derivable_pt_lim_id.
    - intros s Hs. replace (/ (1 + s) - (1 - s)) with (s * s * / (1 + s)) by (field; lra).
      apply Rmult_le_pos; [apply Rmult_le_pos; lra|]. left. apply Rinv_0_lt_compat. lra. }
  rewrite Rplus_0_r, ln_1 in H. lra.
Qed.
Lemma ln_div : forall x y, 0 < x -> 0 < y -> ln (x / y) = ln x - ln y.
Proof. intros x y Hx Hy. unfold Rdiv. rewrite ln_mult, ln_Rinv; [ring|exact Hy|exact Hx|apply Rinv_0_lt_compat, Hy]. Qed.
Lemma ln_mono : forall x y, 0 < x -> x <= y -> ln x <= ln y.
Proof. intros x y Hx [H| ->]; [left; apply ln_increasing; assumption|lra]. Qed.

(** ** The series *)

Section Series.
  (** the coefficients of 1/x, over D; the first one (of x^0) is 0 *)
  Variables (rb : list Z) (D : Z).
  Hypothesis HD : (0 < D)%Z.

  Definition ST (x : R) : R := (x - 1 / 2) * ln x - x + pinv rb x / IZR D.
  Definition ST1 (x : R) : R := ln x - / (2 * x) - pinv (dinv rb) x / IZR D.
  Definition ST2 (x : R) : R := / x + / (2 * (x * x)) + pinv (dinv (dinv rb)) x / IZR D.

  Lemma D_pos : 0 < IZR D.
  Proof. apply IZR_lt, HD. Qed.

  Lemma derive_pinvD : forall l x, 0 < x -> derivable_pt_lim (fun t => pinv l t / IZR D) x (- (pinv (dinv l) x / IZR D)).
  Proof.
    intros l x Hx. apply (derivable_pt_lim_ext (fun t => / IZR D * pinv l t)); [intros; unfold Rdiv; ring|].
    replace (- (pinv (dinv l) x / IZR D)) with (/ IZR D * (- pinv (dinv l) x)) by (unfold Rdiv; ring).
    apply (derivable_pt_lim_scal (pinv l)), derive_pinv, Hx.
  Qed.

  Lemma derive_inv : forall x, 0 < x -> derivable_pt_lim Rinv x (- / (x * x)).
  Proof.
    intros x Hx. apply (derivable_pt_lim_ext (fun t => 1 / t)); [intros t; unfold Rdiv; ring|].
    replace (- / (x * x)) with ((0 * x - 1 * 1) / Rsqr x) by (unfold Rsqr; field; lra).
    apply (derivable_pt_lim_div (fun _ => 1) id); [apply derivable_pt_lim_const|apply derivable_pt_lim_id|unfold id; lra].
  Qed.

  Lemma derive_ST : forall x, 0 < x -> derivable_pt_lim ST x (ST1 x).
  Proof.
    intros x Hx. unfold ST, ST1.
    replace (ln x - / (2 * x) - pinv (dinv rb) x / IZR D) with ((((1 - 0) * ln x + (x - 1 / 2) * / x) - 1) + - (pinv (dinv rb) x / IZR D)) by (field; split; [pose proof D_pos; lra|lra]).
    apply derivable_pt_lim_plus; [|apply derive_pinvD, Hx].
    apply derivable_pt_lim_minus; [|apply derivable_pt_lim_id].
    apply (derivable_pt_lim_mult (fun t => t - 1 / 2) ln); [|apply derive_ln, Hx].
    apply derivable_pt_lim_minus; [apply derivable_pt_lim_id|apply derivable_pt_lim_const].
  Qed.
  Lemma derive_ST1 : forall x, 0 < x -> derivable_pt_lim ST1 x (ST2 x).
  Proof.
    intros x Hx. unfold ST1, ST2.
    replace (/ x + / (2 * (x * x)) + pinv (dinv (dinv rb)) x / IZR D) with ((/ x - / 2 * (- / (x * x))) - - (pinv (dinv (dinv rb)) x / IZR D)) by (field; split; [pose proof D_pos; lra|lra]).
    apply derivable_pt_lim_minus; [|apply derive_pinvD, Hx].
    apply derivable_pt_lim_minus; [apply derive_ln, Hx|].
    apply (derivable_pt_lim_ext (fun t => / 2 * / t)); [intros; rewrite Rinv_mult; reflexivity|].
    apply (derivable_pt_lim_scal Rinv), derive_inv, Hx.
  Qed.

  (** how far the series is from satisfying f (x + 1) = f x + ln x *)
  Definition dl (x : R) : R := ln x - ST (x + 1) + ST x.
  Definition dl1 (x : R) : R := / x - ST1 (x + 1) + ST1 x.
  Definition dl2 (x : R) : R := - / (x * x) - ST2 (x + 1) + ST2 x.

  Lemma derive_shift : forall f g x, derivable_pt_lim f (x + 1) g -> derivable_pt_lim (fun t => f (t + 1)) x g.
  Proof.
    intros f g x H. replace g with (g * (1 + 0)) by ring. apply (derivable_pt_lim_comp (fun t => t + 1) f); [|exact H].
    apply derivable_pt_lim_plus; [apply derivable_pt_lim_id|apply derivable_pt_lim_const].
  Qed.
  Lemma derive_dl : forall x, 0 < x -> derivable_pt_lim dl x (dl1 x).
  Proof.
    intros x Hx. unfold dl, dl1. apply derivable_pt_lim_plus; [|apply derive_ST, Hx].
    apply derivable_pt_lim_minus; [apply derive_ln, Hx|]. apply derive_shift, derive_ST. lra.
  Qed.
  Lemma derive_dl1 : forall x, 0 < x -> derivable_pt_lim dl1 x (dl2 x).
  Proof.
    intros x Hx. unfold dl1, dl2. apply derivable_pt_lim_plus; [|apply derive_ST1, Hx].
    apply derivable_pt_lim_minus; [apply derive_inv, Hx|]. apply derive_shift, derive_ST1. lra.
  Qed.

  Hypothesis H0 : hd 0%Z rb = 0%Z.
  Lemma pinv_small : exists C, 0 <= C /\ forall x, 1 <= x -> Rabs (pinv rb x / IZR D) <= C / x.
  Proof.
    exists (IZR (pnorm rb) / IZR D). pose proof D_pos as DP. pose proof (IZR_le _ _ (pnorm_nonneg rb)) as PN.
    split; [apply Rmult_le_pos; [exact PN|left; apply Rinv_0_lt_compat, DP]|].
    intros x Hx. assert (I : 0 < / x <= 1).
    { split; [apply Rinv_0_lt_compat; lra|]. rewrite <- Rinv_1. apply Rinv_le_contravar; lra. }
    unfold Rdiv. rewrite Rabs_mult, (Rabs_pos_eq (/ IZR D)) by (left; apply Rinv_0_lt_compat, DP).
    replace (IZR (pnorm rb) * / IZR D * / x) with (IZR (pnorm rb) * / x * / IZR D) by ring.
    apply Rmult_le_compat_r; [left; apply Rinv_0_lt_compat, DP|]. unfold pinv.
    destruct rb as [|c l]; [change (peval [] (/ x)) with 0; rewrite Rabs_R0; cbn [pnorm fold_right]; lra|].
    cbn [hd] in H0. rewrite H0, peval_cons, Rplus_0_l, Rabs_mult, (Rabs_pos_eq (/ x)), Rmult_comm by lra.
    apply Rmult_le_compat_r; [lra|].
    eapply Rle_trans; [apply (peval_norm l); rewrite Rabs_pos_eq; lra|]. apply IZR_le. cbn [pnorm fold_right]. fold (pnorm l). lia.
  Qed.

  Lemma dl_vanishes : vanishes dl.
  Proof.
    intros eps He. destruct pinv_small as (C & HC & BC).
    exists (Rmax 1 ((1 + 2 * C) / eps)). intros x Hx.
    assert (X1 : 1 <= x) by (eapply Rle_trans; [apply Rmax_l|exact Hx]).
    assert (X2 : (1 + 2 * C) / eps <= x) by (eapply Rle_trans; [apply Rmax_r|exact Hx]).
    pose proof (BC x X1) as B1. pose proof (BC (x + 1) ltac:(lra)) as B2.
    assert (I : 0 < / x <= 1).
    { split; [apply Rinv_0_lt_compat; lra|]. rewrite <- Rinv_1. apply Rinv_le_contravar; lra. }
    assert (B2' : C / (x + 1) <= C / x).
    { unfold Rdiv. apply Rmult_le_compat_l; [exact HC|]. apply Rinv_le_contravar; lra. }
    assert (L : ln (x + 1) - ln x = ln (1 + / x)) by (rewrite <- ln_div by lra; f_equal; field; lra).
    pose proof (ln_1p_le (/ x) ltac:(lra)) as L1. pose proof (ln_1p_ge (/ x) ltac:(lra)) as L2.
    assert (M1 : (x + 1 / 2) * ln (1 + / x) <= 1 + / x / 2).
    { replace (1 + / x / 2) with ((x + 1 / 2) * / x) by (field; lra). apply Rmult_le_compat_l; lra. }
    assert (M2 : 1 - / x / 4 <= (x + 1 / 2) * ln (1 + / x)).
    { apply Rle_trans with ((x + 1 / 2) * (/ x - / x * / x / 2)); [|apply Rmult_le_compat_l; lra].
      replace ((x + 1 / 2) * (/ x - / x * / x / 2)) with (1 - / x * / x / 4) by (field; lra).
      assert (/ x * / x <= / x * 1) by (apply Rmult_le_compat_l; lra). lra. }
    assert (E1 : (1 + 2 * C) * / x <= eps).
    { apply Rmult_le_reg_r with (x / eps); [apply Rdiv_lt_0_compat; lra|].
      replace ((1 + 2 * C) * / x * (x / eps)) with ((1 + 2 * C) / eps) by (field; lra). replace (eps * (x / eps)) with x by (field; lra). exact X2. }
    replace (dl x) with (1 - (x + 1 / 2) * ln (1 + / x) + (pinv rb x / IZR D - pinv rb (x + 1) / IZR D)).
    2: { rewrite <- L. unfold dl, ST. field. apply Rgt_not_eq, D_pos. }
    set (u := pinv rb x / IZR D) in *. set (v := pinv rb (x + 1) / IZR D) in *.
    assert (Cx : C / x = C * / x) by reflexivity. apply Rabs_le_inv in B1, B2. apply Rabs_le. lra.
  Qed.

  (** the sign of the second derivative *)
  Definition rev2 : list Z := rev (dinv (dinv rb)).
  Definition sgn_poly : list Z :=
    let m := length rev2 in
    padd (pscale (- D) (pmul (ppow [0; 1]%Z (m - 2)) (ppow [1; 1]%Z (m - 2))))
         (pscale 2 (padd (pmul (pmul [0; 1]%Z (ppow [1; 1]%Z m)) rev2) (pscale (-1) (pmul (pmul [1; 1]%Z (ppow [0; 1]%Z m)) (pshift 1 rev2))))).

  Lemma dl2_poly : forall x, 0 < x -> (2 <= length rev2)%nat ->
    peval sgn_poly x = 2 * IZR D * (x ^ length rev2 * (x + 1) ^ length rev2) * dl2 x.
  Proof.
    intros x Hx Hl. unfold sgn_poly. cbv zeta.
    rewrite !peval_padd, !peval_pscale, !peval_pmul, peval_padd, !peval_pmul, peval_pscale, !peval_pmul, !peval_ppow, peval_pshift, !peval_cons, opp_IZR.
    change (peval [] x) with 0.
    replace (0 + x * (1 + x * 0)) with x by ring. replace (1 + x * (1 + x * 0)) with (x + 1) by ring. change (IZR 1) with 1 in *.
    pose proof (peval_rev (dinv (dinv rb)) x ltac:(lra)) as R1. pose proof (peval_rev (dinv (dinv rb)) (x + 1) ltac:(lra)) as R2.
    fold rev2 in R1, R2. rewrite <- (rev_length (dinv (dinv rb))) in R1, R2. fold rev2 in R1, R2.
    fold (pinv (dinv (dinv rb)) x) in R1. fold (pinv (dinv (dinv rb)) (x + 1)) in R2.
    unfold dl2, ST2. pose proof D_pos as DP.
    set (p := pinv (dinv (dinv rb)) x) in *. set (q := pinv (dinv (dinv rb)) (x + 1)) in *.
    set (r1 := peval rev2 x) in *. set (r2 := peval rev2 (x + 1)) in *.
    remember (length rev2 - 2)%nat as n eqn:En. assert (Lm : length rev2 = S (S n)) by lia. rewrite Lm in *.
    cbn [pow] in *. set (a := x ^ n) in *. set (b := (x + 1) ^ n) in *.
    transitivity (- IZR D * (a * b) + 2 * ((x + 1) * ((x + 1) * b) * (x * r1) - x * (x * a) * ((x + 1) * r2))); [ring|].
    rewrite R1, R2. field. lra.
  Qed.
  Lemma dl_nonneg : (2 <=? length rev2)%nat = true -> forallb (fun c => (0 <=? c)%Z) sgn_poly = true -> forall x, 0 < x -> 0 <= dl x.
  Proof.
    intros Hl Hs. apply Nat.leb_le in Hl. apply (convex_vanishing dl dl1 dl2 derive_dl derive_dl1); [|exact dl_vanishes].
    intros x Hx. pose proof (peval_nonneg sgn_poly x ltac:(lra) Hs) as H. rewrite dl2_poly in H by assumption.
    pose proof D_pos as DP. apply Rmult_le_reg_l with (2 * IZR D * (x ^ length rev2 * (x + 1) ^ length rev2)); [|lra].
    apply Rmult_lt_0_compat; [lra|]. apply Rmult_lt_0_compat; apply pow_lt; lra.
  Qed.
  Lemma dl_nonpos : (2 <=? length rev2)%nat = true -> forallb (fun c => (0 <=? c)%Z) (pscale (-1) sgn_poly) = true -> forall x, 0 < x -> dl x <= 0.
  Proof.
    intros Hl Hs x Hx. apply Nat.leb_le in Hl.
    enough (0 <= - dl x) by lra. revert x Hx.
    apply (convex_vanishing (fun x => - dl x) (fun x => - dl1 x) (fun x => - dl2 x)).
    - intros x Hx. apply (derivable_pt_lim_opp dl), derive_dl, Hx.
    - intros x Hx. apply (derivable_pt_lim_opp dl1), derive_dl1, Hx.
    - intros x Hx. pose proof (peval_nonneg _ x ltac:(lra) Hs) as H. rewrite peval_pscale, dl2_poly in H by assumption.
      pose proof D_pos as DP. apply Rmult_le_reg_l with (2 * IZR D * (x ^ length rev2 * (x + 1) ^ length rev2)); [|lra].
      apply Rmult_lt_0_compat; [lra|]. apply Rmult_lt_0_compat; apply pow_lt; lra.
    - intros eps He. destruct (dl_vanishes eps He) as [B HB]. exists B. intros x Hx. rewrite Rabs_Ropp. apply HB, Hx.
  Qed.
End Series.

(** ** Against a gamma function *)

Lemma not_neg_nat : forall x, 0 < x -> forall n, x <> - INR n.
Proof. intros x Hx n E. pose proof (pos_INR n). lra. Qed.

Section Bracket.
  Variable G : R -> R.
  Hypothesis HG : gamma_function G.
  Definition lG (x : R) : R := ln (G x).

  Lemma G_pos : forall x, 0 < x -> 0 < G x.
  Proof. destruct HG as (H & _). exact H. Qed.
  Lemma G_step : forall x, 0 < x -> G (x + 1) = x * G x.
  Proof. intros x Hx. destruct HG as (_ & _ & H & _). apply H, not_neg_nat, Hx. Qed.
  Lemma lG_step : forall x, 0 < x -> lG (x + 1) = lG x + ln x.
  Proof. intros x Hx. unfold lG. rewrite (G_step x Hx), ln_mult; [ring|exact Hx|apply G_pos, Hx]. Qed.

  (** log-convexity compares differences *)
  Lemma lG_slopes : forall a b c, 0 < a -> a < b -> b < c -> (lG b - lG a) * (c - b) <= (lG c - lG b) * (b - a).
  Proof.
    intros a b c Ha Hab Hbc. destruct HG as (_ & _ & _ & CV).
    pose proof (CV a c ((c - b) / (c - a)) Ha ltac:(lra)) as H.
    replace ((c - b) / (c - a) * a + (1 - (c - b) / (c - a)) * c) with b in H by (field; lra).
    fold (lG a) (lG b) (lG c) in H.
    assert (T : 0 <= (c - b) / (c - a) <= 1).
    { split; [apply Rmult_le_pos; [lra|left; apply Rinv_0_lt_compat; lra]|].
      apply Rmult_le_reg_r with (c - a); [lra|]. replace ((c - b) / (c - a) * (c - a)) with (c - b) by (field; lra). lra. }
    specialize (H T).
    apply Rmult_le_compat_r with (r := c - a) in H; [|lra].
    replace (((c - b) / (c - a) * lG a + (1 - (c - b) / (c - a)) * lG c) * (c - a)) with ((c - b) * lG a + (b - a) * lG c) in H by (field; lra).
    lra.
  Qed.

  Lemma lG_diff : forall t s, 1 < t -> 0 <= s -> s * ln (t - 1) <= lG (t + s) - lG t <= s * ln (t + s).
  Proof.
    intros t s Ht [Hs|<-]; [|rewrite Rplus_0_r; lra]. split.
    - pose proof (lG_slopes (t - 1) t (t + s) ltac:(lra) ltac:(lra) ltac:(lra)) as H.
      pose proof (lG_step (t - 1) ltac:(lra)) as E. replace (t - 1 + 1) with t in E by ring. rewrite E in H.
      replace (lG (t - 1) + ln (t - 1) - lG (t - 1)) with (ln (t - 1)) in H by ring. rewrite E. lra.
    - pose proof (lG_slopes t (t + s) (t + s + 1) ltac:(lra) ltac:(lra) ltac:(lra)) as H.
      rewrite (lG_step (t + s) ltac:(lra)) in H.
      replace (lG (t + s) + ln (t + s) - lG (t + s)) with (ln (t + s)) in H by ring. lra.
  Qed.

  Lemma S0_diff : forall t s, 1 < t -> 0 <= s ->
    s * (ln t - / (2 * t)) <= ST [] 1 (t + s) - ST [] 1 t <= s * ln (t + s).
  Proof.
    intros t s Ht [Hs|<-]; [|rewrite Rplus_0_r; lra].
    destruct (MVT_cor2 (ST [] 1) (ST1 [] 1) t (t + s) ltac:(lra)) as (c & Hc & Hi).
    { intros c Hc. apply derive_ST; [lia|lra]. }
    rewrite Hc. replace (t + s - t) with s by ring. unfold ST1.
    replace (pinv (dinv []) c / 1) with 0 by (unfold pinv, dinv; cbn [pder]; rewrite !peval_cons; change (peval [] (/ c)) with 0; field; lra).
    assert (I : 0 < / (2 * c) <= / (2 * t)).
    { split; [apply Rinv_0_lt_compat; lra|apply Rinv_le_contravar; lra]. }
    pose proof (ln_mono t c ltac:(lra) ltac:(lra)). pose proof (ln_mono c (t + s) ltac:(lra) ltac:(lra)).
    rewrite (Rmult_comm _ s). split; apply Rmult_le_compat_l; lra.
  Qed.

  Lemma ST_S0 : forall rb D x, ST rb D x = ST [] 1 x + pinv rb x / IZR D.
  Proof. intros rb D x. unfold ST. replace (pinv [] x / 1) with 0 by (unfold pinv; change (peval [] (/ x)) with 0; field). ring. Qed.

  Lemma close : forall rb D rb' D', (0 < D)%Z -> (0 < D')%Z -> hd 0%Z rb = 0%Z -> hd 0%Z rb' = 0%Z ->
    forall s, 0 <= s -> exists C, forall t, 2 <= t -> Rabs (lG (t + s) - lG t - (ST rb D (t + s) - ST rb' D' t)) <= C / t.
  Proof.
    intros rb D rb' D' HD HD' H0 H0' s Hs.
    destruct (pinv_small rb D HD H0) as (C1 & P1 & B1). destruct (pinv_small rb' D' HD' H0') as (C2 & P2 & B2).
    exists (s * (2 * s + 2) + C1 + C2). intros t Ht.
    pose proof (lG_diff t s ltac:(lra) Hs) as L. pose proof (S0_diff t s ltac:(lra) Hs) as M.
    specialize (B1 (t + s) ltac:(lra)). specialize (B2 t ltac:(lra)).
    assert (I : 0 < / t) by (apply Rinv_0_lt_compat; lra).
    assert (B1' : C1 / (t + s) <= C1 * / t).
    { unfold Rdiv. apply Rmult_le_compat_l; [exact P1|]. apply Rinv_le_contravar; lra. }
    assert (J : / (t - 1) <= 2 * / t).
    { apply Rmult_le_reg_r with (t * (t - 1)); [apply Rmult_lt_0_compat; lra|].
      replace (/ (t - 1) * (t * (t - 1))) with t by (field; lra). replace (2 * / t * (t * (t - 1))) with (2 * (t - 1)) by (field; lra). lra. }
    assert (N1 : ln (t + s) - ln t <= s * / t).
    { rewrite <- ln_div by lra. replace ((t + s) / t) with (1 + s * / t) by (field; lra). apply ln_1p_le. apply Rmult_le_pos; lra. }
    assert (N2 : ln (t + s) - ln (t - 1) <= (s + 1) * (2 * / t)).
    { rewrite <- ln_div by lra. replace ((t + s) / (t - 1)) with (1 + (s + 1) * / (t - 1)) by (field; lra).
      eapply Rle_trans; [apply ln_1p_le; apply Rmult_le_pos; [lra|left; apply Rinv_0_lt_compat; lra]|]. apply Rmult_le_compat_l; lra. }
    assert (N3 : s * (ln (t + s) - ln t + / (2 * t)) <= s * (2 * s + 2) * / t).
    { rewrite Rmult_assoc. apply Rmult_le_compat_l; [exact Hs|].
      replace (/ (2 * t)) with (/ t / 2) by (field; lra). assert (0 <= s * / t) by (apply Rmult_le_pos; lra). lra. }
    assert (N4 : s * (ln (t + s) - ln (t - 1)) <= s * (2 * s + 2) * / t).
    { rewrite Rmult_assoc. apply Rmult_le_compat_l; [exact Hs|]. lra. }
    rewrite (ST_S0 rb D), (ST_S0 rb' D').
    set (u := pinv rb (t + s) / IZR D) in *. set (v := pinv rb' t / IZR D') in *.
    replace ((s * (2 * s + 2) + C1 + C2) / t) with (s * (2 * s + 2) * / t + C1 * / t + C2 * / t) by (field; lra).
    assert (E2 : C2 / t = C2 * / t) by reflexivity. rewrite E2 in B2.
    apply Rabs_le_inv in B1, B2. apply Rabs_le. lra.
  Qed.

  Lemma small_over_t : forall y C, (forall n : nat, y <= C / (2 + INR n)) -> y <= 0.
  Proof.
    intros y C H. destruct (Rle_or_lt y 0) as [L|L]; [exact L|exfalso].
    assert (Ex : exists n, C < INR n * y).
    { exists (Z.to_nat (Rdefinitions.up (Rabs C / y))). destruct (archimed (Rabs C / y)) as [A _].
      assert (Q : 0 <= Rabs C / y) by (apply Rmult_le_pos; [apply Rabs_pos|left; apply Rinv_0_lt_compat, L]).
      rewrite INR_IZR_INZ, Z2Nat.id by (apply le_IZR; lra).
      apply Rmult_gt_compat_r with (r := y) in A; [|exact L]. replace (Rabs C / y * y) with (Rabs C) in A by (field; lra).
      pose proof (Rle_abs C). lra. }
    destruct Ex as [n Hn]. specialize (H n). pose proof (pos_INR n).
    assert (y * (2 + INR n) <= C).
    { apply Rmult_le_compat_r with (r := 2 + INR n) in H; [|lra]. replace (C / (2 + INR n) * (2 + INR n)) with C in H by (field; lra). exact H. }
    lra.
  Qed.

  Variables (up lo : list Z) (Du Dl : Z).
  Hypothesis (HDu : (0 < Du)%Z) (HDl : (0 < Dl)%Z) (H0u : hd 0%Z up = 0%Z) (H0l : hd 0%Z lo = 0%Z).
  Hypothesis (Hup : forall x, 0 < x -> 0 <= dl up Du x) (Hlo : forall x, 0 < x -> dl lo Dl x <= 0).

  Lemma up_chain : forall n x, 0 < x -> lG x - ST up Du x <= lG (x + INR n) - ST up Du (x + INR n).
  Proof.
    induction n as [|n IH]; intros x Hx; [rewrite Rplus_0_r; lra|].
    pose proof (IH x Hx) as I. pose proof (pos_INR n) as Pn. pose proof (Hup (x + INR n) ltac:(lra)) as D. unfold dl in D.
    pose proof (lG_step (x + INR n) ltac:(lra)) as E. rewrite S_INR, <- Rplus_assoc. lra.
  Qed.
  Lemma lo_chain : forall n x, 0 < x -> lG (x + INR n) - ST lo Dl (x + INR n) <= lG x - ST lo Dl x.
  Proof.
    induction n as [|n IH]; intros x Hx; [rewrite Rplus_0_r; lra|].
    pose proof (IH x Hx) as I. pose proof (pos_INR n) as Pn. pose proof (Hlo (x + INR n) ltac:(lra)) as D. unfold dl in D.
    pose proof (lG_step (x + INR n) ltac:(lra)) as E. rewrite S_INR, <- Rplus_assoc. lra.
  Qed.

  Theorem bracket : forall x y, 2 <= x -> 2 <= y -> lG x - lG y <= ST up Du x - ST lo Dl y.
  Proof.
    intros x y Hx Hy. destruct (Rle_or_lt y x) as [L|L].
    - destruct (close up Du lo Dl HDu HDl H0u H0l (x - y) ltac:(lra)) as [C HC].
      enough (lG x - lG y - (ST up Du x - ST lo Dl y) <= 0) by lra.
      apply (small_over_t _ (Rmax 0 C)). intros n. pose proof (pos_INR n) as Pn.
      pose proof (up_chain n x ltac:(lra)) as U. pose proof (lo_chain n y ltac:(lra)) as V.
      specialize (HC (y + INR n) ltac:(lra)). replace (y + INR n + (x - y)) with (x + INR n) in HC by ring.
      apply Rabs_le_inv in HC.
      assert (C / (y + INR n) <= Rmax 0 C / (2 + INR n)).
      { apply Rle_trans with (Rmax 0 C / (y + INR n)).
        - apply Rmult_le_compat_r; [left; apply Rinv_0_lt_compat; lra|apply Rmax_r].
        - apply Rmult_le_compat_l; [apply Rmax_l|]. apply Rinv_le_contravar; lra. }
      lra.
    - destruct (close lo Dl up Du HDl HDu H0l H0u (y - x) ltac:(lra)) as [C HC].
      enough (lG x - lG y - (ST up Du x - ST lo Dl y) <= 0) by lra.
      apply (small_over_t _ (Rmax 0 C)). intros n. pose proof (pos_INR n) as Pn.
      pose proof (up_chain n x ltac:(lra)) as U. pose proof (lo_chain n y ltac:(lra)) as V.
      specialize (HC (x + INR n) ltac:(lra)). replace (x + INR n + (y - x)) with (y + INR n) in HC by ring.
      apply Rabs_le_inv in HC.
      assert (C / (x + INR n) <= Rmax 0 C / (2 + INR n)).
      { apply Rle_trans with (Rmax 0 C / (x + INR n)).
        - apply Rmult_le_compat_r; [left; apply Rinv_0_lt_compat; lra|apply Rmax_r].
        - apply Rmult_le_compat_l; [apply Rmax_l|]. apply Rinv_le_contravar; lra. }
      lra.
  Qed.
End Bracket.

(** ** Nine and ten terms *)

Definition DS : Z := 6983776800.
Definition s9 : list Z := [0; 581981400; 0; -19399380; 0; 5542680; 0; -4157010; 0; 5878600; 0; -13391580; 0; 44767800; 0; -206375169; 0; 1254596200]%Z.
Definition s10 : list Z := (s9 ++ [0; -9724435812])%Z.

Lemma s9_up : forall x, 0 < x -> 0 <= dl s9 DS x.
Proof. apply dl_nonneg; [reflexivity|reflexivity|vm_compute; reflexivity|vm_compute; reflexivity]. Qed.
Lemma s10_lo : forall x, 0 < x -> dl s10 DS x <= 0.
Proof. apply dl_nonpos; [reflexivity|reflexivity|vm_compute; reflexivity|vm_compute; reflexivity]. Qed.

Theorem stirling : forall G, gamma_function G -> forall x y, 2 <= x -> 2 <= y -> lG G x - lG G y <= ST s9 DS x - ST s10 DS y.
Proof.
  intros G HG. apply (bracket G HG s9 s10 DS DS); try reflexivity; [exact s9_up|exact s10_lo].
Qed.
