(** * A complementary error function exists *)

From Coq Require Import ZArith Reals Lra Lia.
From Verif.Spec Require Import ErfSpec.
From Verif.Proofs Require Import ErfcODE.
Open Scope R_scope.

Lemma derive_local : forall (f g : R -> R) x l, (forall y, Rabs (y - x) < 1 -> f y = g y) ->
  derivable_pt_lim f x l -> derivable_pt_lim g x l.
Proof.
  intros f g x l H D eps He. destruct (D eps He) as [d Hd].
  assert (P : 0 < Rmin d 1) by (apply Rmin_pos; [apply cond_pos|lra]).
  exists (mkposreal _ P). intros h Hh Hb. simpl in Hb.
  rewrite <- !H.
  - apply Hd; [exact Hh|]. eapply Rlt_le_trans; [exact Hb|apply Rmin_l].
  - replace (x - x) with 0 by ring. rewrite Rabs_R0. lra.
  - replace (x + h - x) with h by ring. eapply Rlt_le_trans; [exact Hb|apply Rmin_r].
Qed.

(** antiderivatives on a symmetric interval that vanish at 0 agree *)
Lemma antider_unique : forall (f g d : R -> R) a,
  (forall t, Rabs t <= a -> derivable_pt_lim f t (d t)) -> (forall t, Rabs t <= a -> derivable_pt_lim g t (d t)) ->
  f 0 = g 0 -> forall x, Rabs x <= a -> f x = g x.
Proof.
  intros f g d a Df Dg H0 x Hx.
  assert (D : forall t, Rabs t <= a -> derivable_pt_lim (fun t => f t - g t) t 0).
  { intros t Ht. replace 0 with (d t - d t) by ring. apply (derivable_pt_lim_minus f g); auto. }
  assert (D' : forall t, Rabs t <= a -> derivable_pt_lim (fun t => - (f t - g t)) t 0).
  { intros t Ht. replace 0 with (- 0) by ring. apply (derivable_pt_lim_opp (fun t => f t - g t)); auto. }
  unfold Rabs in Hx. destruct Rcase_abs in Hx.
  - assert (B : forall t, x <= t <= 0 -> Rabs t <= a) by (intros t Ht; rewrite Rabs_left1; lra).
    pose proof (mono_on _ (fun _ => 0) x 0 ltac:(lra) (fun t Ht => D t (B t Ht)) ltac:(intros; lra)).
    pose proof (mono_on _ (fun _ => 0) x 0 ltac:(lra) (fun t Ht => D' t (B t Ht)) ltac:(intros; lra)). cbv beta in *. lra.
  - assert (B : forall t, 0 <= t <= x -> Rabs t <= a) by (intros t Ht; rewrite Rabs_pos_eq; lra).
    pose proof (mono_on _ (fun _ => 0) 0 x ltac:(lra) (fun t Ht => D t (B t Ht)) ltac:(intros; lra)).
    pose proof (mono_on _ (fun _ => 0) 0 x ltac:(lra) (fun t Ht => D' t (B t Ht)) ltac:(intros; lra)). cbv beta in *. lra.
Qed.

Section Glue.
  Context (d : R -> R) (C : continuity d).
  Lemma sym_le : forall n, - INR n <= INR n.
  Proof. intros n. pose proof (pos_INR n). lra. Qed.
  Definition prim (n : nat) : R -> R :=
    primitive (sym_le n) (FTC_P1 (sym_le n) (fun x _ => C x)).
  Lemma prim_derive : forall n t, Rabs t <= INR n -> derivable_pt_lim (fun t => prim n t - prim n 0) t (d t).
  Proof.
    intros n t Ht. replace (d t) with (d t - 0) by ring.
    apply (derivable_pt_lim_minus (prim n) (fun _ => prim n 0)); [|apply derivable_pt_lim_const].
    assert (Ht2 : - INR n <= t <= INR n) by (unfold Rabs in Ht; destruct Rcase_abs in Ht; lra).
    apply (RiemannInt_P28 (sym_le n) (fun x _ => C x) Ht2).
  Qed.
  Definition idx (x : R) : nat := Z.to_nat (up (Rabs x)).
  Lemma idx_ok : forall x, Rabs x <= INR (idx x).
  Proof.
    intros x. destruct (archimed (Rabs x)) as [A _]. pose proof (Rabs_pos x).
    assert (0 <= up (Rabs x))%Z by (apply le_IZR; lra).
    unfold idx. rewrite INR_IZR_INZ, Z2Nat.id by assumption. lra.
  Qed.
  Definition glue (x : R) : R := prim (idx x) x - prim (idx x) 0.
  Lemma glue_eq : forall n x, Rabs x <= INR n -> glue x = prim n x - prim n 0.
  Proof.
    intros n x Hx. unfold glue. set (m := idx x). pose proof (idx_ok x) as Hm. fold m in Hm.
    apply (antider_unique (fun t => prim m t - prim m 0) (fun t => prim n t - prim n 0) d (Rmin (INR n) (INR m))).
    - intros t Ht. apply prim_derive. eapply Rle_trans; [exact Ht|apply Rmin_r].
    - intros t Ht. apply prim_derive. eapply Rle_trans; [exact Ht|apply Rmin_l].
    - ring.
    - apply Rmin_glb; assumption.
  Qed.
  Lemma glue_derive : forall x, derivable_pt_lim glue x (d x).
  Proof.
    intros x. set (n := S (S (idx x))). pose proof (idx_ok x) as Hx.
    assert (N : INR n = INR (idx x) + 2) by (unfold n; rewrite !S_INR; ring).
    apply (derive_local (fun t => prim n t - prim n 0)).
    - intros y Hy. symmetry. apply glue_eq. replace y with (x + (y - x)) by ring.
      eapply Rle_trans; [apply Rabs_triang|]. lra.
    - apply prim_derive. lra.
  Qed.
  Lemma glue_0 : glue 0 = 0.
  Proof. unfold glue. ring. Qed.
End Glue.

Lemma erfc_exists : exists E, erfc_function E.
Proof.
  set (d := fun t => exp (- (t * t))).
  assert (C : continuity d).
  { intros x. apply derivable_continuous_pt. exists (- (2 * x) * exp (- (x * x))). apply derive_nsq. }
  set (G := glue d C). pose proof (glue_derive d C) as DG. fold G in DG.
  assert (Mono : forall a b, a <= b -> G a <= G b).
  { intros a b Hab. apply (mono_on G d a b Hab (fun t _ => DG t)). intros t _. left. apply exp_pos. }
  (* bounded: G x + exp (- x) does not increase from 1 on *)
  assert (Bnd : forall x, 1 <= x -> G x <= G 1 + 1).
  { intros x Hx.
    assert (DB : forall t, derivable_pt_lim (fun t => - (G t + exp (- t))) t (exp (- t) - d t)).
    { intros t. replace (exp (- t) - d t) with (- (d t + exp (- t) * (- 1))) by ring.
      apply (derivable_pt_lim_opp (fun t => G t + exp (- t))). apply (derivable_pt_lim_plus G (fun t => exp (- t))); [apply DG|].
      apply (derivable_pt_lim_comp (fun t => - t) exp); [|apply derivable_pt_lim_exp].
      apply (derivable_pt_lim_opp id). apply derivable_pt_lim_id. }
    assert (Inc := mono_on _ _ 1 x Hx (fun t _ => DB t)). cbv beta in Inc.
    assert (M1 : exp (- (1)) <= 1).
    { apply Rle_trans with (exp 0); [left; apply exp_increasing; lra|rewrite exp_0; lra]. }
    pose proof (exp_pos (- x)).
    enough (- (G 1 + exp (- (1))) <= - (G x + exp (- x))) by lra.
    apply Inc. intros t Ht. unfold d.
    destruct (Rle_lt_or_eq_dec 1 t (proj1 Ht)) as [L|<-].
    - enough (exp (- (t * t)) < exp (- t)) by lra. apply exp_increasing. nra.
    - rewrite Rmult_1_l. lra. }
  destruct (completeness (fun y => exists x, 1 <= x /\ y = G x)) as [L [HL1 HL2]].
  { exists (G 1 + 1). intros y (x & Hx & ->). apply Bnd, Hx. }
  { exists (G 1), 1. split; [lra|reflexivity]. }
  pose proof K_pos as KP. set (K := 2 / sqrt PI) in *.
  exists (fun x => K * (L - G x)). split.
  - intros x. replace (- (2 / sqrt PI) * exp (- (x * x))) with (K * (0 - d x)) by (unfold K, d; ring).
    apply (derivable_pt_lim_scal (fun x => L - G x)). apply (derivable_pt_lim_minus (fun _ => L) G); [apply derivable_pt_lim_const|apply DG].
  - intros eps He. 
    assert (X : exists x, 1 <= x /\ L - eps / K < G x).
    { destruct (Classical_Prop.classic (exists x, 1 <= x /\ L - eps / K < G x)) as [Y|N]; [exact Y|exfalso].
      assert (L <= L - eps / K).
      { apply HL2. intros y (x & Hx & ->). destruct (Rle_or_lt (G x) (L - eps / K)) as [R|R]; [exact R|]. exfalso. apply N. exists x. split; assumption. }
      assert (0 < eps / K) by (apply Rdiv_lt_0_compat; assumption). lra. }
    destruct X as (B & HB & LB). exists B. intros x Hx.
    pose proof (Mono B x Hx). assert (G x <= L) by (apply HL1; exists x; split; [lra|reflexivity]).
    rewrite Rabs_pos_eq.
    + apply Rle_trans with (K * (eps / K)); [apply Rmult_le_compat_l; lra|]. right. field. lra.
    + apply Rmult_le_pos; lra.
Qed.
