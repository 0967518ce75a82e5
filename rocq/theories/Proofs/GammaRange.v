(** * Range of gammp and gammq where the code clamps; sign of gammp *)

From Coq Require Import ZArith Reals Bool Lra Lia List.
From Flocq Require Import Core IEEE754.BinarySingleNaN IEEE754.Binary IEEE754.Bits.
From Verif.Model Require Import Base Arith Gamma.
From Verif.Float Require Import Bits64 Ieee Exact Platforms.
From Verif.Spec Require Import F64Spec Outcome.
From Verif.Proofs Require Import F64 F64Ops Lits Ext Boundaries Domains GammaPQ GammaNaN DawsonNeg Ideal.
Open Scope R_scope.

Lemma gser_eq : forall (A : arith) (a x : F A), gser a x = gser_scale a x (ln_gamma a)
  (snd (fst (for_break (range 0 10000) (gser_body x) (a, div (lit 1.0) a, div (lit 1.0) a)))).
Proof.
  intros A a x. unfold gser. destruct (for_break _ _ _) as [[[ap del] sum] b]. reflexivity.
Qed.

Section Range.
  Context (P : platform).
  Notation clamp01 x := (@clamp (ieee P) (f64_lit 0.0) (f64_lit 1.0) x).

  Lemma clamp_range : forall v : f64, is_NaN (clamp01 v) \/ between 0 1 (clamp01 v).
  Proof.
    intros v. destruct (Binary.is_nan v) eqn:N; [left; rewrite clamp_nan; exact N|right].
    unfold clamp. ieee_simpl.
    destruct (f64_lt v (f64_lit 0.0)) eqn:C1.
    - assert (C2 : f64_lt (f64_lit 1.0) (f64_lit 0.0) = false) by reflexivity. rewrite C2.
      split; [apply nn_0|rewrite val_0; lra].
    - destruct (f64_lt (f64_lit 1.0) v) eqn:C2; [split; [apply nn_1|rewrite val_1; lra]|].
      rewrite lt_val in C1 by (exact N || apply nn_0). rewrite lt_val in C2 by (exact N || apply nn_1).
      rewrite val_0 in C1. rewrite val_1 in C2.
      split; [exact N|].
      destruct (Rlt_bool_spec (val v) 0); [discriminate C1|]. destruct (Rlt_bool_spec 1 (val v)); [discriminate C2|]. lra.
  Qed.

  Definition nn' (z : f64) : Prop := is_NaN z \/ nonneg z.

  Lemma nn_add : forall x y, nn' x -> nn' y -> nn' (f64_add P x y).
  Proof.
    intros x y [Hx|Hx] [Hy|Hy]; try (left; apply add_nan_l; exact Hx); try (left; apply add_nan_r; exact Hy).
    right. apply add_nonneg; assumption.
  Qed.
  Lemma nn_mul : forall x y, nn' x -> nn' y -> nn' (f64_mul P x y).
  Proof.
    intros x y [Hx|Hx] [Hy|Hy]; try (left; apply mul_nan_l; exact Hx); try (left; apply mul_nan_r; exact Hy).
    apply mul_nonneg; assumption.
  Qed.
  Lemma nn_div : forall x y, nn' x -> positive y -> nn' (f64_div P x y).
  Proof.
    intros x y [Hx|Hx] Hy; try (left; apply div_nan_l; exact Hx). apply div_nonneg; assumption.
  Qed.
  Lemma pos_nonneg : forall x, positive x -> nonneg x.
  Proof. intros x [N V]. split; [exact N|lra]. Qed.

  Definition gser_inv (st : f64 * f64 * f64) : Prop :=
    let '(ap, del, sum) := st in positive ap /\ nn' del /\ nn' sum.

  Lemma gser_inv_body : forall x i st, nonneg x -> gser_inv st -> gser_inv (fst (@gser_body (ieee P) x i st)).
  Proof.
    intros x i [[ap del] sum] Hx (A & B & C). unfold gser_body. ieee_simpl. cbn [fst].
    assert (A' : positive (f64_add P ap (f64_lit 1.0))).
    { destruct (add_nonneg P ap (f64_lit 1.0) (pos_nonneg _ A)) as [[N V] M]; [split; [apply nn_1|rewrite val_1; lra]|].
      destruct A as [_ A]. split; [exact N|]. rewrite val_1 in M. lra. }
    assert (B' : nn' (f64_mul P del (f64_div P x (f64_add P ap (f64_lit 1.0))))).
    { apply nn_mul; [exact B|]. apply nn_div; [right; exact Hx|exact A']. }
    split; [exact A'|]. split; [exact B'|]. apply nn_add; assumption.
  Qed.

  Lemma for_break_inv : forall {S : Type} (body : Z -> S -> S * bool) (I : S -> Prop) l s,
    (forall i s, I s -> I (fst (body i s))) -> I s -> I (fst (for_break l body s)).
  Proof.
    intros S body I l s H. revert s. induction l as [|i l IH]; intros s HI; [exact HI|].
    cbn [for_break]. pose proof (H i s HI) as H'. destruct (body i s) as [s' []]; cbn [fst] in *; [exact H'|]. apply IH, H'.
  Qed.

  Hypothesis EX : never_negative (p_exp P).

  Lemma nn_exp : forall t, nn' (libm P (p_exp P) t).
  Proof.
    intros t. destruct (Binary.is_nan t) eqn:N; [left; apply libm_nan; exact N|].
    rewrite libm_nonnan by exact N. destruct (Binary.is_nan (p_exp P t)) eqn:M; [left; exact M|].
    destruct (EX t N) as [E|E]; [left; exact E|right; split; assumption].
  Qed.

  Lemma gser_scale_nonneg : forall a x g sum, nn' sum -> nn' (@gser_scale (ieee P) a x g sum).
  Proof.
    intros a x g sum S. unfold gser_scale. ieee_simpl. set (l := f64_sub P _ g).
    destruct (f64_lt _ l); [apply nn_mul; [exact S|]; right; split; [reflexivity|change (0 <= Om); pose proof Om_pos; lra]|].
    destruct (f64_lt l _); [right; split; [apply nn_0|rewrite val_0; lra]|].
    apply nn_mul; [exact S|apply nn_exp].
  Qed.

  Lemma gser_nonneg : forall a x, positive a -> nonneg x -> nn' (@gser (ieee P) a x).
  Proof.
    intros a x Ha Hx.
    pose proof (for_break_inv (@gser_body (ieee P) x) gser_inv (range 0 10000)
      (a, f64_div P (f64_lit 1.0) a, f64_div P (f64_lit 1.0) a) (fun i s => gser_inv_body x i s Hx)) as H.
    assert (D : nn' (f64_div P (f64_lit 1.0) a)).
    { apply nn_div; [right; split; [apply nn_1|rewrite val_1; lra]|exact Ha]. }
    specialize (H (conj Ha (conj D D))). rewrite gser_eq. change (@Arith.div (ieee P)) with (f64_div P). change (@lit (ieee P)) with f64_lit.
    apply gser_scale_nonneg.
    revert H. match goal with |- gser_inv ?t -> _ => change (gser_inv t -> nn' (snd t)); destruct t as [[ap del] sum] end.
    intros (_ & _ & S). exact S.
  Qed.
End Range.

(** gammp is NaN or nonnegative *)
Lemma gammp_nonneg : forall P a x r, never_negative (p_exp P) ->
  @gammp (ieee P) a x = Ok r -> is_NaN r \/ 0 <= val r.
Proof.
  intros P a x r EX H.
  assert (D : nonneg x /\ positive a) by (apply (proj2 (gammp_domain P a x)); eexists; exact H).
  destruct D as [Hx Ha].
  assert (G : nn' r).
  { revert H. unfold gammp. change (@lit (ieee P)) with f64_lit.
    destruct (_ && _)%bool; [|intros E; discriminate E].
    destruct (eq x _); [intros E; apply ok_inj in E; subst r; right; split; [apply nn_0|rewrite val_0; lra]|].
    destruct (lt x _); [intros E; apply ok_inj in E; subst r; right; split; [apply nn_0|rewrite val_0; lra]|].
    destruct (lt _ x); [intros E; apply ok_inj in E; subst r; right; split; [apply nn_1|rewrite val_1; lra]|].
    destruct (100 <=? _)%Z.
    - destruct (lt x _).
      + intros E; apply ok_inj in E; subst r. apply gser_nonneg; assumption.
      + intros E; apply ok_inj in E; subst r. rewrite approx_P. ieee_simpl.
        match goal with |- nn' (clamp _ _ ?v) => destruct (clamp_range P v) as [N|[N V]] end; [left; exact N|right; split; [exact N|]].
        ieee_simpl_in V. lra.
    - destruct (lt x _).
      + intros E; apply ok_inj in E; subst r. apply gser_nonneg; assumption.
      + intros E; apply ok_inj in E; subst r.
        match goal with |- nn' (clamp _ _ ?v) => destruct (clamp_range P v) as [N|[N V]] end; [left; exact N|right; split; [exact N|lra]]. }
  destruct G as [G|[_ G]]; auto.
Qed.

(** gammp from a + 1 on, and gammq below a, are NaN or in [0, 1] *)
Lemma gammp_range : forall P a x r, number a -> number x -> val a + 1 <= val x \/ (finite a /\ 100 <= val a /\ 0.201 * val a <= val x) ->
  @gammp (ieee P) a x = Ok r -> is_NaN r \/ between 0 1 r.
Proof.
  intros P a x r Na Nx C H. pose proof Om_big as OB.
  assert (D : nonneg x /\ positive a) by (apply (proj2 (gammp_domain P a x)); eexists; exact H).
  destruct D as [Hx Ha].
  assert (Fa : fin a).
  { destruct C as [C|[C _]]; [|exact C]. apply fin_iff_val; [exact Na|].
    destruct Ha as [_ Va]. rewrite Rabs_pos_eq by lra. pose proof (val_bound x). apply Rabs_le_inv in H0 || idtac. lra. }
  assert (NC : forall v : f64, is_NaN (@clamp (ieee P) (f64_lit 0.0) (f64_lit 1.0) v) \/ between 0 1 (@clamp (ieee P) (f64_lit 0.0) (f64_lit 1.0) v)) by apply clamp_range.
  pose proof (val_fin a Fa) as VA.
  assert (B0 : between 0 1 (f64_lit 0.0)) by (split; [apply nn_0|rewrite val_0; lra]).
  assert (B1 : between 0 1 (f64_lit 1.0)) by (split; [apply nn_1|rewrite val_1; lra]).
  revert H. unfold gammp, EPS. ieee_simpl.
  rewrite (proj2 (nonneg_true x) Hx), (proj2 (pos_true a) Ha). cbn [andb].
  destruct (f64_eq x _); [intros E; apply ok_inj in E; subst r; auto|].
  destruct (f64_lt x _); [intros E; apply ok_inj in E; subst r; auto|].
  destruct (f64_lt _ x); [intros E; apply ok_inj in E; subst r; auto|].
  destruct (100 <=? @as_usize (ieee P) a)%Z eqn:C100.
  - assert (A100 : 100 <= val a).
    { apply Z.leb_le in C100. unfold as_usize in C100. ieee_simpl_in C100. rewrite to_int_fin in C100 by exact Fa.
      destruct (Rle_or_lt 100 (val a)) as [|L]; [assumption|exfalso].
      destruct Ha as [_ Va].
      assert (Ztrunc (val a) <= 99)%Z.
      { rewrite Ztrunc_floor by lra. apply Z.lt_succ_r. apply lt_IZR. eapply Rle_lt_trans; [apply Zfloor_lb|]. simpl. exact L. }
      lia. }
    assert (C7 : f64_lt x (f64_mul P (f64_lit 0.2) a) = false).
    { destruct lit_02 as [F2 V2]. destruct (mul_spec P _ a F2 Fa) as [N V].
      apply lt_false; [exact Nx|exact N|]. rewrite V.
      assert (M : Binary.B2R (f64_lit 0.2) * Binary.B2R a <= 0.2001 * Binary.B2R a) by (apply Rmult_le_compat_r; lra).
      assert (X : 0.2001 * Binary.B2R a <= val x) by lra.
      apply rs_le_fmt; [apply val_fmt|destruct Hx as [_ Hx]; lra|lra]. }
    rewrite C7. intros E; apply ok_inj in E; subst r. rewrite approx_P. apply NC.
  - assert (A100 : val a < 100).
    { apply Z.leb_gt in C100. unfold as_usize in C100. ieee_simpl_in C100. rewrite to_int_fin in C100 by exact Fa.
      destruct (Rle_or_lt 100 (val a)) as [L|]; [exfalso|assumption].
      assert (100 <= Ztrunc (val a))%Z by (rewrite <- (Ztrunc_IZR 100); apply Ztrunc_le; lra). lia. }
    destruct C as [C|C]; [|lra].
    assert (C8 : f64_lt x (f64_add P a (f64_lit 1.0)) = false).
    { destruct (add_spec P a _ Fa fin_1) as [N V]. rewrite <- (val_fin _ fin_1), val_1 in V.
      apply lt_false; [exact Nx|exact N|]. rewrite V.
      apply rs_le_fmt; [apply val_fmt|destruct Hx as [_ Hx]; lra|lra]. }
    rewrite C8. intros E; apply ok_inj in E; subst r. apply NC.
Qed.

Lemma gammq_range : forall P a x r, number a -> number x -> val x < val a \/ 100 <= val a ->
  @gammq (ieee P) a x = Ok r -> is_NaN r \/ between 0 1 r.
Proof.
  intros P a x r Na Nx C H. pose proof Om_big as OB.
  assert (D : nonneg x /\ positive a) by (apply (proj2 (gammq_domain P a x)); eexists; exact H).
  destruct D as [Hx Ha].
  assert (NC : forall v : f64, is_NaN (@clamp (ieee P) (f64_lit 0.0) (f64_lit 1.0) v) \/ between 0 1 (@clamp (ieee P) (f64_lit 0.0) (f64_lit 1.0) v)) by apply clamp_range.
  assert (B0 : between 0 1 (f64_lit 0.0)) by (split; [apply nn_0|rewrite val_0; lra]).
  assert (B1 : between 0 1 (f64_lit 1.0)) by (split; [apply nn_1|rewrite val_1; lra]).
  revert H. unfold gammq, EPS. ieee_simpl.
  rewrite (proj2 (nonneg_true x) Hx), (proj2 (pos_true a) Ha). cbn [andb].
  destruct (f64_eq x _); [intros E; apply ok_inj in E; subst r; auto|].
  destruct (f64_lt x _); [intros E; apply ok_inj in E; subst r; auto|].
  destruct (f64_lt _ x); [intros E; apply ok_inj in E; subst r; auto|].
  destruct (100 <=? @as_usize (ieee P) a)%Z eqn:C100.
  - destruct (f64_lt x _); intros E; apply ok_inj in E; subst r; [apply NC|rewrite approx_Q; apply NC].
  - assert (C8 : f64_lt x (f64_add P a (f64_lit 1.0)) = true).
    { destruct (fin_or_inf a Na) as [Fa|[s ->]].
      2:{ destruct s; [exfalso; destruct Ha as [_ Ha]; rewrite val_inf_t in Ha; lra|]. discriminate C100. }
      pose proof (val_fin a Fa) as VA.
      assert (A100 : val a < 100).
      { apply Z.leb_gt in C100. unfold as_usize in C100. ieee_simpl_in C100. rewrite to_int_fin in C100 by exact Fa.
        destruct (Rle_or_lt 100 (val a)) as [L|]; [exfalso|assumption].
        assert (100 <= Ztrunc (val a))%Z by (rewrite <- (Ztrunc_IZR 100); apply Ztrunc_le; lra). lia. }
      destruct C as [C|C]; [|lra].
      destruct (add_spec P a _ Fa fin_1) as [N V]. rewrite <- (val_fin _ fin_1), val_1 in V.
      apply lt_true. split; [exact Nx|split; [exact N|]]. rewrite V. apply Rlt_le_trans with (val a); [exact C|].
      apply rs_ge; [apply val_fmt|lra|lra]. }
    rewrite C8. intros E; apply ok_inj in E; subst r. apply NC.
Qed.
