(** * Integer-order Bessel functions: parity, recurrences, zeros, no panics *)

From Coq Require Import ZArith Reals Bool Lra Lia List String.
From Flocq Require Import Core IEEE754.BinarySingleNaN IEEE754.Binary IEEE754.Bits.
From Verif.Model Require Import Base Arith BesselTables Bessel.
From Verif.Float Require Import Bits64 Ieee Exact.
From Verif.Spec Require Import F64Spec Outcome.
From Verif.Proofs Require Import F64 F64Ops Lits Ext Boundaries Domains UtilsBits UtilsSpec Symmetry.
Import ListNotations.
Open Scope R_scope.

(** ** ranges *)

Lemma count_from_app : forall n a, count_from a (S n) = (count_from a n ++ [(a + Z.of_nat n)%Z])%list.
Proof.
  induction n as [|n IH]; intros a.
  - cbn. f_equal. lia.
  - change (count_from a (S (S n))) with (a :: count_from (a + 1) (S n))%Z.
    rewrite IH. cbn [count_from app]. do 3 f_equal. lia.
Qed.

Lemma range_snoc : forall a b, (a <= b)%Z -> range a (b + 1) = (range a b ++ [b])%list.
Proof.
  intros a b H. unfold range. replace (Z.to_nat (b + 1 - a)) with (S (Z.to_nat (b - a))) by lia.
  rewrite count_from_app. do 2 f_equal. lia.
Qed.

Lemma in_count_from : forall n a x, List.In x (count_from a n) -> (a <= x < a + Z.of_nat n)%Z.
Proof.
  induction n as [|n IH]; intros a x H; [destruct H|].
  destruct H as [H|H]; [lia|]. apply IH in H. lia.
Qed.

Lemma in_range : forall a b x, List.In x (range a b) -> (a <= x < b)%Z.
Proof. intros a b x H. apply in_count_from in H. lia. Qed.

(** ** parity *)

Lemma powi2_neg : forall P x, nonnan x -> @powi2 (ieee P) (f64_neg x) = @powi2 (ieee P) x.
Proof.
  intros P x N. unfold powi2. ieee_simpl. symmetry. apply eqn_nonnan; [symmetry; apply mul_neg_neg|].
  destruct (fin_or_inf x N) as [F|[s ->]]; [apply (mul_spec P x x F F)|destruct s; reflexivity].
Qed.

Lemma powi2_neg_eqn : forall P x, @powi2 (ieee P) (f64_neg x) ~= @powi2 (ieee P) x.
Proof. intros P x. apply mul_neg_neg. Qed.

Lemma j0_even : forall P x, nonnan x -> @j0 (ieee P) (f64_neg x) = @j0 (ieee P) x.
Proof.
  intros P x N. unfold j0, rat. rewrite powi2_neg by exact N. ieee_simpl. rewrite abs_neg.
  reflexivity.
Qed.

Lemma lt0_true : forall x, f64_lt x (f64_lit 0.0) = true <-> number x /\ val x < 0.
Proof. intros x. rewrite lt_true, val_0. pose proof nn_0. unfold number. tauto. Qed.

Lemma neg_lt0 : forall x, number x -> val x <> 0 ->
  f64_lt (f64_neg x) (f64_lit 0.0) = negb (f64_lt x (f64_lit 0.0)).
Proof.
  intros x N V. destruct (f64_lt x (f64_lit 0.0)) eqn:E.
  - apply lt0_true in E. cbn [negb]. apply lt_false; [rewrite nan_neg; exact N|apply nn_0|].
    rewrite val_neg, val_0. lra.
  - apply lt_false in E; [|exact N|apply nn_0]. rewrite val_0 in E. cbn [negb]. apply lt0_true.
    split; [unfold number; rewrite nan_neg; exact N|]. rewrite val_neg. lra.
Qed.

Lemma abs_ge_nonzero : forall x d r, 0 < r -> nonnan (f64_lit d) -> val (f64_lit d) = r ->
  number x -> f64_lt (f64_abs x) (f64_lit d) = false -> val x <> 0.
Proof.
  intros x d r Hr Nd Vd N E Z. apply lt_false in E; [|rewrite nan_abs; exact N|exact Nd].
  rewrite val_abs, Z, Rabs_R0, Vd in E. lra.
Qed.

Lemma val_8 : nonnan (f64_lit 8.0) /\ val (f64_lit 8.0) = 8.
Proof. lit_facts 8.0%dec 8%Z 0%Z HF HV. split; [apply fin_nonnan; exact HF|lra]. Qed.
Lemma val_15 : nonnan (f64_lit 15.0) /\ val (f64_lit 15.0) = 15.
Proof. lit_facts 15.0%dec 15%Z 0%Z HF HV. split; [apply fin_nonnan; exact HF|lra]. Qed.

Lemma j1_odd : forall P x, number x -> @j1 (ieee P) (f64_neg x) ~= f64_neg (@j1 (ieee P) x).
Proof.
  intros P x N. unfold j1, rat. rewrite powi2_neg by exact N. ieee_simpl. rewrite abs_neg.
  destruct (f64_lt (f64_abs x) (f64_lit 8.0)) eqn:E.
  - rewrite 3 mul_neg_l, div_neg_l. reflexivity.
  - rewrite neg_lt0; [|exact N|apply (abs_ge_nonzero x 8.0 8); try apply val_8; auto; lra].
    destruct (asp _ _ _ _ _ _) as [[[[[z xx] nump] denp] numq] denq].
    destruct (f64_lt x (f64_lit 0.0)); cbn [negb].
    + rewrite neg_neg. reflexivity.
    + reflexivity.
Qed.

Lemma i0_even : forall P x, nonnan x -> @i0 (ieee P) (f64_neg x) = @i0 (ieee P) x.
Proof.
  intros P x N. unfold i0. rewrite powi2_neg by exact N. ieee_simpl. rewrite abs_neg. reflexivity.
Qed.

Lemma i1_odd_small : forall P x, number x -> Rabs (val x) < 15 ->
  @i1 (ieee P) (f64_neg x) ~= f64_neg (@i1 (ieee P) x).
Proof.
  intros P x N V. unfold i1. rewrite powi2_neg by exact N. ieee_simpl. rewrite abs_neg.
  replace (f64_lt (f64_abs x) (f64_lit 15.0)) with true.
  2:{ symmetry. apply lt_true. rewrite nan_abs, val_abs. destruct val_15 as [N15 V15].
      split; [exact N|]. split; [exact N15|]. rewrite V15. exact V. }
  rewrite mul_neg_l, div_neg_l. reflexivity.
Qed.

Lemma powi2_zero : forall P x, number x -> val x = 0 -> @powi2 (ieee P) x = B754_zero false.
Proof.
  intros P x N V. destruct x as [s|s|s pl H|s m e H].
  - unfold powi2. destruct s; reflexivity.
  - pose proof Om_pos. destruct s; cbn in V; lra.
  - discriminate.
  - exfalso. cbn in V. apply eq_0_F2R in V. destruct s; discriminate.
Qed.

Notation f64_tiny := (@B754_finite 53 1024 false (2 ^ 52) (-1074) eq_refl).

Lemma val_tiny : val f64_tiny = bpow radix2 (-1022).
Proof.
  change (val f64_tiny) with (IZR (2 ^ 52) * bpow radix2 (-1074)).
  rewrite <- (bpow2_nonneg_IZR 52), <- bpow_plus by lia. reflexivity.
Qed.

Lemma tiny_thr : forall P, let t := f64_mul P (f64_lit 8.0) f64_tiny in
  number t /\ val t = bpow radix2 (-1019).
Proof.
  intros P t. destruct val_8 as [N8 V8].
  assert (F8 : fin (f64_lit 8.0)).
  { apply (fin_of_lt _ (f64_lit 8.0) N8). rewrite V8. pose proof Om_big. lra. }
  destruct (mul_spec P (f64_lit 8.0) f64_tiny F8 eq_refl) as [N V]. fold t in N, V.
  split; [exact N|]. rewrite V. rewrite <- !val_fin by (exact F8 || reflexivity).
  rewrite V8, val_tiny. replace (8 * bpow radix2 (-1022)) with (bpow radix2 (-1019)).
  - apply rs_fmt; [apply fmt_bpow; lia|]. rewrite Rabs_pos_eq by apply bpow_ge_0.
    apply Rlt_le, bpow_lt. lia.
  - replace (-1019)%Z with (3 + -1022)%Z by lia. rewrite bpow_plus. reflexivity.
Qed.

Lemma small_arg : forall P x, finite x -> val x * val x <= bpow radix2 (-1019) ->
  f64_le (@powi2 (ieee P) x) (f64_mul P (f64_lit 8.0) f64_tiny) = true.
Proof.
  intros P x F V. unfold powi2. ieee_simpl. destruct (tiny_thr P) as [Nt Vt].
  destruct (mul_spec P x x F F) as [N W]. apply le_true. split; [exact N|]. split; [exact Nt|].
  rewrite Vt, W, <- val_fin by exact F. apply rs_le_fmt; [apply fmt_bpow; lia| |exact V].
  pose proof Om_pos. pose proof (bpow_gt_0 radix2 (-1019)). lra.
Qed.

Lemma Jn_In_small : forall P n x, (2 <= n)%Z -> finite x -> val x * val x <= bpow radix2 (-1019) ->
  @Jn (ieee P) n x = Ok (f64_lit 0.0) /\ @In (ieee P) n x = Ok (f64_lit 0.0).
Proof.
  intros P n x Hn F V. unfold Jn, In.
  replace (n =? 0)%Z with false by (symmetry; apply Z.eqb_neq; lia).
  replace (n =? 1)%Z with false by (symmetry; apply Z.eqb_neq; lia).
  ieee_simpl. pose proof (small_arg P x F V) as E. ieee_simpl_in E. rewrite E. split; reflexivity.
Qed.

Lemma not_small_nonzero : forall P x, number x ->
  f64_le (@powi2 (ieee P) x) (f64_mul P (f64_lit 8.0) f64_tiny) = false -> val x <> 0.
Proof.
  intros P x N E Z.
  assert (F : finite x).
  { apply (fin_of_lt x x N). rewrite Z. pose proof Om_pos. lra. }
  rewrite small_arg in E; [discriminate|exact F|]. rewrite Z, Rmult_0_l. apply bpow_ge_0.
Qed.

Lemma Jn_parity : forall P n x, (0 <= n)%Z -> number x ->
  match @Jn (ieee P) n x, @Jn (ieee P) n (f64_neg x) with
  | Ok r, Ok r' => if Z.odd n then opposite r r' else r' = r
  | Panic p, Panic p' => p = p'
  | Diverge, Diverge => True
  | _, _ => False
  end.
Proof.
  intros P n x Hn N. unfold Jn.
  destruct (n =? 0)%Z eqn:E0.
  { apply Z.eqb_eq in E0. subst n. cbn. apply j0_even. exact N. }
  destruct (n =? 1)%Z eqn:E1.
  { apply Z.eqb_eq in E1. subst n. cbn. left. apply j1_odd. exact N. }
  rewrite powi2_neg by exact N. ieee_simpl. rewrite abs_neg.
  destruct (f64_le (@powi2 (ieee P) x) (f64_mul P (f64_lit 8.0) f64_tiny)) eqn:E.
  { destruct (Z.odd n); [|reflexivity]. right. rewrite val_0. repeat split. }
  rewrite neg_lt0; [|exact N|apply (not_small_nonzero P x N E)].
  match goal with |- context [bind ?m _] => destruct m as [ans|p|] end; cbn [bind]; auto.
  assert (M : (n mod 2 =? 1)%Z = Z.odd n).
  { rewrite Zmod_odd. destruct (Z.odd n); reflexivity. }
  rewrite M. destruct (Z.odd n).
  - destruct (f64_lt x (f64_lit 0.0)); cbn [andb negb]; left; rewrite ?neg_neg; reflexivity.
  - rewrite !andb_false_r. reflexivity.
Qed.

Lemma In_parity : forall P n x, (0 <= n)%Z -> number x -> n <> 1%Z \/ Rabs (val x) < 15 ->
  match @In (ieee P) n x, @In (ieee P) n (f64_neg x) with
  | Ok r, Ok r' => if Z.odd n then opposite r r' else r' = r
  | Panic p, Panic p' => p = p'
  | Diverge, Diverge => True
  | _, _ => False
  end.
Proof.
  intros P n x Hn N C. unfold In.
  destruct (n =? 0)%Z eqn:E0.
  { apply Z.eqb_eq in E0. subst n. cbn. apply i0_even. exact N. }
  destruct (n =? 1)%Z eqn:E1.
  { apply Z.eqb_eq in E1. subst n. cbn. left. apply i1_odd_small; [exact N|]. destruct C; [lia|assumption]. }
  rewrite powi2_neg, i0_even by exact N. ieee_simpl. rewrite abs_neg.
  destruct (f64_le (@powi2 (ieee P) x) (f64_mul P (f64_lit 8.0) f64_tiny)) eqn:E.
  { destruct (Z.odd n); [|reflexivity]. right. rewrite val_0. repeat split. }
  rewrite neg_lt0; [|exact N|apply (not_small_nonzero P x N E)].
  destruct (arith_u (p_checks P) 32 (n + _)) as [ns|p|]; cbn [bind]; auto.
  destruct (arith_u (p_checks P) 32 (2 * ns)) as [m|p|]; cbn [bind]; auto.
  match goal with |- context [bind ?m _] => destruct m as [e|p|] end; cbn [bind]; auto.
  assert (M : (n mod 2 =? 1)%Z = Z.odd n).
  { rewrite Zmod_odd. destruct (Z.odd n); reflexivity. }
  rewrite M.
  destruct e as [[[bip bi] ans]|[[bip bi] ans]|[]];
    (destruct (Z.odd n);
     [destruct (f64_lt x (f64_lit 0.0)); cbn [andb negb]; left; rewrite ?neg_neg; reflexivity
     |rewrite !andb_false_r; reflexivity]).
Qed.
