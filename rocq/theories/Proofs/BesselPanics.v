(** * Bessel functions: panics, NaN, projections, counterexamples *)

From Coq Require Import ZArith Reals Bool Lra Lia List String.
From Flocq Require Import Core IEEE754.BinarySingleNaN IEEE754.Binary IEEE754.Bits.
From Verif.Model Require Import Base Arith BesselTables Bessel.
From Verif.Float Require Import Bits64 Ieee Exact Platforms.
From Verif.Spec Require Import F64Spec Outcome.
From Verif.Proofs Require Import F64 F64Ops Lits Ext Boundaries Domains UtilsBits UtilsSpec
  UtilsExamples Symmetry BesselInt BesselRec.
Import ListNotations.
Open Scope R_scope.

(** ** ldexp(_, -512) *)
Lemma ldexp_512 : forall P x, exists y, @ldexp (ieee P) x (-512) = Ok y.
Proof.
  intros P x. pose proof (ldexp_panics P x (-512)) as H.
  assert (I : is_i32 (-512)) by (unfold is_i32; lia). specialize (H I).
  destruct (@ldexp (ieee P) x (-512)) as [y|p|] eqn:E.
  - exists y. reflexivity.
  - exfalso. destruct H as [H _]. specialize (H eq_refl). destruct H as (_ & _ & H).
    pose proof (Z.mod_pos_bound (to_bits x / 2 ^ 52) (2 ^ 11) ltac:(lia)). lia.
  - exfalso. clear H. revert E. ieee_simpl. unfold ldexp_bits, arith_s, bind.
    repeat match goal with |- context [if ?b then _ else _] => destruct b end; discriminate.
Qed.

Lemma for_loop_all : forall {S R} (body : Z -> S -> res (step S R)) l s,
  (forall i s, exists s', body i s = Ok (Next s')) ->
  exists s', for_loop l body s = Ok (Exhausted s').
Proof.
  intros S R body l. induction l as [|i l IH]; intros s H.
  - exists s. reflexivity.
  - destruct (H i s) as [s' E]. cbn [for_loop]. rewrite E. apply IH. exact H.
Qed.

Lemma jn_down_body_next : forall P tox n j st,
  exists st', @jn_down_body (ieee P) tox n j st = Ok (Next st').
Proof.
  intros P tox n j [[[[bjp bj] ans] sum] jsum]. unfold jn_down_body.
  destruct (frexp _) as [q k]. destruct (k >? IEXP)%Z.
  - change (- IEXP)%Z with (-512)%Z.
    match goal with |- context [@ldexp (ieee P) ?a (-512)] => destruct (ldexp_512 P a) as [y1 E1]; rewrite E1 end.
    destruct (ldexp_512 P bj) as [y2 E2]. destruct (ldexp_512 P ans) as [y3 E3]. destruct (ldexp_512 P sum) as [y4 E4].
    unfold bind. rewrite E2, E3, E4. eexists. reflexivity.
  - unfold bind. eexists. reflexivity.
Qed.

Lemma in_down_body_next : forall P tox n j st,
  exists st', @in_down_body (ieee P) tox n j st = Ok (Next st').
Proof.
  intros P tox n j [[bip bi] ans]. unfold in_down_body.
  destruct (frexp _) as [q k]. destruct (k >? IEXP)%Z.
  - change (- IEXP)%Z with (-512)%Z.
    match goal with |- context [@ldexp (ieee P) ?a (-512)] => destruct (ldexp_512 P a) as [y1 E1]; rewrite E1 end.
    destruct (ldexp_512 P bi) as [y2 E2]. destruct (ldexp_512 P ans) as [y3 E3].
    unfold bind. rewrite E2, E3. eexists. reflexivity.
  - unfold bind. eexists. reflexivity.
Qed.

(** ** the number of steps: [sqrt(c * n) as u32] *)
Lemma to_int_le : forall lo hi x b, (lo <= hi)%Z -> (- 2 ^ 1024 <= lo)%Z -> (hi <= 2 ^ 1024)%Z ->
  (lo <= b)%Z -> nonnan x -> val x <= IZR b -> (lo <= f64_to_int lo hi x <= b)%Z.
Proof.
  intros lo hi x b H1 H2 H3 H4 N V. rewrite to_int_val by assumption.
  assert (Ztrunc (val x) <= b)%Z.
  { rewrite <- (Ztrunc_IZR b). apply Ztrunc_le. exact V. }
  lia.
Qed.

Lemma steps_bound : forall P d c n k, nonnan (f64_lit d) -> fin (f64_lit d) -> val (f64_lit d) = IZR c ->
  (0 <= c)%Z -> (0 <= n <= 2 ^ 53)%Z -> (0 <= k <= 20)%Z -> (c * n <= 2 ^ (2 * k))%Z ->
  (0 <= @as_u32 (ieee P) (f64_sqrt P (f64_mul P (f64_lit d) (f64_of_Z n))) <= 2 ^ k)%Z.
Proof.
  intros P d c n k Nd Fd Vd Hc Hn Hk B.
  destruct (of_Z_exact n) as [Fn En]; [lia|].
  destruct (mul_spec P _ _ Fd Fn) as [Nm Vm]. rewrite En, <- val_fin, Vd, <- mult_IZR in Vm by exact Fd.
  assert (H0 : 0 <= val (f64_mul P (f64_lit d) (f64_of_Z n)) <= bpow radix2 (2 * k)).
  { rewrite Vm. split; [apply rs_pos; apply IZR_le; nia|].
    apply rs_le_fmt; [apply fmt_bpow; lia| |rewrite bpow2_nonneg_IZR by lia; apply IZR_le; lia].
    pose proof (bpow_ge_0 radix2 (2 * k)). pose proof Om_pos. lra. }
  assert (Fm : fin (f64_mul P (f64_lit d) (f64_of_Z n))).
  { apply (fin_of_bound _ (bpow radix2 (2 * k))); [exact Nm|rewrite Rabs_pos_eq; lra|apply bpow_lt; lia]. }
  destruct (sqrt_spec P _ Fm) as [Ns Vs]; [rewrite <- val_fin by exact Fm; lra|].
  rewrite <- (val_fin _ Fm) in Vs.
  unfold as_u32. ieee_simpl. apply to_int_le; try lia; [apply fin_nonnan; exact Ns|].
  rewrite (val_fin _ Ns), Vs, <- bpow2_nonneg_IZR by lia.
  apply rnd_le_fmt; [apply fmt_bpow; lia|].
  apply Rle_trans with (R_sqrt.sqrt (bpow radix2 (2 * k))); [apply sqrt_le_1_alt; lra|].
  replace (2 * k)%Z with (k + k)%Z by lia. rewrite bpow_plus, sqrt_square by apply bpow_ge_0. lra.
Qed.

Lemma arith_u_ok : forall chk v, (0 <= v < 2 ^ 32)%Z -> arith_u chk 32 v = Ok v.
Proof.
  intros chk v Hv. unfold arith_u, Base.in_range.
  replace (0 <=? v)%Z with true by (symmetry; apply Z.leb_le; lia).
  replace (v <=? 2 ^ 32 - 1)%Z with true by (symmetry; apply Z.leb_le; lia). reflexivity.
Qed.

Lemma val_160 : fin (f64_lit 160.0) /\ val (f64_lit 160.0) = 160.
Proof. lit_facts 160.0%dec 160%Z 0%Z HF HV. split; [exact HF|lra]. Qed.
Lemma val_200 : fin (f64_lit 200.0) /\ val (f64_lit 200.0) = 200.
Proof. lit_facts 200.0%dec 200%Z 0%Z HF HV. split; [exact HF|lra]. Qed.

Lemma jn_down_returns : forall P n ax, (0 <= n <= 2 ^ 31)%Z -> returns (@jn_down (ieee P) n ax).
Proof.
  intros P n ax Hn. unfold jn_down. destruct val_160 as [F1 V1].
  pose proof (steps_bound P 160.0 160 n 20 (fin_nonnan _ F1) F1 V1 ltac:(lia) ltac:(lia) ltac:(lia) ltac:(lia)) as B.
  ieee_simpl. rewrite arith_u_ok by lia. unfold bind at 1.
  match goal with |- context [bind ?m _] =>
    assert (Q : exists s', m = Ok (Exhausted s')) by (apply for_loop_all; intros; apply jn_down_body_next) end.
  destruct Q as [[[[[u v] w] z] y] E].
  rewrite E. unfold bind. eexists. reflexivity.
Qed.

Lemma Jn_returns : forall P n x, (0 <= n <= 2 ^ 31)%Z -> returns (@Jn (ieee P) n x).
Proof.
  intros P n x Hn. unfold Jn. apply ret_if; [apply ret_ok|]. apply ret_if; [apply ret_ok|].
  apply ret_if; [apply ret_ok|].
  match goal with |- returns (bind ?m _) => assert (Q : returns m) by (apply ret_if; [apply ret_ok|apply jn_down_returns; exact Hn]) end.
  destruct Q as [r E]. rewrite E. unfold bind. apply ret_if; apply ret_ok.
Qed.

Lemma In_returns : forall P n x, (0 <= n <= 2 ^ 30)%Z -> returns (@In (ieee P) n x).
Proof.
  intros P n x Hn. unfold In. apply ret_if; [apply ret_ok|]. apply ret_if; [apply ret_ok|].
  apply ret_if; [apply ret_ok|]. destruct val_200 as [F1 V1].
  pose proof (steps_bound P 200.0 200 n 19 (fin_nonnan _ F1) F1 V1 ltac:(lia) ltac:(lia) ltac:(lia) ltac:(lia)) as B.
  ieee_simpl. rewrite arith_u_ok by lia. unfold bind at 1. rewrite arith_u_ok by lia. unfold bind at 1.
  match goal with |- context [bind ?m _] =>
    assert (Q : exists s', m = Ok (Exhausted s')) by (apply for_loop_all; intros; apply in_down_body_next) end.
  destruct Q as [[[u v] w] E].
  rewrite E. unfold bind. apply ret_if; apply ret_ok.
Qed.

(** largest order *)
Lemma Jn_max_panics : forall P, p_checks P = true ->
  @Jn (ieee P) (2 ^ 32 - 1) (f64_lit 1.0) = Panic POverflow
  /\ @In (ieee P) (2 ^ 32 - 1) (f64_lit 1.0) = Panic POverflow.
Proof.
  intros P H. split.
  - unfold Jn. change (2 ^ 32 - 1 =? 0)%Z with false. change (2 ^ 32 - 1 =? 1)%Z with false. cbn [negb].
    assert (E : (@powi2 (ieee P) (f64_lit 1.0) <= mul (lit 8.0) min_positive)%f = false) by (vm_compute; reflexivity).
    rewrite E. assert (E2 : (@of_int (ieee P) (2 ^ 32 - 1) < @abs (ieee P) (f64_lit 1.0))%f = false) by (vm_compute; reflexivity).
    cbv zeta. rewrite E2. unfold jn_down.
    assert (E3 : arith_u true 32 (2 ^ 32 - 1 + @as_u32 (ieee P) (sqrt (mul (lit 160.0) (of_int (2 ^ 32 - 1))))) = Panic POverflow)
      by (vm_compute; reflexivity).
    change (checks (a := ieee P)) with (p_checks P). rewrite H, E3. reflexivity.
  - unfold In. change (2 ^ 32 - 1 =? 0)%Z with false. change (2 ^ 32 - 1 =? 1)%Z with false.
    assert (E : (@powi2 (ieee P) (f64_lit 1.0) <= mul (lit 8.0) min_positive)%f = false) by (vm_compute; reflexivity).
    rewrite E. cbv zeta.
    assert (E3 : arith_u true 32 (2 ^ 32 - 1 + @as_u32 (ieee P) (sqrt (mul (lit 200.0) (of_int (2 ^ 32 - 1))))) = Panic POverflow)
      by (vm_compute; reflexivity).
    change (checks (a := ieee P)) with (p_checks P). rewrite H, E3. reflexivity.
Qed.

(** ** continued fractions fed with NaN never converge *)
Lemma for_break_never : forall {S} (body : Z -> S -> S * bool) (inv : S -> Prop) l s,
  (forall i s, inv s -> inv (fst (body i s)) /\ snd (body i s) = false) ->
  inv s -> snd (for_break l body s) = false.
Proof.
  intros S body inv l. induction l as [|i l IH]; intros s H I; [reflexivity|].
  destruct (H i s I) as [I' E]. cbn [for_break]. destruct (body i s) as [s' b]. cbn in I', E. subst b.
  apply IH; assumption.
Qed.

Ltac nan_step := repeat first
  [ assumption | apply add_nan_l; nan_step | apply add_nan_r; nan_step
  | apply mul_nan_l; nan_step | apply mul_nan_r; nan_step
  | apply sub_nan_l; nan_step | apply sub_nan_r; nan_step
  | apply div_nan_l; nan_step | apply div_nan_r; nan_step | apply abs_nan; nan_step ].

Lemma jy_cf1_nan : forall P nu xi xi2, is_NaN (f64_mul P xi2 nu) ->
  @jy_cf1 (ieee P) nu xi xi2 = Panic (PExplicit "x too large in besseljy; try asymptotic expansion").
Proof.
  intros P nu xi xi2 HN. unfold jy_cf1.
  match goal with |- context [for_break ?l ?b ?s] =>
    assert (Q : snd (for_break l b s) = false);
    [apply (for_break_never b (fun st => is_NaN (fst (fst (fst (fst st))))))|destruct (for_break l b s) as [[[[[u v] w] z] y] ok]] end.
  - intros i [[[[b d] c] h] isign] I. cbn [fst] in I. unfold jy_cf1_body, clip_fpmin. ieee_simpl.
    assert (I' : Binary.is_nan (f64_add P b xi2) = true) by (apply add_nan_l; exact I).
    assert (C1 : Binary.is_nan (f64_sub P (f64_add P b xi2) d) = true) by (apply sub_nan_l; exact I').
    cbn [fst snd]. split; [exact I'|]. apply le_nan_l. apply abs_nan, sub_nan_l, mul_nan_r, div_nan_r.
    rewrite lt_nan_l by (apply abs_nan; exact C1). exact C1.
  - cbn [fst]. exact HN.
  - cbn [snd] in Q. rewrite Q. reflexivity.
Qed.

Lemma ik_cf1_nan : forall P nu xi xi2, is_NaN (f64_mul P xi2 nu) ->
  @ik_cf1 (ieee P) nu xi xi2 = Panic (PExplicit "x too large in besselik; try asymptotic expansion").
Proof.
  intros P nu xi xi2 HN. unfold ik_cf1.
  match goal with |- context [for_break ?l ?b ?s] =>
    assert (Q : snd (for_break l b s) = false);
    [apply (for_break_never b (fun st => is_NaN (fst (fst (fst st)))))|destruct (for_break l b s) as [[[[u v] w] z] ok]] end.
  - intros i [[[b d] c] h] I. cbn [fst] in I. unfold ik_cf1_body. ieee_simpl.
    assert (I' : Binary.is_nan (f64_add P b xi2) = true) by (apply add_nan_l; exact I).
    cbn [fst snd]. split; [exact I'|]. apply le_nan_l. apply abs_nan, sub_nan_l, mul_nan_r, div_nan_r, add_nan_l. exact I'.
  - cbn [fst]. exact HN.
  - cbn [snd] in Q. rewrite Q. reflexivity.
Qed.

Lemma bad_true : forall nu x, (number x /\ val x <= 0) \/ (number nu /\ val nu < 0) ->
  (f64_le x (f64_lit 0.0) || f64_lt nu (f64_lit 0.0))%bool = true.
Proof.
  intros nu x [H|H]; apply orb_true_iff.
  - left. apply (le_real x 0.0 0 nn_0 val_0). exact H.
  - right. apply lt0_true. exact H.
Qed.

Lemma xi2_nan : forall P nu x, is_NaN nu \/ is_NaN x ->
  is_NaN (f64_mul P (f64_mul P (f64_lit 2.0) (f64_div P (f64_lit 1.0) x)) nu).
Proof.
  intros P nu x [H|H].
  - apply mul_nan_r. exact H.
  - apply mul_nan_l, mul_nan_r, div_nan_r. exact H.
Qed.

Lemma bad_false : forall nu x, ~ (number x /\ val x <= 0) -> ~ (number nu /\ val nu < 0) ->
  (f64_le x (f64_lit 0.0) || f64_lt nu (f64_lit 0.0))%bool = false.
Proof.
  intros nu x H1 H2. apply orb_false_iff. split.
  - destruct (f64_le x (f64_lit 0.0)) eqn:E; [exfalso; apply H1; apply (le_real x 0.0 0 nn_0 val_0); exact E|reflexivity].
  - destruct (f64_lt nu (f64_lit 0.0)) eqn:E; [exfalso; apply H2; apply lt0_true; exact E|reflexivity].
Qed.

Lemma besseljy_bad : forall P nu x, (number x /\ val x <= 0) \/ (number nu /\ val nu < 0) ->
  @besseljy (ieee P) nu x = Panic (PExplicit "bad arguments in besseljy").
Proof.
  intros P nu x H. unfold besseljy. ieee_simpl. rewrite bad_true by exact H. reflexivity.
Qed.

Lemma besselik_bad : forall P nu x, (number x /\ val x <= 0) \/ (number nu /\ val nu < 0) ->
  @besselik (ieee P) nu x = Panic (PExplicit "bad arguments in besselik").
Proof.
  intros P nu x H. unfold besselik. ieee_simpl. rewrite bad_true by exact H. reflexivity.
Qed.

Lemma besseljy_nan : forall P nu x, is_NaN nu \/ is_NaN x ->
  ~ (number x /\ val x <= 0) -> ~ (number nu /\ val nu < 0) ->
  @besseljy (ieee P) nu x = Panic (PExplicit "x too large in besseljy; try asymptotic expansion").
Proof.
  intros P nu x H H1 H2. unfold besseljy. ieee_simpl. rewrite (bad_false nu x H1 H2). cbn [negb].
  rewrite jy_cf1_nan by (apply xi2_nan; exact H). reflexivity.
Qed.

Lemma besselik_nan : forall P nu x, is_NaN nu \/ is_NaN x ->
  ~ (number x /\ val x <= 0) -> ~ (number nu /\ val nu < 0) ->
  @besselik (ieee P) nu x = Panic (PExplicit "x too large in besselik; try asymptotic expansion").
Proof.
  intros P nu x H H1 H2. unfold besselik. ieee_simpl. rewrite (bad_false nu x H1 H2). cbn [negb].
  rewrite ik_cf1_nan by (apply xi2_nan; exact H). reflexivity.
Qed.

(** the "bad arguments" panic happens only then *)
Lemma besseljy_bad_only : forall P nu x,
  @besseljy (ieee P) nu x = Panic (PExplicit "bad arguments in besseljy") ->
  (number x /\ val x <= 0) \/ (number nu /\ val nu < 0).
Proof.
  intros P nu x H.
  destruct (f64_le x (f64_lit 0.0)) eqn:E1; [left; apply (le_real x 0.0 0 nn_0 val_0); exact E1|].
  destruct (f64_lt nu (f64_lit 0.0)) eqn:E2; [right; apply lt0_true; exact E2|].
  exfalso. revert H. unfold besseljy. ieee_simpl. rewrite E1, E2. cbn [orb negb]. unfold jy_cf1.
  destruct (for_break _ _ _) as [[[[[u v] w] z] y] ok]. destruct ok; [|discriminate].
  unfold bind at 1. destruct (jy_down _ _ _ _ _) as [a b].
  destruct (f64_lt x (f64_lit 2.0)).
  - unfold jy_series. destruct (for_break _ _ _) as [[[[[[? ?] ?] ?] ?] ?] ok]. destruct ok; [|discriminate].
    unfold bind. destruct (nu_up _ _ _ _ _ _). discriminate.
  - unfold jy_large, jy_cf2. destruct (for_break _ _ _) as [[[[[[[[? ?] ?] ?] ?] ?] ?] ?] ok].
    destruct ok; [|discriminate]. unfold bind. destruct (nu_up _ _ _ _ _ _). discriminate.
Qed.

Lemma besselik_bad_only : forall P nu x,
  @besselik (ieee P) nu x = Panic (PExplicit "bad arguments in besselik") ->
  (number x /\ val x <= 0) \/ (number nu /\ val nu < 0).
Proof.
  intros P nu x H.
  destruct (f64_le x (f64_lit 0.0)) eqn:E1; [left; apply (le_real x 0.0 0 nn_0 val_0); exact E1|].
  destruct (f64_lt nu (f64_lit 0.0)) eqn:E2; [right; apply lt0_true; exact E2|].
  exfalso. revert H. unfold besselik. ieee_simpl. rewrite E1, E2. cbn [orb negb]. unfold ik_cf1.
  destruct (for_break _ _ _) as [[[[u v] w] z] ok]. destruct ok; [|discriminate].
  unfold bind at 1. destruct (ik_down _ _ _ _ _) as [a b].
  destruct (f64_lt x (f64_lit 2.0)).
  - unfold ik_series. destruct (for_break _ _ _) as [[[[[[? ?] ?] ?] ?] ?] ok]. destruct ok; [|discriminate].
    unfold bind. destruct (nu_up _ _ _ _ _ _). discriminate.
  - unfold ik_large. destruct (for_break _ _ _) as [[[[[[[[[[? ?] ?] ?] ?] ?] ?] ?] ?] ?] ok].
    destruct ok; [|discriminate]. unfold bind. destruct (nu_up _ _ _ _ _ _). discriminate.
Qed.

(** ** no divergence; projections *)
Lemma besseljy_no_div : forall P nu x, @besseljy (ieee P) nu x <> Diverge.
Proof.
  intros P nu x. unfold besseljy. ieee_simpl. destruct (negb _); [|discriminate]. unfold jy_cf1.
  destruct (for_break _ _ _) as [[[[[u v] w] z] y] ok]. destruct ok; [|discriminate].
  unfold bind at 1. destruct (jy_down _ _ _ _ _) as [a b].
  destruct (f64_lt x (f64_lit 2.0)).
  - unfold jy_series. destruct (for_break _ _ _) as [[[[[[? ?] ?] ?] ?] ?] ok]. destruct ok; [|discriminate].
    unfold bind. destruct (nu_up _ _ _ _ _ _). discriminate.
  - unfold jy_large, jy_cf2. destruct (for_break _ _ _) as [[[[[[[[? ?] ?] ?] ?] ?] ?] ?] ok].
    destruct ok; [|discriminate]. unfold bind. destruct (nu_up _ _ _ _ _ _). discriminate.
Qed.

Lemma besselik_no_div : forall P nu x, @besselik (ieee P) nu x <> Diverge.
Proof.
  intros P nu x. unfold besselik. ieee_simpl. destruct (negb _); [|discriminate]. unfold ik_cf1.
  destruct (for_break _ _ _) as [[[[u v] w] z] ok]. destruct ok; [|discriminate].
  unfold bind at 1. destruct (ik_down _ _ _ _ _) as [a b].
  destruct (f64_lt x (f64_lit 2.0)).
  - unfold ik_series. destruct (for_break _ _ _) as [[[[[[? ?] ?] ?] ?] ?] ok]. destruct ok; [|discriminate].
    unfold bind. destruct (nu_up _ _ _ _ _ _). discriminate.
  - unfold ik_large. destruct (for_break _ _ _) as [[[[[[[[[[? ?] ?] ?] ?] ?] ?] ?] ?] ?] ok].
    destruct ok; [|discriminate]. unfold bind. destruct (nu_up _ _ _ _ _ _). discriminate.
Qed.

Lemma ends_of : forall {A} (m : res A), m <> Diverge -> returns m \/ panics m.
Proof. intros A [a|p|] H; [left; exists a|right; exists p|exfalso; apply H]; reflexivity. Qed.

Lemma besseljy_ends : forall P nu x, returns (@besseljy (ieee P) nu x) \/ panics (@besseljy (ieee P) nu x).
Proof. intros. apply ends_of, besseljy_no_div. Qed.
Lemma besselik_ends : forall P nu x, returns (@besselik (ieee P) nu x) \/ panics (@besselik (ieee P) nu x).
Proof. intros. apply ends_of, besselik_no_div. Qed.

Lemma Jnu_Ynu_proj : forall P nu x,
  same_outcome (fun r q => fst (fst (fst r)) = fst q /\ snd (fst (fst r)) = snd q)
    (@besseljy (ieee P) nu x) (@Jnu_Ynu (ieee P) nu x).
Proof.
  intros P nu x. unfold Jnu_Ynu. destruct (besseljy_ends P nu x) as [[[[[a b] c] d] E]|[p E]]; rewrite E.
  - cbn. split; reflexivity.
  - reflexivity.
Qed.

Lemma Inu_Knu_proj : forall P nu x,
  same_outcome (fun r q => fst (fst (fst r)) = fst q /\ snd (fst (fst r)) = snd q)
    (@besselik (ieee P) nu x) (@Inu_Knu (ieee P) nu x).
Proof.
  intros P nu x. unfold Inu_Knu. destruct (besselik_ends P nu x) as [[[[[a b] c] d] E]|[p E]]; rewrite E.
  - cbn. split; reflexivity.
  - reflexivity.
Qed.

(** ** In of NaN *)
Lemma i0_nan : forall P x, is_NaN x -> is_NaN (@i0 (ieee P) x).
Proof.
  intros P x H. unfold i0. ieee_simpl. rewrite lt_nan_l by (apply abs_nan; exact H).
  apply div_nan_l, mul_nan_l. apply libm_nan. apply abs_nan. exact H.
Qed.

Lemma i1_nan : forall P x, is_NaN x -> is_NaN (@i1 (ieee P) x).
Proof.
  intros P x H. unfold i1. ieee_simpl. rewrite lt_nan_l by (apply abs_nan; exact H).
  rewrite lt_nan_l by exact H. apply div_nan_l, mul_nan_l. apply libm_nan. exact H.
Qed.

Lemma j0_nan : forall P x, is_NaN x -> is_NaN (@j0 (ieee P) x).
Proof.
  intros P x H. unfold j0, asp. ieee_simpl. rewrite lt_nan_l by (apply abs_nan; exact H).
  apply mul_nan_l, sqrt_nan, div_nan_r, abs_nan. exact H.
Qed.

Lemma j1_nan : forall P x, is_NaN x -> is_NaN (@j1 (ieee P) x).
Proof.
  intros P x H. unfold j1, asp. ieee_simpl. rewrite lt_nan_l by (apply abs_nan; exact H).
  rewrite lt_nan_l by exact H. apply mul_nan_l, sqrt_nan, div_nan_r, abs_nan. exact H.
Qed.

Lemma y0_nan : forall P x, is_NaN x -> is_NaN (@y0 (ieee P) x).
Proof.
  intros P x H. unfold y0, asp. ieee_simpl. rewrite lt_nan_l by exact H.
  apply mul_nan_l, sqrt_nan, div_nan_r. exact H.
Qed.

Lemma y1_nan : forall P x, is_NaN x -> is_NaN (@y1 (ieee P) x).
Proof.
  intros P x H. unfold y1, asp. ieee_simpl. rewrite lt_nan_l by exact H.
  apply mul_nan_l, sqrt_nan, div_nan_r. exact H.
Qed.

Lemma k0_nan : forall P x, is_NaN x -> is_NaN (@k0 (ieee P) x).
Proof.
  intros P x H. unfold k0. ieee_simpl. rewrite le_nan_l by exact H.
  apply div_nan_l, mul_nan_l. apply libm_nan, neg_nan. exact H.
Qed.

Lemma k1_nan : forall P x, is_NaN x -> is_NaN (@k1 (ieee P) x).
Proof.
  intros P x H. unfold k1. ieee_simpl. rewrite le_nan_l by exact H.
  apply div_nan_l, mul_nan_l. apply libm_nan, neg_nan. exact H.
Qed.

Lemma Yn_nan : forall P n x, (0 <= n)%Z -> is_NaN x -> is_NaN (@Yn (ieee P) n x).
Proof.
  intros P n x Hn H. destruct (Z.eq_dec n 0) as [->|E0]; [apply y0_nan; exact H|].
  destruct (Z.eq_dec n 1) as [->|E1]; [apply y1_nan; exact H|].
  replace n with (n - 1 + 1)%Z by lia. rewrite Yn_recurrence by lia.
  apply sub_nan_l, mul_nan_l, mul_nan_r, div_nan_r. exact H.
Qed.

Lemma Kn_nan : forall P n x, (0 <= n)%Z -> is_NaN x -> is_NaN (@Kn (ieee P) n x).
Proof.
  intros P n x Hn H. destruct (Z.eq_dec n 0) as [->|E0]; [apply k0_nan; exact H|].
  destruct (Z.eq_dec n 1) as [->|E1]; [apply k1_nan; exact H|].
  replace n with (n - 1 + 1)%Z by lia. rewrite Kn_recurrence by lia.
  apply add_nan_l, mul_nan_l, mul_nan_r, div_nan_r. exact H.
Qed.

Lemma In_nan : forall P n x, (0 <= n)%Z -> is_NaN x -> forall r, @In (ieee P) n x = Ok r -> is_NaN r.
Proof.
  intros P n x Hn H r E. unfold In in E.
  destruct (n =? 0)%Z. { apply ok_inj in E. subst r. apply i0_nan. exact H. }
  destruct (n =? 1)%Z. { apply ok_inj in E. subst r. apply i1_nan. exact H. }
  unfold powi2 in E. ieee_simpl_in E. rewrite le_nan_l in E by (apply mul_nan_l; exact H).
  rewrite (lt_nan_l x) in E by exact H. cbn [andb] in E. revert E.
  repeat match goal with |- context [bind ?m _] => destruct m as [?|?|]; cbn [bind]; try discriminate end.
  destruct a1 as [[[b c] d]|[[b c] d]|[]]; intros E; apply ok_inj in E; subst r;
    apply mul_nan_r, div_nan_l, i0_nan; exact H.
Qed.

(** ** counterexamples *)

(** evaluate without comparing the proofs inside floating-point numbers *)
Definition obs (m : res f64) : option full_float :=
  match m with Ok x => Some (Binary.B2FF x) | _ => None end.
Lemma obs_ok : forall m (x : f64), obs m = Some (Binary.B2FF x) -> m = Ok x.
Proof.
  intros [y|p|] x H; try discriminate. cbn [obs] in H. f_equal. apply Binary.B2FF_inj. congruence.
Qed.

(** Jn(2, NaN) is a number *)
Lemma Jn_nan_number : forall P, exists r,
  @Jn (ieee (canonical_nan P)) 2 f64_NAN = Ok r /\ finite r.
Proof.
  intros P. exists (@B754_finite 53 1024 false 1125899906842624 (-1074) eq_refl).
  split; [|reflexivity]. apply obs_ok. vm_compute. reflexivity.
Qed.

(** the downward recurrence loses its scale: J_163(1) = 0 to f64 accuracy, the code returns infinity *)
Lemma Jn_unbounded : forall P, @Jn (ieee P) 163 (f64_lit 1.0) = Ok (B754_infinity false).
Proof. intros P. apply obs_ok. vm_compute. reflexivity. Qed.
Lemma In_unbounded : forall P, @In (ieee P) 163 (f64_lit 1.0) = Ok (B754_infinity false).
Proof. intros P. apply obs_ok. vm_compute. reflexivity. Qed.

Definition big145 : f64 := @B754_finite 53 1024 false 5055701495457720 432 eq_refl.
Lemma Jn_huge : forall P, @Jn (ieee P) 5 (f64_lit 1e-100) = Ok big145.
Proof. intros P. apply obs_ok. vm_compute. reflexivity. Qed.

Lemma val_big145 : bpow radix2 432 < val big145.
Proof.
  unfold val, big145, Binary.B2R, F2R. cbn [Fnum Fexp SpecFloat.cond_Zopp].
  rewrite <- (Rmult_1_l (bpow radix2 432)) at 1. apply Rmult_lt_compat_r; [apply bpow_gt_0|]. lra.
Qed.

Lemma Jn_bound_refuted : exists n x, (0 <= n < 2 ^ 32)%Z /\ finite x
  /\ forall P, exists r, @Jn (ieee P) n x = Ok r /\ finite r /\ 1 < Rabs (val r).
Proof.
  exists 5%Z, (f64_lit 1e-100). split; [lia|]. split; [vm_compute; reflexivity|].
  intros P. exists big145. split; [apply Jn_huge|]. split; [reflexivity|].
  pose proof val_big145. apply Rlt_le_trans with (val big145); [|apply Rle_abs].
  eapply Rlt_trans; [|exact H]. apply (bpow_lt radix2 0). lia.
Qed.

Lemma In_zero_order : forall P, exists r, @In (ieee P) 0 (f64_lit 1.0) = Ok r /\ finite r.
Proof.
  intros P. eexists. split; [reflexivity|]. vm_compute. reflexivity.
Qed.

Lemma In_bound_refuted : exists n x, (0 <= n < 2 ^ 32)%Z /\ finite x
  /\ forall P, exists r r0, @In (ieee P) n x = Ok r /\ @In (ieee P) 0 x = Ok r0 /\ number r /\ finite r0
     /\ val r0 < Rabs (val r).
Proof.
  exists 163%Z, (f64_lit 1.0). split; [lia|]. split; [vm_compute; reflexivity|].
  intros P. destruct (In_zero_order P) as (r0 & E & Fr). exists (B754_infinity false), r0.
  split; [apply In_unbounded|]. split; [exact E|]. split; [reflexivity|]. split; [exact Fr|].
  rewrite val_inf_f. pose proof Om_pos. rewrite (Rabs_pos_eq Om) by lra.
  pose proof (fin_abs_val _ Fr). pose proof (Rle_abs (val r0)). lra.
Qed.

(** ** no divergence, whatever the order *)
Lemma arith_u_no_div : forall c b v, arith_u c b v <> Diverge.
Proof. intros c b v. unfold arith_u. destruct (Base.in_range _ _ _); [discriminate|]. destruct c; discriminate. Qed.

Lemma Jn_no_div : forall P n x, @Jn (ieee P) n x <> Diverge.
Proof.
  intros P n x. unfold Jn. destruct (n =? 0)%Z; [discriminate|]. destruct (n =? 1)%Z; [discriminate|].
  destruct (_ <= _)%f; [discriminate|]. destruct (_ < _)%f.
  - cbn [bind]. destruct (_ && _)%bool; discriminate.
  - unfold jn_down. ieee_simpl.
    match goal with |- context [arith_u ?c ?b ?v] => pose proof (arith_u_no_div c b v) as Q; destruct (arith_u c b v) as [ns|p|] end;
      [|discriminate|exfalso; apply Q; reflexivity].
    cbn [bind].
    match goal with |- context [for_loop ?l ?b ?s] =>
      assert (E : exists s', for_loop l b s = Ok (Exhausted s')) by (apply for_loop_all; intros; apply jn_down_body_next) end.
    destruct E as [[[[[u v] w] z] y] E]. ieee_simpl_in E. rewrite E. cbn [bind]. destruct (_ && _)%bool; discriminate.
Qed.

Lemma In_no_div : forall P n x, @In (ieee P) n x <> Diverge.
Proof.
  intros P n x. unfold In. destruct (n =? 0)%Z; [discriminate|]. destruct (n =? 1)%Z; [discriminate|].
  destruct (_ <= _)%f; [discriminate|]. ieee_simpl.
  match goal with |- context [arith_u ?c ?b ?v] => pose proof (arith_u_no_div c b v) as Q; destruct (arith_u c b v) as [ns|p|] end;
    [|discriminate|exfalso; apply Q; reflexivity].
  cbn [bind].
  match goal with |- context [arith_u ?c ?b ?v] => pose proof (arith_u_no_div c b v) as Q'; destruct (arith_u c b v) as [m|p|] end;
    [|discriminate|exfalso; apply Q'; reflexivity].
  cbn [bind].
  match goal with |- context [bind ?m _] =>
    assert (E : exists s', m = Ok (Exhausted s')) by (apply for_loop_all; intros; apply in_down_body_next) end.
  destruct E as [[[u v] w] E]. rewrite E. cbn [bind]. destruct (_ && _)%bool; discriminate.
Qed.

Lemma Jn_parity_outcome : forall P n x, (0 <= n)%Z -> number x ->
  same_outcome (fun r r' => if Z.odd n then opposite r r' else r' = r)
    (@Jn (ieee P) n x) (@Jn (ieee P) n (f64_neg x)).
Proof.
  intros P n x Hn Hx. pose proof (Jn_parity P n x Hn Hx) as H. pose proof (Jn_no_div P n x) as D.
  unfold same_outcome. destruct (@Jn (ieee P) n x); [exact H|exact H|exfalso; apply D; reflexivity].
Qed.

Lemma In_parity_outcome : forall P n x, (0 <= n)%Z -> number x -> n <> 1%Z \/ Rabs (val x) < 15 ->
  same_outcome (fun r r' => if Z.odd n then opposite r r' else r' = r)
    (@In (ieee P) n x) (@In (ieee P) n (f64_neg x)).
Proof.
  intros P n x Hn Hx Hs. pose proof (In_parity P n x Hn Hx Hs) as H. pose proof (In_no_div P n x) as D.
  unfold same_outcome. destruct (@In (ieee P) n x); [exact H|exact H|exfalso; apply D; reflexivity].
Qed.
