(** * dawson is negative on an interval of positive arguments *)

From Coq Require Import ZArith Reals Bool Lra Lia List.
From Flocq Require Import Core IEEE754.BinarySingleNaN IEEE754.Binary IEEE754.Bits.
From Verif.Model Require Import Base Arith Utils Dawson.
From Verif.Float Require Import Bits64 Ieee Exact Platforms.
From Verif.Spec Require Import F64Spec Outcome DawsonSpec.
From Verif.Proofs Require Import F64 F64Ops Lits Ext Poly Boundaries DawsonBad DawsonTaylor Ideal.
Import ListNotations.
Open Scope R_scope.

(** a finite f64 with value in [a, b] *)
Definition inb (z : f64) (a b : R) : Prop := fin z /\ a <= Binary.B2R z <= b.

Lemma rounds_inb : forall z r a b, rounds z r -> fmt a -> fmt b -> Rabs a <= 2 ^ 60 -> Rabs b <= 2 ^ 60 ->
  a <= r <= b -> inb z a b.
Proof.
  intros z r a b [N V] Fa Fb Ba Bb H. pose proof Om_big as O.
  apply Rabs_le_inv in Ba. apply Rabs_le_inv in Bb.
  assert (L : a <= val z) by (rewrite V; apply rs_ge; [exact Fa|lra|lra]).
  assert (U : val z <= b) by (rewrite V; apply rs_le_fmt; [exact Fb|lra|lra]).
  assert (Fz : fin z) by (apply fin_iff_val; [exact N|apply Rabs_lt; lra]).
  split; [exact Fz|]. rewrite <- (val_fin z Fz). lra.
Qed.

Lemma fmt_q : forall m k r, (Z.abs m <= 2 ^ 53)%Z -> (0 <= k <= 1000)%Z -> r = IZR m / IZR (2 ^ k) -> fmt r.
Proof.
  intros m k r Hm Hk ->. unfold Rdiv. rewrite <- bpow2_neg_IZR by lia. apply fmt_F2R; lia.
Qed.

Ltac fq m k := apply (fmt_q m k); [vm_compute; discriminate|split; vm_compute; discriminate|simpl; lra].
Ltac ab := (rewrite Rabs_pos_eq by lra; lra) || (rewrite Rabs_left1 by lra; lra).

Section Neg.
  Context (P : platform).

  Lemma mul_inb : forall x y a b c d l h, inb x a b -> inb y c d -> fmt l -> fmt h ->
    Rabs l <= 2 ^ 60 -> Rabs h <= 2 ^ 60 ->
    (forall u v, a <= u <= b -> c <= v <= d -> l <= u * v <= h) -> inb (f64_mul P x y) l h.
  Proof.
    intros x y a b c d l h [Fx Hx] [Fy Hy] Fl Fh Bl Bh H.
    apply (rounds_inb _ _ l h (mul_spec P x y Fx Fy)); auto.
  Qed.

  Lemma add_inb : forall x y a b c d, inb x a b -> inb y c d -> fmt (a + c) -> fmt (b + d) ->
    Rabs (a + c) <= 2 ^ 60 -> Rabs (b + d) <= 2 ^ 60 -> inb (f64_add P x y) (a + c) (b + d).
  Proof.
    intros x y a b c d [Fx Hx] [Fy Hy] Fl Fh Bl Bh.
    apply (rounds_inb _ _ _ _ (add_spec P x y Fx Fy)); auto. lra.
  Qed.

  Context (HE : plausible_exp (p_exp P)).

  Lemma exp_inb1 : forall t a b, inb t a b -> -1 <= a -> b <= 0 ->
    inb (libm P (p_exp P) t) (1 / 4) 1.
  Proof.
    intros t a b [Ft Ht] A B. rewrite libm_nonnan by (apply fin_nonnan; exact Ft).
    destruct (proj1 HE t (fin_nonnan _ Ft)) as [N V]; [rewrite (val_fin t Ft); lra|].
    assert (F : fin (p_exp P t)).
    { apply fin_iff_val; [exact N|]. rewrite Rabs_pos_eq by lra. pose proof Om_big. lra. }
    split; [exact F|]. rewrite <- (val_fin _ F). exact V.
  Qed.

  Lemma exp_inb2 : forall t a b, inb t a b -> -30 <= a -> b <= 0 ->
    inb (libm P (p_exp P) t) (bpow radix2 (-100)) 1.
  Proof.
    intros t a b [Ft Ht] A B. rewrite libm_nonnan by (apply fin_nonnan; exact Ft).
    destruct (proj2 HE t (fin_nonnan _ Ft)) as [N V]; [rewrite (val_fin t Ft); lra|].
    pose proof (bpow_gt_0 radix2 (-100)).
    assert (F : fin (p_exp P t)).
    { apply fin_iff_val; [exact N|]. rewrite Rabs_pos_eq by lra. pose proof Om_big. lra. }
    split; [exact F|]. rewrite <- (val_fin _ F). exact V.
  Qed.

  Lemma neg_inb : forall x a b, inb x a b -> inb (f64_neg x) (- b) (- a).
  Proof. intros x a b [F H]. split; [rewrite fin_neg; exact F|]. rewrite B2R_neg. lra. Qed.

  Lemma of_Z_inb : forall z, (Z.abs z <= 2 ^ 53)%Z -> inb (f64_of_Z z) (IZR z) (IZR z).
  Proof. intros z H. destruct (of_Z_exact z H) as [F V]. split; [exact F|]. rewrite V. lra. Qed.

  Lemma inb_2 : inb (f64_lit 2.0) 2 2.
  Proof. split; [exact fin_2|]. rewrite <- (val_fin _ fin_2), val_2. lra. Qed.
  Lemma inb_1 : inb (f64_lit 1.0) 1 1.
  Proof. split; [exact fin_1|]. rewrite <- (val_fin _ fin_1), val_1. lra. Qed.
  Lemma inb_04 : inb (f64_lit 0.4) 0.399 0.401.
  Proof. exact lit_04. Qed.

  (** the weights *)
  Lemma cval_inb : forall i, (0 <= i <= 5)%Z ->
    inb (libm P (p_exp P) (f64_neg (f64_mul P
           (f64_mul P (f64_add P (f64_mul P (f64_lit 2.0) (f64_of_Z i)) (f64_lit 1.0)) (f64_lit 0.4))
           (f64_mul P (f64_add P (f64_mul P (f64_lit 2.0) (f64_of_Z i)) (f64_lit 1.0)) (f64_lit 0.4)))))
      (bpow radix2 (-100)) 1.
  Proof.
    intros i Hi.
    assert (I : 0 <= IZR i <= 5) by (split; apply IZR_le; lia).
    assert (A1 : inb (f64_mul P (f64_lit 2.0) (f64_of_Z i)) 0 10).
    { eapply mul_inb; [exact inb_2|apply of_Z_inb; lia|fq 0%Z 0%Z|fq 10%Z 0%Z|ab|ab|]. intros u v Hu Hv. nra. }
    assert (A2 : inb (f64_add P (f64_mul P (f64_lit 2.0) (f64_of_Z i)) (f64_lit 1.0)) (0 + 1) (10 + 1)).
    { apply add_inb; [exact A1|exact inb_1|fq 1%Z 0%Z|fq 11%Z 0%Z|ab|ab]. }
    assert (A3 : inb (f64_mul P (f64_add P (f64_mul P (f64_lit 2.0) (f64_of_Z i)) (f64_lit 1.0)) (f64_lit 0.4)) 0 5).
    { eapply mul_inb; [exact A2|exact inb_04|fq 0%Z 0%Z|fq 5%Z 0%Z|ab|ab|]. intros u v Hu Hv. nra. }
    set (w := f64_mul P (f64_add P (f64_mul P (f64_lit 2.0) (f64_of_Z i)) (f64_lit 1.0)) (f64_lit 0.4)) in *.
    assert (A4 : inb (f64_mul P w w) 0 25).
    { eapply mul_inb; [exact A3|exact A3|fq 0%Z 0%Z|fq 25%Z 0%Z|ab|ab|]. intros u v Hu Hv. nra. }
    apply neg_inb in A4. apply (exp_inb2 _ _ _ A4); lra.
  Qed.

  (** one iteration; the state before iteration i *)
  Definition dinv (i : Z) (st : f64 * f64 * f64 * f64) : Prop :=
    let '(d1, d2, e1, sum) := st in
    inb d1 (IZR (3 + 2 * i)) (IZR (3 + 2 * i)) /\ inb d2 (IZR (1 - 2 * i)) (IZR (1 - 2 * i))
    /\ inb e1 (bpow radix2 (-2 - 4 * i)) 1
    /\ inb sum (- IZR (i * 2 ^ 40)) (if Z.eqb i 0 then 0 else - bpow radix2 (-101)).

  Lemma middle : forall i, (0 <= i <= 5)%Z -> exists m, fmt m /\
    / IZR (5 + 2 * i) <= m <= / IZR (1 + 2 * i) /\ m <= 1 / 2 /\ (i = 0%Z -> m = 1 / 2).
  Proof.
    intros i Hi.
    assert (C : (i = 0 \/ i = 1 \/ i = 2 \/ i = 3 \/ i = 4 \/ i = 5)%Z) by lia.
    destruct C as [-> |[-> |[-> |[-> |[-> | ->]]]]].
    - exists (1 / 2). split; [fq 1%Z 1%Z|]. simpl. lra.
    - exists (1 / 4). split; [fq 1%Z 2%Z|]. simpl. split; [lra|]. split; [lra|discriminate].
    - exists (1 / 8). split; [fq 1%Z 3%Z|]. simpl. split; [lra|]. split; [lra|discriminate].
    - exists (1 / 8). split; [fq 1%Z 3%Z|]. simpl. split; [lra|]. split; [lra|discriminate].
    - exists (3 / 32). split; [fq 3%Z 5%Z|]. simpl. split; [lra|]. split; [lra|discriminate].
    - exists (5 / 64). split; [fq 5%Z 6%Z|]. simpl. split; [lra|]. split; [lra|discriminate].
  Qed.

  Lemma body_eq : forall h e2 d1 d2 e1 sum i, @dawson_body (ieee P) h e2 (d1, d2, e1, sum) i =
    (f64_add P d1 (f64_lit 2.0), f64_sub P d2 (f64_lit 2.0), f64_mul P e1 e2,
     f64_add P sum (f64_mul P
       (libm P (p_exp P) (f64_neg (f64_mul P
           (f64_mul P (f64_add P (f64_mul P (f64_lit 2.0) (f64_of_Z i)) (f64_lit 1.0)) h)
           (f64_mul P (f64_add P (f64_mul P (f64_lit 2.0) (f64_of_Z i)) (f64_lit 1.0)) h))))
       (f64_add P (f64_div P (f64_mul P e1 e2) (f64_add P d1 (f64_lit 2.0)))
                  (f64_div P (f64_lit 1.0) (f64_mul P (f64_sub P d2 (f64_lit 2.0)) (f64_mul P e1 e2)))))).
  Proof. reflexivity. Qed.

  Lemma body_inv : forall e2 st i, (0 <= i <= 5)%Z -> inb e2 (bpow radix2 (-4)) 1 -> dinv i st ->
    dinv (i + 1) (@dawson_body (ieee P) (f64_lit 0.4) e2 st i).
  Proof.
    intros e2 [[[d1 d2] e1] sum] i Hi E2 (D1 & D2 & E1 & S). rewrite body_eq.
    pose proof (cval_inb i Hi) as CV. set (cv := libm P (p_exp P) _) in *. clearbody cv.
    assert (Ii : 0 <= IZR i <= 5) by (split; apply IZR_le; lia).
    assert (D1' : inb (f64_add P d1 (f64_lit 2.0)) (IZR (5 + 2 * i)) (IZR (5 + 2 * i))).
    { replace (IZR (5 + 2 * i)) with (IZR (3 + 2 * i) + 2) by (rewrite !plus_IZR; lra).
      apply add_inb; try exact D1; try exact inb_2; try (rewrite <- (plus_IZR _ 2); apply fmt_IZR; lia);
        rewrite plus_IZR, mult_IZR; ab. }
    assert (D2' : inb (f64_sub P d2 (f64_lit 2.0)) (IZR (- 1 - 2 * i)) (IZR (- 1 - 2 * i))).
    { destruct D2 as [F2 V2]. replace (IZR (-1 - 2 * i)) with (IZR (1 - 2 * i) - 2) by (rewrite !minus_IZR; lra).
      assert (fmt (IZR (1 - 2 * i) - 2)) by (rewrite <- (minus_IZR _ 2); apply fmt_IZR; lia).
      apply (rounds_inb _ _ _ _ (sub_spec P d2 _ F2 fin_2)); auto;
        try (rewrite minus_IZR, mult_IZR; rewrite Rabs_left by lra; lra).
      rewrite <- (val_fin _ fin_2), val_2. lra. }
    set (d1' := f64_add P d1 (f64_lit 2.0)) in *. set (d2' := f64_sub P d2 (f64_lit 2.0)) in *. clearbody d1' d2'.
    assert (EP : bpow radix2 (-2 - 4 * (i + 1)) = bpow radix2 (-2 - 4 * i) * bpow radix2 (-4)).
    { rewrite <- bpow_plus. f_equal. lia. }
    assert (E1' : inb (f64_mul P e1 e2) (bpow radix2 (-2 - 4 * (i + 1))) 1).
    { pose proof (bpow_gt_0 radix2 (-2 - 4 * i)) as B1. pose proof (bpow_gt_0 radix2 (-4)) as B2.
      assert (B3 : bpow radix2 (-2 - 4 * (i + 1)) <= 1) by (change 1 with (bpow radix2 0); apply bpow_le; lia).
      pose proof (bpow_gt_0 radix2 (-2 - 4 * (i + 1))) as B4.
      eapply mul_inb; [exact E1|exact E2|apply fmt_bpow; lia|fq 1%Z 0%Z|ab|ab|].
      intros u v Hu Hv. split.
      - rewrite EP. apply Rmult_le_compat; lra.
      - rewrite <- (Rmult_1_r 1). apply Rmult_le_compat; lra. }
    set (e1' := f64_mul P e1 e2) in *. clearbody e1'.
    assert (EL : bpow radix2 (-26) <= bpow radix2 (-2 - 4 * (i + 1))) by (apply bpow_le; lia).
    assert (EG : 0 < bpow radix2 (-26)) by apply bpow_gt_0.
    destruct (middle i Hi) as (m & Fm & Hm & Um & M0).
    assert (R1 : IZR (5 + 2 * i) = 5 + 2 * IZR i) by (rewrite plus_IZR, mult_IZR; reflexivity).
    assert (R2 : IZR (1 + 2 * i) = 1 + 2 * IZR i) by (rewrite plus_IZR, mult_IZR; reflexivity).
    assert (R3 : IZR (-1 - 2 * i) = - IZR (1 + 2 * i)) by (rewrite R2, minus_IZR, mult_IZR; lra).
    assert (mp : 0 < m).
    { apply Rlt_le_trans with (/ IZR (5 + 2 * i)); [apply Rinv_0_lt_compat; lra|lra]. }
    (* e1 / d1 *)
    assert (Q1 : inb (f64_div P e1' d1') 0 (if Z.eqb i 0 then 1 / 4 else m)).
    { destruct E1' as [Fe He]. destruct D1' as [Fd Hd].
      assert (Vd : Binary.B2R d1' = IZR (5 + 2 * i)) by lra.
      apply (rounds_inb _ _ _ _ (div_spec P e1' d1' Fe Fd ltac:(lra))).
      - fq 0%Z 0%Z.
      - destruct (Z.eqb i 0); [fq 1%Z 2%Z|exact Fm].
      - ab.
      - destruct (Z.eqb i 0); ab.
      - rewrite Vd. assert (I0 : 0 < / IZR (5 + 2 * i)) by (apply Rinv_0_lt_compat; lra).
        assert (T : 0 <= Binary.B2R e1' / IZR (5 + 2 * i) <= / IZR (5 + 2 * i)).
        { unfold Rdiv. split; [apply Rmult_le_pos; lra|].
          rewrite <- (Rmult_1_l (/ IZR (5 + 2 * i))) at 2. apply Rmult_le_compat_r; lra. }
        split; [lra|]. destruct (Z.eqb_spec i 0) as [-> |_]; [|lra]. simpl in T |- *. lra. }
    (* 1 / (d2 e1) *)
    assert (Q2 : inb (f64_mul P d2' e1') (- IZR (1 + 2 * i)) (- bpow radix2 (-26))).
    { rewrite R3 in D2'.
      eapply mul_inb; [exact D2'|exact E1'| | | | |].
      - apply fmt_opp, fmt_IZR. lia.
      - apply fmt_opp, fmt_bpow. lia.
      - ab.
      - rewrite Rabs_Ropp, Rabs_pos_eq by lra. apply Rle_trans with (bpow radix2 0); [apply bpow_le; lia|simpl; lra].
      - intros u v Hu Hv. assert (u = - IZR (1 + 2 * i)) by lra. subst u.
        assert (v <= 1) by lra. assert (bpow radix2 (-26) <= v) by lra. split; nra. }
    set (q1 := f64_div P e1' d1') in *. set (q2 := f64_mul P d2' e1') in *. clearbody q1 q2.
    assert (Q3 : inb (f64_div P (f64_lit 1.0) q2) (- bpow radix2 26) (if Z.eqb i 0 then -1 else - m)).
    { destruct Q2 as [F2 V2].
      pose proof (div_spec P (f64_lit 1.0) q2 fin_1 F2 ltac:(lra)) as Dv.
      rewrite <- (val_fin _ fin_1), val_1 in Dv.
      set (w := Binary.B2R q2) in *.
      assert (W : 1 / w = - / (- w)) by (unfold Rdiv; rewrite Rmult_1_l, Rinv_opp; ring).
      rewrite W in Dv.
      assert (W1 : / IZR (1 + 2 * i) <= / (- w)) by (apply Rinv_le; lra).
      assert (W2 : / (- w) <= bpow radix2 26).
      { replace (bpow radix2 26) with (/ bpow radix2 (-26)) by (rewrite <- bpow_opp; reflexivity).
        apply Rinv_le; lra. }
      apply (rounds_inb _ _ _ _ Dv).
      - apply fmt_opp, fmt_bpow. lia.
      - destruct (Z.eqb i 0); [fq (-1)%Z 0%Z|apply fmt_opp, Fm].
      - rewrite Rabs_Ropp, Rabs_pos_eq by apply bpow_ge_0. simpl. lra.
      - destruct (Z.eqb i 0); ab.
      - split; [lra|]. destruct (Z.eqb_spec i 0) as [-> |_]; [|lra].
        simpl in W1. lra. }
    set (q3 := f64_div P (f64_lit 1.0) q2) in *. clearbody q3.
    assert (B26 : bpow radix2 26 = 67108864) by reflexivity.
    (* the bracket *)
    assert (Q4 : inb (f64_add P q1 q3) (- bpow radix2 26) (if Z.eqb i 0 then - (1 / 2) else 0)).
    { destruct Q1 as [F1 V1]. destruct Q3 as [F3 V3].
      apply (rounds_inb _ _ _ _ (add_spec P q1 q3 F1 F3)).
      - apply fmt_opp, fmt_bpow. lia.
      - destruct (Z.eqb i 0); [fq (-1)%Z 1%Z|fq 0%Z 0%Z].
      - rewrite B26. ab.
      - destruct (Z.eqb i 0); ab.
      - destruct (Z.eqb i 0); lra. }
    set (q4 := f64_add P q1 q3) in *. clearbody q4.
    pose proof (bpow_gt_0 radix2 (-100)) as P100. pose proof (bpow_gt_0 radix2 (-101)) as P101.
    assert (B101 : bpow radix2 (-100) = 2 * bpow radix2 (-101)).
    { change (-100)%Z with (1 + -101)%Z. rewrite bpow_plus. reflexivity. }
    assert (S101 : bpow radix2 (-101) <= 1) by (change 1 with (bpow radix2 0); apply bpow_le; lia).
    (* the term *)
    assert (Q5 : inb (f64_mul P cv q4) (- bpow radix2 26) (if Z.eqb i 0 then - bpow radix2 (-101) else 0)).
    { eapply mul_inb; [exact CV|exact Q4| | | | |].
      - apply fmt_opp, fmt_bpow. lia.
      - destruct (Z.eqb i 0); [apply fmt_opp, fmt_bpow; lia|fq 0%Z 0%Z].
      - rewrite B26. ab.
      - destruct (Z.eqb i 0); ab.
      - intros u v Hu Hv. destruct (Z.eqb i 0); split; nra. }
    set (q5 := f64_mul P cv q4) in *. clearbody q5.
    replace (3 + 2 * (i + 1))%Z with (5 + 2 * i)%Z by ring.
    replace (1 - 2 * (i + 1))%Z with (-1 - 2 * i)%Z by ring.
    split; [replace (3 + 2 * (i + 1))%Z with (5 + 2 * i)%Z by ring; exact D1'|].
    split; [replace (1 - 2 * (i + 1))%Z with (-1 - 2 * i)%Z by ring; exact D2'|].
    split; [exact E1'|].
    replace (Z.eqb (i + 1) 0) with false by (symmetry; apply Z.eqb_neq; lia).
    destruct S as [FS VS]. destruct Q5 as [F5 V5].
    assert (R6 : IZR ((i + 1) * 2 ^ 40) = IZR (i * 2 ^ 40) + 1099511627776).
    { rewrite Z.mul_add_distr_r, plus_IZR. reflexivity. }
    assert (R7 : 0 <= IZR (i * 2 ^ 40) <= 5497558138880).
    { rewrite mult_IZR. change (IZR (2 ^ 40)) with 1099511627776. lra. }
    apply (rounds_inb _ _ _ _ (add_spec P sum q5 FS F5)).
    - apply fmt_opp, fmt_IZR. lia.
    - apply fmt_opp, fmt_bpow. lia.
    - rewrite R6. rewrite Rabs_Ropp, Rabs_pos_eq; lra.
    - ab.
    - rewrite R6. rewrite B26 in *. destruct (Z.eqb i 0); lra.
  Qed.

  Lemma loop_neg : forall e2 d1 d2 e1, inb e2 (bpow radix2 (-4)) 1 -> inb e1 (1 / 4) 1 ->
    inb d1 3 3 -> inb d2 1 1 ->
    let '(_, _, _, sum) := fold_left (@dawson_body (ieee P) (f64_lit 0.4) e2) (range 0 6)
        (d1, d2, e1, f64_lit 0.0) in
    inb sum (- 6597069766656) (- bpow radix2 (-101)).
  Proof.
    intros e2 d1 d2 e1 E2 E1 D1 D2. change (range 0 6) with [0; 1; 2; 3; 4; 5]%Z. cbn [fold_left].
    assert (I0 : dinv 0 (d1, d2, e1, f64_lit 0.0)).
    { split; [exact D1|]. split; [exact D2|].
      split; [change (bpow radix2 (-2 - 4 * 0)) with (/ 4); replace (/ 4) with (1 / 4) by lra; exact E1|].
      split; [reflexivity|].
      change (Binary.B2R (f64_lit 0.0)) with 0. simpl. lra. }
    pose proof (body_inv e2 _ 0 ltac:(lia) E2 I0) as I1.
    pose proof (body_inv e2 _ (0 + 1) ltac:(lia) E2 I1) as I2.
    pose proof (body_inv e2 _ (0 + 1 + 1) ltac:(lia) E2 I2) as I3.
    pose proof (body_inv e2 _ (0 + 1 + 1 + 1) ltac:(lia) E2 I3) as I4.
    pose proof (body_inv e2 _ (0 + 1 + 1 + 1 + 1) ltac:(lia) E2 I4) as I5.
    pose proof (body_inv e2 _ (0 + 1 + 1 + 1 + 1 + 1) ltac:(lia) E2 I5) as I6.
    simpl (0 + 1)%Z in *. simpl (1 + 1)%Z in *. simpl (2 + 1)%Z in *. simpl (3 + 1)%Z in *. simpl (4 + 1)%Z in *.
    clear I1 I2 I3 I4 I5.
    set (st := @dawson_body (ieee P) (f64_lit 0.4) e2 _ 5%Z) in *. clearbody st.
    destruct st as [[[a b] c] sum]. destruct I6 as (_ & _ & _ & H). exact H.
  Qed.

  Lemma isqrtpi : inb (f64_div P (f64_lit 1.0) (f64_sqrt P (@PI (ieee P)))) (1 / 2) 1.
  Proof.
    assert (C1 : f64_le (f64_lit 0.5) (f64_div P (f64_lit 1.0) (f64_sqrt P (@PI (ieee P)))) = true)
      by (vm_compute; reflexivity).
    assert (C2 : f64_le (f64_div P (f64_lit 1.0) (f64_sqrt P (@PI (ieee P)))) (f64_lit 1.0) = true)
      by (vm_compute; reflexivity).
    apply le_true in C1. apply le_true in C2. destruct C1 as (_ & N & L). destruct C2 as (_ & _ & U).
    destruct lit_half as [FH VH]. rewrite (val_fin _ FH), VH in L. rewrite val_1 in U.
    set (z := f64_div P _ _) in *. clearbody z.
    assert (F : fin z) by (apply fin_iff_val; [exact N|rewrite Rabs_pos_eq by lra; pose proof Om_big; lra]).
    split; [exact F|]. rewrite <- (val_fin z F). lra.
  Qed.

  Lemma sampled_eq : forall x n0, @dawson_sampled (ieee P) x n0 =
    let xp := f64_sub P (f64_abs x) (f64_mul P (f64_of_Z n0) (f64_lit 0.4)) in
    let e1 := libm P (p_exp P) (f64_mul P (f64_mul P (f64_lit 2.0) xp) (f64_lit 0.4)) in
    let d1 := f64_add P (f64_of_Z n0) (f64_lit 1.0) in
    let '(_, _, _, sum) := fold_left (@dawson_body (ieee P) (f64_lit 0.4) (f64_mul P e1 e1)) (range 0 6)
       (d1, f64_sub P d1 (f64_lit 2.0), e1, f64_lit 0.0) in
    f64_mul P (f64_mul P (f64_div P (f64_lit 1.0) (f64_sqrt P (@PI (ieee P))))
      (@sign (ieee P) (libm P (p_exp P) (f64_mul P (f64_neg xp) xp)) x)) sum.
  Proof. reflexivity. Qed.

  Theorem dawson_negative_inb : forall x : f64, number x -> 0.41 <= val x <= 0.79 ->
    exists r, @dawson (ieee P) x = Ok r /\ inb r (- 6597069766656) (- bpow radix2 (-104)).
  Proof.
    intros x Nx Hx.
    assert (Fx : fin x) by (apply fin_iff_val; [exact Nx|rewrite Rabs_pos_eq by lra; pose proof Om_big; lra]).
    rewrite (val_fin x Fx) in Hx.
    assert (Sx : f64_sign x = false).
    { rewrite f64_sign_Bsign. apply sign_pos; [exact Nx|]. rewrite (val_fin x Fx). lra. }
    assert (Ax : f64_abs x = x) by (destruct x as [s|s| |s m e H]; cbn in Sx |- *; try discriminate Fx; subst; reflexivity).
    rewrite dawson_unfold, Ax.
    assert (L2 : val (f64_lit 0.2) <= 1 / 4).
    { destruct (lit_spec 0.2) as [_ ->]. apply rs_le_fmt; [fq 1%Z 2%Z|pose proof Om_pos; lra|].
      unfold R_of_dec; cbn [dman dexp]; rewrite powerRZ_10; simpl; lra. }
    assert (N2 : nonnan (f64_lit 0.2)) by apply (lit_spec 0.2).
    rewrite (proj2 (lt_false x (f64_lit 0.2) Nx N2)) by (rewrite (val_fin x Fx); lra).
    assert (IX : inb x 0.41 0.79) by (split; [exact Fx|exact Hx]).
    (* n0 = 2 *)
    destruct lit_half as [FH VH]. destruct lit_04 as [F4 V4].
    assert (HH : inb (f64_lit 0.5) (1 / 2) (1 / 2)) by (split; [exact FH|lra]).
    assert (J1 : inb (f64_mul P (f64_lit 0.5) x) (13 / 64) (51 / 128)).
    { eapply mul_inb; [exact HH|exact IX|fq 13%Z 6%Z|fq 51%Z 7%Z|ab|ab|]. intros u v Hu Hv. assert (u = 1 / 2) by lra. subst u. lra. }
    assert (J2 : inb (f64_div P (f64_mul P (f64_lit 0.5) x) (f64_lit 0.4)) (1 / 2) 1).
    { destruct J1 as [F1 V1]. apply (rounds_inb _ _ _ _ (div_spec P _ _ F1 F4 ltac:(lra))); [fq 1%Z 1%Z|fq 1%Z 0%Z|ab|ab|].
      split; [apply le_div; lra|apply div_le; lra]. }
    assert (J3 : inb (dindex P x) (1 / 2 + 1 / 2) (1 + 1 / 2)).
    { unfold dindex. apply add_inb; [exact J2|exact HH|fq 1%Z 0%Z|fq 3%Z 1%Z|ab|ab]. }
    assert (T : f64_to_int 0 (2 ^ 64 - 1) (dindex P x) = 1%Z).
    { destruct J3 as [F3 V3]. rewrite (to_int_val 0 (2 ^ 64 - 1) _ (fin_nonnan _ F3) ltac:(lia) ltac:(lia) ltac:(lia)).
      rewrite (val_fin _ F3). rewrite Ztrunc_floor by lra. rewrite (Zfloor_imp 1); [reflexivity|]. change (IZR (1 + 1)) with 2. lra. }
    rewrite T. change (arith_u (p_checks P) 64 (2 * 1)) with (@Ok Z 2%Z). cbn [bind].
    rewrite sampled_eq. cbv zeta. rewrite Ax.
    assert (K0 : inb (f64_mul P (f64_of_Z 2) (f64_lit 0.4)) (51 / 64) (103 / 128)).
    { eapply mul_inb; [apply (of_Z_inb 2); lia|exact inb_04|fq 51%Z 6%Z|fq 103%Z 7%Z|ab|ab|].
      intros u v Hu Hv. assert (u = 2) by lra. subst u. lra. }
    assert (K1 : inb (f64_sub P x (f64_mul P (f64_of_Z 2) (f64_lit 0.4))) (- (1 / 2)) 0).
    { destruct K0 as [F0 V0]. apply (rounds_inb _ _ _ _ (sub_spec P x _ Fx F0)); [fq (-1)%Z 1%Z|fq 0%Z 0%Z|ab|ab|lra]. }
    set (xp := f64_sub P x (f64_mul P (f64_of_Z 2) (f64_lit 0.4))) in *. clearbody xp.
    assert (K2 : inb (f64_mul P (f64_lit 2.0) xp) (-1) 0).
    { eapply mul_inb; [exact inb_2|exact K1|fq (-1)%Z 0%Z|fq 0%Z 0%Z|ab|ab|]. intros u v Hu Hv. assert (u = 2) by lra. subst u. lra. }
    assert (K3 : inb (f64_mul P (f64_mul P (f64_lit 2.0) xp) (f64_lit 0.4)) (-1) 0).
    { eapply mul_inb; [exact K2|exact inb_04|fq (-1)%Z 0%Z|fq 0%Z 0%Z|ab|ab|]. intros u v Hu Hv. split; nra. }
    pose proof (exp_inb1 _ _ _ K3 ltac:(lra) ltac:(lra)) as K4.
    set (e1 := libm P (p_exp P) (f64_mul P (f64_mul P (f64_lit 2.0) xp) (f64_lit 0.4))) in *. clearbody e1.
    assert (K5 : inb (f64_mul P e1 e1) (bpow radix2 (-4)) 1).
    { change (bpow radix2 (-4)) with (/ 16). eapply mul_inb; [exact K4|exact K4|fq 1%Z 4%Z|fq 1%Z 0%Z|ab|ab|].
      intros u v Hu Hv. split; nra. }
    assert (K6 : inb (f64_add P (f64_of_Z 2) (f64_lit 1.0)) 3 3).
    { replace 3 with (2 + 1) by lra. apply add_inb; [apply (of_Z_inb 2); lia|exact inb_1|fq 3%Z 0%Z|fq 3%Z 0%Z|ab|ab]. }
    assert (K7 : inb (f64_sub P (f64_add P (f64_of_Z 2) (f64_lit 1.0)) (f64_lit 2.0)) 1 1).
    { destruct K6 as [F6 V6]. apply (rounds_inb _ _ _ _ (sub_spec P _ _ F6 fin_2)); [fq 1%Z 0%Z|fq 1%Z 0%Z|ab|ab|].
      rewrite <- (val_fin _ fin_2), val_2. lra. }
    pose proof (loop_neg _ _ _ _ K5 K4 K6 K7) as LN.
    set (st := fold_left _ _ _) in *. clearbody st. destruct st as [[[a b] c] sum].
    assert (K8 : inb (f64_mul P (f64_neg xp) xp) (- (1 / 2)) 0).
    { pose proof (neg_inb _ _ _ K1) as K1n. eapply mul_inb; [exact K1n|exact K1|fq (-1)%Z 1%Z|fq 0%Z 0%Z|ab|ab|].
      intros u v Hu Hv. split; nra. }
    pose proof (exp_inb1 _ _ _ K8 ltac:(lra) ltac:(lra)) as K9.
    set (ex := libm P (p_exp P) (f64_mul P (f64_neg xp) xp)) in *. clearbody ex.
    assert (Sg : @sign (ieee P) ex x = f64_abs ex).
    { change (@sign (ieee P) ex x) with (if negb (f64_sign x) then f64_abs ex else f64_neg (f64_abs ex)).
      rewrite Sx. reflexivity. }
    rewrite Sg.
    assert (K10 : inb (f64_abs ex) (1 / 4) 1).
    { destruct K9 as [F9 V9]. split; [rewrite fin_abs; exact F9|]. rewrite B2R_abs, Rabs_pos_eq; lra. }
    assert (K11 : inb (f64_mul P (f64_div P (f64_lit 1.0) (f64_sqrt P (@PI (ieee P)))) (f64_abs ex)) (1 / 8) 1).
    { eapply mul_inb; [exact isqrtpi|exact K10|fq 1%Z 3%Z|fq 1%Z 0%Z|ab|ab|]. intros u v Hu Hv. split; nra. }
    set (w := f64_mul P _ (f64_abs ex)) in *. clearbody w.
    pose proof (bpow_gt_0 radix2 (-101)) as P1. pose proof (bpow_gt_0 radix2 (-104)) as P4.
    assert (B4 : bpow radix2 (-101) = 8 * bpow radix2 (-104)).
    { change (-101)%Z with (3 + -104)%Z. rewrite bpow_plus. reflexivity. }
    assert (S4 : bpow radix2 (-104) <= 1) by (change 1 with (bpow radix2 0); apply bpow_le; lia).
    assert (K12 : inb (f64_mul P w sum) (- 6597069766656) (- bpow radix2 (-104))).
    { eapply mul_inb; [exact K11|exact LN| | | | |].
      - fq (-6597069766656)%Z 0%Z.
      - apply fmt_opp, fmt_bpow. lia.
      - ab.
      - ab.
      - intros u v Hu Hv. split; nra. }
    eexists. split; [reflexivity|]. exact K12.
  Qed.
  Theorem dawson_negative : forall x : f64, number x -> 0.41 <= val x <= 0.79 ->
    exists r, @dawson (ieee P) x = Ok r /\ finite r /\ Binary.B2R r < 0.
  Proof.
    intros x Nx Hx. destruct (dawson_negative_inb x Nx Hx) as (r & Er & Fr & Vr). exists r. split; [exact Er|]. split; [exact Fr|].
    pose proof (bpow_gt_0 radix2 (-104)). lra.
  Qed.
End Neg.

(** ** The true value *)

Lemma dawson_integral_lower : forall D x, dawson_integral D 1 -> 0.41 <= x <= 0.79 -> 1 / 5 < D x.
Proof.
  intros D x HD Hx. destruct (dawson_taylor_pos D 1 HD x ltac:(lra)) as [L _].
  assert (E : dpoly x = x * (1 - 2 / 3 * (x * x) * (1 - 2 / 5 * (x * x) * (1 - 2 / 7 * (x * x)))))
    by (unfold dpoly; field).
  assert (Q : 0.16 <= x * x <= 0.63) by (split; nra).
  set (q := x * x) in *.
  assert (A1 : 0.8 <= 1 - 2 / 7 * q <= 1) by lra.
  assert (A2 : 0.16 * (2 / 5) * 0.8 <= 2 / 5 * q * (1 - 2 / 7 * q)) by nra.
  assert (A3 : 2 / 3 * q * (1 - 2 / 5 * q * (1 - 2 / 7 * q)) <= 0.42 * 0.96).
  { assert (0 <= 1 - 2 / 5 * q * (1 - 2 / 7 * q) <= 0.96) by nra. nra. }
  nra.
Qed.

Theorem dawson_wrong_sign : forall (P : platform) (D : R -> R) (x : f64),
  plausible_exp (p_exp P) -> dawson_integral D 1 -> number x -> 0.41 <= val x <= 0.79 ->
  1 / 5 < D (val x) /\ exists r, @dawson (ieee P) x = Ok r /\ finite r /\ Binary.B2R r < 0.
Proof.
  intros P D x HE HD Nx Hx. split; [exact (dawson_integral_lower D (val x) HD Hx)|].
  exact (dawson_negative P HE x Nx Hx).
Qed.

Lemma half_facts : number (f64_lit 0.5) /\ 0.41 <= val (f64_lit 0.5) <= 0.79.
Proof. lit_facts 0.5%dec 1%Z 1%Z HF HV. split; [apply fin_nonnan; exact HF|lra]. Qed.

Lemma dawson_positive_refuted : exists x : f64, positive x /\
  forall P : platform, plausible_exp (p_exp P) ->
  exists r, @dawson (ieee P) x = Ok r /\ finite r /\ Binary.B2R r < 0.
Proof.
  exists (f64_lit 0.5). destruct half_facts as [N V]. split; [split; [exact N|lra]|].
  intros P HE. exact (dawson_negative P HE _ N V).
Qed.

Lemma dawson_panics_refuted : exists x : f64, finite x /\
  forall P : platform, p_checks P = true -> panics (@dawson (ieee P) x).
Proof.
  destruct X0_val as [F V]. exists X0. split; [exact F|]. intros P HC. apply (dawson_panics_iff P X0 HC).
  split; [apply fin_nonnan; exact F|]. rewrite (val_fin _ F), V, Rabs_pos_eq; lra.
Qed.

(** ** A correctly rounded exp is plausible *)
Lemma exp_m1 : 1 / 3 <= Rtrigo_def.exp (-1).
Proof.
  replace (-1) with (- (1)) by lra. rewrite exp_Ropp. unfold Rdiv. rewrite Rmult_1_l. apply Rinv_le; [apply exp_pos|apply exp_le_3].
Qed.

Lemma exp_le_mono : forall a b, a <= b -> Rtrigo_def.exp a <= Rtrigo_def.exp b.
Proof. intros a b [H| ->]; [left; apply exp_increasing; exact H|lra]. Qed.

Lemma exp_m30 : bpow radix2 (-100) <= Rtrigo_def.exp (-30).
Proof.
  replace (-30) with (INR 30 * -1) by (simpl; lra). 
  assert (E : forall n, Rtrigo_def.exp (INR n * -1) = Rtrigo_def.exp (-1) ^ n).
  { induction n as [|n IH]; [rewrite Rmult_0_l; apply exp_0|].
    rewrite S_INR, Rmult_plus_distr_r, exp_plus, IH, Rmult_1_l. simpl. ring. }
  rewrite E.
  apply Rle_trans with ((1 / 3) ^ 30).
  - simpl. lra.
  - apply pow_incr. split; [lra|exact exp_m1].
Qed.

Lemma ideal_exp_plausible : forall c f, plausible_exp (p_exp (ideal c f)).
Proof.
  intros c f.
  assert (G : forall a lo, -30 <= a -> fmt lo -> 0 <= lo <= 1 -> lo <= Rtrigo_def.exp a ->
             forall t, number t -> a <= val t <= 0 -> between lo 1 (ideal_exp t)).
  { intros a lo Ha Fl Hl El t Nt Ht.
    assert (Ft : fin t) by (apply fin_iff_val; [exact Nt|rewrite Rabs_left1 by lra; pose proof Om_big; lra]).
    destruct (ideal_exp_finite t Ft) as [N V]. split; [exact N|]. rewrite V. rewrite (val_fin t Ft) in Ht.
    pose proof Om_big. split.
    - apply rs_ge; [exact Fl|lra|]. eapply Rle_trans; [exact El|]. apply exp_le_mono. lra.
    - apply rs_le_fmt; [apply (fmt_IZR 1); lia|lra|]. rewrite <- exp_0. apply exp_le_mono. lra. }
  split; intros t Nt Ht.
  - apply (G (-1)); try lra; try assumption; [fq 1%Z 2%Z|pose proof exp_m1; lra].
  - pose proof (bpow_gt_0 radix2 (-100)).
    assert (bpow radix2 (-100) <= 1) by (change 1 with (bpow radix2 0); apply bpow_le; lia).
    apply (G (-30)); try lra; try assumption; [apply fmt_bpow; lia|exact exp_m30].
Qed.
