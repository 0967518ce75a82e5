(** * The continued fraction of betai next to x = 1, for a = 1 and b = 1/2 *)

From Coq Require Import ZArith Reals Bool Lra Lia List.
From Flocq Require Import Core IEEE754.BinarySingleNaN IEEE754.Binary IEEE754.Bits.
From Verif.Model Require Import Base Arith Utils Gamma Beta.
From Verif.Float Require Import Bits64 Ieee Exact Platforms.
From Verif.Spec Require Import F64Spec Outcome GammaSpec LibmSpec.
From Verif.Proofs Require Import F64 F64Ops Lits Ext ExpBounds Stirling FlErr GammaAcc LnGammaAcc LnGammaFl LnGammaThms GserAcc PosHorner GcfLoop GcfAcc.
Import ListNotations.
Open Scope R_scope.
Local Notation exp := Rtrigo_def.exp.
Local Notation ln := Rpower.ln.

Lemma mr_neg : forall t a b, mr t a b -> mr t (- a) (- b).
Proof. intros t a b (d & Hd & ->). exists d. split; [exact Hd|ring]. Qed.

(** 1 minus a number known up to the factor exp t *)
Lemma one_minus : forall t p' p s r, 0 <= t <= 2 / 10 ^ 7 -> mr t p' p -> 0 < p -> p + s = 1 -> 0 < s -> p <= r * s -> 0 <= r <= 5 / 3 -> mr (r * t + 4 / 10 ^ 13) (1 - p') s.
Proof.
  intros t p' p s r Ht M Hp E Hs Hr R. pose proof (mr_abs t p' p ltac:(lra) M) as B. rewrite (Rabs_pos_eq p) in B by lra.
  set (f := t + 2 * (t * t)) in *. assert (T2 : t * t <= 2 / 10 ^ 7 * t) by (apply Rmult_le_compat_r; lra). assert (T3 : 0 <= t * t) by (apply Rmult_le_pos; lra).
  assert (F0 : 0 <= f <= 21 / 10 ^ 8) by (unfold f; lra). set (e := r * f).
  assert (E0 : 0 <= e <= 35 / 10 ^ 8). { unfold e. split; [apply Rmult_le_pos; lra|]. apply Rle_trans with (5 / 3 * (21 / 10 ^ 8)); [apply Rmult_le_compat; lra|lra]. }
  assert (Q : Rabs (1 - p' - s) <= e * Rabs s).
  { rewrite (Rabs_pos_eq s) by lra. replace (1 - p' - s) with (- (p' - p)) by lra. rewrite Rabs_Ropp. eapply Rle_trans; [exact B|]. unfold e. replace (r * f * s) with (f * (r * s)) by ring. apply Rmult_le_compat_l; lra. }
  pose proof (mr_of_rel e _ _ ltac:(lra) Q) as M2. eapply mr_weak; [|exact M2].
  assert (EE : e * e <= 35 / 10 ^ 8 * (35 / 10 ^ 8)) by (apply Rmult_le_compat; lra).
  assert (RT : r * (2 * (t * t)) <= 5 / 3 * (2 * (2 / 10 ^ 7 * (2 / 10 ^ 7)))). { apply Rmult_le_compat; lra. }
  assert (EQ : e = r * t + r * (2 * (t * t))) by (unfold e, f; ring). lra.
Qed.

Section Ops.
  Context (P : platform).
  Local Notation add := (f64_add P). Local Notation sub := (f64_sub P). Local Notation mul := (f64_mul P). Local Notation div := (f64_div P).

  Lemma rng_abs : forall y, / 2 ^ 200 <= Rabs y <= 2 ^ 200 -> bpow radix2 (-1022) <= Rabs y <= bpow radix2 1023.
  Proof. intros y H. pose proof (rng (Rabs y) H) as Q. rewrite Rabs_Rabsolu in Q. exact Q. Qed.

  Lemma mr_rng : forall t a b, mr t a b -> 0 <= t <= 1 / 2 -> / 2 ^ 199 <= Rabs b <= 2 ^ 199 -> bpow radix2 (-1022) <= Rabs a <= bpow radix2 1023.
  Proof.
    intros t a b M Ht H. pose proof (mr_le t a b Ht M) as Q. apply rng_abs. replace (/ 2 ^ 200) with (/ 2 ^ 199 / 2) by (simpl; lra). replace (2 ^ 200) with (2 * 2 ^ 199) by (simpl; lra). lra.
  Qed.

  Lemma mul_k : forall x y s t u v, fin x -> fin y -> mr s (val x) u -> mr t (val y) v -> 0 <= s + t <= 1 / 2 -> / 2 ^ 199 <= Rabs (u * v) <= 2 ^ 199 -> fin (mul x y) /\ mr (s + t + vv) (val (mul x y)) (u * v).
  Proof.
    intros x y s t u v Fx Fy Mx My Ht H. pose proof (mr_mul _ _ _ _ _ _ Mx My) as M. destruct (mul_mr P x y Fx Fy) as [F R]; [apply (mr_rng _ _ _ M Ht H)|].
    split; [exact F|]. apply mr_weak with (vv + (s + t)); [lra|]. eapply mr_trans; [exact R|exact M].
  Qed.
  Lemma mr_div : forall s t a b c d, mr s a b -> mr t c d -> d <> 0 -> mr (s + t) (a / c) (b / d).
  Proof. intros s t a b c d M1 M2 D. unfold Rdiv. apply mr_mul; [exact M1|]. apply mr_inv; assumption. Qed.
  Lemma div_k : forall x y s t u v, fin x -> fin y -> mr s (val x) u -> mr t (val y) v -> v <> 0 -> 0 <= s + t <= 1 / 2 -> / 2 ^ 199 <= Rabs (u / v) <= 2 ^ 199 -> fin (div x y) /\ mr (s + t + vv) (val (div x y)) (u / v).
  Proof.
    intros x y s t u v Fx Fy Mx My Hv Ht H. pose proof (mr_div _ _ _ _ _ _ Mx My Hv) as M.
    assert (Hy : val y <> 0) by (intros E; rewrite E in My; apply Hv, (mr_0 t v My)).
    destruct (div_mr P x y Fx Fy Hy) as [F R]; [apply (mr_rng _ _ _ M Ht H)|].
    split; [exact F|]. apply mr_weak with (vv + (s + t)); [lra|]. eapply mr_trans; [exact R|exact M].
  Qed.
  Lemma sub_mr : forall x y, fin x -> fin y -> bpow radix2 (-1022) <= Rabs (val x - val y) <= bpow radix2 1023 -> fin (sub x y) /\ mr vv (val (sub x y)) (val x - val y).
  Proof. intros x y Fx Fy H. apply rnd_mr; [|exact H]. rewrite (val_fin x Fx), (val_fin y Fy). apply sub_spec; assumption. Qed.

  Lemma guard : forall d, fin d -> / 100 <= val d -> @floor_fpmin (ieee P) d = d.
  Proof.
    intros d Fd Hd. unfold floor_fpmin. destruct (fpmin_facts P) as [F V]. assert (FA : fin (f64_abs d)) by (rewrite fin_abs; exact Fd).
    change (@lt (ieee P) (@abs (ieee P) d) (@FPMIN (ieee P))) with (f64_lt (f64_abs d) (@FPMIN (ieee P))).
    replace (f64_lt (f64_abs d) (@FPMIN (ieee P))) with false; [reflexivity|]. symmetry.
    apply lt_false; [apply fin_nonnan, FA|apply fin_nonnan, F|]. rewrite V, (val_fin _ FA), B2R_abs, <- (val_fin _ Fd), Rabs_pos_eq by lra.
    apply Rle_trans with (bpow radix2 (-10)); [apply bpow_le; lia|]. simpl. lra.
  Qed.

  (** one denominator of the continued fraction: 1 + m, where m = - p up to exp t *)
  Lemma half : forall m t p s r, fin m -> mr t (val m) (- p) -> 0 <= t <= 2 / 10 ^ 7 -> 0 < p -> p + s = 1 -> / 10 <= s -> p <= r * s -> 0 <= r <= 5 / 3 ->
    let d := @floor_fpmin (ieee P) (add (f64_lit 1.0) m) in fin d /\ mr (r * t + 5 / 10 ^ 13) (val d) s /\ s / 2 <= val d <= 2 * s.
  Proof.
    intros m t p s r Fm M Ht Hp E Hs Hr R. apply mr_neg in M. rewrite Ropp_involutive in M.
    pose proof (one_minus t _ p s r Ht M Hp E ltac:(lra) Hr R) as M1. replace (1 - - val m) with (1 + val m) in M1 by ring.
    assert (RT : 0 <= r * t <= 5 / 3 * (2 / 10 ^ 7)) by (split; [apply Rmult_le_pos; lra|apply Rmult_le_compat; lra]).
    destruct (add_mr P (f64_lit 1.0) m fin_1 Fm) as [Fd Md]. { rewrite val_1. apply (mr_rng _ _ _ M1 ltac:(lra)). rewrite Rabs_pos_eq by lra. split; [apply Rle_trans with (/ 10); [simpl; lra|lra]|apply Rle_trans with 1; [lra|simpl; lra]]. }
    rewrite val_1 in Md. assert (M2 : mr (r * t + 5 / 10 ^ 13) (val (add (f64_lit 1.0) m)) s). { eapply mr_weak; [|eapply mr_trans; [exact Md|exact M1]]. unfold vv. lra. }
    pose proof (mr_near _ _ _ M2 ltac:(lra) ltac:(lra)) as N. assert (B : s / 2 <= val (add (f64_lit 1.0) m) <= 2 * s).
    { set (q := r * t + 5 / 10 ^ 13) in *. assert (0 <= q <= 1 / 1000) by (unfold q; lra). assert (s * (1 / 2) <= s * (1 - 2 * q)) by (apply Rmult_le_compat_l; lra). assert (s * (1 + 2 * q) <= s * 2) by (apply Rmult_le_compat_l; lra). lra. }
    cbv zeta. rewrite (guard _ Fd) by lra. split; [exact Fd|]. split; assumption.
  Qed.

  Lemma recip : forall d t s, fin d -> mr t (val d) s -> 0 <= t <= 1 / 1000 -> / 10 <= s <= 10 -> fin (div (f64_lit 1.0) d) /\ mr (t + vv) (val (div (f64_lit 1.0) d)) (/ s).
  Proof.
    intros d t s Fd M Ht Hs. destruct (div_k (f64_lit 1.0) d 0 t 1 s fin_1 Fd) as [F R]; [rewrite val_1; apply mr_refl; lra|exact M|lra|lra| |].
    - assert (I : / 10 <= / s <= 10). { split; [apply Rinv_le_contravar; lra|]. replace 10 with (/ / 10) by field. apply Rinv_le_contravar; lra. }
      unfold Rdiv. rewrite Rmult_1_l, Rabs_pos_eq by lra. split; [apply Rle_trans with (/ 10); [simpl; lra|lra]|apply Rle_trans with 10; [lra|simpl; lra]].
    - split; [exact F|]. replace (/ s) with (1 / s) by (unfold Rdiv; ring). eapply mr_weak; [|exact R]. lra.
  Qed.
End Ops.

(** the denominators at x = 1: closed forms *)
Definition ae (m : R) : R := (2 * m - 1) / (4 * (2 * m + 1)).
Definition ao (m : R) : R := (2 * m + 3) / (4 * (2 * m + 1)).
Definition Do (m : R) : R := 4 * (m + 1) / (2 * m + 1).
Definition De (m : R) : R := (2 * m + 1) / (m + 1).
Definition Co (m : R) : R := (m + 1) * (2 * m + 1) / (4 * m * m + 6 * m + 1).
Definition Ce (m : R) : R := (4 * m * m + 6 * m + 1) / (4 * m * (2 * m + 1)).

Lemma quo_le : forall u v k, 0 < v -> u <= k * v -> u / v <= k.
Proof. intros u v k Hv H. apply Rmult_le_reg_r with v; [exact Hv|]. unfold Rdiv. rewrite Rmult_assoc, Rinv_l by lra. lra. Qed.
Lemma quo_ge : forall u v k, 0 < v -> k * v <= u -> k <= u / v.
Proof. intros u v k Hv H. apply Rmult_le_reg_r with v; [exact Hv|]. unfold Rdiv. rewrite Rmult_assoc, Rinv_l by lra. lra. Qed.

Section Closed.
  Variable m : R.
  Hypothesis Hm : 1 <= m <= 9999.
  Let mm : 1 <= m * m. Proof. replace 1 with (1 * 1) by ring. apply Rmult_le_compat; lra. Qed.

  Lemma ae_rng : / 12 <= ae m <= 1 / 4.
  Proof. unfold ae. split; [apply quo_ge|apply quo_le]; lra. Qed.
  Lemma ao_rng : 1 / 4 <= ao m <= 5 / 12.
  Proof. unfold ao. split; [apply quo_ge|apply quo_le]; lra. Qed.
  Lemma Do_rng : 2 <= Do (m - 1) <= 4.
  Proof. unfold Do. split; [apply quo_ge|apply quo_le]; lra. Qed.
  Lemma De_rng : 1 <= De m <= 2.
  Proof. unfold De. split; [apply quo_ge|apply quo_le]; lra. Qed.
  Lemma Co_rng : 1 / 2 <= Co (m - 1) <= 1.
  Proof. unfold Co. split; [apply quo_ge|apply quo_le]; ring_simplify; nra. Qed.
  Lemma Ce_rng : 1 / 2 <= Ce m <= 1.
  Proof. unfold Ce. split; [apply quo_ge|apply quo_le]; nra. Qed.

  Lemma d_even : ae m * Do (m - 1) + (m + 1) / (2 * m + 1) = 1 /\ ae m * Do (m - 1) = m / (m + 1) * ((m + 1) / (2 * m + 1)) /\ / ((m + 1) / (2 * m + 1)) = De m.
  Proof. unfold ae, Do, De. repeat split; field; lra. Qed.
  Lemma d_odd : ao m * De m + (2 * m + 1) / (4 * (m + 1)) = 1 /\ ao m * De m = (2 * m + 3) / (2 * m + 1) * ((2 * m + 1) / (4 * (m + 1))) /\ / ((2 * m + 1) / (4 * (m + 1))) = Do m.
  Proof. unfold ao, Do, De. repeat split; field; lra. Qed.
  Lemma c_even : ae m / Co (m - 1) + Ce m = 1.
  Proof. unfold ae, Co, Ce. field. repeat split; try lra; nra. Qed.
  Lemma c_odd : ao m / Ce m + Co m = 1.
  Proof. unfold ao, Co, Ce. field. repeat split; try lra; nra. Qed.
  Lemma h_step : 4 * m * (De m * Ce m) * (Do m * Co m) = 4 * (m + 1).
  Proof. unfold De, Do, Co, Ce. field. repeat split; try lra; nra. Qed.
End Closed.

Lemma inv_rng : forall y, 1 / 2 <= y <= 1 -> 1 <= / y <= 2.
Proof. intros y H. split; [rewrite <- Rinv_1; apply Rinv_le_contravar; lra|replace 2 with (/ (1 / 2)) by lra; apply Rinv_le_contravar; lra]. Qed.

Lemma exact_half : forall z m, (Z.abs m <= 2 ^ 40)%Z -> rounds z (IZR m / 2) -> fin z /\ val z = IZR m / 2.
Proof.
  intros z m Hm R. assert (E : IZR m / 2 = IZR m * bpow radix2 (-1)) by (simpl; lra).
  assert (F : fmt (IZR m / 2)) by (rewrite E; apply fmt_F2R; lia).
  destruct (rounds_small _ _ R) as [F1 V].
  - rewrite (rnd_fmt _ F). rewrite E, Rabs_mult, (Rabs_pos_eq (bpow _ _)) by apply bpow_ge_0. apply Rle_lt_trans with (bpow radix2 40 * bpow radix2 0).
    + apply Rmult_le_compat; [apply Rabs_pos|apply bpow_ge_0| |apply bpow_le; lia]. rewrite <- abs_IZR, bpow2_nonneg_IZR by lia. apply IZR_le. exact Hm.
    + rewrite <- bpow_plus. apply bpow_lt. lia.
  - split; [exact F1|]. rewrite (val_fin _ F1), V. apply rnd_fmt, F.
Qed.

Section Body.
  Context (P : platform).
  Local Notation add := (f64_add P). Local Notation sub := (f64_sub P). Local Notation mul := (f64_mul P). Local Notation div := (f64_div P).
  Variable x : f64.
  Hypothesis Fx : fin x.
  Hypothesis Hx : 1 - bpow radix2 (-40) <= val x <= 1.

  Lemma x_mr : mr (95 / 10 ^ 14) (val x) 1.
  Proof.
    assert (B : bpow radix2 (-40) <= 91 / 10 ^ 14) by (simpl; lra).
    apply mr_weak with (91 / 10 ^ 14 + 2 * (91 / 10 ^ 14 * (91 / 10 ^ 14))); [lra|]. apply mr_of_rel; [lra|]. rewrite Rabs_R1. apply Rabs_le. lra.
  Qed.

  Definition aae (i : Z) : f64 :=
    let m := f64_of_Z i in let m2 := mul (f64_lit 2.0) m in
    div (mul (mul m (sub (f64_lit 0.5) m)) x) (mul (add (sub (f64_lit 1.0) (f64_lit 1.0)) m2) (add (f64_lit 1.0) m2)).
  Definition aao (i : Z) : f64 :=
    let m := f64_of_Z i in let m2 := mul (f64_lit 2.0) m in
    div (mul (mul (f64_neg (add (f64_lit 1.0) m)) (add (add (f64_lit 1.0) (f64_lit 0.5)) m)) x) (mul (add (f64_lit 1.0) m2) (add (add (f64_lit 1.0) (f64_lit 1.0)) m2)).

  Lemma consts : fin (f64_lit 0.5) /\ val (f64_lit 0.5) = 1 / 2 /\
    (fin (sub (f64_lit 1.0) (f64_lit 1.0)) /\ val (sub (f64_lit 1.0) (f64_lit 1.0)) = 0) /\
    (fin (add (f64_lit 1.0) (f64_lit 0.5)) /\ val (add (f64_lit 1.0) (f64_lit 0.5)) = 3 / 2) /\
    (fin (add (f64_lit 1.0) (f64_lit 1.0)) /\ val (add (f64_lit 1.0) (f64_lit 1.0)) = 2).
  Proof.
    lit_facts 0.5%dec 1%Z 1%Z HF HV. split; [exact HF|]. split; [lra|].
    pose proof (sub_spec P _ _ fin_1 fin_1) as S1. pose proof (add_spec P _ _ fin_1 HF) as S2. pose proof (add_spec P _ _ fin_1 fin_1) as S3.
    rewrite <- !(val_fin _ fin_1), val_1 in S1, S2, S3. rewrite <- (val_fin _ HF), HV in S2.
    split; [|split].
    - replace 0 with (IZR 0 / 2) by lra. apply exact_half; [lia|]. replace (IZR 0 / 2) with (1 - 1) by lra. exact S1.
    - apply (exact_half _ 3); [lia|]. replace (IZR 3 / 2) with (1 + 1 / 2) by lra. exact S2.
    - replace (1 + 1) with (IZR 4 / 2) in S3 by lra. destruct (exact_half _ 4 ltac:(lia) S3) as [F V]. split; [exact F|rewrite V; lra].
  Qed.

  Lemma rr : forall y l u, / 1000 <= l -> u <= 10 ^ 30 -> l <= Rabs y <= u -> / 2 ^ 199 <= Rabs y <= 2 ^ 199.
  Proof. intros y l u H1 H2 H. split; [apply Rle_trans with (/ 1000); [simpl; lra|lra]|apply Rle_trans with (10 ^ 30); [lra|simpl; lra]]. Qed.

  Lemma coef : forall n, (Z.of_nat n <= 9998)%Z -> let i := Z.of_nat (S n) in let m := INR (S n) in
    (fin (aae i) /\ mr (1 / 10 ^ 12) (val (aae i)) (- ae m)) /\ (fin (aao i) /\ mr (1 / 10 ^ 12) (val (aao i)) (- ao m)).
  Proof.
    intros n Hn i m. destruct consts as (Fh & Vh & [Fz Vz] & [Fq Vq] & [Ft Vt]).
    destruct (of_Z_exact i ltac:(unfold i; lia)) as [Fm Vm]. rewrite <- (val_fin _ Fm) in Vm. unfold i in Vm at 2. rewrite <- INR_IZR_INZ in Vm. fold m in Vm.
    assert (Hm : 1 <= m <= 9999). { unfold m. split; [apply (le_INR 1); lia|]. rewrite INR_IZR_INZ. apply IZR_le. lia. }
    pose proof x_mr as MX. assert (V0 : 0 <= vv <= 2 / 10 ^ 16) by (unfold vv; lra).
    unfold aae, aao. cbv zeta. set (M := f64_of_Z i) in *. clearbody M. clear i.
    assert (mm : 1 <= m * m <= 10 ^ 8) by (split; [replace 1 with (1 * 1) by ring|replace (10 ^ 8) with (10000 * 10000) by lra]; apply Rmult_le_compat; lra).
    assert (MM : mr 0 (val M) m) by (rewrite Vm; apply mr_refl; lra).
    destruct (mul_k P (f64_lit 2.0) M 0 0 2 m fin_2 Fm ltac:(rewrite val_2; apply mr_refl; lra) MM ltac:(lra)) as [F2 M2]. { apply (rr _ 2 (10 ^ 5)); [lra|lra|]. rewrite Rabs_pos_eq; lra. }
    set (m2 := mul (f64_lit 2.0) M) in *. clearbody m2.
    pose proof (mr_near _ _ _ M2 ltac:(lra) ltac:(lra)) as N2.
    assert (B2 : m <= val m2 <= 3 * m).
    { assert (2 * m * (1 / 2) <= 2 * m * (1 - 2 * (0 + 0 + vv))) by (apply Rmult_le_compat_l; lra). assert (2 * m * (1 + 2 * (0 + 0 + vv)) <= 2 * m * (3 / 2)) by (apply Rmult_le_compat_l; lra). lra. }
    assert (ADD : forall y c, fin y -> val y = c -> 0 <= c <= 3 -> fin (add y m2) /\ mr (2 * vv) (val (add y m2)) (c + 2 * m)).
    { intros y c Fy Vy Hc. destruct (add_mr P y m2 Fy F2) as [Fa Ma]. { rewrite Vy. apply rng. split; [apply Rle_trans with 1; [simpl; lra|lra]|apply Rle_trans with (10 ^ 6); [lra|simpl; lra]]. }
      split; [exact Fa|]. apply mr_weak with (vv + vv); [lra|]. eapply mr_trans; [exact Ma|]. rewrite Vy. destruct Hc as [[Hc|Hc] _].
      - apply mr_add; [exact Hc|lra|apply mr_refl; lra|]. eapply mr_weak; [|exact M2]. lra.
      - rewrite <- Hc, !Rplus_0_l. eapply mr_weak; [|exact M2]. lra. }
    destruct (ADD _ 0 Fz Vz ltac:(lra)) as [F0 M0]. destruct (ADD _ 1 fin_1 val_1 ltac:(lra)) as [F1 M1]. destruct (ADD _ 2 Ft Vt ltac:(lra)) as [F3 M3]. clear ADD.
    split.
    - destruct (sub_mr P (f64_lit 0.5) M Fh Fm) as [Fs Ms]. { rewrite Vh, Vm. apply rng_abs. rewrite Rabs_left1 by lra. split; [apply Rle_trans with (1 / 2); [simpl; lra|lra]|apply Rle_trans with (10 ^ 6); [lra|simpl; lra]]. }
      rewrite Vh, Vm in Ms.
      destruct (mul_k P M _ 0 vv m (1 / 2 - m) Fm Fs MM Ms ltac:(lra)) as [Fp Mp]. { apply (rr _ (1 / 2) (10 ^ 9)); [lra|lra|]. rewrite Rabs_left1 by nra. nra. }
      destruct (mul_k P _ x _ _ _ 1 Fp Fx Mp MX ltac:(lra)) as [Fn Mn]. { apply (rr _ (1 / 2) (10 ^ 9)); [lra|lra|]. rewrite Rabs_left1 by nra. nra. }
      destruct (mul_k P _ _ _ _ _ _ F0 F1 M0 M1 ltac:(lra)) as [Fd Md]. { apply (rr _ 1 (10 ^ 10)); [lra|lra|]. rewrite Rabs_pos_eq by nra. nra. }
      assert (EQ : m * (1 / 2 - m) * 1 / ((0 + 2 * m) * (1 + 2 * m)) = - ae m) by (unfold ae; field; lra).
      destruct (div_k P _ _ _ _ _ _ Fn Fd Mn Md ltac:(nra) ltac:(lra)) as [Fr Mr]. { rewrite EQ, Rabs_Ropp. pose proof (ae_rng m Hm). apply (rr _ (/ 12) 1); [lra|lra|]. rewrite Rabs_pos_eq; lra. }
      split; [exact Fr|]. rewrite EQ in Mr. eapply mr_weak; [|exact Mr]. lra.
    - destruct (add_mr P (f64_lit 1.0) M fin_1 Fm) as [Fs Ms]. { rewrite val_1, Vm. apply rng. split; [apply Rle_trans with (1 / 2); [simpl; lra|lra]|apply Rle_trans with (10 ^ 6); [lra|simpl; lra]]. }
      destruct (add_mr P _ M Fq Fm) as [Fu Mu]. { rewrite Vq, Vm. apply rng. split; [apply Rle_trans with (1 / 2); [simpl; lra|lra]|apply Rle_trans with (10 ^ 6); [lra|simpl; lra]]. }
      rewrite val_1, Vm in Ms. rewrite Vq, Vm in Mu.
      assert (Fs' : fin (f64_neg (add (f64_lit 1.0) M))) by (rewrite fin_neg; exact Fs). apply mr_neg in Ms. rewrite <- val_neg in Ms.
      destruct (mul_k P _ _ _ _ _ _ Fs' Fu Ms Mu ltac:(lra)) as [Fp Mp]. { apply (rr _ (1 / 2) (10 ^ 9)); [lra|lra|]. rewrite Rabs_left1 by nra. nra. }
      destruct (mul_k P _ x _ _ _ 1 Fp Fx Mp MX ltac:(lra)) as [Fn Mn]. { apply (rr _ (1 / 2) (10 ^ 9)); [lra|lra|]. rewrite Rabs_left1 by nra. nra. }
      destruct (mul_k P _ _ _ _ _ _ F1 F3 M1 M3 ltac:(lra)) as [Fd Md]. { apply (rr _ 1 (10 ^ 10)); [lra|lra|]. rewrite Rabs_pos_eq by nra. nra. }
      assert (EQ : - (1 + m) * (3 / 2 + m) * 1 / ((1 + 2 * m) * (2 + 2 * m)) = - ao m) by (unfold ao; field; lra).
      destruct (div_k P _ _ _ _ _ _ Fn Fd Mn Md ltac:(nra) ltac:(lra)) as [Fr Mr]. { rewrite EQ, Rabs_Ropp. pose proof (ao_rng m Hm). apply (rr _ (/ 12) 1); [lra|lra|]. rewrite Rabs_pos_eq; lra. }
      split; [exact Fr|]. rewrite EQ in Mr. eapply mr_weak; [|exact Mr]. lra.
  Qed.

  Definition lev (n : nat) : R := 5 / 10 ^ 12 * (INR n + 1).
  Definition Inv (n : nat) (st : f64 * f64 * f64) : Prop :=
    let '(c, d, h) := st in
    (fin c /\ mr (lev n) (val c) (Co (INR n))) /\ (fin d /\ mr (lev n) (val d) (Do (INR n))) /\ (fin h /\ mr (10 / 10 ^ 12 * ((INR n + 2) * (INR n + 2))) (val h) (4 * (INR n + 1))).

  Lemma d_amp : forall m k, 1 <= m -> 0 <= k -> (2 * m + 3) / (2 * m + 1) * (m / (m + 1) * k) <= k.
  Proof.
    intros m k Hm Hk. replace ((2 * m + 3) / (2 * m + 1) * (m / (m + 1) * k)) with ((m * (2 * m + 3)) / ((2 * m + 1) * (m + 1)) * k) by (field; lra).
    rewrite <- (Rmult_1_l k) at 2. apply Rmult_le_compat_r; [exact Hk|]. apply quo_le; [apply Rmult_lt_0_compat; lra|]. ring_simplify. lra.
  Qed.

  (** the denominators d of one iteration *)
  Lemma d_body : forall A B d m k, 1 <= m <= 9999 -> 0 <= k <= 1 / 10 ^ 7 -> fin A -> mr (1 / 10 ^ 12) (val A) (- ae m) -> fin B -> mr (1 / 10 ^ 12) (val B) (- ao m) ->
    fin d -> mr k (val d) (Do (m - 1)) ->
    let d1 := div (f64_lit 1.0) (@floor_fpmin (ieee P) (add (f64_lit 1.0) (mul A d))) in
    let d2 := div (f64_lit 1.0) (@floor_fpmin (ieee P) (add (f64_lit 1.0) (mul B d1))) in
    (fin d1 /\ mr (k + 2 / 10 ^ 12) (val d1) (De m)) /\ (fin d2 /\ mr (k + 5 / 10 ^ 12) (val d2) (Do m)).
  Proof.
    intros A B d m k Hm Hk FA MA FB MB Fd Md d1 d2. assert (V0 : 0 <= vv <= 2 / 10 ^ 16) by (unfold vv; lra).
    pose proof (ae_rng m Hm) as RA. pose proof (ao_rng m Hm) as RB. pose proof (Do_rng m Hm) as RD. pose proof (De_rng m Hm) as RE.
    destruct (d_even m Hm) as (E1 & E2 & E3). destruct (d_odd m Hm) as (E4 & E5 & E6).
    assert (R1 : 0 <= m / (m + 1) <= 1) by (split; [apply quo_ge|apply quo_le]; lra). assert (R2 : 1 <= (2 * m + 3) / (2 * m + 1) <= 5 / 3) by (split; [apply quo_ge|apply quo_le]; lra).
    assert (S1 : 1 / 2 <= (m + 1) / (2 * m + 1) <= 1) by (split; [apply quo_ge|apply quo_le]; lra). assert (S2 : 1 / 4 <= (2 * m + 1) / (4 * (m + 1)) <= 1) by (split; [apply quo_ge|apply quo_le]; lra).
    assert (P1 : / 12 * 2 <= ae m * Do (m - 1) <= 1 / 4 * 4) by (split; apply Rmult_le_compat; lra). assert (P2 : 1 / 4 * 1 <= ao m * De m <= 5 / 12 * 2) by (split; apply Rmult_le_compat; lra).
    pose proof (d_amp m (k + 1 / 10 ^ 12 + vv) (proj1 Hm) ltac:(lra)) as AM.
    set (s1 := (m + 1) / (2 * m + 1)) in *. set (s2 := (2 * m + 1) / (4 * (m + 1))) in *. set (r1 := m / (m + 1)) in *. set (r2 := (2 * m + 3) / (2 * m + 1)) in *. clearbody s1 s2 r1 r2.
    destruct (mul_k P A d _ _ _ _ FA Fd MA Md ltac:(lra)) as [Fp Mp]. { replace (- ae m * Do (m - 1)) with (- (ae m * Do (m - 1))) by ring. apply (rr _ (/ 12) 2); [lra|lra|]. rewrite Rabs_Ropp, Rabs_pos_eq; lra. }
    replace (- ae m * Do (m - 1)) with (- (ae m * Do (m - 1))) in Mp by ring.
    destruct (half P _ _ _ s1 r1 Fp Mp ltac:(lra) ltac:(lra) E1 ltac:(lra) ltac:(lra) ltac:(lra)) as (Fe & Me & Be).
    assert (T1 : r1 * (1 / 10 ^ 12 + k + vv) <= 1 * (1 / 10 ^ 12 + k + vv)) by (apply Rmult_le_compat_r; lra). assert (T0 : 0 <= r1 * (1 / 10 ^ 12 + k + vv)) by (apply Rmult_le_pos; lra).
    destruct (recip P _ _ _ Fe Me ltac:(lra) ltac:(lra)) as [Fd1 Md1]. fold d1 in Fd1, Md1. rewrite E3 in Md1. clearbody d1. clear Fe Me Be Fp Mp.
    set (k1 := r1 * (1 / 10 ^ 12 + k + vv) + 5 / 10 ^ 13 + vv) in *. assert (K1 : 0 <= k1 <= 11 / 10 ^ 8) by (unfold k1; lra).
    split; [split; [exact Fd1|eapply mr_weak; [|exact Md1]; unfold k1; lra]|].
    destruct (mul_k P B d1 _ _ _ _ FB Fd1 MB Md1 ltac:(lra)) as [Fp Mp]. { replace (- ao m * De m) with (- (ao m * De m)) by ring. apply (rr _ (/ 12) 2); [lra|lra|]. rewrite Rabs_Ropp, Rabs_pos_eq; lra. }
    replace (- ao m * De m) with (- (ao m * De m)) in Mp by ring.
    destruct (half P _ _ _ s2 r2 Fp Mp ltac:(lra) ltac:(lra) E4 ltac:(lra) ltac:(lra) ltac:(lra)) as (Fe & Me & Be).
    assert (T2 : r2 * (1 / 10 ^ 12 + k1 + vv) <= 5 / 3 * (1 / 10 ^ 12 + k1 + vv)) by (apply Rmult_le_compat_r; lra). assert (T3 : 0 <= r2 * (1 / 10 ^ 12 + k1 + vv)) by (apply Rmult_le_pos; lra).
    destruct (recip P _ _ _ Fe Me ltac:(lra) ltac:(lra)) as [Fd2 Md2]. fold d2 in Fd2, Md2. rewrite E6 in Md2. split; [exact Fd2|]. eapply mr_weak; [|exact Md2].
    assert (AM2 : r2 * (1 / 10 ^ 12 + k1 + vv) <= (k + 1 / 10 ^ 12 + vv) + 5 / 3 * (151 / 10 ^ 14)).
    { replace (r2 * (1 / 10 ^ 12 + k1 + vv)) with (r2 * (r1 * (k + 1 / 10 ^ 12 + vv)) + r2 * (5 / 10 ^ 13 + vv + 1 / 10 ^ 12 + vv)) by (unfold k1; ring).
      apply Rplus_le_compat; [exact AM|]. apply Rmult_le_compat; lra. }
    lra.
  Qed.

  Lemma c_body : forall A B c m k, 1 <= m <= 9999 -> 0 <= k <= 1 / 10 ^ 7 -> fin A -> mr (1 / 10 ^ 12) (val A) (- ae m) -> fin B -> mr (1 / 10 ^ 12) (val B) (- ao m) ->
    fin c -> mr k (val c) (Co (m - 1)) ->
    let c1 := @floor_fpmin (ieee P) (add (f64_lit 1.0) (div A c)) in
    let c2 := @floor_fpmin (ieee P) (add (f64_lit 1.0) (div B c1)) in
    (fin c1 /\ mr (k + 2 / 10 ^ 12) (val c1) (Ce m)) /\ (fin c2 /\ mr (k + 5 / 10 ^ 12) (val c2) (Co m)).
  Proof.
    intros A B c m k Hm Hk FA MA FB MB Fd Md c1 c2. assert (V0 : 0 <= vv <= 2 / 10 ^ 16) by (unfold vv; lra).
    pose proof (ae_rng m Hm) as RA. pose proof (ao_rng m Hm) as RB. pose proof (Co_rng m Hm) as RD. pose proof (Ce_rng m Hm) as RE.
    assert (RC : 1 / 2 <= Co m). { pose proof (Co_rng (m + 1)) as Q. replace (m + 1 - 1) with m in Q by ring. unfold Co in *. apply quo_ge; nra. }
    pose proof (c_even m Hm) as E1. pose proof (c_odd m Hm) as E2.
    assert (I1 : 1 <= / Co (m - 1) <= 2) by (apply inv_rng; lra).
    assert (I2 : 1 <= / Ce m <= 2) by (apply inv_rng; lra).
    assert (P1 : / 12 * 1 <= ae m / Co (m - 1) <= 1 / 4 * 2) by (split; apply Rmult_le_compat; lra). assert (P2 : 1 / 4 * 1 <= ao m / Ce m <= 5 / 12 * 2) by (split; apply Rmult_le_compat; lra).
    destruct (div_k P A c _ _ _ _ FA Fd MA Md ltac:(lra) ltac:(lra)) as [Fp Mp]. { replace (- ae m / Co (m - 1)) with (- (ae m / Co (m - 1))) by (unfold Rdiv; ring). apply (rr _ (/ 12) 2); [lra|lra|]. rewrite Rabs_Ropp, Rabs_pos_eq; lra. }
    replace (- ae m / Co (m - 1)) with (- (ae m / Co (m - 1))) in Mp by (unfold Rdiv; ring).
    destruct (half P _ _ _ (Ce m) 1 Fp Mp ltac:(lra) ltac:(lra) E1 ltac:(lra) ltac:(lra) ltac:(lra)) as (Fe & Me & Be). fold c1 in Fe, Me, Be. clearbody c1. clear Fp Mp.
    assert (Me2 : mr (k + 2 / 10 ^ 12) (val c1) (Ce m)) by (eapply mr_weak; [|exact Me]; lra). split; [split; assumption|].
    destruct (div_k P B c1 _ _ _ _ FB Fe MB Me ltac:(lra) ltac:(lra)) as [Fp Mp]. { replace (- ao m / Ce m) with (- (ao m / Ce m)) by (unfold Rdiv; ring). apply (rr _ (/ 12) 2); [lra|lra|]. rewrite Rabs_Ropp, Rabs_pos_eq; lra. }
    replace (- ao m / Ce m) with (- (ao m / Ce m)) in Mp by (unfold Rdiv; ring).
    destruct (half P _ _ _ (Co m) 1 Fp Mp ltac:(lra) ltac:(lra) E2 ltac:(lra) ltac:(lra) ltac:(lra)) as (Ff & Mf & _). fold c2 in Ff, Mf. split; [exact Ff|]. eapply mr_weak; [|exact Mf]. lra.
  Qed.

  Lemma h_body : forall h d1 c1 d2 c2 m k kh, 1 <= m <= 9999 -> 0 <= k <= 1 / 10 ^ 7 -> 0 <= kh <= 1 / 100 -> fin h -> mr kh (val h) (4 * m) ->
    fin d1 -> mr (k + 2 / 10 ^ 12) (val d1) (De m) -> fin c1 -> mr (k + 2 / 10 ^ 12) (val c1) (Ce m) ->
    fin d2 -> mr (k + 5 / 10 ^ 12) (val d2) (Do m) -> fin c2 -> mr (k + 5 / 10 ^ 12) (val c2) (Co m) ->
    let r := mul (mul h (mul d1 c1)) (mul d2 c2) in fin r /\ mr (kh + 4 * k + 15 / 10 ^ 12) (val r) (4 * (m + 1)).
  Proof.
    intros h d1 c1 d2 c2 m k kh Hm Hk Hkh Fh Mh Fd1 Md1 Fc1 Mc1 Fd2 Md2 Fc2 Mc2 r. assert (V0 : 0 <= vv <= 2 / 10 ^ 16) by (unfold vv; lra).
    pose proof (De_rng m Hm) as RE. pose proof (Ce_rng m Hm) as RC.
    assert (RD : 1 <= Do m <= 4) by (unfold Do; split; [apply quo_ge|apply quo_le]; lra). assert (RO : 1 / 2 <= Co m <= 1) by (unfold Co; split; [apply quo_ge|apply quo_le]; nra).
    assert (P1 : 1 * (1 / 2) <= De m * Ce m <= 2 * 1) by (split; apply Rmult_le_compat; lra). assert (P2 : 1 * (1 / 2) <= Do m * Co m <= 4 * 1) by (split; apply Rmult_le_compat; lra).
    destruct (mul_k P d1 c1 _ _ _ _ Fd1 Fc1 Md1 Mc1 ltac:(lra)) as [F1 M1]; [apply (rr _ (1 / 2) 4); [lra|lra|]; rewrite Rabs_pos_eq; lra|].
    destruct (mul_k P d2 c2 _ _ _ _ Fd2 Fc2 Md2 Mc2 ltac:(lra)) as [F2 M2]; [apply (rr _ (1 / 2) 4); [lra|lra|]; rewrite Rabs_pos_eq; lra|].
    assert (P3 : 4 * (1 / 2) <= 4 * m * (De m * Ce m) <= (4 * 9999) * 2) by (split; apply Rmult_le_compat; lra).
    destruct (mul_k P h _ _ _ _ _ Fh F1 Mh M1 ltac:(lra)) as [F3 M3]; [apply (rr _ 1 (10 ^ 6)); [lra|lra|]; rewrite Rabs_pos_eq; lra|].
    assert (P4 : 2 * (1 / 2) <= 4 * m * (De m * Ce m) * (Do m * Co m) <= 10 ^ 5 * 4) by (split; apply Rmult_le_compat; lra).
    destruct (mul_k P _ _ _ _ _ _ F3 F2 M3 M2 ltac:(lra)) as [F4 M4]; [apply (rr _ 1 (10 ^ 6)); [lra|lra|]; rewrite Rabs_pos_eq; lra|].
    split; [exact F4|]. rewrite (h_step m Hm) in M4. eapply mr_weak; [|exact M4]. lra.
  Qed.

  Lemma body_eq : forall i c d h, @betacf_body (ieee P) (f64_lit 1.0) (f64_lit 0.5) x i (c, d, h) =
    let d1 := div (f64_lit 1.0) (@floor_fpmin (ieee P) (add (f64_lit 1.0) (mul (aae i) d))) in
    let c1 := @floor_fpmin (ieee P) (add (f64_lit 1.0) (div (aae i) c)) in
    let d2 := div (f64_lit 1.0) (@floor_fpmin (ieee P) (add (f64_lit 1.0) (mul (aao i) d1))) in
    let c2 := @floor_fpmin (ieee P) (add (f64_lit 1.0) (div (aao i) c1)) in
    ((c2, d2, mul (mul h (mul d1 c1)) (mul d2 c2)), f64_le (f64_abs (sub (mul d2 c2) (f64_lit 1.0))) (@EPS (ieee P))).
  Proof. intros i c d h. unfold betacf_body, aae, aao. cbv zeta. ieee_simpl. reflexivity. Qed.

  Lemma inv_step : forall n st, (Z.of_nat n <= 9998)%Z -> Inv n st ->
    exists st' f, @betacf_body (ieee P) (f64_lit 1.0) (f64_lit 0.5) x (Z.of_nat (S n)) st = (st', f) /\ Inv (S n) st'.
  Proof.
    intros n [[c d] h] Hn ([Fc Mc] & [Fd Md] & [Fh Mh]). destruct (coef n Hn) as [[FA MA] [FB MB]]. rewrite body_eq. cbv zeta.
    set (A := aae _) in *. set (B := aao _) in *. clearbody A B.
    assert (Hm : 1 <= INR (S n) <= 9999). { split; [apply (le_INR 1); lia|]. rewrite INR_IZR_INZ. apply IZR_le. lia. }
    assert (N1 : INR n = INR (S n) - 1) by (rewrite S_INR; ring). set (m := INR (S n)) in *. unfold lev in *. rewrite N1 in *.
    assert (K : 0 <= 5 / 10 ^ 12 * (m - 1 + 1) <= 1 / 10 ^ 7) by lra.
    assert (KH : 0 <= 10 / 10 ^ 12 * ((m - 1 + 2) * (m - 1 + 2)) <= 1 / 100).
    { assert (0 <= (m - 1 + 2) * (m - 1 + 2) <= 10000 * 10000) by (split; [apply Rmult_le_pos; lra|apply Rmult_le_compat; lra]). lra. }
    destruct (d_body A B d m _ Hm K FA MA FB MB Fd Md) as [[Fd1 Md1] [Fd2 Md2]]. destruct (c_body A B c m _ Hm K FA MA FB MB Fc Mc) as [[Fc1 Mc1] [Fc2 Mc2]].
    set (d1 := div (f64_lit 1.0) (@floor_fpmin (ieee P) (add (f64_lit 1.0) (mul A d)))) in *. set (c1 := @floor_fpmin (ieee P) (add (f64_lit 1.0) (div A c))) in *.
    set (d2 := div (f64_lit 1.0) (@floor_fpmin (ieee P) (add (f64_lit 1.0) (mul B d1)))) in *. set (c2 := @floor_fpmin (ieee P) (add (f64_lit 1.0) (div B c1))) in *.
    clearbody d2 c2. clearbody d1 c1. replace (4 * (m - 1 + 1)) with (4 * m) in Mh by ring.
    destruct (h_body h d1 c1 d2 c2 m _ _ Hm K KH Fh Mh Fd1 Md1 Fc1 Mc1 Fd2 Md2 Fc2 Mc2) as [Fr Mr].
    eexists; eexists. split; [reflexivity|]. unfold Inv, lev. fold m. split; [split; [exact Fc2|eapply mr_weak; [|exact Mc2]; lra]|]. split; [split; [exact Fd2|eapply mr_weak; [|exact Md2]; lra]|].
    split; [exact Fr|]. eapply mr_weak; [|exact Mr]. lra.
  Qed.

  Lemma h_small : forall n st, (Z.of_nat n <= 9999)%Z -> Inv n st -> let '(c, d, h) := st in fin h /\ 0 <= val h <= 40100.
  Proof.
    intros n [[c d] h] Hn (_ & _ & [Fh Mh]). split; [exact Fh|]. pose proof (pos_INR n) as N0. assert (N1 : INR n <= 9999) by (rewrite INR_IZR_INZ; apply IZR_le; exact Hn).
    assert (Q : 0 <= (INR n + 2) * (INR n + 2) <= 10001 * 10001) by (split; [apply Rmult_le_pos; lra|apply Rmult_le_compat; lra]).
    apply (mr_weak _ (1001 / 10 ^ 6)) in Mh; [|lra].
    assert (P4 : 0 < 4 * (INR n + 1)) by lra. pose proof (mr_bounds _ _ _ P4 Mh) as [B1 B2]. pose proof (exp_pos (- (1001 / 10 ^ 6))) as E0. split; [eapply Rle_trans; [|exact B1]; apply Rmult_le_pos; lra|].
    eapply Rle_trans; [exact B2|]. assert (E2 : exp (1001 / 10 ^ 6) <= 10025 / 10000). { apply Rle_trans with (1 / (1 - 1001 / 10 ^ 6)); [|lra]. pose proof (exp_ineq1_le (- (1001 / 10 ^ 6))) as E1. rewrite exp_Ropp in *. apply Rmult_le_reg_l with (/ exp (1001 / 10 ^ 6)); [exact E0|]. rewrite Rinv_l by (apply Rgt_not_eq, exp_pos).
      apply Rmult_le_reg_r with (1 - 1001 / 10 ^ 6); [lra|]. rewrite Rmult_assoc. replace (1 / (1 - 1001 / 10 ^ 6) * (1 - 1001 / 10 ^ 6)) with 1 by (field; lra). lra. }
    apply Rle_trans with (40000 * (10025 / 10000)); [apply Rmult_le_compat; try lra; left; apply exp_pos|lra].
  Qed.

  Lemma loop : forall k n st, (Z.of_nat (n + k) <= 9999)%Z -> Inv n st ->
    exists c d h f, for_break (count_from (Z.of_nat (S n)) k) (@betacf_body (ieee P) (f64_lit 1.0) (f64_lit 0.5) x) st = ((c, d, h), f) /\ fin h /\ 0 <= val h <= 40100.
  Proof.
    induction k as [|k IH]; intros n st Hk HI.
    - pose proof (h_small n st ltac:(lia) HI) as H. destruct st as [[c d] h]. exists c, d, h, false. split; [reflexivity|exact H].
    - cbn [count_from for_break]. destruct (inv_step n st ltac:(lia) HI) as (st' & f & E & HI'). rewrite E. destruct f.
      + pose proof (h_small (S n) st' ltac:(lia) HI') as H. destruct st' as [[c d] h]. exists c, d, h, true. split; [reflexivity|exact H].
      + replace (Z.of_nat (S n) + 1)%Z with (Z.of_nat (S (S n))) by lia. apply (IH (S n) st'); [lia|exact HI'].
  Qed.

  Lemma start : let d := @floor_fpmin (ieee P) (sub (f64_lit 1.0) (div (mul (add (f64_lit 1.0) (f64_lit 0.5)) x) (add (f64_lit 1.0) (f64_lit 1.0)))) in
    Inv 0 (f64_lit 1.0, div (f64_lit 1.0) d, div (f64_lit 1.0) d).
  Proof.
    destruct consts as (Fh & Vh & [Fz Vz] & [Fq Vq] & [Ft Vt]). pose proof x_mr as MX. assert (V0 : 0 <= vv <= 2 / 10 ^ 16) by (unfold vv; lra).
    destruct (mul_k P _ x 0 _ (3 / 2) 1 Fq Fx ltac:(rewrite Vq; apply mr_refl; lra) MX ltac:(lra)) as [F1 M1]; [apply (rr _ 1 2); [lra|lra|]; rewrite Rabs_pos_eq; lra|].
    destruct (div_k P _ _ _ 0 _ 2 F1 Ft M1 ltac:(rewrite Vt; apply mr_refl; lra) ltac:(lra) ltac:(lra)) as [F2 M2]; [apply (rr _ (1 / 2) 2); [lra|lra|]; rewrite Rabs_pos_eq; lra|].
    set (y := div (mul (add (f64_lit 1.0) (f64_lit 0.5)) x) (add (f64_lit 1.0) (f64_lit 1.0))) in *. clearbody y.
    apply (mr_weak _ (952 / 10 ^ 15)) in M2; [|lra]. apply mr_abs in M2; [|lra]. rewrite (Rabs_pos_eq (3 / 2 * 1 / 2)) in M2 by lra. apply Rabs_le_inv in M2.
    destruct (sub_mr P (f64_lit 1.0) y fin_1 F2) as [F3 M3]. { rewrite val_1. apply rng. split; [apply Rle_trans with (1 / 8); [simpl; lra|lra]|apply Rle_trans with 1; [lra|simpl; lra]]. }
    rewrite val_1 in M3. assert (M4 : mr (29 / 10 ^ 13) (1 - val y) (1 / 4)).
    { apply mr_weak with (28999 / 10 ^ 16 + 2 * (28999 / 10 ^ 16 * (28999 / 10 ^ 16))); [lra|]. apply mr_of_rel; [lra|]. rewrite (Rabs_pos_eq (1 / 4)) by lra. apply Rabs_le. lra. }
    pose proof (mr_trans _ _ _ _ _ M3 M4) as M5. set (z := sub (f64_lit 1.0) y) in *. clearbody z.
    pose proof (mr_near _ _ _ M5 ltac:(lra) ltac:(lra)) as N. cbv zeta. rewrite (guard P z F3) by lra.
    destruct (recip P z _ _ F3 M5 ltac:(lra) ltac:(lra)) as [F6 M6]. set (d := div (f64_lit 1.0) z) in *. clearbody d.
    unfold Inv, lev. cbn [INR]. split; [split; [exact fin_1|]|split; split; try exact F6].
    - rewrite val_1. replace (Co 0) with 1 by (unfold Co; field). apply mr_refl. lra.
    - replace (Do 0) with (/ (1 / 4)) by (unfold Do; field). eapply mr_weak; [|exact M6]. lra.
    - replace (4 * (0 + 1)) with (/ (1 / 4)) by field. eapply mr_weak; [|exact M6]. lra.
  Qed.

  Lemma range_9999 : range 1 10000 = count_from (Z.of_nat 1) (Z.to_nat 9999).
  Proof. reflexivity. Qed.

  Theorem betacf_small : fin (@betacf (ieee P) (f64_lit 1.0) (f64_lit 0.5) x) /\ 0 <= val (@betacf (ieee P) (f64_lit 1.0) (f64_lit 0.5) x) <= 40100.
  Proof.
    pose proof start as S0. cbv zeta in S0. destruct (loop (Z.to_nat 9999) 0 _ ltac:(lia) S0) as (c & d & h & f & E & H).
    assert (E' : @betacf (ieee P) (f64_lit 1.0) (f64_lit 0.5) x = h).
    { unfold betacf. cbv zeta. rewrite range_9999. match goal with |- context [for_break ?l ?bo ?s] => replace (for_break l bo s) with ((c, d, h), f) by (symmetry; exact E) end. reflexivity. }
    rewrite E'. exact H.
  Qed.
End Body.
