(** * The accuracy of the continued fraction of betai for b <= 1/2 and x <= 9/10 *)

From Coq Require Import ZArith Reals Bool Lra Lia List.
From Flocq Require Import Core IEEE754.BinarySingleNaN IEEE754.Binary IEEE754.Bits.
From Verif.Model Require Import Base Arith Utils Gamma Beta.
From Verif.Float Require Import Bits64 Ieee Exact Platforms.
From Verif.Spec Require Import F64Spec Outcome GammaSpec LibmSpec.
From Verif.Proofs Require Import F64 F64Ops Lits Ext ExpBounds Stirling FlErr GammaAcc LnGammaAcc LnGammaFl LnGammaThms GserAcc PosHorner GcfLoop GcfAcc BetaCfBad BetaCfReal BetaCfTrunc.
Import ListNotations.
Open Scope R_scope.
Local Notation exp := Rtrigo_def.exp.
Local Notation ln := Rpower.ln.

Lemma one_minus9 : forall t p' p s r, 0 <= t <= 1 / 10 ^ 12 -> mr t p' p -> 0 < p -> p + s = 1 -> 0 < s -> p <= r * s -> 0 <= r <= 9 -> mr (r * t + vv / 20) (1 - p') s.
Proof.
  intros t p' p s r Ht M Hp E Hs Hr R. pose proof (mr_abs t p' p ltac:(lra) M) as B. rewrite (Rabs_pos_eq p) in B by lra.
  set (f := t + 2 * (t * t)) in *. assert (T2 : t * t <= 1 / 10 ^ 12 * t) by (apply Rmult_le_compat_r; lra). assert (T3 : 0 <= t * t) by (apply Rmult_le_pos; lra).
  assert (F0 : 0 <= f <= 11 / 10 ^ 13) by (unfold f; lra). set (e := r * f).
  assert (E0 : 0 <= e <= 1 / 10 ^ 11). { unfold e. split; [apply Rmult_le_pos; lra|]. apply Rle_trans with (9 * (11 / 10 ^ 13)); [apply Rmult_le_compat; lra|lra]. }
  assert (Q : Rabs (1 - p' - s) <= e * Rabs s).
  { rewrite (Rabs_pos_eq s) by lra. replace (1 - p' - s) with (- (p' - p)) by lra. rewrite Rabs_Ropp. eapply Rle_trans; [exact B|]. unfold e. replace (r * f * s) with (f * (r * s)) by ring. apply Rmult_le_compat_l; lra. }
  pose proof (mr_of_rel e _ _ ltac:(lra) Q) as M2. eapply mr_weak; [|exact M2].
  assert (EE : e * e <= 1 / 10 ^ 11 * (1 / 10 ^ 11)) by (apply Rmult_le_compat; lra).
  assert (RT : r * (2 * (t * t)) <= 9 * (2 * (1 / 10 ^ 12 * (1 / 10 ^ 12)))). { apply Rmult_le_compat; lra. }
  assert (EQ : e = r * t + r * (2 * (t * t))) by (unfold e, f; ring). unfold vv. lra.
Qed.

Section Ops9.
  Context (P : platform).
  Local Notation add := (f64_add P). Local Notation sub := (f64_sub P). Local Notation mul := (f64_mul P). Local Notation div := (f64_div P).

  Lemma half9 : forall m t p s r, fin m -> mr t (val m) (- p) -> 0 <= t <= 1 / 10 ^ 12 -> 0 < p -> p + s = 1 -> / 10 <= s -> p <= r * s -> 0 <= r <= 9 ->
    let d := @floor_fpmin (ieee P) (add (f64_lit 1.0) m) in fin d /\ mr (r * t + 21 / 20 * vv) (val d) s.
  Proof.
    intros m t p s r Fm M Ht Hp E Hs Hr R. apply mr_neg in M. rewrite Ropp_involutive in M.
    pose proof (one_minus9 t _ p s r Ht M Hp E ltac:(lra) Hr R) as M1. replace (1 - - val m) with (1 + val m) in M1 by ring.
    assert (RT : 0 <= r * t <= 9 * (1 / 10 ^ 12)) by (split; [apply Rmult_le_pos; lra|apply Rmult_le_compat; lra]). assert (V0 : 0 <= vv <= 2 / 10 ^ 16) by (unfold vv; lra).
    destruct (add_mr P (f64_lit 1.0) m fin_1 Fm) as [Fd Md]. { rewrite val_1. apply (mr_rng _ _ _ M1 ltac:(lra)). rewrite Rabs_pos_eq by lra. split; [apply Rle_trans with (/ 10); [simpl; lra|lra]|apply Rle_trans with 1; [lra|simpl; lra]]. }
    rewrite val_1 in Md. assert (M2 : mr (r * t + 21 / 20 * vv) (val (add (f64_lit 1.0) m)) s). { eapply mr_weak; [|eapply mr_trans; [exact Md|exact M1]]. lra. }
    pose proof (mr_near _ _ _ M2 ltac:(lra) ltac:(lra)) as N.
    assert (B : s / 2 <= val (add (f64_lit 1.0) m)).
    { set (q := r * t + 21 / 20 * vv) in *. assert (0 <= q <= 1 / 1000) by (unfold q; lra). assert (s * (1 / 2) <= s * (1 - 2 * q)) by (apply Rmult_le_compat_l; lra). lra. }
    cbv zeta. rewrite (guard P _ Fd) by lra. split; assumption.
  Qed.

  Lemma add_p : forall x y s u v, fin x -> fin y -> mr s (val x) u -> mr s (val y) v -> 0 <= u -> 0 < v -> 0 <= s <= 1 / 2 -> / 2 ^ 199 <= u + v <= 2 ^ 199 -> fin (add x y) /\ mr (s + vv) (val (add x y)) (u + v).
  Proof.
    intros x y s u v Fx Fy Mx My Hu Hv Hs H. pose proof (mr_add0 _ _ _ _ _ Hu Hv Mx My) as M. destruct (add_mr P x y Fx Fy) as [F R]; [apply (mr_rng _ _ _ M Hs); rewrite Rabs_pos_eq; lra|].
    split; [exact F|]. apply mr_weak with (vv + s); [lra|]. eapply mr_trans; [exact R|exact M].
  Qed.
End Ops9.

(** the ratio of successive numerators *)
Definition cC (a b x : R) (n : nat) : R := cA a b (S n) x / cA a b n x.

Section RealBounds.
  Variables (a b x : R).
  Hypothesis Ha : 1 / 2 <= a <= 1000.
  Hypothesis Hb : 0 < b <= 1 / 2.
  Hypothesis Hx : / 2 ^ 60 <= x <= 9 / 10.

  Let a0 : 0 < a. Proof. lra. Qed.
  Let x0 : 0 < x <= 9 / 10. Proof. split; [|lra]. apply Rlt_le_trans with (/ 2 ^ 60); [|lra]. apply Rinv_0_lt_compat, pow_lt. lra. Qed.
  Let x1 : 0 <= x < 1. Proof. pose proof x0. lra. Qed.
  Let xx : / 2 ^ 60 <= x <= 1. Proof. pose proof x0. lra. Qed.

  Lemma ck_low : forall n, INR n <= 20001 -> / 10 ^ 10 <= ck a b (S n) * 1 <= 1.
  Proof.
    intros n Hn. rewrite Rmult_1_r. unfold ck. replace (S n - 1)%nat with n by lia. pose proof (cg_rng a b a0 Hb n) as G0. pose proof (cg_rng a b a0 Hb (S n)) as G1. pose proof (pos_INR n) as N0.
    split; [|rewrite <- (Rmult_1_r 1); apply Rmult_le_compat; lra]. assert (A1 : / 10 ^ 5 <= 1 - cg a b n).
    { destruct (Nat.Even_or_Odd n) as [[m E]|[m E]].
      - subst n. pose proof (cg_half a b a0 m). lra.
      - replace (2 * m + 1)%nat with (S (2 * m)) in E by lia. subst n. rewrite cg_odd. rewrite S_INR, mult_INR in Hn. simpl (INR 2) in Hn. pose proof (pos_INR m).
        replace (1 - (a + b + INR m) / (a + 2 * INR m + 1)) with ((INR m + 1 - b) / (a + 2 * INR m + 1)) by (field; lra). apply quo_ge; lra. }
    assert (A2 : / 10 ^ 5 <= cg a b (S n)).
    { destruct (Nat.Even_or_Odd n) as [[m E]|[m E]].
      - subst n. rewrite cg_odd. rewrite mult_INR in Hn. simpl (INR 2) in Hn. pose proof (pos_INR m). apply quo_ge; lra.
      - replace (2 * m + 1)%nat with (S (2 * m)) in E by lia. subst n. replace (S (S (2 * m))) with (2 * S m)%nat by lia. rewrite cg_even, S_INR. rewrite S_INR, mult_INR in Hn. simpl (INR 2) in Hn. pose proof (pos_INR m). apply quo_ge; lra. }
    replace (/ 10 ^ 10) with (/ 10 ^ 5 * / 10 ^ 5) by field. apply Rmult_le_compat; lra.
  Qed.
  Lemma ckx : forall n, INR n <= 20001 -> / 2 ^ 100 <= ck a b (S n) * x <= 1.
  Proof.
    intros n Hn. pose proof (ck_low n Hn) as K. rewrite Rmult_1_r in K. split; [|rewrite <- (Rmult_1_r 1); apply Rmult_le_compat; lra].
    apply Rle_trans with (/ 10 ^ 10 * / 2 ^ 60); [simpl; lra|]. apply Rmult_le_compat; lra.
  Qed.

  Lemma cC_rng : forall n, 1 - cg a b (S n) * x <= cC a b x (S n) <= 1.
  Proof.
    intros n. destruct (cA_pos a b a0 Hb x x1 n) as [P0 [L U]]. unfold cC.
    split; (apply Rmult_le_reg_r with (cA a b (S n) x); [exact P0|]; unfold Rdiv; rewrite Rmult_assoc, Rinv_l by lra; lra).
  Qed.
  Lemma cC_S : forall n, cC a b x (S (S n)) = 1 - ck a b (S (S n)) * x / cC a b x (S n).
  Proof. intros n. destruct (cA_pos a b a0 Hb x x1 n) as [P0 _]. destruct (cA_pos a b a0 Hb x x1 (S n)) as [P1 _]. unfold cC. rewrite (cA_SS a b (S n)). field. lra. Qed.
  Lemma cC_1 : cC a b x 1 = 1.
  Proof. unfold cC. cbn [cA]. field. Qed.

  (** bounds on the amplification *)
  Definition rg (n : nat) : R := cg a b n * x / (1 - cg a b n * x).
  Lemma rg_rng : forall n, 0 <= rg n <= 9.
  Proof. intros n. pose proof (gx_rng a b a0 Hb x x1 n) as G. unfold rg. split; [apply quo_ge|apply quo_le]; lra. Qed.
  Lemma rg_even : forall m, rg (2 * m) <= 9 / 11.
  Proof.
    intros m. pose proof (gx_rng a b a0 Hb x x1 (2 * m)) as G. pose proof (cg_half a b a0 m) as H. pose proof (cg_rng a b a0 Hb (2 * m)) as G1. assert (cg a b (2 * m) * x <= 1 / 2 * (9 / 10)) by (apply Rmult_le_compat; lra). unfold rg. apply quo_le; lra.
  Qed.
  Lemma rg_pair : forall m, rg (2 * m) * rg (S (2 * m)) <= 81 / 121.
  Proof.
    intros m. apply (rho_pair b Hb x x0); [split; [apply (cg_rng a b a0 Hb)|apply (cg_half a b a0)]|]. split; [apply (cg_rng a b a0 Hb)|apply (cg_pair a b a0 Hb)].
  Qed.
  Lemma rho_le : forall n t, 1 - cg a b n * x <= t <= 1 -> 1 - t <= rg n * t.
  Proof.
    intros n t Ht. pose proof (gx_rng a b a0 Hb x x1 n) as G. unfold rg. set (g := cg a b n * x) in *. clearbody g.
    apply Rmult_le_reg_r with (1 - g); [lra|]. replace (g / (1 - g) * t * (1 - g)) with (g * t) by (field; lra). replace ((1 - t) * (1 - g)) with (1 - g - t + g * t) by ring. lra.
  Qed.
  Lemma cE10 : forall n, / 10 <= cE a b x n <= 1.
  Proof. intros n. pose proof (cE_pos a b a0 Hb x x0 n). pose proof (cE_rng a b a0 Hb x x0 n). lra. Qed.
  Lemma cC10 : forall n, / 10 <= cC a b x (S n) <= 1.
  Proof. intros n. pose proof (cC_rng n). pose proof (gx_rng a b a0 Hb x x1 (S n)). lra. Qed.
  Lemma cw_S : forall n, cw a b x (S n) = cw a b x n * (/ cE a b x (S n) * cC a b x (S n)).
  Proof.
    intros n. destruct (cA_pos a b a0 Hb x x1 n) as [P0 _]. destruct (cB_pos a b a0 Hb x x1 (S n)) as [P1 _]. destruct (cB_pos a b a0 Hb x x1 (S (S n))) as [P2 _]. unfold cw, cE, cC. field. lra.
  Qed.
  Lemma cw10 : forall n, 1 <= cw a b x n <= 10.
  Proof.
    intros n. pose proof (cw_1 a b a0 Hb x x1 n). pose proof (cw_up a b a0 Hb x x1 n). assert (/ (1 - x) <= 10). { replace 10 with (/ (1 / 10)) by field. apply Rinv_le_contravar; lra. } lra.
  Qed.
  (** the ranges the float operations need *)
  Lemma pr : forall n t, INR n <= 20001 -> / 10 <= t <= 1 -> / 2 ^ 199 <= Rabs (- (ck a b (S n) * x) * / t) <= 2 ^ 199 /\ 0 < ck a b (S n) * x / t.
  Proof.
    intros n t Hn Ht. pose proof (ckx n Hn) as K. assert (I : 1 <= / t <= 10). { split; [rewrite <- Rinv_1 at 1; apply Rinv_le_contravar; lra|]. replace 10 with (/ / 10) by field. apply Rinv_le_contravar; lra. }
    assert (P0 : 0 < / 2 ^ 100) by (apply Rinv_0_lt_compat, pow_lt; lra).
    assert (Q : / 2 ^ 100 * 1 <= ck a b (S n) * x * / t <= 1 * 10) by (split; apply Rmult_le_compat; lra). unfold Rdiv. split; [|lra].
    rewrite <- Ropp_mult_distr_l, Rabs_Ropp, Rabs_pos_eq by lra. split; [apply Rle_trans with (/ 2 ^ 100 * 1); [|lra]|apply Rle_trans with 10; [lra|]]; simpl; lra.
  Qed.
End RealBounds.

Section Body9.
  Context (P : platform).
  Local Notation add := (f64_add P). Local Notation sub := (f64_sub P). Local Notation mul := (f64_mul P). Local Notation div := (f64_div P).
  Variables a b x : f64.
  Hypothesis Fa : fin a.
  Hypothesis Fb : fin b.
  Hypothesis Fx : fin x.
  Hypothesis Ha : 1 / 2 <= val a <= 1000.
  Hypothesis Hb : / 2 ^ 16 <= val b <= 1 / 2.
  Hypothesis Hx : / 2 ^ 60 <= val x <= 9 / 10.
  Local Notation a' := (val a).
  Local Notation b' := (val b).
  Local Notation x' := (val x).
  Let Hb0 : 0 < b' <= 1 / 2. Proof. split; [|lra]. apply Rlt_le_trans with (/ 2 ^ 16); [|lra]. apply Rinv_0_lt_compat, pow_lt. lra. Qed.

  Definition aaE (i : Z) : f64 :=
    let m := f64_of_Z i in let m2 := mul (f64_lit 2.0) m in
    div (mul (mul m (sub b m)) x) (mul (add (sub a (f64_lit 1.0)) m2) (add a m2)).
  Definition aaO (i : Z) : f64 :=
    let m := f64_of_Z i in let m2 := mul (f64_lit 2.0) m in
    div (mul (mul (f64_neg (add a m)) (add (add a b) m)) x) (mul (add a m2) (add (add a (f64_lit 1.0)) m2)).

  Lemma dbl : forall M m, fin M -> val M = m -> 1 <= m <= 9999 -> (exists z, m = IZR z) -> fin (mul (f64_lit 2.0) M) /\ val (mul (f64_lit 2.0) M) = 2 * m.
  Proof.
    intros M m FM VM Hm [z Hz]. pose proof (mul_spec P _ _ fin_2 FM) as R. rewrite <- (val_fin _ fin_2), <- (val_fin _ FM), val_2, VM, Hz in R. rewrite Hz in Hm.
    assert (Z1 : (1 <= z <= 9999)%Z) by (split; apply le_IZR; lra).
    replace (2 * IZR z) with (IZR (4 * z) / 2) in R by (rewrite mult_IZR; lra). destruct (exact_half _ (4 * z)%Z ltac:(lia) R) as [F V]. split; [exact F|]. rewrite V, Hz, mult_IZR. lra.
  Qed.

  Lemma rx : forall y l u, / 2 ^ 100 <= l -> u <= 10 ^ 30 -> l <= y <= u -> / 2 ^ 199 <= y <= 2 ^ 199.
  Proof. intros y l u H1 H2 H. split; [apply Rle_trans with (/ 2 ^ 100); [simpl; lra|lra]|apply Rle_trans with (10 ^ 30); [lra|simpl; lra]]. Qed.

  Lemma coef9 : forall n, (Z.of_nat n <= 9998)%Z -> let i := Z.of_nat (S n) in
    (fin (aaE i) /\ mr (10 * vv) (val (aaE i)) (- (ck a' b' (S (S (2 * n))) * x'))) /\ (fin (aaO i) /\ mr (10 * vv) (val (aaO i)) (- (ck a' b' (S (S (S (2 * n)))) * x'))).
  Proof.
    intros n Hn i. destruct (of_Z_exact i ltac:(unfold i; lia)) as [Fm Vm]. rewrite <- (val_fin _ Fm) in Vm. set (m := INR (S n)).
    assert (Vm' : val (f64_of_Z i) = m). { rewrite Vm. unfold i, m. rewrite <- INR_IZR_INZ. reflexivity. }
    assert (Hm : 1 <= m <= 9999). { unfold m. split; [apply (le_INR 1); lia|]. rewrite INR_IZR_INZ. apply IZR_le. lia. }
    destruct (dbl _ m Fm Vm' Hm) as [F2 V2]. { exists i. rewrite <- Vm', Vm. reflexivity. }
    assert (CE : ck a' b' (S (S (2 * n))) = m * (m - b') / ((a' + 2 * m - 1) * (a' + 2 * m))). { rewrite ck_even by (try exact Hb0; lra). unfold m. rewrite S_INR. pose proof (pos_INR n). field. lra. }
    assert (CO : ck a' b' (S (S (S (2 * n)))) = (a' + m) * (a' + b' + m) / ((a' + 2 * m) * (a' + 2 * m + 1))). { replace (S (S (S (2 * n)))) with (S (2 * S n)) by lia. rewrite ck_odd by (try exact Hb0; lra). reflexivity. }
    assert (KE : / 2 ^ 100 <= ck a' b' (S (S (2 * n))) * x' <= 1). { apply (ckx a' b' x' Ha Hb0 Hx). rewrite S_INR, mult_INR. simpl (INR 2). unfold m in Hm. rewrite S_INR in Hm. lra. }
    assert (KO : / 2 ^ 100 <= ck a' b' (S (S (S (2 * n)))) * x' <= 1). { apply (ckx a' b' x' Ha Hb0 Hx). rewrite !S_INR, mult_INR. simpl (INR 2). unfold m in Hm. rewrite S_INR in Hm. lra. }
    rewrite CE in *. rewrite CO in *. clear CE CO. assert (V0 : 0 <= vv <= 2 / 10 ^ 16) by (unfold vv; lra).
    unfold aaE, aaO. cbv zeta. set (M := f64_of_Z i) in *. clearbody M. clear i Vm. clearbody m. set (m2 := mul (f64_lit 2.0) M) in *. clearbody m2.
    assert (MM : mr 0 (val M) m) by (rewrite Vm'; apply mr_refl; lra). assert (M2 : mr 0 (val m2) (2 * m)) by (rewrite V2; apply mr_refl; lra). assert (MA : mr 0 (val a) a') by (apply mr_refl; lra). assert (MX : mr 0 (val x) x') by (apply mr_refl; lra). assert (MB : mr 0 (val b) b') by (apply mr_refl; lra).
    assert (M1 : mr 0 (val (f64_lit 1.0)) 1) by (rewrite val_1; apply mr_refl; lra).
    assert (X0 : / 2 ^ 60 * 1 = / 2 ^ 60) by ring. assert (X60 : 0 < / 2 ^ 60) by (apply Rinv_0_lt_compat, pow_lt; lra).
    assert (L99 : / 2 ^ 100 <= / 2 ^ 60 * (1 / 4)) by (simpl; lra). assert (L98 : / 2 ^ 100 <= / 10) by (simpl; lra).
    destruct (add_p P a m2 0 a' (2 * m) Fa F2 MA M2 ltac:(lra) ltac:(lra) ltac:(lra)) as [FA2 MA2]; [apply (rx _ 1 (10 ^ 6)); lra|].
    split.
    - destruct (sub_mr P b M Fb Fm) as [Fs Ms]. { rewrite Vm'. apply rng_abs. rewrite Rabs_left1 by lra. split; [apply Rle_trans with (1 / 2); [simpl; lra|lra]|apply Rle_trans with (10 ^ 6); [lra|simpl; lra]]. }
      rewrite Vm' in Ms.
      assert (PM : 1 * (1 / 2) <= m * (m - b') <= 10000 * 10000) by (split; apply Rmult_le_compat; lra).
      destruct (mul_k P M _ 0 vv m (b' - m) Fm Fs MM Ms ltac:(lra)) as [Fp Mp]. { replace (m * (b' - m)) with (- (m * (m - b'))) by ring. rewrite Rabs_Ropp, Rabs_pos_eq by lra. apply (rx _ (1 / 2) (10 ^ 9)); lra. }
      assert (PX : 1 / 2 * / 2 ^ 60 <= m * (m - b') * x' <= 10 ^ 8 * 1) by (split; apply Rmult_le_compat; lra).
      destruct (mul_k P _ x _ _ _ x' Fp Fx Mp MX ltac:(lra)) as [Fn Mn]. { replace (m * (b' - m) * x') with (- (m * (m - b') * x')) by ring. rewrite Rabs_Ropp, Rabs_pos_eq by lra. apply (rx _ (1 / 2 * / 2 ^ 60) (10 ^ 9)); lra. }
      assert (FQ : fin (sub a (f64_lit 1.0)) /\ Rabs (val (sub a (f64_lit 1.0)) - (a' - 1)) <= (1 + a') * (11103 / 10 ^ 20 - / 10 ^ 21)).
      { destruct (sub_fl P a (f64_lit 1.0) Fa fin_1) as [F E]. { rewrite val_1. apply (bpow_le_1000 _ 20); [lia|]. change (bpow radix2 20) with 1048576. apply Rabs_le. lra. }
        split; [exact F|]. rewrite val_1 in E. eapply Rle_trans; [exact E|]. assert (Rabs (a' - 1) <= 1 + a') by (apply Rabs_le; lra). assert (uu * Rabs (a' - 1) <= uu * (1 + a')) by (apply Rmult_le_compat_l; [unfold uu; simpl; lra|lra]). pose proof eta_small. pose proof tiny_20. unfold uu in *. simpl (bpow _ _) in *. lra. }
      destruct FQ as [FQ EQ].
      assert (MQ : mr vv (val (sub a (f64_lit 1.0)) + val m2) (a' + 2 * m - 1)).
      { rewrite V2. set (e := 11103 / 10 ^ 20 - / 10 ^ 21) in *. apply mr_weak with (e + 2 * (e * e)); [unfold e, vv; lra|]. apply mr_of_rel; [unfold e; lra|]. rewrite (Rabs_pos_eq (a' + 2 * m - 1)) by lra. replace (val (sub a (f64_lit 1.0)) + 2 * m - (a' + 2 * m - 1)) with (val (sub a (f64_lit 1.0)) - (a' - 1)) by ring. eapply Rle_trans; [exact EQ|]. rewrite (Rmult_comm e). apply Rmult_le_compat_r; [unfold e; lra|lra]. }
      destruct (add_mr P _ m2 FQ F2) as [FR MR]. { apply (mr_rng _ _ _ MQ ltac:(lra)). rewrite Rabs_pos_eq by lra. apply (rx _ 1 (10 ^ 6)); lra. }
      pose proof (mr_trans _ _ _ _ _ MR MQ) as MR'.
      assert (PD : 1 * 1 <= (a' + 2 * m - 1) * (a' + 2 * m) <= 10 ^ 5 * 10 ^ 5) by (split; apply Rmult_le_compat; lra).
      destruct (mul_k P _ _ _ _ _ _ FR FA2 MR' MA2 ltac:(lra)) as [Fd Md]. { rewrite Rabs_pos_eq by lra. apply (rx _ 1 (10 ^ 11)); lra. }
      assert (EE : m * (b' - m) * x' / ((a' + 2 * m - 1) * (a' + 2 * m)) = - (m * (m - b') / ((a' + 2 * m - 1) * (a' + 2 * m)) * x')) by (field; lra).
      destruct (div_k P _ _ _ _ _ _ Fn Fd Mn Md ltac:(lra) ltac:(lra)) as [Fr Mr]. { rewrite EE, Rabs_Ropp, Rabs_pos_eq by lra. apply (rx _ (/ 2 ^ 100) 1); lra. }
      split; [exact Fr|]. rewrite EE in Mr. eapply mr_weak; [|exact Mr]. lra.
    - destruct (add_p P a M 0 a' m Fa Fm MA MM ltac:(lra) ltac:(lra) ltac:(lra)) as [Fs Ms]; [apply (rx _ 1 (10 ^ 6)); lra|].
      destruct (add_p P a b 0 a' b' Fa Fb MA MB ltac:(lra) ltac:(lra) ltac:(lra)) as [Fq Mq]; [apply (rx _ (/ 10) (10 ^ 6)); lra|].
      destruct (add_p P (add a b) M (0 + vv) (a' + b') m Fq Fm Mq ltac:(eapply mr_weak; [|exact MM]; lra) ltac:(lra) ltac:(lra) ltac:(lra)) as [Fu Mu]; [apply (rx _ 1 (10 ^ 6)); lra|].
      destruct (add_p P a (f64_lit 1.0) 0 a' 1 Fa fin_1 MA M1 ltac:(lra) ltac:(lra) ltac:(lra)) as [Fq1 Mq1]; [apply (rx _ (/ 10) (10 ^ 6)); lra|].
      destruct (add_p P _ m2 (0 + vv) (a' + 1) (2 * m) Fq1 F2 Mq1 ltac:(eapply mr_weak; [|exact M2]; lra) ltac:(lra) ltac:(lra) ltac:(lra)) as [Fu1 Mu1]; [apply (rx _ 1 (10 ^ 6)); lra|].
      assert (Fs' : fin (f64_neg (add a M))) by (rewrite fin_neg; exact Fs). apply mr_neg in Ms. rewrite <- val_neg in Ms.
      assert (PM : 1 * (1 / 2) <= (a' + m) * (a' + b' + m) <= 20000 * 20000) by (split; apply Rmult_le_compat; lra).
      destruct (mul_k P _ _ _ _ _ _ Fs' Fu Ms Mu ltac:(lra)) as [Fp Mp]. { rewrite <- Ropp_mult_distr_l, Rabs_Ropp, Rabs_pos_eq by lra. apply (rx _ (1 / 2) (10 ^ 9)); lra. }
      assert (PX : 1 / 2 * / 2 ^ 60 <= (a' + m) * (a' + b' + m) * x' <= 10 ^ 9 * 1) by (split; apply Rmult_le_compat; lra).
      destruct (mul_k P _ x _ _ _ x' Fp Fx Mp MX ltac:(lra)) as [Fn Mn]. { replace (- (a' + m) * (a' + b' + m) * x') with (- ((a' + m) * (a' + b' + m) * x')) by ring. rewrite Rabs_Ropp, Rabs_pos_eq by lra. apply (rx _ (1 / 2 * / 2 ^ 60) (10 ^ 9)); lra. }
      assert (PD : 1 * 1 <= (a' + 2 * m) * (a' + 1 + 2 * m) <= 10 ^ 5 * 10 ^ 5) by (split; apply Rmult_le_compat; lra).
      destruct (mul_k P _ _ _ _ _ _ FA2 Fu1 MA2 Mu1 ltac:(lra)) as [Fd Md]. { rewrite Rabs_pos_eq by lra. apply (rx _ 1 (10 ^ 11)); lra. }
      assert (EE : - (a' + m) * (a' + b' + m) * x' / ((a' + 2 * m) * (a' + 1 + 2 * m)) = - ((a' + m) * (a' + b' + m) / ((a' + 2 * m) * (a' + 2 * m + 1)) * x')) by (field; lra).
      destruct (div_k P _ _ _ _ _ _ Fn Fd Mn Md ltac:(lra) ltac:(lra)) as [Fr Mr]. { rewrite EE, Rabs_Ropp, Rabs_pos_eq by lra. apply (rx _ (/ 2 ^ 100) 1); lra. }
      split; [exact Fr|]. rewrite EE in Mr. eapply mr_weak; [|exact Mr]. lra.
  Qed.

  Local Notation E := (cE a' b' x').
  Local Notation C := (cC a' b' x').
  Local Notation r := (rg a' b' x').
  Let a0 : 0 < a'. Proof. lra. Qed.
  Let x0 : 0 < x' <= 9 / 10. Proof. split; [|lra]. apply Rlt_le_trans with (/ 2 ^ 60); [|lra]. apply Rinv_0_lt_compat, pow_lt. lra. Qed.

  (** one denominator, one numerator *)
  Lemma d_half : forall A d n k, INR n <= 20001 -> 0 <= k <= 700 * vv -> fin A -> mr (10 * vv) (val A) (- (ck a' b' (S n) * x')) -> fin d -> mr k (val d) (/ E n) ->
    let d1 := div (f64_lit 1.0) (@floor_fpmin (ieee P) (add (f64_lit 1.0) (mul A d))) in fin d1 /\ mr (r (S n) * (k + 11 * vv) + 41 / 20 * vv) (val d1) (/ E (S n)).
  Proof.
    intros A d n k Hn Hk FA MA Fd Md d1. assert (V0 : 0 <= vv <= 2 / 10 ^ 16) by (unfold vv; lra).
    pose proof (cE10 a' b' x' Ha Hb0 Hx n) as E0. pose proof (cE10 a' b' x' Ha Hb0 Hx (S n)) as E1. destruct (pr a' b' x' Ha Hb0 Hx n (E n) Hn E0) as [PR PP].
    destruct (mul_k P A d _ _ _ _ FA Fd MA Md ltac:(lra) PR) as [Fp Mp]. rewrite <- Ropp_mult_distr_l in Mp.
    pose proof (cE_S a' b' a0 Hb0 x' x0 n) as ES. pose proof (rg_rng a' b' x' Ha Hb0 Hx (S n)) as RR.
    destruct (half9 P _ _ (ck a' b' (S n) * x' * / E n) (E (S n)) (r (S n)) Fp Mp) as [Fe Me].
    - unfold vv in *; lra.
    - exact PP.
    - rewrite ES. unfold Rdiv. ring.
    - lra.
    - replace (ck a' b' (S n) * x' * / E n) with (1 - E (S n)) by (rewrite ES; unfold Rdiv; ring). apply (rho_le a' b' x' Ha Hb0 Hx). apply (cE_rng a' b' a0 Hb0 x' x0).
    - exact RR.
    - assert (T0 : 0 <= r (S n) * (10 * vv + k + vv) <= 9 * (711 * vv)) by (split; [apply Rmult_le_pos; lra|apply Rmult_le_compat; lra]).
      destruct (recip P _ _ _ Fe Me ltac:(lra) ltac:(lra)) as [F1 M1]. split; [exact F1|]. eapply mr_weak; [|exact M1]. right. field.
  Qed.
  Lemma c_half : forall A c n k, INR (S n) <= 20001 -> 0 <= k <= 700 * vv -> fin A -> mr (10 * vv) (val A) (- (ck a' b' (S (S n)) * x')) -> fin c -> mr k (val c) (C (S n)) ->
    let c1 := @floor_fpmin (ieee P) (add (f64_lit 1.0) (div A c)) in fin c1 /\ mr (r (S (S n)) * (k + 11 * vv) + 41 / 20 * vv) (val c1) (C (S (S n))).
  Proof.
    intros A d n k Hn Hk FA MA Fd Md d1. assert (V0 : 0 <= vv <= 2 / 10 ^ 16) by (unfold vv; lra).
    pose proof (cC10 a' b' x' Ha Hb0 Hx n) as E0. pose proof (cC10 a' b' x' Ha Hb0 Hx (S n)) as E1. destruct (pr a' b' x' Ha Hb0 Hx (S n) (C (S n)) Hn E0) as [PR PP].
    destruct (div_k P A d _ _ _ _ FA Fd MA Md ltac:(lra) ltac:(lra) PR) as [Fp Mp]. unfold Rdiv in Mp. rewrite <- Ropp_mult_distr_l in Mp.
    pose proof (cC_S a' b' x' Ha Hb0 Hx n) as ES. pose proof (rg_rng a' b' x' Ha Hb0 Hx (S (S n))) as RR.
    destruct (half9 P _ _ (ck a' b' (S (S n)) * x' * / C (S n)) (C (S (S n))) (r (S (S n))) Fp Mp) as [Fe Me].
    - unfold vv in *; lra.
    - exact PP.
    - rewrite ES. unfold Rdiv. ring.
    - lra.
    - replace (ck a' b' (S (S n)) * x' * / C (S n)) with (1 - C (S (S n))) by (rewrite ES; unfold Rdiv; ring). apply (rho_le a' b' x' Ha Hb0 Hx). apply (cC_rng a' b' x' Ha Hb0 Hx).
    - exact RR.
    - split; [exact Fe|]. eapply mr_weak; [|exact Me]. replace (10 * vv + k + vv) with (k + 11 * vv) by ring. lra.
  Qed.

  (** the errors after the two halves of an iteration *)
  Lemma lev1 : forall m, 0 <= r (2 * m) * (400 * vv + 11 * vv) + 41 / 20 * vv <= 339 * vv.
  Proof.
    intros m. pose proof (rg_rng a' b' x' Ha Hb0 Hx (2 * m)) as R0. pose proof (rg_even a' b' x' Ha Hb0 Hx m) as R1. assert (V0 : 0 <= vv) by (unfold vv; lra).
    assert (0 <= r (2 * m) * (400 * vv + 11 * vv) <= 9 / 11 * (400 * vv + 11 * vv)) by (split; [apply Rmult_le_pos; lra|apply Rmult_le_compat_r; lra]). lra.
  Qed.
  Lemma lev2 : forall m, 0 <= r (S (2 * m)) * (r (2 * m) * (400 * vv + 11 * vv) + 41 / 20 * vv + 11 * vv) + 41 / 20 * vv <= 400 * vv.
  Proof.
    intros m. pose proof (rg_rng a' b' x' Ha Hb0 Hx (2 * m)) as R0. pose proof (rg_rng a' b' x' Ha Hb0 Hx (S (2 * m))) as R1. pose proof (rg_pair a' b' x' Ha Hb0 Hx m) as R2. assert (V0 : 0 <= vv) by (unfold vv; lra).
    set (u := r (2 * m)) in *. set (v := r (S (2 * m))) in *. clearbody u v. replace (v * (u * (400 * vv + 11 * vv) + 41 / 20 * vv + 11 * vv)) with (u * v * (411 * vv) + v * (261 / 20 * vv)) by field.
    assert (0 <= u * v) by (apply Rmult_le_pos; lra). assert (u * v * (411 * vv) <= 81 / 121 * (411 * vv)) by (apply Rmult_le_compat_r; lra). assert (v * (261 / 20 * vv) <= 9 * (261 / 20 * vv)) by (apply Rmult_le_compat_r; lra).
    assert (0 <= u * v * (411 * vv)) by (apply Rmult_le_pos; lra). assert (0 <= v * (261 / 20 * vv)) by (apply Rmult_le_pos; lra). lra.
  Qed.

  Definition Inv9 (n : nat) (st : f64 * f64 * f64) : Prop :=
    let '(c, d, h) := st in
    (fin c /\ mr (400 * vv) (val c) (C (S (2 * n)))) /\ (fin d /\ mr (400 * vv) (val d) (/ E (S (2 * n)))) /\ (fin h /\ mr (1485 * (INR n + 1) * vv) (val h) (cw a' b' x' (S (2 * n)))).
  Definition close9 (n : nat) : Prop := cDl a' b' x' (2 * n) <= 91 / 10 ^ 14.

  Lemma body_eq9 : forall i c d h, @betacf_body (ieee P) a b x i (c, d, h) =
    let d1 := div (f64_lit 1.0) (@floor_fpmin (ieee P) (add (f64_lit 1.0) (mul (aaE i) d))) in
    let c1 := @floor_fpmin (ieee P) (add (f64_lit 1.0) (div (aaE i) c)) in
    let d2 := div (f64_lit 1.0) (@floor_fpmin (ieee P) (add (f64_lit 1.0) (mul (aaO i) d1))) in
    let c2 := @floor_fpmin (ieee P) (add (f64_lit 1.0) (div (aaO i) c1)) in
    ((c2, d2, mul (mul h (mul d1 c1)) (mul d2 c2)), f64_le (f64_abs (sub (mul d2 c2) (f64_lit 1.0))) (@EPS (ieee P))).
  Proof. intros i c d h. unfold betacf_body, aaE, aaO. cbv zeta. ieee_simpl. reflexivity. Qed.

  Lemma dc_rng : forall n, / 10 <= / E (S n) * C (S n) <= 10.
  Proof.
    intros n. pose proof (cE10 a' b' x' Ha Hb0 Hx (S n)) as E0. pose proof (cC10 a' b' x' Ha Hb0 Hx n) as C0. assert (I : 1 <= / E (S n) <= 10). { split; [rewrite <- Rinv_1 at 1; apply Rinv_le_contravar; lra|]. replace 10 with (/ / 10) by field. apply Rinv_le_contravar; lra. }
    split; [replace (/ 10) with (1 * / 10) by ring|replace 10 with (10 * 1) by ring]; apply Rmult_le_compat; lra.
  Qed.

  (** the convergence test *)
  Lemma test9 : forall del n, fin del -> mr (801 * vv) (val del) (/ E (S (S n)) * C (S (S n))) -> f64_le (f64_abs (sub del (f64_lit 1.0))) (@EPS (ieee P)) = true -> cDl a' b' x' (S n) <= 91 / 10 ^ 14.
  Proof.
    intros del n Fd Md T. assert (V0 : 0 <= vv <= 2 / 10 ^ 16) by (unfold vv; lra). pose proof (dc_rng (S n)) as DR.
    pose proof (mr_near _ _ _ Md ltac:(lra) ltac:(lra)) as N. assert (B : 0 <= val del <= 21). { set (y := / E (S (S n)) * C (S (S n))) in *. assert (0 <= y * (1 - 2 * (801 * vv))) by (apply Rmult_le_pos; lra). assert (y * (1 + 2 * (801 * vv)) <= 10 * 2) by (apply Rmult_le_compat; lra). lra. }
    destruct (sub_fl P del (f64_lit 1.0) Fd fin_1) as [Fs Es]. { rewrite val_1. apply (bpow_le_1000 _ 20); [lia|]. change (bpow radix2 20) with 1048576. apply Rabs_le. lra. }
    rewrite val_1 in Es. set (s := sub del (f64_lit 1.0)) in *. clearbody s.
    assert (TT : Rabs (val s) <= / 2 ^ 52).
    { apply le_true in T. destruct T as (_ & _ & T). rewrite val_abs in T. assert (EV : val (@EPS (ieee P)) = / 2 ^ 52) by (vm_compute; lra). lra. }
    assert (D1 : Rabs (val del - 1) <= 2001 / 1000 * vv).
    { assert (Rabs (val del - 1) <= Rabs (val s) + Rabs (val s - (val del - 1))) by (replace (val del - 1) with (val s - (val s - (val del - 1))) at 1 by ring; eapply Rle_trans; [apply Rabs_triang|]; rewrite Rabs_Ropp; lra).
      pose proof eta_small. pose proof tiny_20. unfold uu, vv in *. simpl in *. lra. }
    assert (M1 : mr (2002 / 1000 * vv) (val del) 1).
    { apply mr_weak with (2001 / 1000 * vv + 2 * (2001 / 1000 * vv * (2001 / 1000 * vv))); [unfold vv; lra|]. apply mr_of_rel; [unfold vv; lra|]. rewrite Rabs_R1. lra. }
    assert (M2 : mr (801 * vv + 2002 / 1000 * vv) (/ E (S (S n)) * C (S (S n))) 1) by (eapply mr_trans; [apply mr_sym; exact Md|exact M1]).
    apply mr_abs in M2; [|unfold vv; lra]. rewrite Rabs_R1 in M2. apply Rabs_le_inv in M2.
    unfold cDl. rewrite (cw_S a' b' x' Ha Hb0 Hx (S n)). pose proof (cw10 a' b' x' Ha Hb0 Hx (S n)) as W. set (y := / E (S (S n)) * C (S (S n))) in *. clearbody y.
    replace (cw a' b' x' (S n) * y - cw a' b' x' (S n)) with (cw a' b' x' (S n) * (y - 1)) by ring. destruct (Rle_or_lt y 1) as [Y|Y].
    - assert (0 <= cw a' b' x' (S n) * (1 - y)) by (apply Rmult_le_pos; lra). lra.
    - apply Rle_trans with (10 * (y - 1)); [apply Rmult_le_compat_r; lra|]. unfold vv in M2. lra.
  Qed.

  Lemma inv_step9 : forall n st, (Z.of_nat n <= 9998)%Z -> Inv9 n st ->
    exists st' f, @betacf_body (ieee P) a b x (Z.of_nat (S n)) st = (st', f) /\ Inv9 (S n) st' /\ (f = true -> close9 (S n)).
  Proof.
    intros n [[c d] h] Hn ([Fc Mc] & [Fd Md] & [Fh Mh]). destruct (coef9 n Hn) as [[FA MA] [FB MB]]. rewrite body_eq9. cbv zeta.
    set (A := aaE _) in *. set (B := aaO _) in *. clearbody A B. assert (V0 : 0 <= vv <= 2 / 10 ^ 16) by (unfold vv; lra).
    assert (N1 : 0 <= INR n <= 9998) by (split; [apply pos_INR|rewrite INR_IZR_INZ; apply IZR_le; exact Hn]).
    assert (N2 : INR (S (2 * n)) <= 20001) by (rewrite S_INR, mult_INR; simpl (INR 2); lra). assert (N3 : INR (S (S (2 * n))) <= 20001) by (rewrite !S_INR, mult_INR; simpl (INR 2); lra).
    destruct (d_half A d (S (2 * n)) (400 * vv) N2 ltac:(lra) FA MA Fd Md) as [Fd1 Md1]. destruct (c_half A c (2 * n) (400 * vv) N2 ltac:(lra) FA MA Fc Mc) as [Fc1 Mc1].
    set (d1 := div (f64_lit 1.0) (@floor_fpmin (ieee P) (add (f64_lit 1.0) (mul A d)))) in *. set (c1 := @floor_fpmin (ieee P) (add (f64_lit 1.0) (div A c))) in *. clearbody d1 c1.
    pose proof (lev1 (S n)) as L1. pose proof (lev2 (S n)) as L2. replace (2 * S n)%nat with (S (S (2 * n))) in L1, L2 by lia.
    set (k1 := r (S (S (2 * n))) * (400 * vv + 11 * vv) + 41 / 20 * vv) in *.
    destruct (d_half B d1 (S (S (2 * n))) k1 N3 ltac:(lra) FB MB Fd1 Md1) as [Fd2 Md2]. destruct (c_half B c1 (S (2 * n)) k1 N3 ltac:(lra) FB MB Fc1 Mc1) as [Fc2 Mc2].
    set (d2 := div (f64_lit 1.0) (@floor_fpmin (ieee P) (add (f64_lit 1.0) (mul B d1)))) in *. set (c2 := @floor_fpmin (ieee P) (add (f64_lit 1.0) (div B c1))) in *. clearbody d2 c2.
    apply (mr_weak _ (339 * vv)) in Md1; [|lra]. apply (mr_weak _ (339 * vv)) in Mc1; [|lra]. apply (mr_weak _ (400 * vv)) in Md2; [|lra]. apply (mr_weak _ (400 * vv)) in Mc2; [|lra]. clear L1 L2. clearbody k1.
    pose proof (dc_rng (S (2 * n))) as R1. pose proof (dc_rng (S (S (2 * n)))) as R2. pose proof (cw10 a' b' x' Ha Hb0 Hx (S (2 * n))) as W1. pose proof (cw10 a' b' x' Ha Hb0 Hx (S (S (2 * n)))) as W2. pose proof (cw10 a' b' x' Ha Hb0 Hx (S (S (S (2 * n))))) as W3.
    pose proof (cw_S a' b' x' Ha Hb0 Hx (S (2 * n))) as E1. pose proof (cw_S a' b' x' Ha Hb0 Hx (S (S (2 * n)))) as E2.
    destruct (mul_k P d1 c1 _ _ _ _ Fd1 Fc1 Md1 Mc1 ltac:(lra)) as [F1 M1]; [apply (rr _ (/ 10) 10); [lra|lra|]; rewrite Rabs_pos_eq; lra|].
    destruct (mul_k P d2 c2 _ _ _ _ Fd2 Fc2 Md2 Mc2 ltac:(lra)) as [F2 M2]; [apply (rr _ (/ 10) 10); [lra|lra|]; rewrite Rabs_pos_eq; lra|].
    assert (HK : 0 <= 1485 * (INR n + 1) * vv <= 1 / 1000). { split; [apply Rmult_le_pos; lra|]. apply Rle_trans with (1485 * 10000 * (2 / 10 ^ 16)); [apply Rmult_le_compat; lra|lra]. }
    destruct (mul_k P h _ _ _ _ _ Fh F1 Mh M1 ltac:(lra)) as [F3 M3]; [rewrite <- E1; apply (rr _ 1 10); [lra|lra|]; rewrite Rabs_pos_eq; lra|]. rewrite <- E1 in M3.
    destruct (mul_k P _ _ _ _ _ _ F3 F2 M3 M2 ltac:(lra)) as [F4 M4]; [rewrite <- E2; apply (rr _ 1 10); [lra|lra|]; rewrite Rabs_pos_eq; lra|]. rewrite <- E2 in M4.
    eexists; eexists. split; [reflexivity|]. unfold Inv9, close9. replace (S (2 * S n)) with (S (S (S (2 * n)))) by lia. replace (2 * S n)%nat with (S (S (2 * n))) by lia. split.
    - split; [split; assumption|]. split; [split; assumption|]. split; [exact F4|]. eapply mr_weak; [|exact M4]. rewrite S_INR. lra.
    - intros T. apply (test9 _ (S (2 * n)) F2); [|exact T]. eapply mr_weak; [|exact M2]. lra.
  Qed.

  Lemma loop9 : forall k n st, (Z.of_nat (n + k) <= 9999)%Z -> Inv9 n st ->
    exists c d h f n', for_break (count_from (Z.of_nat (S n)) k) (@betacf_body (ieee P) a b x) st = ((c, d, h), f) /\ Inv9 n' (c, d, h) /\ (n' <= n + k)%nat /\ (n' = (n + k)%nat \/ close9 n').
  Proof.
    induction k as [|k IH]; intros n st Hk HI.
    - destruct st as [[c d] h]. exists c, d, h, false, n. split; [reflexivity|]. split; [exact HI|]. split; [lia|left; lia].
    - cbn [count_from for_break]. destruct (inv_step9 n st ltac:(lia) HI) as (st' & f & Eq & HI' & T). rewrite Eq. destruct f.
      + destruct st' as [[c d] h]. exists c, d, h, true, (S n). split; [reflexivity|]. split; [exact HI'|]. split; [lia|right; apply T; reflexivity].
      + replace (Z.of_nat (S n) + 1)%Z with (Z.of_nat (S (S n))) by lia. destruct (IH (S n) st' ltac:(lia) HI') as (c & d & h & f & n' & Eq' & I' & L & D). exists c, d, h, f, n'. split; [exact Eq'|]. split; [exact I'|]. split; [lia|]. destruct D as [D|D]; [left; lia|right; exact D].
  Qed.

  Lemma start9 : let d := @floor_fpmin (ieee P) (sub (f64_lit 1.0) (div (mul (add a b) x) (add a (f64_lit 1.0)))) in
    Inv9 0 (f64_lit 1.0, div (f64_lit 1.0) d, div (f64_lit 1.0) d).
  Proof.
    assert (V0 : 0 <= vv <= 2 / 10 ^ 16) by (unfold vv; lra). assert (MA : mr 0 (val a) a') by (apply mr_refl; lra). assert (MX : mr 0 (val x) x') by (apply mr_refl; lra). assert (MB : mr 0 (val b) b') by (apply mr_refl; lra). assert (M1 : mr 0 (val (f64_lit 1.0)) 1) by (rewrite val_1; apply mr_refl; lra).
    assert (X60 : 0 < / 2 ^ 60) by (apply Rinv_0_lt_compat, pow_lt; lra). assert (L99 : / 2 ^ 100 <= / 2 ^ 60 * (1 / 4)) by (simpl; lra). assert (L98 : / 2 ^ 100 <= / 10) by (simpl; lra).
    destruct (add_p P a b 0 a' b' Fa Fb MA MB ltac:(lra) ltac:(lra) ltac:(lra)) as [Fq Mq]; [apply (rx _ (/ 10) (10 ^ 6)); lra|].
    destruct (add_p P a (f64_lit 1.0) 0 a' 1 Fa fin_1 MA M1 ltac:(lra) ltac:(lra) ltac:(lra)) as [Fq1 Mq1]; [apply (rx _ (/ 10) (10 ^ 6)); lra|].
    assert (PX : 1 / 4 * / 2 ^ 60 <= (a' + b') * x' <= 1001 * 1) by (split; apply Rmult_le_compat; lra).
    destruct (mul_k P _ x _ _ _ x' Fq Fx Mq MX ltac:(lra)) as [Fn Mn]. { rewrite Rabs_pos_eq by lra. apply (rx _ (1 / 4 * / 2 ^ 60) (10 ^ 9)); lra. }
    assert (EE : (a' + b') * x' / (a' + 1) = ck a' b' 1 * x'). { pose proof (ck_odd a' b' a0 Hb0 0) as K. change (S (2 * 0)) with 1%nat in K. rewrite K. simpl (INR 0). field. lra. }
    pose proof (ckx a' b' x' Ha Hb0 Hx 0 ltac:(simpl; lra)) as K.
    destruct (div_k P _ _ _ _ _ _ Fn Fq1 Mn Mq1 ltac:(lra) ltac:(lra)) as [Fr Mr]. { rewrite EE, Rabs_pos_eq by lra. apply (rx _ (/ 2 ^ 100) 1); lra. }
    rewrite EE in Mr. set (y := div (mul (add a b) x) (add a (f64_lit 1.0))) in *. clearbody y.
    assert (ES : ck a' b' 1 * x' + E 1 = 1). { rewrite (cE_S a' b' a0 Hb0 x' x0 0). replace (E 0) with 1 by (unfold cE; cbn [cB]; field). field. }
    pose proof (cE10 a' b' x' Ha Hb0 Hx 1) as E1. pose proof (rg_rng a' b' x' Ha Hb0 Hx 1) as RR.
    assert (M4 : mr (r 1 * (0 + vv + 0 + vv + (0 + vv) + vv) + vv / 20) (1 - val y) (E 1)).
    { apply (one_minus9 _ _ (ck a' b' 1 * x') _ _); [unfold vv in *; lra|exact Mr| |exact ES|lra| |exact RR].
      - apply Rlt_le_trans with (/ 2 ^ 100); [apply Rinv_0_lt_compat, pow_lt; lra|lra].
      - replace (ck a' b' 1 * x') with (1 - E 1) by lra. apply (rho_le a' b' x' Ha Hb0 Hx). apply (cE_rng a' b' a0 Hb0 x' x0). }
    assert (T0 : 0 <= r 1 * (0 + vv + 0 + vv + (0 + vv) + vv) <= 9 * (4 * vv)) by (split; [apply Rmult_le_pos; lra|apply Rmult_le_compat; lra]).
    apply (mr_weak _ (37 * vv)) in M4; [|lra].
    destruct (sub_mr P (f64_lit 1.0) y fin_1 Fr) as [F3 M3]. { rewrite val_1. apply (mr_rng _ _ _ M4 ltac:(lra)). rewrite Rabs_pos_eq by lra. apply (rx _ (/ 10) 1); lra. }
    rewrite val_1 in M3. pose proof (mr_trans _ _ _ _ _ M3 M4) as M5. set (z := sub (f64_lit 1.0) y) in *. clearbody z.
    pose proof (mr_near _ _ _ M5 ltac:(lra) ltac:(lra)) as N. assert (Z1 : / 100 <= val z). { assert (/ 10 * (1 / 2) <= E 1 * (1 - 2 * (vv + 37 * vv))) by (apply Rmult_le_compat; lra). lra. }
    cbv zeta. rewrite (guard P z F3 Z1). destruct (recip P z _ _ F3 M5 ltac:(lra) ltac:(lra)) as [F6 M6]. set (d := div (f64_lit 1.0) z) in *. clearbody d.
    unfold Inv9. cbn [INR]. change (S (2 * 0)) with 1%nat. split; [split; [exact fin_1|]|split; split; try exact F6].
    - rewrite (cC_1 a' b' x'), val_1. apply mr_refl. lra.
    - eapply mr_weak; [|exact M6]. lra.
    - replace (cw a' b' x' 1) with (/ E 1). { eapply mr_weak; [|exact M6]. lra. } unfold cw, cE. cbn [cA]. destruct (cB_pos a' b' a0 Hb0 x' ltac:(lra) 2) as [Q _]. change (cB a' b' 1 x') with 1. replace (1 - ck a' b' 1 * x' * 0) with 1 by ring. field. lra.
  Qed.

  Lemma q90 : (81 / 121) ^ 90 <= 3 / 10 ^ 16.
  Proof.
    assert (A1 : 0 <= (81 / 121) ^ 10 <= 181 / 10 ^ 4) by (split; [apply pow_le; lra|simpl; lra]). replace 90%nat with (10 * 9)%nat by reflexivity. rewrite pow_mult. eapply Rle_trans; [apply pow_incr; exact A1|]. simpl. lra.
  Qed.
  Lemma qpow_le : forall n, (90 <= n)%nat -> (81 / 121) ^ n <= 3 / 10 ^ 16.
  Proof.
    intros n Hn. replace n with (90 + (n - 90))%nat by lia. rewrite pow_add. pose proof q90. assert (0 <= (81 / 121) ^ (n - 90) <= 1). { split; [apply pow_le; lra|]. rewrite <- (pow1 (n - 90)). apply pow_incr. lra. }
    assert (0 <= (81 / 121) ^ 90) by (apply pow_le; lra). apply Rle_trans with (3 / 10 ^ 16 * 1); [apply Rmult_le_compat; lra|lra].
  Qed.

  (** betacf is a convergent up to rounding, and that convergent is close to the limit *)
  Theorem betacf_acc : exists n, fin (@betacf (ieee P) a b x) /\ mr (1485 * 10 ^ 4 * vv) (val (@betacf (ieee P) a b x)) (cw a' b' x' n) /\ ceps a' b' n x' <= 4 / 10 ^ 10.
  Proof.
    pose proof start9 as S0. cbv zeta in S0. destruct (loop9 (Z.to_nat 9999) 0 _ ltac:(lia) S0) as (c & d & h & f & n & Eq & HI & Ln & HC).
    assert (E' : @betacf (ieee P) a b x = h).
    { unfold betacf. cbv zeta. rewrite range_9999. match goal with |- context [for_break ?l ?bo ?s] => replace (for_break l bo s) with ((c, d, h), f) by (symmetry; exact Eq) end. reflexivity. }
    exists (S (2 * n)). rewrite E'. destruct HI as (_ & _ & [Fh Mh]). assert (V0 : 0 <= vv <= 2 / 10 ^ 16) by (unfold vv; lra).
    assert (N1 : 0 <= INR n <= 9999). { split; [apply pos_INR|]. rewrite INR_IZR_INZ. apply IZR_le. lia. }
    split; [exact Fh|]. split. { eapply mr_weak; [|exact Mh]. apply Rmult_le_compat_r; lra. }
    eapply Rle_trans; [apply (ceps_Dl a' b' a0 Hb0 x' x0)|]. pose proof (cDl_nonneg a' b' a0 Hb0 x' x0 (2 * n)) as D0. rewrite S_INR, mult_INR. simpl (INR 2).
    assert (AQ : (a' + (2 * INR n + 1) + 1) / a' <= 4 * INR n + 5). { apply quo_le; [exact a0|]. assert (INR n * (1 / 2) <= INR n * a') by (apply Rmult_le_compat_l; lra). lra. }
    assert (AP : 0 <= (a' + (2 * INR n + 1) + 1) / a') by (apply quo_ge; [exact a0|lra]).
    destruct (le_lt_dec 90 n) as [H|H].
    - pose proof (cDl_geo a' b' a0 Hb0 x' x0 n) as DG. pose proof (qpow_le n H) as Q. apply Rle_trans with (40001 * (9 * (3 / 10 ^ 16))); [apply Rmult_le_compat; lra|lra].
    - destruct HC as [HC|HC]; [exfalso; lia|]. unfold close9 in HC. assert (INR n <= 89) by (replace 89 with (INR 89) by (rewrite INR_IZR_INZ; reflexivity); apply le_INR; lia).
      apply Rle_trans with (361 * (91 / 10 ^ 14)); [apply Rmult_le_compat; lra|lra].
  Qed.
End Body9.
