(** * What the continued-fraction loop computes *)

From Coq Require Import ZArith Reals Bool Lra Lia List.
From Flocq Require Import Core IEEE754.BinarySingleNaN IEEE754.Binary IEEE754.Bits.
From Verif.Model Require Import Base Arith Utils Gamma.
From Verif.Float Require Import Bits64 Ieee Exact Platforms.
From Verif.Spec Require Import F64Spec Outcome GammaSpec LibmSpec IncGammaSpec.
From Verif.Proofs Require Import F64 F64Ops Lits Ext ExpBounds Stirling FlErr GammaAcc LnGammaAcc LnGammaFl LnGammaThms IncGamma IncGammaTotal GserAcc GcfReal GcfBounds GcfLoop.
Import ListNotations.
Open Scope R_scope.
Local Notation exp := Rtrigo_def.exp.
Local Notation ln := Rpower.ln.

Lemma rng : forall y, / 2 ^ 200 <= y <= 2 ^ 200 -> bpow radix2 (-1022) <= Rabs y <= bpow radix2 1023.
Proof. intros y. apply (in_range 0 (Nat.le_0_l _)). Qed.

Section Loop.
  Context (P : platform).
  Local Notation add := (f64_add P).
  Local Notation sub := (f64_sub P).
  Local Notation mul := (f64_mul P).
  Local Notation div := (f64_div P).
  Variables (G : R -> R) (a : f64) (p : R -> R) (B0 : R).
  Hypothesis HG : gamma_function G.
  Hypothesis Fa : fin a.
  Hypothesis Ha : 0 < val a < 100.
  Hypothesis Hp : lower_inc_gamma G (val a) p.
  Let x' := B0 - 1 + val a.
  Hypothesis Hx : val a + 99 / 100 <= x'.
  Hypothesis Hx2 : x' <= 390.
  Local Notation D := (D (val a) x').
  Local Notation C := (C (val a) x').
  Local Notation w := (fun n => ww (val a) n x').

  Lemma bb_eq : forall n, bb (val a) n x' = B0 + 2 * INR n.
  Proof. intros n. unfold bb, x'. ring. Qed.

  Lemma w_range : forall n, / 500 <= w n <= 10 ^ 10.
  Proof.
    intros n. split; [apply ww_ge; assumption|]. cbv beta. pose proof (ww_le G (val a) p HG Ha Hp n x' Hx) as W. pose proof (eps_K (val a) x' Ha Hx n) as K. unfold KK in K. simpl in *. lra.
  Qed.

  Lemma big_guard : forall d, fin d -> / 2 <= val d -> f64_lt (f64_abs d) (@FPMIN (ieee P)) = false.
  Proof.
    intros d Fd Hd. destruct (fpmin_facts P) as [F V]. assert (FA : fin (f64_abs d)) by (rewrite fin_abs; exact Fd).
    apply lt_false; [apply fin_nonnan, FA|apply fin_nonnan, F|]. rewrite V, (val_fin _ FA), B2R_abs, <- (val_fin _ Fd), Rabs_pos_eq by lra.
    apply Rle_trans with (bpow radix2 (-1)); [apply bpow_le; lia|]. simpl. lra.
  Qed.

  Definition Cinv (n : nat) (c : f64) : Prop :=
    fin c /\ match n with O => 10 ^ 35 <= val c | S _ => mr (519 * vv) (val c) (C n) end.
  Definition Inv (n : nat) (st : f64 * f64 * f64 * f64) : Prop :=
    let '(b, c, d, h) := st in
    Binv B0 n b /\ Cinv n c /\ (fin d /\ mr (520 * vv) (val d) (/ D n)) /\ (fin h /\ mr ((1041 * INR n + 1) * vv) (val h) (w n)).

  Lemma D_range : forall n, INR n <= 10000 -> 1 <= D n <= 50000.
  Proof. intros n Hn. pose proof (D_ge (val a) x' Ha Hx n) as [H _]. pose proof (D_size (val a) x' Ha Hx n Hx2 Hn). pose proof (pos_INR n). lra. Qed.
  Lemma C_range : forall n, INR (S n) <= 10000 -> 1 <= C (S n) <= 50000.
  Proof. intros n Hn. pose proof (C_ge (val a) x' Ha Hx n) as H. pose proof (C_size (val a) x' Ha Hx n Hx2 Hn). pose proof (pos_INR (S n)). lra. Qed.

  Lemma inv_range : forall y, 1 <= y <= 50000 -> / 50000 <= / y <= 1.
  Proof. intros y Hy. split; [apply Rinv_le_contravar; lra|rewrite <- Rinv_1; apply Rinv_le_contravar; lra]. Qed.

  Lemma tsmall : forall k, 0 <= k <= 10 ^ 8 -> 0 <= k * vv <= 1 / 1000.
  Proof. intros k Hk. unfold vv. simpl in Hk. lra. Qed.
  Lemma nearby : forall k v y, 0 <= k <= 10 ^ 8 -> mr (k * vv) v y -> 0 < y -> y / 2 <= v <= 2 * y.
  Proof.
    intros k v y Hk M Hy. pose proof (mr_near _ _ _ M (tsmall k Hk) Hy) as N. pose proof (tsmall k Hk) as T. set (t := k * vv) in *.
    assert (y * (1 / 2) <= y * (1 - 2 * t)) by (apply Rmult_le_compat_l; lra). assert (y * (1 + 2 * t) <= y * 2) by (apply Rmult_le_compat_l; lra). lra.
  Qed.

  (** new denominator *)
  Lemma d_step : forall n b d, INR n + 1 <= 10000 -> Binv B0 (S n) b -> fin d -> mr (520 * vv) (val d) (/ D n) ->
    let d1 := add (mul (anf P a (Z.of_nat (S n))) d) b in fin d1 /\ mr (519 * vv) (val d1) (D (S n)).
  Proof.
    intros n b d Hn HB Fd Md. destruct (anf_ok P a Fa Ha n Hn) as (FA & EA & SA). set (A := anf P a (Z.of_nat (S n))) in *. clearbody A. cbv zeta.
    pose proof (D_range n ltac:(lra)) as R0. pose proof (D_range (S n) ltac:(rewrite S_INR; lra)) as R1. pose proof (inv_range _ R0) as R2.
    pose proof (nearby 520 _ _ ltac:(simpl; lra) Md ltac:(lra)) as N. pose proof (pos_INR n) as I0.
    assert (Db : Rabs (val d) <= 2) by (rewrite Rabs_pos_eq; lra).
    assert (PM : Rabs (val A * val d) <= 2 * 10 ^ 8 * 2) by (rewrite Rabs_mult; apply Rmult_le_compat; try apply Rabs_pos; assumption).
    destruct (mul_fl P A d FA Fd) as [Fm Em]; [apply (below _ _ PM); simpl; lra|]. set (m := mul A d) in *. clearbody m.
    pose proof eta_22 as E22. pose proof eta_pos as E0.
    assert (BB0 : 0 < B0 + 2 * INR (S n)) by (unfold x' in Hx; rewrite S_INR; lra). pose proof (Binv_rel B0 (S n) b HB BB0) as RB.
    assert (Bb : Rabs (val b) <= 10 ^ 5).
    { assert (B0 + 2 * INR (S n) <= 30000) by (unfold x' in Hx2; rewrite S_INR; lra). replace (val b) with ((val b - (B0 + 2 * INR (S n))) + (B0 + 2 * INR (S n))) by ring.
      eapply Rle_trans; [apply Rabs_triang|]. rewrite (Rabs_pos_eq (B0 + _)) by lra. unfold uu in RB. cbn [pow]. lra. }
    assert (Mb : Rabs (val m) <= 10 ^ 9).
    { replace (val m) with ((val m - val A * val d) + val A * val d) by ring. eapply Rle_trans; [apply Rabs_triang|]. unfold uu in Em. simpl in *. lra. }
    destruct HB as (Fb & HB').
    destruct (add_fl P m b Fm Fb) as [Fs Es]; [apply (below _ (10 ^ 9 + 10 ^ 5)); [eapply Rle_trans; [apply Rabs_triang|lra]|simpl; lra]|].
    split; [exact Fs|]. set (s := add m b) in *. clearbody s.
    apply (core_den (an (val a) (S n)) (val A) (val d) (D n) (D (S n)) (bb (val a) (S n) x') (val b) (val m) (val s) (10 ^ 5 * eta)); try lra.
    all: first [exact (D_rec (val a) x' (proj1 Ha) Hx n)|apply D_rho; assumption|rewrite bb_eq; exact BB0|eapply Rle_trans; [exact EA|]; cbn [pow]; lra
               |exact Md|eapply Rle_trans; [exact Em|]; cbn [pow]; lra|rewrite bb_eq; exact RB|eapply Rle_trans; [exact Es|]; cbn [pow]; lra].
  Qed.

  Lemma c_step : forall n b c, INR n + 1 <= 10000 -> Binv B0 (S n) b -> Cinv n c ->
    let c1 := add b (div (anf P a (Z.of_nat (S n))) c) in fin c1 /\ mr (519 * vv) (val c1) (C (S n)).
  Proof.
    intros n b c Hn HB [Fc Mc]. destruct (anf_ok P a Fa Ha n Hn) as (FA & EA & SA). set (A := anf P a (Z.of_nat (S n))) in *. clearbody A. cbv zeta.
    pose proof (C_range n ltac:(rewrite S_INR; lra)) as R1. pose proof (pos_INR n) as I0.
    pose proof eta_22 as E22. pose proof eta_pos as E0.
    assert (BB0 : 0 < B0 + 2 * INR (S n)) by (unfold x' in Hx; rewrite S_INR; lra). pose proof (Binv_rel B0 (S n) b HB BB0) as RB.
    assert (Bb : Rabs (val b) <= 10 ^ 5).
    { assert (B0 + 2 * INR (S n) <= 30000) by (unfold x' in Hx2; rewrite S_INR; lra). replace (val b) with ((val b - (B0 + 2 * INR (S n))) + (B0 + 2 * INR (S n))) by ring.
      eapply Rle_trans; [apply Rabs_triang|]. rewrite (Rabs_pos_eq (B0 + _)) by lra. unfold uu in RB. cbn [pow]. lra. }
    destruct HB as (Fb & HB').
    destruct n as [|n].
    - assert (C0 : val c <> 0) by (simpl in Mc; lra).
      assert (QB : Rabs (val A / val c) <= / 10 ^ 25).
      { unfold Rdiv. rewrite Rabs_mult, (Rabs_pos_eq (/ val c)) by (left; apply Rinv_0_lt_compat; simpl in Mc; lra).
        apply Rle_trans with (2 * 10 ^ 8 * / 10 ^ 35); [|simpl; lra]. apply Rmult_le_compat; [apply Rabs_pos|left; apply Rinv_0_lt_compat; simpl in Mc; lra|exact SA|]. apply Rinv_le_contravar; [apply pow_lt; lra|exact Mc]. }
      destruct (div_fl P A c FA Fc C0) as [Fm Em]; [apply (below _ _ QB); simpl; lra|]. set (m := div A c) in *. clearbody m.
      assert (Mb : Rabs (val m) <= / 10 ^ 23).
      { replace (val m) with ((val m - val A / val c) + val A / val c) by ring. eapply Rle_trans; [apply Rabs_triang|]. unfold uu in Em. simpl in *. lra. }
      destruct (add_fl P b m Fb Fm) as [Fs Es]; [apply (below _ (10 ^ 5 + / 10 ^ 23)); [eapply Rle_trans; [apply Rabs_triang|lra]|simpl; lra]|].
      split; [exact Fs|]. set (s := add b m) in *. clearbody s.
      assert (EC : C 1 = bb (val a) 1 x') by (unfold GcfReal.C; cbn [AA]; field).
      apply (core_den 0 0 1 1 (C 1) (bb (val a) 1 x') (val b) (val m) (val s) (/ 10 ^ 22)); try lra.
      all: first [rewrite bb_eq; exact BB0|rewrite bb_eq; exact RB|rewrite Rabs_R0; lra|rewrite Rminus_0_r, Rabs_R0; cbn [pow]; lra
                 |rewrite Rinv_1; apply mr_weak with 0; [unfold vv; lra|]; apply mr_refl; lra
                 |rewrite !Rmult_0_l, Rminus_0_r, Rabs_R0; cbn [pow] in *; lra
                 |rewrite (Rplus_comm (val m)); eapply Rle_trans; [exact Es|]; cbn [pow] in *; lra].
    - pose proof (C_range n ltac:(lra)) as R0. pose proof (inv_range _ R0) as R2.
      pose proof (nearby 519 _ _ ltac:(simpl; lra) Mc ltac:(lra)) as N.
      assert (PM : Rabs (val A / val c) <= 2 * 10 ^ 8 * 2).
      { unfold Rdiv. rewrite Rabs_mult, (Rabs_pos_eq (/ val c)) by (left; apply Rinv_0_lt_compat; lra). apply Rmult_le_compat; [apply Rabs_pos|left; apply Rinv_0_lt_compat; lra|exact SA|].
        replace 2 with (/ / 2) by field. apply Rinv_le_contravar; lra. }
      destruct (div_fl P A c FA Fc ltac:(lra)) as [Fm Em]; [apply (below _ _ PM); simpl; lra|]. set (m := div A c) in *. clearbody m.
      assert (Mb : Rabs (val m) <= 10 ^ 9).
      { replace (val m) with ((val m - val A / val c) + val A / val c) by ring. eapply Rle_trans; [apply Rabs_triang|]. unfold uu in Em. simpl in *. lra. }
      destruct (add_fl P b m Fb Fm) as [Fs Es]; [apply (below _ (10 ^ 5 + 10 ^ 9)); [eapply Rle_trans; [apply Rabs_triang|lra]|simpl; lra]|].
      split; [exact Fs|]. set (s := add b m) in *. clearbody s.
      apply (core_den (an (val a) (S (S n))) (val A) (/ val c) (C (S n)) (C (S (S n))) (bb (val a) (S (S n)) x') (val b) (val m) (val s) (10 ^ 5 * eta)); try lra.
      all: first [exact (C_rec (val a) x' (proj1 Ha) Hx n)|apply C_rho; assumption|rewrite bb_eq; exact BB0|eapply Rle_trans; [exact EA|]; cbn [pow]; lra
                 |apply mr_weak with (519 * vv); [unfold vv; lra|]; apply mr_inv; [lra|exact Mc]
                 |eapply Rle_trans; [exact Em|]; unfold Rdiv; cbn [pow]; lra|rewrite bb_eq; exact RB
                 |rewrite (Rplus_comm (val m)); eapply Rle_trans; [exact Es|]; cbn [pow]; lra].
  Qed.

  Lemma test_core : forall del Cn Dn e s, 1 <= Cn -> 1 <= Dn -> 0 <= e <= / 10 ^ 22 -> mr (1040 * vv) del (Cn / Dn) -> Rabs (s - (del - 1)) <= uu * Rabs (del - 1) + e -> Rabs s < / 2 ^ 52 ->
    Rabs (1 - Dn / Cn) <= 1043 * vv.
  Proof.
    intros del Cn Dn e s HC HD He M Hs Hl.
    assert (H : Rabs (del - 1) <= 2001 / 1000 * vv).
    { assert (Rabs (del - 1) <= Rabs s + Rabs (s - (del - 1))) by (replace (del - 1) with (s - (s - (del - 1))) at 1 by ring; eapply Rle_trans; [apply Rabs_triang|]; rewrite Rabs_Ropp; lra).
      unfold uu, vv in *. simpl in *. lra. }
    assert (M1 : mr (2002 / 1000 * vv) del 1).
    { apply mr_weak with (2001 / 1000 * vv + 2 * (2001 / 1000 * vv * (2001 / 1000 * vv))); [unfold vv; lra|]. apply mr_of_rel; [unfold vv; lra|]. rewrite Rabs_R1. lra. }
    assert (M2 : mr (1040 * vv + 2002 / 1000 * vv) (Cn / Dn) 1) by (eapply mr_trans; [apply mr_sym; exact M|exact M1]).
    apply mr_inv in M2; [|lra]. rewrite Rinv_1 in M2. replace (/ (Cn / Dn)) with (Dn / Cn) in M2 by (field; lra).
    apply mr_abs in M2; [|unfold vv; lra]. rewrite Rabs_R1 in M2. rewrite Rabs_minus_sym. eapply Rle_trans; [exact M2|]. unfold vv. lra.
  Qed.

  Lemma inv_step : forall n st, INR n + 1 <= 10000 -> Inv n st ->
    exists st' f, @gcf_body (ieee P) a (Z.of_nat (S n)) st = (st', f) /\ Inv (S n) st' /\ (f = true -> Rabs (1 - D (S n) / C (S n)) <= 1043 * vv).
  Proof.
    intros n [[[b c] d] h] Hn (HB & HC & [Fd Md] & [Fh Mh]). pose proof (pos_INR n) as I0.
    assert (HB1 : Binv B0 (S n) (add b (f64_lit 2.0))) by (apply Binv_step; [exact HB|]; unfold x' in Hx2; simpl; lra).
    destruct (d_step n _ d Hn HB1 Fd Md) as [Fd1 Md1]. destruct (c_step n _ c Hn HB1 HC) as [Fc1 Mc1].
    pose proof (D_range (S n) ltac:(rewrite S_INR; lra)) as RD. pose proof (C_range n ltac:(rewrite S_INR; lra)) as RC.
    pose proof (nearby 519 _ _ ltac:(simpl; lra) Md1 ltac:(lra)) as Nd. pose proof (nearby 519 _ _ ltac:(simpl; lra) Mc1 ltac:(lra)) as Nc.
    pose proof (body_eq P a (Z.of_nat (S n)) b c d h) as BE. cbv zeta in BE. specialize (BE (big_guard _ Fd1 ltac:(lra)) (big_guard _ Fc1 ltac:(lra))).
    set (b' := add b (f64_lit 2.0)) in *. set (d1 := add (mul (anf P a (Z.of_nat (S n))) d) b') in *. set (c1 := add b' (div (anf P a (Z.of_nat (S n))) c)) in *.
    clearbody d1 c1.
    destruct (div_mr P (f64_lit 1.0) d1 fin_1 Fd1 ltac:(lra)) as [Fd' Md'].
    { rewrite val_1. apply rng. pose proof (Rinv_le_contravar (/ 2) (val d1) ltac:(lra) ltac:(lra)) as Z1. pose proof (Rinv_le_contravar (val d1) (100000) ltac:(lra) ltac:(lra)) as Z2.
      unfold Rdiv. rewrite Rmult_1_l. split; [apply Rle_trans with (/ 100000); [|exact Z2]; apply Rinv_le_contravar; [lra|simpl; lra]|]. eapply Rle_trans; [exact Z1|]. simpl; lra. }
    set (d' := div (f64_lit 1.0) d1) in *. clearbody d'. rewrite val_1 in Md'.
    assert (Md2 : mr (520 * vv) (val d') (/ D (S n))).
    { apply mr_weak with (vv + 519 * vv); [unfold vv; lra|]. eapply mr_trans; [exact Md'|]. unfold Rdiv. rewrite Rmult_1_l. apply mr_inv; [lra|exact Md1]. }
    pose proof (inv_range _ RD) as RI. pose proof (nearby 520 _ _ ltac:(simpl; lra) Md2 ltac:(lra)) as Nd'.
    assert (Q0 : / 100000 * / 2 <= val d' * val c1 <= 2 * 100000) by (split; apply Rmult_le_compat; lra).
    destruct (mul_mr P d' c1 Fd' Fc1) as [Fdel Mdel]; [apply rng; split; [eapply Rle_trans; [|apply Q0]; rewrite <- Rinv_mult; apply Rinv_le_contravar; [lra|simpl; lra]|eapply Rle_trans; [apply Q0|simpl; lra]]|].
    set (del := mul d' c1) in *. clearbody del.
    assert (Mdel2 : mr (1040 * vv) (val del) (C (S n) / D (S n))).
    { apply mr_weak with (vv + (519 * vv + 520 * vv)); [unfold vv; lra|]. eapply mr_trans; [exact Mdel|]. rewrite (Rmult_comm (val d')). unfold Rdiv. apply mr_mul; assumption. }
    assert (RQ : / 50000 <= C (S n) / D (S n) <= 50000).
    { replace (/ 50000) with (1 * / 50000) by lra. replace 50000 with (50000 * 1) at 2 by lra. unfold Rdiv. split; apply Rmult_le_compat; lra. }
    pose proof (nearby 1040 _ _ ltac:(simpl; lra) Mdel2 ltac:(lra)) as Ndel.
    pose proof (w_range n) as WR. cbv beta in WR. assert (HnK : 0 <= 1041 * INR n + 1 <= 10 ^ 8) by (simpl; lra).
    pose proof (nearby _ _ _ HnK Mh ltac:(lra)) as Nh. cbv beta in Nh.
    assert (Q1 : / 1000 * / 100000 <= val h * val del <= 2 * 10 ^ 10 * 100000) by (split; apply Rmult_le_compat; lra).
    destruct (mul_mr P h del Fh Fdel) as [Fh' Mh']; [apply rng; split; [eapply Rle_trans; [|apply Q1]; rewrite <- Rinv_mult; apply Rinv_le_contravar; [lra|simpl; lra]|eapply Rle_trans; [apply Q1|simpl; lra]]|].
    set (h' := mul h del) in *. clearbody h'.
    exists (b', c1, d', h'), (f64_lt (f64_abs (sub del (f64_lit 1.0))) (@epsilon (ieee P))). split; [exact BE|]. split.
    - split; [exact HB1|]. split; [split; [exact Fc1|exact Mc1]|]. split; [split; [exact Fd'|exact Md2]|]. split; [exact Fh'|].
      apply mr_weak with (vv + ((1041 * INR n + 1) * vv + 1040 * vv)); [rewrite S_INR; right; ring|]. eapply mr_trans; [exact Mh'|]. cbv beta. rewrite ww_S by assumption. apply mr_mul; assumption.
    - intros T. destruct eps_facts as [FE VE]. change (@epsilon (ieee (ideal true false))) with (@epsilon (ieee P)) in *.
      assert (Db : Rabs (val del - 1) <= 100001) by (apply Rabs_le; lra).
      destruct (sub_fl P del _ Fdel fin_1) as [Fs Es]; [rewrite val_1; apply (below _ _ Db); simpl; lra|]. rewrite val_1 in Es. set (s := sub del (f64_lit 1.0)) in *. clearbody s.
      assert (FS : fin (f64_abs s)) by (rewrite fin_abs; exact Fs). apply lt_true in T. destruct T as (_ & _ & T). rewrite VE, (val_fin _ FS), B2R_abs, <- (val_fin _ Fs) in T.
      pose proof eta_22 as E22. pose proof eta_pos as E0.
      apply (test_core (val del) (C (S n)) (D (S n)) eta (val s)); try assumption; try lra.
  Qed.

  Lemma gcf_loop : forall k n st, INR (n + k) <= 10000 -> Inv n st ->
    exists m b c d h f, for_break (count_from (Z.of_nat (S n)) k) (@gcf_body (ieee P) a) st = ((b, c, d, h), f) /\ INR m <= 10000 /\
      (fin h /\ mr ((1041 * INR m + 1) * vv) (val h) (w m)) /\ (m = (n + k)%nat \/ exists j, m = S j /\ Rabs (1 - D m / C m) <= 1043 * vv).
  Proof.
    induction k as [|k IH]; intros n st Hk HI.
    - destruct st as [[[b c] d] h]. destruct HI as (_ & _ & _ & HH). exists n, b, c, d, h, false. split; [reflexivity|]. split; [rewrite Nat.add_0_r in Hk; exact Hk|]. split; [exact HH|]. left. lia.
    - replace (n + S k)%nat with (S n + k)%nat in * by lia. assert (Hn : INR n + 1 <= 10000) by (rewrite plus_INR, S_INR in Hk; pose proof (pos_INR k); lra).
      cbn [count_from for_break]. destruct (inv_step n st Hn HI) as (st' & f & E & HI' & HF). rewrite E. destruct f.
      + destruct st' as [[[b c] d] h]. destruct HI' as (_ & _ & _ & HH). exists (S n), b, c, d, h, true. split; [reflexivity|]. split; [rewrite S_INR; exact Hn|]. split; [exact HH|].
        right. exists n. split; [reflexivity|apply HF; reflexivity].
      + replace (Z.of_nat (S n) + 1)%Z with (Z.of_nat (S (S n))) by lia. exact (IH (S n) st' Hk HI').
  Qed.

  Lemma gcf_h : forall k n st, INR (n + k) <= 10000 -> 4999 <= INR (n + k) -> Inv n st ->
    exists b c d h f, for_break (count_from (Z.of_nat (S n)) k) (@gcf_body (ieee P) a) st = ((b, c, d, h), f) /\ fin h /\ / 1000 <= val h <= 2 * 10 ^ 10 /\
      mr (13 / 10 ^ 10) (xa G (val a) x' * val h) (1 - p x').
  Proof.
    intros k n st Hk Hk2 HI. destruct (gcf_loop k n st Hk HI) as (m & b & c & d & h & f & E & Hm & [Fh Mh] & HS).
    exists b, c, d, h, f. split; [exact E|]. split; [exact Fh|]. pose proof (w_range m) as WR. cbv beta in WR. pose proof (pos_INR m) as M0. assert (HnK : 0 <= 1041 * INR m + 1 <= 10 ^ 8) by (simpl; lra).
    pose proof (nearby _ _ _ HnK Mh ltac:(lra)) as Nh. cbv beta in Nh. split; [lra|].
    assert (EB : (1041 * INR m + 1) * vv + Rabs (eps (val a) m x') <= 128 / 10 ^ 11).
    { destruct (Rle_lt_dec 4999 (INR m)) as [L|L].
      - pose proof (eps_late (val a) x' Ha Hx m L) as EL. assert ((1041 * INR m + 1) * vv <= (1041 * 10000 + 1) * vv) by (apply Rmult_le_compat_r; [unfold vv; lra|lra]). unfold vv in *. simpl in *. lra.
      - destruct HS as [->|(j & -> & HS)]; [lra|]. pose proof (stop_early G (val a) p HG Ha Hp j x' (1043 * vv) Hx) as SE. rewrite S_INR in *. specialize (SE ltac:(lra) ltac:(unfold vv; simpl; lra) HS).
        assert ((1041 * (INR j + 1) + 1) * vv <= (1041 * 5000 + 1) * vv) by (apply Rmult_le_compat_r; [unfold vv; lra|lra]). unfold vv in *. simpl in *. lra. }
    pose proof (trunc G (val a) p HG (proj1 Ha) Hp m x' Hx) as T. pose proof (Q_pos G (val a) p HG Ha Hp x' Hx) as Q0. set (e := Rabs (eps (val a) m x')) in *. assert (e0 : 0 <= e) by apply Rabs_pos.
    set (V := (1041 * INR m + 1) * vv) in *. assert (V0 : 0 <= V) by (apply Rmult_le_pos; [lra|unfold vv; lra]).
    assert (e1 : e <= 2 / 10 ^ 9) by (simpl in *; lra).
    assert (T2 : mr (e + 2 * (e * e)) (xa G (val a) x' * ww (val a) m x') (1 - p x')).
    { apply mr_of_rel; [split; [exact e0|simpl in *; lra]|]. rewrite (Rabs_pos_eq (1 - p x')) by lra. rewrite Rabs_minus_sym. exact T. }
    assert (EE : e * e <= e * (2 / 10 ^ 9)) by (apply Rmult_le_compat_l; assumption).
    apply mr_weak with ((0 + V) + (e + 2 * (e * e))); [simpl in *; lra|]. eapply mr_trans; [|exact T2]. apply mr_mul; [apply mr_refl; lra|exact Mh].
  Qed.
End Loop.
