(** * The accuracy of betai for b <= 1/2 and x <= 9/10 *)

From Coq Require Import ZArith Reals Bool Lra Lia List.
From Flocq Require Import Core IEEE754.BinarySingleNaN IEEE754.Binary IEEE754.Bits.
From Verif.Model Require Import Base Arith Utils Gamma Beta.
From Verif.Float Require Import Bits64 Ieee Exact Platforms.
From Verif.Spec Require Import F64Spec Outcome GammaSpec LibmSpec IncBetaSpec.
From Verif.Proofs Require Import F64 F64Ops Lits Ext ExpBounds Stirling FlErr GammaAcc LnGammaAcc LnGammaFl LnGammaThms BetaAcc GserAcc PosHorner GcfLoop GcfAcc IncGamma BetaCfBad BetaCfReal BetaCfTrunc BetaCfAcc BetaiLog BetaiBad ErfcxAcc GammaExists Ideal BetaExamples.
Import ListNotations.
Open Scope R_scope.
Local Notation exp := Rtrigo_def.exp.
Local Notation ln := Rpower.ln.

Lemma ln_bpow_eq : forall k : Z, ln (bpow radix2 k) = IZR k * ln 2.
Proof.
  assert (N : forall n : nat, ln (bpow radix2 (Z.of_nat n)) = IZR (Z.of_nat n) * ln 2).
  { induction n as [|n IH]; [simpl; rewrite ln_1; ring|]. replace (Z.of_nat (S n)) with (Z.of_nat n + 1)%Z by lia. rewrite bpow_plus, ln_mult, IH, plus_IZR; [|apply bpow_gt_0|apply bpow_gt_0]. change (bpow radix2 1) with 2. ring. }
  intros k. destruct (Z_le_gt_dec 0 k) as [H|H].
  - rewrite <- (Z2Nat.id k H). apply N.
  - replace k with (- Z.of_nat (Z.to_nat (- k)))%Z by lia. rewrite bpow_opp, ln_Rinv, N, opp_IZR by apply bpow_gt_0. ring.
Qed.

Lemma b997 : bpow radix2 (-997) = bpow radix2 (-990) * / 128.
Proof. exact (bpow_plus radix2 (-990) (-7)). Qed.
Lemma b998 : bpow radix2 (-998) = bpow radix2 (-997) * / 2.
Proof. exact (bpow_plus radix2 (-997) (-1)). Qed.
Lemma b1010 : bpow radix2 (-1010) = bpow radix2 (-998) * / 4096.
Proof. exact (bpow_plus radix2 (-998) (-12)). Qed.
Lemma b997_ln : ln (bpow radix2 (-997)) = - (997 * ln 2).
Proof. rewrite ln_bpow_eq. replace (IZR (-997)) with (- (997)) by lra. ring. Qed.

  Lemma tail_abs : forall r v J W t, mr t r v -> 0 <= t <= 456 / 10 ^ 11 - 4 / 10 ^ 10 -> (1 - 4 / 10 ^ 10) * J <= v <= J -> 0 <= J -> W = J -> Rabs (r - W) <= 5 / 10 ^ 9 * W.
  Proof.
    intros r v J W t M Ht Hv HJ ->. assert (V0 : 0 <= v) by (assert (0 <= (1 - 4 / 10 ^ 10) * J) by (apply Rmult_le_pos; lra); lra).
    apply mr_abs in M; [|lra]. rewrite (Rabs_pos_eq v) in M by lra. assert (TT : t * t <= 5 / 10 ^ 9 * t) by (apply Rmult_le_compat_r; lra).
    assert ((t + 2 * (t * t)) * v <= 42 / 10 ^ 10 * J). { apply Rmult_le_compat; try lra. assert (0 <= t * t) by (apply Rmult_le_pos; lra). lra. }
    apply Rabs_le_inv in M. apply Rabs_le. lra.
  Qed.

Section Core.
  Context (P : platform) (EX : accurate_exp (p_exp P)).

  Lemma bt_core : forall e L, fin e -> Rabs (val e - L) <= 25 / 10 ^ 10 -> - (997 * ln 2) <= L -> L <= 20 -> let bt := libm P (p_exp P) e in
    fin bt /\ mr (25 / 10 ^ 10 + 3 / 10 ^ 15) (val bt) (exp L) /\ bpow radix2 (-998) <= val bt <= 10 ^ 13.
  Proof.
    intros e L Fe Ee LL LU. assert (L2 : ln 2 <= 7 / 10) by apply ln2_up. pose proof ln_lt_2 as L3. pose proof (Rabs_le_inv _ _ Ee) as Ee'.
    destruct (EX e (fin_nonnan _ Fe) ltac:(lra)) as [NE QE]. cbv zeta. rewrite (libm_nonnan P (p_exp P) e (fin_nonnan _ Fe)).
    assert (ME : mr (3 / 10 ^ 15) (val (p_exp P e)) (exp (val e))).
    { assert (B50 : bpow radix2 (-50) <= 1 / 10 ^ 15) by (simpl; lra). apply mr_weak with (1 / 10 ^ 15 + 2 * (1 / 10 ^ 15 * (1 / 10 ^ 15))); [lra|]. apply mr_of_rel; [lra|]. pose proof (exp_pos (val e)) as X0. rewrite (Rabs_pos_eq (exp _)) by lra. eapply Rle_trans; [exact QE|]. apply Rmult_le_compat_r; lra. }
    assert (ME2 : mr (25 / 10 ^ 10) (exp (val e)) (exp L)). { exists (val e - L). split; [exact Ee|]. rewrite <- exp_plus. f_equal. lra. }
    pose proof (mr_trans _ _ _ _ _ ME ME2) as MT. clear ME ME2. apply (mr_weak _ (25 / 10 ^ 10 + 3 / 10 ^ 15)) in MT; [|lra].
    set (bt := p_exp P e) in *. clearbody bt.
    assert (BL : bpow radix2 (-997) <= exp L). { rewrite <- (exp_ln (bpow radix2 (-997))) by apply bpow_gt_0. apply exp_mono. rewrite b997_ln. exact LL. }
    assert (BU : exp L <= bpow radix2 40). { rewrite <- (exp_ln (bpow radix2 40)) by apply bpow_gt_0. apply exp_mono. rewrite ln_bpow_eq. lra. }
    assert (BU2 : bpow radix2 40 <= 2 * 10 ^ 12) by (simpl; lra). pose proof (bpow_gt_0 radix2 (-997)) as B0.
    pose proof (mr_near _ _ _ MT ltac:(lra) ltac:(lra)) as N. rewrite b998. set (y := exp L) in *. clearbody y. set (B1 := bpow radix2 (-997)) in *. set (B2 := bpow radix2 40) in *. clearbody B1 B2.
    assert (BT : B1 * / 2 <= val bt <= 10 ^ 13) by lra. split; [|split; assumption]. apply fin_iff_val; [exact NE|]. pose proof Om_big. rewrite Rabs_pos_eq by lra. lra.
  Qed.

  Lemma prod_core : forall bt h a L w, fin bt -> mr (25 / 10 ^ 10 + 3 / 10 ^ 15) (val bt) (exp L) -> bpow radix2 (-998) <= val bt <= 10 ^ 13 ->
    fin h -> mr (1485 * 10 ^ 4 * vv) (val h) w -> 1 <= w <= 10 -> fin a -> 1 / 2 <= val a <= 1000 ->
    let r := f64_div P (f64_mul P bt h) a in fin r /\ mr (416 / 10 ^ 11) (val r) (exp L * w / val a).
  Proof.
    intros bt h a L w Fb Mb Bb Fh Mh W Fa Ha. assert (V0 : 0 <= vv <= 2 / 10 ^ 16) by (unfold vv; lra).
    assert (HB : 1 / 2 <= val h <= 20). { pose proof (mr_near _ _ _ Mh ltac:(unfold vv; lra) ltac:(lra)) as N. assert (1 * (1 / 2) <= w * (1 - 2 * (1485 * 10 ^ 4 * vv))) by (apply Rmult_le_compat; unfold vv; lra). assert (w * (1 + 2 * (1485 * 10 ^ 4 * vv)) <= 10 * 2) by (apply Rmult_le_compat; unfold vv; lra). lra. }
    assert (S997 : bpow radix2 (-1022) <= bpow radix2 (-998) * / 4096). { rewrite <- b1010. apply bpow_le; lia. }
    assert (S23 : 10 ^ 20 <= bpow radix2 1023) by (apply Rle_trans with (bpow radix2 100); [simpl; lra|apply bpow_le; lia]).
    pose proof (bpow_gt_0 radix2 (-998)) as B8.
    set (B := bpow radix2 (-998)) in *. clearbody B. set (T := bpow radix2 (-1022)) in *. set (U := bpow radix2 1023) in *.
    assert (PH : B * (1 / 2) <= val bt * val h <= 10 ^ 13 * 20) by (split; apply Rmult_le_compat; lra).
    destruct (mul_mr P bt h Fb Fh) as [Fm Mm]. { fold T U. clearbody T U. rewrite Rabs_pos_eq by lra. lra. }
    pose proof (mr_near _ _ _ Mm ltac:(lra) ltac:(lra)) as Nm. cbv zeta. set (m := f64_mul P bt h) in *. clearbody m.
    assert (MB : B * (1 / 4) <= val m <= 10 ^ 15).
    { set (y := val bt * val h) in *. clearbody y. assert (y * (1 / 2) <= y * (1 - 2 * vv)) by (apply Rmult_le_compat_l; lra). assert (y * (1 + 2 * vv) <= y * 2) by (apply Rmult_le_compat_l; lra). lra. }
    assert (IA : 1 / 1000 <= / val a <= 2). { split; [replace (1 / 1000) with (/ 1000) by lra; apply Rinv_le_contravar; lra|replace 2 with (/ (1 / 2)) by field; apply Rinv_le_contravar; lra]. }
    assert (DB : B * (1 / 4) * (1 / 1000) <= val m / val a <= 10 ^ 15 * 2) by (split; apply Rmult_le_compat; lra).
    destruct (div_mr P m a Fm Fa ltac:(lra)) as [Fr Mr]. { fold T U. clearbody T U. rewrite Rabs_pos_eq by lra. lra. }
    assert (MA : mr 0 (val a) (val a)) by (apply mr_refl; lra).
    pose proof (mr_trans _ _ _ _ _ Mm (mr_mul _ _ _ _ _ _ Mb Mh)) as MM. pose proof (mr_trans _ _ _ _ _ Mr (mr_div _ _ _ _ _ _ MM MA ltac:(lra))) as MR.
    split; [exact Fr|]. eapply mr_weak; [|exact MR]. unfold vv. lra.
  Qed.
End Core.

Section Acc.
  Variable G : R -> R.
  Hypothesis HG : gamma_function G.
  Context (P : platform) (LN : accurate_ln (p_ln P)) (EX : accurate_exp (p_exp P)).
  Local Notation add := (f64_add P). Local Notation sub := (f64_sub P). Local Notation mul := (f64_mul P). Local Notation div := (f64_div P).
  Variables a b x : f64.
  Hypothesis Fa : fin a.
  Hypothesis Fb : fin b.
  Hypothesis Fx : fin x.
  Hypothesis Ha : 1 / 2 <= val a <= 1000.
  Hypothesis Hb : / 2 ^ 16 <= val b <= 1 / 2.
  Hypothesis Hx : / 2 ^ 60 <= val x <= 9 / 10.
  Variable I : R -> R.
  Hypothesis HI : reg_inc_beta G (val a) (val b) I.
  Hypothesis HV : bpow radix2 (-990) <= I (val x).
  Local Notation a' := (val a).
  Local Notation b' := (val b).
  Local Notation x' := (val x).
  Let Hb0 : 0 < b' <= 1 / 2. Proof. split; [|lra]. apply Rlt_le_trans with (/ 2 ^ 16); [|lra]. apply Rinv_0_lt_compat, pow_lt. lra. Qed.
  Let a0 : 0 < a'. Proof. lra. Qed.
  Let x0 : 0 < x' <= 9 / 10. Proof. split; [|lra]. apply Rlt_le_trans with (/ 2 ^ 60); [|lra]. apply Rinv_0_lt_compat, pow_lt. lra. Qed.

  (** the direct branch is taken *)
  Lemma takes_direct : f64_lt x (div (add a (f64_lit 1.0)) (add a (mul b (f64_lit 2.0)))) = true.
  Proof.
    assert (V0 : 0 <= vv <= 2 / 10 ^ 16) by (unfold vv; lra). assert (MA : mr 0 (val a) a') by (apply mr_refl; lra). assert (MB : mr 0 (val b) b') by (apply mr_refl; lra). assert (M1 : mr 0 (val (f64_lit 1.0)) 1) by (rewrite val_1; apply mr_refl; lra). assert (M2 : mr 0 (val (f64_lit 2.0)) 2) by (rewrite val_2; apply mr_refl; lra).
    assert (L98 : / 2 ^ 100 <= / 2 ^ 16) by (simpl; lra). assert (L97 : / 2 ^ 100 <= / 10) by (simpl; lra).
    destruct (add_p P a (f64_lit 1.0) 0 a' 1 Fa fin_1 MA M1 ltac:(lra) ltac:(lra) ltac:(lra)) as [F1 N1]; [apply (rx _ (/ 10) (10 ^ 6)); lra|].
    destruct (mul_k P b (f64_lit 2.0) 0 0 b' 2 Fb fin_2 MB M2 ltac:(lra)) as [F2 N2]; [rewrite Rabs_pos_eq by lra; apply (rx _ (/ 2 ^ 16) 10); lra|].
    destruct (add_p P a _ (0 + 0 + vv) a' (b' * 2) Fa F2 ltac:(eapply mr_weak; [|exact MA]; lra) N2 ltac:(lra) ltac:(lra) ltac:(lra)) as [F3 N3]; [apply (rx _ (/ 10) (10 ^ 6)); lra|].
    assert (Q : 1 <= (a' + 1) / (a' + b' * 2) <= 10 ^ 5) by (split; [apply quo_ge; lra|apply quo_le; lra]).
    destruct (div_k P _ _ _ _ _ _ F1 F3 N1 N3 ltac:(lra) ltac:(lra)) as [F4 N4]; [rewrite Rabs_pos_eq by lra; apply (rx _ 1 (10 ^ 6)); lra|].
    pose proof (mr_near _ _ _ N4 ltac:(lra) ltac:(lra)) as B. set (t := div _ _) in *. clearbody t. set (q := (a' + 1) / (a' + b' * 2)) in *. clearbody q.
    assert (1 * (1 - / 100) <= q * (1 - 2 * (0 + vv + (0 + 0 + vv + vv) + vv))) by (apply Rmult_le_compat; lra).
    apply lt_true. split; [apply fin_nonnan, Fx|]. split; [apply fin_nonnan, F4|]. lra.
  Qed.

  Definition bL : R := lG G (a' + b') - lG G a' - lG G b' + a' * ln x' + b' * ln (1 - x').
  Lemma bL_up : bL <= 20.
  Proof.
    assert (L11 : forall M, 1 / 2 <= M <= 1001 -> 0 <= ln (M + 2) <= 11). { intros M HM. split; [rewrite <- ln_1; apply ln_mono; lra|]. apply Rle_trans with (ln (bpow radix2 11)); [|apply ln_bpow; lia]. apply ln_mono; [lra|]. change (bpow radix2 11) with 2048. lra. }
    pose proof (lG_move G HG a' (a' + b') a0 ltac:(lra)) as M1. pose proof (lG_move G HG 1 (b' + 1) ltac:(lra) ltac:(lra)) as M2. pose proof (L11 (a' + b') ltac:(lra)) as L1. pose proof (L11 (b' + 1) ltac:(lra)) as L2.
    rewrite (lG_step G HG b' ltac:(lra)) in M2. assert (G1 : lG G 1 = 0) by (unfold lG; destruct HG as (_ & Q & _); rewrite Q; apply ln_1). rewrite G1 in M2.
    assert (LB : ln b' <= 0) by (rewrite <- ln_1; apply ln_mono; lra). assert (LX : ln x' <= 0) by (rewrite <- ln_1; apply ln_mono; lra). assert (LY : ln (1 - x') <= 0) by (rewrite <- ln_1; apply ln_mono; lra).
    assert (A2 : 2 / a' <= 4) by (apply quo_le; lra). assert (A3 : 0 <= 2 / a') by (apply quo_ge; lra).
    assert (B1 : (a' + b' - a') * (ln (a' + b' + 2) + 2 / a') <= 1 / 2 * 15) by (apply Rmult_le_compat; lra).
    assert (B2 : (b' + 1 - 1) * (ln (b' + 1 + 2) + 2 / 1) <= 1 / 2 * 13) by (apply Rmult_le_compat; lra).
    apply Rabs_le_inv in M1. apply Rabs_le_inv in M2. unfold bL.
    assert (0 <= a' * - ln x') by (apply Rmult_le_pos; lra). assert (0 <= b' * - ln (1 - x')) by (apply Rmult_le_pos; lra). lra.
  Qed.

  Definition KK : R := G (a' + b') / (G a' * G b').
  Lemma KK_pos : 0 < KK.
  Proof. pose proof (G_pos G HG a' a0). pose proof (G_pos G HG b' ltac:(lra)). pose proof (G_pos G HG (a' + b') ltac:(lra)). apply Rdiv_lt_0_compat; [assumption|apply Rmult_lt_0_compat; assumption]. Qed.
  Lemma KW : forall n, KK / a' * cW a' b' n x' = exp bL * cw a' b' x' n / a'.
  Proof.
    intros n. pose proof (G_pos G HG a' a0) as GA. pose proof (G_pos G HG b' ltac:(lra)) as GB. pose proof (G_pos G HG (a' + b') ltac:(lra)) as GS.
    unfold bL, cW, KK, Rpower, lG. set (p := a' * ln x'). set (q := b' * ln (1 - x')).
    replace (ln (G (a' + b')) - ln (G a') - ln (G b') + p + q) with (ln (G (a' + b')) + - ln (G a') + - ln (G b') + p + q) by ring.
    rewrite !exp_plus, !exp_Ropp, !exp_ln by assumption. field. lra.
  Qed.
  Lemma sandwich : forall n, ceps a' b' n x' <= 4 / 10 ^ 10 -> (1 - 4 / 10 ^ 10) * I x' <= exp bL * cw a' b' x' n / a' <= I x'.
  Proof.
    intros n Hn. destruct HI as [D V]. pose proof KK_pos as K0.
    pose proof (ctrunc a' b' a0 Hb0 KK I K0 D V n x' ltac:(lra)) as T. rewrite KW in T. pose proof (bpow_gt_0 radix2 (-990)) as B0.
    assert (ceps a' b' n x' * I x' <= 4 / 10 ^ 10 * I x') by (apply Rmult_le_compat_r; lra). lra.
  Qed.

  Lemma bL_low : forall n, ceps a' b' n x' <= 4 / 10 ^ 10 -> - (997 * ln 2) <= bL.
  Proof.
    intros n Hn. pose proof (sandwich n Hn) as SW. pose proof (cw10 a' b' x' Ha Hb0 Hx n) as W. rewrite <- b997_ln, <- (ln_exp bL). apply ln_mono; [apply bpow_gt_0|]. rewrite b997.
    pose proof (bpow_gt_0 radix2 (-990)) as B0. pose proof (exp_pos bL) as E0. set (B := bpow radix2 (-990)) in *. clearbody B. set (L := bL) in *. clearbody L.
    assert (Q : exp L * cw a' b' x' n / a' <= exp L * 20). { unfold Rdiv. rewrite Rmult_assoc. apply Rmult_le_compat_l; [lra|]. apply quo_le; [exact a0|]. lra. } lra.
  Qed.

  Lemma bt_mr : forall n, ceps a' b' n x' <= 4 / 10 ^ 10 -> let bt := libm P (p_exp P) (bt_exp P a b x) in
    fin bt /\ mr (25 / 10 ^ 10 + 3 / 10 ^ 15) (val bt) (exp bL) /\ bpow radix2 (-998) <= val bt <= 10 ^ 13.
  Proof.
    intros n Hn. pose proof bL_up as LU. pose proof (bL_low n Hn) as LL. assert (E53 : / 2 ^ 53 <= / 10) by (simpl; lra).
    destruct (bt_log G HG P LN a b x Fa Fb Fx ltac:(simpl; lra) ltac:(lra) ltac:(lra)) as [Fe Ee]. fold bL in Ee.
    exact (bt_core P EX _ _ Fe Ee LL LU).
  Qed.

  Theorem betai_acc_val : exists r, @betai (ieee P) a b x = Ok r /\ fin r /\ Rabs (val r - I x') <= 5 / 10 ^ 9 * I x'.
  Proof.
    destruct (betacf_acc P a b x Fa Fb Fx Ha Hb Hx) as (n & Fh & Mh & Hn). pose proof (sandwich n Hn) as SW. pose proof (cw10 a' b' x' Ha Hb0 Hx n) as W.
    destruct (bt_mr n Hn) as (Fbt & Mbt & Bbt). pose proof (bpow_gt_0 radix2 (-990)) as B0.
    destruct (prod_core P _ _ a bL (cw a' b' x' n) Fbt Mbt Bbt Fh Mh W Fa Ha) as [Fr Mr].
    eexists. split; [exact (betai_direct P a b x Fa Fb Fx ltac:(lra) ltac:(lra) ltac:(lra) takes_direct)|]. split; [exact Fr|].
    apply (tail_abs _ _ (I x') _ _ Mr); [lra|exact SW|lra|reflexivity].
  Qed.
End Acc.

Theorem betai_accurate : forall G : R -> R, gamma_function G -> forall (P : platform) (a b x : f64) (I : R -> R), accurate_ln (p_ln P) -> accurate_exp (p_exp P) ->
  finite a -> finite b -> finite x -> 1 / 2 <= Binary.B2R a <= 1000 -> / 2 ^ 16 <= Binary.B2R b <= 1 / 2 -> / 2 ^ 60 <= Binary.B2R x <= 9 / 10 ->
  reg_inc_beta G (Binary.B2R a) (Binary.B2R b) I -> bpow radix2 (-990) <= I (Binary.B2R x) ->
  exists r, @betai (ieee P) a b x = Ok r /\ finite r /\ Rabs (Binary.B2R r - I (Binary.B2R x)) <= 5 / 10 ^ 9 * I (Binary.B2R x).
Proof.
  intros G HG P a b x I LN EX Fa Fb Fx Ha Hb Hx HI HV. rewrite <- (val_fin a Fa) in *. rewrite <- (val_fin b Fb) in *. rewrite <- (val_fin x Fx) in *.
  destruct (betai_acc_val G HG P LN EX a b x Fa Fb Fx Ha Hb Hx I HI HV) as (r & E & Fr & B). exists r. split; [exact E|]. split; [exact Fr|]. rewrite <- (val_fin r Fr). exact B.
Qed.

Lemma ex_betai_acc : accurate_ln (p_ln (ideal true false)) /\ accurate_exp (p_exp (ideal true false)) /\
  exists G I (a b x : f64), gamma_function G /\ finite a /\ finite b /\ finite x /\ 1 / 2 <= Binary.B2R a <= 1000 /\ / 2 ^ 16 <= Binary.B2R b <= 1 / 2 /\ / 2 ^ 60 <= Binary.B2R x <= 9 / 10 /\
    reg_inc_beta G (Binary.B2R a) (Binary.B2R b) I /\ bpow radix2 (-990) <= I (Binary.B2R x).
Proof.
  split; [apply ideal_ln_accurate|]. split; [apply ideal_exp_accurate|].
  destruct (consts (ideal true false)) as (Fh & Vh & _). rewrite (val_fin _ Fh) in Vh. pose proof val_1 as V1. rewrite (val_fin _ fin_1) in V1.
  exists GG, (fun x => 1 - R_sqrt.sqrt (1 - x)), (f64_lit 1.0), (f64_lit 0.5), (f64_lit 0.5). rewrite V1, Vh.
  split; [exact gamma_exists|]. split; [exact fin_1|]. split; [exact Fh|]. split; [exact Fh|]. split; [lra|]. split; [simpl; lra|]. split; [simpl; lra|]. split; [exact (reg_half_exists GG gamma_exists)|].
  apply Rle_trans with (bpow radix2 (-10)); [apply bpow_le; lia|]. pose proof (sqrt_sqrt (1 - 1 / 2) ltac:(lra)) as Q. pose proof (sqrt_pos (1 - 1 / 2)) as Q0. change (bpow radix2 (-10)) with (/ 1024).
  apply Rnot_lt_le. intros H. assert (99 / 100 * (99 / 100) <= R_sqrt.sqrt (1 - 1 / 2) * R_sqrt.sqrt (1 - 1 / 2)) by (apply Rmult_le_compat; lra). lra.
Qed.
