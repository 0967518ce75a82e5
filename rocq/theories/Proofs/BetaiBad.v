(** * betai next to x = 1, for a = 1 and b = 1/2 *)

From Coq Require Import ZArith Reals Bool Lra Lia List.
From Flocq Require Import Core IEEE754.BinarySingleNaN IEEE754.Binary IEEE754.Bits.
From Verif.Model Require Import Base Arith Utils Gamma Beta.
From Verif.Float Require Import Bits64 Ieee Exact Platforms.
From Verif.Spec Require Import F64Spec Outcome GammaSpec LibmSpec IncBetaSpec.
From Verif.Proofs Require Import F64 F64Ops Lits Ext ExpBounds Stirling FlErr GammaAcc GammaExists LnGammaAcc LnGammaFl LnGammaThms BetaAcc GserAcc GcfThms Ideal BetaExamples ErfcxAcc BetaCfBad BetaiLog.
Import ListNotations.
Open Scope R_scope.
Local Notation exp := Rtrigo_def.exp.
Local Notation ln := Rpower.ln.
Local Notation sqrt := R_sqrt.sqrt.

(** ** Evaluation of the outer function *)

Lemma below_one : forall x : f64, fin x -> val x < 1 -> val x <= 1 - / 2 ^ 53.
Proof.
  intros x Fx H. rewrite (val_fin x Fx) in *.
  assert (E : pred radix2 (SpecFloat.fexp 53 1024) 1 = 1 - / 2 ^ 53).
  { change 1 with (bpow radix2 0) at 1. rewrite pred_bpow. replace (/ 2 ^ 53) with (bpow radix2 (-53)) by (simpl; lra). reflexivity. }
  rewrite <- E. apply pred_ge_gt.
  - apply FLT_exp_valid. reflexivity.
  - apply generic_format_B2R.
  - replace 1 with (bpow radix2 0) by reflexivity. apply generic_format_bpow. unfold SpecFloat.fexp, SpecFloat.emin. simpl. lia.
  - exact H.
Qed.

Lemma betai_split : forall P a b x, fin a -> fin b -> fin x -> 0 < val a <= 3000 -> 0 < val b -> 0 < val x < 1 ->
  @betai (ieee P) a b x =
    (let bt := libm P (p_exp P) (bt_exp P a b x) in
     if f64_lt x (f64_div P (f64_add P a (f64_lit 1.0)) (f64_add P a (f64_mul P b (f64_lit 2.0))))
     then Ok (f64_div P (f64_mul P bt (@betacf (ieee P) a b x)) a)
     else Ok (f64_sub P (f64_lit 1.0) (f64_div P (f64_mul P bt (@betacf (ieee P) b a (f64_sub P (f64_lit 1.0) x))) b))).
Proof.
  intros P a b x Fa Fb Fx Ha Hb Hx. unfold betai.
  change (@Arith.lt (ieee P)) with f64_lt. change (@Arith.le (ieee P)) with f64_le. change (@lit (ieee P)) with f64_lit.
  change (@Arith.eq (ieee P)) with f64_eq. change (@of_int (ieee P)) with f64_of_Z.
  pose proof (fin_nonnan _ Fa) as Na. pose proof (fin_nonnan _ Fb) as Nb. pose proof (fin_nonnan _ Fx) as Nx.
  assert (C1 : f64_lt (f64_lit 0.0) a = true) by (apply pos_true; split; [exact Na|lra]).
  assert (C2 : f64_lt (f64_lit 0.0) b = true) by (apply pos_true; split; [exact Nb|lra]).
  assert (C3 : f64_le (f64_lit 0.0) x = true) by (apply nonneg_true; split; [exact Nx|lra]).
  assert (C4 : f64_le x (f64_lit 1.0) = true) by (apply le_true; split; [exact Nx|split; [apply nn_1|rewrite val_1; lra]]).
  assert (C5 : f64_eq x (f64_lit 0.0) = false) by (apply eq_false; [exact Nx|apply nn_0|rewrite val_0; lra]).
  assert (C6 : f64_eq x (f64_lit 1.0) = false) by (apply eq_false; [exact Nx|apply nn_1|rewrite val_1; lra]).
  destruct (of_Z_exact 3000 ltac:(lia)) as [F3 V3].
  assert (C7 : f64_lt (f64_of_Z 3000) a = false) by (apply lt_false; [apply fin_nonnan; exact F3|exact Na|rewrite (val_fin _ F3); lra]).
  rewrite C1, C2, C3, C4, C5, C6, C7. cbn [andb orb negb]. unfold bt_exp. cbv zeta. ieee_simpl. reflexivity.
Qed.

Lemma betai_direct : forall P a b x, fin a -> fin b -> fin x -> 0 < val a <= 3000 -> 0 < val b -> 0 < val x < 1 ->
  f64_lt x (f64_div P (f64_add P a (f64_lit 1.0)) (f64_add P a (f64_mul P b (f64_lit 2.0)))) = true ->
  @betai (ieee P) a b x = Ok (f64_div P (f64_mul P (libm P (p_exp P) (bt_exp P a b x)) (@betacf (ieee P) a b x)) a).
Proof. intros P a b x Fa Fb Fx Ha Hb Hx L. rewrite (betai_split P a b x Fa Fb Fx Ha Hb Hx). cbv zeta. rewrite L. reflexivity. Qed.

Lemma betai_reflected : forall P a b x, fin a -> fin b -> fin x -> 0 < val a <= 3000 -> 0 < val b -> 0 < val x < 1 ->
  f64_lt x (f64_div P (f64_add P a (f64_lit 1.0)) (f64_add P a (f64_mul P b (f64_lit 2.0)))) = false ->
  @betai (ieee P) a b x = Ok (f64_sub P (f64_lit 1.0) (f64_div P (f64_mul P (libm P (p_exp P) (bt_exp P a b x)) (@betacf (ieee P) b a (f64_sub P (f64_lit 1.0) x))) b)).
Proof. intros P a b x Fa Fb Fx Ha Hb Hx L. rewrite (betai_split P a b x Fa Fb Fx Ha Hb Hx). cbv zeta. rewrite L. reflexivity. Qed.

Section Bad.
  Variable G : R -> R.
  Hypothesis HG : gamma_function G.
  Context (P : platform) (LN : accurate_ln (p_ln P)) (EX : accurate_exp (p_exp P)).

  Lemma threshold_one : let t := f64_div P (f64_add P (f64_lit 1.0) (f64_lit 1.0)) (f64_add P (f64_lit 1.0) (f64_mul P (f64_lit 0.5) (f64_lit 2.0))) in fin t /\ val t = 1.
  Proof.
    cbv zeta. destruct (consts P) as (Fh & Vh & _ & _ & [Ft Vt]).
    pose proof (mul_spec P _ _ Fh fin_2) as S1. rewrite <- (val_fin _ fin_2), val_2, <- (val_fin _ Fh), Vh in S1. replace (1 / 2 * 2) with (IZR 2 / 2) in S1 by lra. destruct (exact_half _ 2 ltac:(lia) S1) as [F1 V1].
    set (m := f64_mul P (f64_lit 0.5) (f64_lit 2.0)) in *. clearbody m.
    pose proof (add_spec P _ _ fin_1 F1) as S2. rewrite <- (val_fin _ fin_1), val_1, <- (val_fin _ F1), V1 in S2. replace (1 + IZR 2 / 2) with (IZR 4 / 2) in S2 by lra. destruct (exact_half _ 4 ltac:(lia) S2) as [F2 V2].
    set (n := f64_add P (f64_lit 1.0) m) in *. clearbody n. set (o := f64_add P (f64_lit 1.0) (f64_lit 1.0)) in *. clearbody o.
    assert (NZ : Binary.B2R n <> 0) by (rewrite <- (val_fin _ F2), V2; lra).
    pose proof (div_spec P _ _ Ft F2 NZ) as S3. rewrite <- (val_fin _ Ft), Vt, <- (val_fin _ F2), V2 in S3. replace (2 / (IZR 4 / 2)) with (IZR 2 / 2) in S3 by field. destruct (exact_half _ 2 ltac:(lia) S3) as [F3 V3].
    split; [exact F3|rewrite V3; lra].
  Qed.

  Lemma bt_small : forall x, fin x -> 1 - bpow radix2 (-40) <= val x <= 1 - / 2 ^ 53 ->
    let bt := libm P (p_exp P) (bt_exp P (f64_lit 1.0) (f64_lit 0.5) x) in fin bt /\ 0 <= val bt <= 47684 / 10 ^ 11.
  Proof.
    intros x Fx Hx bt. destruct (consts P) as (Fh & Vh & _). replace (bpow radix2 (-40)) with (/ 2 ^ 40) in Hx by (simpl; lra).
    destruct (bt_log G HG P LN (f64_lit 1.0) (f64_lit 0.5) x fin_1 Fh Fx) as [Fe Ee]; try rewrite val_1; try rewrite Vh; try lra.
    rewrite val_1, Vh in Ee. unfold bt. set (e := bt_exp P (f64_lit 1.0) (f64_lit 0.5) x) in *. clearbody e. clear bt.
    assert (LS : lG G (1 + 1 / 2) - lG G 1 - lG G (1 / 2) = - ln 2).
    { replace (1 + 1 / 2) with (1 / 2 + 1) by ring. rewrite (lG_step G HG (1 / 2)) by lra. unfold lG at 2. destruct HG as (_ & G1 & _). rewrite G1, ln_1. replace (1 / 2) with (/ 2) at 2 by lra. rewrite ln_Rinv by lra. ring. }
    rewrite LS in Ee. pose proof (ln_60 (val x) ltac:(lra)) as LX. pose proof (ln_60 (1 - val x) ltac:(lra)) as LY.
    assert (LU : ln (1 - val x) <= - (40 * ln 2)).
    { apply Rle_trans with (ln (/ 2 ^ 40)); [apply ln_mono; lra|]. rewrite ln_Rinv by lra. rewrite ln_pow by lra. replace (INR 40) with 40 by (simpl; lra). lra. }
    assert (L2 : 1 / 2 <= ln 2 <= 7 / 10) by (pose proof ln2_up; pose proof ln_lt_2; lra).
    apply Rabs_le_inv in Ee. assert (EU : val e <= - (21 * ln 2) + 25 / 10 ^ 10) by lra. assert (EL : -64 <= val e) by lra. clear Ee LX LY LU LS.
    destruct (EX e (fin_nonnan _ Fe) ltac:(lra)) as [N R]. rewrite libm_nonnan by (apply fin_nonnan; exact Fe).
    set (q := p_exp P e) in *. clearbody q. replace (bpow radix2 (-50)) with (/ 2 ^ 50) in R by (simpl; lra).
    assert (XU : exp (val e) <= / 2 ^ 21 * (1 / (1 - 25 / 10 ^ 10))).
    { eapply Rle_trans; [apply exp_mono, EU|]. rewrite exp_plus. replace (- (21 * ln 2)) with (ln (/ 2 ^ 21)) by (rewrite ln_Rinv by lra; rewrite ln_pow by lra; replace (INR 21) with 21 by (simpl; lra); lra). rewrite exp_ln by (apply Rinv_0_lt_compat; lra).
      apply Rmult_le_compat_l; [lra|]. pose proof (exp_ineq1_le (- (25 / 10 ^ 10))) as E1. rewrite exp_Ropp in E1. pose proof (exp_pos (25 / 10 ^ 10)) as E0.
      unfold Rdiv at 2. rewrite Rmult_1_l. rewrite <- (Rinv_inv (exp (25 / 10 ^ 10))). apply Rinv_le_contravar; lra. }
    pose proof (exp_pos (val e)) as X0. apply Rabs_le_inv in R.
    assert (B : 0 <= val q <= 47684 / 10 ^ 11) by lra. split; [|exact B].
    apply fin_iff_val; [exact N|]. pose proof Om_big. rewrite Rabs_pos_eq; lra.
  Qed.

  Lemma bad_tail : forall bt cf, fin bt -> 0 <= val bt <= 47684 / 10 ^ 11 -> fin cf -> 0 <= val cf <= 40100 ->
    fin (f64_div P (f64_mul P bt cf) (f64_lit 1.0)) /\ Rabs (val (f64_div P (f64_mul P bt cf) (f64_lit 1.0))) <= 1 / 50.
  Proof.
    intros bt cf Fb Hb Fc Hc.
    assert (PB : 0 <= val bt * val cf <= 47684 / 10 ^ 11 * 40100) by (split; [apply Rmult_le_pos; lra|apply Rmult_le_compat; lra]).
    pose proof eta_small as ES. pose proof eta_pos as EP. assert (ET : / 10 ^ 100 <= / 10 ^ 2) by (apply Rinv_le_contravar; [apply pow_lt; lra|apply Rle_pow; [lra|lia]]). pose proof tiny_20 as T20.
    destruct (mul_fl P bt cf Fb Fc) as [Fm Em]; [apply (bpow_le_1000 _ 1); [lia|]; change (bpow radix2 1) with 2; rewrite Rabs_pos_eq; lra|].
    rewrite (Rabs_pos_eq (val bt * val cf)) in Em by lra. set (m := f64_mul P bt cf) in *. clearbody m.
    assert (Bm : Rabs (val m) <= 1913 / 10 ^ 5) by (unfold uu in Em; apply Rabs_le_inv in Em; apply Rabs_le; lra).
    destruct (div_fl P m (f64_lit 1.0) Fm fin_1) as [Fr Er]; try (rewrite ?val_1; lra). { rewrite val_1. unfold Rdiv. rewrite Rinv_1, Rmult_1_r. apply (bpow_le_1000 _ 1); [lia|]; change (bpow radix2 1) with 2; lra. }
    split; [exact Fr|]. rewrite val_1 in Er. replace (val m / 1) with (val m) in Er by field. unfold uu in Er. set (q := f64_div P m (f64_lit 1.0)) in *. clearbody q. clear ES ET EP.
    assert (E2 : Rabs (val q - val m) <= 1 / 10 ^ 4) by (pose proof eta_small; lra). apply Rabs_le_inv in E2. apply Rabs_le_inv in Bm. apply Rabs_le. lra.
  Qed.

  Lemma betai_bad : forall x, fin x -> 1 - bpow radix2 (-40) <= val x < 1 ->
    exists r, @betai (ieee P) (f64_lit 1.0) (f64_lit 0.5) x = Ok r /\ fin r /\ Rabs (val r) <= 1 / 50.
  Proof.
    intros x Fx Hx. pose proof (below_one x Fx (proj2 Hx)) as Hx1. destruct (consts P) as (Fh & Vh & _).
    assert (B40 : bpow radix2 (-40) <= 1 / 2) by (simpl; lra).
    pose proof (bt_small x Fx (conj (proj1 Hx) Hx1)) as HB. cbv zeta in HB. 
    destruct (betacf_small P x Fx (conj (proj1 Hx) (Rlt_le _ _ (proj2 Hx)))) as [Fc Hc]. destruct threshold_one as [Ft Vt].
    assert (A1 : 0 < val (f64_lit 1.0) <= 3000) by (rewrite val_1; lra). assert (A2 : 0 < val (f64_lit 0.5)) by (rewrite Vh; lra). assert (A3 : 0 < val x < 1) by lra.
    assert (LT : f64_lt x (f64_div P (f64_add P (f64_lit 1.0) (f64_lit 1.0)) (f64_add P (f64_lit 1.0) (f64_mul P (f64_lit 0.5) (f64_lit 2.0)))) = true).
    { apply lt_true. split; [apply fin_nonnan, Fx|split; [apply fin_nonnan, Ft|rewrite Vt; exact (proj2 Hx)]]. }
    pose proof (bad_tail _ _ (proj1 HB) (proj2 HB) Fc Hc) as T.
    eexists. split; [exact (betai_direct P _ _ x fin_1 Fh Fx A1 A2 A3 LT)|exact T].
  Qed.

  (** ** The exact value *)

  Lemma reg_half : forall I, reg_inc_beta G 1 (1 / 2) I -> forall x, 0 < x < 1 -> I x = 1 - sqrt (1 - x).
  Proof.
    intros I [HD HL] x Hx.
    set (D := fun y => I y - (1 - sqrt (1 - y))).
    assert (DD : forall y, 0 < y < 1 -> derivable_pt_lim D y 0).
    { intros y Hy. pose proof (HD y Hy) as D1.
      assert (S0 : 0 < sqrt (1 - y)) by (apply sqrt_lt_R0; lra).
      assert (K : G (1 + 1 / 2) / (G 1 * G (1 / 2)) * (Rpower y (1 - 1) * Rpower (1 - y) (1 / 2 - 1)) = / (2 * sqrt (1 - y))).
      { pose proof (G_pos G HG (1 / 2) ltac:(lra)) as GP. replace (1 + 1 / 2) with (1 / 2 + 1) by ring. rewrite (G_step G HG (1 / 2)) by lra. destruct HG as (_ & G1 & _). rewrite G1.
        replace (1 - 1) with 0 by ring. rewrite Rpower_O by lra. replace (1 / 2 - 1) with (- / 2) by lra. rewrite Rpower_Ropp, Rpower_sqrt by lra. field. lra. }
      rewrite K in D1. clear K.
      assert (D2 : derivable_pt_lim (fun y => 1 - sqrt (1 - y)) y (/ (2 * sqrt (1 - y)))).
      { replace (/ (2 * sqrt (1 - y))) with (0 - / (2 * sqrt (1 - y)) * (0 - 1)) by ring.
        apply (derivable_pt_lim_minus (fun _ => 1) (fun y => sqrt (1 - y))); [apply derivable_pt_lim_const|].
        apply (derivable_pt_lim_comp (fun y => 1 - y) sqrt); [|apply derivable_pt_lim_sqrt; lra].
        apply (derivable_pt_lim_minus (fun _ => 1) (fun y => y)); [apply derivable_pt_lim_const|apply derivable_pt_lim_id]. }
      replace 0 with (/ (2 * sqrt (1 - y)) - / (2 * sqrt (1 - y))) by ring. exact (derivable_pt_lim_minus I _ y _ _ D1 D2). }
    assert (CST : forall u, 0 < u < x -> D u = D x).
    { intros u Hu. destruct (MVT_cor2 D (fun _ => 0) u x ltac:(lra)) as (c & E & _); [intros c Hc; apply DD; lra|]. lra. }
    assert (Z : D x = 0).
    { apply cond_eq. intros eps He. rewrite Rminus_0_r. destruct (HL (eps / 3) ltac:(lra)) as (d & Hd & B).
      set (u := Rmin (d / 2) (Rmin (x / 2) (eps / 3))).
      assert (U : 0 < u /\ u < d /\ u < x /\ u <= eps / 3). { unfold u. repeat split. - repeat apply Rmin_glb_lt; lra. - eapply Rle_lt_trans; [apply Rmin_l|lra]. - eapply Rle_lt_trans; [apply Rmin_r|]. eapply Rle_lt_trans; [apply Rmin_l|lra]. - eapply Rle_trans; [apply Rmin_r|apply Rmin_r]. }
      destruct U as (U0 & U1 & U2 & U3). clearbody u. rewrite <- (CST u ltac:(lra)). unfold D.
      pose proof (B u ltac:(lra)) as BI.
      assert (S1 : 0 <= 1 - sqrt (1 - u) <= u).
      { assert (Q1 : sqrt (1 - u) <= 1) by (apply Rle_trans with (sqrt 1); [apply sqrt_le_1; lra|rewrite sqrt_1; lra]). split; [lra|]. assert (Q0 : 0 <= sqrt (1 - u)) by apply sqrt_pos. pose proof (sqrt_sqrt (1 - u) ltac:(lra)) as Q. assert (sqrt (1 - u) * sqrt (1 - u) <= 1 * sqrt (1 - u)) by (apply Rmult_le_compat_r; lra). lra. }
      apply Rabs_le_inv in BI. apply Rabs_lt. lra. }
    unfold D in Z. lra.
  Qed.

  Lemma reg_near_one : forall I, reg_inc_beta G 1 (1 / 2) I -> forall x, 1 - bpow radix2 (-40) <= x < 1 -> 1 - bpow radix2 (-20) <= I x.
  Proof.
    intros I HI x Hx. assert (B : bpow radix2 (-40) = bpow radix2 (-20) * bpow radix2 (-20)) by (rewrite <- bpow_plus; reflexivity).
    assert (B40 : bpow radix2 (-40) <= 1 / 2) by (simpl; lra).
    rewrite (reg_half I HI x) by lra. apply Rplus_le_compat_l, Ropp_le_contravar. rewrite <- (sqrt_square (bpow radix2 (-20))) by apply bpow_ge_0. rewrite <- B. apply sqrt_le_1; lra.
  Qed.
End Bad.

Theorem betai_near_one : forall G : R -> R, gamma_function G -> forall I, reg_inc_beta G 1 (1 / 2) I ->
  forall (P : platform) (x : f64), accurate_ln (p_ln P) -> accurate_exp (p_exp P) -> finite x -> 1 - bpow radix2 (-40) <= Binary.B2R x < 1 ->
  1 - bpow radix2 (-20) <= I (Binary.B2R x) /\
  exists r, @betai (ieee P) (f64_lit 1.0) (f64_lit 0.5) x = Ok r /\ finite r /\ Rabs (Binary.B2R r) <= 1 / 50.
Proof.
  intros G HG I HI P x LN EX Fx Hx. split; [exact (reg_near_one G HG I HI _ Hx)|]. rewrite <- (val_fin x Fx) in Hx.
  destruct (betai_bad G HG P LN EX x Fx Hx) as (r & E & Fr & B). exists r. split; [exact E|]. split; [exact Fr|]. rewrite <- (val_fin r Fr). exact B.
Qed.

Lemma reg_half_exists : forall G, gamma_function G -> reg_inc_beta G 1 (1 / 2) (fun x => 1 - sqrt (1 - x)).
Proof.
  intros G HG. split.
  - intros y Hy. assert (S0 : 0 < sqrt (1 - y)) by (apply sqrt_lt_R0; lra).
    assert (K : G (1 + 1 / 2) / (G 1 * G (1 / 2)) * (Rpower y (1 - 1) * Rpower (1 - y) (1 / 2 - 1)) = 0 - / (2 * sqrt (1 - y)) * (0 - 1)).
    { pose proof (G_pos G HG (1 / 2) ltac:(lra)) as GP. replace (1 + 1 / 2) with (1 / 2 + 1) by ring. rewrite (G_step G HG (1 / 2)) by lra. destruct HG as (_ & G1 & _). rewrite G1.
      replace (1 - 1) with 0 by ring. rewrite Rpower_O by lra. replace (1 / 2 - 1) with (- / 2) by lra. rewrite Rpower_Ropp, Rpower_sqrt by lra. field. lra. }
    rewrite K. apply (derivable_pt_lim_minus (fun _ => 1) (fun y => sqrt (1 - y))); [apply derivable_pt_lim_const|].
    apply (derivable_pt_lim_comp (fun y => 1 - y) sqrt); [|apply derivable_pt_lim_sqrt; lra].
    apply (derivable_pt_lim_minus (fun _ => 1) (fun y => y)); [apply derivable_pt_lim_const|apply derivable_pt_lim_id].
  - intros eps He. exists (Rmin 1 eps). split; [apply Rmin_glb_lt; lra|]. intros u Hu. assert (U1 : u < 1) by (eapply Rlt_le_trans; [apply Hu|apply Rmin_l]). assert (U2 : u < eps) by (eapply Rlt_le_trans; [apply Hu|apply Rmin_r]).
    assert (Q1 : sqrt (1 - u) <= 1) by (apply Rle_trans with (sqrt 1); [apply sqrt_le_1; lra|rewrite sqrt_1; lra]). assert (Q0 : 0 <= sqrt (1 - u)) by apply sqrt_pos. pose proof (sqrt_sqrt (1 - u) ltac:(lra)) as Q. assert (sqrt (1 - u) * sqrt (1 - u) <= 1 * sqrt (1 - u)) by (apply Rmult_le_compat_r; lra).
    rewrite Rabs_pos_eq; lra.
Qed.

(** an f64 in [1 - 2^-40, 1): the one just below 1 - 2^-41 *)
Lemma near_one_exists : exists x : f64, finite x /\ 1 - bpow radix2 (-40) <= Binary.B2R x < 1.
Proof.
  destruct (of_Z_exact (2 ^ 41 - 1) ltac:(lia)) as [F1 V1]. destruct (of_Z_exact (2 ^ 41) ltac:(lia)) as [F2 V2].
  pose proof (div_spec (ideal true false) _ _ F1 F2) as S. rewrite V1, V2 in S. specialize (S ltac:(apply not_0_IZR; lia)).
  assert (E : IZR (2 ^ 41 - 1) / IZR (2 ^ 41) = IZR (2 ^ 41 - 1) * bpow radix2 (-41)) by (simpl; lra).
  assert (FM : generic_format radix2 (SpecFloat.fexp 53 1024) (IZR (2 ^ 41 - 1) / IZR (2 ^ 41))).
  { rewrite E. apply generic_format_F2R' with (f := Float radix2 (2 ^ 41 - 1) (-41)); [reflexivity|]. intros _. unfold Generic_fmt.cexp, SpecFloat.fexp, FLT_exp, SpecFloat.emin. cbn [Fexp].
    assert (M : (mag radix2 (IZR (2 ^ 41 - 1) * bpow radix2 (-41)) <= 0)%Z) by (apply mag_le_bpow; [simpl; lra|simpl; rewrite Rabs_pos_eq; lra]). lia. }
  exists (f64_div (ideal true false) (f64_of_Z (2 ^ 41 - 1)) (f64_of_Z (2 ^ 41))).
  destruct (rounds_small _ _ S) as [F V].
  { rewrite rnd_fmt by exact FM. rewrite Rabs_pos_eq; [|simpl; lra]. pose proof Om_big. apply Rle_lt_trans with 1; [simpl; lra|lra]. }
  split; [exact F|]. rewrite V, rnd_fmt by exact FM. simpl. lra.
Qed.

Theorem betai_refuted_near_one : exists (P : platform) (G I : R -> R) (x r : f64), accurate_ln (p_ln P) /\ accurate_exp (p_exp P) /\
  gamma_function G /\ reg_inc_beta G 1 (1 / 2) I /\ finite x /\ 0 < Binary.B2R x < 1 /\
  @betai (ieee P) (f64_lit 1.0) (f64_lit 0.5) x = Ok r /\ finite r /\ I (Binary.B2R x) - Binary.B2R r >= 9 / 10.
Proof.
  destruct near_one_exists as (x & Fx & Hx). assert (B40 : bpow radix2 (-40) <= 1 / 2) by (simpl; lra). assert (B20 : bpow radix2 (-20) <= 1 / 50) by (simpl; lra).
  pose proof gamma_exists as HG. pose proof (reg_half_exists GG HG) as HI.
  destruct (betai_near_one GG HG _ HI (ideal true false) x (ideal_ln_accurate _ _) (ideal_exp_accurate _ _) Fx Hx) as [BI (r & E & Fr & B)].
  exists (ideal true false), GG, (fun x => 1 - sqrt (1 - x)), x, r.
  split; [apply ideal_ln_accurate|]. split; [apply ideal_exp_accurate|]. split; [exact HG|]. split; [exact HI|]. split; [exact Fx|]. split; [lra|]. split; [exact E|]. split; [exact Fr|].
  apply Rabs_le_inv in B. lra.
Qed.

Lemma ex_betai_near_one : accurate_ln (p_ln (ideal true false)) /\ accurate_exp (p_exp (ideal true false)) /\
  (exists G I, gamma_function G /\ reg_inc_beta G 1 (1 / 2) I) /\ (exists x : f64, finite x /\ 1 - bpow radix2 (-40) <= Binary.B2R x < 1).
Proof.
  split; [apply ideal_ln_accurate|]. split; [apply ideal_exp_accurate|]. split; [|exact near_one_exists].
  exists GG, (fun x => 1 - sqrt (1 - x)). split; [exact gamma_exists|exact (reg_half_exists GG gamma_exists)].
Qed.
