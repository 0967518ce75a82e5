(** * betai(200, 200, 0.36) *)

From Coq Require Import ZArith Reals Bool Lra Lia List.
From Flocq Require Import Core IEEE754.BinarySingleNaN IEEE754.Binary IEEE754.Bits.
From Verif.Model Require Import Base Arith Utils Gamma Beta.
From Verif.Float Require Import Bits64 Ieee Exact Platforms.
From Verif.Spec Require Import F64Spec Outcome GammaSpec LibmSpec IncBetaSpec.
From Verif.Proofs Require Import F64 F64Ops Lits Ext ExpBounds Stirling FlErr GammaAcc GammaExists LnGammaAcc LnGammaFl LnGammaThms BetaAcc GserAcc GcfThms Ideal BetaExamples ErfcxAcc BetaCfBad BetaiLog BetaiBad Domains.
Import ListNotations.
Open Scope R_scope.
Local Notation exp := Rtrigo_def.exp.
Local Notation ln := Rpower.ln.

(** Gamma at the integers, with the factorial in Z *)
Fixpoint zfact (n : nat) : Z := match n with O => 1%Z | S k => (Z.of_nat (S k) * zfact k)%Z end.

Lemma G_zfact : forall G, gamma_function G -> forall n, G (INR n + 1) = IZR (zfact n).
Proof.
  intros G HG n. induction n as [|n IH].
  - cbn [INR zfact]. rewrite Rplus_0_l. destruct HG as (_ & G1 & _). exact G1.
  - pose proof (pos_INR n). rewrite S_INR, (G_step G HG (INR n + 1)) by lra. rewrite IH. cbn [zfact]. rewrite mult_IZR, <- INR_IZR_INZ, S_INR. reflexivity.
Qed.

Lemma G_at : forall G, gamma_function G -> forall (n : nat) (v : R), v = INR n + 1 -> lG G v = ln (IZR (zfact n)).
Proof. intros G HG n v ->. unfold lG. rewrite (G_zfact G HG n). reflexivity. Qed.

Lemma zfact_pos : forall n, (0 < zfact n)%Z.
Proof. induction n as [|n IH]; [reflexivity|]. cbn [zfact]. lia. Qed.

Lemma lit_036 : fin (f64_lit 0.36) /\ Rabs (val (f64_lit 0.36) - 36 / 100) <= / 10 ^ 15.
Proof.
  destruct (lit_B2FF 0.36 false 6485183463413514 (-54)) as [F V]; [vm_compute; reflexivity|].
  split; [exact F|]. rewrite (val_fin _ F), V. unfold F2R. apply Rabs_le. simpl. lra.
Qed.

Section W.
  Context (P : platform).

  Lemma cf_200 : f64_lt (@betacf (ieee P) (f64_lit 200.0) (f64_lit 200.0) (f64_sub P (f64_lit 1.0) (f64_lit 0.36))) (f64_lit (-1000000000.0)) = true.
  Proof. vm_compute. reflexivity. Qed.
  Lemma cf_200_low : f64_lt (f64_lit (-2000000000.0)) (@betacf (ieee P) (f64_lit 200.0) (f64_lit 200.0) (f64_sub P (f64_lit 1.0) (f64_lit 0.36))) = true.
  Proof. vm_compute. reflexivity. Qed.
  Lemma branch_200 : f64_lt (f64_lit 0.36) (f64_div P (f64_add P (f64_lit 200.0) (f64_lit 1.0)) (f64_add P (f64_lit 200.0) (f64_mul P (f64_lit 200.0) (f64_lit 2.0)))) = false.
  Proof. vm_compute. reflexivity. Qed.

  Variable G : R -> R.
  Hypothesis HG : gamma_function G.
  Context (LN : accurate_ln (p_ln P)) (EX : accurate_exp (p_exp P)).

  Lemma lit_200 : fin (f64_lit 200.0) /\ val (f64_lit 200.0) = 200.
  Proof. lit_facts 200.0%dec 200%Z 0%Z HF HV. split; [exact HF|lra]. Qed.

  Lemma ratio_pow : forall (p z : Z) (n : nat), z = Z.of_nat n -> (IZR p / 10 ^ 4) ^ n = IZR (p ^ z) / IZR ((10 ^ 4) ^ z).
  Proof. intros p z n ->. unfold Rdiv. rewrite Rpow_mult_distr, pow_inv, <- !pow_IZR. change (IZR (10 ^ 4)) with 10000. replace (10 ^ 4) with 10000 by lra. reflexivity. Qed.

  Lemma quotient_low : forall A B p z n, z = Z.of_nat n -> (29 * (A * A) * (10 ^ 4) ^ z <= B * p ^ z * 100000000)%Z -> 29 / 10 ^ 8 * (IZR A * IZR A) <= IZR B * (IZR p / 10 ^ 4) ^ n.
  Proof.
    intros A B p z n E H. rewrite (ratio_pow p z n E). apply IZR_le in H. rewrite !mult_IZR in H. assert (U0 : 0 < IZR ((10 ^ 4) ^ z)) by (apply IZR_lt, Z.pow_pos_nonneg; [reflexivity|lia]).
    set (U := IZR ((10 ^ 4) ^ z)) in *. set (V := IZR (p ^ z)) in *. clearbody U V. replace (10 ^ 8) with 100000000 by lra.
    apply Rmult_le_reg_r with U; [exact U0|]. replace (IZR B * (V / U) * U) with (IZR B * V) by (field; lra). lra.
  Qed.

  Lemma quotient_up : forall A B p z n, z = Z.of_nat n -> (B * p ^ z <= A * A * (10 ^ 4) ^ z)%Z -> IZR B * (IZR p / 10 ^ 4) ^ n <= IZR A * IZR A.
  Proof.
    intros A B p z n E H. rewrite (ratio_pow p z n E). apply IZR_le in H. rewrite !mult_IZR in H. assert (U0 : 0 < IZR ((10 ^ 4) ^ z)) by (apply IZR_lt, Z.pow_pos_nonneg; [reflexivity|lia]).
    set (U := IZR ((10 ^ 4) ^ z)) in *. set (V := IZR (p ^ z)) in *. clearbody U V.
    apply Rmult_le_reg_r with U; [exact U0|]. replace (IZR B * (V / U) * U) with (IZR B * V) by (field; lra). lra.
  Qed.

  Lemma quotient : 29 / 10 ^ 8 * (IZR (zfact 199) * IZR (zfact 199)) <= IZR (zfact 399) * (2303 / 10 ^ 4) ^ 200 /\ IZR (zfact 399) * (2305 / 10 ^ 4) ^ 200 <= IZR (zfact 199) * IZR (zfact 199).
  Proof.
    split; [apply (quotient_low _ _ 2303 200 200 eq_refl)|apply (quotient_up _ _ 2305 200 200 eq_refl)]; apply Z.leb_le; vm_compute; reflexivity.
  Qed.

  Lemma bt_core : forall (n : nat) A B v w k k' e, INR n = 200 -> 0 < A -> 0 < B -> 0 < v < 1 -> w = (v * (1 - v)) ^ n -> fin e ->
    Rabs (val e - (ln B - ln A - ln A + 200 * ln v + 200 * ln (1 - v))) <= 25 / 10 ^ 10 -> k <= w <= k' -> 29 / 10 ^ 8 * (A * A) <= B * k -> B * k' <= A * A ->
    fin (libm P (p_exp P) e) /\ 28 / 10 ^ 8 <= val (libm P (p_exp P) e) <= 2.
  Proof.
    intros n A B v w k k' e En PA PB Hv Ew Fe Ee K1 Q Q'. assert (W0 : 0 < w) by (rewrite Ew; apply pow_lt, Rmult_lt_0_compat; lra).
    assert (LV : ln B - ln A - ln A + 200 * ln v + 200 * ln (1 - v) = ln (B * w / (A * A))).
    { rewrite ln_div; [|apply Rmult_lt_0_compat; [exact PB|exact W0]|apply Rmult_lt_0_compat; exact PA]. rewrite !ln_mult; try assumption.
      rewrite Ew, ln_pow by (apply Rmult_lt_0_compat; lra). rewrite ln_mult by lra. rewrite En. ring. }
    rewrite LV in Ee. clear LV. set (X := B * w / (A * A)) in *.
    assert (PAA : 0 < A * A) by (apply Rmult_lt_0_compat; exact PA).
    assert (XL : 29 / 10 ^ 8 <= X <= 1).
    { unfold X. split; apply Rmult_le_reg_r with (A * A); try exact PAA; replace (B * w / (A * A) * (A * A)) with (B * w) by (field; lra).
      - eapply Rle_trans; [exact Q|]. apply Rmult_le_compat_l; lra.
      - rewrite Rmult_1_l. eapply Rle_trans; [|exact Q']. apply Rmult_le_compat_l; lra. }
    clearbody X. clear - EX Fe Ee XL.
    assert (LX : -20 <= ln X <= 0).
    { split; [|rewrite <- ln_1; apply ln_mono; lra]. apply Rle_trans with (ln (/ 2 ^ 22)); [|apply ln_mono; lra]. rewrite ln_Rinv, ln_pow by lra. replace (INR 22) with 22 by (simpl; lra). pose proof ln2_up. lra. }
    apply mr_exp in Ee. rewrite exp_ln in Ee by lra. apply (mr_near _ _ _) in Ee; [|lra|lra].
    destruct (EX e (fin_nonnan _ Fe)) as [N R].
    { assert (EU : exp (val e) <= 2) by lra. assert (EL : exp (-20) / 2 <= exp (val e)) by (pose proof (exp_mono (-20) (ln X) (proj1 LX)) as Y; rewrite exp_ln in Y by lra; lra).
      split; [|destruct (Rle_or_lt (val e) 709) as [H|H]; [exact H|]; pose proof (exp_ineq1_le (val e)); lra].
      destruct (Rle_or_lt (-700) (val e)) as [H|H]; [exact H|]. exfalso. pose proof (exp_mono (val e) (-30) ltac:(lra)) as Y. replace (-20) with (-30 + 10) in EL by ring. rewrite exp_plus in EL. pose proof (exp_pos (-30)) as E0. pose proof (exp_ineq1_le 10) as E1. assert (exp (-30) * 11 <= exp (-30) * exp 10) by (apply Rmult_le_compat_l; lra). lra. }
    rewrite libm_nonnan by (apply fin_nonnan; exact Fe). set (q := p_exp P e) in *. clearbody q. replace (bpow radix2 (-50)) with (/ 2 ^ 50) in R by (simpl; lra). apply Rabs_le_inv in R.
    assert (B : 28 / 10 ^ 8 <= val q <= 2) by lra. split; [|exact B]. apply fin_iff_val; [exact N|]. pose proof Om_big. rewrite Rabs_pos_eq; lra.
  Qed.

  Lemma bt_200 : let bt := libm P (p_exp P) (bt_exp P (f64_lit 200.0) (f64_lit 200.0) (f64_lit 0.36)) in fin bt /\ 28 / 10 ^ 8 <= val bt <= 2.
  Proof.
    cbv zeta. destruct lit_200 as [F2 V2]. destruct lit_036 as [Fx Vx]. apply Rabs_le_inv in Vx.
    destruct (bt_log G HG P LN _ _ _ F2 F2 Fx) as [Fe Ee]; try rewrite V2; try lra. rewrite V2 in Ee.
    set (e := bt_exp P (f64_lit 200.0) (f64_lit 200.0) (f64_lit 0.36)) in *. clearbody e. set (v := val (f64_lit 0.36)) in *. clearbody v.
    rewrite (G_at G HG 199 200) in Ee by (rewrite INR_IZR_INZ; change (Z.of_nat 199) with 199%Z; lra).
    rewrite (G_at G HG 399 (200 + 200)) in Ee by (rewrite INR_IZR_INZ; change (Z.of_nat 399) with 399%Z; lra).
    pose proof quotient as [Q Q']. assert (PA : 0 < IZR (zfact 199)) by (apply IZR_lt, zfact_pos). assert (PB : 0 < IZR (zfact 399)) by (apply IZR_lt, zfact_pos).
    assert (KV : 2303 / 10 ^ 4 <= v * (1 - v) <= 2305 / 10 ^ 4).
    { assert (Z1 : Rabs ((v - 36 / 100) * (v - 36 / 100)) <= 1 / 10 ^ 6). { rewrite Rabs_mult. assert (Rabs (v - 36 / 100) <= 1 / 10 ^ 3) by (apply Rabs_le; lra). replace (1 / 10 ^ 6) with (1 / 10 ^ 3 * (1 / 10 ^ 3)) by (field; lra). apply Rmult_le_compat; try apply Rabs_pos; assumption. }
      apply Rabs_le_inv in Z1. replace (v * (1 - v)) with (36 / 100 * (64 / 100) + 28 / 100 * (v - 36 / 100) - (v - 36 / 100) * (v - 36 / 100)) by field. lra. }
    refine (bt_core 200 _ _ v _ _ _ e _ PA PB _ eq_refl Fe Ee _ Q Q'); [rewrite INR_IZR_INZ; reflexivity|lra|].
    clear - KV. split; apply pow_incr; lra.
  Qed.

  Lemma range_tail : forall bt cf, fin bt -> 28 / 10 ^ 8 <= val bt <= 2 -> fin cf -> - 2000000000 <= val cf <= - 1000000000 ->
    let r := f64_sub P (f64_lit 1.0) (f64_div P (f64_mul P bt cf) (f64_lit 200.0)) in fin r /\ 2 <= val r.
  Proof.
    intros bt cf Fb Hb Fc Hc. cbv zeta. destruct lit_200 as [F2 V2].
    assert (UB : forall t, Rabs t <= 10 ^ 12 -> Rabs t <= bpow radix2 1000) by (intros t Ht; apply (bpow_le_1000 _ 50); [lia|change (bpow radix2 50) with 1125899906842624; lra]).
    assert (ES : eta <= / 10 ^ 20) by (pose proof eta_small; pose proof tiny_20; lra). pose proof eta_pos as EP.
    assert (PB : 280 <= val bt * - val cf <= 2 * 2000000000) by (split; [apply Rle_trans with (28 / 10 ^ 8 * 1000000000); [lra|apply Rmult_le_compat; lra]|apply Rmult_le_compat; lra]).
    assert (PA : Rabs (val bt * val cf) = val bt * - val cf) by (rewrite Rabs_left1; lra).
    destruct (mul_fl P bt cf Fb Fc) as [Fm Em]; [apply UB; rewrite PA; lra|]. rewrite PA in Em. unfold uu in Em. apply Rabs_le_inv in Em. set (m := f64_mul P bt cf) in *. clearbody m.
    assert (Bm : - 4000000001 <= val m <= - 279) by lra. clear Em PA PB.
    destruct (div_fl P m _ Fm F2) as [Fq Eq]; [lra|rewrite V2; apply UB; rewrite Rabs_left1; lra|]. rewrite V2, (Rabs_left1 (val m / 200)) in Eq by lra. unfold uu in Eq. apply Rabs_le_inv in Eq. set (q := f64_div P m (f64_lit 200.0)) in *. clearbody q.
    assert (Bq : - 30000000 <= val q <= - (139 / 100)) by lra. clear Eq.
    destruct (sub_fl P (f64_lit 1.0) q fin_1 Fq) as [Fr Er]; [rewrite val_1; apply UB; rewrite Rabs_pos_eq; lra|]. rewrite val_1, (Rabs_pos_eq (1 - val q)) in Er by lra. unfold uu in Er. apply Rabs_le_inv in Er. split; [exact Fr|lra].
  Qed.

  Lemma betai_200 : exists r, @betai (ieee P) (f64_lit 200.0) (f64_lit 200.0) (f64_lit 0.36) = Ok r /\ fin r /\ 2 <= val r.
  Proof.
    destruct lit_200 as [F2 V2]. destruct lit_036 as [Fx Vx]. apply Rabs_le_inv in Vx. pose proof bt_200 as [Fb Hb]. pose proof cf_200 as C1. pose proof cf_200_low as C2. apply lt_true in C1, C2.
    destruct C1 as (N1 & _ & C1). destruct C2 as (_ & _ & C2). lit_facts (-1000000000.0)%dec (-1000000000)%Z 0%Z HF1 HV1. lit_facts (-2000000000.0)%dec (-2000000000)%Z 0%Z HF2 HV2. rewrite HV1 in C1. rewrite HV2 in C2.
    assert (A1 : 0 < val (f64_lit 200.0) <= 3000) by (rewrite V2; lra). assert (A2 : 0 < val (f64_lit 200.0)) by (rewrite V2; lra). assert (A3 : 0 < val (f64_lit 0.36) < 1) by lra.
    eexists. split; [exact (betai_reflected P _ _ _ F2 F2 Fx A1 A2 A3 branch_200)|].
    set (cf := @betacf (ieee P) _ _ _) in *. clearbody cf. set (bt := libm P _ _) in *. clearbody bt.
    assert (Fc : fin cf) by (apply fin_iff_val; [exact N1|apply Rle_lt_trans with 2000000000; [apply Rabs_le; lra|]; pose proof Om_big; lra]).
    apply range_tail; try assumption; lra.
  Qed.
End W.

Theorem betai_above_one : forall (P : platform), accurate_ln (p_ln P) -> accurate_exp (p_exp P) ->
  exists r, @betai (ieee P) (f64_lit 200.0) (f64_lit 200.0) (f64_lit 0.36) = Ok r /\ finite r /\ 2 <= Binary.B2R r.
Proof.
  intros P LN EX. destruct (betai_200 P GG gamma_exists LN EX) as (r & E & F & B). exists r. split; [exact E|]. split; [exact F|]. rewrite <- (val_fin r F). exact B.
Qed.

Theorem betai_range_refuted : exists (P : platform) (a b x r : f64), accurate_ln (p_ln P) /\ accurate_exp (p_exp P) /\ positive a /\ positive b /\ between 0 1 x /\
  @betai (ieee P) a b x = Ok r /\ finite r /\ 2 <= Binary.B2R r.
Proof.
  destruct (betai_above_one (ideal true false) (ideal_ln_accurate _ _) (ideal_exp_accurate _ _)) as (r & E & F & B). destruct lit_200 as [F2 V2]. destruct lit_036 as [Fx Vx]. apply Rabs_le_inv in Vx.
  exists (ideal true false), (f64_lit 200.0), (f64_lit 200.0), (f64_lit 0.36), r.
  split; [apply ideal_ln_accurate|]. split; [apply ideal_exp_accurate|]. split; [split; [apply fin_nonnan, F2|lra]|]. split; [split; [apply fin_nonnan, F2|lra]|]. split; [split; [apply fin_nonnan, Fx|lra]|]. split; [exact E|]. split; [exact F|exact B].
Qed.

Theorem betai_monotone_refuted : exists (P : platform) (a b x y r s : f64), accurate_ln (p_ln P) /\ accurate_exp (p_exp P) /\ positive a /\ positive b /\ between 0 1 x /\ between 0 1 y /\ val x < val y /\
  @betai (ieee P) a b x = Ok r /\ @betai (ieee P) a b y = Ok s /\ finite r /\ finite s /\ Binary.B2R r >= Binary.B2R s + 1.
Proof.
  destruct (betai_above_one (ideal true false) (ideal_ln_accurate _ _) (ideal_exp_accurate _ _)) as (r & E & F & B). destruct lit_200 as [F2 V2]. destruct lit_036 as [Fx Vx]. apply Rabs_le_inv in Vx.
  assert (P2 : positive (f64_lit 200.0)) by (split; [apply fin_nonnan, F2|lra]).
  exists (ideal true false), (f64_lit 200.0), (f64_lit 200.0), (f64_lit 0.36), (f64_lit 1.0), r, (f64_lit 1.0).
  split; [apply ideal_ln_accurate|]. split; [apply ideal_exp_accurate|]. split; [exact P2|]. split; [exact P2|]. split; [split; [apply fin_nonnan, Fx|lra]|]. split; [split; [exact nn_1|rewrite val_1; lra]|]. split; [rewrite val_1; lra|].
  split; [exact E|]. split; [apply betai_ends; [exact P2|exact P2|exact nn_1|right; exact val_1]|]. split; [exact F|]. split; [exact fin_1|]. rewrite <- (val_fin _ fin_1), val_1. lra.
Qed.
