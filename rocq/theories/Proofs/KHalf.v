(** * K at half-integer orders from 2 on *)

From Coq Require Import ZArith Reals Bool Lra Lia List.
From Flocq Require Import Core IEEE754.BinarySingleNaN IEEE754.Binary IEEE754.Bits.
From Verif.Model Require Import Base Arith BesselTables Bessel.
From Verif.Float Require Import Bits64 Ieee Exact Platforms.
From Verif.Spec Require Import F64Spec Outcome LibmSpec KHalfSpec.
From Verif.Proofs Require Import F64 F64Ops Lits Ext ExpBounds FlErr GammaAcc GserAcc PosHorner KnAcc KPoly KLarge PiBounds JYLarge BetaCfBad DawsonLarge NuPanic KHalfRec.
Import ListNotations.
Open Scope R_scope.
Local Notation exp := Rtrigo_def.exp. Local Notation ln := Rpower.ln. Local Notation sqrt := R_sqrt.sqrt.
Local Notation B := Binary.B2R.

(** a rounded number stays between integers *)
Lemma ri : forall z r m M, rounds z r -> IZR m <= r <= IZR M -> (Z.abs m <= 2 ^ 53)%Z -> (Z.abs M <= 2 ^ 53)%Z ->
  fin z /\ IZR m <= B z <= IZR M.
Proof.
  intros z r m M [N V] [H1 H2] Hm HM. pose proof Om_big as OB.
  assert (A1 : Rabs (IZR m) <= 9007199254740992) by (rewrite <- abs_IZR; apply (IZR_le _ (2 ^ 53)) in Hm; exact Hm).
  assert (A2 : Rabs (IZR M) <= 9007199254740992) by (rewrite <- abs_IZR; apply (IZR_le _ (2 ^ 53)) in HM; exact HM).
  apply Rabs_le_inv in A1, A2.
  assert (L : IZR m <= val z) by (rewrite V; apply rs_ge; [apply fmt_IZR, Hm|lra|exact H1]).
  assert (U : val z <= IZR M) by (rewrite V; apply rs_le_fmt; [apply fmt_IZR, HM|lra|exact H2]).
  assert (F : fin z) by (apply fin_iff_val; [exact N|]; apply Rabs_def1; lra).
  rewrite val_fin in L, U by exact F. split; [exact F|lra].
Qed.
Lemma r0 : forall z r, rounds z r -> r = 0 -> fin z /\ B z = 0.
Proof. intros z r H ->. apply (exactZ z 0); [exact H|lia]. Qed.
Lemma rex : forall z r, rounds z r -> fmt r -> Rabs r <= 10 ^ 10 -> fin z /\ B z = r.
Proof.
  intros z r H F A. pose proof Om_big. destruct (rounds_small z r H) as [G W]; [rewrite rnd_fmt by exact F; lra|].
  split; [exact G|]. rewrite W. apply rnd_fmt, F.
Qed.

Lemma inv_01 : forall b, 1 <= b -> 0 <= 1 / b <= 1.
Proof.
  intros b H. split; [left; apply Rdiv_lt_0_compat; lra|]. apply Rmult_le_reg_r with b; [lra|]. unfold Rdiv. rewrite Rmult_assoc, Rinv_l by lra. lra.
Qed.

Section Half.
  Context (P : platform) (EX : accurate_exp (p_exp P)).
  Notation add := (f64_add P). Notation mul := (f64_mul P). Notation sub := (f64_sub P). Notation div := (f64_div P).

  Lemma eps_pos : nonnan (@EPS (ieee P)) /\ 0 < val (@EPS (ieee P)).
  Proof.
    destruct eps_facts as [FE VE]. change (@epsilon (ieee (ideal true false))) with (@EPS (ieee P)) in *.
    split; [apply fin_nonnan, FE|]. rewrite VE. lra.
  Qed.

  (** the second continued fraction stops at once *)
  Lemma cf2_half : forall b c d a q h q1 q2 s l, fin b -> 6 <= B b <= 1382 -> fin c -> B c = 0 -> fin d -> 0 <= B d <= 1 ->
    fin a -> B a = 0 -> fin q -> B q = 0 -> fin h -> 0 <= B h <= 1 -> fin q1 -> B q1 = 0 -> fin q2 -> B q2 = 1 -> fin s -> B s = 1 ->
    exists a' b' c' d' e' h' q' q1' q2' s', for_break (1%Z :: l) (@ik_cf2_body (ieee P)) (a, b, c, d, d, h, q, q1, q2, s)
      = ((a', b', c', d', e', h', q', q1', q2', s'), true) /\ fin h' /\ fin s' /\ B s' = 1.
  Proof.
    intros b c d a q h q1 q2 s l Fb Vb Fc Vc Fd Vd Fa Va Fq Vq Fh Vh Fq1 Vq1 Fq2 Vq2 Fs Vs.
    assert (V1 : B (f64_lit 1.0) = 1) by (rewrite <- val_fin by exact fin_1; exact val_1).
    assert (V2 : B (f64_lit 2.0) = 2) by (rewrite <- val_fin by exact fin_2; exact val_2).
    destruct (of_Z_exact 1 ltac:(lia)) as [Fi Vi].
    cbn [for_break]. unfold ik_cf2_body at 1. ieee_simpl. set (i := f64_of_Z 1) in *. clearbody i.
    destruct (ri _ _ 2 2 (mul_spec P _ _ fin_2 Fi)) as [F1 W1]; [rewrite V2, Vi; lra|lia|lia|]. set (t1 := mul (f64_lit 2.0) i) in *. clearbody t1.
    destruct (ri _ _ (-2) (-2) (sub_spec P _ _ Fa F1)) as [F2 W2]; [lra|lia|lia|]. set (a' := sub a t1) in *. clearbody a'.
    assert (Fn : fin (f64_neg a')) by (rewrite fin_neg; exact F2).
    destruct (r0 _ _ (mul_spec P _ _ Fn Fc)) as [F3 W3]; [rewrite Vc; ring|]. set (t3 := mul (f64_neg a') c) in *. clearbody t3.
    destruct (ri _ _ 2 2 (add_spec P _ _ Fi fin_1)) as [F4 W4]; [rewrite V1, Vi; lra|lia|lia|]. set (t4 := add i (f64_lit 1.0)) in *. clearbody t4.
    destruct (r0 _ _ (div_spec P _ _ F3 F4 ltac:(lra))) as [F5 W5]; [rewrite W3; unfold Rdiv; ring|]. set (c' := div t3 t4) in *. clearbody c'.
    destruct (ri _ _ 6 1382 (mul_spec P _ _ Fb Fq2)) as [F6 W6]; [rewrite Vq2; lra|lia|lia|]. set (t6 := mul b q2) in *. clearbody t6.
    destruct (ri _ _ (-1382) (-6) (sub_spec P _ _ Fq1 F6)) as [F7 W7]; [lra|lia|lia|]. set (t7 := sub q1 t6) in *. clearbody t7.
    assert (Ea : B a' = -2) by lra.
    destruct (ri _ _ 3 691 (div_spec P _ _ F7 F2 ltac:(lra))) as [F8 W8]; [rewrite Ea; lra|lia|lia|]. set (qn := div t7 a') in *. clearbody qn.
    destruct (r0 _ _ (mul_spec P _ _ F5 F8)) as [F9 W9]; [rewrite W5; ring|]. set (t9 := mul c' qn) in *. clearbody t9.
    destruct (r0 _ _ (add_spec P _ _ Fq F9)) as [F10 W10]; [lra|]. set (q' := add q t9) in *. clearbody q'.
    destruct (ri _ _ 8 1384 (add_spec P _ _ Fb fin_2)) as [F11 W11]; [lra|lia|lia|]. set (b' := add b (f64_lit 2.0)) in *. clearbody b'.
    destruct (ri _ _ (-2) 0 (mul_spec P _ _ F2 Fd)) as [F12 W12]; [rewrite Ea; lra|lia|lia|]. set (t12 := mul a' d) in *. clearbody t12.
    destruct (ri _ _ 6 1384 (add_spec P _ _ F11 F12)) as [F13 W13]; [lra|lia|lia|]. set (t13 := add b' t12) in *. clearbody t13.
    destruct (ri _ _ 0 1 (div_spec P _ _ fin_1 F13 ltac:(lra))) as [F14 W14]; [rewrite V1; apply inv_01; lra|lia|lia|]. set (d' := div (f64_lit 1.0) t13) in *. clearbody d'.
    assert (M15 : 0 <= B b' * B d' <= 1384 * 1) by (split; [apply Rmult_le_pos; lra|apply Rmult_le_compat; lra]).
    destruct (ri _ _ 0 1384 (mul_spec P _ _ F11 F14)) as [F15 W15]; [lra|lia|lia|]. set (t15 := mul b' d') in *. clearbody t15.
    destruct (ri _ _ (-1) 1383 (sub_spec P _ _ F15 fin_1)) as [F16 W16]; [lra|lia|lia|]. set (t16 := sub t15 (f64_lit 1.0)) in *. clearbody t16.
    assert (M17 : -1 <= B d * B t16 <= 1383).
    { assert (B d * -1 <= B d * B t16 <= B d * 1383) by (split; apply Rmult_le_compat_l; lra). lra. }
    destruct (ri _ _ (-1) 1383 (mul_spec P _ _ Fd F16)) as [F17 W17]; [lra|lia|lia|]. set (e' := mul d t16) in *. clearbody e'.
    destruct (ri _ _ (-1) 1384 (add_spec P _ _ Fh F17)) as [F18 W18]; [lra|lia|lia|]. set (h' := add h e') in *. clearbody h'.
    destruct (r0 _ _ (mul_spec P _ _ F10 F17)) as [F19 W19]; [rewrite W10; ring|]. set (t19 := mul q' e') in *. clearbody t19.
    destruct (ri _ _ 1 1 (add_spec P _ _ Fs F19)) as [F20 W20]; [lra|lia|lia|]. set (s' := add s t19) in *. clearbody s'.
    destruct (r0 _ _ (div_spec P _ _ F19 F20 ltac:(lra))) as [F21 W21]; [rewrite W19; unfold Rdiv; ring|]. set (t21 := div t19 s') in *. clearbody t21.
    replace (f64_le (f64_abs t21) (@EPS (ieee P))) with true.
    - do 10 eexists. split; [reflexivity|]. split; [exact F18|]. split; [exact F20|lra].
    - symmetry. apply le_true. destruct eps_pos as [NE PE]. split; [rewrite nan_abs; apply fin_nonnan, F21|]. split; [exact NE|].
      rewrite val_abs, val_fin, W21, Rabs_R0 by exact F21. lra.
  Qed.

  Lemma pi_mr : fin (@PI (ieee P)) /\ mr (2 * vv) (val (@PI (ieee P))) Rtrigo1.PI.
  Proof.
    pose proof PI_bounds as PB. replace (IZR (2 ^ 70)) with 1180591620717411303424 in PB by reflexivity.
    pose proof (lit_spec 3.14159265358979323846264338327950288) as L. change (f64_lit 3.14159265358979323846264338327950288) with (@PI (ieee P)) in L.
    set (r := R_of_dec 3.14159265358979323846264338327950288) in *.
    assert (E : r = 314159265358979323846264338327950288 / 10 ^ 35).
    { unfold r, R_of_dec. cbn [dman dexp]. rewrite powerRZ_10. simpl. lra. }
    assert (N1 : bpow radix2 (-1022) <= 1 / 10) by apply norm_1022.
    assert (N2 : 16 <= bpow radix2 1023) by (apply Rle_trans with (bpow radix2 4); [simpl; lra|apply bpow_le; lia]).
    destruct (rnd_mr _ _ L) as [F M]; [rewrite E, Rabs_pos_eq by lra; lra|]. split; [exact F|].
    replace (2 * vv) with (vv + vv) by ring. eapply mr_trans; [exact M|].
    apply mr_weak with (1 / 10 ^ 17 + 2 * (1 / 10 ^ 17 * (1 / 10 ^ 17))); [unfold vv; lra|]. apply mr_of_rel; [lra|].
    set (p := Rtrigo1.PI) in *. clearbody p. rewrite E. rewrite (Rabs_pos_eq p) by lra. apply Rabs_le. lra.
  Qed.

  Definition K0h (X : R) : R := sqrt (Rtrigo1.PI / (2 * X)) * exp (- X).

  Lemma K0h_rng : forall X, 2 <= X <= 690 -> bpow radix2 (-1001) <= K0h X <= 1 /\ / 32 <= sqrt (Rtrigo1.PI / (2 * X)) <= 1.
  Proof.
    intros X HX. unfold K0h. pose proof PI_bounds as PB. replace (IZR (2 ^ 70)) with 1180591620717411303424 in PB by reflexivity.
    set (p := Rtrigo1.PI) in *. clearbody p.
    assert (Q : / 1024 <= p / (2 * X) <= 1).
    { split; apply Rmult_le_reg_r with (2 * X); try lra; replace (p / (2 * X) * (2 * X)) with p by (field; lra); lra. }
    assert (S1 : / 32 <= sqrt (p / (2 * X))). { replace (/ 32) with (sqrt (/ 1024)); [apply sqrt_le_1_alt; lra|]. replace (/ 1024) with (/ 32 * / 32) by lra. apply sqrt_square. lra. }
    assert (S2 : sqrt (p / (2 * X)) <= 1) by (assert (T1 : sqrt (p / (2 * X)) <= sqrt 1) by (apply sqrt_le_1_alt; lra); rewrite sqrt_1 in T1; exact T1).
    pose proof (exp_690 X ltac:(lra)) as E1. assert (E2 : exp (- X) <= 1) by (rewrite <- exp_0; apply exp_mono; lra).
    pose proof (bpow_gt_0 radix2 (-996)) as B0.
    split; [|lra]. split.
    - replace (bpow radix2 (-1001)) with (/ 32 * bpow radix2 (-996)); [apply Rmult_le_compat; lra|].
      change (-1001)%Z with (-5 + -996)%Z. rewrite bpow_plus. simpl (bpow radix2 (-5)). lra.
    - replace 1 with (1 * 1) by ring. apply Rmult_le_compat; lra.
  Qed.

  Lemma mrn : forall t a b, mr t a b -> t <= 1 / 1000 -> 0 < b -> b * (9 / 10) <= a <= b * (11 / 10).
  Proof.
    intros t a b M Ht Hb. pose proof (mr_t0 _ _ _ M) as T0. pose proof (mr_near _ _ _ M ltac:(lra) Hb) as [L U].
    assert (b * (1 - 2 * (1 / 1000)) <= b * (1 - 2 * t)) by (apply Rmult_le_compat_l; lra).
    assert (b * (1 + 2 * t) <= b * (1 + 2 * (1 / 1000))) by (apply Rmult_le_compat_l; lra). lra.
  Qed.

  Lemma ik_large_half : forall x xmu xmu2 xi, fin x -> 2 <= val x <= 690 -> fin xmu -> B xmu = - (1 / 2) -> fin xmu2 -> B xmu2 = 1 / 4 ->
    fin xi -> mr vv (val xi) (/ val x) ->
    exists a b, @ik_large (ieee P) x xmu xmu2 xi = Ok (a, b) /\ fin a /\ fin b
      /\ mr (3 / 10 ^ 15) (val a) (K0h (val x)) /\ mr (3 / 10 ^ 15) (val b) (K0h (val x)).
  Proof.
    intros x xmu xmu2 xi Fx Hx Fm Vm Fm2 Vm2 Fxi Mxi.
    assert (V1 : B (f64_lit 1.0) = 1) by (rewrite <- val_fin by exact fin_1; exact val_1).
    assert (V2 : B (f64_lit 2.0) = 2) by (rewrite <- val_fin by exact fin_2; exact val_2).
    assert (Fz : fin (f64_lit 0.0)) by reflexivity. assert (Vz : B (f64_lit 0.0) = 0) by (rewrite <- val_fin by exact Fz; exact val_0).
    lit_facts 0.25%dec 1%Z 2%Z F4 V4. rewrite val_fin in V4 by exact F4.
    lit_facts 0.5%dec 1%Z 1%Z F5 V5.
    assert (Bx : B x = val x) by (symmetry; apply val_fin, Fx).
    unfold ik_large. ieee_simpl.
    destruct (r0 _ _ (sub_spec P _ _ F4 Fm2)) as [Fa1 Va1]; [lra|]. set (a1 := sub (f64_lit 0.25) xmu2) in *. clearbody a1.
    destruct (ri _ _ 3 691 (add_spec P _ _ fin_1 Fx)) as [G1 W1]; [lra|lia|lia|]. set (t1 := add (f64_lit 1.0) x) in *. clearbody t1.
    destruct (ri _ _ 6 1382 (mul_spec P _ _ fin_2 G1)) as [Gb Wb]; [rewrite V2; lra|lia|lia|]. set (b := mul (f64_lit 2.0) t1) in *. clearbody b.
    destruct (ri _ _ 0 1 (div_spec P _ _ fin_1 Gb ltac:(lra))) as [Gd Wd]; [rewrite V1; apply inv_01; lra|lia|lia|]. set (d := div (f64_lit 1.0) b) in *. clearbody d.
    destruct (r0 _ _ (mul_spec P _ _ Fa1 Gd)) as [Gq Wq]; [rewrite Va1; ring|]. set (t2 := mul a1 d) in *. clearbody t2.
    destruct (ri _ _ 1 1 (add_spec P _ _ fin_1 Gq)) as [Gs Ws]; [lra|lia|lia|]. set (s := add (f64_lit 1.0) t2) in *. clearbody s.
    assert (Gn : fin (f64_neg a1)) by (rewrite fin_neg; exact Fa1). assert (Wn : B (f64_neg a1) = 0) by (rewrite B2R_neg, Va1; ring).
    assert (RG : exists l, range 1 MAXIT = 1%Z :: l) by (eexists; unfold range, MAXIT; change (Z.to_nat (10000 - 1)) with (S (Z.to_nat 9998)); cbn [count_from]; reflexivity).
    destruct RG as [l RG]. rewrite RG.
    destruct (cf2_half b a1 d (f64_neg a1) a1 d (f64_lit 0.0) (f64_lit 1.0) s l) as (a' & b' & c' & d' & e' & h & q' & q1' & q2' & s' & E & Fh & Fs & Vs); try assumption; try exact fin_1; try lra.
    change (F (ieee P)) with f64 in *. rewrite E. clear E RG. cbn [bind].
    destruct (r0 _ _ (mul_spec P _ _ Fh Fa1)) as [Gh Wh]; [rewrite Va1; ring|]. set (h2 := mul h a1) in *. clearbody h2.
    (* the prefactor *)
    assert (N1 : bpow radix2 (-1022) <= bpow radix2 (-1010)) by (apply bpow_le; lia).
    assert (N3 : 1024 * bpow radix2 (-1010) = bpow radix2 (-1000)) by (change (-1000)%Z with (10 + -1010)%Z; rewrite bpow_plus; simpl (bpow radix2 10); lra).
    assert (N4 : bpow radix2 (-1000) <= / 2 ^ 20) by (apply Rle_trans with (bpow radix2 (-20)); [apply bpow_le; lia|simpl; lra]).
    assert (N2 : 2 ^ 20 <= bpow radix2 1023) by (apply Rle_trans with (bpow radix2 20); [simpl; lra|apply bpow_le; lia]).
    pose proof (bpow_gt_0 radix2 (-1010)) as N0.
    destruct (K0h_rng (val x) Hx) as [KR SR]. unfold K0h in *.
    destruct pi_mr as [Fp Mp]. set (pf := @PI (ieee P)) in *. change (@Arith.PI (ieee P)) with pf. clearbody pf. pose proof PI_bounds as PB. replace (IZR (2 ^ 70)) with 1180591620717411303424 in PB by reflexivity.
    set (p := Rtrigo1.PI) in *. clearbody p.
    pose proof (mrn _ _ _ Mp ltac:(unfold vv; lra) ltac:(lra)) as Np.
    destruct (mul_mr P (f64_lit 2.0) x fin_2 Fx) as [Ft Mt]; [rewrite val_2, Rabs_pos_eq by lra; lra|]. rewrite val_2 in Mt.
    pose proof (mrn _ _ _ Mt ltac:(unfold vv; lra) ltac:(lra)) as Nt. set (tx := mul (f64_lit 2.0) x) in *. clearbody tx.
    assert (Q0 : / 2 ^ 12 <= val pf / val tx <= 4).
    { split; apply Rmult_le_reg_r with (val tx); try lra; replace (val pf / val tx * val tx) with (val pf) by (field; lra); lra. }
    destruct (div_mr P pf tx Fp Ft ltac:(lra)) as [Fq Mq]; [rewrite Rabs_pos_eq by lra; lra|].
    assert (Mq2 : mr (4 * vv) (val (div pf tx)) (p / (2 * val x))).
    { eapply mr_weak; [|eapply mr_trans; [exact Mq|unfold Rdiv; apply mr_mul; [exact Mp|apply mr_inv; [lra|exact Mt]]]]. lra. }
    set (pq := div pf tx) in *. clearbody pq. clear Mq.
    assert (Q1 : 0 < p / (2 * val x)) by (apply Rdiv_lt_0_compat; lra).
    assert (Q2 : / 2 ^ 11 <= p / (2 * val x)). { apply Rmult_le_reg_r with (2 * val x); [lra|]. replace (p / (2 * val x) * (2 * val x)) with p by (field; lra). lra. }
    pose proof (mrn _ _ _ Mq2 ltac:(unfold vv; lra) Q1) as Nq.
    destruct (sqrt_mr P pq Fq ltac:(lra)) as [Fs2 Ms2].
    assert (Ms : mr (3 * vv) (val (f64_sqrt P pq)) (sqrt (p / (2 * val x)))).
    { eapply mr_weak; [|eapply mr_trans; [exact Ms2|apply mr_sqrt; [exact Q1|exact Mq2]]]. lra. }
    set (sq := f64_sqrt P pq) in *. clearbody sq. clear Ms2.
    set (S := sqrt (p / (2 * val x))) in *. clearbody S.
    assert (Fnx : fin (f64_neg x)) by (rewrite fin_neg; exact Fx). assert (Vnx : val (f64_neg x) = - val x) by apply val_neg.
    destruct (exp_mr P EX (f64_neg x) Fnx ltac:(rewrite Vnx; lra)) as [Fe Me]. rewrite Vnx in Me. set (ef := libm P (p_exp P) (f64_neg x)) in *. clearbody ef.
    pose proof (mr_mul _ _ _ _ _ _ Ms Me) as Mse. set (K := S * exp (- val x)) in *. clearbody K.
    assert (N5 : bpow radix2 (-1001) = bpow radix2 (-1000) / 2) by (rewrite (bhalf (-1000) (-1001)) by reflexivity; lra).
    pose proof (mrn _ _ _ Mse ltac:(unfold vv; lra) ltac:(lra)) as Nse.
    destruct (mul_mr P sq ef Fs2 Fe) as [Fk Mk]; [rewrite Rabs_pos_eq by lra; lra|].
    pose proof (mr_trans _ _ _ _ _ Mk Mse) as Mk2. set (k := mul sq ef) in *. clearbody k. clear Mk Mse Nse.
    pose proof (mrn _ _ _ Mk2 ltac:(unfold vv; lra) ltac:(lra)) as Nk.
    assert (Vs' : val s' = 1) by (rewrite val_fin by exact Fs; exact Vs).
    destruct (div_mr P k s' Fk Fs ltac:(lra)) as [Fr Mr]; [rewrite Vs', Rabs_pos_eq; unfold Rdiv; rewrite Rinv_1; lra|].
    rewrite Vs' in Mr. replace (val k / 1) with (val k) in Mr by field.
    pose proof (mr_trans _ _ _ _ _ Mr Mk2) as Mr2. set (rk := div k s') in *. clearbody rk. clear Mr.
    pose proof (mrn _ _ _ Mr2 ltac:(unfold vv; lra) ltac:(lra)) as Nr.
    (* the second value *)
    assert (Vxm : val xmu = - (1 / 2)) by (rewrite val_fin by exact Fm; exact Vm).
    destruct (add_mr P xmu x Fm Fx) as [Fu Mu]; [rewrite Vxm, Rabs_pos_eq by lra; lra|]. rewrite Vxm in Mu.
    pose proof (mrn _ _ _ Mu ltac:(unfold vv; lra) ltac:(lra)) as Nu. set (u1 := add xmu x) in *. clearbody u1.
    destruct (add_mr P u1 (f64_lit 0.5) Fu F5) as [Fv Mv]; [rewrite V5, Rabs_pos_eq by lra; lra|]. rewrite V5 in Mv.
    assert (Mv2 : mr (vv + vv) (val (add u1 (f64_lit 0.5))) (val x)).
    { replace (val x) with (- (1 / 2) + val x + 1 / 2) by ring. eapply mr_trans; [exact Mv|]. apply mr_add; [lra|lra|exact Mu|apply mr_refl; unfold vv; lra]. }
    set (u2 := add u1 (f64_lit 0.5)) in *. clearbody u2. clear Mv.
    pose proof (mrn _ _ _ Mv2 ltac:(unfold vv; lra) ltac:(lra)) as Nv.
    assert (Vh2 : val h2 = 0) by (rewrite val_fin by exact Gh; exact Wh).
    destruct (sub_mr P u2 h2 Fv Gh) as [Fw Mw]; [rewrite Vh2, Rabs_pos_eq by lra; lra|]. rewrite Vh2, Rminus_0_r in Mw.
    pose proof (mr_trans _ _ _ _ _ Mw Mv2) as Mw2. set (u3 := sub u2 h2) in *. clearbody u3. clear Mw.
    pose proof (mrn _ _ _ Mw2 ltac:(unfold vv; lra) ltac:(lra)) as Nw.
    assert (KX : bpow radix2 (-1001) * 2 <= K * val x <= 1 * 690) by (split; apply Rmult_le_compat; lra).
    pose proof (mr_mul _ _ _ _ _ _ Mr2 Mw2) as My.
    pose proof (mrn _ _ _ My ltac:(unfold vv; lra) ltac:(lra)) as Ny.
    destruct (mul_mr P rk u3 Fr Fw) as [Fy My1]; [rewrite Rabs_pos_eq by lra; lra|].
    pose proof (mr_trans _ _ _ _ _ My1 My) as My2. set (y := mul rk u3) in *. clearbody y. clear My1 My Ny.
    pose proof (mr_mul _ _ _ _ _ _ My2 Mxi) as Mo. replace (K * val x * / val x) with K in Mo by (field; lra).
    pose proof (mrn _ _ _ Mo ltac:(unfold vv; lra) ltac:(lra)) as No.
    destruct (mul_mr P y xi Fy Fxi) as [Fo Mo1]; [rewrite Rabs_pos_eq by lra; lra|].
    pose proof (mr_trans _ _ _ _ _ Mo1 Mo) as Mo2.
    exists rk, (mul y xi). split; [reflexivity|]. split; [exact Fr|]. split; [exact Fo|].
    split; eapply mr_weak; [|exact Mr2| |exact Mo2]; unfold vv; lra.
  Qed.
End Half.
