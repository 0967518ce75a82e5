(** * Accuracy of Jn for |x| <= 1, every order *)

From Coq Require Import ZArith Reals Bool Lra Lia List.
From Flocq Require Import Core IEEE754.BinarySingleNaN IEEE754.Binary IEEE754.Bits.
From Verif.Model Require Import Base Arith BesselTables Utils Bessel.
From Verif.Float Require Import Bits64 Ieee Exact Platforms.
From Verif.Spec Require Import F64Spec Outcome BesselSpec.
From Verif.Proofs Require Import F64 F64Ops Lits Ext FlErr GammaAcc GserAcc PosHorner BetaCfBad UtilsSpec BesselInt BesselPanics BesselSeries BesselAcc Miller BesselReal BesselJReal MillerJ InAcc InThms JnAcc.
Import ListNotations.
Open Scope R_scope.

Lemma BJ_unique : forall n x v, is_J n x v -> v = BJ x n.
Proof. intros n x v H. exact (infinite_sum_unique _ _ _ H (BJ_is x n)). Qed.

Section Fl.
  Context (P : platform).
  Local Notation mul := (f64_mul P). Local Notation add := (f64_add P). Local Notation sub := (f64_sub P). Local Notation div := (f64_div P).

  Lemma jsteps_ge : forall n k, (0 <= n <= 2 ^ 30)%Z -> (0 <= k <= 2 ^ 20)%Z -> (k * k <= 160 * n)%Z ->
    (k <= @as_u32 (ieee P) (f64_sqrt P (f64_mul P (f64_lit 160.0) (f64_of_Z n))))%Z.
  Proof.
    intros n k Hn Hk B. destruct val_160 as [Fd Vd]. destruct (of_Z_exact n) as [Fn En]; [lia|].
    destruct (mul_spec P _ _ Fd Fn) as [Nm Vm]. rewrite En, <- val_fin, Vd, <- mult_IZR in Vm by exact Fd.
    assert (H0 : IZR (k * k) <= val (f64_mul P (f64_lit 160.0) (f64_of_Z n)) <= bpow radix2 40).
    { rewrite Vm. split.
      - apply rs_ge; [apply fmt_IZR; nia| |apply IZR_le; exact B]. pose proof Om_big as OB. assert (IZR (k * k) <= IZR (2 ^ 40)) by (apply IZR_le; nia). lra.
      - apply rs_le_fmt; [apply fmt_bpow; lia| |rewrite bpow2_nonneg_IZR by lia; apply IZR_le; lia]. pose proof (bpow_ge_0 radix2 40). pose proof Om_pos. lra. }
    assert (K0 : 0 <= IZR (k * k)) by (apply IZR_le; nia).
    assert (Fm : fin (f64_mul P (f64_lit 160.0) (f64_of_Z n))).
    { apply (fin_of_bound _ (bpow radix2 40)); [exact Nm|rewrite Rabs_pos_eq; lra|apply bpow_lt; lia]. }
    destruct (sqrt_spec P _ Fm) as [Ns Vs]; [rewrite <- val_fin by exact Fm; lra|].
    rewrite <- (val_fin _ Fm) in Vs. unfold as_u32. ieee_simpl. rewrite to_int_val by (try lia; apply fin_nonnan; exact Ns).
    assert (k <= Ztrunc (val (f64_sqrt P (f64_mul P (f64_lit 160.0) (f64_of_Z n)))))%Z; [|lia].
    rewrite <- (Ztrunc_IZR k). apply Ztrunc_le. rewrite (val_fin _ Ns), Vs. apply rnd_ge; [apply fmt_IZR; lia|].
    rewrite <- (sqrt_square (IZR k)) by (apply IZR_le; lia). apply sqrt_le_1_alt. rewrite <- mult_IZR. lra.
  Qed.
  Lemma jsteps_le : forall n k, (0 <= n <= 2 ^ 30)%Z -> (0 <= k <= 2 ^ 20)%Z -> (160 * n <= k * k)%Z ->
    (@as_u32 (ieee P) (f64_sqrt P (f64_mul P (f64_lit 160.0) (f64_of_Z n))) <= k)%Z.
  Proof.
    intros n k Hn Hk B. destruct val_160 as [Fd Vd]. destruct (of_Z_exact n) as [Fn En]; [lia|].
    destruct (mul_spec P _ _ Fd Fn) as [Nm Vm]. rewrite En, <- val_fin, Vd, <- mult_IZR in Vm by exact Fd.
    assert (K40 : IZR (k * k) <= bpow radix2 40) by (change (bpow radix2 40) with (IZR (2 ^ 40)); apply IZR_le; nia).
    assert (K0 : 0 <= IZR (k * k)) by (apply IZR_le; nia).
    assert (H0 : 0 <= val (f64_mul P (f64_lit 160.0) (f64_of_Z n)) <= IZR (k * k)).
    { rewrite Vm. split; [apply rs_pos; apply IZR_le; nia|]. apply rs_le_fmt; [apply fmt_IZR; nia| |apply IZR_le; exact B]. pose proof Om_pos. lra. }
    assert (Fm : fin (f64_mul P (f64_lit 160.0) (f64_of_Z n))).
    { apply (fin_of_bound _ (bpow radix2 40)); [exact Nm|rewrite Rabs_pos_eq; lra|apply bpow_lt; lia]. }
    destruct (sqrt_spec P _ Fm) as [Ns Vs]; [rewrite <- val_fin by exact Fm; lra|].
    rewrite <- (val_fin _ Fm) in Vs. unfold as_u32. ieee_simpl. apply to_int_le; try lia; [apply fin_nonnan; exact Ns|].
    rewrite (val_fin _ Ns), Vs. apply rnd_le_fmt; [apply fmt_IZR; lia|].
    rewrite <- (sqrt_square (IZR k)) by (apply IZR_le; lia). apply sqrt_le_1_alt. rewrite <- mult_IZR. lra.
  Qed.

  Lemma jn_unfold : forall (n s h : nat) x (st : f64 * f64 * f64 * f64 * bool), (2 <= n <= 900)%nat -> fin x -> bpow radix2 (-400) <= val x <= 1 ->
    @as_u32 (ieee P) (f64_sqrt P (mul (f64_lit 160.0) (f64_of_Z (Z.of_nat n)))) = Z.of_nat s -> (s < 2000)%nat -> ((Z.of_nat n + Z.of_nat s) / 2 = Z.of_nat h)%Z ->
    for_loop (rev (range 1 (Z.of_nat (2 * h) + 1))) (@jn_down_body (ieee P) (div (f64_lit 2.0) (f64_abs x)) (Z.of_nat n)) (f64_lit 0.0, f64_lit 1.0, f64_lit 0.0, f64_lit 0.0, false) = Ok (Exhausted st) ->
    @Jn (ieee P) (Z.of_nat n) x = Ok (div (snd (fst (fst st))) (sub (mul (f64_lit 2.0) (snd (fst st))) (snd (fst (fst (fst st)))))).
  Proof.
    intros n s h x [[[[bjp bj] ans] sum] jsum] Hn Fx Hx Es Hs Hh L. unfold Jn.
    replace (Z.of_nat n =? 0)%Z with false by (symmetry; apply Z.eqb_neq; lia).
    replace (Z.of_nat n =? 1)%Z with false by (symmetry; apply Z.eqb_neq; lia).
    pose proof (bpow_gt_0 radix2 (-400)) as B0.
    pose proof (not_small P x Fx ltac:(lra)) as E. 
    assert (G : f64_lt (f64_of_Z (Z.of_nat n)) (f64_abs x) = false).
    { destruct (f64_lt (f64_of_Z (Z.of_nat n)) (f64_abs x)) eqn:Q; [exfalso|reflexivity]. apply lt_true in Q. destruct Q as (_ & _ & Q).
      destruct (of_Z_exact (Z.of_nat n) ltac:(lia)) as [Fj Vj]. rewrite (val_fin _ Fj), Vj, val_abs, Rabs_pos_eq in Q by lra. assert (2 <= IZR (Z.of_nat n)) by (apply IZR_le; lia). lra. }
    unfold jn_down. ieee_simpl. ieee_simpl_in E. rewrite E. ieee_simpl_in G. rewrite G. ieee_simpl_in Es. rewrite Es.
    rewrite arith_u_ok by lia. unfold bind at 2. rewrite Hh. replace (2 * Z.of_nat h)%Z with (Z.of_nat (2 * h)) by lia.
    match goal with |- bind (bind ?m _) _ = _ => change m with (for_loop (rev (range 1 (Z.of_nat (2 * h) + 1))) (@jn_down_body (ieee P) (div (f64_lit 2.0) (f64_abs x)) (Z.of_nat n)) (f64_lit 0.0, f64_lit 1.0, f64_lit 0.0, f64_lit 0.0, false)) end.
    rewrite L. unfold bind. cbn [fst snd].
    assert (N : f64_lt x (f64_lit 0.0) = false).
    { destruct (f64_lt x (f64_lit 0.0)) eqn:Q; [exfalso|reflexivity]. apply lt_true in Q. destruct Q as (_ & _ & Q). rewrite val_0 in Q. lra. }
    rewrite N. reflexivity.
  Qed.

  (** the last lines: normalisation *)
  Lemma jn_tail : forall (a b s : f64) sg f g E v e e', fin a -> fin b -> fin s -> 0 < sg -> 0 < f -> 0 < g -> g <= E -> 0 <= e <= e' -> e' <= 1 / 10 ^ 10 ->
    mr e (val a) (sg * f) -> mr e (val b) (sg * g) -> mr e' (val s) (sg * E) -> 1 / 2 <= sg * g -> sg * E <= bpow radix2 600 ->
    Rabs (f / (2 * E - g) - v) <= 7 / 10 ^ 16 * v -> bpow radix2 (-900) <= v <= 1 ->
    let r := div a (sub (mul (f64_lit 2.0) s) b) in fin r /\ Rabs (val r - v) <= (e + 3 * e' + 200 * (e' * e') + 2 / 10 ^ 15) * v.
  Proof.
    intros a b s sg f g E v e e' Fa Fb Fs S0 F0 G0 GE He He' Ma Mb Ms Lo Up Hq Hv r.
    pose proof (bpow_gt_0 radix2 (-900)) as B9. pose proof (bpow_gt_0 radix2 600) as B6.
    assert (N22 : bpow radix2 (-1022) <= / 2 ^ 10). { replace (/ 2 ^ 10) with (bpow radix2 (-10)) by (simpl; lra). apply bpow_le; lia. }
    assert (B23 : bpow radix2 600 * 2 ^ 8 <= bpow radix2 1023). { replace (2 ^ 8) with (bpow radix2 8) by (simpl; lra). rewrite <- bpow_plus. apply bpow_le. lia. }
    assert (SG : sg * g <= sg * E) by (apply Rmult_le_compat_l; lra).
    assert (M1 : mr e' (2 * val s) (2 * (sg * E))) by (apply mr_scale_l, Ms).
    pose proof (mr_near _ _ _ M1 ltac:(lra) ltac:(lra)) as N1. assert (2 * e' * (2 * (sg * E)) <= 1 / 10 * (2 * (sg * E))) by (apply Rmult_le_compat_r; lra).
    destruct (mul_mr P (f64_lit 2.0) s fin_2 Fs) as [F1 R1]; [rewrite val_2, Rabs_pos_eq; lra|]. rewrite val_2 in R1.
    set (w := mul (f64_lit 2.0) s) in *. clearbody w. pose proof (mr_trans _ _ _ _ _ R1 M1) as M2.
    set (u := vv + e') in *. assert (U0 : 0 <= u <= 2 / 10 ^ 10) by (unfold u, vv; lra).
    set (NN := 2 * E - g) in *. assert (N0 : g <= NN) by (unfold NN; lra).
    assert (SN : sg * g <= sg * NN) by (apply Rmult_le_compat_l; lra).
    assert (SNU : sg * NN <= 2 * bpow radix2 600). { unfold NN. rewrite Rmult_minus_distr_l. lra. }
    assert (M3 : mr (u * (1 + 2 * 1) + 40 * (u * u)) (val w - val b) (sg * NN)).
    { apply (mr_sub u 1 _ (2 * (sg * E)) _ (sg * g)); [exact M2|eapply mr_weak; [|exact Mb]; unfold u, vv; lra|lra|lra|unfold NN; ring|lra|lra]. }
    assert (UU : 0 <= u * u <= 2 / 10 ^ 10 * u) by (split; [apply Rmult_le_pos; lra|apply Rmult_le_compat_r; lra]).
    set (z := u * (1 + 2 * 1) + 40 * (u * u)) in *. assert (Z0 : 0 <= z <= 1 / 10 ^ 9) by (unfold z; lra).
    pose proof (mr_near _ _ _ M3 ltac:(lra) ltac:(lra)) as N3. assert (2 * z * (sg * NN) <= 1 / 10 * (sg * NN)) by (apply Rmult_le_compat_r; lra).
    destruct (sub_mr P w b F1 Fb) as [F2 R2]; [rewrite Rabs_pos_eq; lra|].
    set (d := sub w b) in *. clearbody d. pose proof (mr_trans _ _ _ _ _ R2 M3) as M4.
    assert (DP : 0 < val d) by (apply (mr_pos _ _ _ M4); lra).
    assert (M5 : mr (e + (vv + z)) (val a / val d) (f / NN)).
    { replace (f / NN) with (sg * f / (sg * NN)) by (field; lra). apply mr_mul; [exact Ma|apply mr_inv; [lra|exact M4]]. }
    assert (Mv : mr (8 / 10 ^ 16) (f / NN) v). { eapply mr_weak; [|apply (mr_of_rel (7 / 10 ^ 16)); [lra|rewrite (Rabs_pos_eq v) by lra; exact Hq]]. lra. }
    pose proof (mr_trans _ _ _ _ _ M5 Mv) as M6. set (y := e + (vv + z) + 8 / 10 ^ 16) in *. assert (Y0 : 0 <= y <= 1 / 10 ^ 8) by (unfold y, vv; lra).
    pose proof (mr_near _ _ _ M6 ltac:(lra) ltac:(lra)) as N6. assert (2 * y * v <= 1 / 10 * v) by (apply Rmult_le_compat_r; lra).
    assert (B91 : bpow radix2 (-1022) <= 1 / 2 * bpow radix2 (-900)). { replace (1 / 2) with (bpow radix2 (-1)) by (simpl; lra). rewrite <- bpow_plus. apply bpow_le. lia. }
    assert (B10 : 2 <= bpow radix2 1023). { change 2 with (bpow radix2 1). apply bpow_le. lia. }
    destruct (div_mr P a d Fa F2 ltac:(lra)) as [F7 R7]; [rewrite Rabs_pos_eq; lra|]. fold r in F7, R7. split; [exact F7|].
    pose proof (mr_trans _ _ _ _ _ R7 M6) as M7. apply mr_abs in M7; [|unfold vv; lra]. rewrite (Rabs_pos_eq v) in M7 by lra.
    eapply Rle_trans; [exact M7|]. apply Rmult_le_compat_r; [lra|].
    assert (U2 : u * u <= e' * e' + 3 / 10 ^ 16 * e' + 1 / 10 ^ 31). { unfold u, vv. replace ((11103 / 10 ^ 20 + e') * (11103 / 10 ^ 20 + e')) with (e' * e' + 2 * (11103 / 10 ^ 20) * e' + 11103 / 10 ^ 20 * (11103 / 10 ^ 20)) by ring. lra. }
    assert (Y1 : vv + y <= 5 * e' + 2 / 10 ^ 15) by (unfold y, z, u, vv in *; lra).
    assert (Y2 : (vv + y) * (vv + y) <= (5 * e' + 2 / 10 ^ 15) * (5 * e' + 2 / 10 ^ 15)) by (apply Rmult_le_compat; unfold vv in *; lra).
    replace ((5 * e' + 2 / 10 ^ 15) * (5 * e' + 2 / 10 ^ 15)) with (25 * (e' * e') + 20 / 10 ^ 15 * e' + 4 / 10 ^ 30) in Y2 by field.
    assert (0 <= e' * e') by (apply Rmult_le_pos; lra).
    unfold y, z, u, vv in *. lra.
  Qed.

  Theorem Jn_acc : forall (n : nat) (x : f64) (v : R), (2 <= n)%nat -> fin x -> bpow radix2 (-400) <= val x <= 1 -> is_J n (val x) v -> bpow radix2 (-900) <= v ->
    exists r, @Jn (ieee P) (Z.of_nat n) x = Ok r /\ fin r /\ Rabs (val r - v) <= (5 / 10 ^ 13 + INR n / 10 ^ 14) * v.
  Proof.
    intros n x v Hn Fx Hx Iv Hv. apply BJ_unique in Iv. subst v.
    assert (X0 : 0 < val x <= 1) by (pose proof (bpow_gt_0 radix2 (-400)); lra).
    pose proof (BJ_order (val x) n X0 Hv) as Nn.
    set (sz := @as_u32 (ieee P) (f64_sqrt P (mul (f64_lit 160.0) (f64_of_Z (Z.of_nat n))))).
    assert (S1 : (17 <= sz)%Z) by (apply jsteps_ge; lia).
    assert (S3 : (2 * sz <= Z.of_nat n + 161)%Z).
    { pose proof (Z.div_mod (Z.of_nat n + 161) 2 ltac:(lia)) as D1. pose proof (Z.mod_pos_bound (Z.of_nat n + 161) 2 ltac:(lia)) as D2.
      set (k := ((Z.of_nat n + 161) / 2)%Z) in *. set (k2 := ((Z.of_nat n + 161) mod 2)%Z) in *. clearbody k k2.
      assert (sz <= k)%Z; [|lia]. apply jsteps_le; [lia|lia|].
      assert (Q1 : (Z.of_nat n + 160 <= 2 * k)%Z) by lia. assert (Q2 : ((Z.of_nat n + 160) * (Z.of_nat n + 160) <= 2 * k * (2 * k))%Z) by (apply Z.mul_le_mono_nonneg; lia).
      pose proof (Z.square_nonneg (Z.of_nat n - 160)) as Q3. lia. }
    assert (Es : sz = Z.of_nat (Z.to_nat sz)) by lia. set (s := Z.to_nat sz) in *. clearbody s.
    pose proof (Z.div_mod (Z.of_nat n + Z.of_nat s) 2 ltac:(lia)) as D1. pose proof (Z.mod_pos_bound (Z.of_nat n + Z.of_nat s) 2 ltac:(lia)) as D2.
    assert (Eh : ((Z.of_nat n + Z.of_nat s) / 2 = Z.of_nat (Z.to_nat ((Z.of_nat n + Z.of_nat s) / 2)))%Z) by (rewrite Z2Nat.id; [reflexivity|apply Z.div_pos; lia]).
    set (h := Z.to_nat ((Z.of_nat n + Z.of_nat s) / 2)) in *. clearbody h. set (md := ((Z.of_nat n + Z.of_nat s) mod 2)%Z) in *. clearbody md. rewrite Eh in D1.
    set (m := (2 * h)%nat). assert (Hm : (18 <= m)%nat /\ (n + 16 <= m)%nat /\ (2 * m <= 3 * n + 161)%nat) by (unfold m; lia).
    destruct Hm as (Hm1 & Hm3 & Hm4).
    pose proof fin_2 as F2. pose proof val_2 as V2.
    assert (Va : val (f64_abs x) = val x) by (rewrite val_abs, Rabs_pos_eq; lra).
    assert (Fab : fin (f64_abs x)) by (rewrite fin_abs; exact Fx).
    destruct (div_mr P (f64_lit 2.0) (f64_abs x) F2 Fab ltac:(lra)) as [Ft Mt].
    { rewrite V2, Va. rewrite Rabs_pos_eq by (apply Rlt_le, Rdiv_lt_0_compat; lra). pose proof (kt2 (val x) X0) as I1.
      assert (I2 : / val x <= bpow radix2 400) by (rewrite <- (Rinv_inv (bpow radix2 400)); rewrite <- bpow_opp; apply Rinv_le_contravar; [apply bpow_gt_0|apply Hx]).
      split.
      - apply Rle_trans with (bpow radix2 1); [apply bpow_le; lia|]. change (bpow radix2 1) with 2. exact I1.
      - apply Rle_trans with (bpow radix2 401); [|apply bpow_le; lia]. change 401%Z with (1 + 400)%Z. rewrite bpow_plus. change (bpow radix2 1) with 2. unfold Rdiv. lra. }
    rewrite V2, Va in Mt.
    assert (Hnm : (2 <= n < m)%nat) by lia. assert (Hm2 : (m <= 2000)%nat) by lia.
    destruct (jstate_loop P (val x) _ n m h Ft Hx Mt Hnm eq_refl Hm1 Hm2 Hv m _ ltac:(lia) (jstate_start (val x) n m h Hnm eq_refl Hm1 Hm2)) as ([[[[bjp bj] ans] sum] jsum] & L & _ & sg & G0 & Fp & Fb & Mb & Mp & [Lo Up] & TA & TS).
    eexists. split; [exact (jn_unfold n s h x _ (conj Hn Nn) Fx Hx Es ltac:(lia) Eh L)|]. cbn [fst snd].
    unfold jg in TA. replace (0 <? n)%nat with true in TA by (symmetry; apply Nat.ltb_lt; lia). rewrite Nat.sub_0_r in TS.
    destruct TA as (FA & MA & _ & _). destruct TS as (FS & MS & _ & _).
    pose proof (F0 (val x) m h Hx eq_refl Hm1) as FP. 
    pose proof (je_le n m h Hnm eq_refl Hm1 Hm2 0) as E0. pose proof (js_le n m h Hnm eq_refl Hm1 Hm2 0) as E1.
    assert (J01 : je m 0 <= js m 0) by (unfold js; assert (0 <= vv * INR (m - 0)); [apply Rmult_le_pos; [unfold vv; lra|apply pos_INR]|lra]).
    pose proof (ev_up (val x) n m h Hx Hnm eq_refl Hm1 Hm2 m ltac:(lia)) as EU. rewrite Nat.sub_diag in EU.
    assert (EG : mil (-1) (2 * / val x) (S m) 0 <= evs (val x) m m).
    { pose proof (ev_nonneg (val x) n m h Hx Hnm eq_refl Hm1 Hm2 (m - 1) ltac:(lia)) as Q. destruct m as [|m'] eqn:Em; [lia|]. cbn [evs] in *. replace (S m' - 1)%nat with m' in Q by lia. rewrite Nat.sub_diag. cbn [Nat.even]. lra. }
    assert (SU : sg * evs (val x) m m <= bpow radix2 600).
    { apply Rle_trans with (sg * (INR m * mil (-1) (2 * / val x) (S m) 0)); [apply Rmult_le_compat_l; lra|].
      replace (sg * (INR m * mil (-1) (2 * / val x) (S m) 0)) with (INR m * (sg * mil (-1) (2 * / val x) (S m) 0)) by ring.
      apply Rle_trans with (bpow radix2 11 * bpow radix2 513); [apply Rmult_le_compat; [apply pos_INR|lra|exact (J2000 n m h Hnm eq_refl Hm1 Hm2 m Hm2)|exact Up]|]. rewrite <- bpow_plus. apply bpow_le. lia. }
    pose proof (jquot (val x) m h X0 eq_refl Hm1 n Hn Hm3 Nn) as JQ. unfold NN in JQ.
    assert (V1 : BJ (val x) n <= 1). { pose proof (BJ_half (val x) n X0) as Q. eapply Rle_trans; [exact Q|]. change 1 with (bpow radix2 0). apply bpow_le. lia. }
    destruct (jn_tail ans bj sum sg _ _ _ (BJ (val x) n) (je m 0) (js m 0) FA Fb FS G0 (FP n ltac:(lia)) (FP 0%nat ltac:(lia)) EG (conj (proj1 E0) J01) ltac:(lra) MA Mb MS Lo SU JQ (conj Hv V1)) as [Fr Er].
    split; [exact Fr|]. eapply Rle_trans; [exact Er|]. apply Rmult_le_compat_r; [pose proof (bpow_gt_0 radix2 (-900)); lra|].
    assert (MN : 2 * INR m <= 3 * INR n + 161).
    { replace (3 * INR n + 161) with (INR (3 * n + 161)) by (rewrite plus_INR, mult_INR; simpl (INR 3); replace (INR 161) with 161 by (rewrite INR_IZR_INZ; reflexivity); lra). replace (2 * INR m) with (INR (2 * m)) by (rewrite mult_INR; simpl (INR 2); lra). apply le_INR. lia. }
    assert (JE : je m 0 = 25 / 2 * vv * INR m) by (unfold je, jw; rewrite Nat.sub_0_r; simpl (INR 0); field).
    assert (JS : js m 0 = 27 / 2 * vv * INR m) by (unfold js; rewrite JE, Nat.sub_0_r; field).
    assert (N20 : 2 <= INR n) by (replace 2 with (INR 2) by (simpl; lra); apply le_INR; lia).
    set (e := je m 0) in *. set (e' := js m 0) in *. clearbody e e'. assert (e' * e' <= 4 / 10 ^ 12 * e') by (apply Rmult_le_compat_r; lra). unfold vv in *. lra.
  Qed.
End Fl.

(** ** both signs of the argument *)
Theorem Jn_accurate : forall (P : platform) (n : nat) (x : f64) (v : R), (2 <= n)%nat -> finite x -> bpow radix2 (-400) <= Rabs (Binary.B2R x) <= 1 ->
  is_J n (Binary.B2R x) v -> bpow radix2 (-900) <= Rabs v ->
  exists r, @Jn (ieee P) (Z.of_nat n) x = Ok r /\ finite r /\ Rabs (Binary.B2R r - v) <= (5 / 10 ^ 13 + INR n / 10 ^ 14) * Rabs v.
Proof.
  intros P n x v Hn Fx Hx Iv Hv. rewrite <- !(val_fin x) in * by exact Fx.
  pose proof (bpow_gt_0 radix2 (-400)) as B4. pose proof (bpow_gt_0 radix2 (-900)) as B9.
  destruct (Rle_lt_dec 0 (val x)) as [S|S].
  - rewrite Rabs_pos_eq in Hx by exact S. assert (Pv : 0 < v) by (rewrite (BJ_unique _ _ _ Iv); apply BJ_pos; lra).
    rewrite Rabs_pos_eq in Hv by lra. rewrite (Rabs_pos_eq v) by lra. destruct (Jn_acc P n x v Hn Fx Hx Iv Hv) as (r & E & Fr & R). exists r. rewrite <- (val_fin r Fr). auto.
  - rewrite Rabs_left in Hx by exact S. set (y := f64_neg x). assert (Vy : val y = - val x) by apply val_neg. assert (Fy : fin y) by (unfold y; rewrite fin_neg; exact Fx).
    assert (Iy : is_J n (val y) ((-1) ^ n * v)) by (rewrite Vy; apply is_opp; exact Iv).
    assert (Pv : 0 < (-1) ^ n * v) by (rewrite (BJ_unique _ _ _ Iy); apply BJ_pos; lra).
    assert (Av : Rabs v = (-1) ^ n * v) by (rewrite <- (Rabs_pos_eq _ (Rlt_le _ _ Pv)), Rabs_mult, pow_1_abs; ring).
    destruct (Jn_acc P n y ((-1) ^ n * v) Hn Fy ltac:(rewrite Vy; exact Hx) Iy ltac:(lra)) as (r & E & Fr & R).
    pose proof (Jn_parity P (Z.of_nat n) y ltac:(lia) (fin_nonnan _ Fy)) as Q.
    assert (NN : f64_neg y = x) by (unfold y; apply neg_neg). rewrite NN, E in Q.
    destruct (@Jn (ieee P) (Z.of_nat n) x) as [r'| |]; try contradiction. exists r'. split; [reflexivity|].
    rewrite BI_even_odd in Q. rewrite opp_pow in *. rewrite Av. clear Av. destruct (Nat.odd n).
    + assert (Fv : fin r' /\ val r' = - val r).
      { destruct Q as [Q|(_ & N' & Z1 & Z2)].
        - assert (Q' : f64_neg r = r') by (apply eqn_nonnan; [symmetry; exact Q|]; apply fin_nonnan; rewrite fin_neg; exact Fr).
          split; [rewrite <- Q', fin_neg; exact Fr|rewrite <- Q', val_neg; reflexivity].
        - split; [apply fin_iff_val; [exact N'|]; rewrite Z2, Rabs_R0; apply Om_pos|lra]. }
      destruct Fv as [Fr' Vr']. split; [exact Fr'|]. rewrite <- (val_fin r' Fr'), Vr'. replace (- val r - v) with (- (val r - -1 * v)) by ring. rewrite Rabs_Ropp. exact R.
    + subst r'. split; [exact Fr|]. rewrite <- (val_fin r Fr). rewrite Rmult_1_l in *. exact R.
Qed.

Lemma ex_jn_acc : (finite (f64_lit 0.5) /\ Binary.B2R (f64_lit 0.5) = 0.5) /\ bpow radix2 (-400) <= Rabs 0.5 <= 1 /\ exists v, is_J 5 0.5 v /\ bpow radix2 (-900) <= Rabs v.
Proof.
  lit_facts 0.5%dec 1%Z 1%Z HF HV. rewrite (val_fin _ HF) in HV. split; [split; [exact HF|lra]|]. rewrite Rabs_pos_eq by lra.
  split; [split; [apply Rle_trans with (bpow radix2 (-1)); [apply bpow_le; lia|simpl; lra]|lra]|].
  exists (BJ 0.5 5). split; [apply BJ_is|]. pose proof (BJ_rng 0.5 5 ltac:(lra)) as [G _]. rewrite Rabs_pos_eq by (left; apply BJ_pos; lra).
  eapply Rle_trans; [|exact G]. apply Rle_trans with (bpow radix2 (-20)); [apply bpow_le; lia|]. simpl. lra.
Qed.
