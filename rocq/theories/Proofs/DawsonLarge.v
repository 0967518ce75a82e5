(** * dawson is ten percent too large on stretches of every large argument *)

From Coq Require Import ZArith Reals Bool Lra Lia List.
From Flocq Require Import Core IEEE754.BinarySingleNaN IEEE754.Binary IEEE754.Bits.
From Verif.Model Require Import Base Arith Utils Dawson.
From Verif.Float Require Import Bits64 Ieee Exact Platforms.
From Verif.Spec Require Import F64Spec Outcome DawsonSpec LibmSpec.
From Verif.Proofs Require Import F64 F64Ops Lits Ext Boundaries DawsonBad DawsonNeg DawsonTrue ExpBounds Ideal ErfcxAcc ErfcAcc NuPanic.
Import ListNotations.
Open Scope R_scope.

Local Notation u := (/ 2 ^ 53).
Local Notation B := Binary.B2R.
Local Notation exp := Rtrigo_def.exp.
Local Notation w := (/ 2 ^ 40).

(** all quantities lie between 2^-300 and 2^300 *)
Lemma fmid : forall r x, rounds r x -> bpow radix2 (-300) <= x <= bpow radix2 300 ->
  fin r /\ x * (1 - u) <= B r <= x * (1 + u).
Proof.
  intros r x H Hx. pose proof (bp (-1022) (-300) ltac:(lia)). pose proof (bp 300 1000 ltac:(lia)).
  apply fpos; [exact H|lra].
Qed.

Lemma b300 : bpow radix2 (-300) <= / 2 ^ 200 /\ 2 ^ 200 <= bpow radix2 300.
Proof.
  replace (/ 2 ^ 200) with (bpow radix2 (-200)) by (simpl; lra). replace (2 ^ 200) with (bpow radix2 200) by (simpl; lra).
  split; apply bp; lia.
Qed.

Lemma lit04 : fin (f64_lit 0.4) /\ 4 / 10 * (1 - u) <= B (f64_lit 0.4) <= 4 / 10 * (1 + u).
Proof.
  pose proof (lit_spec 0.4) as R. replace (R_of_dec 0.4) with (4 / 10) in R.
  - apply fmid; [exact R|]. destruct b300. lra.
  - unfold R_of_dec; cbn [dman dexp]; rewrite powerRZ_10; simpl; lra.
Qed.

Section Large.
  Context (P : platform) (EX : accurate_exp (p_exp P)).

  Lemma exp_mid : forall t, fin t -> -30 <= B t <= 1 ->
    fin (libm P (p_exp P) t) /\ exp (B t) * (1 - w) <= B (libm P (p_exp P) t) <= exp (B t) * (1 + w).
  Proof.
    intros t F H. rewrite libm_nonnan by (apply fin_nonnan, F).
    destruct (EX t (fin_nonnan _ F)) as [N V]; [rewrite val_fin by exact F; lra|]. rewrite (val_fin t F) in V.
    pose proof (exp_pos (B t)) as E0. assert (E1 : exp (B t) <= 3). { pose proof (exp_mono (B t) 1 ltac:(lra)). pose proof exp_1_le. lra. }
    replace (bpow radix2 (-50)) with (/ 2 ^ 50) in V by (simpl; lra). apply Rabs_le_inv in V.
    assert (G : fin (p_exp P t)) by (apply fin_iff_val; [exact N|]; pose proof Om_big; apply Rabs_def1; lra).
    split; [exact G|]. rewrite val_fin in V by exact G. lra.
  Qed.

  (** one iteration: lower bound for [n0 * sum] *)
  Definition dst (N : R) (m1 m2 : Z) (a b s S : R) (st : f64 * f64 * f64 * f64) : Prop :=
    let '(d1, d2, e1, sum) := st in
    (fin d1 /\ B d1 = IZR m1) /\ (fin d2 /\ B d2 = IZR m2) /\ (fin e1 /\ a <= B e1 <= b)
    /\ (fin sum /\ s <= N * B sum /\ 0 <= B sum <= S).

  Lemma exactZ : forall z m, rounds z (IZR m) -> (Z.abs m <= 2 ^ 53)%Z -> fin z /\ B z = IZR m.
  Proof.
    intros z m R H. assert (A : Rabs (IZR m) < Om).
    { rewrite <- abs_IZR. apply IZR_le in H. pose proof Om_big. change (IZR (2 ^ 53)) with 9007199254740992 in H. lra. }
    destruct (rounds_small _ _ R) as [G W]; [rewrite rnd_fmt by (apply fmt_IZR; exact H); exact A|].
    split; [exact G|]. rewrite W. apply rnd_fmt, fmt_IZR, H.
  Qed.
  Lemma int_add : forall d m, fin d -> B d = IZR m -> (Z.abs (m + 2) <= 2 ^ 53)%Z ->
    fin (f64_add P d (f64_lit 2.0)) /\ B (f64_add P d (f64_lit 2.0)) = IZR (m + 2).
  Proof.
    intros d m F V H. pose proof (add_spec P d _ F fin_2) as R. rewrite V, <- (val_fin _ fin_2), val_2, <- plus_IZR in R.
    apply exactZ; assumption.
  Qed.
  Lemma int_sub : forall d m, fin d -> B d = IZR m -> (Z.abs (m - 2) <= 2 ^ 53)%Z ->
    fin (f64_sub P d (f64_lit 2.0)) /\ B (f64_sub P d (f64_lit 2.0)) = IZR (m - 2).
  Proof.
    intros d m F V H. pose proof (sub_spec P d _ F fin_2) as R. rewrite V, <- (val_fin _ fin_2), val_2, <- minus_IZR in R.
    apply exactZ; assumption.
  Qed.

  Lemma cval_lo : forall i, (0 <= i <= 5)%Z ->
    let cv := libm P (p_exp P) (f64_neg (f64_mul P
           (f64_mul P (f64_add P (f64_mul P (f64_lit 2.0) (f64_of_Z i)) (f64_lit 1.0)) (f64_lit 0.4))
           (f64_mul P (f64_add P (f64_mul P (f64_lit 2.0) (f64_of_Z i)) (f64_lit 1.0)) (f64_lit 0.4)))) in
    fin cv /\ exp (- (IZR (2 * i + 1) ^ 2 * (16 / 100) * (1 + w))) * (1 - w) <= B cv <= 2.
  Proof.
    intros i Hi cv.
    assert (A2 : fin (f64_add P (f64_mul P (f64_lit 2.0) (f64_of_Z i)) (f64_lit 1.0)) /\ B (f64_add P (f64_mul P (f64_lit 2.0) (f64_of_Z i)) (f64_lit 1.0)) = IZR (2 * i + 1)).
    { destruct (of_Z_exact i ltac:(lia)) as [FI VI]. pose proof (mul_spec P _ _ fin_2 FI) as R. rewrite VI, <- (val_fin _ fin_2), val_2, <- mult_IZR in R.
      destruct (exactZ _ _ R ltac:(lia)) as [FM VM]. pose proof (add_spec P _ _ FM fin_1) as R2. rewrite VM, <- (val_fin _ fin_1), val_1, <- plus_IZR in R2.
      apply exactZ; [exact R2|lia]. }
    unfold cv. clear cv. destruct A2 as [F2 V2]. set (o := f64_add P _ _) in *. clearbody o.
    assert (O : 1 <= IZR (2 * i + 1) <= 11) by (split; apply IZR_le; lia). set (q := IZR (2 * i + 1)) in *. clearbody q.
    destruct lit04 as [F4 V4]. destruct b300 as [L U].
    pose proof (mul_spec P _ _ F2 F4) as R. rewrite V2 in R.
    assert (M1 : q * (4 / 10 * (1 - u)) <= q * B (f64_lit 0.4) <= q * (4 / 10 * (1 + u))) by (split; apply Rmult_le_compat_l; lra).
    destruct (fmid _ _ R) as [FW VW]; [lra|]. set (v := f64_mul P o (f64_lit 0.4)) in *. clearbody v.
    assert (H1 : 0 < B v <= q * (4 / 10) * (1 + 4 * u)) by lra.
    pose proof (mul_spec P _ _ FW FW) as R2.
    assert (M2 : B v * B v <= (q * (4 / 10) * (1 + 4 * u)) * (q * (4 / 10) * (1 + 4 * u))) by (apply Rmult_le_compat; lra).
    assert (M3 : 3 / 10 * (3 / 10) <= B v * B v) by (apply Rmult_le_compat; lra).
    assert (Q2 : q * q <= 11 * 11) by (apply Rmult_le_compat; lra). assert (Q1 : 1 * 1 <= q * q) by (apply Rmult_le_compat; lra).
    assert (M4 : B v * B v <= q * q * (16 / 100) * (1 + 9 * u)) by (eapply Rle_trans; [exact M2|]; lra).
    destruct (fmid _ _ R2) as [FV VV]; [lra|].
    assert (FN : fin (f64_neg (f64_mul P v v))) by (rewrite fin_neg; exact FV).
    destruct (exp_mid _ FN) as [FE VE]; [rewrite B2R_neg; lra|]. split; [exact FE|].
    rewrite B2R_neg in VE. set (z := B (f64_mul P v v)) in *.
    assert (Z1 : exp (- (q ^ 2 * (16 / 100) * (1 + w))) <= exp (- z)) by (apply exp_mono; simpl; lra).
    assert (Z2 : exp (- z) <= 1) by (rewrite <- exp_0; apply exp_mono; lra).
    split; [|lra]. eapply Rle_trans; [|apply VE]. apply Rmult_le_compat_r; lra.
  Qed.

  Lemma body_lo : forall N rho m1 m2 a b s S a' b' p q cl s' e2 st i, (0 <= i <= 5)%Z ->
    400 <= N <= 2 ^ 40 -> (1 <= m2 - 2)%Z -> IZR (m2 - 2) <= N -> IZR (m1 + 2) <= rho * N -> (1 <= m1 + 2)%Z -> 1 <= rho <= 2 ->
    fin e2 -> p <= B e2 <= q -> 1 <= a -> 1 <= p -> b <= 100 -> q <= 2 -> 1 <= a' -> b' <= 200 ->
    a' <= a * p * (1 - u) -> b * q * (1 + u) <= b' ->
    0 <= cl <= exp (- (IZR (2 * i + 1) ^ 2 * (16 / 100) * (1 + w))) * (1 - w) ->
    0 <= s -> s' <= (s + cl * (a' / rho + / b')) * (1 - w) -> S <= 10 ^ 6 ->
    dst N m1 m2 a b s S st -> dst N (m1 + 2) (m2 - 2) a' b' s' (2 * S + 2000) (@dawson_body (ieee P) (f64_lit 0.4) e2 st i).
  Proof.
    intros N rho m1 m2 a b s S a' b' p q cl s' e2 [[[d1 d2] e1] sum] i Hi HN Hm2 Hm2N Hm1 Hm1' Hrho Fe2 He2 Ha Hp Hb Hq Ha' Hb' Ea Eb Hcl Hs Es HS
      ((F1 & V1) & (F2 & V2) & (Fe & He) & (Fs & Hs1 & Hs2)).
    assert (M2 : 1 <= IZR (m2 - 2)) by (apply IZR_le; exact Hm2). assert (M1 : 1 <= IZR (m1 + 2)) by (apply IZR_le; exact Hm1').
    assert (B1 : IZR (m1 + 2) <= 2 * 2 ^ 40) by (assert (rho * N <= 2 * 2 ^ 40) by (apply Rmult_le_compat; lra); lra).
    assert (Z1 : (Z.abs (m1 + 2) <= 2 ^ 53)%Z). { apply le_IZR. rewrite abs_IZR, Rabs_pos_eq by lra. change (IZR (2 ^ 53)) with 9007199254740992. lra. }
    assert (Z2 : (Z.abs (m2 - 2) <= 2 ^ 53)%Z). { apply le_IZR. rewrite abs_IZR, Rabs_pos_eq by lra. change (IZR (2 ^ 53)) with 9007199254740992. lra. }
    destruct (int_add d1 m1 F1 V1 Z1) as [G1 W1]. destruct (int_sub d2 m2 F2 V2 Z2) as [G2 W2].
    rewrite body_eq. set (D1 := f64_add P d1 _) in *. set (D2 := f64_sub P d2 _) in *. clearbody D1 D2.
    destruct (cval_lo i Hi) as [FC VC]. set (cv := libm P (p_exp P) _) in *. clearbody cv.
    destruct b300 as [LL UU].
    (* e1 *)
    assert (E1 : a * p <= B e1 * B e2 <= b * q) by (split; apply Rmult_le_compat; lra).
    assert (BQ : b * q <= 100 * 2) by (apply Rmult_le_compat; lra). assert (AP : 1 * 1 <= a * p) by (apply Rmult_le_compat; lra).
    destruct (fmid _ _ (mul_spec P _ _ Fe Fe2)) as [FE VE]; [lra|]. set (E := f64_mul P e1 e2) in *. clearbody E.
    assert (HE : a' <= B E <= b') by lra.
    (* e1 / d1 *)
    set (x1 := IZR (m1 + 2)) in *. set (x2 := IZR (m2 - 2)) in *.
    pose proof (div_spec P _ _ FE G1 ltac:(rewrite W1; lra)) as R1. rewrite W1 in R1.
    pose proof (Rinv_0_lt_compat x1 ltac:(lra)) as I1.
    assert (J1 : / (2 * 2 ^ 40) <= / x1) by (apply Rinv_le_contravar; lra). assert (J1' : / x1 <= 1) by (rewrite <- Rinv_1; apply Rinv_le_contravar; lra).
    assert (Q1 : 1 * / (2 * 2 ^ 40) <= B E / x1) by (unfold Rdiv; apply Rmult_le_compat; lra).
    assert (Q1' : B E / x1 <= 200 * 1) by (unfold Rdiv; apply Rmult_le_compat; lra).
    destruct (fmid _ _ R1) as [FQ1 VQ1]; [lra|]. set (r1 := f64_div P E D1) in *. clearbody r1.
    (* 1 / (d2 e1) *)
    pose proof (mul_spec P _ _ G2 FE) as R2. rewrite W2 in R2.
    assert (Q2 : 1 * 1 <= x2 * B E) by (apply Rmult_le_compat; lra).
    assert (Q2' : x2 * B E <= N * b') by (apply Rmult_le_compat; lra).
    assert (NB : N * b' <= 2 ^ 40 * 200) by (apply Rmult_le_compat; lra).
    destruct (fmid _ _ R2) as [FQ2 VQ2]; [lra|]. set (t2 := f64_mul P D2 E) in *. clearbody t2.
    pose proof (div_spec P _ _ fin_1 FQ2 ltac:(lra)) as R3. rewrite <- (val_fin _ fin_1), val_1 in R3.
    replace (1 / B t2) with (/ B t2) in R3 by (unfold Rdiv; lra).
    assert (J2 : / (N * b' * (1 + u)) <= / B t2) by (apply Rinv_le_contravar; lra).
    assert (J2' : / B t2 <= / (1 / 2)) by (apply Rinv_le_contravar; lra).
    assert (J2'' : / (2 ^ 40 * 200 * 2) <= / (N * b' * (1 + u))) by (apply Rinv_le_contravar; lra).
    destruct (fmid _ _ R3) as [FQ3 VQ3]; [lra|]. set (r2 := f64_div P _ t2) in *. clearbody r2.
    (* sum of both *)
    destruct (fmid _ _ (add_spec P _ _ FQ1 FQ3)) as [FA VA]; [lra|]. set (r3 := f64_add P r1 r2) in *. clearbody r3.
    (* lower bound of N * r3 *)
    assert (LB : (a' / rho + / b') * (1 - 5 * u) <= N * B r3).
    { assert (K1 : a' / rho <= N * (B E / x1)).
      { assert (X : / (rho * N) <= / x1) by (apply Rinv_le_contravar; lra).
        assert (Y : a' * / (rho * N) <= B E * / x1).
        { apply Rmult_le_compat; try lra. left. apply Rinv_0_lt_compat. apply Rmult_lt_0_compat; lra. }
        replace (a' / rho) with (N * (a' * / (rho * N))) by (field; lra). unfold Rdiv. apply Rmult_le_compat_l; lra. }
      assert (K2 : / b' * (1 - 2 * u) <= N * / B t2).
      { assert (Y : N * / (N * b' * (1 + u)) <= N * / B t2) by (apply Rmult_le_compat_l; lra).
        replace (N * / (N * b' * (1 + u))) with (/ b' * / (1 + u)) in Y by (field; lra).
        assert (/ b' * (1 - 2 * u) <= / b' * / (1 + u)).
        { apply Rmult_le_compat_l; [left; apply Rinv_0_lt_compat; lra|lra]. } lra. }
      assert (K3 : N * (B E / x1 * (1 - u)) <= N * B r1) by (apply Rmult_le_compat_l; lra).
      assert (K4 : N * (/ B t2 * (1 - u)) <= N * B r2) by (apply Rmult_le_compat_l; lra).
      assert (K5 : N * ((B r1 + B r2) * (1 - u)) <= N * B r3) by (apply Rmult_le_compat_l; lra).
      assert (0 < a' / rho) by (apply Rdiv_lt_0_compat; lra). assert (0 < / b') by (apply Rinv_0_lt_compat; lra).
      assert (N * B r1 >= a' / rho * (1 - u)) by lra. assert (N * B r2 >= / b' * (1 - 2 * u) * (1 - u)) by lra. lra. }
    (* product *)
    assert (CV0 : / 2 ^ 60 <= B cv).
    { eapply Rle_trans; [|apply VC]. pose proof exp_m30 as X. replace (bpow radix2 (-100)) with (/ 2 ^ 100) in X by (simpl; lra).
      assert (O : 1 <= IZR (2 * i + 1) <= 11) by (split; apply IZR_le; lia). set (o := IZR (2 * i + 1)) in *. clearbody o.
      assert (Q : o * o <= 11 * 11) by (apply Rmult_le_compat; lra).
      assert (Y : exp (- (20)) <= exp (- (o ^ 2 * (16 / 100) * (1 + w)))) by (apply exp_mono; simpl; lra).
      assert (Z : / 2 ^ 40 <= exp (- (20))).
      { pose proof (expn_1 (1 / 2)) as T. replace (exp (- (20))) with (exp (- (1 / 2)) ^ 40) by (rewrite <- exp_pow; f_equal; simpl; lra).
        replace (/ 2 ^ 40) with ((1 / 2) ^ 40) by (simpl; lra). apply pow_incr. lra. }
      assert (exp (- (o ^ 2 * (16 / 100) * (1 + w))) * (1 - w) >= / 2 ^ 40 * (1 - w)) by (apply Rle_ge, Rmult_le_compat_r; lra). lra. }
    assert (R3L : / 2 ^ 50 <= B r3 <= 1000) by lra.
    assert (PL : / 2 ^ 60 * / 2 ^ 50 <= B cv * B r3) by (apply Rmult_le_compat; lra).
    assert (PU : B cv * B r3 <= 2 * 1000 / 4 * 2) by (assert (B r3 <= 500) by lra; assert (B cv * B r3 <= 2 * 500) by (apply Rmult_le_compat; lra); lra).
    destruct (fmid _ _ (mul_spec P _ _ FC FA)) as [FM VM]; [lra|]. set (r4 := f64_mul P cv r3) in *. clearbody r4.
    assert (R4L : / 2 ^ 60 * / 2 ^ 50 * (1 - u) <= B r4) by lra.
    destruct (fmid _ _ (add_spec P _ _ Fs FM)) as [FF VF]; [lra|]. set (r5 := f64_add P sum r4) in *. clearbody r5.
    split; [split; [exact G1|exact W1]|]. split; [split; [exact G2|exact W2]|]. split; [split; [exact FE|exact HE]|].
    split; [exact FF|]. split; [|lra].
    (* the new lower bound *)
    set (y := a' / rho + / b') in *.
    assert (Y0 : 0 < y). { unfold y. assert (0 < a' / rho) by (apply Rdiv_lt_0_compat; lra). assert (0 < / b') by (apply Rinv_0_lt_compat; lra). lra. }
    assert (C1 : cl * (y * (1 - 5 * u)) <= B cv * (N * B r3)) by (apply Rmult_le_compat; try lra).
    assert (C2 : N * ((B cv * B r3) * (1 - u)) <= N * B r4) by (apply Rmult_le_compat_l; lra).
    assert (C3 : N * ((B sum + B r4) * (1 - u)) <= N * B r5) by (apply Rmult_le_compat_l; lra).
    assert (C4 : 0 <= cl * y) by (apply Rmult_le_pos; lra).
    assert (C5 : cl * y * (1 - 5 * u) * (1 - u) <= N * B r4) by lra.
    assert (C6 : (s + cl * y * (1 - 5 * u) * (1 - u)) * (1 - u) <= N * B r5) by lra.
    lra.
  Qed.

  (** the weights actually used *)
  Lemma cl0 : 0 <= 852 / 1000 <= exp (- (IZR (2 * 0 + 1) ^ 2 * (16 / 100) * (1 + w))) * (1 - w).
  Proof.
    change (IZR (2 * 0 + 1)) with 1. pose proof (expn_3 (1 ^ 2 * (16 / 100) * (1 + w)) ltac:(simpl; lra)) as T.
    set (e := exp _) in *. clearbody e. assert (85211 / 100000 <= e) by (eapply Rle_trans; [|exact T]; lra). lra.
  Qed.
  Lemma cl1 : 0 <= 236 / 1000 <= exp (- (IZR (2 * 1 + 1) ^ 2 * (16 / 100) * (1 + w))) * (1 - w).
  Proof.
    change (IZR (2 * 1 + 1)) with 3. pose proof (expn_3 (36 / 100 * (1 + w)) ltac:(lra)) as T.
    replace (exp (- (3 ^ 2 * (16 / 100) * (1 + w)))) with (exp (- (36 / 100 * (1 + w))) ^ 4) by (rewrite <- exp_pow; f_equal; simpl; lra).
    set (e := exp _) in *. clearbody e. assert (L : 6970 / 10000 <= e) by (eapply Rle_trans; [|exact T]; lra).
    assert (M : (6970 / 10000) ^ 4 <= e ^ 4) by (apply pow_incr; lra). lra.
  Qed.
  Lemma cl2 : 0 <= 18 / 1000 <= exp (- (IZR (2 * 2 + 1) ^ 2 * (16 / 100) * (1 + w))) * (1 - w).
  Proof.
    change (IZR (2 * 2 + 1)) with 5. pose proof (expn_3 (4 / 10 * (1 + w)) ltac:(lra)) as T.
    replace (exp (- (5 ^ 2 * (16 / 100) * (1 + w)))) with (exp (- (4 / 10 * (1 + w))) ^ 10) by (rewrite <- exp_pow; f_equal; simpl; lra).
    set (e := exp _) in *. clearbody e. assert (L : 66932 / 100000 <= e) by (eapply Rle_trans; [|exact T]; lra).
    assert (M : (66932 / 100000) ^ 10 <= e ^ 10) by (apply pow_incr; lra). lra.
  Qed.
  Lemma cli : forall i, 0 <= 0 <= exp (- (IZR (2 * i + 1) ^ 2 * (16 / 100) * (1 + w))) * (1 - w).
  Proof. intros i. split; [lra|]. apply Rmult_le_pos; [left; apply exp_pos|lra]. Qed.

  Lemma loop_lo : forall k e1 e2 d1 d2 s0, (200 <= k <= 2 ^ 30)%Z -> fin e1 -> 1268 / 1000 <= B e1 <= 137 / 100 ->
    fin e2 -> 16078 / 10000 <= B e2 <= 1877 / 1000 ->
    fin d1 -> B d1 = IZR (2 * k + 1) -> fin d2 -> B d2 = IZR (2 * k - 1) -> fin s0 -> B s0 = 0 ->
    let '(_, _, _, sum) := fold_left (@dawson_body (ieee P) (f64_lit 0.4) e2) (range 0 6) (d1, d2, e1, s0) in
    fin sum /\ 296 / 100 <= IZR (2 * k) * B sum /\ 0 <= B sum <= 10 ^ 6.
  Proof.
    intros k e1 e2 d1 d2 s0 Hk F1 H1 F2 H2 G1 V1 G2 V2 Fs Vs.
    assert (HN : 400 <= IZR (2 * k) <= 2 ^ 40).
    { split; [apply IZR_le; lia|]. rewrite pow_IZR. apply IZR_le. change (2 ^ Z.of_nat 40)%Z with (1024 * 2 ^ 30)%Z. lia. }
    set (N := IZR (2 * k)) in *.
    assert (I0 : dst N (2 * k + 1) (2 * k - 1) (1268 / 1000) (137 / 100) 0 0 (d1, d2, e1, s0)).
    { split; [split; assumption|split; [split; assumption|split; [split; assumption|split; [exact Fs|rewrite Vs; lra]]]]. }
    change (range 0 6) with [0; 1; 2; 3; 4; 5]%Z. cbn [fold_left].
    assert (MZ : forall c, IZR (2 * k + c) = N + IZR c) by (intros c; unfold N; apply plus_IZR).
    Ltac side k MZ := first
      [ lia
      | match goal with |- IZR ?a <= _ => let z := fresh in let q := constr:(a) in
          first [ replace a with (2 * k + 3)%Z by lia | replace a with (2 * k + 5)%Z by lia | replace a with (2 * k + 7)%Z by lia
                | replace a with (2 * k + 9)%Z by lia | replace a with (2 * k + 11)%Z by lia | replace a with (2 * k + 13)%Z by lia
                | replace a with (2 * k + -3)%Z by lia | replace a with (2 * k + -5)%Z by lia | replace a with (2 * k + -7)%Z by lia
                | replace a with (2 * k + -9)%Z by lia | replace a with (2 * k + -11)%Z by lia | replace a with (2 * k + -13)%Z by lia ];
          rewrite MZ; lra end
      | assumption | lra | exact cl0 | exact cl1 | exact cl2 | apply cli ].
    eapply (body_lo N (10075 / 10000) _ _ _ _ _ _ (20386 / 10000) (2572 / 1000) (16078 / 10000) (1877 / 1000) (852 / 1000) (2055 / 1000) e2 _ 0%Z) in I0; [|side k MZ ..].
    eapply (body_lo N (10125 / 10000) _ _ _ _ _ _ (32776 / 10000) (4828 / 1000) (16078 / 10000) (1877 / 1000) (236 / 1000) (28677 / 10000) e2 _ 1%Z) in I0; [|side k MZ ..].
    eapply (body_lo N (10175 / 10000) _ _ _ _ _ _ (52697 / 10000) (90625 / 10000) (16078 / 10000) (1877 / 1000) (18 / 1000) (29628 / 10000) e2 _ 2%Z) in I0; [|side k MZ ..].
    eapply (body_lo N 2 _ _ _ _ _ _ (8 + 4 / 10) (17 + 1 / 10) (16078 / 10000) (1877 / 1000) 0 (29626 / 10000) e2 _ 3%Z) in I0; [|side k MZ ..].
    eapply (body_lo N 2 _ _ _ _ _ _ (13 + 4 / 10) (32 + 2 / 10) (16078 / 10000) (1877 / 1000) 0 (29624 / 10000) e2 _ 4%Z) in I0; [|side k MZ ..].
    eapply (body_lo N 2 _ _ _ _ _ _ 21 61 (16078 / 10000) (1877 / 1000) 0 (29622 / 10000) e2 _ 5%Z) in I0; [|side k MZ ..].
    destruct (dawson_body _ _ _ 5%Z) as [[[x y] z] sum]. destruct I0 as (_ & _ & _ & FS & L & U).
    split; [exact FS|]. split; lra.
  Qed.

  Lemma isqrtpi_lo : fin (f64_div P (f64_lit 1.0) (f64_sqrt P (@PI (ieee P)))) /\ 563 / 1000 <= B (f64_div P (f64_lit 1.0) (f64_sqrt P (@PI (ieee P)))) <= 1.
  Proof.
    destruct (isqrtpi P) as [F H]. split; [exact F|].
    assert (C1 : f64_le (f64_lit 0.5634765625) (f64_div P (f64_lit 1.0) (f64_sqrt P (@PI (ieee P)))) = true) by (vm_compute; reflexivity).
    apply le_true in C1. destruct C1 as (_ & _ & L). rewrite (val_fin _ F) in L.
    lit_facts 0.5634765625%dec 577%Z 10%Z HF HV. rewrite HV in L. lra.
  Qed.

  Theorem dawson_large : forall (x : f64) (k : Z), number x -> (200 <= k <= 2 ^ 30)%Z ->
    8 / 10 * IZR k + 3 / 10 <= val x <= 8 / 10 * IZR k + 39 / 100 ->
    exists r, @dawson (ieee P) x = Ok r /\ finite r /\ 71 / 100 <= IZR k * val r /\ val r <= 10 ^ 7.
  Proof.
    intros x k Nx Hk Hx.
    assert (K : 200 <= IZR k <= 2 ^ 30) by (split; [apply IZR_le; lia|rewrite pow_IZR; apply IZR_le; change (2 ^ Z.of_nat 30)%Z with (2 ^ 30)%Z; lia]).
    assert (Fx : fin x) by (apply fin_iff_val; [exact Nx|rewrite Rabs_pos_eq by lra; pose proof Om_big; lra]).
    rewrite (val_fin x Fx) in Hx.
    assert (Sx : f64_sign x = false).
    { rewrite f64_sign_Bsign. apply sign_pos; [exact Nx|]. rewrite (val_fin x Fx). lra. }
    assert (Ax : f64_abs x = x) by (destruct x as [s|s| |s m e H]; cbn in Sx |- *; try discriminate Fx; subst; reflexivity).
    rewrite dawson_unfold, Ax.
    assert (L2 : val (f64_lit 0.2) <= 1 / 4).
    { destruct (lit_spec 0.2) as [_ ->]. apply rs_le_fmt; [fq 1%Z 2%Z|pose proof Om_pos; lra|].
      unfold R_of_dec; cbn [dman dexp]; rewrite powerRZ_10; simpl; lra. }
    assert (N2 : nonnan (f64_lit 0.2)) by apply (lit_spec 0.2).
    rewrite (proj2 (lt_false x (f64_lit 0.2) Nx N2)) by (rewrite (val_fin x Fx); lra).
    destruct b300 as [LL UU]. destruct lit_half as [FH VH]. destruct lit04 as [F4 V4].
    (* n0 = 2 k *)
    pose proof (mul_spec P _ _ FH Fx) as R1. rewrite VH in R1. destruct (fmid _ _ R1) as [G1 W1]; [lra|].
    pose proof (div_spec P _ _ G1 F4 ltac:(lra)) as R2. set (j1 := f64_mul P (f64_lit 0.5) x) in *.
    assert (I4 : 25 / 10 * (1 - 2 * u) <= / B (f64_lit 0.4) <= 25 / 10 * (1 + 2 * u)).
    { split.
      - replace (25 / 10 * (1 - 2 * u)) with (/ (/ (25 / 10 * (1 - 2 * u)))) by (field; lra). apply Rinv_le_contravar; lra.
      - replace (25 / 10 * (1 + 2 * u)) with (/ (/ (25 / 10 * (1 + 2 * u)))) by (field; lra). apply Rinv_le_contravar; lra. }
    assert (Q2 : (1 / 2 * B x * (1 - u)) * (25 / 10 * (1 - 2 * u)) <= B j1 / B (f64_lit 0.4)) by (unfold Rdiv; apply Rmult_le_compat; lra).
    assert (Q2' : B j1 / B (f64_lit 0.4) <= (1 / 2 * B x * (1 + u)) * (25 / 10 * (1 + 2 * u))) by (unfold Rdiv; apply Rmult_le_compat; lra).
    destruct (fmid _ _ R2) as [G2 W2]; [lra|]. set (j2 := f64_div P j1 (f64_lit 0.4)) in *.
    pose proof (add_spec P _ _ G2 FH) as R3. rewrite VH in R3. destruct (fmid _ _ R3) as [G3 W3]; [lra|].
    assert (J3 : IZR k + 1 / 2 <= B (dindex P x) < IZR k + 1) by (unfold dindex; fold j1; fold j2; lra).
    assert (FD : fin (dindex P x)) by exact G3.
    assert (T : f64_to_int 0 (2 ^ 64 - 1) (dindex P x) = k).
    { rewrite (to_int_val 0 (2 ^ 64 - 1) _ (fin_nonnan _ FD) ltac:(lia) ltac:(lia) ltac:(lia)).
      rewrite (val_fin _ FD). rewrite Ztrunc_floor by lra. rewrite (Zfloor_imp k); [lia|]. rewrite plus_IZR. lra. }
    rewrite T.
    assert (AU : arith_u (p_checks P) 64 (2 * k) = Ok (2 * k)%Z).
    { unfold arith_u. replace (in_range 0 (2 ^ 64 - 1) (2 * k)) with true; [reflexivity|]. symmetry. unfold in_range. apply andb_true_iff. split; apply Z.leb_le; lia. }
    rewrite AU. cbn [bind]. rewrite sampled_eq. cbv zeta. rewrite Ax. clear T AU J3 FD R3 G3 W3 R2 G2 W2 Q2 Q2' I4 R1 G1 W1. clear j1 j2.
    (* xp *)
    destruct (of_Z_exact (2 * k) ltac:(lia)) as [F0 V0]. rewrite mult_IZR in V0.
    pose proof (mul_spec P _ _ F0 F4) as R1. rewrite V0 in R1.
    assert (M : 2 * IZR k * (4 / 10 * (1 - u)) <= 2 * IZR k * B (f64_lit 0.4) <= 2 * IZR k * (4 / 10 * (1 + u))) by (split; apply Rmult_le_compat_l; lra).
    destruct (fmid _ _ R1) as [G1 W1]; [lra|].
    destruct (fmid _ _ (sub_spec P _ _ Fx G1)) as [G2 W2]; [lra|].
    set (xp := f64_sub P x _) in *.
    assert (XP : 2999 / 10000 <= B xp <= 3901 / 10000) by lra. clearbody xp. clear W2 W1 G1 R1 M.
    (* e1 *)
    pose proof (mul_spec P _ _ fin_2 G2) as R1. rewrite <- (val_fin _ fin_2), val_2 in R1. destruct (fmid _ _ R1) as [H1 W1]; [lra|].
    assert (M : 5998 / 10000 * (1 - u) * (4 / 10 * (1 - u)) <= B (f64_mul P (f64_lit 2.0) xp) * B (f64_lit 0.4)) by (apply Rmult_le_compat; lra).
    assert (M' : B (f64_mul P (f64_lit 2.0) xp) * B (f64_lit 0.4) <= 7802 / 10000 * (1 + u) * (4 / 10 * (1 + u))) by (apply Rmult_le_compat; lra).
    destruct (fmid _ _ (mul_spec P _ _ H1 F4)) as [H2 W2]; [lra|].
    destruct (exp_mid _ H2) as [FE VE]; [lra|]. set (t := f64_mul P (f64_mul P (f64_lit 2.0) xp) (f64_lit 0.4)) in *.
    assert (HT : 2399 / 10000 <= B t <= 3122 / 10000) by lra. clearbody t.
    assert (E1 : 1268 / 1000 <= B (libm P (p_exp P) t) <= 137 / 100).
    { assert (A : 1 / 2 * (2399 / 10000) <= 1 / 2 * B t) by lra.
      assert (X1 : exp (2399 / 10000) <= exp (B t)) by (apply exp_mono; lra). assert (X2 : exp (B t) <= exp (3122 / 10000)) by (apply exp_mono; lra).
      assert (Y1 : 12702 / 10000 <= exp (2399 / 10000)).
      { pose proof (expn_2 (2399 / 20000) ltac:(lra)) as T2.
        replace (exp (2399 / 10000)) with (/ (exp (- (2399 / 20000)) ^ 2)).
        - pose proof (exp_pos (- (2399 / 20000))) as E0. set (e := exp (- (2399 / 20000))) in *. clearbody e.
          replace (12702 / 10000) with (/ (10000 / 12702)) by lra. apply Rinv_le_contravar; [apply pow_lt; exact E0|].
          assert (e <= 88725 / 100000) by lra. assert (e ^ 2 <= (88725 / 100000) ^ 2) by (apply pow_incr; lra). lra.
        - rewrite <- exp_pow, <- exp_Ropp. f_equal. simpl. lra. }
      assert (Y2 : exp (3122 / 10000) <= 1368 / 1000).
      { pose proof (expn_3 (3122 / 10000) ltac:(lra)) as T3.
        replace (exp (3122 / 10000)) with (/ exp (- (3122 / 10000))) by (rewrite <- exp_Ropp; f_equal; lra).
        replace (1368 / 1000) with (/ (1000 / 1368)) by lra. apply Rinv_le_contravar; lra. }
      set (e := B (libm P (p_exp P) t)) in *. lra. }
    set (e1 := libm P (p_exp P) t) in *. clearbody e1. clear VE.
    assert (M2 : 1268 / 1000 * (1268 / 1000) <= B e1 * B e1 <= 137 / 100 * (137 / 100)) by (split; apply Rmult_le_compat; lra).
    destruct (fmid _ _ (mul_spec P _ _ FE FE)) as [FE2 VE2]; [lra|].
    (* the loop *)
    pose proof (add_spec P _ _ F0 fin_1) as R2. rewrite V0, <- (val_fin _ fin_1), val_1 in R2.
    replace (2 * IZR k + 1) with (IZR (2 * k + 1)) in R2 by (rewrite plus_IZR, mult_IZR; reflexivity).
    destruct (exactZ _ _ R2 ltac:(lia)) as [FD1 VD1].
    destruct (int_sub _ _ FD1 VD1 ltac:(lia)) as [FD2 VD2]. replace (2 * k + 1 - 2)%Z with (2 * k - 1)%Z in VD2 by lia.
    assert (Fz : fin (f64_lit 0.0)) by reflexivity. assert (Vz : B (f64_lit 0.0) = 0) by (rewrite <- val_fin by exact Fz; exact val_0).
    pose proof (loop_lo k e1 (f64_mul P e1 e1) _ _ _ Hk FE E1 FE2 ltac:(lra) FD1 VD1 FD2 VD2 Fz Vz) as LP.
    set (st := fold_left _ _ _) in *. clearbody st. destruct st as [[[a b] c] sum]. destruct LP as (FS & LS & US).
    (* exp(-xp^2) *)
    assert (FN : fin (f64_neg xp)) by (rewrite fin_neg; exact G2).
    pose proof (mul_spec P _ _ FN G2) as R3. rewrite B2R_neg in R3.
    assert (M3 : 2999 / 10000 * (2999 / 10000) <= B xp * B xp <= 3901 / 10000 * (3901 / 10000)) by (split; apply Rmult_le_compat; lra).
    pose proof (bp (-1022) (-300) ltac:(lia)) as B1. pose proof (bp 300 1000 ltac:(lia)) as B2.
    destruct (fneg _ _ R3) as [H3 W3]; [lra|].
    destruct (exp_mid _ H3) as [FX VX]; [lra|]. set (y := f64_mul P (f64_neg xp) xp) in *.
    assert (HY : 8587 / 10000 <= exp (B y)).
    { assert (X1 : exp (- (15219 / 100000)) <= exp (B y)) by (apply exp_mono; lra).
      pose proof (expn_3 (15219 / 100000) ltac:(lra)) as T3. lra. }
    set (ex := libm P (p_exp P) y) in *.
    assert (HX : 8586 / 10000 <= B ex <= 3).
    { assert (exp (B y) <= 1) by (rewrite <- exp_0; apply exp_mono; lra). lra. }
    clearbody ex.
    assert (Sg : @sign (ieee P) ex x = f64_abs ex).
    { change (@sign (ieee P) ex x) with (if negb (f64_sign x) then f64_abs ex else f64_neg (f64_abs ex)).
      rewrite Sx. reflexivity. }
    rewrite Sg.
    assert (FA : fin (f64_abs ex)) by (rewrite fin_abs; exact FX).
    assert (VA : B (f64_abs ex) = B ex) by (rewrite B2R_abs; apply Rabs_pos_eq; lra).
    destruct isqrtpi_lo as [FI VI]. set (iq := f64_div P (f64_lit 1.0) _) in *. clearbody iq.
    pose proof (mul_spec P _ _ FI FA) as R4. rewrite VA in R4.
    assert (M4 : 563 / 1000 * (8586 / 10000) <= B iq * B ex) by (apply Rmult_le_compat; lra).
    assert (M4' : B iq * B ex <= 1 * 3) by (apply Rmult_le_compat; lra).
    destruct (fmid _ _ R4) as [H5 W5]; [lra|]. set (wq := f64_mul P iq (f64_abs ex)) in *. clearbody wq.
    rewrite mult_IZR in LS.
    assert (S0 : / 2 ^ 100 <= B sum).
    { destruct (Rle_or_lt (/ 2 ^ 100) (B sum)) as [Q|Q]; [exact Q|]. assert (2 * IZR k * B sum <= 2 * 2 ^ 30 * / 2 ^ 100) by (apply Rmult_le_compat; lra). lra. }
    assert (M5 : 4 / 10 * / 2 ^ 100 <= B wq * B sum) by (apply Rmult_le_compat; lra).
    assert (M5' : B wq * B sum <= 4 * 10 ^ 6) by (apply Rmult_le_compat; lra).
    destruct (fmid _ _ (mul_spec P _ _ H5 FS)) as [H6 W6]; [lra|].
    eexists. split; [reflexivity|]. split; [exact H6|]. rewrite val_fin by exact H6.
    set (z := B (f64_mul P wq sum)) in *. clearbody z.
    assert (M6 : (563 / 1000 * (8586 / 10000) * (1 - u)) * (296 / 100) <= B wq * (2 * IZR k * B sum)) by (apply Rmult_le_compat; lra).
    assert (M7 : IZR k * (B wq * B sum * (1 - u)) <= IZR k * z) by (apply Rmult_le_compat_l; lra).
    split; lra.
  Qed.
End Large.

Theorem dawson_too_large : forall (P : platform) (D : R -> R) (x : f64) (k : Z), accurate_exp (p_exp P) ->
  dawson_integral D (val x) -> number x -> (200 <= k <= 2 ^ 30)%Z ->
  8 / 10 * IZR k + 3 / 10 <= val x <= 8 / 10 * IZR k + 39 / 100 ->
  0 < D (val x) /\ exists r, @dawson (ieee P) x = Ok r /\ finite r /\ 11 / 10 * D (val x) <= val r.
Proof.
  intros P D x k EX HD Nx Hk Hx.
  assert (K : 200 <= IZR k) by (apply IZR_le; lia).
  split; [apply (pos_D D (val x) HD); lra|].
  destruct (dawson_large P EX x k Nx Hk Hx) as (r & Er & Fr & Vr & _). exists r. split; [exact Er|split; [exact Fr|]].
  pose proof (dawson_upper D (val x) HD (val x) ltac:(lra)) as U.
  assert (I : / val x <= / (8 / 10 * IZR k)) by (apply Rinv_le_contravar; lra).
  assert (V : 71 / 100 * / IZR k <= val r).
  { replace (val r) with (IZR k * val r * / IZR k) by (field; lra). apply Rmult_le_compat_r; [left; apply Rinv_0_lt_compat; lra|exact Vr]. }
  replace (/ (8 / 10 * IZR k)) with (10 / 8 * / IZR k) in I by (field; lra).
  pose proof (Rinv_0_lt_compat (IZR k) ltac:(lra)). lra.
Qed.

Lemma ex_large : number (f64_lit 160.375) /\ 8 / 10 * IZR 200 + 3 / 10 <= val (f64_lit 160.375) <= 8 / 10 * IZR 200 + 39 / 100
  /\ exists D, dawson_integral D (val (f64_lit 160.375)).
Proof.
  lit_facts 160.375%dec 1283%Z 3%Z HF HV. split; [apply fin_nonnan, HF|]. rewrite HV. split; [lra|].
  apply dawson_integral_exists_any. lra.
Qed.

Lemma dawson_large_refuted : forall (P : platform), accurate_exp (p_exp P) ->
  exists x : f64, positive x /\ exists D, dawson_integral D (val x) /\ 0 < D (val x)
  /\ exists r, @dawson (ieee P) x = Ok r /\ finite r /\ 11 / 10 * D (val x) <= val r.
Proof.
  intros P EX. destruct ex_large as (N & V & D & HD). exists (f64_lit 160.375). split; [split; [exact N|lra]|].
  exists D. split; [exact HD|]. destruct (dawson_too_large P D _ 200 EX HD N ltac:(lia) V) as [P0 R]. split; [exact P0|exact R].
Qed.
