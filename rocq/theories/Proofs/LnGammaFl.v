(** * Accuracy of ln_gamma: the floating-point expression *)

From Coq Require Import ZArith Reals Bool Lra Lia List.
From Flocq Require Import Core IEEE754.BinarySingleNaN IEEE754.Binary IEEE754.Bits.
From Verif.Model Require Import Base Arith Utils Gamma.
From Verif.Float Require Import Bits64 Ieee Exact.
From Verif.Spec Require Import F64Spec Outcome GammaSpec.
From Verif.Proofs Require Import F64 F64Ops Lits Ext Poly PolyZ ExpBounds PiBounds Stirling GammaPoly GammaAcc StirlingConst Lanczos FlErr LnGammaAcc.
Import ListNotations.
Open Scope R_scope.
Local Notation exp := Rtrigo_def.exp.
Local Notation ln := Rpower.ln.
Local Notation PI := Rtrigo1.PI.
Local Notation sqrt := R_sqrt.sqrt.

Lemma tiny_20 : / 10 ^ 100 <= / 10 ^ 20.
Proof. apply Rinv_le_contravar; [apply pow_lt; lra|apply Rle_pow; [lra|lia]]. Qed.

Lemma ln_sub1 : forall t, 0 < t -> ln t <= t - 1.
Proof. intros t Ht. destruct (Rle_or_lt 1 t) as [H|H]; [pose proof (ln_1p_le (t - 1) ltac:(lra)) as L; replace (1 + (t - 1)) with t in L by ring; exact L|].
  pose proof (ln_1p_le (/ t - 1)) as L. replace (1 + (/ t - 1)) with (/ t) in L by ring.
  pose proof (exp_ineq1_le (t - 1)) as X. replace (1 + (t - 1)) with t in X by ring. rewrite <- (ln_exp (t - 1)). apply ln_mono; assumption.
Qed.
Lemma ln_bpow : forall k, (0 <= k)%Z -> ln (bpow radix2 k) <= IZR k.
Proof.
  intros k Hk. replace (bpow radix2 k) with (2 ^ (Z.to_nat k)).
  - rewrite ln_pow by lra. rewrite INR_IZR_INZ, Z2Nat.id by exact Hk. pose proof (ln_sub1 2 ltac:(lra)). apply IZR_le in Hk. nra.
  - rewrite pow_IZR, bpow2_nonneg_IZR, Z2Nat.id by exact Hk. reflexivity.
Qed.
(** [ln 4.5 >= 1.5] *)
Lemma ln_45 : 3 / 2 <= ln (9 / 2).
Proof.
  rewrite <- (ln_exp (3 / 2)). apply ln_mono; [apply exp_pos|].
  pose proof exp_1_le as E1. pose proof (exp_pos 1) as EP. pose proof (exp_pos (3 / 2)) as EQ.
  assert (E : exp (3 / 2) * exp (3 / 2) = exp 1 * (exp 1 * exp 1)) by (rewrite <- !exp_plus; f_equal; lra).
  assert (E2 : exp 1 * (exp 1 * exp 1) <= 27184 / 10000 * (27184 / 10000 * (27184 / 10000))).
  { repeat (apply Rmult_le_compat; try lra). apply Rmult_le_pos; lra. }
  apply Rnot_lt_le. intros H. assert (9 / 2 * (9 / 2) < exp (3 / 2) * exp (3 / 2)) by (apply Rmult_le_0_lt_compat; lra). lra.
Qed.

(** ** How ln G moves when its argument is rounded *)
Lemma lG_move : forall G, gamma_function G -> forall m M, 0 < m -> m <= M -> Rabs (lG G M - lG G m) <= (M - m) * (ln (M + 2) + 2 / m).
Proof.
  intros G HG m M Hm HM.
  pose proof (lG_step G HG m Hm) as S1. pose proof (lG_step G HG (m + 1) ltac:(lra)) as S2.
  pose proof (lG_step G HG M ltac:(lra)) as S3. pose proof (lG_step G HG (M + 1) ltac:(lra)) as S4.
  pose proof (lG_diff G HG (m + 2) (M - m) ltac:(lra) ltac:(lra)) as [D1 D2].
  replace (m + 2 + (M - m)) with (M + 2) in D1, D2 by ring. replace (m + 2 - 1) with (m + 1) in D1 by ring.
  replace (m + 1 + 1) with (m + 2) in S2 by ring. replace (M + 1 + 1) with (M + 2) in S4 by ring.
  assert (L0 : 0 <= ln (m + 1)) by (rewrite <- ln_1; apply ln_mono; lra).
  assert (D0 : 0 <= (M - m) * ln (m + 1)) by (apply Rmult_le_pos; lra).
  assert (L1 : forall k, 0 <= k -> 0 <= ln (M + k) - ln (m + k) <= (M - m) / m).
  { intros k Hk. split; [pose proof (ln_mono (m + k) (M + k) ltac:(lra) ltac:(lra)); lra|].
    rewrite <- ln_div by lra. apply Rle_trans with (ln (1 + (M - m) / m)).
    - apply ln_mono; [apply Rmult_lt_0_compat; [lra|apply Rinv_0_lt_compat; lra]|].
      replace ((M + k) / (m + k)) with (1 + (M - m) / (m + k)) by (field; lra). apply Rplus_le_compat_l. apply Rmult_le_compat_l; [lra|]. apply Rinv_le_contravar; lra.
    - apply ln_1p_le. apply Rmult_le_pos; [lra|left; apply Rinv_0_lt_compat; lra]. }
  pose proof (L1 0 ltac:(lra)) as L2. pose proof (L1 1 ltac:(lra)) as L3. rewrite !Rplus_0_r in L2.
  replace ((M - m) * (ln (M + 2) + 2 / m)) with ((M - m) * ln (M + 2) + 2 * ((M - m) / m)) by (field; lra). apply Rabs_le. lra.
Qed.

(** ** Logarithms *)

Section Fl.
  Context (P : platform) (LN : accurate_ln (p_ln P)).
  Notation add := (f64_add P). Notation sub := (f64_sub P).
  Notation mul := (f64_mul P). Notation div := (f64_div P).
  Notation lnF := (libm P (p_ln P)).

  Lemma ln_fl : forall t, fin t -> 0 < val t -> Rabs (ln (val t)) <= 10 ^ 4 ->
    fin (lnF t) /\ Rabs (val (lnF t) - ln (val t)) <= 8 * uu * Rabs (ln (val t)) + eta.
  Proof.
    intros t F Ht HL. rewrite libm_nonnan by (apply fin_nonnan; exact F).
    destruct (LN t (fin_nonnan _ F)) as [N E]; [split; [exact Ht|]; rewrite (val_fin t F); eapply Rle_lt_trans; [apply Rle_abs|apply abs_B2R_lt_emax]|].
    replace (bpow radix2 (-50)) with (8 * uu) in E by (unfold uu; simpl; lra). fold eta in E. split; [|exact E].
    apply fin_iff_val; [exact N|]. pose proof Om_big as OB. pose proof eta_small. pose proof tiny_20. unfold uu in E.
    pose proof (Rabs_triang (val (p_ln P t) - ln (val t)) (ln (val t))) as T. replace (val (p_ln P t) - ln (val t) + ln (val t)) with (val (p_ln P t)) in T by ring. lra.
  Qed.

  (** a logarithm of an approximated argument *)
  Lemma ln_approx : forall t A r, fin t -> 0 < A -> 0 <= r <= 1 / 1000 -> Rabs (val t - A) <= r * A -> Rabs (ln A) <= 2000 ->
    fin (lnF t) /\ Rabs (val (lnF t) - ln A) <= 8 * uu * Rabs (ln A) + (r + 2 * (r * r)) * (1 + 8 * uu) + eta.
  Proof.
    intros t A r F HA Hr Ht HL. pose proof Ht as Ht'. apply Rabs_le_inv in Ht. assert (r * A <= 1 / 1000 * A) by (apply Rmult_le_compat_r; lra).
    assert (TP : 0 < val t) by lra.
    assert (LC : Rabs (ln (val t) - ln A) <= r + 2 * (r * r)).
    { apply ln_close; [exact TP|exact HA|nra| |].
      - eapply Rle_trans; [exact Ht'|]. apply Rle_trans with ((r + 2 * (r * r)) * (A - r * A)); [|apply Rmult_le_compat_l; [nra|lra]].
        replace ((r + 2 * (r * r)) * (A - r * A)) with (r * A + A * (r * r * (1 - 2 * r))) by ring.
        assert (0 <= A * (r * r * (1 - 2 * r))) by (apply Rmult_le_pos; [lra|apply Rmult_le_pos; [nra|lra]]). lra.
      - eapply Rle_trans; [exact Ht'|]. apply Rmult_le_compat_r; [lra|nra]. }
    assert (R2 : r * r <= 1 / 1000 * r) by (apply Rmult_le_compat_r; lra).
    pose proof (Rabs_triang (ln (val t) - ln A) (ln A)) as T. replace (ln (val t) - ln A + ln A) with (ln (val t)) in T by ring.
    destruct (ln_fl t F TP) as [FL EL]; [lra|]. split; [exact FL|].
    replace (val (lnF t) - ln A) with ((val (lnF t) - ln (val t)) + (ln (val t) - ln A)) by ring. eapply Rle_trans; [apply Rabs_triang|].
    assert (8 * uu * Rabs (ln (val t)) <= 8 * uu * (Rabs (ln A) + (r + 2 * (r * r)))) by (apply Rmult_le_compat_l; [unfold uu; lra|lra]). lra.
  Qed.

  (** the constant [ln (sqrt (2 pi))] *)
  Lemma cst_ok : let c := lnF (f64_sqrt P (mul (f64_lit 2.0) (f64_lit 3.14159265358979323846264338327950288))) in
    fin c /\ Rabs (val c - ln (2 * PI) / 2) <= / 10 ^ 13 /\ Rabs (val c) <= 1.
  Proof.
    set (pi_ := R_of_dec 3.14159265358979323846264338327950288).
    assert (PE : pi_ = 314159265358979323846264338327950288 / 100000000000000000000000000000000000) by (unfold pi_, R_of_dec; cbn [dman dexp]; simpl powerRZ; lra).
    pose proof PI_bounds as [PL PU]. change (IZR (2 ^ 70)) with 1180591620717411303424 in *.
    destruct (lit_fl 3.14159265358979323846264338327950288) as [F1 E1]; [fold pi_; apply (bpow_le_1000 _ 2); [lia|]; change (bpow radix2 2) with 4; rewrite Rabs_pos_eq; lra|].
    fold pi_ in E1. set (p := f64_lit 3.14159265358979323846264338327950288) in *. clearbody p.
    rewrite (Rabs_pos_eq pi_) in E1 by lra. pose proof eta_small as ES. pose proof tiny_20 as T20. pose proof eta_pos as EP. unfold uu in *.
    assert (E1' : Rabs (val p - PI) <= 5 / 10 ^ 16).
    { replace (val p - PI) with ((val p - pi_) + (pi_ - PI)) by ring. eapply Rle_trans; [apply Rabs_triang|].
      assert (Rabs (pi_ - PI) <= 1 / 10 ^ 19) by (apply Rabs_le; lra). lra. }
    apply Rabs_le_inv in E1'.
    destruct (mul_fl P (f64_lit 2.0) p fin_2 F1) as [F2 E2].
    { rewrite val_2. apply (bpow_le_1000 _ 3); [lia|]. change (bpow radix2 3) with 8. rewrite Rabs_pos_eq; lra. }
    rewrite val_2 in E2. rewrite (Rabs_pos_eq (2 * val p)) in E2 by lra. apply Rabs_le_inv in E2. unfold uu in E2.
    set (t := mul (f64_lit 2.0) p) in *. clearbody t.
    destruct (sqrt_spec P t F2) as [F3 E3]; [rewrite <- (val_fin t F2); lra|].
    rewrite <- (val_fin t F2), <- (val_fin _ F3) in E3. set (q := f64_sqrt P t) in *. clearbody q.
    (* the square root *)
    set (A := sqrt (2 * PI)). assert (AA : A * A = 2 * PI) by (apply sqrt_sqrt; lra).
    assert (A0 : 0 < A) by (apply sqrt_lt_R0; lra).
    assert (A1 : 25 / 10 <= A <= 26 / 10) by (split; apply Rnot_lt_le; intros X; [assert (A * A < 25 / 10 * (25 / 10))|assert (26 / 10 * (26 / 10) < A * A)]; try (apply Rmult_le_0_lt_compat; lra); lra).
    set (S := sqrt (val t)) in *. assert (SS : S * S = val t) by (apply sqrt_sqrt; lra).
    assert (S0 : 0 < S) by (apply sqrt_lt_R0; lra).
    assert (SA : Rabs (S - A) <= 3 / 10 ^ 15).
    { assert (Q : (S - A) * (S + A) = val t - 2 * PI) by (rewrite <- AA, <- SS; ring).
      assert (N : Rabs (S - A) * (S + A) <= 3 / 10 ^ 15).
      { rewrite <- (Rabs_pos_eq (S + A)) by lra. rewrite <- Rabs_mult, Q. apply Rabs_le. lra. }
      pose proof (Rabs_pos (S - A)). assert (Rabs (S - A) * 1 <= Rabs (S - A) * (S + A)) by (apply Rmult_le_compat_l; lra). lra. }
    apply Rabs_le_inv in SA. pose proof (rnd_abs_err S) as RE. rewrite <- E3 in RE. rewrite (Rabs_pos_eq S) in RE by lra.
    replace (bpow radix2 (-53)) with (/ 2 ^ 53) in RE by (simpl; lra). assert (bpow radix2 (-1075) <= eta) by (apply bpow_le; lia).
    apply Rabs_le_inv in RE.
    assert (LA : ln A = ln (2 * PI) / 2) by (assert (X : ln (A * A) = ln (2 * PI)) by (rewrite AA; reflexivity); rewrite ln_mult in X by exact A0; lra).
    assert (LB : 0 <= ln A <= 99 / 100).
    { split; [rewrite <- ln_1; apply ln_mono; lra|]. rewrite <- (ln_exp (99 / 100)). apply ln_mono; [exact A0|].
      pose proof (tay_low 4 (99 / 100) ltac:(lra)) as TL. cbn [tay] in TL. eapply Rle_trans; [|exact TL]. simpl. lra. }
    destruct (ln_approx q A (4 / 10 ^ 15) F3 A0 ltac:(lra)) as [FC EC]; [apply Rabs_le; lra|rewrite Rabs_pos_eq; lra|].
    split; [exact FC|]. rewrite (Rabs_pos_eq (ln A)) in EC by lra. unfold uu in EC. rewrite <- LA. split; [lra|].
    apply Rabs_le_inv in EC. apply Rabs_le. lra.
  Qed.

  (** ** Plain arithmetic on error bounds *)

  Lemma prod_err : forall l k L h p, 3 / 2 <= l <= 1000 -> Rabs (L - l) <= 11 * uu * l -> Rabs (h - k) <= uu * Rabs k + eta ->
    Rabs (p - L * h) <= uu * Rabs (L * h) + eta -> Rabs (p - l * k) <= 14 * uu * (l * Rabs k) + 3000 * eta.
  Proof.
    intros l k L h p Hl HL Hh Hp. pose proof eta_pos as EP. set (u := uu) in *. assert (U : 0 <= u <= 1 / 10 ^ 15) by (unfold u, uu; lra). clearbody u.
    set (e := eta) in *. clearbody e. set (K := Rabs k) in *. assert (K0 : 0 <= K) by apply Rabs_pos.
    assert (LK0 : 0 <= l * K) by (apply Rmult_le_pos; lra). assert (UL : 0 <= u * (l * K)) by (apply Rmult_le_pos; lra).
    assert (ul : 0 <= u * l <= 1 / 10 ^ 15 * l) by (split; [apply Rmult_le_pos|apply Rmult_le_compat_r]; lra).
    assert (LA : Rabs L <= l * (1 + 11 * u)) by (pose proof (Rabs_triang (L - l) l) as T; replace (L - l + l) with L in T by ring; rewrite (Rabs_pos_eq l) in T by lra; lra).
    assert (D : Rabs (L * h - l * k) <= l * (1 + 11 * u) * (u * K + e) + 11 * u * l * K).
    { replace (L * h - l * k) with (L * (h - k) + (L - l) * k) by ring. eapply Rle_trans; [apply Rabs_triang|]. rewrite !Rabs_mult.
      apply Rplus_le_compat; [apply Rmult_le_compat; try apply Rabs_pos; lra|apply Rmult_le_compat_r; [exact K0|exact HL]]. }
    assert (uuK : u * (u * (l * K)) <= 1 / 10 ^ 15 * (u * (l * K))) by (apply Rmult_le_compat_r; lra).
    assert (le0 : 0 <= l * e <= 1000 * e) by (split; [apply Rmult_le_pos|apply Rmult_le_compat_r]; lra).
    assert (ule : u * (l * e) <= 1 / 10 ^ 15 * (l * e)) by (apply Rmult_le_compat_r; lra).
    assert (D' : Rabs (L * h - l * k) <= (12 + 1 / 10 ^ 3) * (u * (l * K)) + 1001 * e).
    { eapply Rle_trans; [exact D|]. replace (l * (1 + 11 * u) * (u * K + e) + 11 * u * l * K) with (12 * (u * (l * K)) + 11 * (u * (u * (l * K))) + l * e + 11 * (u * (l * e))) by ring. lra. }
    assert (LH : Rabs (L * h) <= l * K + ((12 + 1 / 10 ^ 3) * (u * (l * K)) + 1001 * e)).
    { pose proof (Rabs_triang (L * h - l * k) (l * k)) as T. replace (L * h - l * k + l * k) with (L * h) in T by ring. rewrite (Rabs_mult l), (Rabs_pos_eq l) in T by lra. fold K in T. lra. }
    assert (ULH : u * Rabs (L * h) <= u * (l * K + ((12 + 1 / 10 ^ 3) * (u * (l * K)) + 1001 * e))) by (apply Rmult_le_compat_l; lra).
    assert (ue : u * e <= 1 / 10 ^ 15 * e) by (apply Rmult_le_compat_r; lra).
    replace (p - l * k) with ((p - L * h) + (L * h - l * k)) by ring. eapply Rle_trans; [apply Rabs_triang|].
    replace (u * (l * K + ((12 + 1 / 10 ^ 3) * (u * (l * K)) + 1001 * e))) with (u * (l * K) + (12 + 1 / 10 ^ 3) * (u * (u * (l * K))) + 1001 * (u * e)) in ULH by ring.
    lra.
  Qed.

  (** ** The expression, seen from the argument [y = val z + 1] *)

  Lemma expr_ok_gen : forall z c s five half, fin z -> bpow radix2 (-41) <= val z + 1 <= bpow radix2 901 ->
    fin c -> Rabs (val c - ln (2 * PI) / 2) <= / 10 ^ 13 -> Rabs (val c) <= 1 ->
    fin s -> Rabs (val s - AL (val z + 1)) <= / 10 ^ 12 * AL (val z + 1) ->
    fin five -> val five = 5 -> fin half -> val half = / 2 ->
    forall r, r = add (sub (add c (lnF s)) (add (add z five) half)) (mul (lnF (add (add z five) half)) (add z half)) ->
    fin r /\ Rabs (val r - hL (val z + 1)) <= 3 / 10 ^ 12 + 20 * uu * ((val z + 1 + 9 / 2) * ln (val z + 1 + 9 / 2)).
  Proof.
    intros z c s five half Fz Hy Fc Ec Bc Fs Es F5 V5 F05 V05 r Hr. pose proof (bpow_gt_0 radix2 (-41)) as B41.
    remember (val z + 1) as y eqn:Ey.
    assert (Y0 : 0 < y) by lra.
    pose proof (AL_ge_1 y Y0) as A1. pose proof (TT_le y ltac:(lra)) as A2.
    assert (A3 : AL y <= bpow radix2 51).
    { apply Rle_trans with (TT y + 1); [|change (bpow radix2 51) with (2 * bpow radix2 50); assert (1 <= bpow radix2 50) by (change 1 with (bpow radix2 0); apply bpow_le; lia); lra].
      rewrite AL_ti. unfold TT.
      pose proof (Rle_abs (ti 1 y)). pose proof (Rle_abs (ti 2 y)). pose proof (Rle_abs (ti 3 y)). pose proof (Rle_abs (ti 4 y)). pose proof (Rle_abs (ti 5 y)). pose proof (Rle_abs (ti 6 y)).
      assert (lcf 0 <= 2) by (unfold lcf, SC; change (IZR (10 ^ 20)) with 100000000000000000000; cbn [nth lc]; lra). lra. }
    assert (LA : 0 <= ln (AL y) <= 51) by (split; [rewrite <- ln_1; apply ln_mono; lra|eapply Rle_trans; [apply ln_mono; [lra|exact A3]|apply ln_bpow; lia]]).
    destruct (ln_approx s (AL y) (/ 10 ^ 12) Fs ltac:(lra) ltac:(lra) Es ltac:(rewrite Rabs_pos_eq; lra)) as [Fl El].
    rewrite (Rabs_pos_eq (ln (AL y))) in El by lra.
    pose proof eta_small as ES. pose proof tiny_20 as T20. pose proof eta_pos as EP.
    assert (El' : Rabs (val (lnF s) - ln (AL y)) <= 11 / 10 ^ 13) by (unfold uu in El; lra). clear El.
    set (l2 := lnF s) in *. clearbody l2. clear Es.
    (* the base *)
    set (B := y + 9 / 2) in *. assert (B0 : 9 / 2 <= B <= bpow radix2 902).
    { unfold B. split; [lra|]. replace (bpow radix2 902) with (2 * bpow radix2 901) by (change 2 with (bpow radix2 1); rewrite <- bpow_plus; reflexivity).
      assert (bpow radix2 3 <= bpow radix2 901) by (apply bpow_le; lia). simpl (bpow radix2 3) in *. lra. }
    assert (BB : 1000 * bpow radix2 902 <= bpow radix2 920).
    { apply Rle_trans with (bpow radix2 10 * bpow radix2 902); [apply Rmult_le_compat_r; [apply bpow_ge_0|simpl; lra]|rewrite <- bpow_plus; apply bpow_le; lia]. }
    assert (ub : forall x, Rabs x <= 1000 * B -> Rabs x <= bpow radix2 1000) by (intros x Hx; apply (bpow_le_1000 _ 920); [lia|lra]).
    assert (zB : val z = B - 11 / 2) by (unfold B; lra).
    assert (uB : 0 <= uu * B) by (apply Rmult_le_pos; [unfold uu; lra|lra]).
    assert (us : uu * B <= / 10 ^ 15 * B) by (apply Rmult_le_compat_r; [lra|unfold uu; lra]).
    assert (eb : eta <= / 10 ^ 3 * (uu * B)) by (assert (uu * (9 / 2) <= uu * B) by (apply Rmult_le_compat_l; [unfold uu; lra|lra]); unfold uu in *; lra).
    destruct (add_fl P z five Fz F5) as [Fb1 Eb1]; [apply ub; rewrite V5; apply Rabs_le; lra|].
    rewrite V5 in Eb1. set (b1 := add z five) in *. clearbody b1.
    assert (X : uu * Rabs (val z + 5) <= uu * B) by (apply Rmult_le_compat_l; [unfold uu; lra|apply Rabs_le; lra]).
    assert (Eb1' : Rabs (val b1 - (val z + 5)) <= (1 + / 10 ^ 3) * (uu * B)) by lra. clear Eb1 X. apply Rabs_le_inv in Eb1'.
    destruct (add_fl P b1 half Fb1 F05) as [Fb Eb]; [apply ub; rewrite V05; apply Rabs_le; lra|].
    rewrite V05 in Eb. set (base := add b1 half) in *. clearbody base.
    assert (X : uu * Rabs (val b1 + / 2) <= uu * (B * (1 + / 10 ^ 3))) by (apply Rmult_le_compat_l; [unfold uu; lra|apply Rabs_le; lra]).
    assert (Eb' : Rabs (val base - B) <= 21 / 10 * uu * B).
    { replace (val base - B) with ((val base - (val b1 + / 2)) + (val b1 - (val z + 5))) by (rewrite zB; lra).
      eapply Rle_trans; [apply Rabs_triang|]. apply Rabs_le in Eb1'. lra. }
    clear Eb X.
    (* its logarithm *)
    set (l := ln B). assert (Hl : 3 / 2 <= l <= 902).
    { split; [eapply Rle_trans; [exact ln_45|apply ln_mono; lra]|]. eapply Rle_trans; [apply ln_mono; [lra|apply B0]|apply ln_bpow; lia]. }
    destruct (ln_approx base B (21 / 10 * uu) Fb ltac:(lra) ltac:(unfold uu; lra) Eb' ltac:(fold l; rewrite Rabs_pos_eq; lra)) as [FL EL].
    fold l in EL. rewrite (Rabs_pos_eq l) in EL by lra.
    assert (EL' : Rabs (val (lnF base) - l) <= 11 * uu * l) by (unfold uu in *; lra). clear EL.
    set (L := lnF base) in *. clearbody L.
    (* the second factor *)
    destruct (add_fl P z half Fz F05) as [Fh Eh]; [apply ub; rewrite V05; apply Rabs_le; lra|].
    rewrite V05 in Eh. set (h := add z half) in *. clearbody h. set (k := val z + / 2) in *.
    assert (Kk : Rabs k <= B) by (apply Rabs_le; unfold k; lra).
    assert (lB : 3 / 2 * B <= l * B <= 902 * B) by (split; apply Rmult_le_compat_r; lra).
    assert (ulB : 0 <= uu * (l * B)) by (apply Rmult_le_pos; [unfold uu|]; lra).
    assert (ulB2 : uu * (3 / 2 * B) <= uu * (l * B)) by (apply Rmult_le_compat_l; [unfold uu|]; lra).
    assert (ulB3 : uu * (l * B) <= / 10 ^ 15 * (l * B)) by (apply Rmult_le_compat_r; [|unfold uu]; lra).
    assert (lK : 0 <= l * Rabs k <= l * B) by (split; [apply Rmult_le_pos; [lra|apply Rabs_pos]|apply Rmult_le_compat_l; lra]).
    assert (ulK : uu * (l * Rabs k) <= uu * (l * B)) by (apply Rmult_le_compat_l; [unfold uu|]; lra).
    destruct (mul_fl P L h FL Fh) as [Fp Ep].
    { apply ub. rewrite Rabs_mult. apply Rle_trans with (903 * ((1 + / 10 ^ 3) * B)); [|lra]. apply Rmult_le_compat; try apply Rabs_pos.
      - pose proof (Rabs_triang (val L - l) l) as T. replace (val L - l + l) with (val L) in T by ring. rewrite (Rabs_pos_eq l) in T by lra. unfold uu in EL'. lra.
      - pose proof (Rabs_triang (val h - k) k) as T. replace (val h - k + k) with (val h) in T by ring.
        assert (uu * Rabs k <= uu * B) by (apply Rmult_le_compat_l; [unfold uu|]; lra). lra. }
    pose proof (prod_err l k (val L) (val h) _ ltac:(lra) EL' Eh Ep) as Ep'. set (p := mul L h) in *. clearbody p. clear Ep Eh EL'.
    assert (Ep : Rabs (val p - l * k) <= 15 * (uu * (l * B))).
    { eapply Rle_trans; [exact Ep'|]. unfold uu in *. lra. }
    clear Ep'. assert (Pb : Rabs (val p) <= (1 + / 10 ^ 3) * (l * B)).
    { pose proof (Rabs_triang (val p - l * k) (l * k)) as T. replace (val p - l * k + l * k) with (val p) in T by ring. rewrite (Rabs_mult l), (Rabs_pos_eq l) in T by lra. lra. }
    (* the additions *)
    assert (L2 : Rabs (val l2) <= 52) by (apply Rabs_le_inv in El'; apply Rabs_le; lra).
    destruct (add_fl P c l2 Fc Fl) as [Fq Eq].
    { apply (bpow_le_1000 _ 6); [lia|]. change (bpow radix2 6) with 64. eapply Rle_trans; [apply Rabs_triang|]. lra. }
    set (q := add c l2) in *. clearbody q. pose proof (Rabs_triang (val c) (val l2)) as Tq.
    assert (Eq' : Rabs (val q - (val c + val l2)) <= 7 / 10 ^ 15) by (unfold uu in Eq; lra). clear Eq.
    assert (Qb : Rabs (val q) <= 54) by (pose proof (Rabs_triang (val q - (val c + val l2)) (val c + val l2)) as T; replace (val q - (val c + val l2) + (val c + val l2)) with (val q) in T by ring; lra).
    assert (bb : Rabs (val base) <= (1 + / 10 ^ 3) * B) by (apply Rabs_le_inv in Eb'; apply Rabs_le; lra).
    assert (Tw : Rabs (val q - val base) <= 54 + (1 + / 10 ^ 3) * B) by (unfold Rminus; eapply Rle_trans; [apply Rabs_triang|]; rewrite Rabs_Ropp; lra).
    destruct (sub_fl P q base Fq Fb) as [Fw Ew]; [apply ub; lra|]. set (w := sub q base) in *. clearbody w.
    assert (uw : uu * Rabs (val q - val base) <= uu * (54 + (1 + / 10 ^ 3) * B)) by (apply Rmult_le_compat_l; [unfold uu|]; lra).
    assert (Ew' : Rabs (val w - (val q - val base)) <= 7 / 10 ^ 15 + (1 + 2 / 10 ^ 3) * (uu * B)) by (unfold uu in *; lra). clear Ew uw.
    assert (Wb : Rabs (val w) <= 55 + (1 + 2 / 10 ^ 3) * B) by (pose proof (Rabs_triang (val w - (val q - val base)) (val q - val base)) as T; replace (val w - (val q - val base) + (val q - val base)) with (val w) in T by ring; lra).
    assert (Tr : Rabs (val w + val p) <= 55 + (1 + 2 / 10 ^ 3) * B + (1 + / 10 ^ 3) * (l * B)) by (eapply Rle_trans; [apply Rabs_triang|]; lra).
    destruct (add_fl P w p Fw Fp) as [Fr Er]; [apply ub; lra|]. rewrite <- Hr in Fr, Er.
    assert (ur : uu * Rabs (val w + val p) <= uu * (55 + (1 + 2 / 10 ^ 3) * B + (1 + / 10 ^ 3) * (l * B))) by (apply Rmult_le_compat_l; [unfold uu|]; lra).
    assert (Er' : Rabs (val r - (val w + val p)) <= 7 / 10 ^ 15 + (1 + 3 / 10 ^ 3) * (uu * B) + (1 + / 10 ^ 3) * (uu * (l * B))) by (unfold uu in *; lra).
    clear Er ur. split; [exact Fr|].
    replace (val r - hL y) with ((val r - (val w + val p)) + ((val w - (val q - val base)) + ((val q - (val c + val l2)) + ((val c - ln (2 * PI) / 2) + ((val l2 - ln (AL y)) + ((val p - l * k) - (val base - B)))))))
      by (unfold hL; fold B; fold l; unfold k, B; rewrite Ey; lra).
    eapply Rle_trans; [apply Rabs_triang|]. eapply Rle_trans; [apply Rplus_le_compat_l, Rabs_triang|].
    eapply Rle_trans; [apply Rplus_le_compat_l, Rplus_le_compat_l, Rabs_triang|]. eapply Rle_trans; [apply Rplus_le_compat_l, Rplus_le_compat_l, Rplus_le_compat_l, Rabs_triang|].
    eapply Rle_trans; [do 4 apply Rplus_le_compat_l; apply Rabs_triang|].
    assert (TL : Rabs (val p - l * k - (val base - B)) <= 15 * (uu * (l * B)) + 21 / 10 * uu * B) by (unfold Rminus at 1; eapply Rle_trans; [apply Rabs_triang|]; rewrite Rabs_Ropp; lra).
    fold B. fold l. rewrite (Rmult_comm B l). lra.
  Qed.

  Lemma expr_ok : forall z, fin z -> bpow radix2 (-41) <= val z + 1 <= bpow radix2 901 ->
    let base := add (add z (f64_lit 5.0)) (f64_lit 0.5) in
    let s := add (@lanczos_sum (ieee P) z) (f64_lit (cdec 0)) in
    let c := lnF (f64_sqrt P (mul (f64_lit 2.0) (f64_lit 3.14159265358979323846264338327950288))) in
    let r := add (sub (add c (lnF s)) base) (mul (lnF base) (add z (f64_lit 0.5))) in
    let y := val z + 1 in
    fin r /\ Rabs (val r - hL y) <= 3 / 10 ^ 12 + 20 * uu * ((y + 9 / 2) * ln (y + 9 / 2)).
  Proof.
    intros z Fz Hy. cbv zeta.
    assert (F5 : fin (f64_lit 5.0) /\ val (f64_lit 5.0) = 5) by (lit_facts 5.0%dec 5%Z 0%Z HF HV; split; [exact HF|lra]).
    assert (F05 : fin (f64_lit 0.5) /\ val (f64_lit 0.5) = / 2) by (lit_facts 0.5%dec 1%Z 1%Z HF HV; split; [exact HF|lra]).
    destruct F5 as [F5 V5]. destruct F05 as [F05 V05]. destruct cst_ok as (Fc & Ec & Bc). destruct (lanczos_ok P z Fz Hy) as [Fs Es].
    exact (expr_ok_gen z _ _ _ _ Fz Hy Fc Ec Bc Fs Es F5 V5 F05 V05 _ eq_refl).
  Qed.
End Fl.
