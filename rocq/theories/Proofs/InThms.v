(** * Accuracy of In for every order *)

From Coq Require Import ZArith Reals Bool Lra Lia List.
From Flocq Require Import Core IEEE754.BinarySingleNaN IEEE754.Binary IEEE754.Bits.
From Verif.Model Require Import Base Arith BesselTables Utils Bessel.
From Verif.Float Require Import Bits64 Ieee Exact Platforms.
From Verif.Spec Require Import F64Spec Outcome BesselSpec.
From Verif.Proofs Require Import F64 F64Ops Lits Ext FlErr GammaAcc GserAcc PosHorner UtilsSpec BesselInt BesselPanics BesselSeries BesselAcc Miller BesselReal InAcc.
Import ListNotations.
Open Scope R_scope.

(** ** a value above 2^-900 bounds the order *)
Lemma BI_decay : forall x k, 0 < x < 15 -> BI x (14 + 2 * k) <= (/ 4) ^ k * bpow radix2 94.
Proof.
  intros x k Hx. induction k as [|k IH].
  - rewrite pow_O, Rmult_1_l. apply BI_le, Hx.
  - pose proof (BI_four x (14 + 2 * k) Hx ltac:(lia)) as H. replace (14 + 2 * S k)%nat with (S (S (14 + 2 * k))) by lia. cbn [pow]. lra.
Qed.

Lemma BI_mono2 : forall x n k, 0 < x -> BI x (n + 2 * k) <= BI x n.
Proof.
  intros x n k Hx. induction k as [|k IH]; [rewrite Nat.add_0_r; lra|].
  replace (n + 2 * S k)%nat with (S (S (n + 2 * k))) by lia. pose proof (BI_two x (n + 2 * k) Hx). lra.
Qed.

Lemma quarter_pow : forall k, (/ 4) ^ k = bpow radix2 (- 2 * Z.of_nat k).
Proof.
  induction k as [|k IH]; [reflexivity|]. cbn [pow]. rewrite IH. replace (/ 4) with (bpow radix2 (-2)) by (simpl; lra).
  rewrite <- bpow_plus. f_equal. lia.
Qed.

Lemma BI_order : forall x n, 0 < x < 15 -> bpow radix2 (-900) <= BI x n -> (n < 1020)%nat.
Proof.
  intros x n Hx H. destruct (le_lt_dec 1020 n) as [L|L]; [exfalso|exact L].
  assert (K : forall r, BI x (14 + 2 * 500 + r) < bpow radix2 (-900)).
  { intros r. destruct (Nat.Even_or_Odd r) as [[q E]|[q E]].
    - apply Rle_lt_trans with (BI x (14 + 2 * 500)).
      { subst r. apply BI_mono2. lra. }
      eapply Rle_lt_trans; [apply BI_decay, Hx|]. rewrite quarter_pow, <- bpow_plus. apply bpow_lt. reflexivity.
    - apply Rle_lt_trans with (BI x (S (14 + 2 * 500))).
      { subst r. replace (14 + 2 * 500 + (2 * q + 1))%nat with (S (14 + 2 * 500) + 2 * q)%nat by lia. apply BI_mono2. lra. }
      pose proof (BI_ratio x (14 + 2 * 500) ltac:(lra)) as R. pose proof (BI_pos x (S (14 + 2 * 500)) ltac:(lra)) as Q.
      assert (1 <= INR (S (14 + 2 * 500)) * (2 * / x)).
      { assert (/ 15 <= / x) by (apply Rinv_le_contravar; lra). assert (15 <= INR (S (14 + 2 * 500))) by (replace 15 with (INR 15) by (simpl; lra); apply le_INR; lia).
        apply Rle_trans with (15 * (2 * / 15)); [lra|]. apply Rmult_le_compat; lra. }
      apply Rle_lt_trans with (BI x (14 + 2 * 500)).
      { eapply Rle_trans; [|exact R]. rewrite <- (Rmult_1_l (BI x _)) at 1. apply Rmult_le_compat_r; lra. }
      eapply Rle_lt_trans; [apply BI_decay, Hx|]. rewrite quarter_pow, <- bpow_plus. apply bpow_lt. reflexivity. }
  specialize (K (n - (14 + 2 * 500))%nat). replace (14 + 2 * 500 + (n - (14 + 2 * 500)))%nat with n in K by lia. lra.
Qed.

(** ** the number of steps *)
Section Steps.
  Context (P : platform).
  Lemma steps_ge : forall n k, (0 <= n <= 2 ^ 30)%Z -> (0 <= k <= 2 ^ 20)%Z -> (k * k <= 200 * n)%Z ->
    (k <= @as_u32 (ieee P) (f64_sqrt P (f64_mul P (f64_lit 200.0) (f64_of_Z n))))%Z.
  Proof.
    intros n k Hn Hk B. destruct val_200 as [Fd Vd]. destruct (of_Z_exact n) as [Fn En]; [lia|].
    destruct (mul_spec P _ _ Fd Fn) as [Nm Vm]. rewrite En, <- val_fin, Vd, <- mult_IZR in Vm by exact Fd.
    assert (H0 : IZR (k * k) <= val (f64_mul P (f64_lit 200.0) (f64_of_Z n)) <= bpow radix2 40).
    { rewrite Vm. split.
      - apply rs_ge; [apply fmt_IZR; nia| |apply IZR_le; exact B]. pose proof Om_big as OB. assert (IZR (k * k) <= IZR (2 ^ 40)) by (apply IZR_le; nia). lra.
      - apply rs_le_fmt; [apply fmt_bpow; lia| |rewrite bpow2_nonneg_IZR by lia; apply IZR_le; lia]. pose proof (bpow_ge_0 radix2 40). pose proof Om_pos. lra. }
    assert (K0 : 0 <= IZR (k * k)) by (apply IZR_le; nia).
    assert (Fm : fin (f64_mul P (f64_lit 200.0) (f64_of_Z n))).
    { apply (fin_of_bound _ (bpow radix2 40)); [exact Nm|rewrite Rabs_pos_eq; lra|apply bpow_lt; lia]. }
    destruct (sqrt_spec P _ Fm) as [Ns Vs]; [rewrite <- val_fin by exact Fm; lra|].
    rewrite <- (val_fin _ Fm) in Vs. unfold as_u32. ieee_simpl. rewrite to_int_val by (try lia; apply fin_nonnan; exact Ns).
    assert (k <= Ztrunc (val (f64_sqrt P (f64_mul P (f64_lit 200.0) (f64_of_Z n)))))%Z; [|lia].
    rewrite <- (Ztrunc_IZR k). apply Ztrunc_le. rewrite (val_fin _ Ns), Vs. apply rnd_ge; [apply fmt_IZR; lia|].
    rewrite <- (sqrt_square (IZR k)) by (apply IZR_le; lia). apply sqrt_le_1_alt. rewrite <- mult_IZR. lra.
  Qed.

  Lemma steps_le : forall n k, (0 <= n <= 2 ^ 30)%Z -> (0 <= k <= 2 ^ 20)%Z -> (200 * n <= k * k)%Z ->
    (@as_u32 (ieee P) (f64_sqrt P (f64_mul P (f64_lit 200.0) (f64_of_Z n))) <= k)%Z.
  Proof.
    intros n k Hn Hk B. destruct val_200 as [Fd Vd]. destruct (of_Z_exact n) as [Fn En]; [lia|].
    destruct (mul_spec P _ _ Fd Fn) as [Nm Vm]. rewrite En, <- val_fin, Vd, <- mult_IZR in Vm by exact Fd.
    assert (K40 : IZR (k * k) <= bpow radix2 40) by (change (bpow radix2 40) with (IZR (2 ^ 40)); apply IZR_le; nia).
    assert (K0 : 0 <= IZR (k * k)) by (apply IZR_le; nia).
    assert (H0 : 0 <= val (f64_mul P (f64_lit 200.0) (f64_of_Z n)) <= IZR (k * k)).
    { rewrite Vm. split; [apply rs_pos; apply IZR_le; nia|]. apply rs_le_fmt; [apply fmt_IZR; nia| |apply IZR_le; exact B]. pose proof Om_pos. lra. }
    assert (Fm : fin (f64_mul P (f64_lit 200.0) (f64_of_Z n))).
    { apply (fin_of_bound _ (bpow radix2 40)); [exact Nm|rewrite Rabs_pos_eq; lra|apply bpow_lt; lia]. }
    destruct (sqrt_spec P _ Fm) as [Ns Vs]; [rewrite <- val_fin by exact Fm; lra|].
    rewrite <- (val_fin _ Fm) in Vs. unfold as_u32. ieee_simpl. apply to_int_le; try lia; [apply fin_nonnan; exact Ns|].
    rewrite (val_fin _ Ns), Vs. apply rnd_le_fmt; [apply fmt_IZR; lia|].
    rewrite <- (sqrt_square (IZR k)) by (apply IZR_le; lia). apply sqrt_le_1_alt. rewrite <- mult_IZR. lra.
  Qed.
End Steps.

(** ** truncation *)
Lemma n_pow4 : forall n, INR n * (/ 4) ^ n <= 1.
Proof.
  induction n as [|n IH]; [simpl; lra|]. rewrite S_INR. cbn [pow]. assert (0 < (/ 4) ^ n <= 1).
  { split; [apply pow_lt; lra|]. rewrite <- (pow1 n). apply pow_incr. lra. }
  lra.
Qed.

Lemma trunc_small : forall n m, (2 <= n)%nat -> (44 <= m)%nat -> ((16 <= n)%nat -> (2 * n + 100 <= m)%nat) ->
  2 * INR n * (/ 4) ^ (m - 1 - Nat.max n 14) <= 1 / 10 ^ 15.
Proof.
  intros n m Hn Hm H. destruct (le_lt_dec 16 n) as [L|L].
  - specialize (H L). rewrite Nat.max_l by lia. replace (m - 1 - n)%nat with (n + (40 + (m - 1 - 2 * n - 40)))%nat by lia.
    rewrite !pow_add. pose proof (n_pow4 n) as N4. assert (P0 : 0 < (/ 4) ^ (m - 1 - 2 * n - 40) <= 1).
    { split; [apply pow_lt; lra|]. rewrite <- (pow1 (m - 1 - 2 * n - 40)). apply pow_incr. lra. }
    assert (Q : (/ 4) ^ 40 <= 1 / 10 ^ 20) by (cbn [pow]; lra). assert (Q0 : 0 < (/ 4) ^ 40) by (apply pow_lt; lra).
    assert (N0 : 0 <= INR n * (/ 4) ^ n) by (apply Rmult_le_pos; [apply pos_INR|apply pow_le; lra]).
    replace (2 * INR n * ((/ 4) ^ n * ((/ 4) ^ 40 * (/ 4) ^ (m - 1 - 2 * n - 40)))) with (2 * ((INR n * (/ 4) ^ n) * ((/ 4) ^ 40 * (/ 4) ^ (m - 1 - 2 * n - 40)))) by ring.
    set (a := INR n * (/ 4) ^ n) in *. set (b := (/ 4) ^ 40) in *. set (c := (/ 4) ^ (m - 1 - 2 * n - 40)) in *. clearbody a b c.
    assert (b * c <= b) by (rewrite <- (Rmult_1_r b) at 2; apply Rmult_le_compat_l; lra). assert (0 <= b * c) by (apply Rmult_le_pos; lra).
    assert (a * (b * c) <= 1 * (b * c)) by (apply Rmult_le_compat_r; lra). lra.
  - assert (INR n <= 15) by (replace 15 with (INR 15) by (simpl; lra); apply le_INR; lia).
    assert (E : (28 <= m - 1 - Nat.max n 14)%nat) by lia.
    replace (m - 1 - Nat.max n 14)%nat with (28 + (m - 1 - Nat.max n 14 - 28))%nat by lia. rewrite pow_add.
    set (c := (/ 4) ^ (m - 1 - Nat.max n 14 - 28)). assert (P0 : 0 < c <= 1).
    { split; [apply pow_lt; lra|]. unfold c. rewrite <- (pow1 (m - 1 - Nat.max n 14 - 28)). apply pow_incr. lra. }
    assert (Q : 0 < (/ 4) ^ 28 <= 2 / 10 ^ 17) by (cbn [pow]; lra). set (b := (/ 4) ^ 28) in *. clearbody b c. pose proof (pos_INR n).
    assert (b * c <= b) by (rewrite <- (Rmult_1_r b) at 2; apply Rmult_le_compat_l; lra). assert (0 <= b * c) by (apply Rmult_le_pos; lra).
    assert (INR n * (b * c) <= 15 * (b * c)) by (apply Rmult_le_compat_r; lra). lra.
Qed.

(** ** the final quotient *)
Section Fl.
  Context (P : platform).
  Local Notation mul := (f64_mul P). Local Notation add := (f64_add P). Local Notation div := (f64_div P).

  (** abstract: [a ~ s f], [b ~ s g], [i ~ b0], with f b0 / g near v *)
  Lemma quot_tail : forall (a b i : f64) s f g b0 v e d, fin a -> fin b -> fin i -> 0 < s -> 0 < f -> 0 < g ->
    0 <= e <= 1 / 10 ^ 5 -> 0 <= d <= 1 / 10 ^ 14 -> mr e (val a) (s * f) -> mr e (val b) (s * g) ->
    1 / 16 <= s * g <= bpow radix2 513 -> 1 <= b0 <= bpow radix2 91 -> Rabs (val i - b0) <= 3 / 10 ^ 14 * b0 ->
    Rabs (f * b0 / g - v) <= d * v -> bpow radix2 (-900) <= v <= bpow radix2 94 ->
    let r := mul a (div i b) in fin r /\ Rabs (val r - v) <= (2 * e + 8 * (e * e) + 4 / 10 ^ 14 + 2 * d) * v.
  Proof.
    intros a b i s f g b0 v e d Fa Fb Fi S0 F0 G0 He Hd Ma Mb HG Hb Hi Hq Hv r.
    assert (V0 : 0 < v) by (pose proof (bpow_gt_0 radix2 (-900)); lra).
    assert (Mi : mr (301 / 10 ^ 16) (val i) b0).
    { eapply mr_weak; [|apply (mr_of_rel (3 / 10 ^ 14)); [lra|rewrite (Rabs_pos_eq b0) by lra; exact Hi]]. lra. }
    assert (Mv : mr (d + 2 * (d * d)) (f * b0 / g) v) by (apply mr_of_rel; [lra|rewrite (Rabs_pos_eq v) by lra; exact Hq]).
    assert (DD : d * d <= 1 / 10 ^ 14 * d) by (apply Rmult_le_compat_r; lra).
    assert (GP : 0 < s * g) by lra.
    pose proof (mr_pos _ _ _ Mb GP) as B0.
    assert (Mq : mr (301 / 10 ^ 16 + e) (val i / val b) (b0 / (s * g))) by (apply mr_mul; [exact Mi|apply mr_inv; [lra|exact Mb]]).
    assert (Q0 : bpow radix2 (-513) <= b0 / (s * g) <= bpow radix2 95).
    { split.
      - apply Rle_trans with (1 * / bpow radix2 513); [rewrite Rmult_1_l, <- bpow_opp; right; reflexivity|]. apply Rmult_le_compat; [lra|left; apply Rinv_0_lt_compat, bpow_gt_0|lra|]. apply Rinv_le_contravar; lra.
      - apply Rle_trans with (bpow radix2 91 * / (1 / 16)); [apply Rmult_le_compat; [lra|left; apply Rinv_0_lt_compat; lra|lra|apply Rinv_le_contravar; lra]|].
        replace (bpow radix2 95) with (bpow radix2 91 * bpow radix2 4) by (rewrite <- bpow_plus; reflexivity). replace (bpow radix2 4) with 16 by (simpl; lra). lra. }
    assert (C1 : bpow radix2 (-513) = 2 * bpow radix2 (-514)) by (change 2 with (bpow radix2 1); rewrite <- bpow_plus; reflexivity).
    assert (C2 : bpow radix2 96 = 2 * bpow radix2 95) by (change 2 with (bpow radix2 1); rewrite <- bpow_plus; reflexivity).
    assert (QP : 0 < b0 / (s * g)) by (pose proof (bpow_gt_0 radix2 (-513)); lra).
    pose proof (mr_near _ _ _ Mq ltac:(lra) QP) as N1.
    assert (2 * (301 / 10 ^ 16 + e) * (b0 / (s * g)) <= 1 / 2 * (b0 / (s * g))) by (apply Rmult_le_compat_r; lra).
    assert (V1 : bpow radix2 (-514) <= val i / val b <= bpow radix2 96) by lra.
    destruct (div_mr P i b Fi Fb ltac:(lra)) as [Fq Rq].
    { rewrite Rabs_pos_eq by (pose proof (bpow_gt_0 radix2 (-514)); lra). split; [apply Rle_trans with (2 := proj1 V1); apply bpow_le; lia|apply Rle_trans with (1 := proj2 V1); apply bpow_le; lia]. }
    set (q := div i b) in *. clearbody q. pose proof (mr_trans _ _ _ _ _ Rq Mq) as M2.
    assert (M3 : mr (e + (vv + (301 / 10 ^ 16 + e)) + (d + 2 * (d * d))) (val a * val q) v).
    { eapply mr_trans; [|exact Mv]. replace (f * b0 / g) with (s * f * (b0 / (s * g))) by (field; lra). apply mr_mul; assumption. }
    set (w := e + (vv + (301 / 10 ^ 16 + e)) + (d + 2 * (d * d))) in *.
    assert (W : 0 <= w <= 1 / 1000) by (unfold w, vv; assert (0 <= d * d) by (apply Rmult_le_pos; lra); lra).
    pose proof (mr_near _ _ _ M3 W V0) as N3. assert (2 * w * v <= 1 / 2 * v) by (apply Rmult_le_compat_r; lra).
    assert (C3 : bpow radix2 (-900) = 2 * bpow radix2 (-901)) by (change 2 with (bpow radix2 1); rewrite <- bpow_plus; reflexivity).
    assert (C4 : bpow radix2 95 = 2 * bpow radix2 94) by (change 2 with (bpow radix2 1); rewrite <- bpow_plus; reflexivity).
    destruct (mul_mr P a q Fa Fq) as [Fr Rr].
    { rewrite Rabs_pos_eq by lra. split; [apply Rle_trans with (bpow radix2 (-901)); [apply bpow_le; lia|lra]|apply Rle_trans with (bpow radix2 95); [lra|apply bpow_le; lia]]. }
    split; [exact Fr|]. pose proof (mr_trans _ _ _ _ _ Rr M3) as M4. apply mr_abs in M4; [|unfold vv; lra]. rewrite (Rabs_pos_eq v) in M4 by lra.
    eapply Rle_trans; [exact M4|]. apply Rmult_le_compat_r; [lra|].
    assert (T : vv + w <= 2 * e + 304 / 10 ^ 16 + 11 / 10 * d) by (unfold w, vv; lra).
    assert (T0 : 0 <= vv + w) by (unfold vv; lra). clearbody w.
    set (u := 304 / 10 ^ 16 + 11 / 10 * d) in *. assert (U : 304 / 10 ^ 16 <= u <= 5 / 10 ^ 14) by (unfold u; lra). assert (Eu : u = 304 / 10 ^ 16 + 11 / 10 * d) by reflexivity. clearbody u.
    assert ((vv + w) * (vv + w) <= (2 * e + u) * (2 * e + u)) by (apply Rmult_le_compat; lra).
    assert (e * u <= 1 / 10 ^ 5 * u) by (apply Rmult_le_compat_r; lra). assert (u * u <= 5 / 10 ^ 14 * u) by (apply Rmult_le_compat_r; lra).
    lra.
  Qed.

  Lemma BI_unique : forall n x v, is_I n x v -> v = BI x n.
  Proof. intros n x v H. exact (infinite_sum_unique _ _ _ H (BI_is x n)). Qed.

  Lemma not_small : forall x, fin x -> bpow radix2 (-400) <= val x < 15 -> f64_le (@powi2 (ieee P) x) (mul (f64_lit 8.0) f64_tiny) = false.
  Proof.
    intros x Fx Hx. destruct (f64_le (@powi2 (ieee P) x) (mul (f64_lit 8.0) f64_tiny)) eqn:E; [exfalso|reflexivity].
    apply le_true in E. destruct E as (_ & _ & E). destruct (tiny_thr P) as [_ Vt]. unfold powi2 in E. ieee_simpl_in E.
    rewrite Vt in E. pose proof (bpow_gt_0 radix2 (-400)) as B0.
    assert (bpow radix2 (-800) <= val (mul x x)).
    { destruct (mul_spec P x x Fx Fx) as [_ V]. rewrite V, <- !(val_fin x) by exact Fx. apply rs_ge; [apply fmt_bpow; lia| |].
      - pose proof Om_big. apply Rle_trans with (bpow radix2 0); [apply bpow_le; lia|simpl; lra].
      - change (-800)%Z with (-400 + -400)%Z. rewrite bpow_plus. apply Rmult_le_compat; lra. }
    assert (bpow radix2 (-1019) < bpow radix2 (-800)) by (apply bpow_lt; lia). lra.
  Qed.

  Lemma in_unfold : forall (n s : nat) x st, (2 <= n < 1020)%nat -> fin x -> bpow radix2 (-400) <= val x < 15 ->
    @as_u32 (ieee P) (f64_sqrt P (mul (f64_lit 200.0) (f64_of_Z (Z.of_nat n)))) = Z.of_nat s -> (s < 2000)%nat ->
    for_loop (rev (range 1 (Z.of_nat (2 * (n + s) - 1) + 1))) (@in_down_body (ieee P) (div (f64_lit 2.0) (f64_abs x)) (Z.of_nat n)) (f64_lit 0.0, f64_lit 1.0, f64_lit 0.0) = Ok (Exhausted st) ->
    @Bessel.In (ieee P) (Z.of_nat n) x = Ok (mul (snd st) (div (@i0 (ieee P) x) (snd (fst st)))).
  Proof.
    intros n s x [[bip bi] ans] Hn Fx Hx Es Hs L. unfold Bessel.In.
    replace (Z.of_nat n =? 0)%Z with false by (symmetry; apply Z.eqb_neq; lia).
    replace (Z.of_nat n =? 1)%Z with false by (symmetry; apply Z.eqb_neq; lia).
    pose proof (not_small x Fx Hx) as E. ieee_simpl. ieee_simpl_in E. rewrite E. ieee_simpl_in Es. rewrite Es.
    rewrite arith_u_ok by lia. unfold bind at 1. rewrite arith_u_ok by lia. unfold bind at 1.
    replace (2 * (Z.of_nat n + Z.of_nat s))%Z with (Z.of_nat (2 * (n + s) - 1) + 1)%Z by lia.
    match goal with |- bind ?m _ = _ => change m with (for_loop (rev (range 1 (Z.of_nat (2 * (n + s) - 1) + 1))) (@in_down_body (ieee P) (div (f64_lit 2.0) (f64_abs x)) (Z.of_nat n)) (f64_lit 0.0, f64_lit 1.0, f64_lit 0.0)) end.
    rewrite L. unfold bind. cbn [fst snd].
    assert (N : f64_lt x (f64_lit 0.0) = false).
    { destruct (f64_lt x (f64_lit 0.0)) eqn:Q; [exfalso|reflexivity]. apply lt_true in Q. destruct Q as (_ & _ & Q). rewrite val_0 in Q. pose proof (bpow_gt_0 radix2 (-400)). lra. }
    rewrite N. reflexivity.
  Qed.

  Theorem In_acc : forall (n : nat) (x : f64) (v : R), (2 <= n)%nat -> fin x -> bpow radix2 (-400) <= val x < 15 -> is_I n (val x) v -> bpow radix2 (-900) <= v ->
    exists r, @Bessel.In (ieee P) (Z.of_nat n) x = Ok r /\ fin r /\ Rabs (val r - v) <= (3 / 10 ^ 13 + 3 * INR n / 10 ^ 15) * v.
  Proof.
    intros n x v Hn Fx Hx Iv Hv. apply BI_unique in Iv. subst v.
    assert (X0 : 0 < val x < 15) by (pose proof (bpow_gt_0 radix2 (-400)); lra).
    pose proof (BI_order (val x) n X0 Hv) as Nn.
    set (sz := @as_u32 (ieee P) (f64_sqrt P (mul (f64_lit 200.0) (f64_of_Z (Z.of_nat n))))).
    assert (S1 : (20 <= sz)%Z) by (apply steps_ge; lia).
    assert (S2 : (16 <= n)%nat -> (56 <= sz)%Z) by (intros; apply steps_ge; lia).
    assert (S3 : (2 * sz <= Z.of_nat n + 201)%Z).
    { pose proof (Z.div_mod (Z.of_nat n + 201) 2 ltac:(lia)) as D1. pose proof (Z.mod_pos_bound (Z.of_nat n + 201) 2 ltac:(lia)) as D2.
      set (k := ((Z.of_nat n + 201) / 2)%Z) in *. set (k2 := ((Z.of_nat n + 201) mod 2)%Z) in *. clearbody k k2.
      assert (sz <= k)%Z; [|lia]. apply steps_le; [lia|lia|].
      assert (Q1 : (Z.of_nat n + 200 <= 2 * k)%Z) by lia. assert (Q2 : ((Z.of_nat n + 200) * (Z.of_nat n + 200) <= 2 * k * (2 * k))%Z) by (apply Z.mul_le_mono_nonneg; lia).
      pose proof (Z.square_nonneg (Z.of_nat n - 200)) as Q3. lia. }
    assert (Es : sz = Z.of_nat (Z.to_nat sz)) by lia. set (s := Z.to_nat sz) in *. set (m := (2 * (n + s))%nat).
    assert (Hm : (44 <= m)%nat /\ (m <= 3 * n + 201)%nat /\ ((16 <= n)%nat -> (2 * n + 100 <= m)%nat)) by (unfold m; lia).
    destruct Hm as (Hm1 & Hm2 & Hm3).
    pose proof fin_2 as F2. pose proof val_2 as V2.
    assert (Va : val (f64_abs x) = val x) by (rewrite val_abs, Rabs_pos_eq; lra).
    assert (Fab : fin (f64_abs x)) by (rewrite fin_abs; exact Fx).
    destruct (div_mr P (f64_lit 2.0) (f64_abs x) F2 Fab ltac:(lra)) as [Ft Mt].
    { rewrite V2, Va. rewrite Rabs_pos_eq by (apply Rlt_le, Rdiv_lt_0_compat; lra). assert (I1 : / 15 <= / val x) by (apply Rinv_le_contravar; lra).
      assert (I2 : / val x <= bpow radix2 400) by (rewrite <- (Rinv_inv (bpow radix2 400)); rewrite <- bpow_opp; apply Rinv_le_contravar; [apply bpow_gt_0|apply Hx]).
      split.
      - apply Rle_trans with (bpow radix2 (-4)); [apply bpow_le; lia|]. replace (bpow radix2 (-4)) with (/ 16) by (simpl; lra). unfold Rdiv. lra.
      - apply Rle_trans with (bpow radix2 401); [|apply bpow_le; lia]. change 401%Z with (1 + 400)%Z. rewrite bpow_plus. change (bpow radix2 1) with 2. unfold Rdiv. lra. }
    rewrite V2, Va in Mt.
    assert (Hnm : (2 <= n < m)%nat) by (unfold m; lia). assert (Hm24 : (24 <= m)%nat) by lia. assert (Hm31 : (Z.of_nat m <= 2 ^ 31)%Z) by lia.
    destruct (istate_loop P x _ n m Ft Hx Mt Hnm Hm24 Hm31 Hv (m - 1) _ ltac:(lia) (istate_start x n m Hnm Hm24)) as ([[bip bi] ans] & L & sg & G0 & Fp & Fb & Mb & Mp & Lo & Up & _ & A1).
    destruct (A1 ltac:(lia)) as [FA MA].
    exists (mul ans (div (@i0 (ieee P) x) bi)).
    split; [exact (in_unfold n s x (bip, bi, ans) ltac:(lia) Fx Hx Es ltac:(lia) L)|].
    assert (A15 : Rabs (val x) < 15) by (rewrite Rabs_pos_eq; lra).
    destruct (i0_fl P x _ Fx A15 (BI_is (val x) 0)) as [Fi Ei].
    pose proof (ie_le n m Hnm Hm24 Hm31 0) as E0. pose proof (f_pos x n m Hx Hnm Hm24) as FP.
    pose proof (sg_low x n m Hx Hnm Hm24 0 sg ltac:(lia) G0 Lo) as GL.
    assert (TQ := mil_quot 1 (2 * / val x) m (BI (val x)) Rabs_R1 (fun i => BI_pos (val x) i ltac:(lra)) (fun i => BI_rec (val x) i ltac:(lra)) (fun i => BI_two (val x) i ltac:(lra)) 14 (fun i Hi => BI_four (val x) i X0 Hi) ltac:(lia) ltac:(lia) n ltac:(lia)).
    pose proof (trunc_small n m Hn Hm1 Hm3) as TS.
    assert (TQ' : Rabs (mil 1 (2 * / val x) m n * BI (val x) 0 / mil 1 (2 * / val x) m 0 - BI (val x) n) <= 1 / 10 ^ 15 * BI (val x) n).
    { eapply Rle_trans; [exact TQ|]. apply Rmult_le_compat_r; [left; apply BI_pos; lra|exact TS]. }
    assert (B01 : 1 <= BI (val x) 0) by (pose proof (BI_ge (val x) 0 ltac:(lra)) as Q; simpl in Q; lra).
    destruct (quot_tail ans bi (@i0 (ieee P) x) sg (mil 1 (2 * / val x) m n) (mil 1 (2 * / val x) m 0) (BI (val x) 0) (BI (val x) n) (ie m 0) (1 / 10 ^ 15)
      FA Fb Fi G0 (FP n ltac:(lia)) (FP 0%nat ltac:(lia)) E0 ltac:(lra) MA Mb (conj GL Up) (conj B01 (BI0_le (val x) X0)) Ei TQ' (conj Hv (BI_le (val x) n X0))) as [Fr Er].
    split; [exact Fr|]. eapply Rle_trans; [exact Er|]. apply Rmult_le_compat_r; [left; apply BI_pos; lra|].
    assert (IE : ie m 0 <= 4 * vv * (3 * INR n + 201)).
    { unfold ie. apply Rmult_le_compat_l; [unfold vv; lra|]. replace (3 * INR n + 201) with (INR (3 * n + 201)); [apply le_INR; lia|]. rewrite plus_INR, mult_INR. simpl (INR 3). replace (INR 201) with 201 by (rewrite INR_IZR_INZ; reflexivity). lra. }
    assert (N20 : 2 <= INR n <= 1020). { split; [replace 2 with (INR 2) by (simpl; lra); apply le_INR; lia|]. replace 1020 with (INR 1020) by (rewrite INR_IZR_INZ; reflexivity). apply le_INR. lia. }
    set (e := ie m 0) in *. clearbody e. unfold vv in IE. assert (e <= 1 / 10 ^ 11) by lra. assert (e * e <= 1 / 10 ^ 11 * e) by (apply Rmult_le_compat_r; lra). lra.
  Qed.
End Fl.

(** ** both signs of the argument *)
Lemma bterm_opp : forall s n x k, bterm s n (- x) k = (-1) ^ n * bterm s n x k.
Proof.
  intros s n x k. unfold bterm. replace (- x / 2) with (-1 * (x / 2)) by field. rewrite Rpow_mult_distr.
  replace ((-1) ^ (2 * k + n)) with ((-1) ^ n) by (rewrite pow_add, pow_1_even; ring). unfold Rdiv. ring.
Qed.
Lemma sum_opp : forall s n x k, sum_f_R0 (bterm s n (- x)) k = (-1) ^ n * sum_f_R0 (bterm s n x) k.
Proof. intros s n x. induction k as [|k IH]; cbn [sum_f_R0]; [apply bterm_opp|]. rewrite IH, bterm_opp. ring. Qed.
Lemma is_opp : forall s n x v, infinite_sum (bterm s n x) v -> infinite_sum (bterm s n (- x)) ((-1) ^ n * v).
Proof.
  intros s n x v H e He. destruct (H e He) as [N HN]. exists N. intros k Hk. specialize (HN k Hk). unfold R_dist in *.
  rewrite sum_opp. rewrite <- Rmult_minus_distr_l, Rabs_mult, pow_1_abs, Rmult_1_l. exact HN.
Qed.

Lemma BI_even_odd : forall (n : nat), Z.odd (Z.of_nat n) = Nat.odd n.
Proof.
  intros n. destruct (Nat.Even_or_Odd n) as [[k E]|[k E]]; subst n.
  - rewrite Nat2Z.inj_mul, Z.odd_mul. replace (Nat.odd (2 * k)) with false; [reflexivity|]. symmetry. rewrite Nat.odd_mul. reflexivity.
  - replace (Z.of_nat (2 * k + 1)) with (2 * Z.of_nat k + 1)%Z by lia. rewrite Z.add_comm, Z.odd_add_mul_2. rewrite Nat.add_comm, Nat.odd_add_mul_2. reflexivity.
Qed.

Lemma opp_pow : forall n, (-1) ^ n = if Nat.odd n then -1 else 1.
Proof.
  intros n. destruct (Nat.Even_or_Odd n) as [[k E]|[k E]]; subst n.
  - rewrite pow_1_even, Nat.odd_mul. reflexivity.
  - replace (2 * k + 1)%nat with (S (2 * k)) by lia. rewrite pow_1_odd. replace (S (2 * k)) with (1 + 2 * k)%nat by lia. rewrite Nat.odd_add_mul_2. reflexivity.
Qed.

Theorem In_accurate : forall (P : platform) (n : nat) (x : f64) (v : R), (2 <= n)%nat -> finite x -> bpow radix2 (-400) <= Rabs (Binary.B2R x) < 15 ->
  is_I n (Binary.B2R x) v -> bpow radix2 (-900) <= Rabs v ->
  exists r, @Bessel.In (ieee P) (Z.of_nat n) x = Ok r /\ finite r /\ Rabs (Binary.B2R r - v) <= (3 / 10 ^ 13 + 3 * INR n / 10 ^ 15) * Rabs v.
Proof.
  intros P n x v Hn Fx Hx Iv Hv. rewrite <- !(val_fin x) in * by exact Fx.
  pose proof (bpow_gt_0 radix2 (-400)) as B4. pose proof (bpow_gt_0 radix2 (-900)) as B9.
  destruct (Rle_lt_dec 0 (val x)) as [S|S].
  - rewrite Rabs_pos_eq in Hx by exact S. assert (Pv : 0 < v) by (rewrite (BI_unique _ _ _ Iv); apply BI_pos; lra).
    rewrite Rabs_pos_eq in Hv by lra. rewrite (Rabs_pos_eq v) by lra. destruct (In_acc P n x v Hn Fx Hx Iv Hv) as (r & E & Fr & R). exists r. rewrite <- (val_fin r Fr). auto.
  - rewrite Rabs_left in Hx by exact S. set (y := f64_neg x). assert (Vy : val y = - val x) by apply val_neg. assert (Fy : fin y) by (unfold y; rewrite fin_neg; exact Fx).
    assert (Iy : is_I n (val y) ((-1) ^ n * v)) by (rewrite Vy; apply is_opp; exact Iv).
    assert (Pv : 0 < (-1) ^ n * v) by (rewrite (BI_unique _ _ _ Iy); apply BI_pos; lra).
    assert (Av : Rabs v = (-1) ^ n * v) by (rewrite <- (Rabs_pos_eq _ (Rlt_le _ _ Pv)), Rabs_mult, pow_1_abs; ring).
    destruct (In_acc P n y ((-1) ^ n * v) Hn Fy ltac:(rewrite Vy; exact Hx) Iy ltac:(lra)) as (r & E & Fr & R).
    pose proof (In_parity P (Z.of_nat n) y ltac:(lia) (fin_nonnan _ Fy) ltac:(left; lia)) as Q.
    assert (NN : f64_neg y = x) by (unfold y; apply neg_neg). rewrite NN, E in Q.
    destruct (@Bessel.In (ieee P) (Z.of_nat n) x) as [r'| |]; try contradiction. exists r'. split; [reflexivity|].
    rewrite BI_even_odd in Q. rewrite opp_pow in *. rewrite Av. clear Av. destruct (Nat.odd n).
    + assert (Fv : fin r' /\ val r' = - val r).
      { destruct Q as [Q|(_ & N' & Z1 & Z2)].
        - assert (Q' : f64_neg r = r') by (apply eqn_nonnan; [symmetry; exact Q|]; apply fin_nonnan; rewrite fin_neg; exact Fr).
          split; [rewrite <- Q', fin_neg; exact Fr|rewrite <- Q', val_neg; reflexivity].
        - split; [apply fin_iff_val; [exact N'|]; rewrite Z2, Rabs_R0; apply Om_pos|lra]. }
      destruct Fv as [Fr' Vr']. split; [exact Fr'|]. rewrite <- (val_fin r' Fr'), Vr'. replace (- val r - v) with (- (val r - -1 * v)) by ring. rewrite Rabs_Ropp. exact R.
    + subst r'. split; [exact Fr|]. rewrite <- (val_fin r Fr). rewrite Rmult_1_l in *. exact R.
Qed.

Lemma ex_in_acc : (finite (f64_lit 2.5) /\ Binary.B2R (f64_lit 2.5) = 2.5) /\ bpow radix2 (-400) <= Rabs 2.5 < 15 /\ exists v, is_I 5 2.5 v /\ bpow radix2 (-900) <= Rabs v.
Proof.
  lit_facts 2.5%dec 5%Z 1%Z HF HV. rewrite (val_fin _ HF) in HV. split; [split; [exact HF|lra]|]. rewrite Rabs_pos_eq by lra.
  split; [split; [apply Rle_trans with (bpow radix2 0); [apply bpow_le; lia|simpl; lra]|lra]|].
  exists (BI 2.5 5). split; [apply BI_is|]. pose proof (BI_ge 2.5 5 ltac:(lra)) as G. rewrite Rabs_pos_eq by (left; apply BI_pos; lra).
  eapply Rle_trans; [|exact G]. apply Rle_trans with (bpow radix2 (-7)); [apply bpow_le; lia|]. simpl. lra.
Qed.
