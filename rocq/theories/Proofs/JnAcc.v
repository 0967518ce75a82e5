(** * Rounding errors of the downward recurrence of Jn for |x| <= 1 *)

From Coq Require Import ZArith Reals Bool Lra Lia List.
From Flocq Require Import Core IEEE754.BinarySingleNaN IEEE754.Binary IEEE754.Bits.
From Verif.Model Require Import Base Arith BesselTables Utils Bessel.
From Verif.Float Require Import Bits64 Ieee Exact Platforms.
From Verif.Spec Require Import F64Spec Outcome BesselSpec.
From Verif.Proofs Require Import F64 F64Ops Lits Ext FlErr GammaAcc GserAcc PosHorner BetaCfBad UtilsSpec BesselInt BesselPanics BesselSeries BesselAcc Miller BesselReal BesselJReal MillerJ InAcc.
Import ListNotations.
Open Scope R_scope.

(** ** subtraction of a smaller number *)
Lemma mr_sub : forall u rho a A b Bv C, mr u a A -> mr u b Bv -> u <= 1 / 10 ^ 6 -> 0 < C -> A = C + Bv -> 0 <= Bv <= rho * C -> 0 <= rho <= 1 ->
  mr (u * (1 + 2 * rho) + 40 * (u * u)) (a - b) C.
Proof.
  intros u rho a A b Bv C Ma Mb Hu HC HA HB Hr. pose proof (mr_t0 _ _ _ Ma) as U0.
  apply mr_abs in Ma; [|lra]. apply mr_abs in Mb; [|lra]. rewrite (Rabs_pos_eq A) in Ma by lra. rewrite (Rabs_pos_eq Bv) in Mb by lra.
  assert (UU : 0 <= u * u <= 1 / 10 ^ 6 * u) by (split; [apply Rmult_le_pos; lra|apply Rmult_le_compat_r; lra]).
  set (w := u + 2 * (u * u)) in *. assert (W0 : 0 <= w) by (unfold w; lra).
  assert (E : Rabs (a - b - C) <= w * (1 + 2 * rho) * Rabs C).
  { rewrite (Rabs_pos_eq C) by lra. assert (w * (A + Bv) <= w * ((1 + 2 * rho) * C)) by (apply Rmult_le_compat_l; lra). apply Rabs_le_inv in Ma, Mb. apply Rabs_le. lra. }
  assert (WR : 0 <= w * rho <= w * 1) by (split; [apply Rmult_le_pos; lra|apply Rmult_le_compat_l; lra]).
  eapply mr_weak; [|apply mr_of_rel with (e := w * (1 + 2 * rho)); [unfold w in *; lra|exact E]].
  set (z := w * (1 + 2 * rho)) in *. assert (Z1 : 0 <= z <= 4 * u) by (unfold z, w in *; lra).
  assert (ZZ : z * z <= 4 * u * (4 * u)) by (apply Rmult_le_compat; lra).
  assert (RU : 0 <= u * u * rho <= u * u * 1) by (split; [apply Rmult_le_pos; lra|apply Rmult_le_compat_l; lra]).
  assert (Z2 : z <= u * (1 + 2 * rho) + 6 * (u * u)).
  { unfold z, w. replace ((u + 2 * (u * u)) * (1 + 2 * rho)) with (u * (1 + 2 * rho) + 2 * (u * u) + 4 * (u * u * rho)) by ring. lra. }
  lra.
Qed.

Section Fl.
  Context (P : platform).
  Local Notation mul := (f64_mul P). Local Notation add := (f64_add P). Local Notation sub := (f64_sub P). Local Notation div := (f64_div P).
  Local Notation frexp64 := (@frexp (ieee P)).
  Local Notation ldexp64 := (@ldexp (ieee P)).

  (** ** one step of the recurrence *)
  Lemma J_step_fl : forall j t c p kt kc kp C e rho, (1 <= j <= 2 ^ 32)%Z -> fin t -> fin c -> fin p -> mr vv (val t) kt -> 2 <= kt -> 1 / 2 <= kc ->
    mr e (val c) kc -> mr e (val p) kp -> e <= 1 / 10 ^ 7 -> C = IZR j * kt * kc - kp -> 0 <= kp <= rho * C -> 0 <= rho <= 1 / 3 -> 1 / 2 <= C <= bpow radix2 1000 ->
    let r := sub (mul (mul (f64_of_Z j) t) c) p in fin r /\ mr (vv + ((e + 3 * vv) * (1 + 2 * rho) + 40 * ((e + 3 * vv) * (e + 3 * vv)))) (val r) C.
  Proof.
    intros j t c p kt kc kp C e rho Hj Ft Fc Fp Mt Ht Hc Mc Mp He EC Hp Hr HC r. pose proof (mr_t0 _ _ _ Mc) as E0.
    destruct (of_Z_exact j ltac:(lia)) as [Fj Vj]. rewrite <- (val_fin _ Fj) in Vj.
    assert (J1 : 1 <= IZR j) by (apply IZR_le; lia).
    assert (B23 : bpow radix2 1000 * 2 ^ 8 <= bpow radix2 1023). { replace (2 ^ 8) with (bpow radix2 8) by (simpl; lra). rewrite <- bpow_plus. apply bpow_le. lia. }
    pose proof (bpow_gt_0 radix2 1000) as B0. assert (N22 : bpow radix2 (-1022) <= / 2 ^ 10). { replace (/ 2 ^ 10) with (bpow radix2 (-10)) by (simpl; lra). apply bpow_le; lia. }
    assert (JT : 2 <= IZR j * kt). { replace 2 with (1 * 2) by ring. apply Rmult_le_compat; lra. }
    assert (JTC : IZR j * kt * (1 / 2) <= IZR j * kt * kc) by (apply Rmult_le_compat_l; lra).
    set (q := IZR j * kt) in *. set (K := bpow radix2 1000) in *. clearbody K.
    assert (RC : rho * C <= 1 / 3 * C) by (apply Rmult_le_compat_r; lra).
    assert (QC : q * kc = C + kp) by lra. assert (QB : q <= 4 * K) by lra.
    assert (M1 : mr vv (IZR j * val t) q) by (apply mr_scale_l, Mt).
    pose proof (mr_near _ _ _ M1 ltac:(unfold vv; lra) ltac:(lra)) as N1.
    assert (V1 : 1 <= IZR j * val t <= 5 * K) by (unfold vv in N1; lra).
    destruct (mul_mr P (f64_of_Z j) t Fj Ft) as [F1 R1]; [rewrite Vj, Rabs_pos_eq; lra|]. rewrite Vj in R1.
    set (m := mul (f64_of_Z j) t) in *. clearbody m. pose proof (mr_trans _ _ _ _ _ R1 M1) as M2.
    assert (M3 : mr (vv + vv + e) (val m * val c) (q * kc)) by (apply mr_mul; assumption).
    assert (T3 : 0 <= vv + vv + e <= 1 / 1000) by (unfold vv; lra).
    pose proof (mr_near _ _ _ M3 T3 ltac:(lra)) as N3.
    assert (2 * (vv + vv + e) * (q * kc) <= 1 / 100 * (q * kc)) by (apply Rmult_le_compat_r; [lra|unfold vv; lra]).
    assert (V3 : / 2 ^ 10 <= val m * val c <= 2 * K) by lra.
    destruct (mul_mr P m c F1 Fc) as [F4 R4]; [rewrite Rabs_pos_eq; lra|].
    set (s := mul m c) in *. clearbody s. pose proof (mr_trans _ _ _ _ _ R4 M3) as M4.
    replace (vv + (vv + vv + e)) with (e + 3 * vv) in M4 by ring.
    assert (Mp' : mr (e + 3 * vv) (val p) kp) by (eapply mr_weak; [|exact Mp]; unfold vv; lra).
    assert (M5 : mr ((e + 3 * vv) * (1 + 2 * rho) + 40 * ((e + 3 * vv) * (e + 3 * vv))) (val s - val p) C).
    { apply (mr_sub _ rho _ (q * kc) _ kp); try assumption; try lra. unfold vv; lra. }
    set (u := (e + 3 * vv) * (1 + 2 * rho) + 40 * ((e + 3 * vv) * (e + 3 * vv))) in *.
    assert (U : 0 <= u <= 1 / 1000). { unfold u. assert (A : 0 <= e + 3 * vv <= 1 / 10 ^ 6) by (unfold vv; lra). set (y := e + 3 * vv) in *. clearbody y. assert (0 <= y * rho <= y * 1) by (split; [apply Rmult_le_pos; lra|apply Rmult_le_compat_l; lra]).
      assert (0 <= y * y <= 1 * y) by (split; [apply Rmult_le_pos; lra|apply Rmult_le_compat_r; lra]). lra. }
    clearbody u. pose proof (mr_near _ _ _ M5 U ltac:(lra)) as N5.
    assert (2 * u * C <= 1 / 100 * C) by (apply Rmult_le_compat_r; lra).
    assert (V5 : / 2 ^ 10 <= val s - val p <= 2 * K) by lra.
    destruct (sub_mr P s p F4 Fp) as [F6 R6]; [rewrite Rabs_pos_eq; lra|]. fold r in F6, R6. split; [exact F6|]. exact (mr_trans _ _ _ _ _ R6 M5).
  Qed.

  (** ** the state of the loop *)
  Context (x : R) (t : f64) (n m h : nat) (Ft : fin t) (X0 : bpow radix2 (-400) <= x <= 1) (Mt : mr vv (val t) (2 * / x))
    (Hn : (2 <= n < m)%nat) (Hm : m = (2 * h)%nat) (Hm1 : (18 <= m)%nat) (Hm2 : (m <= 2000)%nat) (HB : bpow radix2 (-900) <= BJ x n).

  Local Notation kt := (2 * / x).
  Local Notation f := (mil (-1) kt (S m)).
  Local Notation ev := (evs x m).

  Lemma X1 : 0 < x <= 1. Proof. pose proof (bpow_gt_0 radix2 (-400)). lra. Qed.
  Lemma F0 : forall j, (j <= m)%nat -> 0 < f j. Proof. intros j Hj. apply (jf_pos x m h X1 Hm Hm1); assumption. Qed.
  Lemma F1 : forall j, (j <= m)%nat -> (2 * INR j + 1) * f (S j) <= f j. Proof. intros j Hj. apply (jf_next x m h X1 Hm Hm1); assumption. Qed.
  Lemma F0' : forall j, (j <= S m)%nat -> 0 <= f j.
  Proof. intros j Hj. destruct (Nat.eq_dec j (S m)) as [->|E]; [rewrite mil_top; lra|apply Rlt_le, F0; lia]. Qed.
  Lemma F1' : forall j, (j <= m)%nat -> f (S j) <= f j.
  Proof. intros j Hj. pose proof (F1 j Hj). pose proof (F0' (S j) ltac:(lia)). pose proof (pos_INR j). assert (1 * f (S j) <= (2 * INR j + 1) * f (S j)) by (apply Rmult_le_compat_r; lra). lra. Qed.

  Lemma kt_rng : 2 <= kt <= bpow radix2 401.
  Proof.
    pose proof X1 as H. split; [apply kt2, H|].
    replace (bpow radix2 401) with (2 * / bpow radix2 (-400)). { apply Rmult_le_compat_l; [lra|]. apply Rinv_le_contravar; [apply bpow_gt_0|lra]. }
    rewrite <- bpow_opp. change 2 with (bpow radix2 1). rewrite <- bpow_plus. reflexivity.
  Qed.

  (** error bounds *)
  Definition jw (j : nat) : R := 1 + 3 / 2 / (2 * INR j + 1).
  Definition je (j : nat) : R := 5 * vv * INR (m - j) * jw j.
  Definition js (j : nat) : R := je j + vv * INR (m - j).

  Lemma jw_rng : forall j, 1 <= jw j <= 5 / 2.
  Proof.
    intros j. unfold jw. pose proof (pos_INR j). assert (0 < / (2 * INR j + 1) <= 1) by (split; [apply Rinv_0_lt_compat; lra|rewrite <- Rinv_1; apply Rinv_le_contravar; lra]). lra.
  Qed.
  Definition jrho (j : nat) : R := / ((2 * INR j + 3) * (2 * INR j + 1)).
  (** growth of the weights covers the amplification at the step to order j *)
  Lemma jw_step : forall j, jw (S j) * (1 + 2 * jrho j) <= jw j /\ 0 <= jrho j <= 1 / 3.
  Proof.
    intros j. unfold jw, jrho. rewrite S_INR. pose proof (pos_INR j). set (k := INR j) in *. clearbody k.
    assert (D : 3 <= (2 * k + 3) * (2 * k + 1)) by (replace 3 with (3 * 1) at 1 by ring; apply Rmult_le_compat; lra).
    split; [|split; [left; apply Rinv_0_lt_compat; lra|replace (1 / 3) with (/ 3) by lra; apply Rinv_le_contravar; lra]].
    replace (2 * (k + 1) + 1) with (2 * k + 3) by ring.
    assert (E : 1 + 3 / 2 / (2 * k + 1) - (1 + 3 / 2 / (2 * k + 3)) * (1 + 2 * / ((2 * k + 3) * (2 * k + 1))) = 2 * k / ((2 * k + 3) * (2 * k + 3) * (2 * k + 1))) by (field; lra).
    assert (0 <= 2 * k / ((2 * k + 3) * (2 * k + 3) * (2 * k + 1))); [|lra].
    apply Rmult_le_pos; [lra|]. left. apply Rinv_0_lt_compat. apply Rmult_lt_0_compat; [apply Rmult_lt_0_compat|]; lra.
  Qed.
  Lemma je_le : forall j, 0 <= je j <= 3 / 10 ^ 12.
  Proof.
    intros j. unfold je. pose proof (jw_rng j). pose proof (pos_INR (m - j)). assert (INR (m - j) <= 2000) by (replace 2000 with (INR 2000) by (rewrite INR_IZR_INZ; reflexivity); apply le_INR; lia).
    assert (0 <= INR (m - j) * jw j) by (apply Rmult_le_pos; lra). assert (INR (m - j) * jw j <= 2000 * (5 / 2)) by (apply Rmult_le_compat; lra).
    replace (5 * vv * INR (m - j) * jw j) with (5 * vv * (INR (m - j) * jw j)) by ring. unfold vv. lra.
  Qed.
  Lemma js_le : forall j, 0 <= js j <= 4 / 10 ^ 12.
  Proof.
    intros j. unfold js. pose proof (je_le j). pose proof (pos_INR (m - j)). assert (INR (m - j) <= 2000) by (replace 2000 with (INR 2000) by (rewrite INR_IZR_INZ; reflexivity); apply le_INR; lia). unfold vv. lra.
  Qed.
  Lemma je_step : forall i, (i < m)%nat -> vv + ((je (S i) + 3 * vv) * (1 + 2 * jrho i) + 40 * ((je (S i) + 3 * vv) * (je (S i) + 3 * vv))) <= je i.
  Proof.
    intros i Hi. destruct (jw_step i) as [W R]. pose proof (jw_rng i) as W0. pose proof (jw_rng (S i)) as W1. pose proof (je_le (S i)) as E.
    assert (Q : (je (S i) + 3 * vv) * (je (S i) + 3 * vv) <= 4 / 10 ^ 12 * (4 / 10 ^ 12)) by (apply Rmult_le_compat; unfold vv in *; lra).
    assert (A : je (S i) * (1 + 2 * jrho i) <= 5 * vv * INR (m - S i) * jw i).
    { unfold je at 1. replace (5 * vv * INR (m - S i) * jw (S i) * (1 + 2 * jrho i)) with (5 * vv * INR (m - S i) * (jw (S i) * (1 + 2 * jrho i))) by ring. apply Rmult_le_compat_l; [|exact W]. apply Rmult_le_pos; [unfold vv; lra|apply pos_INR]. }
    assert (B : 1 + 2 * jrho i <= jw i). { eapply Rle_trans; [|exact W]. rewrite <- (Rmult_1_l (1 + 2 * jrho i)) at 1. apply Rmult_le_compat_r; lra. }
    unfold je at 4. replace (m - i)%nat with (S (m - S i)) by lia. rewrite S_INR.
    replace (5 * vv * (INR (m - S i) + 1) * jw i) with (5 * vv * INR (m - S i) * jw i + 5 * vv * jw i) by ring.
    set (a := je (S i)) in *. clearbody a. set (b := 5 * vv * INR (m - S i) * jw i) in *. clearbody b. unfold vv in *. lra.
  Qed.
  Lemma js_step : forall i, (i < m)%nat -> vv + js (S i) <= js i /\ vv + je i <= js i /\ js (S i) <= js i /\ je (S i) <= je i.
  Proof.
    intros i Hi. unfold js. assert (E : INR (m - i) = INR (m - S i) + 1) by (replace (m - i)%nat with (S (m - S i)) by lia; rewrite S_INR; reflexivity). rewrite E.
    pose proof (je_step i Hi) as S1. destruct (jw_step i) as [_ R]. pose proof (je_le (S i)) as E1. pose proof (pos_INR (m - S i)). assert (V : 0 < vv) by (unfold vv; lra).
    assert (D : je (S i) <= je i).
    { eapply Rle_trans; [|exact S1]. set (y := je (S i) + 3 * vv) in *. assert (Y0 : 0 <= y) by (unfold y; lra). assert (0 <= y * y) by (apply Rmult_le_pos; lra). assert (0 <= y * jrho i) by (apply Rmult_le_pos; lra). assert (je (S i) <= y) by (unfold y; lra). lra. }
    assert (0 <= vv * INR (m - S i)) by (apply Rmult_le_pos; lra). lra.
  Qed.

  (** ** tracked sums: exact zero at first *)
  Definition trk (e sg : R) (a : f64) (g : R) : Prop := fin a /\ mr e (val a) (sg * g) /\ 0 <= g /\ (g = 0 -> a = B754_zero false).

  Lemma trk_weak : forall e e' sg a g, e <= e' -> trk e sg a g -> trk e' sg a g.
  Proof. intros e e' sg a g H (A & B & C). split; [exact A|]. split; [eapply mr_weak; [exact H|exact B]|exact C]. Qed.

  Lemma trk_scale : forall e sg a g, e <= 1 / 10 ^ 4 -> 0 < sg -> trk e sg a g -> (0 < g -> bpow radix2 (-490) <= sg * g) ->
    exists a2, ldexp64 a (-512) = Ok a2 /\ trk e (sg * bpow radix2 (-512)) a2 g.
  Proof.
    intros e sg a g He S0 (Fa & Ma & G0 & Z) L. destruct (Rle_lt_or_eq_dec 0 g G0) as [G|G].
    - specialize (L G). pose proof (bpow_gt_0 radix2 (-490)) as B0. pose proof (mr_t0 _ _ _ Ma) as E0.
      destruct (ldexp_down P a Fa) as (a2 & E & F2 & V2).
      { pose proof (mr_near _ _ _ Ma ltac:(lra) ltac:(lra)) as [Q _]. assert (sg * g * (1 - 2 * e) >= sg * g * (1 / 2)) by (apply Rmult_ge_compat_l; lra).
        replace (bpow radix2 (-490)) with (2 * bpow radix2 (-491)) in L by (change 2 with (bpow radix2 1); rewrite <- bpow_plus; reflexivity).
        apply Rle_trans with (bpow radix2 (-491)); [apply bpow_le; lia|lra]. }
      exists a2. split; [exact E|]. split; [exact F2|]. split; [rewrite V2; replace (sg * bpow radix2 (-512) * g) with (sg * g * bpow radix2 (-512)) by ring; apply mr_scale, Ma|]. split; [exact G0|]. intros; lra.
    - symmetry in G. specialize (Z G). subst a. exists (B754_zero false). split; [exact (ldexp_zero P false (-512))|]. split; [reflexivity|]. subst g. rewrite Rmult_0_r in *. split; [exact Ma|]. split; [lra|reflexivity].
  Qed.

  Lemma trk_add : forall e e' sg a g b k, e <= 1 / 10 ^ 4 -> 0 < sg -> trk e sg a g -> fin b -> mr e (val b) (sg * k) -> 1 / 2 <= sg * k -> sg * (g + k) <= bpow radix2 1000 -> vv + e <= e' ->
    trk e' sg (add a b) (g + k).
  Proof.
    intros e e' sg a g b k He S0 (Fa & Ma & G0 & _) Fb Mb Lb U He'. pose proof (mr_t0 _ _ _ Mb) as E0.
    assert (K0 : 0 < sg * k) by lra. assert (G1 : 0 <= sg * g) by (apply Rmult_le_pos; lra).
    pose proof (mr_add0 _ _ _ _ _ G1 K0 Ma Mb) as M. rewrite <- Rmult_plus_distr_l in *.
    assert (T : 0 < sg * (g + k)) by lra. pose proof (mr_near _ _ _ M ltac:(lra) T) as N.
    assert (2 * e * (sg * (g + k)) <= 1 / 100 * (sg * (g + k))) by (apply Rmult_le_compat_r; lra).
    assert (B23 : bpow radix2 1000 * 2 ^ 8 <= bpow radix2 1023). { replace (2 ^ 8) with (bpow radix2 8) by (simpl; lra). rewrite <- bpow_plus. apply bpow_le. lia. }
    pose proof (bpow_gt_0 radix2 1000) as B0. assert (N22 : bpow radix2 (-1022) <= / 2 ^ 10). { replace (/ 2 ^ 10) with (bpow radix2 (-10)) by (simpl; lra). apply bpow_le; lia. }
    destruct (add_mr P a b Fa Fb) as [Fr Mr]; [rewrite Rabs_pos_eq by lra; lra|].
    split; [exact Fr|]. split; [eapply mr_weak; [exact He'|]; exact (mr_trans _ _ _ _ _ Mr M)|]. assert (0 < k) by (apply Rmult_lt_reg_l with sg; lra). split; [lra|intros; lra].
  Qed.

  Definition jg (j : nat) : R := if (j <? n)%nat then f n else 0.
  Definition jstate (j : nat) (st : f64 * f64 * f64 * f64 * bool) : Prop :=
    let '(bjp, bj, ans, sum, jsum) := st in jsum = Nat.odd j /\ exists sg, 0 < sg /\ fin bjp /\ fin bj /\ mr (je j) (val bj) (sg * f j) /\ mr (je j) (val bjp) (sg * f (S j)) /\
      1 / 2 <= sg * f j <= bpow radix2 513 /\ trk (je j) sg ans (jg j) /\ trk (js j) sg sum (ev (m - j)).

  Lemma jbody_plain : forall j bjp bj ans sum jsum, let b' := sub (mul (mul (f64_of_Z j) t) bj) bjp in
    (snd (frexp64 b') >? 512)%Z = false -> @jn_down_body (ieee P) t (Z.of_nat n) j (bjp, bj, ans, sum, jsum) = Ok (Next (bj, b', if (j =? Z.of_nat n)%Z then bj else ans, if jsum then add sum b' else sum, negb jsum)).
  Proof.
    intros j bjp bj ans sum jsum b' H. unfold jn_down_body. ieee_simpl. fold b'. change (frexp_bits (p_mul_nan P) b') with (frexp64 b'). destruct (frexp64 b') as [q k] eqn:E. cbn [snd] in H. unfold IEXP. rewrite H. reflexivity.
  Qed.
  Lemma jbody_scaled : forall j bjp bj ans sum jsum b2 p2 a2 s2, let b' := sub (mul (mul (f64_of_Z j) t) bj) bjp in
    (snd (frexp64 b') >? 512)%Z = true -> ldexp64 b' (-512) = Ok b2 -> ldexp64 bj (-512) = Ok p2 -> ldexp64 ans (-512) = Ok a2 -> ldexp64 sum (-512) = Ok s2 ->
    @jn_down_body (ieee P) t (Z.of_nat n) j (bjp, bj, ans, sum, jsum) = Ok (Next (p2, b2, if (j =? Z.of_nat n)%Z then p2 else a2, if jsum then add s2 b2 else s2, negb jsum)).
  Proof.
    intros j bjp bj ans sum jsum b2 p2 a2 s2 b' H E1 E2 E3 E4. unfold jn_down_body. ieee_simpl. fold b'. change (frexp_bits (p_mul_nan P) b') with (frexp64 b'). destruct (frexp64 b') as [q k] eqn:E. cbn [snd] in H. unfold IEXP. rewrite H.
    change (Z.opp 512) with (-512)%Z. change (ldexp_bits (p_checks P)) with ldexp64. rewrite E1, E2, E3, E4. reflexivity.
  Qed.

  (** ** sizes *)
  Lemma ev_nonneg : forall i, (i <= m)%nat -> 0 <= ev i.
  Proof. induction i as [|i IH]; intros Hi; [simpl; lra|]. cbn [evs]. specialize (IH ltac:(lia)). destruct (Nat.even (m - S i)); [|lra]. pose proof (F0 (m - S i) ltac:(lia)). lra. Qed.
  Lemma ev_up : forall i, (i <= m)%nat -> ev i <= INR i * f (m - i).
  Proof.
    induction i as [|i IH]; intros Hi; [simpl; lra|]. cbn [evs]. specialize (IH ltac:(lia)). rewrite S_INR. pose proof (F1' (m - S i) ltac:(lia)) as D. replace (S (m - S i)) with (m - i)%nat in D by lia. pose proof (pos_INR i).
    assert (INR i * f (m - i) <= INR i * f (m - S i)) by (apply Rmult_le_compat_l; lra). pose proof (F0 (m - S i) ltac:(lia)). destruct (Nat.even (m - S i)); lra.
  Qed.
  Lemma ev_low : forall j, (j < m)%nat -> ev (m - j) = 0 \/ f (S j) <= ev (m - j).
  Proof.
    intros j Hj. replace (m - j)%nat with (S (m - S j)) by lia. cbn [evs]. replace (m - S (m - S j))%nat with j by lia.
    pose proof (ev_nonneg (m - S j) ltac:(lia)) as E0. destruct (Nat.even j) eqn:E; [right; pose proof (F1' j ltac:(lia)); lra|].
    destruct (Nat.eq_dec (m - S j) 0) as [Z|Z]; [left; rewrite Z; simpl; lra|]. right.
    replace (m - S j)%nat with (S (m - S (S j))) by lia. cbn [evs]. replace (m - S (m - S (S j)))%nat with (S j) by lia.
    assert (EV : Nat.even (S j) = true) by (rewrite Nat.even_succ, <- Nat.negb_even, E; reflexivity). rewrite EV. pose proof (ev_nonneg (m - S (S j)) ltac:(lia)). lra.
  Qed.

  Lemma J2000 : forall i, (i <= 2000)%nat -> INR i <= bpow radix2 11.
  Proof. intros i Hi. rewrite INR_IZR_INZ. change (bpow radix2 11) with (IZR 2048). apply IZR_le. lia. Qed.

  Lemma jrec : forall i, (i < m)%nat -> f i = INR (S i) * kt * f (S i) - f (S (S i)).
  Proof. intros i Hi. rewrite (mil_rec (-1) kt (S m) i) by lia. ring. Qed.
  Lemma jup : forall i, (i < m)%nat -> f i <= bpow radix2 412 * f (S i).
  Proof.
    intros i Hi. rewrite jrec by exact Hi. pose proof (F0' (S (S i)) ltac:(lia)). pose proof (F0' (S i) ltac:(lia)). pose proof kt_rng as [K1 K2].
    assert (INR (S i) * kt * f (S i) <= bpow radix2 412 * f (S i)); [|lra]. apply Rmult_le_compat_r; [lra|]. change 412%Z with (11 + 401)%Z. rewrite bpow_plus. apply Rmult_le_compat; [apply pos_INR|lra|apply J2000; lia|exact K2].
  Qed.
  Lemma jsg_up : forall i sg, (i < m)%nat -> 0 < sg -> sg * f (S i) <= bpow radix2 513 -> sg * f i <= bpow radix2 1000.
  Proof.
    intros i sg Hi S0 HU. pose proof (jup i Hi) as U. assert (sg * f i <= sg * (bpow radix2 412 * f (S i))) by (apply Rmult_le_compat_l; lra).
    assert (bpow radix2 412 * (sg * f (S i)) <= bpow radix2 412 * bpow radix2 513) by (apply Rmult_le_compat_l; [apply bpow_ge_0|lra]). rewrite <- bpow_plus in *.
    assert (bpow radix2 (412 + 513) <= bpow radix2 1000) by (apply bpow_le; lia). lra.
  Qed.
  Lemma jfn_low : forall i sg, (i <= m)%nat -> 0 < sg -> bpow radix2 511 <= sg * f i -> bpow radix2 (-490) <= sg * f n.
  Proof.
    intros i sg Hi S0 H. pose proof (jf_ratio x m h X1 Hm Hm1 i n Hi ltac:(lia)) as R. pose proof (F0 n ltac:(lia)) as Fn. pose proof (F0 i Hi) as Fi.
    assert (BI1 : BJ x i <= 1). { pose proof (BJ_mono x 0 i X1) as M. rewrite Nat.add_0_l in M. pose proof (BJ_rng x 0 X1) as [_ Q]. simpl in Q. lra. }
    assert (4 * f n * BJ x i <= 4 * f n * 1) by (apply Rmult_le_compat_l; lra).
    assert (f i * bpow radix2 (-900) <= f i * BJ x n) by (apply Rmult_le_compat_l; lra).
    assert (sg * (f i * bpow radix2 (-900)) <= sg * (4 * f n)) by (apply Rmult_le_compat_l; lra).
    assert (bpow radix2 511 * bpow radix2 (-900) <= sg * f i * bpow radix2 (-900)) by (apply Rmult_le_compat_r; [apply bpow_ge_0|lra]). rewrite <- bpow_plus in *.
    change (511 + -900)%Z with (2 + -391)%Z in *. rewrite bpow_plus in *. change (bpow radix2 2) with 4 in *.
    assert (bpow radix2 (-490) <= bpow radix2 (-391)) by (apply bpow_le; lia). lra.
  Qed.

  Lemma jeqb : forall a b, (Z.of_nat a =? Z.of_nat b)%Z = (a =? b)%nat.
  Proof. intros a b. destruct (Nat.eqb_spec a b) as [->|E]; [apply Z.eqb_refl|apply Z.eqb_neq; lia]. Qed.

  (** ** one turn of the loop *)
  Lemma jstate_fin : forall i sg r p a s, (i < m)%nat -> 0 < sg -> fin r -> fin p -> mr (je i) (val r) (sg * f i) -> mr (je i) (val p) (sg * f (S i)) -> 1 / 2 <= sg * f i <= bpow radix2 513 ->
    trk (je (S i)) sg a (jg (S i)) -> trk (js (S i)) sg s (ev (m - S i)) ->
    jstate i (p, r, if (Z.of_nat (S i) =? Z.of_nat n)%Z then p else a, if Nat.odd (S i) then add s r else s, negb (Nat.odd (S i))).
  Proof.
    intros i sg r p a s Hi S0 Fr Fp Mr Mp Lo TA TS. destruct (js_step i Hi) as (J1 & J2 & J3 & J4). pose proof (js_le i) as JL.
    split; [rewrite Nat.odd_succ, Nat.negb_even; reflexivity|]. exists sg.
    split; [exact S0|]. split; [exact Fp|]. split; [exact Fr|]. split; [exact Mr|]. split; [exact Mp|]. split; [exact Lo|]. split.
    - rewrite jeqb. unfold jg in *. destruct (Nat.eqb_spec (S i) n) as [E|E].
      + replace (i <? n)%nat with true by (symmetry; apply Nat.ltb_lt; lia). rewrite <- E. pose proof (F0 (S i) ltac:(lia)). split; [exact Fp|]. split; [exact Mp|]. split; [lra|intros; lra].
      + replace (i <? n)%nat with (S i <? n)%nat; [eapply trk_weak; [exact J4|exact TA]|]. destruct (Nat.ltb_spec (S i) n), (Nat.ltb_spec i n); try reflexivity; lia.
    - replace (m - i)%nat with (S (m - S i)) by lia. cbn [evs]. replace (m - S (m - S i))%nat with i by lia. rewrite Nat.odd_succ. destruct (Nat.even i).
      + set (e0 := js i - vv). assert (E0 : js (S i) <= e0 /\ je i <= e0) by (unfold e0; lra).
        apply (trk_add e0); [unfold e0, vv; lra|exact S0|eapply trk_weak; [exact (proj1 E0)|exact TS]|exact Fr|eapply mr_weak; [exact (proj2 E0)|exact Mr]|lra| |unfold e0; lra].
        pose proof (ev_up (m - S i) ltac:(lia)) as U. replace (m - (m - S i))%nat with (S i) in U by lia. pose proof (F1' i ltac:(lia)) as D. pose proof (pos_INR (m - S i)) as P0. pose proof (F0 i ltac:(lia)) as Fi.
        assert (UU : ev (m - S i) + f i <= INR (S (m - S i)) * f i). { rewrite S_INR. assert (INR (m - S i) * f (S i) <= INR (m - S i) * f i) by (apply Rmult_le_compat_l; lra). lra. }
        apply Rle_trans with (INR (S (m - S i)) * (sg * f i)).
        { replace (INR (S (m - S i)) * (sg * f i)) with (sg * (INR (S (m - S i)) * f i)) by ring. apply Rmult_le_compat_l; lra. }
        apply Rle_trans with (bpow radix2 11 * bpow radix2 513); [apply Rmult_le_compat; [apply pos_INR|lra|apply J2000; lia|lra]|]. rewrite <- bpow_plus. apply bpow_le. lia.
      + rewrite Rplus_0_r. eapply trk_weak; [exact J3|exact TS].
  Qed.

  Lemma jstate_step : forall i st, (i < m)%nat -> jstate (S i) st ->
    exists st', @jn_down_body (ieee P) t (Z.of_nat n) (Z.of_nat (S i)) st = Ok (Next st') /\ jstate i st'.
  Proof.
    intros i [[[[bjp bj] ans] sum] jsum] Hi (-> & sg & S0 & Fp & Fb & Mb & Mp & [Lo Up] & TA & TS).
    pose proof (jsg_up i sg Hi S0 Up) as U1. pose proof kt_rng as [K1 K2]. pose proof (je_le (S i)) as E1. pose proof (je_le i) as E2. pose proof (je_step i Hi) as ES. destruct (js_step i Hi) as (_ & _ & _ & JJ). pose proof (js_le (S i)) as E3.
    pose proof (F0' (S (S i)) ltac:(lia)) as F2. pose proof (F0 i ltac:(lia)) as Fi. pose proof (F0 (S i) ltac:(lia)) as Fsi.
    assert (EQ : sg * f i = IZR (Z.of_nat (S i)) * kt * (sg * f (S i)) - sg * f (S (S i))) by (rewrite (jrec i Hi), <- INR_IZR_INZ; ring).
    assert (L2 : 1 / 2 <= sg * f i). { pose proof (F1' i ltac:(lia)) as D. assert (sg * f (S i) <= sg * f i) by (apply Rmult_le_compat_l; lra). lra. }
    destruct (jw_step i) as [_ JR].
    assert (RHO : 0 <= sg * f (S (S i)) <= jrho i * (sg * f i)).
    { split; [apply Rmult_le_pos; lra|]. pose proof (F1 i ltac:(lia)) as A1. pose proof (F1 (S i) ltac:(lia)) as A2. rewrite S_INR in A2. pose proof (pos_INR i) as I0.
      replace (2 * (INR i + 1) + 1) with (2 * INR i + 3) in A2 by ring.
      assert (A3 : (2 * INR i + 3) * (2 * INR i + 1) * f (S (S i)) <= f i). { apply Rle_trans with ((2 * INR i + 1) * f (S i)); [|exact A1]. replace ((2 * INR i + 3) * (2 * INR i + 1) * f (S (S i))) with ((2 * INR i + 1) * ((2 * INR i + 3) * f (S (S i)))) by ring. apply Rmult_le_compat_l; lra. }
      assert (D0 : 0 < (2 * INR i + 3) * (2 * INR i + 1)) by (apply Rmult_lt_0_compat; lra).
      unfold jrho. set (d := (2 * INR i + 3) * (2 * INR i + 1)) in *. replace (/ d * (sg * f i)) with (sg * (/ d * f i)) by ring. apply Rmult_le_compat_l; [lra|].
      apply Rmult_le_reg_l with d; [exact D0|]. replace (d * (/ d * f i)) with (f i) by (field; lra). exact A3. }
    destruct (J_step_fl (Z.of_nat (S i)) t bj bjp kt (sg * f (S i)) (sg * f (S (S i))) (sg * f i) (je (S i)) (jrho i) ltac:(lia) Ft Fb Fp Mt K1 Lo Mb Mp ltac:(lra) EQ RHO JR (conj L2 U1)) as [Fr Mr].
    apply (mr_weak _ _ _ _ ES) in Mr. pose proof (jbody_plain (Z.of_nat (S i)) bjp bj ans sum (Nat.odd (S i))) as BP. pose proof (jbody_scaled (Z.of_nat (S i)) bjp bj ans sum (Nat.odd (S i))) as BS. cbv zeta in BP, BS.
    set (r := sub (mul (mul (f64_of_Z (Z.of_nat (S i))) t) bj) bjp) in *. clearbody r.
    pose proof (mr_near _ _ _ Mr ltac:(lra) ltac:(lra)) as [N1 N2].
    assert (N3 : 9 / 10 * (sg * f i) <= val r <= 11 / 10 * (sg * f i)).
    { assert (sg * f i * (1 - 2 * je i) >= sg * f i * (9 / 10)) by (apply Rmult_ge_compat_l; lra). assert (sg * f i * (1 + 2 * je i) <= sg * f i * (11 / 10)) by (apply Rmult_le_compat_l; lra). lra. }
    clear N1 N2. assert (RN : bpow radix2 (-1022) <= val r). { apply Rle_trans with (bpow radix2 (-5)); [apply bpow_le; lia|]. change (bpow radix2 (-5)) with (/ 32). lra. }
    destruct (frexp_512 P r Fr RN) as [Y1 Y2]. pose proof (bpow_gt_0 radix2 512) as B5.
    assert (Mb' : mr (je i) (val bj) (sg * f (S i))) by (eapply mr_weak; [exact JJ|exact Mb]).
    destruct (snd (frexp64 r) >? 512)%Z eqn:C.
    - specialize (Y1 eq_refl).
      assert (H511 : bpow radix2 511 <= sg * f i). { replace (bpow radix2 512) with (2 * bpow radix2 511) in Y1 by (change 2 with (bpow radix2 1); rewrite <- bpow_plus; reflexivity). pose proof (bpow_gt_0 radix2 511). lra. }
      destruct (ldexp_down P r Fr) as (r2 & ER & FR & VR); [eapply Rle_trans; [|exact Y1]; apply bpow_le; lia|].
      assert (NB : bpow radix2 (-510) <= val bj).
      { pose proof (mr_near _ _ _ Mb ltac:(lra) ltac:(lra)) as [Q _]. assert (sg * f (S i) * (1 - 2 * je (S i)) >= sg * f (S i) * (9 / 10)) by (apply Rmult_ge_compat_l; lra).
        apply Rle_trans with (bpow radix2 (-5)); [apply bpow_le; lia|]. change (bpow radix2 (-5)) with (/ 32). lra. }
      destruct (ldexp_down P bj Fb NB) as (p2 & EP & FP & VP).
      destruct (trk_scale (je (S i)) sg ans _ ltac:(lra) S0 TA) as (a2 & EA & TA2).
      { unfold jg. destruct (S i <? n)%nat; [intros _; exact (jfn_low i sg ltac:(lia) S0 H511)|lra]. }
      destruct (trk_scale (js (S i)) sg sum _ ltac:(lra) S0 TS) as (s2 & ESu & TS2).
      { intros G. destruct (Nat.eq_dec (S i) m) as [Em|Em]; [rewrite Em, Nat.sub_diag in G; simpl in G; lra|].
        destruct (ev_low (S i) ltac:(lia)) as [Z|Z]; [lra|]. pose proof (jup (S i) ltac:(lia)) as V.
        assert (sg * f (S i) <= sg * (bpow radix2 412 * f (S (S i)))) by (apply Rmult_le_compat_l; lra).
        assert (sg * f (S (S i)) <= sg * ev (m - S i)) by (apply Rmult_le_compat_l; lra).
        assert (Q : bpow radix2 412 * bpow radix2 (-413) <= bpow radix2 412 * (sg * f (S (S i)))) by (rewrite <- bpow_plus; change (412 + -413)%Z with (-1)%Z; change (bpow radix2 (-1)) with (/ 2); lra).
        apply Rmult_le_reg_l in Q; [|apply bpow_gt_0]. assert (bpow radix2 (-490) <= bpow radix2 (-413)) by (apply bpow_le; lia). lra. }
      set (hh := bpow radix2 (-512)) in *. assert (H0 : 0 < hh) by apply bpow_gt_0.
      assert (SF : forall a, sg * hh * a = sg * a * hh) by (intros; ring).
      eexists. split; [exact (BS r2 p2 a2 s2 eq_refl ER EP EA ESu)|].
      apply (jstate_fin i (sg * hh)); [exact Hi|apply Rmult_lt_0_compat; lra|exact FR|exact FP|rewrite VR, SF; apply mr_scale, Mr|rewrite VP, SF; apply mr_scale, Mb'| |exact TA2|exact TS2].
      split.
      + rewrite SF. replace (1 / 2) with (bpow radix2 511 * hh); [apply Rmult_le_compat_r; lra|]. unfold hh. rewrite <- bpow_plus. change (511 + -512)%Z with (-1)%Z. change (bpow radix2 (-1)) with (/ 2). lra.
      + rewrite SF. apply Rle_trans with (bpow radix2 1000 * hh); [apply Rmult_le_compat_r; lra|]. unfold hh. rewrite <- bpow_plus. apply bpow_le. lia.
    - specialize (Y2 eq_refl). eexists. split; [exact (BP eq_refl)|].
      apply (jstate_fin i sg); try assumption. split; [exact L2|]. replace (bpow radix2 513) with (2 * bpow radix2 512) by (change 2 with (bpow radix2 1); rewrite <- bpow_plus; reflexivity). lra.
  Qed.

  Lemma jstate_loop : forall j st, (j <= m)%nat -> jstate j st ->
    exists st', for_loop (rev (range 1 (Z.of_nat j + 1))) (@jn_down_body (ieee P) t (Z.of_nat n)) st = Ok (Exhausted st') /\ jstate 0 st'.
  Proof.
    induction j as [|j IH]; intros st Hj Hs.
    - exists st. split; [reflexivity|exact Hs].
    - destruct (jstate_step j st Hj Hs) as (st1 & E & H1). rewrite range_snoc by lia. rewrite rev_app_distr. cbn [rev app for_loop]. rewrite E.
      replace (Z.of_nat (S j)) with (Z.of_nat j + 1)%Z by lia. apply IH; [lia|exact H1].
  Qed.

  Lemma jstate_start : jstate m (f64_lit 0.0, f64_lit 1.0, f64_lit 0.0, f64_lit 0.0, false).
  Proof.
    assert (E : je m = 0) by (unfold je; rewrite Nat.sub_diag; simpl; ring). assert (E' : js m = 0) by (unfold js; rewrite E, Nat.sub_diag; simpl; ring).
    assert (OD : Nat.odd m = false) by (rewrite Hm, Nat.odd_mul; reflexivity).
    split; [symmetry; exact OD|]. exists 1. rewrite !Rmult_1_l. rewrite mil_top. replace (f m) with 1 by (symmetry; replace m with (S m - 1)%nat at 2 by lia; apply mil_one; lia). rewrite E, E'.
    assert (G0 : fin (f64_lit 0.0)) by reflexivity. pose proof val_0 as V0.
    split; [lra|]. split; [exact G0|]. split; [exact fin_1|]. rewrite val_1, V0. split; [apply mr_refl; lra|]. split; [apply mr_refl; lra|]. split; [split; [lra|change 1 with (bpow radix2 0); apply bpow_le; lia]|].
    rewrite Nat.sub_diag. unfold jg. replace (m <? n)%nat with false by (symmetry; apply Nat.ltb_ge; lia). cbn [evs].
    split; (split; [exact G0|]; split; [rewrite V0, Rmult_0_r; apply mr_refl; lra|]; split; [lra|reflexivity]).
  Qed.
End Fl.
