(** * Rounding errors of the downward recurrence of In *)

From Coq Require Import ZArith Reals Bool Lra Lia List.
From Flocq Require Import Core IEEE754.BinarySingleNaN IEEE754.Binary IEEE754.Bits.
From Verif.Model Require Import Base Arith BesselTables Utils Bessel.
From Verif.Float Require Import Bits64 Ieee Exact Platforms.
From Verif.Spec Require Import F64Spec Outcome BesselSpec.
From Verif.Proofs Require Import F64 F64Ops Lits Ext FlErr GammaAcc GserAcc PosHorner UtilsSpec BesselInt BesselPanics BesselSeries BesselAcc Miller BesselReal.
Import ListNotations.
Open Scope R_scope.

Section Fl.
  Context (P : platform).
  Local Notation mul := (f64_mul P). Local Notation add := (f64_add P). Local Notation div := (f64_div P).
  Local Notation frexp64 := (@frexp (ieee P)).
  Local Notation ldexp64 := (@ldexp (ieee P)).

  (** ** the exponent test and the rescaling *)
  Lemma frexp_512 : forall y, fin y -> bpow radix2 (-1022) <= val y -> ((snd (frexp64 y) >? 512)%Z = true -> bpow radix2 512 <= val y) /\ ((snd (frexp64 y) >? 512)%Z = false -> val y < bpow radix2 512).
  Proof.
    intros y Fy Hy. pose proof (bpow_gt_0 radix2 (-1022)) as Z0. pose proof (frexp_normal P y) as H. rewrite (val_fin y Fy) in *.
    assert (N : normal y) by (split; [exact Fy|]; rewrite Rabs_pos_eq by lra; exact Hy). specialize (H N).
    destruct (frexp64 y) as [m e]. cbn [snd]. destruct H as (_ & M & E). unfold scaled in E.
    assert (M0 : 0 < Binary.B2R m). { apply Rmult_lt_reg_r with (bpow radix2 e); [apply bpow_gt_0|]. rewrite E. lra. }
    rewrite Rabs_pos_eq in M by lra. rewrite <- E. split; intros C.
    - apply Z.gtb_lt in C. apply Rle_trans with (/ 2 * bpow radix2 e).
      + replace (/ 2) with (bpow radix2 (-1)) by reflexivity. rewrite <- bpow_plus. apply bpow_le. lia.
      + apply Rmult_le_compat_r; [apply bpow_ge_0|lra].
    - rewrite Z.gtb_ltb in C. apply Z.ltb_ge in C. apply Rlt_le_trans with (1 * bpow radix2 e).
      + apply Rmult_lt_compat_r; [apply bpow_gt_0|lra].
      + rewrite Rmult_1_l. apply bpow_le, C.
  Qed.

  Lemma ldexp_down : forall y, fin y -> bpow radix2 (-510) <= val y -> exists z, ldexp64 y (-512) = Ok z /\ fin z /\ val z = val y * bpow radix2 (-512).
  Proof.
    intros y Fy Hy. pose proof (bpow_gt_0 radix2 (-510)) as Z0. rewrite (val_fin y Fy) in *.
    assert (NB : bpow radix2 (-1022) <= bpow radix2 (-510)) by (apply bpow_le; lia).
    assert (N : normal y) by (split; [exact Fy|]; rewrite Rabs_pos_eq by lra; unfold min_normal; lra).
    assert (S1 : bpow radix2 (-1022) <= Binary.B2R y * bpow radix2 (-512)).
    { replace (bpow radix2 (-1022)) with (bpow radix2 (-510) * bpow radix2 (-512)) by (rewrite <- bpow_plus; reflexivity). apply Rmult_le_compat_r; [apply bpow_ge_0|lra]. }
    assert (S2 : Binary.B2R y * bpow radix2 (-512) <= Binary.B2R y * 1). { apply Rmult_le_compat_l; [lra|]. change 1 with (bpow radix2 0). apply bpow_le; lia. }
    pose proof (B2R_lt_Om y) as L. apply Rabs_lt_inv in L.
    destruct (ldexp_normal P y (-512) N) as (z & E & Fz & V & _).
    - unfold scaled. pose proof (bpow_gt_0 radix2 (-1022)). rewrite Rabs_pos_eq by lra. unfold min_normal, overflow, Om in *. lra.
    - exists z. split; [exact E|]. split; [exact Fz|]. rewrite (val_fin z Fz), V. reflexivity.
  Qed.

  (** ** one step of the recurrence *)
  Lemma I_step_fl : forall j t c p kt kc kp e, (1 <= j <= 2 ^ 32)%Z -> fin t -> fin c -> fin p -> mr vv (val t) kt -> 2 / 15 <= kt -> 1 / 16 <= kc -> 0 <= kp ->
    mr e (val c) kc -> mr e (val p) kp -> e <= 1 / 10 ^ 4 -> IZR j * kt * kc + kp <= bpow radix2 1000 ->
    let r := add (mul (mul (f64_of_Z j) t) c) p in fin r /\ mr (e + 4 * vv) (val r) (IZR j * kt * kc + kp).
  Proof.
    intros j t c p kt kc kp e Hj Ft Fc Fp Mt Ht Hc Hp Mc Mp He HB r. pose proof (mr_t0 _ _ _ Mc) as E0.
    destruct (of_Z_exact j ltac:(lia)) as [Fj Vj]. rewrite <- (val_fin _ Fj) in Vj.
    assert (J1 : 1 <= IZR j) by (apply IZR_le; lia).
    assert (B23 : bpow radix2 1000 * 2 ^ 8 <= bpow radix2 1023). { replace (2 ^ 8) with (bpow radix2 8) by (simpl; lra). rewrite <- bpow_plus. apply bpow_le. lia. }
    pose proof (bpow_gt_0 radix2 1000) as B0. assert (N22 : bpow radix2 (-1022) <= / 2 ^ 10). { replace (/ 2 ^ 10) with (bpow radix2 (-10)) by (simpl; lra). apply bpow_le; lia. }
    assert (JT : 2 / 15 <= IZR j * kt). { replace (2 / 15) with (1 * (2 / 15)) by ring. apply Rmult_le_compat; lra. }
    assert (JTC : IZR j * kt * (1 / 16) <= IZR j * kt * kc) by (apply Rmult_le_compat_l; lra).
    set (q := IZR j * kt) in *. set (K := bpow radix2 1000) in *. clearbody K.
    assert (QB : q <= 16 * K) by lra.
    assert (M1 : mr vv (IZR j * val t) q) by (apply mr_scale_l, Mt).
    pose proof (mr_near _ _ _ M1 ltac:(unfold vv; lra) ltac:(lra)) as N1.
    assert (V1 : 1 / 10 <= IZR j * val t <= 17 * K) by (unfold vv in N1; lra).
    destruct (mul_mr P (f64_of_Z j) t Fj Ft) as [F1 R1]; [rewrite Vj, Rabs_pos_eq; lra|]. rewrite Vj in R1.
    set (m := mul (f64_of_Z j) t) in *. clearbody m. pose proof (mr_trans _ _ _ _ _ R1 M1) as M2.
    assert (M3 : mr (vv + vv + e) (val m * val c) (q * kc)) by (apply mr_mul; assumption).
    assert (T3 : 0 <= vv + vv + e <= 1 / 1000) by (unfold vv; lra).
    assert (QC : 1 / 120 <= q * kc) by lra.
    pose proof (mr_near _ _ _ M3 T3 ltac:(lra)) as N3.
    assert (2 * (vv + vv + e) * (q * kc) <= 1 / 100 * (q * kc)) by (apply Rmult_le_compat_r; [lra|unfold vv; lra]).
    assert (V3 : / 2 ^ 10 <= val m * val c <= 2 * K) by lra.
    destruct (mul_mr P m c F1 Fc) as [F4 R4]; [rewrite Rabs_pos_eq; lra|].
    set (s := mul m c) in *. clearbody s. pose proof (mr_trans _ _ _ _ _ R4 M3) as M4.
    assert (Mp' : mr (vv + (vv + vv + e)) (val p) kp) by (eapply mr_weak; [|exact Mp]; unfold vv; lra).
    assert (QC0 : 0 < q * kc) by lra. pose proof (mr_add0 _ _ _ _ _ Hp QC0 Mp' M4) as M5. rewrite (Rplus_comm (val p)), (Rplus_comm kp) in M5.
    assert (T5 : 0 <= vv + (vv + vv + e) <= 1 / 1000) by (unfold vv; lra).
    pose proof (mr_near _ _ _ M5 T5 ltac:(lra)) as N5.
    assert (2 * (vv + (vv + vv + e)) * (q * kc + kp) <= 1 / 100 * (q * kc + kp)) by (apply Rmult_le_compat_r; [lra|unfold vv; lra]).
    assert (V5 : / 2 ^ 10 <= val s + val p <= 2 * K) by lra.
    destruct (add_mr P s p F4 Fp) as [F6 R6]; [rewrite Rabs_pos_eq; lra|]. fold r in F6, R6. split; [exact F6|].
    replace (e + 4 * vv) with (vv + (vv + (vv + vv + e))) by ring. exact (mr_trans _ _ _ _ _ R6 M5).
  Qed.

  (** ** the state of the loop before the step with index j *)
  Context (x t : f64) (n m : nat) (Ft : fin t) (X0 : bpow radix2 (-400) <= val x < 15) (Mt : mr vv (val t) (2 * / val x))
    (Hn : (2 <= n < m)%nat) (Hm : (24 <= m)%nat) (Hm2 : (Z.of_nat m <= 2 ^ 31)%Z) (HB : bpow radix2 (-900) <= BI (val x) n).

  Local Notation kt := (2 * / val x).
  Local Notation f := (mil 1 kt m).
  Definition ie (j : nat) : R := 4 * vv * INR (m - 1 - j).

  Lemma ie_le : forall j, 0 <= ie j <= 1 / 10 ^ 5.
  Proof.
    intros j. unfold ie. pose proof (pos_INR (m - 1 - j)) as H0. assert (INR (m - 1 - j) <= 2 ^ 31).
    { rewrite INR_IZR_INZ. replace (2 ^ 31) with (IZR (2 ^ 31)) by (rewrite (pow_IZR 2 31); reflexivity). apply IZR_le. lia. }
    unfold vv. lra.
  Qed.
  Lemma ie_S : forall i, (S i < m)%nat -> ie i = ie (S i) + 4 * vv.
  Proof. intros i H. unfold ie. replace (m - 1 - i)%nat with (S (m - 1 - S i)) by lia. rewrite S_INR. ring. Qed.

  Lemma x_pos : 0 < val x. Proof. pose proof (bpow_gt_0 radix2 (-400)). lra. Qed.
  Lemma f_pos : forall j, (j < m)%nat -> 0 < f j.
  Proof.
    intros j Hj. pose proof x_pos. apply (mil_pos 1 kt m (BI (val x)) Rabs_R1) with (J0 := 14%nat); try lia.
    - intros i. apply BI_pos, x_pos.
    - intros i. apply BI_rec, x_pos.
    - intros i. apply BI_two, x_pos.
    - intros i Hi. apply BI_four; [lra|exact Hi].
  Qed.
  Lemma f_ratio : forall i j, (i < m)%nat -> (j < m)%nat -> f i * BI (val x) j <= 4 * f j * BI (val x) i.
  Proof.
    intros i j Hi Hj. pose proof x_pos. apply (mil_ratio 1 kt m (BI (val x)) Rabs_R1) with (J0 := 14%nat); try lia.
    - intros k. apply BI_pos, x_pos.
    - intros k. apply BI_rec, x_pos.
    - intros k. apply BI_two, x_pos.
    - intros k Hk. apply BI_four; [lra|exact Hk].
  Qed.
  Lemma f_nonneg : forall j, (j <= m)%nat -> 0 <= f j.
  Proof. intros j Hj. destruct (Nat.eq_dec j m) as [->|E]; [rewrite mil_top; lra|apply Rlt_le, f_pos; lia]. Qed.

  Lemma kt_rng : 2 / 15 <= kt <= bpow radix2 401.
  Proof.
    pose proof x_pos as H. split.
    - assert (/ 15 <= / val x) by (apply Rinv_le_contravar; lra). lra.
    - replace (bpow radix2 401) with (2 * / bpow radix2 (-400)). { apply Rmult_le_compat_l; [lra|]. apply Rinv_le_contravar; [apply bpow_gt_0|lra]. }
      rewrite <- bpow_opp. change 2 with (bpow radix2 1) at 1. rewrite <- bpow_plus. reflexivity.
  Qed.

  (** f at j + 1 is at most 15/2 times f at j *)
  Lemma f_up : forall j, (j < m)%nat -> 2 / 15 * f (S j) <= f j.
  Proof.
    intros j Hj. pose proof (f_nonneg (S j) ltac:(lia)) as H1. destruct (Nat.eq_dec (S j) m) as [E|E].
    - rewrite E, mil_top. pose proof (f_pos j Hj). lra.
    - rewrite (mil_rec 1 kt m j ltac:(lia)). pose proof (f_nonneg (S (S j)) ltac:(lia)) as H2. pose proof kt_rng as K.
      assert (2 / 15 * f (S j) <= INR (S j) * kt * f (S j)). { apply Rmult_le_compat_r; [exact H1|]. replace (2 / 15) with (1 * (2 / 15)) by ring. apply Rmult_le_compat; [lra|lra| |lra]. rewrite S_INR. pose proof (pos_INR j). lra. }
      lra.
  Qed.

  Definition istate (j : nat) (st : f64 * f64 * f64) : Prop :=
    let '(bip, bi, ans) := st in exists sg, 0 < sg /\ fin bip /\ fin bi /\ mr (ie j) (val bi) (sg * f j) /\ mr (ie j) (val bip) (sg * f (S j)) /\
      (1 / 2 <= sg * f j \/ 1 / 2 <= sg * f (S j)) /\ sg * f j <= bpow radix2 513 /\
      ((n <= j)%nat -> ans = B754_zero false) /\ ((j < n)%nat -> fin ans /\ mr (ie j) (val ans) (sg * f n)).

  Lemma sg_low : forall j sg, (j < m)%nat -> 0 < sg -> (1 / 2 <= sg * f j \/ 1 / 2 <= sg * f (S j)) -> 1 / 16 <= sg * f j.
  Proof.
    intros j sg Hj S0 [H|H]; [lra|]. pose proof (f_up j Hj) as U. assert (sg * (2 / 15 * f (S j)) <= sg * f j) by (apply Rmult_le_compat_l; lra). lra.
  Qed.

  Lemma mr_512 : forall e a b, mr e a b -> mr e (a * bpow radix2 (-512)) (b * bpow radix2 (-512)).
  Proof. intros e a b H. apply mr_scale, H. Qed.

  Lemma B512 : bpow radix2 512 * bpow radix2 (-512) = 1.
  Proof. rewrite <- bpow_plus. reflexivity. Qed.

  Definition fin_step (i : nat) (bi bi' ans : f64) : f64 * f64 * f64 := (bi, bi', if (Z.of_nat (S i) =? Z.of_nat n)%Z then bi else ans).

  Lemma body_plain : forall j bip bi ans, let b' := add (mul (mul (f64_of_Z j) t) bi) bip in
    (snd (frexp64 b') >? 512)%Z = false -> @in_down_body (ieee P) t (Z.of_nat n) j (bip, bi, ans) = Ok (Next (bi, b', if (j =? Z.of_nat n)%Z then bi else ans)).
  Proof.
    intros j bip bi ans b' H. unfold in_down_body. ieee_simpl. fold b'. change (frexp_bits (p_mul_nan P) b') with (frexp64 b'). destruct (frexp64 b') as [q k] eqn:E. cbn [snd] in H. unfold IEXP. rewrite H. reflexivity.
  Qed.
  Lemma body_scaled : forall j bip bi ans b2 p2 a2, let b' := add (mul (mul (f64_of_Z j) t) bi) bip in
    (snd (frexp64 b') >? 512)%Z = true -> ldexp64 b' (-512) = Ok b2 -> ldexp64 bi (-512) = Ok p2 -> ldexp64 ans (-512) = Ok a2 ->
    @in_down_body (ieee P) t (Z.of_nat n) j (bip, bi, ans) = Ok (Next (p2, b2, if (j =? Z.of_nat n)%Z then p2 else a2)).
  Proof.
    intros j bip bi ans b2 p2 a2 b' H E1 E2 E3. unfold in_down_body. ieee_simpl. fold b'. change (frexp_bits (p_mul_nan P) b') with (frexp64 b'). destruct (frexp64 b') as [q k] eqn:E. cbn [snd] in H. unfold IEXP. rewrite H.
    change (Z.opp 512) with (-512)%Z. change (ldexp_bits (p_checks P)) with ldexp64. rewrite E1, E2, E3. reflexivity.
  Qed.

  Lemma sg_up : forall i sg, (S i < m)%nat -> 0 < sg -> sg * f (S i) <= bpow radix2 513 -> sg * f i <= bpow radix2 1000.
  Proof.
    intros i sg Hi S0 HU. pose proof (f_up (S i) Hi) as U. pose proof (f_nonneg (S i) ltac:(lia)) as F1. pose proof kt_rng as K. rewrite (mil_rec 1 kt m i Hi).
    assert (J : INR (S i) <= bpow radix2 31). { rewrite INR_IZR_INZ. change (bpow radix2 31) with (IZR (2 ^ 31)). apply IZR_le. lia. }
    assert (QB : INR (S i) * kt <= bpow radix2 432). { change 432%Z with (31 + 401)%Z. rewrite bpow_plus. apply Rmult_le_compat; [apply pos_INR|lra|exact J|lra]. }
    set (Q := INR (S i) * kt) in *. clearbody Q. pose proof (bpow_gt_0 radix2 513) as B5. assert (B4 : 8 <= bpow radix2 432). { change 8 with (bpow radix2 3). apply bpow_le. lia. }
    assert (A : sg * (Q * f (S i) + 1 * f (S (S i))) <= 2 * bpow radix2 432 * bpow radix2 513).
    { replace (sg * (Q * f (S i) + 1 * f (S (S i)))) with (Q * (sg * f (S i)) + sg * f (S (S i))) by ring.
      assert (Q * (sg * f (S i)) <= bpow radix2 432 * bpow radix2 513). { apply Rle_trans with (bpow radix2 432 * (sg * f (S i))); [apply Rmult_le_compat_r; [apply Rmult_le_pos; lra|exact QB]|apply Rmult_le_compat_l; [apply bpow_ge_0|exact HU]]. }
      assert (sg * (2 / 15 * f (S (S i))) <= sg * f (S i)) by (apply Rmult_le_compat_l; lra).
      assert (8 * bpow radix2 513 <= bpow radix2 432 * bpow radix2 513) by (apply Rmult_le_compat_r; lra). lra. }
    eapply Rle_trans; [exact A|]. change 2 with (bpow radix2 1) at 1. rewrite <- !bpow_plus. apply bpow_le. lia.
  Qed.

  Lemma fn_low : forall i sg, (i < m)%nat -> 0 < sg -> bpow radix2 511 <= sg * f i -> bpow radix2 (-486) <= sg * f n.
  Proof.
    intros i sg Hi S0 H. pose proof (f_ratio i n Hi ltac:(lia)) as R. pose proof (BI_le (val x) i ltac:(pose proof x_pos; lra)) as U. pose proof (f_pos n ltac:(lia)) as Fn.
    pose proof (f_pos i Hi) as Fi. pose proof (BI_pos (val x) i x_pos) as Bi.
    assert (A : bpow radix2 511 * bpow radix2 (-900) <= 4 * bpow radix2 94 * (sg * f n)).
    { apply Rle_trans with (sg * f i * BI (val x) n); [apply Rmult_le_compat; try apply bpow_ge_0; assumption|].
      assert (sg * (f i * BI (val x) n) <= sg * (4 * f n * BI (val x) i)) by (apply Rmult_le_compat_l; lra).
      assert (4 * (sg * f n) * BI (val x) i <= 4 * (sg * f n) * bpow radix2 94) by (apply Rmult_le_compat_l; [apply Rmult_le_pos; [lra|apply Rmult_le_pos; lra]|exact U]). lra. }
    apply Rmult_le_reg_l with (4 * bpow radix2 94); [apply Rmult_lt_0_compat; [lra|apply bpow_gt_0]|]. eapply Rle_trans; [|exact A].
    change 4 with (bpow radix2 2). rewrite <- !bpow_plus. apply bpow_le. lia.
  Qed.

  Lemma eqb_nat : forall a b, (Z.of_nat a =? Z.of_nat b)%Z = (a =? b)%nat.
  Proof. intros a b. destruct (Nat.eqb_spec a b) as [->|E]; [apply Z.eqb_refl|apply Z.eqb_neq; lia]. Qed.

  Lemma istate_step : forall i st, (S i < m)%nat -> istate (S i) st ->
    exists st', @in_down_body (ieee P) t (Z.of_nat n) (Z.of_nat (S i)) st = Ok (Next st') /\ istate i st'.
  Proof.
    intros i [[bip bi] ans] Hi (sg & S0 & Fp & Fb & Mb & Mp & Lo & Up & A0 & A1).
    pose proof (sg_low (S i) sg Hi S0 Lo) as L1. pose proof (sg_up i sg Hi S0 Up) as U1. pose proof kt_rng as [K1 K2]. pose proof (ie_le (S i)) as E1. pose proof (ie_le i) as E2. pose proof (ie_S i Hi) as ES.
    pose proof (f_nonneg (S (S i)) ltac:(lia)) as F2. pose proof (f_pos i ltac:(lia)) as Fi. pose proof (f_pos n ltac:(lia)) as Fn.
    assert (EQ : IZR (Z.of_nat (S i)) * kt * (sg * f (S i)) + sg * f (S (S i)) = sg * f i) by (rewrite (mil_rec 1 kt m i Hi), <- INR_IZR_INZ; ring).
    destruct (I_step_fl (Z.of_nat (S i)) t bi bip kt (sg * f (S i)) (sg * f (S (S i))) (ie (S i)) ltac:(lia) Ft Fb Fp Mt K1 L1 ltac:(apply Rmult_le_pos; lra) Mb Mp ltac:(lra)) as [Fr Mr]; [rewrite EQ; exact U1|].
    rewrite EQ, <- ES in Mr. pose proof (body_plain (Z.of_nat (S i)) bip bi ans) as BP. pose proof (body_scaled (Z.of_nat (S i)) bip bi ans) as BS. cbv zeta in BP, BS.
    set (r := add (mul (mul (f64_of_Z (Z.of_nat (S i))) t) bi) bip) in *. clearbody r.
    assert (Lo' : 1 / 2 <= sg * f i \/ 1 / 2 <= sg * f (S i)).
    { destruct Lo as [L|L]; [right; exact L|left]. rewrite <- EQ. assert (0 <= IZR (Z.of_nat (S i)) * kt * (sg * f (S i))); [|lra]. apply Rmult_le_pos; [|lra]. apply Rmult_le_pos; [apply IZR_le; lia|lra]. }
    pose proof (sg_low i sg ltac:(lia) S0 Lo') as L2.
    pose proof (mr_near _ _ _ Mr ltac:(lra) ltac:(lra)) as [N1 N2].
    assert (N3 : 9 / 10 * (sg * f i) <= val r <= 11 / 10 * (sg * f i)).
    { assert (sg * f i * (1 - 2 * ie i) >= sg * f i * (9 / 10)) by (apply Rmult_ge_compat_l; lra). assert (sg * f i * (1 + 2 * ie i) <= sg * f i * (11 / 10)) by (apply Rmult_le_compat_l; lra). lra. }
    clear N1 N2. assert (RN : bpow radix2 (-1022) <= val r). { apply Rle_trans with (bpow radix2 (-5)); [apply bpow_le; lia|]. change (bpow radix2 (-5)) with (/ 32). lra. }
    destruct (frexp_512 r Fr RN) as [X1 X2]. pose proof (bpow_gt_0 radix2 512) as B5.
    assert (Mb' : mr (ie i) (val bi) (sg * f (S i))) by (eapply mr_weak; [|exact Mb]; unfold vv in ES; lra).
    destruct (snd (frexp64 r) >? 512)%Z eqn:C.
    - specialize (X1 eq_refl).
      assert (H511 : bpow radix2 511 <= sg * f i). { replace (bpow radix2 512) with (2 * bpow radix2 511) in X1 by (change 2 with (bpow radix2 1); rewrite <- bpow_plus; reflexivity). pose proof (bpow_gt_0 radix2 511). lra. }
      destruct (ldexp_down r Fr) as (r2 & ER & FR & VR); [eapply Rle_trans; [|exact X1]; apply bpow_le; lia|].
      assert (NB : bpow radix2 (-510) <= val bi).
      { pose proof (mr_near _ _ _ Mb ltac:(lra) ltac:(lra)) as [Q _]. assert (sg * f (S i) * (1 - 2 * ie (S i)) >= sg * f (S i) * (9 / 10)) by (apply Rmult_ge_compat_l; lra).
        apply Rle_trans with (bpow radix2 (-5)); [apply bpow_le; lia|]. change (bpow radix2 (-5)) with (/ 32). lra. }
      destruct (ldexp_down bi Fb NB) as (p2 & EP & FP & VP).
      set (h := bpow radix2 (-512)) in *. assert (H0 : 0 < h) by apply bpow_gt_0. assert (HB5 : bpow radix2 512 * h = 1) by exact B512.
      assert (SF : forall a, sg * h * a = sg * a * h) by (intros; ring).
      assert (S1 : 1 / 2 <= sg * h * f i). { rewrite SF. replace (1 / 2) with (bpow radix2 511 * h); [apply Rmult_le_compat_r; lra|]. unfold h. rewrite <- bpow_plus. change (511 + -512)%Z with (-1)%Z. change (bpow radix2 (-1)) with (/ 2). lra. }
      assert (S2 : sg * h * f i <= bpow radix2 513). { rewrite SF. apply Rle_trans with (bpow radix2 1000 * h); [apply Rmult_le_compat_r; lra|]. unfold h. rewrite <- bpow_plus. apply bpow_le. lia. }
      assert (RM : mr (ie i) (val r2) (sg * h * f i)) by (rewrite VR, SF; apply mr_scale, Mr).
      assert (PM : mr (ie i) (val p2) (sg * h * f (S i))) by (rewrite VP, SF; apply mr_scale, Mb').
      assert (SH : 0 < sg * h) by (apply Rmult_lt_0_compat; lra).
      destruct (le_lt_dec n (S i)) as [L|L].
      + specialize (A0 L). subst ans. exists (p2, r2, if (Z.of_nat (S i) =? Z.of_nat n)%Z then p2 else B754_zero false).
        split; [exact (BS r2 p2 (B754_zero false) eq_refl ER EP (ldexp_zero P false (-512)))|].
        exists (sg * h). rewrite eqb_nat. destruct (Nat.eqb_spec (S i) n) as [E|E].
        * split; [exact SH|]. split; [exact FP|]. split; [exact FR|]. split; [exact RM|]. split; [exact PM|]. split; [left; exact S1|]. split; [exact S2|]. split; [intros; lia|]. intros _. split; [exact FP|]. rewrite <- E. exact PM.
        * split; [exact SH|]. split; [exact FP|]. split; [exact FR|]. split; [exact RM|]. split; [exact PM|]. split; [left; exact S1|]. split; [exact S2|]. split; [reflexivity|]. intros; lia.
      + destruct (A1 L) as [FA MA]. pose proof (fn_low i sg ltac:(lia) S0 H511) as FL.
        assert (NA : bpow radix2 (-510) <= val ans).
        { pose proof (bpow_gt_0 radix2 (-486)). pose proof (mr_near _ _ _ MA ltac:(lra) ltac:(lra)) as [Q _]. assert (sg * f n * (1 - 2 * ie (S i)) >= sg * f n * (1 / 2)) by (apply Rmult_ge_compat_l; lra).
          apply Rle_trans with (bpow radix2 (-487)); [apply bpow_le; lia|]. replace (bpow radix2 (-486)) with (2 * bpow radix2 (-487)) in FL by (change 2 with (bpow radix2 1); rewrite <- bpow_plus; reflexivity). lra. }
        destruct (ldexp_down ans FA NA) as (a2 & EA & FA2 & VA). fold h in VA.
        exists (p2, r2, if (Z.of_nat (S i) =? Z.of_nat n)%Z then p2 else a2).
        split; [exact (BS r2 p2 a2 eq_refl ER EP EA)|].
        exists (sg * h). rewrite eqb_nat. destruct (Nat.eqb_spec (S i) n) as [E|E]; [lia|].
        split; [exact SH|]. split; [exact FP|]. split; [exact FR|]. split; [exact RM|]. split; [exact PM|]. split; [left; exact S1|]. split; [exact S2|]. split; [intros; lia|]. intros _. split; [exact FA2|].
        rewrite VA, SF. apply mr_scale. eapply mr_weak; [|exact MA]. unfold vv in ES. lra.
    - specialize (X2 eq_refl). exists (bi, r, if (Z.of_nat (S i) =? Z.of_nat n)%Z then bi else ans). split; [exact (BP eq_refl)|].
      assert (S2 : sg * f i <= bpow radix2 513). { replace (bpow radix2 513) with (2 * bpow radix2 512) by (change 2 with (bpow radix2 1); rewrite <- bpow_plus; reflexivity). lra. }
      exists sg. rewrite eqb_nat. split; [exact S0|]. destruct (Nat.eqb_spec (S i) n) as [E|E].
      + split; [exact Fb|]. split; [exact Fr|]. split; [exact Mr|]. split; [exact Mb'|]. split; [exact Lo'|]. split; [exact S2|]. split; [intros; lia|]. intros _. split; [exact Fb|]. rewrite <- E. exact Mb'.
      + split; [exact Fb|]. split; [exact Fr|]. split; [exact Mr|]. split; [exact Mb'|]. split; [exact Lo'|]. split; [exact S2|]. split; [intros; apply A0; lia|]. intros H. destruct (A1 ltac:(lia)) as [FA MA]. split; [exact FA|]. eapply mr_weak; [|exact MA]. unfold vv in ES. lra.
  Qed.

  Lemma istate_loop : forall j st, (j < m)%nat -> istate j st ->
    exists st', for_loop (rev (range 1 (Z.of_nat j + 1))) (@in_down_body (ieee P) t (Z.of_nat n)) st = Ok (Exhausted st') /\ istate 0 st'.
  Proof.
    induction j as [|j IH]; intros st Hj Hs.
    - exists st. split; [reflexivity|exact Hs].
    - destruct (istate_step j st Hj Hs) as (st1 & E & H1). rewrite range_snoc by lia. rewrite rev_app_distr. cbn [rev app for_loop]. rewrite E.
      replace (Z.of_nat (S j)) with (Z.of_nat j + 1)%Z by lia. apply IH; [lia|exact H1].
  Qed.

  Lemma istate_start : istate (m - 1) (f64_lit 0.0, f64_lit 1.0, f64_lit 0.0).
  Proof.
    assert (E : ie (m - 1) = 0) by (unfold ie; rewrite Nat.sub_diag; simpl; ring).
    exists 1. rewrite !Rmult_1_l. replace (S (m - 1)) with m by lia. rewrite mil_top, mil_one by lia. rewrite E.
    assert (F0 : fin (f64_lit 0.0)) by reflexivity. pose proof val_0 as V0.
    split; [lra|]. split; [exact F0|]. split; [exact fin_1|]. rewrite val_1, V0. split; [apply mr_refl; lra|]. split; [apply mr_refl; lra|]. split; [left; lra|]. split; [change 1 with (bpow radix2 0); apply bpow_le; lia|].
    split; [intros _; reflexivity|intros; lia].
  Qed.
End Fl.
