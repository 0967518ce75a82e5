(** * Yn is NaN from order 256 on, for every x in [2^-1022, 1] *)

From Coq Require Import ZArith Reals Bool Lra Lia List.
From Flocq Require Import Core IEEE754.BinarySingleNaN IEEE754.Binary IEEE754.Bits.
From Verif.Model Require Import Base Arith BesselTables Bessel.
From Verif.Float Require Import Bits64 Ieee Exact Platforms.
From Verif.Spec Require Import F64Spec Outcome BesselSpec Bessel2Spec.
From Verif.Proofs Require Import F64 F64Ops Lits Ext FlErr ErfcxSafe BetaExamples SecondSeries SecondRat KAcc YAcc YnAcc YnThms BesselRec.
Import ListNotations.
Open Scope R_scope.

Local Notation ln := Rpower.ln.

(** exponent below which minus the value of order n lies *)
Fixpoint ylow (n : nat) : Z := match n with O => (-2)%Z | S m => (ylow m + Z.log2 (Z.of_nat m))%Z end.

Lemma ylow_200 : (1024 <=? ylow 200)%Z = true.
Proof. vm_compute. reflexivity. Qed.

Lemma rs_le_min : forall a b, fmt b -> a <= b -> rs a <= Rmax (- Om) b.
Proof.
  intros a b Fb H. destruct (Rle_dec (- Om) b) as [L|L].
  - rewrite Rmax_right by exact L. apply rs_le_fmt; assumption.
  - rewrite Rmax_left by lra. apply rs_le_fmt; [apply fmt_opp, fmt_Om|lra|lra].
Qed.

Section S.
  Context (P : platform).
  Local Notation mul := (f64_mul P). Local Notation sub := (f64_sub P). Local Notation div := (f64_div P).
  Local Notation minf := (B754_infinity true : f64).

  Definition yfin (k : Z) (p c : f64) : Prop := fin p /\ fin c /\ Rabs (val p) <= - val c /\ bpow radix2 k <= - val c.

  Lemma sub_minf_fin : forall p, fin p -> sub minf p = minf.
  Proof. intros [s|s|s pl B|s m e B] H; try discriminate; reflexivity. Qed.

  Lemma mul_pinf_neg : forall c, fin c -> val c < 0 -> mul (B754_infinity false) c = minf.
  Proof.
    intros c Fc Hc. rewrite inf_fin_mul by (try exact Fc; lra). rewrite (sign_neg c (fin_nonnan c Fc) Hc). reflexivity.
  Qed.

  Lemma mul_pos_minf : forall m, number m -> 0 < val m -> mul m minf = minf.
  Proof.
    intros [s|s|s pl B|s mm e B] N V; try discriminate; cbn in V; try lra.
    - destruct s; [pose proof Om_pos; cbn in V; lra|reflexivity].
    - destruct s; [|reflexivity]. exfalso. pose proof (F2R_lt_0 radix2 (Float radix2 (Zneg mm) e) ltac:(cbn; lia)). cbn in *. lra.
  Qed.

  Lemma sub_minf_minf : is_NaN (sub minf minf).
  Proof. reflexivity. Qed.

  Lemma jt_num : forall j t, (1 <= j <= 2 ^ 32)%Z -> fin t -> 2 <= val t -> let m := mul (f64_of_Z j) t in number m /\ IZR (2 * 2 ^ Z.log2 j) <= val m.
  Proof.
    intros j t Hj Ft Ht m. destruct (of_Z_exact j ltac:(lia)) as [Fj Vj]. destruct (mul_spec P (f64_of_Z j) t Fj Ft) as [N V]. fold m in N, V. split; [exact N|].
    rewrite V, Vj, <- (val_fin t Ft). pose proof (Z.log2_spec j ltac:(lia)) as [L _].
    assert (B : (2 * 2 ^ Z.log2 j <= 2 ^ 33)%Z) by lia.
    apply rs_ge.
    - apply fmt_IZR. assert (0 <= 2 ^ Z.log2 j)%Z by (apply Z.pow_nonneg; lia). lia.
    - apply Rle_trans with (bpow radix2 33); [change (bpow radix2 33) with (IZR (2 ^ 33)); apply IZR_le, B|]. unfold Om. apply bpow_le; lia.
    - rewrite mult_IZR. assert (J1 : IZR (2 ^ Z.log2 j) <= IZR j) by (apply IZR_le, L). assert (0 <= IZR (2 ^ Z.log2 j)) by (apply IZR_le, Z.pow_nonneg; lia).
      replace (2 * IZR (2 ^ Z.log2 j)) with (IZR (2 ^ Z.log2 j) * 2) by ring. apply Rmult_le_compat; lra.
  Qed.

  (** one step from two finite orders: finite and larger, or minus infinity *)
  Lemma y_step_fin : forall k j t p c, (1 <= j <= 2 ^ 32)%Z -> fin t -> 2 <= val t -> yfin k p c ->
    let r := sub (mul (mul (f64_of_Z j) t) c) p in yfin (k + Z.log2 j) c r \/ r = minf.
  Proof.
    intros k j t p c Hj Ft Ht (Fp & Fc & Hp & Hc) r. destruct (jt_num j t Hj Ft Ht) as [Nm Vm]. unfold r. clear r.
    set (m := mul (f64_of_Z j) t) in *. clearbody m. pose proof (bpow_gt_0 radix2 k) as K0.
    assert (L0 : (0 <= Z.log2 j)%Z) by apply Z.log2_nonneg. set (l := Z.log2 j) in *. clearbody l.
    assert (EB : IZR (2 ^ l) = bpow radix2 l) by (rewrite <- (IZR_Zpower radix2 l L0); reflexivity). rewrite mult_IZR, EB in Vm.
    assert (B1 : 1 <= bpow radix2 l) by (change 1 with (bpow radix2 0); apply bpow_le, L0).
    destruct (fin_or_inf m Nm) as [Fm|[s ->]].
    2: { right. assert (s = false) by (apply inf_nonneg; lra). subst s. rewrite mul_pinf_neg by (try exact Fc; lra). apply sub_minf_fin, Fp. }
    destruct (mul_spec P m c Fm Fc) as [Ns Vs]. rewrite <- (val_fin m Fm), <- (val_fin c Fc) in Vs. set (s := mul m c) in *. clearbody s.
    set (C := - val c) in *. assert (EC : val c = - C) by (unfold C; ring). 
    assert (FC2 : fmt (- (2 * bpow radix2 l * C))).
    { apply fmt_opp. replace (2 * bpow radix2 l * C) with (- (Binary.B2R c * bpow radix2 (1 + l))). { apply fmt_opp, fmt_scale. lia. } rewrite bpow_plus. change (bpow radix2 1) with 2. rewrite <- (val_fin c Fc), EC. ring. }
    assert (FC1 : fmt (- (bpow radix2 l * C))).
    { apply fmt_opp. replace (bpow radix2 l * C) with (- (Binary.B2R c * bpow radix2 l)). { apply fmt_opp, fmt_scale. lia. } rewrite <- (val_fin c Fc), EC. ring. }
    assert (Us : val s <= Rmax (- Om) (- (2 * bpow radix2 l * C))).
    { rewrite Vs. apply rs_le_min; [exact FC2|]. rewrite EC. assert (2 * bpow radix2 l * C <= val m * C) by (apply Rmult_le_compat_r; lra). lra. }
    destruct (fin_or_inf s Ns) as [Fs|[q ->]].
    2: { right. assert (q = true). { destruct q; [reflexivity|]. exfalso. rewrite val_inf_f in Us. pose proof Om_pos. assert (0 < 2 * bpow radix2 l * C) by (repeat apply Rmult_lt_0_compat; lra). assert (Rmax (- Om) (- (2 * bpow radix2 l * C)) < Om) by (apply Rmax_lub_lt; lra). lra. }
      subst q. apply sub_minf_fin, Fp. }
    pose proof (fin_abs_val s Fs) as As. apply Rabs_lt_inv in As.
    assert (Us2 : val s <= - (2 * bpow radix2 l * C)). { destruct (Rmax_case_strong (- Om) (- (2 * bpow radix2 l * C)) (fun z => val s <= z -> val s <= - (2 * bpow radix2 l * C)) ltac:(intros; lra) ltac:(intros; lra) Us); lra. }
    destruct (sub_spec P s p Fs Fp) as [Nr Vr]. rewrite <- (val_fin s Fs), <- (val_fin p Fp) in Vr. set (r := sub s p) in *. clearbody r.
    assert (CB : C <= bpow radix2 l * C). { replace C with (1 * C) at 1 by ring. apply Rmult_le_compat_r; lra. }
    assert (Ur : val r <= Rmax (- Om) (- (bpow radix2 l * C))).
    { rewrite Vr. apply rs_le_min; [exact FC1|]. apply Rabs_le_inv in Hp. lra. }
    destruct (fin_or_inf r Nr) as [Fr|[q ->]].
    2: { right. destruct q; [reflexivity|]. exfalso. rewrite val_inf_f in Ur. pose proof Om_pos. assert (Rmax (- Om) (- (bpow radix2 l * C)) < Om) by (apply Rmax_lub_lt; lra). lra. }
    left. pose proof (fin_abs_val r Fr) as Ar. apply Rabs_lt_inv in Ar.
    assert (Ur2 : val r <= - (bpow radix2 l * C)). { destruct (Rmax_case_strong (- Om) (- (bpow radix2 l * C)) (fun z => val r <= z -> val r <= - (bpow radix2 l * C)) ltac:(intros; lra) ltac:(intros; lra) Ur); lra. }
    split; [exact Fc|]. split; [exact Fr|]. split.
    - rewrite EC, Rabs_Ropp, Rabs_pos_eq by lra. lra.
    - rewrite bpow_plus, Rmult_comm. assert (bpow radix2 l * bpow radix2 k <= bpow radix2 l * C) by (apply Rmult_le_compat_l; lra). lra.
  Qed.

  Definition ystate (k : Z) (p c : f64) : Prop := yfin k p c \/ (c = minf /\ fin p) \/ (c = minf /\ p = minf) \/ is_NaN c.

  Lemma y_step_any : forall j t p c, (1 <= j <= 2 ^ 32)%Z -> fin t -> 2 <= val t ->
    let r := sub (mul (mul (f64_of_Z j) t) c) p in
    (c = minf -> fin p -> r = minf) /\ (c = minf -> p = minf -> is_NaN r) /\ (is_NaN c -> is_NaN r).
  Proof.
    intros j t p c Hj Ft Ht r. destruct (jt_num j t Hj Ft Ht) as [Nm Vm]. unfold r. clear r.
    set (m := mul (f64_of_Z j) t) in *. clearbody m.
    assert (M0 : 0 < val m). { eapply Rlt_le_trans; [|exact Vm]. apply IZR_lt. assert (0 < 2 ^ Z.log2 j)%Z by (apply Z.pow_pos_nonneg; [lia|apply Z.log2_nonneg]). lia. }
    split; [|split].
    - intros -> Fp. rewrite mul_pos_minf by assumption. apply sub_minf_fin, Fp.
    - intros -> ->. rewrite mul_pos_minf by assumption. apply sub_minf_minf.
    - intros N. apply sub_nan_l, mul_nan_r, N.
  Qed.

  Lemma y_state : forall x, fin x -> fin (div (f64_lit 2.0) x) -> 2 <= val (div (f64_lit 2.0) x) ->
    yfin (-2) (@y0 (ieee P) x) (@y1 (ieee P) x) ->
    forall n, (1 <= n)%nat -> (Z.of_nat n <= 2 ^ 32)%Z -> ystate (ylow n) (@Yn (ieee P) (Z.of_nat n - 1) x) (@Yn (ieee P) (Z.of_nat n) x).
  Proof.
    intros x Fx Ft Ht H0. induction n as [|n IH]; intros H1 Hn; [lia|]. destruct n as [|n]; [left; exact H0|].
    specialize (IH ltac:(lia) ltac:(lia)). set (k := ylow (S n)) in *. change (ylow (S (S n))) with (k + Z.log2 (Z.of_nat (S n)))%Z. clearbody k.
    replace (Z.of_nat (S (S n)) - 1)%Z with (Z.of_nat (S n)) by lia. replace (Z.of_nat (S (S n))) with (Z.of_nat (S n) + 1)%Z by lia.
    assert (R : (1 <= Z.of_nat (S n) <= 2 ^ 32)%Z) by lia. assert (R1 : (1 <= Z.of_nat (S n))%Z) by lia. set (j := Z.of_nat (S n)) in *. clearbody j.
    rewrite (Yn_recurrence P j x R1). set (c := @Yn (ieee P) j x) in *. set (p := @Yn (ieee P) (j - 1) x) in *. clearbody c p.
    destruct (y_step_any j (div (f64_lit 2.0) x) p c R Ft Ht) as (A1 & A2 & A3).
    destruct IH as [F|[[C F]|[[C F]|N]]].
    - destruct (y_step_fin k j _ p c R Ft Ht F) as [G|G]; [left; exact G|right; left]. split; [exact G|]. destruct F as (_ & F & _). exact F.
    - right; right; left. split; [apply A1; assumption|exact C].
    - right; right; right. apply A2; assumption.
    - right; right; right. apply A3, N.
  Qed.

  Lemma ylow_mono : forall n m, (n <= m)%nat -> (ylow n <= ylow m)%Z.
  Proof. intros n m H. induction H as [|m H IH]; [lia|]. cbn [ylow]. pose proof (Z.log2_nonneg (Z.of_nat m)). lia. Qed.

  Lemma y_nofin : forall n p c, (200 <= n)%nat -> ~ yfin (ylow n) p c.
  Proof.
    intros n p c Hn (_ & Fc & _ & H). pose proof (fin_abs_val c Fc) as A. apply Rabs_lt_inv in A.
    pose proof ylow_200 as E. apply Z.leb_le in E. pose proof (ylow_mono 200 n Hn) as M.
    pose proof (bpow_le radix2 1024 (ylow n) ltac:(lia)) as B. unfold Om in A. lra.
  Qed.

  Lemma y_nan_202 : forall x, fin x -> fin (div (f64_lit 2.0) x) -> 2 <= val (div (f64_lit 2.0) x) ->
    yfin (-2) (@y0 (ieee P) x) (@y1 (ieee P) x) ->
    forall n, (202 <= n)%nat -> (Z.of_nat n <= 2 ^ 32)%Z -> is_NaN (@Yn (ieee P) (Z.of_nat n) x).
  Proof.
    intros x Fx Ft Ht H0 n Hn Hm.
    assert (S0 : forall j c p, (1 <= j <= 2 ^ 32)%Z -> let r := sub (mul (mul (f64_of_Z j) (div (f64_lit 2.0) x)) c) p in (c = minf -> fin p -> r = minf) /\ (c = minf -> p = minf -> is_NaN r) /\ (is_NaN c -> is_NaN r)) by (intros; apply y_step_any; assumption).
    destruct n as [|[|n]]; try lia.
    pose proof (y_state x Fx Ft Ht H0 n ltac:(lia) ltac:(lia)) as St.
    assert (E1 : Z.of_nat (S n) = (Z.of_nat n + 1)%Z) by lia. assert (E2 : Z.of_nat (S (S n)) = (Z.of_nat n + 1 + 1)%Z) by lia.
    rewrite E2, Yn_recurrence by lia. replace (Z.of_nat n + 1 - 1)%Z with (Z.of_nat n) by lia.
    pose proof (Yn_recurrence P (Z.of_nat n) x ltac:(lia)) as Q.
    set (a := @Yn (ieee P) (Z.of_nat n - 1) x) in *. set (b := @Yn (ieee P) (Z.of_nat n) x) in *. set (c := @Yn (ieee P) (Z.of_nat n + 1) x) in *. clearbody a b c.
    destruct (S0 (Z.of_nat n) b a ltac:(lia)) as (A1 & A2 & A3). rewrite <- Q in A1, A2, A3.
    destruct (S0 (Z.of_nat n + 1)%Z c b ltac:(lia)) as (B1 & B2 & B3).
    destruct St as [F|[[C F]|[[C F]|N]]].
    - exfalso. exact (y_nofin n _ _ ltac:(lia) F).
    - apply B2; [apply A1; assumption|exact C].
    - apply B3, A2; assumption.
    - apply B3, A3, N.
  Qed.

  Lemma y_begin : forall x, accurate_ln (p_ln P) -> fin x -> bpow radix2 (-1022) <= val x <= 1 ->
    fin (div (f64_lit 2.0) x) /\ 2 <= val (div (f64_lit 2.0) x) /\ yfin (-2) (@y0 (ieee P) x) (@y1 (ieee P) x).
  Proof.
    intros x LN Fx [XL XH]. pose proof (bpow_gt_0 radix2 (-1022)) as X0.
    assert (I1 : 1 <= / val x) by (rewrite <- Rinv_1; apply Rinv_le_contravar; lra).
    assert (I2 : / val x <= bpow radix2 1022). { change 1022%Z with (Z.opp (-1022)). rewrite bpow_opp. apply Rinv_le_contravar; lra. }
    assert (D2 : val (f64_lit 2.0) / val x = 2 * / val x) by (rewrite val_2; reflexivity).
    assert (B23 : bpow radix2 1023 = 2 * bpow radix2 1022) by (change 2 with (bpow radix2 1); rewrite <- bpow_plus; reflexivity).
    destruct (div_23 P (f64_lit 2.0) x fin_2 Fx ltac:(lra)) as [Ft _]. { rewrite D2, B23, Rabs_pos_eq; lra. }
    split; [exact Ft|]. split.
    { destruct (div_spec P (f64_lit 2.0) x fin_2 Fx) as [_ V]. { rewrite <- val_fin by exact Fx. lra. }
      rewrite V, <- (val_fin _ fin_2), <- (val_fin x Fx), D2. apply rs_ge; [exact (fmt_IZR 2 ltac:(lia))|pose proof Om_big; lra|lra]. }
    destruct (Y_exists 0 (val x) ltac:(lra)) as [a Ha]. destruct (Y_exists 1 (val x) ltac:(lra)) as [b Hb].
    destruct (y0_fl P LN x a Fx ltac:(lra) Ha) as [F0 E0]. destruct (y1_fl P LN x b Fx ltac:(lra) Hb) as [F1 E1].
    pose proof (Y0_bound (val x) a ltac:(lra) Ha) as B0. pose proof (Y1_bound (val x) b ltac:(lra) Hb) as B1. pose proof (x_ln (val x) ltac:(lra)) as Lx.
    assert (LX : Rabs (ln (val x)) <= 1 / 2 * / val x). { replace (Rabs (ln (val x))) with (val x * Rabs (ln (val x)) * / val x) by (field; lra). apply Rmult_le_compat_r; lra. }
    assert (T : val x * (1 + Rabs (ln (val x))) <= 3 / 2) by (rewrite Rmult_plus_distr_l; lra).
    replace (1 / 10 ^ 15 / val x) with (1 / 10 ^ 15 * / val x) in E1 by reflexivity.
    set (u := val x * (1 + Rabs (ln (val x)))) in *. set (q := / val x) in *. set (L := Rabs (ln (val x))) in *. clearbody u q L.
    assert (A1 : 469 / 1000 * q <= - val (@y1 (ieee P) x)) by (apply Rabs_le_inv in E1; lra).
    split; [exact F0|]. split; [exact F1|]. split.
    - apply Rabs_le_inv in E0, B0. apply Rabs_le. lra.
    - change (bpow radix2 (-2)) with (/ 4). lra.
  Qed.
End S.

Lemma Yn_nan : forall (P : platform) (n : Z) (x : f64), accurate_ln (p_ln P) -> (256 <= n < 2 ^ 32)%Z -> finite x -> bpow radix2 (-1022) <= Binary.B2R x <= 1 -> is_NaN (@Yn (ieee P) n x).
Proof.
  intros P n x LN Hn Fx Hx. rewrite <- (val_fin x Fx) in Hx. destruct (y_begin P x LN Fx Hx) as (Ft & Ht & H0).
  replace n with (Z.of_nat (Z.to_nat n)) by lia. apply y_nan_202; try assumption; lia.
Qed.

Lemma Yn_nan_refuted : exists P n x, accurate_ln (p_ln P) /\ (1 <= n < 2 ^ 32)%Z /\ finite x /\ 0 < Binary.B2R x /\ is_NaN (@Yn (ieee P) n x).
Proof.
  exists (ideal true false), 256%Z, (f64_lit 1.0). split; [apply ideal_ln_accurate|]. split; [lia|]. split; [exact fin_1|].
  assert (V : Binary.B2R (f64_lit 1.0) = 1) by (rewrite <- (val_fin _ fin_1); exact val_1). rewrite V. split; [lra|].
  apply Yn_nan; [apply ideal_ln_accurate|lia|exact fin_1|]. rewrite V. split; [change 1 with (bpow radix2 0); apply bpow_le; lia|lra].
Qed.

Lemma Yn_number : forall (P : platform) (n : nat) (x : f64) (v : R), accurate_ln (p_ln P) -> (1 <= n)%nat -> (Z.of_nat n < 2 ^ 32)%Z -> finite x -> 0 < Binary.B2R x <= 1 ->
  is_Y n (Binary.B2R x) v -> Rabs v <= bpow radix2 1020 -> finite (@Yn (ieee P) (Z.of_nat n) x).
Proof. intros P n x v LN H1 Hn Fx Hx Hv HB. exact (proj1 (Yn_acc P n x v LN H1 Hn Fx Hx Hv HB)). Qed.

Lemma ex_yn_nan : finite (f64_lit 0.5) /\ bpow radix2 (-1022) <= Binary.B2R (f64_lit 0.5) <= 1.
Proof.
  lit_facts 0.5%dec 1%Z 1%Z HF HV. assert (V : Binary.B2R (f64_lit 0.5) = 0.5) by (rewrite <- (val_fin _ HF); lra). split; [exact HF|]. rewrite V.
  split; [|lra]. apply Rle_trans with (bpow radix2 (-1)); [apply bpow_le; lia|]. change (bpow radix2 (-1)) with (/ 2). lra.
Qed.
