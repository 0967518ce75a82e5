(** * factorial: termination, error, exactness, monotonicity *)

From Coq Require Import ZArith Reals Bool Lra Lia List Factorial.
From Flocq Require Import Core IEEE754.BinarySingleNaN IEEE754.Binary IEEE754.Bits.
From Verif.Model Require Import Base Arith Utils.
From Verif.Float Require Import Bits64 Ieee.
From Verif.Spec Require Import F64Spec Outcome.
From Verif.Proofs Require Import F64 F64Ops Lits Ext.
Open Scope R_scope.

Definition u53 : R := bpow radix2 (-53).

Lemma u53_val : u53 = / IZR (2 ^ 53).
Proof. apply (bpow2_inv_IZR (-53)). lia. Qed.

Lemma u53_small : 0 < u53 < / 1000000000000000.
Proof.
  rewrite u53_val. split.
  - apply Rinv_0_lt_compat, IZR_lt. reflexivity.
  - apply Rinv_lt_contravar; [|apply IZR_lt; reflexivity].
    apply Rmult_lt_0_compat; apply IZR_lt; reflexivity.
Qed.

Lemma rnd_rel_1 : forall a, 1 <= a -> (1 - u53) * a <= rnd a <= (1 + u53) * a.
Proof.
  intros a H. assert (E : Rabs (rnd a - a) <= u53 * Rabs a).
  { apply rnd_rel. rewrite Rabs_pos_eq by lra. apply Rle_trans with 1; [|exact H].
    change 1 with (bpow radix2 0). apply bpow_le. lia. }
  rewrite (Rabs_pos_eq a) in E by lra. apply Rabs_le_inv in E. lra.
Qed.

(** [v] is [X] after [a] roundings, saturated at overflow *)
Definition near (a : nat) (X v : R) : Prop :=
  Rmin Om ((1 - u53) ^ a * X) <= v <= (1 + u53) ^ a * X.

Lemma near_exact : forall X, near 0 X X.
Proof. intros X. unfold near. split; [|simpl; lra]. eapply Rle_trans; [apply Rmin_r|simpl; lra]. Qed.

Lemma near_mul : forall a b X Y v w,
  near a X v -> near b Y w -> 1 <= v -> 1 <= w ->
  near (S (a + b)) (X * Y) (rs (v * w)).
Proof.
  intros a b X Y v w [L1 U1] [L2 U2] V W.
  pose proof u53_small as Hu. pose proof Om_pos as HO.
  assert (VW : 1 <= v * w) by (replace 1 with (1 * 1) by ring; apply Rmult_le_compat; lra).
  pose proof (rnd_rel_1 (v * w) VW) as [R1 R2].
  assert (Ha : 0 <= (1 - u53) ^ a) by (apply pow_le; lra).
  assert (Hb : 0 <= (1 - u53) ^ b) by (apply pow_le; lra).
  assert (E1 : (1 + u53) ^ S (a + b) = (1 + u53) * ((1 + u53) ^ a * (1 + u53) ^ b)).
  { simpl. rewrite pow_add. reflexivity. }
  assert (E2 : (1 - u53) ^ S (a + b) = (1 - u53) * ((1 - u53) ^ a * (1 - u53) ^ b)).
  { simpl. rewrite pow_add. reflexivity. }
  assert (Rs : rs (v * w) = Rmin Om (rnd (v * w))).
  { unfold rs. apply Rmax_right. pose proof (rnd_pos (v * w) ltac:(lra)). apply Rmin_glb; lra. }
  unfold near. rewrite E1, E2, Rs. split.
  - assert (Big : Om <= v * w -> Om <= rnd (v * w)) by (apply rnd_ge, fmt_Om).
    destruct (Rle_or_lt Om (v * w)) as [B|B].
    { eapply Rle_trans; [apply Rmin_l|]. apply Rmin_glb; auto with real. }
    assert (V1 : (1 - u53) ^ a * X <= v).
    { revert L1. unfold Rmin. destruct Rle_dec; [|auto]. intros K.
      exfalso. assert (Om * 1 <= v * w) by (apply Rmult_le_compat; lra). lra. }
    assert (V2 : (1 - u53) ^ b * Y <= w).
    { revert L2. unfold Rmin at 1. destruct Rle_dec; [|auto]. intros K.
      exfalso. assert (1 * Om <= v * w) by (apply Rmult_le_compat; lra). lra. }
    apply Rle_min_compat_l. eapply Rle_trans; [|exact R1].
    rewrite Rmult_assoc. apply Rmult_le_compat_l; [lra|].
    replace ((1 - u53) ^ a * (1 - u53) ^ b * (X * Y)) with
      (((1 - u53) ^ a * X) * ((1 - u53) ^ b * Y)) by ring.
    destruct (Rle_or_lt 0 ((1 - u53) ^ a * X)) as [P1|P1];
      destruct (Rle_or_lt 0 ((1 - u53) ^ b * Y)) as [P2|P2].
    + apply Rmult_le_compat; assumption.
    + apply Rle_trans with 0; [|lra]. nra.
    + apply Rle_trans with 0; [|lra]. nra.
    + exfalso. assert (0 < (1 + u53) ^ a * X) by lra.
      assert (0 < (1 + u53) ^ a) by (apply pow_lt; lra).
      assert (0 < X) by (apply Rmult_lt_reg_l with ((1 + u53) ^ a); lra). nra.
  - eapply Rle_trans; [apply Rmin_r|]. eapply Rle_trans; [exact R2|].
    rewrite Rmult_assoc. apply Rmult_le_compat_l; [lra|].
    replace ((1 + u53) ^ a * (1 + u53) ^ b * (X * Y)) with
      (((1 + u53) ^ a * X) * ((1 + u53) ^ b * Y)) by ring.
    apply Rmult_le_compat; lra.
Qed.

(** ** The factorial function on integers *)

Definition fz (k : Z) : R := INR (fact (Z.to_nat k)).

Lemma fz_pos : forall k, 0 < fz k.
Proof. intros k. apply lt_0_INR, lt_O_fact. Qed.

Lemma fz_0 : fz 0 = 1. Proof. reflexivity. Qed.

Lemma fz_succ : forall k, (0 <= k)%Z -> fz (k + 1) = IZR (k + 1) * fz k.
Proof.
  intros k H. unfold fz. replace (Z.to_nat (k + 1)) with (S (Z.to_nat k)) by lia.
  change (fact (S (Z.to_nat k))) with (S (Z.to_nat k) * fact (Z.to_nat k))%nat.
  rewrite mult_INR. f_equal. rewrite INR_IZR_INZ. f_equal. lia.
Qed.

Fixpoint zfact (n : nat) : Z :=
  match n with O => 1%Z | S k => (Z.of_nat n * zfact k)%Z end.

Lemma fz_zfact : forall n, fz (Z.of_nat n) = IZR (zfact n).
Proof.
  induction n as [|n IH]; [reflexivity|].
  replace (Z.of_nat (S n)) with (Z.of_nat n + 1)%Z by lia.
  rewrite fz_succ, IH, <- mult_IZR by lia. f_equal.
  replace (Z.of_nat n + 1)%Z with (Z.of_nat (S n)) by lia. reflexivity.
Qed.

Lemma fz_mono : forall n m, (0 <= n <= m)%Z -> fz n <= fz m.
Proof. intros n m H. unfold fz. apply le_INR, fact_le. lia. Qed.

Lemma fz_171 : 2 * Om <= fz 171.
Proof.
  change 171%Z with (Z.of_nat 171). rewrite fz_zfact. unfold Om.
  rewrite bpow2_nonneg_IZR by lia. rewrite <- mult_IZR. apply IZR_le.
  vm_compute. discriminate.
Qed.

Lemma fz_170 : fz 170 <= Om / 2.
Proof.
  change 170%Z with (Z.of_nat 170). rewrite fz_zfact. unfold Om.
  rewrite bpow2_nonneg_IZR by lia.
  assert (H : IZR (2 * zfact 170) <= IZR (2 ^ 1024)) by (apply IZR_le; vm_compute; discriminate).
  rewrite mult_IZR in H. lra.
Qed.

(** powers of [1 +- u] *)
Lemma pow_up : forall n : nat, (n <= 1000)%nat -> (1 + u53) ^ n <= 1 + 3 / 2 * INR n * u53.
Proof.
  pose proof u53_small as Hu.
  induction n as [|n IH]; intros H; [simpl; lra|].
  change ((1 + u53) ^ S n) with ((1 + u53) * (1 + u53) ^ n).
  specialize (IH ltac:(lia)). rewrite S_INR.
  assert (N : 0 <= INR n <= 1000).
  { split; [apply pos_INR|]. replace 1000 with (INR 1000) by (rewrite INR_IZR_INZ; reflexivity).
    apply le_INR. lia. }
  apply Rle_trans with ((1 + u53) * (1 + 3 / 2 * INR n * u53)).
  { apply Rmult_le_compat_l; lra. }
  assert (INR n * u53 <= 1000 * / 1000000000000000) by (apply Rmult_le_compat; lra).
  assert (3 / 2 * INR n * u53 * u53 <= / 2 * u53) by (apply Rmult_le_compat_r; lra).
  lra.
Qed.

Lemma pow_down : forall n : nat, 1 - INR n * u53 <= (1 - u53) ^ n.
Proof.
  pose proof u53_small as Hu.
  induction n as [|n IH]; [simpl; lra|].
  change ((1 - u53) ^ S n) with ((1 - u53) * (1 - u53) ^ n). rewrite S_INR.
  apply Rle_trans with ((1 - u53) * (1 - INR n * u53)).
  - assert (0 <= INR n * u53 * u53).
    { apply Rmult_le_pos; [apply Rmult_le_pos; [apply pos_INR|lra]|lra]. }
    lra.
  - apply Rmult_le_compat_l; lra.
Qed.

Section Factorial.
  Context (P : platform).

  (** multiplication of numbers at least 1, infinities included *)
  Lemma mul_big : forall x y, number x -> number y -> 1 <= val x -> 1 <= val y ->
    number (f64_mul P x y) /\ val (f64_mul P x y) = rs (val x * val y).
  Proof.
    intros x y Nx Ny Vx Vy. pose proof Om_pos as HO.
    assert (Inf : forall w, 1 <= w -> rs (Om * w) = Om).
    { intros w Hw. apply rs_over. apply rnd_ge; [apply fmt_Om|].
      rewrite <- (Rmult_1_r Om) at 1. apply Rmult_le_compat_l; lra. }
    destruct (fin_or_inf x Nx) as [Fx|[s ->]].
    - destruct (fin_or_inf y Ny) as [Fy|[s ->]].
      + rewrite (val_fin x Fx), (val_fin y Fy). apply (mul_spec P x y Fx Fy).
      + assert (s = false) by (apply inf_nonneg; lra). subst s.
        pose proof (mul_comm P x (B754_infinity false)) as C.
        rewrite (inf_fin_mul P false x Fx) in C by lra.
        assert (Sx : Binary.Bsign x = false) by (apply sign_pos; [exact Nx|lra]).
        rewrite Sx in C. cbn [xorb] in C.
        destruct C as [->|[_ C]]; [|discriminate].
        split; [reflexivity|]. change (val (B754_infinity false)) with Om.
        rewrite Rmult_comm, Inf by exact Vx. reflexivity.
    - assert (s = false) by (apply inf_nonneg; lra). subst s.
      change (val (B754_infinity false)) with Om. rewrite Inf by exact Vy.
      destruct (fin_or_inf y Ny) as [Fy|[s ->]].
      + rewrite (inf_fin_mul P false y Fy) by lra.
        rewrite (sign_pos y Ny) by lra. split; reflexivity.
      + assert (s = false) by (apply inf_nonneg; lra). subst s. split; reflexivity.
  Qed.

  Lemma rs_ge_1 : forall a, 1 <= a -> 1 <= rs a.
  Proof.
    intros a H. apply rs_ge; [|generalize Om_big; lra|exact H].
    apply (fmt_IZR 1). lia.
  Qed.

  Lemma mul_big_1 : forall x y, number x -> number y -> 1 <= val x -> 1 <= val y ->
    1 <= val (f64_mul P x y).
  Proof.
    intros x y Nx Ny Vx Vy. destruct (mul_big x y Nx Ny Vx Vy) as [_ ->].
    apply rs_ge_1. replace 1 with (1 * 1) by ring. apply Rmult_le_compat; lra.
  Qed.

  Lemma one_mul : forall y, number y -> 1 <= val y -> val (f64_mul P (f64_lit 1.0) y) = val y.
  Proof.
    intros y Ny Vy. destruct (mul_big (f64_lit 1.0) y nn_1 Ny) as [_ ->].
    - rewrite val_1. lra.
    - exact Vy.
    - rewrite val_1, Rmult_1_l. apply rs_fmt; [apply val_fmt|].
      pose proof (val_bound y). apply Rabs_le. lra.
  Qed.

  (** one factor *)
  Definition factor (i : Z) : f64 := f64_add P (f64_lit 1.0) (f64_of_Z i).

  Lemma factor_ge_1 : forall i, (0 <= i)%Z -> number (factor i) /\ 1 <= val (factor i).
  Proof.
    intros i H. destruct (of_Z_spec i) as [Ni Vi].
    assert (Zi : nonneg (f64_of_Z i)).
    { split; [exact Ni|]. rewrite Vi. apply rs_pos. apply IZR_le. exact H. }
    assert (Z1 : nonneg (f64_lit 1.0)) by (split; [apply nn_1|rewrite val_1; lra]).
    destruct (add_nonneg P _ _ Z1 Zi) as [[N _] [L _]]. unfold factor.
    rewrite val_1 in L. split; assumption.
  Qed.

  Lemma factor_exact : forall i, (0 <= i < 2 ^ 53)%Z -> val (factor i) = IZR (i + 1).
  Proof.
    intros i H. destruct (of_Z_exact i ltac:(lia)) as [Fi Vi].
    destruct (add_spec P (f64_lit 1.0) (f64_of_Z i) fin_1 Fi) as [_ V].
    unfold factor. rewrite V, Vi, <- (val_fin _ fin_1), val_1, <- plus_IZR.
    replace (1 + i)%Z with (i + 1)%Z by lia. apply rs_fmt.
    - apply fmt_IZR. lia.
    - rewrite <- abs_IZR. apply Rle_trans with (2 ^ 60); [|generalize Om_big; lra].
      rewrite pow_IZR. apply IZR_le. change (2 ^ Z.of_nat 60)%Z with (2 ^ 60)%Z. lia.
  Qed.

  Definition fold_block (l : list Z) (acc : f64) : f64 :=
    fold_left (fun acc i => f64_mul P acc (factor i)) l acc.

  Lemma fold_block_ge_1 : forall n i acc, (0 <= i)%Z -> number acc -> 1 <= val acc ->
    number (fold_block (count_from i n) acc) /\ 1 <= val (fold_block (count_from i n) acc).
  Proof.
    induction n as [|n IH]; intros i acc Hi N V; [split; assumption|].
    cbn [count_from fold_block fold_left].
    destruct (factor_ge_1 i Hi) as [Nf Vf].
    apply (IH (i + 1)%Z); [lia| |].
    - apply (mul_big acc (factor i) N Nf V Vf).
    - apply mul_big_1; assumption.
  Qed.

  Lemma fold_block_near : forall n i acc a X, (0 <= i)%Z -> (i + Z.of_nat n <= 2 ^ 53)%Z ->
    number acc -> 1 <= val acc -> near a X (val acc) ->
    near (a + n) (X * (fz (i + Z.of_nat n) / fz i)) (val (fold_block (count_from i n) acc)).
  Proof.
    induction n as [|n IH]; intros i acc a X Hi Hn N V H.
    - rewrite Nat.add_0_r. cbn [count_from fold_block fold_left].
      replace (i + Z.of_nat 0)%Z with i by lia.
      replace (X * (fz i / fz i)) with X; [exact H|]. field. pose proof (fz_pos i). lra.
    - cbn [count_from fold_block fold_left].
      destruct (factor_ge_1 i Hi) as [Nf Vf].
      destruct (mul_big acc (factor i) N Nf V Vf) as [Nm Vm].
      assert (K : near (S (a + 0)) (X * IZR (i + 1)) (val (f64_mul P acc (factor i)))).
      { rewrite Vm. apply near_mul; auto. rewrite factor_exact by lia. apply near_exact. }
      specialize (IH (i + 1)%Z _ _ _ ltac:(lia) ltac:(lia) Nm (mul_big_1 _ _ N Nf V Vf) K).
      replace (a + S n)%nat with (S (a + 0) + n)%nat by lia.
      replace (X * (fz (i + Z.of_nat (S n)) / fz i)) with
        (X * IZR (i + 1) * (fz (i + 1 + Z.of_nat n) / fz (i + 1))); [exact IH|].
      replace (i + Z.of_nat (S n))%Z with (i + 1 + Z.of_nat n)%Z by lia.
      rewrite (fz_succ i Hi). field.
      pose proof (fz_pos i). assert (0 < IZR (i + 1)) by (apply IZR_lt; lia). split; lra.
  Qed.

  (** a block starting from 1: its first product is exact *)
  Lemma block_near : forall l i, (0 <= i)%Z -> (1 <= l)%Z -> (i + l <= 2 ^ 53)%Z ->
    near (Z.to_nat (l - 1)) (fz (i + l) / fz i) (val (fold_block (range i (i + l)) (f64_lit 1.0))).
  Proof.
    intros l i Hi Hl B. unfold range. replace (i + l - i)%Z with l by lia.
    replace (Z.to_nat l) with (S (Z.to_nat (l - 1))) by lia.
    cbn [count_from fold_block fold_left].
    destruct (factor_ge_1 i Hi) as [Nf Vf].
    assert (N1 : number (f64_mul P (f64_lit 1.0) (factor i))).
    { apply (mul_big (f64_lit 1.0) (factor i) nn_1 Nf); [rewrite val_1; lra|exact Vf]. }
    assert (E : val (f64_mul P (f64_lit 1.0) (factor i)) = IZR (i + 1)).
    { rewrite one_mul, factor_exact by (assumption || lia). reflexivity. }
    assert (V1 : 1 <= IZR (i + 1)) by (apply (IZR_le 1); lia).
    pose proof (fold_block_near (Z.to_nat (l - 1)) (i + 1) (f64_mul P (f64_lit 1.0) (factor i)) 0
                  (IZR (i + 1))) as H.
    rewrite E in H.
    specialize (H ltac:(lia) ltac:(lia) N1 V1 (near_exact _)).
    replace (fz (i + l) / fz i) with
      (IZR (i + 1) * (fz (i + 1 + Z.of_nat (Z.to_nat (l - 1))) / fz (i + 1))); [exact H|].
    replace (i + 1 + Z.of_nat (Z.to_nat (l - 1)))%Z with (i + l)%Z by lia.
    rewrite (fz_succ i Hi). field. pose proof (fz_pos i). split; lra.
  Qed.

  (** ** The loop *)

  Definition Inv (c : Z) (r : f64) : Prop :=
    number r /\ 1 <= val r /\
    ((c <= 170)%Z -> near (Z.to_nat c) (fz c) (val r)) /\
    ((171 <= c)%Z -> val r = Om).

  Lemma near_over : forall c v, (171 <= c <= 1000)%Z -> v <= Om ->
    near (Z.to_nat c) (fz c) v -> v = Om.
  Proof.
    intros c v Hc B [L _]. apply Rle_antisym; [exact B|].
    eapply Rle_trans; [|exact L]. apply Rmin_glb; [lra|].
    pose proof (pow_down (Z.to_nat c)) as D. pose proof u53_small as Hu.
    assert (I : INR (Z.to_nat c) <= 1000).
    { rewrite INR_IZR_INZ, Z2Nat.id by lia. apply IZR_le. lia. }
    assert (INR (Z.to_nat c) * u53 <= 1000 * / 1000000000000000).
    { apply Rmult_le_compat; [apply pos_INR|lra|lra|lra]. }
    pose proof fz_171 as F1. pose proof (fz_mono 171 c ltac:(lia)) as F2. pose proof Om_pos as HO.
    apply Rle_trans with (/ 2 * fz c); [lra|]. apply Rmult_le_compat_r; [|lra].
    apply Rlt_le, fz_pos.
  Qed.

  Lemma Inv_step : forall k l r, (0 <= k)%Z -> (1 <= l <= 60)%Z -> Inv k r ->
    Inv (k + l) (f64_mul P r (fold_block (range k (k + l)) (f64_lit 1.0))).
  Proof.
    intros k l r Hk Hl (N & V & I1 & I2).
    set (t := fold_block (range k (k + l)) (f64_lit 1.0)).
    assert (T : number t /\ 1 <= val t).
    { apply fold_block_ge_1; [exact Hk|apply nn_1|rewrite val_1; lra]. }
    destruct T as [Nt Vt]. destruct (mul_big r t N Nt V Vt) as [Nm Vm].
    pose proof (mul_big_1 r t N Nt V Vt) as V1.
    assert (Small : (k <= 170)%Z ->
      near (Z.to_nat (k + l)) (fz (k + l)) (val (f64_mul P r t))).
    { intros Hk'. specialize (I1 Hk'). pose proof (block_near l k Hk ltac:(lia) ltac:(lia)) as B.
      fold t in B. pose proof (near_mul _ _ _ _ _ _ I1 B V Vt) as M. rewrite <- Vm in M.
      replace (S (Z.to_nat k + Z.to_nat (l - 1))) with (Z.to_nat (k + l)) in M by lia.
      replace (fz k * (fz (k + l) / fz k)) with (fz (k + l)) in M; [exact M|].
      field. pose proof (fz_pos k). lra. }
    split; [exact Nm|]. split; [exact V1|]. split.
    - intros H. apply Small. lia.
    - intros H. destruct (Z.le_gt_cases k 170) as [Q|Q].
      + apply (near_over (k + l)); [lia|apply val_bound|auto].
      + rewrite Vm, I2 by lia. apply rs_over. apply rnd_ge; [apply fmt_Om|].
        pose proof Om_pos. rewrite <- (Rmult_1_r Om) at 1. apply Rmult_le_compat_l; lra.
  Qed.

  Lemma rising_loop_ok : forall fuel n m k r,
    (0 <= k)%Z -> (1 <= m <= 60)%Z -> (m | k)%Z -> (n - k <= Z.of_nat fuel)%Z ->
    (forall j, (m | j)%Z -> (j < n)%Z -> (j + m < 2 ^ 64)%Z) ->
    (0 <= n)%Z -> Inv (Z.min k n) r ->
    exists r', rising_loop (A := ieee P) fuel (f64_lit 1.0) n m k r = Ok r' /\ Inv n r'.
  Proof.
    induction fuel as [|fuel IH]; intros n m k r Hk Hm Hd Hf Hn Hn0 HI.
    - cbn [rising_loop]. destruct (Z.ltb_spec k n) as [L|L]; [exfalso; lia|].
      exists r. split; [reflexivity|]. rewrite Z.min_r in HI by lia. exact HI.
    - cbn [rising_loop]. destruct (Z.ltb_spec k n) as [L|L].
      + cbv zeta. unfold arith_u, in_range.
        destruct (Z.leb_spec 0 (k + m)) as [_|Q]; [|exfalso; lia].
        pose proof (Hn k Hd L) as Hkm.
        destruct (Z.leb_spec (k + m) (2 ^ 64 - 1)) as [_|Q]; [|exfalso; lia].
        cbn [andb bind]. apply IH; try lia; auto using Z.divide_add_r, Z.divide_refl.
        replace (Z.min (k + m) n) with (k + Z.min m (n - k))%Z by lia.
        rewrite Z.min_l in HI by lia. apply Inv_step; [exact Hk|lia|exact HI].
      + exists r. split; [reflexivity|]. rewrite Z.min_r in HI by lia. exact HI.
  Qed.

  (** the block length is the integer part of the square root, up to 60 *)
  Lemma block_len_ge : forall n c, (1 <= n < 2 ^ 64)%Z -> (0 <= c <= 60)%Z -> (c * c <= n)%Z ->
    (c <= block_len (A := ieee P) n <= 60)%Z.
  Proof.
    intros n c Hn Hc Hcn. unfold block_len, as_usize. ieee_simpl.
    destruct (of_Z_spec n) as [Nn Vn].
    assert (HO : 2 ^ 64 < Om).
    { unfold Om. rewrite bpow2_nonneg_IZR by lia. rewrite pow_IZR. apply IZR_lt. reflexivity. }
    assert (Hcc : IZR (c * c) <= 3600) by (apply IZR_le; nia).
    assert (B : IZR (c * c) <= val (f64_of_Z n) <= 2 ^ 64).
    { rewrite Vn. split.
      - apply rs_ge; [apply fmt_IZR; nia|generalize Om_big; lra|apply IZR_le; exact Hcn].
      - apply rs_le_fmt; [| |].
        + rewrite pow_IZR. change (2 ^ Z.of_nat 64)%Z with (2 ^ 64)%Z.
          rewrite <- bpow2_nonneg_IZR by lia. apply fmt_bpow. lia.
        + pose proof Om_pos. assert (0 < 2 ^ 64) by (apply pow_lt; lra). lra.
        + rewrite pow_IZR. apply IZR_le. change (2 ^ Z.of_nat 64)%Z with (2 ^ 64)%Z. lia. }
    assert (Fn : fin (f64_of_Z n)).
    { apply (fin_of_bound _ (2 ^ 64) Nn).
      - apply Rabs_le. assert (0 <= IZR (c * c)) by (apply IZR_le; nia). lra.
      - exact HO. }
    rewrite val_fin in B by exact Fn.
    assert (C0 : 0 <= IZR c) by (apply IZR_le; lia).
    assert (CC : 0 <= IZR (c * c)) by (apply IZR_le; nia).
    destruct (sqrt_spec P (f64_of_Z n) Fn ltac:(lra)) as [Fs Vs].
    assert (S1 : IZR c <= Binary.B2R (f64_sqrt P (f64_of_Z n))).
    { rewrite Vs. apply rnd_ge; [apply fmt_IZR; lia|].
      rewrite <- (sqrt_square (IZR c) C0). rewrite <- mult_IZR. apply sqrt_le_1; lra. }
    destruct (floor_spec P _ Fs) as [Ff Vf].
    set (q := f64_floor P (f64_sqrt P (f64_of_Z n))) in *.
    assert (F1 : (c <= Zfloor (Binary.B2R (f64_sqrt P (f64_of_Z n))))%Z).
    { apply Zfloor_lub. exact S1. }
    lit_facts 60.0%dec 60%Z 0%Z F60 V60.
    destruct (min_val P q (f64_lit 60.0) (fin_nonnan _ Ff) (fin_nonnan _ F60)) as [Nm Vm].
    rewrite to_int_val; [|exact Nm|lia| |].
    - assert (V60' : val (f64_lit 60.0) = IZR 60) by (rewrite V60; change (IZR (2 ^ 0)) with 1; lra).
      rewrite Vm, (val_fin q Ff), Vf, V60'.
      assert (E : Rmin (IZR (Zfloor (Binary.B2R (f64_sqrt P (f64_of_Z n))))) (IZR 60)
                  = IZR (Z.min (Zfloor (Binary.B2R (f64_sqrt P (f64_of_Z n)))) 60)).
      { destruct (Z.le_gt_cases (Zfloor (Binary.B2R (f64_sqrt P (f64_of_Z n)))) 60) as [Q|Q].
        - rewrite Z.min_l by exact Q. apply Rmin_left, IZR_le, Q.
        - rewrite Z.min_r by lia. apply Rmin_right, IZR_le. lia. }
      rewrite E, Ztrunc_IZR. lia.
    - change (- 2 ^ 1024 <= 0)%Z. apply Z.opp_nonpos_nonneg, Z.pow_nonneg. lia.
    - apply Z.le_trans with (2 ^ 64)%Z; [lia|]. apply Z.pow_le_mono_r; lia.
  Qed.

  Lemma block_len_range : forall n, (1 <= n < 2 ^ 64)%Z ->
    (1 <= block_len (A := ieee P) n <= 60)%Z.
  Proof. intros n H. apply block_len_ge; lia. Qed.

  Lemma block_len_60 : forall n, (3600 <= n < 2 ^ 64)%Z -> block_len (A := ieee P) n = 60%Z.
  Proof. intros n H. pose proof (block_len_ge n 60 ltac:(lia) ltac:(lia) ltac:(lia)). lia. Qed.

  Lemma factorial_inv : forall fuel n, (0 <= n <= 2 ^ 64 - 16)%Z -> (n <= Z.of_nat fuel)%Z ->
    exists r, factorial (A := ieee P) fuel n = Ok r /\ Inv n r.
  Proof.
    intros fuel n Hn Hf. unfold factorial, rising_factorial. cbv zeta.
    assert (I0 : Inv 0 (f64_lit 1.0)).
    { split; [apply nn_1|]. split; [rewrite val_1; lra|]. split; [|intros; lia].
      intros _. rewrite val_1. apply near_exact. }
    destruct (Z.eq_dec n 0) as [->|Z0].
    - exists (f64_lit 1.0). split; [|exact I0]. destruct fuel; reflexivity.
    - apply rising_loop_ok; try lia.
      + apply block_len_range. lia.
      + apply Z.divide_0_r.
      + intros j [q Hq] Hj. destruct (Z.le_gt_cases n (2 ^ 64 - 61)) as [L|L].
        * pose proof (block_len_range n ltac:(lia)). lia.
        * rewrite block_len_60 in * by lia. lia.
      + rewrite Z.min_l by lia. exact I0.
  Qed.

  (** fuel does not matter once it suffices *)
  Lemma rising_loop_fuel : forall fuel fuel' z n m k r v,
    rising_loop (A := ieee P) fuel z n m k r = Ok v -> (fuel <= fuel')%nat ->
    rising_loop (A := ieee P) fuel' z n m k r = Ok v.
  Proof.
    induction fuel as [|fuel IH]; intros fuel' z n m k r v H L.
    - cbn [rising_loop] in H. destruct fuel' as [|fuel']; cbn [rising_loop];
        destruct (k <? n)%Z; try discriminate; exact H.
    - destruct fuel' as [|fuel']; [exfalso; lia|]. cbn [rising_loop] in *.
      destruct (k <? n)%Z; [|exact H]. cbv zeta in *.
      destruct (arith_u (checks (a := ieee P)) 64 (k + m)); try discriminate. cbn [bind] in *.
      apply IH; [exact H|lia].
  Qed.

  Lemma factorial_fuel : forall fuel fuel' n v,
    factorial (A := ieee P) fuel n = Ok v -> (fuel <= fuel')%nat ->
    factorial (A := ieee P) fuel' n = Ok v.
  Proof. intros fuel fuel' n v. unfold factorial, rising_factorial. apply rising_loop_fuel. Qed.

  (** C07 *)
  Theorem factorial_returns : forall n, (0 <= n <= 2 ^ 64 - 16)%Z ->
    exists r, (forall fuel, (n <= Z.of_nat fuel)%Z -> factorial (A := ieee P) fuel n = Ok r) /\
      number r /\ 1 <= val r.
  Proof.
    intros n Hn. destruct (factorial_inv (Z.to_nat n) n Hn ltac:(lia)) as (r & E & N & V & _).
    exists r. split; [|split; assumption].
    intros fuel Hf. apply (factorial_fuel (Z.to_nat n)); [exact E|lia].
  Qed.

  (** C08 *)
  Theorem factorial_infinite : forall n fuel, (171 <= n <= 2 ^ 64 - 16)%Z -> (n <= Z.of_nat fuel)%Z ->
    factorial (A := ieee P) fuel n = Ok (B754_infinity false).
  Proof.
    intros n fuel Hn Hf. destruct (factorial_inv fuel n ltac:(lia) Hf) as (r & E & N & _ & _ & I).
    rewrite E. f_equal. apply val_inf_pos; [exact N|]. apply I. lia.
  Qed.

  Theorem factorial_error : forall n fuel, (0 <= n <= 170)%Z -> (n <= Z.of_nat fuel)%Z ->
    exists r, factorial (A := ieee P) fuel n = Ok r /\ finite r /\
      Rabs (Binary.B2R r - INR (fact (Z.to_nat n))) <= bpow radix2 (-45) * INR (fact (Z.to_nat n)).
  Proof.
    intros n fuel Hn Hf. destruct (factorial_inv fuel n ltac:(lia) Hf) as (r & E & N & V & I & _).
    exists r. split; [exact E|]. specialize (I ltac:(lia)). fold (fz n).
    pose proof (fz_pos n) as Fp. pose proof u53_small as Hu.
    pose proof (fz_mono n 170 ltac:(lia)) as F1. pose proof fz_170 as F2. pose proof Om_pos as HO.
    assert (In : 0 <= INR (Z.to_nat n) <= 170).
    { split; [apply pos_INR|]. rewrite INR_IZR_INZ, Z2Nat.id by lia. apply IZR_le. lia. }
    pose proof (pow_up (Z.to_nat n) ltac:(lia)) as U.
    pose proof (pow_down (Z.to_nat n)) as D.
    assert (B : 255 * u53 <= bpow radix2 (-45)).
    { rewrite u53_val, bpow2_inv_IZR by lia.
      change (2 ^ (- -45))%Z with (2 ^ 45)%Z.
      replace (IZR (2 ^ 53)) with (256 * IZR (2 ^ 45)) by (rewrite <- mult_IZR; reflexivity).
      assert (0 < IZR (2 ^ 45)) by (apply IZR_lt; reflexivity).
      rewrite Rinv_mult. pose proof (Rinv_0_lt_compat _ H). lra. }
    assert (S1 : 3 / 2 * INR (Z.to_nat n) * u53 <= 255 * u53) by (apply Rmult_le_compat_r; lra).
    assert (S2 : INR (Z.to_nat n) * u53 <= 255 * u53) by (apply Rmult_le_compat_r; lra).
    assert (S3 : 255 * u53 <= / 1000) by lra.
    destruct I as [L H].
    assert (H' : val r <= (1 + bpow radix2 (-45)) * fz n).
    { eapply Rle_trans; [exact H|]. apply Rmult_le_compat_r; lra. }
    assert (H2 : val r <= (1 + 255 * u53) * fz n).
    { eapply Rle_trans; [exact H|]. apply Rmult_le_compat_r; lra. }
    assert (L' : (1 - bpow radix2 (-45)) * fz n <= val r).
    { eapply Rle_trans; [|exact L]. apply Rmin_glb.
      - apply Rle_trans with (1 * fz n); [apply Rmult_le_compat_r; lra|lra].
      - apply Rmult_le_compat_r; lra. }
    assert (Hs : val r < Om).
    { eapply Rle_lt_trans; [exact H2|].
      apply Rle_lt_trans with ((1 + / 1000) * fz n); [apply Rmult_le_compat_r; lra|lra]. }
    assert (Fr : fin r) by (apply fin_iff_val; [exact N|rewrite Rabs_pos_eq; lra]).
    split; [exact Fr|]. rewrite <- (val_fin _ Fr). apply Rabs_le. lra.
  Qed.

  (** exact values, by evaluation of every case *)
  Definition exact_at (n : Z) : bool :=
    match factorial (A := ieee P) 22 n with
    | Ok (B754_finite false m e _) =>
        (Z.pos m * 2 ^ Z.max 0 e =? zfact (Z.to_nat n) * 2 ^ Z.max 0 (- e))%Z
    | _ => false
    end.

  Lemma exact_at_all : forallb exact_at (range 0 23) = true.
  Proof. vm_compute. reflexivity. Qed.

  Lemma In_range : forall n i a, (a <= i < a + Z.of_nat n)%Z -> List.In i (count_from a n).
  Proof.
    induction n as [|n IH]; intros i a H; [exfalso; lia|]. cbn [count_from].
    destruct (Z.eq_dec a i) as [->|N]; [left; reflexivity|right]. apply IH. lia.
  Qed.

  Theorem factorial_exact : forall n fuel, (0 <= n <= 22)%Z -> (n <= Z.of_nat fuel)%Z ->
    exists r, factorial (A := ieee P) fuel n = Ok r /\ finite r /\
      Binary.B2R r = INR (fact (Z.to_nat n)).
  Proof.
    intros n fuel Hn Hf.
    pose proof exact_at_all as H. rewrite forallb_forall in H.
    specialize (H n (In_range 23 n 0 ltac:(lia))). unfold exact_at in H.
    destruct (factorial (A := ieee P) 22 n) as [r| |] eqn:E; try discriminate.
    destruct (factorial_returns n ltac:(lia)) as (r' & E' & _).
    pose proof (E' 22%nat ltac:(lia)) as E2. rewrite E in E2. apply ok_inj in E2. subst r'.
    exists r. split; [apply E'; exact Hf|].
    destruct r as [| | |s m e B]; try discriminate. destruct s; [discriminate|].
    split; [reflexivity|]. apply Z.eqb_eq in H. unfold Binary.B2R.
    change (INR (fact (Z.to_nat n))) with (fz n).
    assert (Q : fz n = IZR (zfact (Z.to_nat n))) by (rewrite <- fz_zfact, Z2Nat.id by lia; reflexivity).
    rewrite Q.
    unfold F2R. cbn [Fnum Fexp SpecFloat.cond_Zopp].
    apply (f_equal IZR) in H. rewrite !mult_IZR in H.
    destruct (Z.le_gt_cases 0 e) as [L|L].
    - rewrite Z.max_r, (Z.max_l 0 (- e)), Z.pow_0_r, Rmult_1_r in H by lia.
      rewrite bpow2_nonneg_IZR by exact L. exact H.
    - rewrite Z.max_l, (Z.max_r 0 (- e)), Z.pow_0_r, Rmult_1_r in H by lia.
      rewrite bpow2_inv_IZR, H by lia. field. apply IZR_neq. apply Z.pow_nonzero; lia.
  Qed.

  (** C09 *)
  Theorem factorial_monotone : forall m n fuel a b, (0 <= m <= n)%Z -> (n <= 2 ^ 64 - 16)%Z ->
    (n <= Z.of_nat fuel)%Z ->
    factorial (A := ieee P) fuel m = Ok a -> factorial (A := ieee P) fuel n = Ok b ->
    val a <= val b.
  Proof.
    intros m n fuel a b Hm Hn Hf Ea Eb.
    destruct (Z.eq_dec m n) as [->|Ne].
    { rewrite Ea in Eb. apply ok_inj in Eb. subst b. lra. }
    destruct (Z.le_gt_cases 171 n) as [L|L].
    { rewrite (factorial_infinite n fuel) in Eb by lia. apply ok_inj in Eb. subst b.
      apply val_bound. }
    destruct (Z.le_gt_cases n 22) as [S|S].
    { destruct (factorial_exact m fuel) as (a' & Ea' & Fa & Va); try lia.
      destruct (factorial_exact n fuel) as (b' & Eb' & Fb & Vb); try lia.
      rewrite Ea in Ea'. rewrite Eb in Eb'. apply ok_inj in Ea', Eb'. subst a' b'.
      rewrite (val_fin a Fa), (val_fin b Fb), Va, Vb. apply fz_mono. lia. }
    destruct (factorial_error m fuel) as (a' & Ea' & Fa & Va); try lia.
    destruct (factorial_error n fuel) as (b' & Eb' & Fb & Vb); try lia.
    rewrite Ea in Ea'. rewrite Eb in Eb'. apply ok_inj in Ea', Eb'. subst a' b'.
    rewrite (val_fin a Fa), (val_fin b Fb). fold (fz m) in Va. fold (fz n) in Vb.
    apply Rabs_le_inv in Va, Vb.
    assert (G : 2 * fz m <= fz n).
    { apply Rle_trans with (2 * fz (n - 1)).
      - apply Rmult_le_compat_l; [lra|]. apply fz_mono. lia.
      - replace n with (n - 1 + 1)%Z at 2 by lia. rewrite fz_succ by lia.
        apply Rmult_le_compat_r; [apply Rlt_le, fz_pos|]. apply IZR_le. lia. }
    assert (B : bpow radix2 (-45) <= / 1000).
    { rewrite bpow2_inv_IZR by lia. apply Rinv_le_contravar; [lra|]. apply IZR_le.
      vm_compute. discriminate. }
    pose proof (fz_pos m) as Fm.
    assert (bpow radix2 (-45) * fz m <= / 1000 * fz m) by (apply Rmult_le_compat_r; lra).
    assert (bpow radix2 (-45) * fz n <= / 1000 * fz n) by (apply Rmult_le_compat_r; lra).
    lra.
  Qed.

  (** ** Beyond the boundary *)

  Lemma rising_loop_over : p_checks P = true -> forall fuel n k r,
    (2 ^ 64 - 16 < n < 2 ^ 64)%Z -> (0 <= k < n)%Z -> (60 | k)%Z -> (n - k <= Z.of_nat fuel)%Z ->
    rising_loop (A := ieee P) fuel (f64_lit 1.0) n 60 k r = Panic POverflow.
  Proof.
    intros Hc. induction fuel as [|fuel IH]; intros n k r Hn Hk Hd Hf; [exfalso; lia|].
    cbn [rising_loop]. destruct (Z.ltb_spec k n) as [_|L]; [|exfalso; lia]. cbv zeta.
    destruct Hd as [q Hq].
    unfold arith_u, in_range. destruct (Z.leb_spec 0 (k + 60)) as [_|Q]; [|exfalso; lia].
    destruct (Z.leb_spec (k + 60) (2 ^ 64 - 1)) as [L|L]; cbn [andb].
    - cbn [bind]. apply IH; try lia. exists (q + 1)%Z. lia.
    - change (@checks (ieee P)) with (p_checks P). rewrite Hc. reflexivity.
  Qed.

  Lemma rising_loop_never : p_checks P = false -> forall fuel n k r,
    (2 ^ 64 - 3 <= n < 2 ^ 64)%Z -> (0 <= k < 2 ^ 64)%Z -> (4 | k)%Z ->
    rising_loop (A := ieee P) fuel (f64_lit 1.0) n 60 k r = Diverge.
  Proof.
    intros Hc. induction fuel as [|fuel IH]; intros n k r Hn Hk Hd.
    - cbn [rising_loop]. destruct Hd as [q Hq].
      destruct (Z.ltb_spec k n) as [_|L]; [reflexivity|exfalso; lia].
    - cbn [rising_loop]. destruct Hd as [q Hq].
      destruct (Z.ltb_spec k n) as [_|L]; [|exfalso; lia]. cbv zeta.
      unfold arith_u, in_range. destruct (Z.leb_spec 0 (k + 60)) as [_|Q]; [|exfalso; lia].
      destruct (Z.leb_spec (k + 60) (2 ^ 64 - 1)) as [L|L]; cbn [andb].
      + cbn [bind]. apply IH; try lia. exists (q + 15)%Z. lia.
      + change (@checks (ieee P)) with (p_checks P). rewrite Hc. cbn [bind]. unfold wrap_u.
        replace ((k + 60) mod 2 ^ 64)%Z with (k + 60 - 2 ^ 64)%Z.
        * apply IH; try lia. exists (q + 15 - 2 ^ 62)%Z. lia.
        * apply Z.mod_unique with 1%Z; lia.
  Qed.

  Theorem factorial_overflow : forall n,
    ((2 ^ 64 - 16 < n < 2 ^ 64)%Z -> p_checks P = true -> forall fuel, (n <= Z.of_nat fuel)%Z ->
      factorial (A := ieee P) fuel n = Panic POverflow) /\
    ((2 ^ 64 - 3 <= n < 2 ^ 64)%Z -> p_checks P = false -> forall fuel,
      factorial (A := ieee P) fuel n = Diverge).
  Proof.
    intros n. split; intros Hn Hc fuel.
    - intros Hf. unfold factorial, rising_factorial. rewrite block_len_60 by lia. cbv zeta.
      apply rising_loop_over; auto; try lia. exists 0%Z. reflexivity.
    - unfold factorial, rising_factorial. rewrite block_len_60 by lia. cbv zeta.
      apply rising_loop_never; auto; try lia. exists 0%Z. reflexivity.
  Qed.
End Factorial.
