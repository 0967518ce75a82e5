(** * Accuracy of i0, i1 on |x| < 15 and of j0, j1 on |x| < 8 *)

From Coq Require Import ZArith Reals Bool Lra Lia List.
From Flocq Require Import Core IEEE754.BinarySingleNaN IEEE754.Binary IEEE754.Bits.
From Verif.Model Require Import Base Arith BesselTables Bessel.
From Verif.Float Require Import Bits64 Ieee Exact Platforms.
From Verif.Spec Require Import F64Spec Outcome BesselSpec.
From Verif.Proofs Require Import F64 F64Ops Lits Ext ExpBounds FlErr GammaAcc GserAcc HornerErr PolyZ BesselSeries BesselRat PosHorner.
Import ListNotations.
Open Scope R_scope.
Local Notation exp := Rtrigo_def.exp.

(** ** Real facts *)

Lemma pr_mr : forall n t a b, 0 <= b -> mr t a b -> forall m k, mr (INR m * t) (pr 1 n k m a) (pr 1 n k m b).
Proof.
  intros n t a b Hb M. pose proof (mr_t0 _ _ _ M) as T0. pose proof (mr_nonneg _ _ _ M Hb) as Ha.
  induction m as [|m IH]; intros k.
  - cbn [pr]. apply mr_refl. simpl. lra.
  - cbn [pr]. rewrite S_INR. rewrite !(Rplus_comm 1). pose proof (pos_INR m). assert (0 <= INR m * t) by (apply Rmult_le_pos; lra).
    pose proof (wz_posR n k) as W. pose proof (pr1_ge n m (S k) b Hb).
    apply mr_add0.
    + apply Rmult_le_pos; [|lra]. apply Rmult_le_pos; [lra|left; apply Rinv_0_lt_compat, W].
    + lra.
    + replace ((INR m + 1) * t) with (t + INR m * t) by ring. apply mr_mul; [|apply IH].
      unfold Rdiv. rewrite !Rmult_1_l. apply mr_scale, M.
    + apply mr_refl. lra.
Qed.

Lemma pr_small : forall n m k y, 0 <= y <= 1 / 2 -> 1 <= pr 1 n k m y <= 1 + y.
Proof.
  intros n. induction m as [|m IH]; intros k y Hy; cbn [pr]; [lra|]. specialize (IH (S k) y Hy). pose proof (wz_posR n k) as W.
  assert (W4 : 4 <= IZR (wz n k)) by (apply IZR_le; unfold wz; nia).
  assert (Q : 0 <= 1 * y / IZR (wz n k) <= y / 4).
  { unfold Rdiv. split; [apply Rmult_le_pos; [lra|left; apply Rinv_0_lt_compat, W]|]. rewrite Rmult_1_l. apply Rmult_le_compat_l; [lra|].
    apply Rinv_le_contravar; lra. }
  set (q := 1 * y / IZR (wz n k)) in *. assert (0 <= q * pr 1 n (S k) m y <= y / 4 * (1 + y)) by (split; [apply Rmult_le_pos; lra|apply Rmult_le_compat; lra]).
  assert (y / 4 * (1 + y) <= y) by nra. lra.
Qed.

(** values of the tables at integers *)
Lemma tab_le_z : forall l z n d, forallb (dz_ok 60) l = true -> (0 < d)%Z -> (zeval z (zs l) * d <=? n * 10 ^ 60)%Z = true -> tab l (IZR z) <= IZR n / IZR d.
Proof.
  intros l z n d Ok Hd H. apply Z.leb_le, IZR_le in H. rewrite !mult_IZR in H. rewrite (tab_eq l _ Ok), peval_zeval.
  assert (T : 0 < IZR (10 ^ 60)) by (apply IZR_lt; reflexivity). apply IZR_lt in Hd. set (D := IZR (10 ^ 60)) in *. clearbody D.
  apply Rmult_le_reg_r with (D * IZR d); [apply Rmult_lt_0_compat; assumption|].
  replace (IZR (zeval z (zs l)) / D * (D * IZR d)) with (IZR (zeval z (zs l)) * IZR d) by (field; lra).
  replace (IZR n / IZR d * (D * IZR d)) with (IZR n * D) by (field; lra). exact H.
Qed.
Lemma tab_ge_z : forall l z n d, forallb (dz_ok 60) l = true -> (0 < d)%Z -> (n * 10 ^ 60 <=? zeval z (zs l) * d)%Z = true -> IZR n / IZR d <= tab l (IZR z).
Proof.
  intros l z n d Ok Hd H. apply Z.leb_le, IZR_le in H. rewrite !mult_IZR in H. rewrite (tab_eq l _ Ok), peval_zeval.
  assert (T : 0 < IZR (10 ^ 60)) by (apply IZR_lt; reflexivity). apply IZR_lt in Hd. set (D := IZR (10 ^ 60)) in *. clearbody D.
  apply Rmult_le_reg_r with (D * IZR d); [apply Rmult_lt_0_compat; assumption|].
  replace (IZR (zeval z (zs l)) / D * (D * IZR d)) with (IZR (zeval z (zs l)) * IZR d) by (field; lra).
  replace (IZR n / IZR d * (D * IZR d)) with (IZR n * D) by (field; lra). exact H.
Qed.

(** a square that may underflow *)
Lemma pr_sq : forall n y w, 0 <= w -> 0 <= y -> mr vv y w \/ (y <= bpow radix2 (-900) /\ w <= bpow radix2 (-900)) ->
  mr (38 * vv) (pr 1 n 0 38 y) (pr 1 n 0 38 w).
Proof.
  intros n y w Hw Hy [M|[H1 H2]].
  - pose proof (pr_mr n vv y w Hw M 38 0) as Q. replace (INR 38) with 38 in Q by (simpl; lra). exact Q.
  - assert (T : bpow radix2 (-900) <= / 2 ^ 60) by (replace (/ 2 ^ 60) with (bpow radix2 (-60)) by (simpl; lra); apply bpow_le; lia).
    pose proof (pr_small n 38 0 y ltac:(lra)). pose proof (pr_small n 38 0 w ltac:(lra)).
    set (A := pr 1 n 0 38 y) in *. set (B := pr 1 n 0 38 w) in *. clearbody A B.
    apply mr_weak with (/ 2 ^ 60 + 2 * (/ 2 ^ 60 * / 2 ^ 60)); [unfold vv; lra|].
    apply mr_of_rel; [lra|]. rewrite (Rabs_pos_eq B) by lra. apply Rabs_le.
    assert (/ 2 ^ 60 * 1 <= / 2 ^ 60 * B) by (apply Rmult_le_compat_l; lra). lra.
Qed.

Section Fl.
  Context (P : platform).
  Notation mul := (f64_mul P). Notation add := (f64_add P). Notation sub := (f64_sub P). Notation div := (f64_div P).

  Lemma poly_fl : forall x l, fin x -> 0 <= val x <= 256 -> l <> [] -> forallb okd l = true -> (length l <= 40)%nat ->
    fin (@poly (ieee P) x l) /\ mr (4 * INR (length l) * vv) (val (@poly (ieee P) x l)) (tab l (val x)).
  Proof.
    intros x l Fx Hx Nl Ok Ll. unfold poly. destruct (rev l) as [|c cs] eqn:E.
    - apply (f_equal (@rev dec)) in E. rewrite rev_involutive in E. cbn [rev] in E. congruence.
    - apply (tab_fl P (fun a x c => f64_add P (f64_mul P a x) c)); try assumption. left. reflexivity.
  Qed.
  Lemma horner_fl : forall x l, fin x -> 0 <= val x <= 256 -> l <> [] -> forallb okd l = true -> (length l <= 40)%nat ->
    fin (@horner_add_first (ieee P) x l) /\ mr (4 * INR (length l) * vv) (val (@horner_add_first (ieee P) x l)) (tab l (val x)).
  Proof.
    intros x l Fx Hx Nl Ok Ll. unfold horner_add_first. destruct (rev l) as [|c cs] eqn:E.
    - apply (f_equal (@rev dec)) in E. rewrite rev_involutive in E. cbn [rev] in E. congruence.
    - apply (tab_fl P (fun a x c => f64_add P c (f64_mul P x a))); try assumption. right. reflexivity.
  Qed.

  (** the square, and its distance from the end of the interval *)
  Lemma square : forall x (K : Z), fin x -> (1 <= K <= 15)%Z -> Rabs (val x) < IZR K ->
    let y := mul x x in
    fin y /\ 0 <= val y <= IZR (K * K) /\ Rabs (val y - val x * val x) <= uu * IZR (K * K) + eta /\
    (mr vv (val y) (val x * val x) \/ (val y <= bpow radix2 (-900) /\ val x * val x <= bpow radix2 (-900))).
  Proof.
    intros x K Fx HK Hx y.
    assert (K15 : 1 <= IZR K <= 15) by (split; apply IZR_le; lia).
    assert (X2 : 0 <= val x * val x <= IZR (K * K)).
    { rewrite mult_IZR. split; [nra|]. replace (val x * val x) with (Rabs (val x) * Rabs (val x)).
      - apply Rmult_le_compat; try apply Rabs_pos; lra.
      - rewrite <- Rabs_mult. apply Rabs_pos_eq. nra. }
    assert (KK : IZR (K * K) <= 225) by (rewrite mult_IZR; nra).
    assert (B : Rabs (val x * val x) <= bpow radix2 1000).
    { rewrite Rabs_pos_eq by lra. apply Rle_trans with 256; [lra|]. change 256 with (bpow radix2 8). apply bpow_le. lia. }
    destruct (mul_fl P x x Fx Fx B) as [Fy Ey]. fold y in Fy, Ey. rewrite (Rabs_pos_eq (val x * val x)) in Ey by lra.
    split; [exact Fy|].
    pose proof (mul_spec P x x Fx Fx) as R. fold y in R. rewrite <- (val_fin x Fx) in R.
    destruct (rounds_small _ _ R) as [_ V].
    { rewrite <- rnd_abs. apply Rle_lt_trans with (bpow radix2 1000); [apply rnd_le_fmt; [apply fmt_bpow; lia|exact B]|unfold Om; apply bpow_lt; lia]. }
    assert (V0 : 0 <= val y).
    { rewrite (val_fin y Fy), V. rewrite <- (rnd_fmt 0 fmt_0); apply rnd_le; lra. }
    split; [split; [exact V0|]|split].
    - rewrite (val_fin y Fy), V. apply rnd_le_fmt; [|lra].
      replace (IZR (K * K)) with (IZR (K * K) * bpow radix2 0) by (simpl; ring). apply fmt_F2R; [nia|lia].
    - eapply Rle_trans; [exact Ey|]. apply Rplus_le_compat_r, Rmult_le_compat_l; [unfold uu; lra|lra].
    - destruct (Rle_or_lt (bpow radix2 (-1022)) (val x * val x)) as [L|L].
      + left. destruct (mul_mr P x x Fx Fx) as [_ M]; [|exact M]. rewrite Rabs_pos_eq by lra. split; [exact L|].
        apply Rle_trans with 256; [lra|]. change 256 with (bpow radix2 8). apply bpow_le. lia.
      + right. assert (T1 : bpow radix2 (-1022) <= bpow radix2 (-902)) by (apply bpow_le; lia).
        assert (T2 : eta <= bpow radix2 (-902)) by (unfold eta; apply bpow_le; lia).
        assert (T3 : bpow radix2 (-900) = 4 * bpow radix2 (-902)) by (change 4 with (bpow radix2 2); rewrite <- bpow_plus; reflexivity).
        pose proof (bpow_gt_0 radix2 (-902)). rewrite T3.
        assert (uu * (val x * val x) <= 1 * (val x * val x)) by (apply Rmult_le_compat_r; unfold uu; lra).
        apply Rabs_le_inv in Ey. lra.
  Qed.

  Lemma lit_225 : fin (f64_lit 225.0) /\ val (f64_lit 225.0) = 225.
  Proof. lit_facts 225.0%dec 225%Z 0%Z HF HV. split; [exact HF|lra]. Qed.
  Lemma lit_64 : fin (f64_lit 64.0) /\ val (f64_lit 64.0) = 64.
  Proof. lit_facts 64.0%dec 64%Z 0%Z HF HV. split; [exact HF|lra]. Qed.
  Lemma lit_15 : fin (f64_lit 15.0) /\ val (f64_lit 15.0) = 15.
  Proof. lit_facts 15.0%dec 15%Z 0%Z HF HV. split; [exact HF|lra]. Qed.
  Lemma lit_8 : fin (f64_lit 8.0) /\ val (f64_lit 8.0) = 8.
  Proof. lit_facts 8.0%dec 8%Z 0%Z HF HV. split; [exact HF|lra]. Qed.

  Lemma below : forall x l K, fin x -> fin l -> val l = K -> Rabs (val x) < K -> f64_lt (f64_abs x) l = true.
  Proof.
    intros x l K Fx Fl Vl H. apply lt_true. rewrite val_abs, Vl. split; [|split; [|exact H]].
    - apply fin_nonnan. rewrite fin_abs. exact Fx.
    - apply fin_nonnan, Fl.
  Qed.

  Lemma refl_sub : forall y l K, fin y -> fin l -> val l = K -> 0 <= val y <= K -> K <= 225 ->
    fin (sub l y) /\ mr vv (val (sub l y)) (K - val y) /\ 0 <= val (sub l y) <= 256.
  Proof.
    intros y l K Fy Fl Vl Hy HK. destruct (sub_rel P l y Fl Fy) as [F M].
    { rewrite Vl, Rabs_pos_eq by lra. apply Rle_trans with 256; [lra|]. change 256 with (bpow radix2 8). apply bpow_le. lia. }
    rewrite Vl in M. split; [exact F|split; [exact M|]]. pose proof (mr_nonneg _ _ _ M ltac:(lra)). split; [assumption|].
    destruct (Rle_lt_or_eq_dec 0 (K - val y) ltac:(lra)) as [L|L].
    - destruct (mr_near _ _ _ M ltac:(unfold vv; lra) L) as [_ U]. unfold vv in U. nra.
    - rewrite <- L in M. apply mr_sym in M. apply mr_sym in M. destruct M as (d & _ & E). rewrite E. lra.
  Qed.

  (** the common part of i0 and i1: the quotient *)
  Lemma quot_i : forall n k p q x, fin x -> Rabs (val x) < 15 -> 0 < k ->
    forallb okd p = true -> forallb okd q = true -> length p = 14%nat -> length q = 5%nat ->
    (forall y, 0 <= y <= 225 -> Rabs (k * tab p y / tab q (225 - y) - pr 1 n 0 38 y) <= pr 1 n 0 38 y / 10 ^ 14) -> 4 / 10 <= tab q 0 ->
    let y := mul x x in
    let a := @poly (ieee P) y p in let b := @poly (ieee P) (sub (f64_lit 225.0) y) q in
    fin a /\ fin b /\ 0 < val a <= 2 * tab p 225 /\ 1 / 5 <= val b /\ mr (240 / 10 ^ 16) (k * (val a / val b)) (pr 1 n 0 38 (val x * val x)).
  Proof.
    intros n k p q x Fx Hx Hk Okp Okq Lp Lq Hr Hq y a b.
    destruct (square x 15 Fx ltac:(lia) Hx) as (Fy & Vy & _ & Sy). fold y in Fy, Vy, Sy. change (IZR (15 * 15)) with 225 in Vy.
    destruct lit_225 as [F225 V225]. destruct (refl_sub y _ 225 Fy F225 V225 Vy ltac:(lra)) as (Fz & Mz & Bz).
    assert (Np : p <> []) by (intros ->; discriminate). assert (Nq : q <> []) by (intros ->; discriminate).
    destruct (poly_fl y p Fy ltac:(lra) Np Okp ltac:(lia)) as [Fa Ma]. fold a in Fa, Ma. rewrite Lp in Ma.
    destruct (poly_fl (sub (f64_lit 225.0) y) q Fz Bz Nq Okq ltac:(lia)) as [Fb Mb]. fold b in Fb, Mb. rewrite Lq in Mb.
    pose proof (tab_mr q vv _ (225 - val y) Okq ltac:(lra) Mz) as Mq. rewrite Lq in Mq.
    pose proof (tab_pos p (val y) Okp Np ltac:(lra)) as Pp. pose proof (tab_pos q (225 - val y) Okq Nq ltac:(lra)) as Pq.
    pose proof (mr_trans _ _ _ _ _ Mb Mq) as Mb'. replace (INR 14) with 14 in Ma by (simpl; lra). replace (INR 5) with 5 in * by (simpl; lra).
    pose proof (mr_pos _ _ _ Ma Pp) as Pa. pose proof (mr_pos _ _ _ Mb' Pq) as Pb.
    split; [exact Fa|]. split; [exact Fb|]. split; [split; [exact Pa|]|].
    { apply mr_le in Ma; [|unfold vv; lra]. rewrite !Rabs_pos_eq in Ma by lra.
      pose proof (tab_mono p (val y) 225 Okp Vy). assert (0 < tab p 225) by (apply tab_pos; [assumption|assumption|lra]). lra. }
    split.
    { apply mr_le in Mb'; [|unfold vv; lra]. rewrite (Rabs_pos_eq (val b)), (Rabs_pos_eq (tab q (225 - val y))) in Mb' by lra.
      pose proof (tab_mono q 0 (225 - val y) Okq ltac:(lra)). lra. }
    apply mr_weak with ((4 * 14 * vv + (4 * 5 * vv + 5 * vv)) + (101 / 10 ^ 16 + 38 * vv)); [unfold vv; lra|].
    apply mr_trans with (k * tab p (val y) / tab q (225 - val y)).
    - unfold Rdiv. rewrite <- Rmult_assoc. apply mr_mul; [apply mr_scale_l, Ma|]. apply mr_inv; [lra|exact Mb'].
    - apply mr_trans with (pr 1 n 0 38 (val y)).
      + specialize (Hr (val y) Vy). pose proof (pr1_ge n 38 0 (val y) ltac:(lra)).
        apply mr_weak with (1 / 10 ^ 14 + 2 * (1 / 10 ^ 14 * (1 / 10 ^ 14))); [lra|]. apply mr_of_rel; [lra|].
        rewrite (Rabs_pos_eq (pr _ _ _ _ _)) by lra. eapply Rle_trans; [exact Hr|]. lra.
      + apply pr_sq; [nra|lra|exact Sy].
  Qed.

  Lemma pr_up : forall n m k y, 0 <= y -> pr 1 n k m y <= (1 + y) ^ m.
  Proof.
    intros n. induction m as [|m IH]; intros k y Hy; cbn [pr pow]; [lra|]. specialize (IH (S k) y Hy). pose proof (pr1_ge n m (S k) y Hy) as G.
    assert (W1 : 1 <= IZR (wz n k)) by (apply IZR_le; unfold wz; nia).
    assert (Q : 0 <= 1 * y / IZR (wz n k) <= y).
    { unfold Rdiv. rewrite Rmult_1_l. split; [apply Rmult_le_pos; [lra|left; apply Rinv_0_lt_compat; lra]|].
      rewrite <- (Rmult_1_r y) at 2. apply Rmult_le_compat_l; [lra|]. rewrite <- Rinv_1. apply Rinv_le_contravar; lra. }
    assert (1 * y / IZR (wz n k) * pr 1 n (S k) m y <= y * (1 + y) ^ m) by (apply Rmult_le_compat; lra). lra.
  Qed.
  Lemma pr_up_225 : forall n y, 0 <= y <= 225 -> pr 1 n 0 38 y <= bpow radix2 304.
  Proof.
    intros n y Hy. eapply Rle_trans; [apply pr_up; lra|]. apply Rle_trans with (256 ^ 38); [apply pow_incr; lra|].
    rewrite pow_IZR, bpow2_nonneg_IZR by lia. apply IZR_le. vm_compute. discriminate.
  Qed.

  Lemma ser_i : forall n x v, (n = 0 \/ n = 1)%nat -> Rabs x < 15 -> is_I n x v ->
    Rabs (v - bterm 1 n x 0 * pr 1 n 0 38 (x * x)) <= Rabs (bterm 1 n x 0) / 10 ^ 20.
  Proof.
    intros n x v Hn Hx Hv. assert (X : x * x <= 225) by (apply Rabs_lt_inv in Hx; nra).
    replace (10 ^ 20) with (IZR (10 ^ 20)) by (rewrite pow_IZR; reflexivity).
    apply (series_near 225); try assumption; try lia; try apply Rabs_R1; destruct Hn as [-> | ->]; vm_compute; reflexivity.
  Qed.

  Lemma i0_fl : forall x v, fin x -> Rabs (val x) < 15 -> is_I 0 (val x) v ->
    fin (@i0 (ieee P) x) /\ Rabs (val (@i0 (ieee P) x) - v) <= 3 / 10 ^ 14 * v.
  Proof.
    intros x v Fx Hx Hv. destruct lit_15 as [F15 V15].
    unfold i0. ieee_simpl. rewrite (below x _ 15 Fx F15 V15 Hx). unfold powi2. ieee_simpl.
    destruct (quot_i 0 1 I0P I0Q x Fx Hx ltac:(lra) eq_refl eq_refl eq_refl eq_refl) as (Fa & Fb & Ba & Bb & M).
    { intros y Hy. rewrite Rmult_1_l. exact (rat_i0 y Hy). }
    { apply (tab_ge_z I0Q 0 4 10); reflexivity. }
    cbv zeta in *. rewrite Rmult_1_l in M.
    set (a := @poly (ieee P) (mul x x) I0P) in *. set (b := @poly (ieee P) (sub (f64_lit 225.0) (mul x x)) I0Q) in *.
    assert (X2 : 0 <= val x * val x <= 225) by (apply Rabs_lt_inv in Hx; nra).
    pose proof (pr1_ge 0 38 0 (val x * val x) ltac:(lra)) as G1. pose proof (pr_up_225 0 _ X2) as G2.
    pose proof (ser_i 0 (val x) v ltac:(lia) Hx Hv) as S. rewrite bterm_0 in S. simpl ((val x / 2) ^ 0) in S. simpl (INR (fact 0)) in S.
    replace (1 / 1) with 1 in S by field. rewrite Rmult_1_l, Rabs_R1 in S.
    set (W := pr 1 0 0 38 (val x * val x)) in *.
    pose proof (mr_near _ _ _ M ltac:(lra) ltac:(lra)) as N.
    assert (B3 : bpow radix2 304 * 4 <= bpow radix2 1023) by (change 4 with (bpow radix2 2); rewrite <- bpow_plus; apply bpow_le; lia).
    destruct (div_mr P a b Fa Fb ltac:(lra)) as [Fr Mr].
    { rewrite Rabs_pos_eq by lra. split; [|lra]. apply Rle_trans with (1 / 2); [|lra]. replace (1 / 2) with (bpow radix2 (-1)) by (simpl; lra). apply bpow_le. lia. }
    split; [exact Fr|]. pose proof (mr_trans _ _ _ _ _ Mr M) as T. apply mr_abs in T; [|unfold vv; lra].
    rewrite (Rabs_pos_eq W) in T by lra.
    assert (T2 : (vv + 240 / 10 ^ 16 + 2 * ((vv + 240 / 10 ^ 16) * (vv + 240 / 10 ^ 16))) * W <= 25 / 10 ^ 15 * W) by (apply Rmult_le_compat_r; [lra|unfold vv; lra]).
    clear M Mr N G2 B3. apply Rabs_le_inv in T, S. apply Rabs_le. lra.
  Qed.

  Lemma below_1000 : forall z c, z <= c -> c <= 2 ^ 32 -> z <= bpow radix2 1000.
  Proof. intros z c H H2. apply Rle_trans with (1 := H). apply Rle_trans with (1 := H2). replace (2 ^ 32) with (bpow radix2 32) by (simpl; lra). apply bpow_le; lia. Qed.
  Lemma eta_le1 : eta <= 1.
  Proof. change 1 with (bpow radix2 0). apply bpow_le; lia. Qed.

  (** real part of i1 *)
  Lemma i1_core : forall X a b m r W v, Rabs X < 15 -> 0 < a <= 2000000 -> 1 / 5 <= b -> 1 <= W ->
    mr (240 / 10 ^ 16) (2 * (a / b)) W -> Rabs (m - X * a) <= uu * Rabs (X * a) + eta -> Rabs (r - m / b) <= uu * Rabs (m / b) + eta ->
    Rabs (v - X / 2 * W) <= Rabs (X / 2) / 10 ^ 20 -> Rabs (r - v) <= 3 / 10 ^ 14 * Rabs v + 10 * eta.
  Proof.
    intros X a b m r W v HX Ha Hb HW M Hm Hr Hv. pose proof eta_pos as E0.
    apply mr_abs in M; [|lra]. rewrite (Rabs_pos_eq W) in M by lra.
    set (Q := a / b) in *. assert (EQ : X * a / b = X * Q) by (unfold Q; field; lra).
    assert (Q0 : 0 < Q) by (unfold Q; apply Rdiv_lt_0_compat; lra).
    assert (E1 : Rabs (m / b - X * Q) <= uu * (Rabs X * Q) + 5 * eta).
    { rewrite <- EQ. replace (m / b - X * a / b) with ((m - X * a) / b) by (field; lra).
      unfold Rdiv at 1. rewrite Rabs_mult, (Rabs_pos_eq (/ b)) by (left; apply Rinv_0_lt_compat; lra).
      assert (IB : 0 < / b <= 5). { split; [apply Rinv_0_lt_compat; lra|]. replace 5 with (/ (1 / 5)) by field. apply Rinv_le_contravar; lra. }
      apply Rle_trans with ((uu * Rabs (X * a) + eta) * / b); [apply Rmult_le_compat_r; lra|].
      rewrite Rabs_mult, (Rabs_pos_eq a) by lra. replace ((uu * (Rabs X * a) + eta) * / b) with (uu * (Rabs X * (a / b)) + eta * / b) by (field; lra).
      fold Q. apply Rplus_le_compat_l. rewrite Rmult_comm. apply Rmult_le_compat_r; lra. }
    set (Y := Rabs X) in *. pose proof (Rabs_pos X) as Y0. fold Y in Y0.
    set (Z := Y * Q) in *. assert (Z0 : 0 <= Z) by (apply Rmult_le_pos; lra).
    assert (AXQ : Rabs (X * Q) = Z) by (rewrite Rabs_mult, (Rabs_pos_eq Q); [reflexivity|lra]).
    assert (E2 : Rabs (m / b) <= 2 * Z + 5 * eta).
    { replace (m / b) with ((m / b - X * Q) + X * Q) by ring. eapply Rle_trans; [apply Rabs_triang|]. rewrite AXQ.
      assert (uu * Z <= 1 * Z) by (apply Rmult_le_compat_r; [exact Z0|unfold uu; lra]). lra. }
    assert (E3 : Rabs (r - X * Q) <= 3 * uu * Z + 7 * eta).
    { replace (r - X * Q) with ((r - m / b) + (m / b - X * Q)) by ring. eapply Rle_trans; [apply Rabs_triang|].
      assert (uu * Rabs (m / b) <= uu * (2 * Z + 5 * eta)) by (apply Rmult_le_compat_l; [unfold uu; lra|exact E2]).
      assert (uu * (5 * eta) <= eta) by (unfold uu; lra). lra. }
    assert (E4 : Rabs (X * Q - X / 2 * W) <= Y / 2 * (242 / 10 ^ 16 * W)).
    { replace (X * Q - X / 2 * W) with (X / 2 * (2 * Q - W)) by field. rewrite Rabs_mult.
      replace (Rabs (X / 2)) with (Y / 2) by (unfold Y, Rdiv; rewrite Rabs_mult, (Rabs_pos_eq (/ 2)); lra).
      apply Rmult_le_compat_l; [lra|]. eapply Rle_trans; [exact M|]. apply Rmult_le_compat_r; lra. }
    assert (QW : Z <= Y / 2 * (2 * W)).
    { unfold Z. replace (Y * Q) with (Y / 2 * (2 * Q)) by field. apply Rmult_le_compat_l; [lra|].
      apply Rabs_le_inv in M. assert ((240 / 10 ^ 16 + 2 * (240 / 10 ^ 16 * (240 / 10 ^ 16))) * W <= 1 * W) by (apply Rmult_le_compat_r; lra). lra. }
    set (H := Y / 2) in *. assert (H0 : 0 <= H) by (unfold H; lra).
    assert (EV : Rabs (v - X / 2 * W) <= H / 10 ^ 20).
    { replace H with (Rabs (X / 2)) by (unfold H, Y, Rdiv; rewrite Rabs_mult, (Rabs_pos_eq (/ 2)); lra). exact Hv. }
    assert (V1 : H * W <= Rabs v + H / 10 ^ 20).
    { replace (H * W) with (Rabs (X / 2 * W)).
      - replace (X / 2 * W) with (v + - (v - X / 2 * W)) by ring. eapply Rle_trans; [apply Rabs_triang|]. rewrite Rabs_Ropp. lra.
      - rewrite Rabs_mult, (Rabs_pos_eq W) by lra. f_equal. unfold H, Y, Rdiv. rewrite Rabs_mult, (Rabs_pos_eq (/ 2)); lra. }
    assert (HW1 : H <= H * W) by (rewrite <- (Rmult_1_r H) at 1; apply Rmult_le_compat_l; lra).
    replace (r - v) with ((r - X * Q) + (X * Q - X / 2 * W) + - (v - X / 2 * W)) by ring.
    eapply Rle_trans; [apply Rabs_triang|]. rewrite Rabs_Ropp. eapply Rle_trans; [apply Rplus_le_compat_r, Rabs_triang|].
    assert (3 * uu * Z <= 3 * uu * (H * (2 * W))) by (apply Rmult_le_compat_l; [unfold uu; lra|exact QW]).
    replace (3 * uu * (H * (2 * W))) with (6 * uu * (H * W)) in H1 by ring.
    replace (H * (242 / 10 ^ 16 * W)) with (242 / 10 ^ 16 * (H * W)) in E4 by ring.
    set (S := H * W) in *. assert (6 * uu * S <= 7 / 10 ^ 16 * S) by (apply Rmult_le_compat_r; [lra|unfold uu; lra]). lra.
  Qed.

  Lemma t225_i1 : tab I1P 225 <= 1000000.
  Proof.
    apply Rle_trans with (IZR 1000000 / IZR 1); [|lra].
    apply (tab_le_z I1P 225 1000000 1); [vm_compute; reflexivity|reflexivity|vm_compute; reflexivity].
  Qed.

  Lemma i1_tail : forall x a b v, fin x -> Rabs (val x) < 15 -> is_I 1 (val x) v -> fin a -> fin b -> 0 < val a <= 2000000 -> 1 / 5 <= val b ->
    mr (240 / 10 ^ 16) (2 * (val a / val b)) (pr 1 1 0 38 (val x * val x)) ->
    fin (div (mul x a) b) /\ Rabs (val (div (mul x a) b) - v) <= 3 / 10 ^ 14 * Rabs v + 10 * eta.
  Proof.
    intros x a b v Fx Hx Hv Fa Fb BA Bb M.
    assert (X2 : 0 <= val x * val x <= 225) by (apply Rabs_lt_inv in Hx; nra).
    pose proof (pr1_ge 1 38 0 (val x * val x) ltac:(lra)) as G1.
    pose proof (ser_i 1 (val x) v ltac:(lia) Hx Hv) as S. rewrite bterm_0 in S. rewrite pow_1 in S.
    replace (val x / 2 / INR (fact 1)) with (val x / 2) in S by (simpl; field).
    set (W := pr 1 1 0 38 (val x * val x)) in *. clearbody W.
    assert (XA : Rabs (val x * val a) <= 30000000).
    { rewrite Rabs_mult, (Rabs_pos_eq (val a)) by (apply Rlt_le, BA). replace 30000000 with (15 * 2000000) by ring.
      apply Rmult_le_compat; [apply Rabs_pos|apply Rlt_le, BA|apply Rlt_le, Hx|apply BA]. }
    destruct (mul_fl P x a Fx Fa (below_1000 _ 30000000 XA ltac:(lra))) as [Fm Em].
    assert (Bm : Rabs (val (mul x a)) <= 100000000).
    { pose proof eta_le1 as E1.
      replace (val (mul x a)) with ((val (mul x a) - val x * val a) + val x * val a) by ring. eapply Rle_trans; [apply Rabs_triang|].
      assert (uu * Rabs (val x * val a) <= 1 * Rabs (val x * val a)) by (apply Rmult_le_compat_r; [apply Rabs_pos|unfold uu; lra]). lra. }
    assert (IB : 0 < / val b <= 5). { split; [apply Rinv_0_lt_compat; lra|]. replace 5 with (/ (1 / 5)) by field. apply Rinv_le_contravar; lra. }
    assert (Bq : Rabs (val (mul x a) / val b) <= 500000000).
    { unfold Rdiv. rewrite Rabs_mult, (Rabs_pos_eq (/ val b)) by apply Rlt_le, IB. replace 500000000 with (100000000 * 5) by ring.
      apply Rmult_le_compat; [apply Rabs_pos|apply Rlt_le, IB|exact Bm|apply IB]. }
    destruct (div_fl P (mul x a) b Fm Fb ltac:(lra) (below_1000 _ 500000000 Bq ltac:(lra))) as [Fr Er].
    split; [exact Fr|]. exact (i1_core (val x) (val a) (val b) (val (mul x a)) _ W v Hx BA Bb G1 M Em Er S).
  Qed.

  Lemma i1_fl : forall x v, fin x -> Rabs (val x) < 15 -> is_I 1 (val x) v ->
    fin (@i1 (ieee P) x) /\ Rabs (val (@i1 (ieee P) x) - v) <= 3 / 10 ^ 14 * Rabs v + 10 * eta.
  Proof.
    intros x v Fx Hx Hv. destruct lit_15 as [F15 V15].
    unfold i1. ieee_simpl. rewrite (below x _ 15 Fx F15 V15 Hx). unfold powi2. ieee_simpl.
    destruct (quot_i 1 2 I1P I1Q x Fx Hx ltac:(lra) eq_refl eq_refl eq_refl eq_refl rat_i1 (tab_ge_z I1Q 0 4 10 eq_refl eq_refl eq_refl)) as (Fa & Fb & Ba & Bb & M).
    pose proof t225_i1 as T225. cbv zeta in *.
    assert (BA : 0 < val (@poly (ieee P) (mul x x) I1P) <= 2000000) by lra.
    exact (i1_tail x _ _ v Fx Hx Hv Fa Fb BA Bb M).
  Qed.
End Fl.
