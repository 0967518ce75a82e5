(** * Rounding errors of k0 and k1 on (0, 1] *)

From Coq Require Import ZArith Reals Bool Lra Lia List.
From Flocq Require Import Core IEEE754.BinarySingleNaN IEEE754.Binary IEEE754.Bits.
From Verif.Model Require Import Base Arith BesselTables Bessel.
From Verif.Float Require Import Bits64 Ieee Exact Platforms.
From Verif.Spec Require Import F64Spec Outcome BesselSpec Bessel2Spec.
From Verif.Proofs Require Import F64 F64Ops Lits Ext ExpBounds FlErr GammaAcc GserAcc HornerErr PolyZ BesselSeries BesselRat PosHorner BesselAcc BesselJAcc LnGammaFl EulerGamma SecondSeries SecondRat Domains.
Import ListNotations.
Open Scope R_scope.

Local Notation exp := Rtrigo_def.exp.
Local Notation ln := Rpower.ln.

(** ** Relative error with an absolute part *)

Definition ap (e d a b : R) : Prop := Rabs (a - b) <= e * Rabs b + d.

Lemma ap_weak : forall e d e' d' a b, e <= e' -> d <= d' -> ap e d a b -> ap e' d' a b.
Proof. intros e d e' d' a b He Hd H. unfold ap in *. pose proof (Rabs_pos b). assert (e * Rabs b <= e' * Rabs b) by (apply Rmult_le_compat_r; lra). lra. Qed.
Lemma ap_size : forall e d a b, ap e d a b -> Rabs a <= (1 + e) * Rabs b + d.
Proof. intros e d a b H. unfold ap in H. replace a with ((a - b) + b) by ring. eapply Rle_trans; [apply Rabs_triang|]. lra. Qed.
Lemma ap_trans : forall e d f g a b c, ap e d a b -> ap f g b c -> 0 <= e -> ap (e + f + e * f) (d + (1 + e) * g) a c.
Proof.
  intros e d f g a b c H1 H2 He. pose proof (ap_size _ _ _ _ H2) as S. unfold ap in *. replace (a - c) with ((a - b) + (b - c)) by ring.
  eapply Rle_trans; [apply Rabs_triang|]. assert (e * Rabs b <= e * ((1 + f) * Rabs c + g)) by (apply Rmult_le_compat_l; assumption). lra.
Qed.
Lemma ap_scale : forall e d k a b, ap e d a b -> ap e (Rabs k * d) (k * a) (k * b).
Proof.
  intros e d k a b H. unfold ap in *. rewrite <- Rmult_minus_distr_l, !Rabs_mult. pose proof (Rabs_pos k).
  assert (Rabs k * Rabs (a - b) <= Rabs k * (e * Rabs b + d)) by (apply Rmult_le_compat_l; assumption). lra.
Qed.
Lemma ap_mr : forall t a b, 0 <= t <= 1 / 1000 -> mr t a b -> ap (t + 2 * (t * t)) 0 a b.
Proof. intros t a b Ht M. unfold ap. rewrite Rplus_0_r. apply mr_abs; [lra|exact M]. Qed.

(** ** Slopes on [0, 1] *)

Lemma lip1 : forall L N (T : R -> R) x y, (0 < N)%Z -> (forall z, peval L z = IZR N * T z) -> (pbound 1 1 (pder L) <=? N)%Z = true ->
  0 <= x <= 1 -> 0 <= y <= 1 -> Rabs (T x - T y) <= Rabs (x - y).
Proof.
  intros L N T x y HN E C Hx Hy. apply Z.leb_le, IZR_le in C. apply IZR_lt in HN.
  assert (I1 : IZR 1 / IZR 1 = 1) by field.
  pose proof (peval_lip 1 1 L x y ltac:(lia) ltac:(lia)) as H. rewrite I1, !Rabs_pos_eq in H by lra. specialize (H ltac:(lra) ltac:(lra)).
  rewrite !E, <- Rmult_minus_distr_l, Rabs_mult, (Rabs_pos_eq (IZR N)) in H by lra.
  apply Rmult_le_reg_l with (IZR N); [exact HN|]. eapply Rle_trans; [exact H|]. apply Rmult_le_compat_r; [apply Rabs_pos|exact C].
Qed.
Lemma sup1 : forall L N (T : R -> R) x a b, (0 < N)%Z -> (0 < b)%Z -> (forall z, peval L z = IZR N * T z) -> (pbound 1 1 L * b <=? N * a)%Z = true ->
  0 <= x <= 1 -> T x <= IZR a / IZR b.
Proof.
  intros L N T x a b HN Hb E C Hx. apply Z.leb_le, IZR_le in C. rewrite !mult_IZR in C. apply IZR_lt in HN, Hb.
  assert (I1 : IZR 1 / IZR 1 = 1) by field.
  pose proof (peval_bound 1 1 L x ltac:(lia) ltac:(lia)) as H. rewrite I1, (Rabs_pos_eq x) in H by lra. specialize (H ltac:(lra)).
  rewrite E in H. pose proof (Rle_abs (IZR N * T x)) as A. apply Rmult_le_reg_l with (IZR N * IZR b); [apply Rmult_lt_0_compat; assumption|].
  replace (IZR N * IZR b * (IZR a / IZR b)) with (IZR N * IZR a) by (field; lra).
  replace (IZR N * IZR b * T x) with (IZR N * T x * IZR b) by ring.
  eapply Rle_trans; [|exact C]. apply Rmult_le_compat_r; lra.
Qed.

Lemma tgt0_lip : forall x y, 0 <= x <= 1 -> 0 <= y <= 1 -> Rabs (tgt 1 0 10 x - tgt 1 0 10 y) <= Rabs (x - y).
Proof.
  intros x y. apply (lip1 (tgt_l MK 1 0 10) (tgt_n MK 1 0 10)); [apply tgt_n_pos; reflexivity| |vm_compute; reflexivity].
  intros z. apply tgt_eq; reflexivity.
Qed.
Lemma tgt1_lip : forall x y, 0 <= x <= 1 -> 0 <= y <= 1 -> Rabs (tgt 1 1 10 x - tgt 1 1 10 y) <= Rabs (x - y).
Proof.
  intros x y. apply (lip1 (tgt_l MK 1 1 10) (tgt_n MK 1 1 10)); [apply tgt_n_pos; reflexivity| |vm_compute; reflexivity].
  intros z. apply tgt_eq; reflexivity.
Qed.
Lemma pr_lip1 : forall n x y, (n = 0 \/ n = 1)%nat -> 0 <= x <= 1 -> 0 <= y <= 1 -> Rabs (pr 1 n 0 10 x - pr 1 n 0 10 y) <= Rabs (x - y).
Proof.
  intros n x y Hn. apply (lip1 (fst (plz 1 n 0 10)) (snd (plz 1 n 0 10))); [apply plz_pos|intros z; apply plz_eq|]. destruct Hn as [-> | ->]; vm_compute; reflexivity.
Qed.
Lemma tgt1_sup : forall x, 0 <= x <= 1 -> tgt 1 1 10 x <= 48 / 100.
Proof.
  intros x. apply (sup1 (tgt_l MK 1 1 10) (tgt_n MK 1 1 10) _ x 48 100); [apply tgt_n_pos; reflexivity|lia| |vm_compute; reflexivity].
  intros z. apply tgt_eq; reflexivity.
Qed.
Lemma tgt0_sup : forall x, 0 <= x <= 1 -> tgt 1 0 10 x <= 1 / 2.
Proof.
  intros x. apply (sup1 (tgt_l MK 1 0 10) (tgt_n MK 1 0 10) _ x 1 2); [apply tgt_n_pos; reflexivity|lia| |vm_compute; reflexivity].
  intros z. apply tgt_eq; reflexivity.
Qed.
Lemma pr_sup1 : forall n x, (n = 0 \/ n = 1)%nat -> 0 <= x <= 1 -> pr 1 n 0 10 x <= 13 / 10.
Proof.
  intros n x Hn. apply (sup1 (fst (plz 1 n 0 10)) (snd (plz 1 n 0 10)) _ x 13 10); [apply plz_pos|lia|intros z; apply plz_eq|]. destruct Hn as [-> | ->]; vm_compute; reflexivity.
Qed.

(** ** The series on (0, 1] *)

Lemma k_ser : forall n x b h, (n = 0 \/ n = 1)%nat -> 0 < x <= 1 -> infinite_sum (bterm 1 n x) b -> infinite_sum (hterm 1 n x) h ->
  Rabs (b - bterm 1 n x 0 * pr 1 n 0 10 (x * x)) <= Rabs (bterm 1 n x 0) / 10 ^ 17 /\
  Rabs (h - bterm 1 n x 0 * hr 1 n 0 10 (x * x)) <= Rabs (bterm 1 n x 0) / 10 ^ 17.
Proof.
  intros n x b h Hn Hx Hb Hh. assert (X : x * x <= IZR 1) by nra.
  replace (10 ^ 17) with (IZR (10 ^ 17)) by (rewrite pow_IZR; reflexivity). split.
  - apply (series_near 1); try assumption; try lia; try apply Rabs_R1; destruct Hn as [-> | ->]; vm_compute; reflexivity.
  - apply (hseries_near 1); try assumption; try lia; try apply Rabs_R1; destruct Hn as [-> | ->]; vm_compute; reflexivity.
Qed.

Lemma ln_half : forall x, 0 < x -> ln (x / 2) = ln x - ln 2.
Proof. intros x Hx. unfold Rdiv. rewrite ln_mult by lra. rewrite ln_Rinv by lra. ring. Qed.

Lemma k_core : forall c C b h W Hr L, 1 <= W <= 2 -> 0 <= Hr -> 0 <= L -> 1 / 10 <= C <= 1 / 8 -> Rabs (c - C) <= 8 / 10 ^ 18 -> Rabs (b - W) <= / 10 ^ 17 -> Rabs (h - Hr) <= / 10 ^ 17 ->
  Rabs ((L + c) * b + h / 2 - (C * W + Hr / 2 + W * L)) <= 5 / 10 ^ 16 * (C * W + Hr / 2 + W * L).
Proof.
  intros c C b h W Hr L HW HH HL HC Hc Hb Hh.
  replace ((L + c) * b + h / 2 - (C * W + Hr / 2 + W * L)) with ((L + C) * (b - W) + (c - C) * b + (h - Hr) / 2) by field.
  eapply Rle_trans; [apply Rabs_triang|]. eapply Rle_trans; [apply Rplus_le_compat_r, Rabs_triang|].
  rewrite !Rabs_mult. rewrite (Rabs_pos_eq (L + C)) by lra.
  assert (Bb : Rabs b <= 3) by (apply Rabs_le_inv in Hb; apply Rabs_le; lra).
  assert (E1 : (L + C) * Rabs (b - W) <= (L + C) * / 10 ^ 17) by (apply Rmult_le_compat_l; lra).
  assert (E2 : Rabs (c - C) * Rabs b <= 8 / 10 ^ 18 * 3) by (apply Rmult_le_compat; try apply Rabs_pos; assumption).
  assert (E3 : Rabs ((h - Hr) / 2) <= / 10 ^ 17). { apply Rabs_le_inv in Hh. apply Rabs_le. lra. }
  assert (E4 : C * 1 <= C * W) by (apply Rmult_le_compat_l; lra). assert (E5 : 1 * L <= W * L) by (apply Rmult_le_compat_r; lra). lra.
Qed.

Lemma c_val : 1 / 10 <= IZR cn / IZR cd <= 1 / 8.
Proof. unfold cn, cd. lra. Qed.

Lemma k0_ser : forall x v, 0 < x <= 1 -> is_K 0 x v ->
  let V := tgt 1 0 10 (x * x) + pr 1 0 0 10 (x * x) * (- ln x) in Rabs (v - V) <= 5 / 10 ^ 16 * V.
Proof.
  intros x v Hx (g & b & h & Hg & Hb & Hh & ->) V. destruct (k_ser 0 x b h ltac:(lia) Hx Hb Hh) as [Sb Sh].
  rewrite bterm_0 in Sb, Sh. cbn [pow fact] in Sb, Sh. simpl (INR 1) in Sb, Sh. replace (1 / 1) with 1 in * by field. rewrite Rmult_1_l, Rabs_R1 in Sb, Sh.
  pose proof (c_near g Hg) as Hc. pose proof c_val as C0.
  assert (X : 0 <= x * x <= 1) by nra. pose proof (pr1_ge 0 10 0 (x * x) ltac:(lra)) as W1. pose proof (pr_sup1 0 (x * x) ltac:(lia) X) as W2.
  pose proof (hr1_ge 0 10 0 (x * x) ltac:(lra)) as H1. unfold hh in H1. simpl (harmonic 0) in H1. simpl (harmonic (0 + 0)) in H1.
  assert (L0 : ln x <= 0) by (rewrite <- ln_1; destruct (Rle_lt_or_eq_dec x 1 ltac:(lra)) as [Q| ->]; [left; apply ln_increasing; lra|lra]).
  cbn [sum_below]. rewrite (ln_half x) by lra. cbn [pow].
  pose proof (k_core (ln 2 - g) (IZR cn / IZR cd) b h (pr 1 0 0 10 (x * x)) (hr 1 0 0 10 (x * x)) (- ln x) ltac:(lra) ltac:(lra) ltac:(lra) C0 Hc ltac:(lra) ltac:(lra)) as K.
  unfold V, tgt. cbn [pow]. set (C := IZR cn / IZR cd) in *. clearbody C.
  replace (/ 2 * 0 - 1 * ((ln x - ln 2 + g) * b - h / 2)) with ((- ln x + (ln 2 - g)) * b + h / 2) by ring.
  replace ((C * pr 1 0 0 10 (x * x) + hr 1 0 0 10 (x * x) / 2) / 1) with (C * pr 1 0 0 10 (x * x) + hr 1 0 0 10 (x * x) / 2) by field. exact K.
Qed.

Lemma k1_ser : forall x v, 0 < x <= 1 -> is_K 1 x v ->
  let U := tgt 1 1 10 (x * x) + pr 1 1 0 10 (x * x) / 2 * (- ln x) in Rabs (v - (/ x - x * U)) <= 5 / 10 ^ 16 * (x * U).
Proof.
  intros x v Hx (g & b & h & Hg & Hb & Hh & ->) U. destruct (k_ser 1 x b h ltac:(lia) Hx Hb Hh) as [Sb Sh].
  rewrite bterm_0 in Sb, Sh. cbn [fact] in Sb, Sh. rewrite pow_1 in Sb, Sh. change (INR (1 * 1)) with 1 in Sb, Sh. replace (x / 2 / 1) with (x / 2) in * by field.
  rewrite (Rabs_pos_eq (x / 2)) in Sb, Sh by lra.
  pose proof (c_near g Hg) as Hc. pose proof c_val as C0.
  assert (X : 0 <= x * x <= 1) by nra. pose proof (pr1_ge 1 10 0 (x * x) ltac:(lra)) as W1. pose proof (pr_sup1 1 (x * x) ltac:(lia) X) as W2.
  pose proof (hr1_ge 1 10 0 (x * x) ltac:(lra)) as H1. unfold hh in H1. pose proof (harmonic_nonneg 0). pose proof (harmonic_nonneg (1 + 0)).
  assert (L0 : ln x <= 0) by (rewrite <- ln_1; destruct (Rle_lt_or_eq_dec x 1 ltac:(lra)) as [Q| ->]; [left; apply ln_increasing; lra|lra]).
  assert (Sb' : Rabs (b / (x / 2) - pr 1 1 0 10 (x * x)) <= / 10 ^ 17).
  { replace (b / (x / 2) - pr 1 1 0 10 (x * x)) with ((b - x / 2 * pr 1 1 0 10 (x * x)) * / (x / 2)) by (field; lra).
    rewrite Rabs_mult, (Rabs_pos_eq (/ (x / 2))) by (left; apply Rinv_0_lt_compat; lra).
    apply Rle_trans with (x / 2 / 10 ^ 17 * / (x / 2)); [apply Rmult_le_compat_r; [left; apply Rinv_0_lt_compat; lra|exact Sb]|]. right. field. lra. }
  assert (Sh' : Rabs (h / (x / 2) - hr 1 1 0 10 (x * x)) <= / 10 ^ 17).
  { replace (h / (x / 2) - hr 1 1 0 10 (x * x)) with ((h - x / 2 * hr 1 1 0 10 (x * x)) * / (x / 2)) by (field; lra).
    rewrite Rabs_mult, (Rabs_pos_eq (/ (x / 2))) by (left; apply Rinv_0_lt_compat; lra).
    apply Rle_trans with (x / 2 / 10 ^ 17 * / (x / 2)); [apply Rmult_le_compat_r; [left; apply Rinv_0_lt_compat; lra|exact Sh]|]. right. field. lra. }
  pose proof (k_core (ln 2 - g) (IZR cn / IZR cd) _ _ (pr 1 1 0 10 (x * x)) (hr 1 1 0 10 (x * x)) (- ln x) ltac:(lra) ltac:(lra) ltac:(lra) C0 Hc Sb' Sh') as K.
  cbn [sum_below]. unfold fterm. rewrite (ln_half x) by lra. change (1 - 0 - 1)%nat with 0%nat. change (2 * 0)%nat with 0%nat. cbn [pow fact]. simpl (INR 1).
  unfold U, tgt. cbn [pow]. set (C := IZR cn / IZR cd) in *. clearbody C. set (W := pr 1 1 0 10 (x * x)) in *. set (Hr := hr 1 1 0 10 (x * x)) in *. clearbody W Hr.
  set (b' := b / (x / 2)) in *. set (h' := h / (x / 2)) in *.
  assert (Eb : b = x / 2 * b') by (unfold b'; field; lra). assert (Eh : h = x / 2 * h') by (unfold h'; field; lra).
  match goal with |- Rabs ?A <= _ => replace A
    with (- (x / 2) * ((- ln x + (ln 2 - g)) * b' + h' / 2 - (C * W + Hr / 2 + W * - ln x))) by (rewrite Eb, Eh; field; lra) end.
  rewrite Rabs_mult, Rabs_Ropp, (Rabs_pos_eq (x / 2)) by lra.
  apply Rle_trans with (x / 2 * (5 / 10 ^ 16 * (C * W + Hr / 2 + W * - ln x))); [apply Rmult_le_compat_l; [lra|exact K]|]. right. field.
Qed.

(** ** The quotients *)

Lemma ap_div : forall e d a b k, 0 < b -> ap e d a k -> ap e (d / b) (a / b) (k / b).
Proof.
  intros e d a b k Hb H. pose proof (ap_scale e d (/ b) a k H) as S. rewrite (Rabs_pos_eq (/ b)) in S by (left; apply Rinv_0_lt_compat, Hb).
  unfold Rdiv. rewrite (Rmult_comm d), (Rmult_comm a), (Rmult_comm k). exact S.
Qed.

Section Fl.
  Context (P : platform).
  Notation mul := (f64_mul P). Notation add := (f64_add P). Notation sub := (f64_sub P). Notation div := (f64_div P).

  Lemma square1 : forall x, fin x -> 0 < val x <= 1 -> let y := mul x x in fin y /\ 0 <= val y <= 1 /\ Rabs (val y - val x * val x) <= uu + eta.
  Proof.
    intros x Fx Hx y. assert (X2 : 0 <= val x * val x <= 1) by nra.
    assert (B : Rabs (val x * val x) <= bpow radix2 1000).
    { rewrite Rabs_pos_eq by lra. apply (below_1000 _ 1); lra. }
    destruct (mul_fl P x x Fx Fx B) as [Fy Ey]. fold y in Fy, Ey. rewrite (Rabs_pos_eq (val x * val x)) in Ey by lra.
    split; [exact Fy|].
    pose proof (mul_spec P x x Fx Fx) as R. fold y in R. rewrite <- (val_fin x Fx) in R.
    destruct (rounds_small _ _ R) as [_ V].
    { rewrite <- rnd_abs. apply Rle_lt_trans with (bpow radix2 1000); [apply rnd_le_fmt; [apply fmt_bpow; lia|exact B]|unfold Om; apply bpow_lt; lia]. }
    split; [split|].
    - rewrite (val_fin y Fy), V. rewrite <- (rnd_fmt 0 fmt_0); apply rnd_le; lra.
    - rewrite (val_fin y Fy), V. apply rnd_le_fmt; [|lra]. change 1 with (bpow radix2 0). apply fmt_bpow. lia.
    - eapply Rle_trans; [exact Ey|]. apply Rplus_le_compat_r. rewrite <- (Rmult_1_r uu) at 2. apply Rmult_le_compat_l; [unfold uu; lra|lra].
  Qed.

  (** denominators *)
  Lemma den_k : forall q y, forallb okd q = true -> length q = 3%nat -> 9 / 10 <= tab q 0 -> tab q 1 <= 101 / 100 -> fin y -> 0 <= val y <= 1 ->
    let b := @poly (ieee P) (sub (f64_lit 1.0) y) q in
    fin b /\ mr (15 * vv) (val b) (tab q (1 - val y)) /\ 9 / 10 <= tab q (1 - val y) <= 101 / 100 /\ 89 / 100 <= val b <= 102 / 100.
  Proof.
    intros q y Ok Lq Q0 Q1 Fy Vy b.
    destruct (refl_sub P y _ 1 Fy fin_1 val_1 Vy ltac:(lra)) as (Fz & Mz & Bz). 
    assert (Nq : q <> []) by (intros ->; discriminate).
    destruct (poly_fl P (sub (f64_lit 1.0) y) q Fz Bz Nq Ok ltac:(lia)) as [Fb Mb]. fold b in Fb, Mb. rewrite Lq in Mb.
    pose proof (tab_mr q vv _ (1 - val y) Ok ltac:(lra) Mz) as Mq. rewrite Lq in Mq.
    pose proof (mr_trans _ _ _ _ _ Mb Mq) as Mb'. replace (4 * INR 3 * vv + INR 3 * vv) with (15 * vv) in Mb' by (simpl; ring).
    pose proof (tab_mono q 0 (1 - val y) Ok ltac:(lra)) as T0. pose proof (tab_mono q (1 - val y) 1 Ok ltac:(lra)) as T1.
    split; [exact Fb|]. split; [exact Mb'|]. split; [lra|].
    pose proof (mr_near _ _ _ Mb' ltac:(unfold vv; lra) ltac:(lra)) as N. unfold vv in N. split; nra.
  Qed.

  Lemma quot_k : forall k p q (T : R -> R) x, fin x -> 0 < val x <= 1 -> 0 < k ->
    forallb okd p = true -> forallb okd q = true -> length p = 5%nat -> length q = 3%nat -> tab p 1 <= 15 / 10 -> 9 / 10 <= tab q 0 -> tab q 1 <= 101 / 100 ->
    (forall y, 0 <= y <= 1 -> 1 / 10 <= T y) -> (forall y, 0 <= y <= 1 -> Rabs (k * (tab p y / tab q (1 - y)) - T y) <= T y / (4 * 10 ^ 14)) ->
    (forall x y, 0 <= x <= 1 -> 0 <= y <= 1 -> Rabs (T x - T y) <= Rabs (x - y)) ->
    let y := mul x x in
    let a := @poly (ieee P) y p in let b := @poly (ieee P) (sub (f64_lit 1.0) y) q in
    fin a /\ fin b /\ 0 < val a <= 2 /\ 89 / 100 <= val b <= 102 / 100 /\ ap (8 / 10 ^ 15) 0 (k * (val a / val b)) (T (val x * val x)).
  Proof.
    intros k p q T x Fx Hx Hk Okp Okq Lp Lq P1 Q0 Q1 T1 Hr HL y a b.
    destruct (square1 x Fx Hx) as (Fy & Vy & Ey). fold y in Fy, Vy, Ey.
    destruct (den_k q y Okq Lq Q0 Q1 Fy Vy) as (Fb & Mb & Tb & Bb). fold b in Fb, Mb, Bb.
    assert (Np : p <> []) by (intros ->; discriminate).
    destruct (poly_fl P y p Fy ltac:(lra) Np Okp ltac:(lia)) as [Fa Ma]. fold a in Fa, Ma. rewrite Lp in Ma. replace (INR 5) with 5 in Ma by (simpl; lra).
    pose proof (tab_pos p (val y) Okp Np ltac:(lra)) as Pp. pose proof (tab_mono p (val y) 1 Okp Vy) as Mp.
    pose proof (mr_near _ _ _ Ma ltac:(unfold vv; lra) Pp) as N.
    split; [exact Fa|]. split; [exact Fb|]. split; [split; [exact (mr_pos _ _ _ Ma Pp)|unfold vv in N; nra]|]. split; [exact Bb|].
    assert (M : mr (35 * vv) (k * (val a / val b)) (k * (tab p (val y) / tab q (1 - val y)))).
    { replace (35 * vv) with (4 * 5 * vv + 15 * vv) by ring. apply mr_scale_l. unfold Rdiv. apply mr_mul; [exact Ma|apply mr_inv; [lra|exact Mb]]. }
    apply ap_mr in M; [|unfold vv; lra].
    assert (X2 : 0 <= val x * val x <= 1) by nra.
    specialize (Hr (val y) Vy). pose proof (HL (val y) (val x * val x) Vy X2) as HLy. pose proof (T1 (val y) Vy) as Ty. specialize (T1 (val x * val x) X2).
    pose proof eta_20 as E20.
    assert (A1 : ap (1 / (4 * 10 ^ 14)) 0 (k * (tab p (val y) / tab q (1 - val y))) (T (val y))).
    { unfold ap. rewrite (Rabs_pos_eq (T (val y))) by lra. eapply Rle_trans; [exact Hr|]. lra. }
    assert (A2 : ap (112 / 10 ^ 17) 0 (T (val y)) (T (val x * val x))).
    { unfold ap. rewrite (Rabs_pos_eq (T (val x * val x))) by lra. unfold uu in Ey. lra. }
    assert (U1 : 0 <= 35 * vv + 2 * (35 * vv * (35 * vv))) by (unfold vv; lra).
    pose proof (ap_trans _ _ _ _ _ _ _ M A1 U1) as S1.
    eapply ap_weak; [| |exact (ap_trans _ _ _ _ _ _ _ S1 A2 ltac:(unfold vv; lra))]; [unfold vv; lra|lra].
  Qed.

  (** a polynomial of any signs on [0, 1] *)
  Lemma poly_werr : forall (x : f64) l c cs n d, fin x -> 0 <= val x <= 1 -> rev l = c :: cs -> forallb (dz_ok 60) (c :: cs) = true -> forallb (dz_ok 60) l = true ->
    (hor_w 60 c cs <= 2 ^ 25 * 10 ^ 60)%Z -> (length cs < 100)%nat -> (0 < d)%Z -> (hor_w 60 c cs * d <=? n * 10 ^ 60)%Z = true ->
    fin (@poly (ieee P) x l) /\ Rabs (val (@poly (ieee P) x l) - tab l (val x)) <= bpow radix2 (-51) * (IZR n / IZR d) + bpow radix2 (-61).
  Proof.
    intros x l c cs n d Fx Hx E Ok1 Ok2 Hw Hl Hd C. unfold poly. rewrite E. ieee_simpl.
    destruct (hor_werr P 60 x c cs ltac:(lia) Fx) as [F H]; [rewrite <- (val_fin x Fx), Rabs_pos_eq; lra|exact Ok1|exact Hw|exact Hl|].
    change (fold_left _ cs (f64_lit c)) with (Horner.hor P x (f64_lit c) cs).
    split; [exact F|]. rewrite (rhor_peval 60 _ c cs ltac:(lia) Ok1), <- E in H. 
    rewrite (val_fin _ F), (tab_eq l _ Ok2). unfold zs. rewrite <- (val_fin x Fx) in H. rewrite map_rev, rev_involutive in H. eapply Rle_trans; [exact H|].
    apply Rplus_le_compat_r, Rmult_le_compat_l; [apply bpow_ge_0|].
    apply Z.leb_le, IZR_le in C. rewrite !mult_IZR in C. apply IZR_lt in Hd.
    assert (T : 0 < IZR (10 ^ 60)) by (apply IZR_lt; reflexivity). set (D := IZR (10 ^ 60)) in *. clearbody D.
    apply Rmult_le_reg_r with (D * IZR d); [apply Rmult_lt_0_compat; assumption|].
    replace (IZR (hor_w 60 c cs) / D * (D * IZR d)) with (IZR (hor_w 60 c cs) * IZR d) by (field; lra).
    replace (IZR n / IZR d * (D * IZR d)) with (IZR n * D) by (field; lra). exact C.
  Qed.

  Lemma k1p_fl : forall x, fin x -> 0 <= val x <= 1 -> fin (@poly (ieee P) x K1P) /\ Rabs (val (@poly (ieee P) x K1P) - tab K1P (val x)) <= 6 / 10 ^ 16.
  Proof.
    intros x Fx Hx. destruct (poly_werr x K1P (-3.110372465429008e-7)%dec [(-5.385594871975406e-5)%dec; (-3.477550948593604e-3)%dec; (-8.109417631822442e-2)%dec; (-3.079657578292062e-1)%dec] 13 10 Fx Hx eq_refl) as [F H].
    - vm_compute; reflexivity.
    - vm_compute; reflexivity.
    - apply Z.leb_le. vm_compute; reflexivity.
    - cbn. lia.
    - lia.
    - vm_compute; reflexivity.
    - split; [exact F|]. eapply Rle_trans; [exact H|]. replace (bpow radix2 (-51)) with (/ 2 ^ 51) by (simpl; lra). replace (bpow radix2 (-61)) with (/ 2 ^ 61) by (simpl; lra). lra.
  Qed.

  (** the logarithmic term *)
  Context (LN : accurate_ln (p_ln P)).
  Notation lnF := (libm P (p_ln P)).

  Lemma ln_abs_x : forall x, fin x -> 0 < val x <= 1 -> 0 <= - ln (val x) <= 1000.
  Proof.
    intros x Fx Hx. split.
    - assert (ln (val x) <= 0); [|lra]. rewrite <- ln_1; destruct (Rle_lt_or_eq_dec (val x) 1 ltac:(lra)) as [Q| ->]; [left; apply ln_increasing; lra|lra].
    - assert (L : bpow radix2 (-1074) <= val x). { apply pos_ge_min. split; [apply fin_nonnan, Fx|lra]. }
      assert (ln (bpow radix2 (-1074)) <= ln (val x)). { destruct L as [L|<-]; [left; apply ln_increasing; [apply bpow_gt_0|exact L]|lra]. }
      assert (E : ln (bpow radix2 (-1074)) = - 1074 * ln 2). { rewrite bpow_powerRZ. change (IZR radix2) with 2. rewrite powerRZ_Rpower by lra. unfold Rpower. rewrite ln_exp. reflexivity. }
      pose proof ln2_up. lra.
  Qed.

  Lemma term_k : forall p q x W k, fin x -> 0 < val x <= 1 -> fin p -> fin q -> 0 < val p <= 2 -> 89 / 100 <= val q <= 102 / 100 -> 1 / 2 <= k <= 2 -> 0 < W ->
    ap (8 / 10 ^ 15) 0 (k * (val p / val q)) W ->
    let t := div (mul p (lnF x)) q in fin t /\ ap (95 / 10 ^ 16) (20 * eta) (k * val t) (W * ln (val x)) /\ Rabs (val t) <= 10000.
  Proof.
    intros p q x W k Fx Hx Fp Fq Bp Bq Hk HW A t. pose proof (ln_abs_x x Fx Hx) as L0.
    destruct (ln_fl P LN x Fx ltac:(lra)) as [Fl El]; [rewrite Rabs_left1 by lra; lra|].
    set (l := lnF x) in *. clearbody l. fold (ap (8 * uu) eta (val l) (ln (val x))) in El.
    pose proof (ap_size _ _ _ _ El) as Sl. rewrite (Rabs_left1 (ln (val x))) in Sl by lra. pose proof eta_20 as E20. pose proof eta_pos as E0.
    assert (Bl : Rabs (val l) <= 1001). { assert ((1 + 8 * uu) * - ln (val x) <= (1 + 8 * uu) * 1000) by (apply Rmult_le_compat_l; [unfold uu; lra|lra]). unfold uu in *. lra. }
    assert (Bm : Rabs (val p * val l) <= 2002). { rewrite Rabs_mult, (Rabs_pos_eq (val p)) by lra. replace 2002 with (2 * 1001) by ring. apply Rmult_le_compat; [lra|apply Rabs_pos|lra|exact Bl]. }
    destruct (mul_fl P p l Fp Fl (below_1000 _ 2002 Bm ltac:(lra))) as [Fm Em]. set (m := mul p l) in *. fold (ap uu eta (val m) (val p * val l)) in Em.
    pose proof (ap_size _ _ _ _ Em) as Sm.
    assert (Bm' : Rabs (val m) <= 2003). { assert ((1 + uu) * Rabs (val p * val l) <= (1 + uu) * 2002) by (apply Rmult_le_compat_l; [unfold uu; lra|lra]). unfold uu in *. lra. }
    assert (IQ : 0 < / val q <= 2). { split; [apply Rinv_0_lt_compat; lra|]. replace 2 with (/ (1 / 2)) by field. apply Rinv_le_contravar; lra. }
    assert (Bd : Rabs (val m / val q) <= 4006). { unfold Rdiv. rewrite Rabs_mult, (Rabs_pos_eq (/ val q)) by lra. replace 4006 with (2003 * 2) by ring. apply Rmult_le_compat; [apply Rabs_pos|lra|exact Bm'|lra]. }
    destruct (div_fl P m q Fm Fq ltac:(lra) (below_1000 _ 4006 Bd ltac:(lra))) as [Ft Et]. fold t in Ft, Et. fold (ap uu eta (val t) (val m / val q)) in Et.
    split; [exact Ft|]. split.
    - assert (A1 : ap (8 * uu) (2 * eta) (val p * val l) (val p * ln (val x))).
      { eapply ap_weak; [apply Rle_refl| |apply ap_scale, El]. rewrite Rabs_pos_eq by lra. apply Rmult_le_compat_r; lra. }
      pose proof (ap_trans _ _ _ _ _ _ _ Em A1 ltac:(unfold uu; lra)) as A2.
      assert (A3 := ap_div _ _ _ (val q) _ ltac:(lra) A2).
      pose proof (ap_trans _ _ _ _ _ _ _ Et A3 ltac:(unfold uu; lra)) as A4.
      pose proof (ap_scale _ _ k _ _ A4) as A5.
      assert (A6 : ap (8 / 10 ^ 15) 0 (k * (val p * ln (val x) / val q)) (W * ln (val x))).
      { replace (k * (val p * ln (val x) / val q)) with (ln (val x) * (k * (val p / val q))) by (field; lra). rewrite (Rmult_comm W).
        eapply ap_weak; [apply Rle_refl| |apply ap_scale, A]. lra. }
      eapply ap_weak; [| |exact (ap_trans _ _ _ _ _ _ _ A5 A6 ltac:(unfold uu; lra))].
      + unfold uu. lra.
      + rewrite (Rabs_pos_eq k) by lra.
        assert (D : (eta + (1 + uu) * (2 * eta)) / val q <= 8 * eta).
        { unfold Rdiv. replace (8 * eta) with (4 * eta * 2) by ring. apply Rmult_le_compat; [unfold uu; lra|lra|unfold uu; lra|lra]. }
        assert (D2 : eta + (1 + uu) * ((eta + (1 + uu) * (2 * eta)) / val q) <= 10 * eta).
        { assert ((1 + uu) * ((eta + (1 + uu) * (2 * eta)) / val q) <= (1 + uu) * (8 * eta)) by (apply Rmult_le_compat_l; [unfold uu; lra|exact D]). unfold uu in *. lra. }
        assert (0 <= eta + (1 + uu) * ((eta + (1 + uu) * (2 * eta)) / val q)).
        { assert (0 <= (eta + (1 + uu) * (2 * eta)) / val q); [|assert (0 <= (1 + uu) * ((eta + (1 + uu) * (2 * eta)) / val q)) by (apply Rmult_le_pos; [unfold uu; lra|assumption]); lra].
          unfold Rdiv. apply Rmult_le_pos; [unfold uu; lra|lra]. }
        replace (20 * eta) with (2 * (10 * eta)) by ring. rewrite Rmult_0_r, Rplus_0_r. apply Rmult_le_compat; lra.
    - pose proof (ap_size _ _ _ _ Et) as S. assert ((1 + uu) * Rabs (val m / val q) <= (1 + uu) * 4006) by (apply Rmult_le_compat_l; [unfold uu; lra|lra]). unfold uu in *. lra.
  Qed.


  Lemma le_1 : forall x, fin x -> val x <= 1 -> f64_le x (f64_lit 1.0) = true.
  Proof. intros x Fx Hx. apply le_true. rewrite val_1. split; [apply fin_nonnan, Fx|split; [apply fin_nonnan, fin_1|exact Hx]]. Qed.

  Lemma k0_core : forall T WL t1 tm r v, 1 / 10 <= T -> 0 <= WL -> ap (8 / 10 ^ 15 + uu + uu) eta t1 T -> ap (95 / 10 ^ 16) (20 * eta) tm (- WL) -> ap uu eta r (t1 - tm) ->
    Rabs (v - (T + WL)) <= 5 / 10 ^ 16 * (T + WL) -> Rabs (r - v) <= 12 / 10 ^ 15 * v.
  Proof.
    intros T WL t1 tm r v HT HW A1 A2 A3 Hv. pose proof eta_20 as E20. unfold ap in *. rewrite Rabs_Ropp, (Rabs_pos_eq WL) in A2 by lra. rewrite (Rabs_pos_eq T) in A1 by lra.
    assert (B : Rabs (t1 - tm) <= 2 * (T + WL)). { apply Rabs_le_inv in A1, A2. unfold uu in *. apply Rabs_le. lra. }
    assert (uu * Rabs (t1 - tm) <= uu * (2 * (T + WL))) by (apply Rmult_le_compat_l; [unfold uu; lra|exact B]).
    apply Rabs_le_inv in A1, A2, A3, Hv. apply Rabs_le. unfold uu in *. lra.
  Qed.

  Lemma k0_fl : forall x v, fin x -> 0 < val x <= 1 -> is_K 0 (val x) v ->
    fin (@k0 (ieee P) x) /\ Rabs (val (@k0 (ieee P) x) - v) <= 12 / 10 ^ 15 * v.
  Proof.
    intros x v Fx Hx Hv. unfold k0. ieee_simpl. rewrite (le_1 x Fx ltac:(lra)). unfold powi2. ieee_simpl.
    assert (X2 : 0 <= val x * val x <= 1) by nra.
    destruct (quot_k 1 K0P K0Q (tgt 1 0 10) x Fx Hx ltac:(lra) eq_refl eq_refl eq_refl eq_refl) as (Fa & Fb & Ba & Bb & A1).
    { replace (15 / 10) with (IZR 15 / IZR 10) by lra. apply (tab_le_z K0P 1 15 10); vm_compute; reflexivity. }
    { apply (tab_ge_z K0Q 0 9 10); vm_compute; reflexivity. }
    { apply (tab_le_z K0Q 1 101 100); vm_compute; reflexivity. }
    { intros y Hy. pose proof (tgt_pos 0 10 y ltac:(lra)) as G. cbn [pow] in G. lra. }
    { intros y Hy. rewrite Rmult_1_l. apply rat_k0, Hy. }
    { exact tgt0_lip. }
    destruct (quot_k 1 K0PI K0QI (pr 1 0 0 10) x Fx Hx ltac:(lra) eq_refl eq_refl eq_refl eq_refl) as (Fp & Fq & Bp & Bq & A2).
    { replace (15 / 10) with (IZR 15 / IZR 10) by lra. apply (tab_le_z K0PI 1 15 10); vm_compute; reflexivity. }
    { apply (tab_ge_z K0QI 0 9 10); vm_compute; reflexivity. }
    { apply (tab_le_z K0QI 1 101 100); vm_compute; reflexivity. }
    { intros y Hy. pose proof (pr1_ge 0 10 0 y ltac:(lra)) as G. lra. }
    { intros y Hy. rewrite Rmult_1_l. apply rat_k0i, Hy. }
    { intros a b. apply pr_lip1. lia. }
    cbv zeta in *.
    set (a := @poly (ieee P) (mul x x) K0P) in *. set (b := @poly (ieee P) (sub (f64_lit 1.0) (mul x x)) K0Q) in *.
    set (p := @poly (ieee P) (mul x x) K0PI) in *. set (q := @poly (ieee P) (sub (f64_lit 1.0) (mul x x)) K0QI) in *. clearbody a b p q.
    pose proof (pr1_ge 0 10 0 (val x * val x) ltac:(lra)) as W1. pose proof (tgt_pos 0 10 (val x * val x) ltac:(lra)) as T1. cbn [pow] in T1.
    pose proof (k0_ser (val x) v Hx Hv) as S. cbv zeta in S.
    destruct (term_k p q x (pr 1 0 0 10 (val x * val x)) 1 Fx Hx Fp Fq Bp Bq ltac:(lra) ltac:(lra) A2) as (Ft & At & Bt). rewrite Rmult_1_l in *.
    pose proof (ln_abs_x x Fx Hx) as L0.
    set (T := tgt 1 0 10 (val x * val x)) in *. set (W := pr 1 0 0 10 (val x * val x)) in *. clearbody T W.
    assert (IB : 0 < / val b <= 2). { split; [apply Rinv_0_lt_compat; lra|]. replace 2 with (/ (1 / 2)) by field. apply Rinv_le_contravar; lra. }
    assert (Bd : Rabs (val a / val b) <= 4). { unfold Rdiv. rewrite Rabs_mult, !Rabs_pos_eq by lra. replace 4 with (2 * 2) by ring. apply Rmult_le_compat; lra. }
    destruct (div_fl P a b Fa Fb ltac:(lra) (below_1000 _ 4 Bd ltac:(lra))) as [Fd Ed]. fold (ap uu eta (val (div a b)) (val a / val b)) in Ed.
    pose proof eta_pos as E0. pose proof eta_20 as E20.
    assert (A3 : ap (8 / 10 ^ 15 + uu + uu) eta (val (div a b)) T).
    { eapply ap_weak; [| |exact (ap_trans _ _ _ _ _ _ _ Ed A1 ltac:(unfold uu; lra))]; unfold uu; lra. }
    set (t1 := div a b) in *. set (tm := div (mul p (lnF x)) q) in *. clearbody t1 tm.
    assert (B1 : Rabs (val t1) <= 5). { pose proof (ap_size _ _ _ _ Ed). unfold uu in *. lra. }
    assert (Bs : Rabs (val t1 - val tm) <= 10005). { unfold Rminus. eapply Rle_trans; [apply Rabs_triang|]. rewrite Rabs_Ropp. lra. }
    destruct (sub_fl P t1 tm Fd Ft (below_1000 _ 10005 Bs ltac:(lra))) as [Fr Er]. split; [exact Fr|].
    apply (k0_core T (W * - ln (val x)) (val t1) (val tm)); [lra| |exact A3| |exact Er|exact S].
    - apply Rmult_le_pos; lra.
    - replace (- (W * - ln (val x))) with (W * ln (val x)) by ring. exact At.
  Qed.

  Lemma k1_core : forall X I U inn m d r v, 0 < X <= 1 -> I * X = 1 -> 0 <= U -> X * X * U <= 65 / 100 -> Rabs (inn + U) <= 5 / 10 ^ 15 + 11 / 10 ^ 15 * U ->
    ap uu eta m (X * inn) -> mr vv d I -> mr vv r (m + d) -> Rabs (v - (I - X * U)) <= 5 / 10 ^ 16 * (X * U) ->
    Rabs (r - v) <= 4 / 10 ^ 14 * v /\ I / 3 <= v <= 2 * I.
  Proof.
    intros X I U inn m d r v HX HI HU HXU Hi Hm Hd Hr Hv. pose proof eta_20 as E20. pose proof eta_pos as E0.
    assert (I1 : 1 <= I) by nra.
    assert (XU : 0 <= X * U <= 65 / 100 * I). { split; [apply Rmult_le_pos; lra|]. replace (X * U) with (X * X * U * I) by (transitivity (X * U * (I * X)); [ring|rewrite HI; ring]). apply Rmult_le_compat_r; lra. }
    assert (E1 : Rabs (X * inn + X * U) <= 5 / 10 ^ 15 * I + 11 / 10 ^ 15 * (65 / 100 * I)).
    { rewrite <- Rmult_plus_distr_l, Rabs_mult, (Rabs_pos_eq X) by lra. apply Rle_trans with (X * (5 / 10 ^ 15 + 11 / 10 ^ 15 * U)); [apply Rmult_le_compat_l; lra|].
      assert (X * (5 / 10 ^ 15) <= I * (5 / 10 ^ 15)) by (apply Rmult_le_compat_r; lra). lra. }
    unfold ap in Hm. assert (B : Rabs (X * inn) <= I) by (apply Rabs_le_inv in E1; apply Rabs_le; lra).
    assert (uu * Rabs (X * inn) <= uu * I) by (apply Rmult_le_compat_l; [unfold uu; lra|exact B]).
    apply mr_abs in Hd; [|unfold vv; lra]. rewrite (Rabs_pos_eq I) in Hd by lra.
    apply mr_abs in Hr; [|unfold vv; lra].
    assert (D : Rabs (d - I) <= 2 / 10 ^ 16 * I). { eapply Rle_trans; [exact Hd|]. apply Rmult_le_compat_r; [lra|unfold vv; lra]. }
    assert (B2 : Rabs (m + d) <= 2 * I). { apply Rabs_le_inv in Hm, D, E1. unfold uu in *. apply Rabs_le. lra. }
    assert (R : Rabs (r - (m + d)) <= 2 / 10 ^ 16 * (2 * I)). { eapply Rle_trans; [exact Hr|]. apply Rmult_le_compat; [unfold vv; lra|apply Rabs_pos|unfold vv; lra|exact B2]. }
    clear Hd Hr. apply Rabs_le_inv in Hv, Hm, D, E1, R. unfold uu in *. split; [apply Rabs_le|]; lra.
  Qed.

  Lemma x2_ln : forall x, 0 < x <= 1 -> x * x * - ln x <= 1 / 4.
  Proof.
    intros x Hx. pose proof (ln_sub1 (/ x) ltac:(apply Rinv_0_lt_compat; lra)) as L. rewrite ln_Rinv in L by lra.
    assert (x * - ln x <= 1 - x). { replace (1 - x) with (x * (/ x - 1)) by (field; lra). apply Rmult_le_compat_l; lra. }
    rewrite Rmult_assoc. apply Rle_trans with (x * (1 - x)); [apply Rmult_le_compat_l; lra|]. pose proof (Rle_0_sqr (x - 1 / 2)) as Q. unfold Rsqr in Q. lra.
  Qed.

  (** the first quotient of k1 *)
  Lemma k1q_tail : forall a b A B T T' z, fin a -> fin b -> mr (15 * vv) (val b) B -> 9 / 10 <= B <= 101 / 100 -> 89 / 100 <= val b <= 102 / 100 ->
    Rabs (val a - A) <= 6 / 10 ^ 16 -> Rabs (-1 * (A / B) - T) <= T / (4 * 10 ^ 14) -> Rabs (T - T') <= Rabs z -> Rabs z <= uu + eta -> 1 / 10 / 2 <= T -> T <= 48 / 100 ->
    fin (div a b) /\ Rabs (val (div a b) + T') <= 45 / 10 ^ 16.
  Proof.
    intros a b A B T T' z Fa Fb Mb Tb Bb Ea R Ly Ey Tp Ty. pose proof eta_20 as E20.
    apply mr_inv in Mb; [|lra]. apply mr_abs in Mb; [|unfold vv; lra].
    assert (IB : 0 < / val b <= 2). { split; [apply Rinv_0_lt_compat; lra|]. replace 2 with (/ (1 / 2)) by field. apply Rinv_le_contravar; lra. }
    assert (IB' : 0 < / B <= 12 / 10). { split; [apply Rinv_0_lt_compat; lra|]. replace (12 / 10) with (/ (10 / 12)) by field. apply Rinv_le_contravar; lra. }
    rewrite (Rabs_pos_eq (/ B)) in Mb by lra.
    assert (Q : Rabs (A / B) <= 6 / 10). { apply Rabs_le_inv in R. apply Rabs_le. lra. }
    assert (BA : Rabs A <= 7 / 10). { replace A with (A / B * B) by (field; lra). rewrite Rabs_mult, (Rabs_pos_eq B) by lra. apply Rle_trans with (6 / 10 * (101 / 100)); [apply Rmult_le_compat; [apply Rabs_pos|lra|exact Q|lra]|lra]. }
    assert (E1 : Rabs (val a / val b - A / B) <= 27 / 10 ^ 16).
    { replace (val a / val b - A / B) with ((val a - A) * / val b + A * (/ val b - / B)) by (unfold Rdiv; ring).
      eapply Rle_trans; [apply Rabs_triang|]. rewrite !Rabs_mult, (Rabs_pos_eq (/ val b)) by lra.
      assert (Rabs (val a - A) * / val b <= 6 / 10 ^ 16 * 2) by (apply Rmult_le_compat; [apply Rabs_pos|lra|exact Ea|lra]).
      assert (Rabs A * Rabs (/ val b - / B) <= 7 / 10 * ((15 * vv + 2 * (15 * vv * (15 * vv))) * (12 / 10))).
      { apply Rmult_le_compat; try apply Rabs_pos; [exact BA|]. eapply Rle_trans; [exact Mb|]. apply Rmult_le_compat_l; [unfold vv; lra|lra]. }
      unfold vv in *. lra. }
    assert (Bd : Rabs (val a / val b) <= 1) by (apply Rabs_le_inv in E1, Q; apply Rabs_le; lra).
    destruct (div_fl P a b Fa Fb ltac:(lra) (below_1000 _ 1 Bd ltac:(lra))) as [Ft Et]. split; [exact Ft|].
    assert (uu * Rabs (val a / val b) <= uu * 1) by (apply Rmult_le_compat_l; [unfold uu; lra|exact Bd]).
    apply Rabs_le_inv in Et, E1, R, Ly. unfold uu in *. apply Rabs_le.
    lra.
  Qed.

  Lemma k1q_fl : forall x, fin x -> 0 < val x <= 1 ->
    let y := mul x x in let t := div (@poly (ieee P) y K1P) (@poly (ieee P) (sub (f64_lit 1.0) y) K1Q) in
    fin t /\ Rabs (val t + tgt 1 1 10 (val x * val x)) <= 45 / 10 ^ 16.
  Proof.
    intros x Fx Hx y t. destruct (square1 x Fx Hx) as (Fy & Vy & Ey). fold y in Fy, Vy, Ey.
    destruct (den_k K1Q y eq_refl eq_refl) as (Fb & Mb & Tb & Bb).
    { apply (tab_ge_z K1Q 0 9 10); vm_compute; reflexivity. }
    { apply (tab_le_z K1Q 1 101 100); vm_compute; reflexivity. }
    { exact Fy. } { exact Vy. }
    destruct (k1p_fl y Fy Vy) as [Fa Ea]. pose proof (rat_k1 (val y) Vy) as R.
    assert (X2 : 0 <= val x * val x <= 1) by nra. pose proof (tgt1_lip (val y) (val x * val x) Vy X2) as Ly.
    pose proof (tgt1_sup (val y) Vy) as Ty. pose proof (tgt_pos 1 10 (val y) ltac:(lra)) as Tp. rewrite pow_1 in Tp.
    exact (k1q_tail _ _ _ _ _ _ _ Fa Fb Mb Tb Bb Ea R Ly Ey Tp Ty).
  Qed.

  Lemma k1_fl : forall x v, fin x -> bpow radix2 (-1022) <= val x <= 1 -> is_K 1 (val x) v ->
    fin (@k1 (ieee P) x) /\ Rabs (val (@k1 (ieee P) x) - v) <= 4 / 10 ^ 14 * v /\ / val x / 3 <= v <= 2 * / val x.
  Proof.
    intros x v Fx HX Hv. assert (Hx : 0 < val x <= 1) by (pose proof (bpow_gt_0 radix2 (-1022)); lra).
    unfold k1. ieee_simpl. rewrite (le_1 x Fx ltac:(lra)). unfold powi2. ieee_simpl.
    assert (X2 : 0 <= val x * val x <= 1) by nra.
    destruct (k1q_fl x Fx Hx) as [F1 E1]. cbv zeta in F1, E1.
    destruct (quot_k 2 K1PI K1QI (pr 1 1 0 10) x Fx Hx ltac:(lra) eq_refl eq_refl eq_refl eq_refl) as (Fp & Fq & Bp & Bq & A2).
    { replace (15 / 10) with (IZR 15 / IZR 10) by lra. apply (tab_le_z K1PI 1 15 10); vm_compute; reflexivity. }
    { apply (tab_ge_z K1QI 0 9 10); vm_compute; reflexivity. }
    { apply (tab_le_z K1QI 1 101 100); vm_compute; reflexivity. }
    { intros y Hy. pose proof (pr1_ge 1 10 0 y ltac:(lra)) as G. lra. }
    { intros y Hy. apply rat_k1i, Hy. }
    { intros a b. apply pr_lip1. lia. }
    cbv zeta in *.
    set (t1 := div (@poly (ieee P) (mul x x) K1P) _) in *.
    set (p := @poly (ieee P) (mul x x) K1PI) in *. set (q := @poly (ieee P) (sub (f64_lit 1.0) (mul x x)) K1QI) in *. clearbody t1 p q.
    pose proof (pr1_ge 1 10 0 (val x * val x) ltac:(lra)) as W1. pose proof (pr_sup1 1 (val x * val x) ltac:(lia) X2) as W2.
    pose proof (tgt_pos 1 10 (val x * val x) ltac:(lra)) as T1. rewrite pow_1 in T1. pose proof (tgt1_sup (val x * val x) X2) as T2.
    pose proof (k1_ser (val x) v Hx Hv) as S. cbv zeta in S.
    destruct (term_k p q x (pr 1 1 0 10 (val x * val x)) 2 Fx Hx Fp Fq Bp Bq ltac:(lra) ltac:(lra) A2) as (Ft & At & Bt).
    pose proof (ln_abs_x x Fx Hx) as L0. pose proof (x2_ln (val x) Hx) as XL.
    set (T := tgt 1 1 10 (val x * val x)) in *. set (W := pr 1 1 0 10 (val x * val x)) in *. clearbody T W.
    set (tm := div (mul p (lnF x)) q) in *. clearbody tm. set (L := - ln (val x)) in *. assert (EL : ln (val x) = - L) by (unfold L; ring). rewrite EL in At. clearbody L.
    pose proof eta_20 as E20. pose proof eta_pos as E0.
    assert (WL : 0 <= W * L) by (apply Rmult_le_pos; lra).
    assert (B1 : Rabs (val t1) <= 1) by (apply Rabs_le_inv in E1; apply Rabs_le; lra).
    assert (Bs : Rabs (val t1 + val tm) <= 10001). { eapply Rle_trans; [apply Rabs_triang|]. lra. }
    destruct (add_fl P t1 tm F1 Ft (below_1000 _ 10001 Bs ltac:(lra))) as [Fi Ei]. set (inn := add t1 tm) in *. clearbody inn.
    assert (Ei2 : Rabs (val inn + (T + W / 2 * L)) <= 5 / 10 ^ 15 + 11 / 10 ^ 15 * (T + W / 2 * L)).
    { unfold ap in At. replace (W * - L) with (- (W * L)) in At by ring. rewrite Rabs_Ropp, (Rabs_pos_eq (W * L)) in At by lra.
      replace (W / 2 * L) with (W * L / 2) by field.
      assert (Bt2 : Rabs (val t1 + val tm) <= 2 * (T + W * L / 2) + 1 / 10). { apply Rabs_le_inv in E1, At. apply Rabs_le. lra. }
      assert (uu * Rabs (val t1 + val tm) <= uu * (2 * (T + W * L / 2) + 1 / 10)) by (apply Rmult_le_compat_l; [unfold uu; lra|exact Bt2]).
      apply Rabs_le_inv in E1, At, Ei. unfold uu in *. apply Rabs_le. lra. }
    assert (Bi : Rabs (val inn) <= 10002). { assert (uu * Rabs (val t1 + val tm) <= uu * 10001) by (apply Rmult_le_compat_l; [unfold uu; lra|exact Bs]). apply Rabs_le_inv in Ei, Bs. unfold uu in *. apply Rabs_le. lra. }
    assert (Bm : Rabs (val x * val inn) <= 10002). { rewrite Rabs_mult, (Rabs_pos_eq (val x)) by lra. rewrite <- (Rmult_1_l 10002). apply Rmult_le_compat; [lra|apply Rabs_pos|lra|exact Bi]. }
    destruct (mul_fl P x inn Fx Fi (below_1000 _ 10002 Bm ltac:(lra))) as [Fm Em]. set (m := mul x inn) in *. clearbody m. fold (ap uu eta (val m) (val x * val inn)) in Em.
    assert (IX : 1 <= / val x <= bpow radix2 1022).
    { split; [rewrite <- Rinv_1; apply Rinv_le_contravar; lra|]. change 1022%Z with (Z.opp (-1022)). rewrite bpow_opp. apply Rinv_le_contravar; [apply bpow_gt_0|lra]. }
    assert (B23 : bpow radix2 1023 = 2 * bpow radix2 1022) by (change 2 with (bpow radix2 1); rewrite <- bpow_plus; reflexivity).
    assert (S22 : bpow radix2 (-1022) <= 1 / 10). { apply Rle_trans with (bpow radix2 (-4)); [apply bpow_le; lia|simpl; lra]. }
    destruct (div_mr P (f64_lit 1.0) x fin_1 Fx ltac:(lra)) as [Fd Md].
    { rewrite val_1. unfold Rdiv. rewrite Rmult_1_l, Rabs_pos_eq by lra. lra. }
    rewrite val_1 in Md. replace (1 / val x) with (/ val x) in Md by (field; lra). set (d := div (f64_lit 1.0) x) in *. clearbody d.
    set (U := T + W / 2 * L) in *. assert (U0 : 0 <= U) by (unfold U; replace (W / 2 * L) with (W * L / 2) by field; lra).
    assert (XU : val x * val x * U <= 65 / 100).
    { unfold U. replace (val x * val x * (T + W / 2 * L)) with (val x * val x * T + val x * val x * L * (W / 2)) by ring.
      assert (val x * val x * T <= 1 * (1 / 2 - 2 / 100)).
      { apply Rmult_le_compat; lra. }
      assert (0 <= val x * val x * L) by (apply Rmult_le_pos; lra).
      assert (val x * val x * L * (W / 2) <= 1 / 4 * (13 / 20)) by (apply Rmult_le_compat; lra). lra. }
    assert (M2 : Rabs (val m) <= 7 / 10 * / val x).
    { pose proof (ap_size _ _ _ _ Em) as Sm.
      assert (XI : val x * / val x = 1) by (field; lra).
      assert (XU' : val x * U <= 65 / 100 * / val x). { replace (val x * U) with (val x * val x * U * / val x) by (field; lra). apply Rmult_le_compat_r; lra. }
      assert (XI2 : Rabs (val x * val inn) <= 66 / 100 * / val x).
      { rewrite Rabs_mult, (Rabs_pos_eq (val x)) by lra. apply Rle_trans with (val x * (U + (5 / 10 ^ 15 + 11 / 10 ^ 15 * U))).
        - apply Rmult_le_compat_l; [lra|]. apply Rabs_le_inv in Ei2. apply Rabs_le. lra.
        - assert (val x * (5 / 10 ^ 15) <= / val x * (5 / 10 ^ 15)) by (apply Rmult_le_compat_r; lra). lra. }
      assert ((1 + uu) * Rabs (val x * val inn) <= (1 + uu) * (66 / 100 * / val x)) by (apply Rmult_le_compat_l; [unfold uu; lra|exact XI2]). unfold uu in *. lra. }
    pose proof (mr_near _ _ _ Md ltac:(unfold vv; lra) ltac:(lra)) as ND.
    assert (SD : 29 / 100 * / val x <= val m + val d <= 18 / 10 * / val x) by (apply Rabs_le_inv in M2; unfold vv in ND; lra).
    destruct (add_mr P m d Fm Fd) as [Fr Mr].
    { rewrite Rabs_pos_eq by lra. lra. }
    split; [exact Fr|].
    apply (k1_core (val x) (/ val x) U (val inn) (val m) (val d)); try assumption. apply Rinv_l. lra.
  Qed.
End Fl.
