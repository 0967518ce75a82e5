(** * The rational parts of k0, k1, y0 and y1 near the origin, over the reals *)

From Coq Require Import ZArith Reals Bool Lra Lia List.
From Flocq Require Import Core.Raux.
From Verif.Model Require Import Base BesselTables.
From Verif.Float Require Import Exact.
From Verif.Spec Require Import BesselSpec Bessel2Spec.
From Verif.Proofs Require Import Poly PolyZ PolyShift PolyTree HornerErr BesselSeries BesselRat EulerGamma SecondSeries.
Import ListNotations.
Open Scope R_scope.

(** ** The target: (c S_n + H_n / 2) / 2^n, where S_n and H_n are the partial
    sums and c approximates ln 2 - gamma *)

Definition cn : Z := 115931515658412449.
Definition cd : Z := 1000000000000000000.

Lemma c_near : forall g, is_euler g -> Rabs (ln 2 - g - IZR cn / IZR cd) <= 8 / 10 ^ 18.
Proof.
  intros g Hg. pose proof (euler_bounds g Hg). pose proof ln2_low. pose proof ln2_up. apply Rabs_le. unfold cn, cd. lra.
Qed.

Definition tgt (s : R) (n m : nat) (y : R) : R := (IZR cn / IZR cd * pr s n 0 m y + hr s n 0 m y / 2) / 2 ^ n.
Definition tgt_l (M s : Z) (n m : nat) : list Z :=
  padd (pscale (2 * M * cn) (fst (plz s n 0 m))) (pscale cd (fst (phz M s n 0 m))).
Definition tgt_n (M s : Z) (n m : nat) : Z := (2 ^ Z.of_nat n * (2 * M * cd * snd (plz s n 0 m)))%Z.

Lemma tgt_n_pos : forall M s n m, (0 < M)%Z -> (0 < tgt_n M s n m)%Z.
Proof.
  intros M s n m HM. unfold tgt_n. pose proof (plz_pos s n m 0) as H. assert (0 < 2 ^ Z.of_nat n)%Z by (apply Z.pow_pos_nonneg; lia).
  apply Z.mul_pos_pos; [assumption|]. apply Z.mul_pos_pos; [|assumption]. unfold cd. lia.
Qed.
Lemma tgt_eq : forall M s n m y, (0 < M)%Z -> hz_ok M (n + m) = true ->
  peval (tgt_l M s n m) y = IZR (tgt_n M s n m) * tgt (IZR s) n m y.
Proof.
  intros M s n m y HM Ok. unfold tgt_l, tgt_n, tgt. rewrite peval_padd, !peval_pscale, plz_eq, phz_eq by (rewrite Nat.add_0_r; exact Ok).
  rewrite phz_snd, !mult_IZR, <- pow_IZR. pose proof (plz_pos s n m 0) as D. apply IZR_lt in D. assert (0 < 2 ^ n) by (apply pow_lt; lra). apply IZR_lt in HM.
  assert (0 < IZR cd) by (apply IZR_lt; reflexivity). set (CD := IZR cd) in *. set (CN := IZR cn). clearbody CD CN. field. split; lra.
Qed.

(** ** Relative error of p(y) / q(Y - y) *)

Definition chk_k (sg k B Y : Z) (p q : list dec) (L : list Z) (N : Z) : list Z :=
  let lq := pmul L (prefl Y (zs q)) in
  padd (pscale (sg * B) (padd (pscale (k * N) (zs p)) (pscale (-1) lq))) (pscale (-1) lq).

Lemma rat_k : forall p q k B Y t sh y L N T, (0 < B)%Z -> (0 <= sh)%Z -> (0 < Y)%Z -> (0 < N)%Z -> 0 <= y <= IZR Y ->
  forallb (dz_ok 60) p = true -> forallb (dz_ok 60) q = true -> posl (zs q) = true -> q <> [] ->
  (neg_chk t sh Y (chk_k 1 k B Y p q L N) && neg_chk t sh Y (chk_k (-1) k B Y p q L N))%bool = true ->
  peval L y = IZR N * T -> 0 < T ->
  Rabs (IZR k * (tab p y / tab q (IZR Y - y)) - T) <= T / IZR B.
Proof.
  intros p q k B Y t sh y L N T HB Hsh HY HN Hy Dp Dq Pq Nq C PE P0. apply andb_prop in C. destruct C as [C1 C2].
  pose proof (neg_ok _ _ Y _ y Hsh HY C1 Hy) as E1. pose proof (neg_ok _ _ Y _ y Hsh HY C2 Hy) as E2.
  unfold chk_k in E1, E2.
  rewrite !peval_padd, !peval_pscale, !peval_padd, !peval_pscale, !peval_pmul, peval_prefl, !mult_IZR in E1, E2. simpl (IZR 1) in *. simpl (IZR (-1)) in *.
  assert (QP : 0 < peval (zs q) (IZR Y - y)).
  { destruct q as [|c q]; [congruence|]. pose proof (peval_ge_hd (dz 60 c) (zs q) (IZR Y - y) ltac:(lra) Pq) as G.
    cbn [zs map posl forallb] in Pq. apply andb_prop in Pq. destruct Pq as [P1 _]. apply Z.ltb_lt, IZR_lt in P1. cbn [zs map]. fold (zs q). lra. }
  rewrite (tab_eq p y Dp), (tab_eq q _ Dq). assert (T0 : 0 < IZR (10 ^ 60)) by (apply IZR_lt; reflexivity).
  apply IZR_lt in HN, HB.
  replace (IZR k * (peval (zs p) y / IZR (10 ^ 60) / (peval (zs q) (IZR Y - y) / IZR (10 ^ 60)))) with
    (IZR k * peval (zs p) y / peval (zs q) (IZR Y - y)) by (field; lra).
  rewrite PE in *.
  apply (ratio_core _ _ (IZR N * T) (IZR N)); try assumption.
  - apply Rmult_lt_0_compat; assumption.
  - lra.
  - lra.
  - field. lra.
Qed.

(** ** K *)

Lemma hr1_ge : forall n m k y, 0 <= y -> hh n k <= hr 1 n k m y.
Proof.
  intros n. assert (H0 : forall k, 0 <= hh n k) by (intros k; unfold hh; pose proof (harmonic_nonneg k); pose proof (harmonic_nonneg (n + k)); lra).
  induction m as [|m IH]; intros k y Hy; cbn [hr]; [lra|]. specialize (IH (S k) y Hy). pose proof (wz_posR n k) as W.
  assert (0 <= 1 * y / IZR (wz n k)) by (apply Rmult_le_pos; [lra|left; apply Rinv_0_lt_compat, W]). specialize (H0 (S k)).
  assert (0 <= 1 * y / IZR (wz n k) * hr 1 n (S k) m y) by (apply Rmult_le_pos; lra). lra.
Qed.
Lemma tgt_pos : forall n m y, 0 <= y -> 1 / 10 / 2 ^ n <= tgt 1 n m y.
Proof.
  intros n m y Hy. unfold tgt. pose proof (pr1_ge n m 0 y Hy). pose proof (hr1_ge n m 0 y Hy).
  assert (0 <= hh n 0) by (unfold hh; pose proof (harmonic_nonneg 0); pose proof (harmonic_nonneg (n + 0)); lra).
  unfold Rdiv at 1 4. apply Rmult_le_compat_r; [left; apply Rinv_0_lt_compat, pow_lt; lra|]. unfold cn, cd. lra.
Qed.

Definition MK : Z := 27720.
Lemma chk_k0 : let L := tgt_l MK 1 0 10 in let N := tgt_n MK 1 0 10 in
  (neg_chk (full 5) 250 1 (chk_k 1 1 (4 * 10 ^ 14) 1 K0P K0Q L N) && neg_chk (full 5) 250 1 (chk_k (-1) 1 (4 * 10 ^ 14) 1 K0P K0Q L N))%bool = true.
Proof. vm_compute. reflexivity. Qed.
Lemma chk_k1 : let L := tgt_l MK 1 1 10 in let N := tgt_n MK 1 1 10 in
  (neg_chk (full 5) 250 1 (chk_k 1 (-1) (4 * 10 ^ 14) 1 K1P K1Q L N) && neg_chk (full 5) 250 1 (chk_k (-1) (-1) (4 * 10 ^ 14) 1 K1P K1Q L N))%bool = true.
Proof. vm_compute. reflexivity. Qed.
Lemma chk_k0i : let L := fst (plz 1 0 0 10) in let N := snd (plz 1 0 0 10) in
  (neg_chk (full 5) 250 1 (chk_k 1 1 (4 * 10 ^ 14) 1 K0PI K0QI L N) && neg_chk (full 5) 250 1 (chk_k (-1) 1 (4 * 10 ^ 14) 1 K0PI K0QI L N))%bool = true.
Proof. vm_compute. reflexivity. Qed.
Lemma chk_k1i : let L := fst (plz 1 1 0 10) in let N := snd (plz 1 1 0 10) in
  (neg_chk (full 5) 250 1 (chk_k 1 2 (4 * 10 ^ 14) 1 K1PI K1QI L N) && neg_chk (full 5) 250 1 (chk_k (-1) 2 (4 * 10 ^ 14) 1 K1PI K1QI L N))%bool = true.
Proof. vm_compute. reflexivity. Qed.

Lemma B4 : IZR (4 * 10 ^ 14) = 4 * 10 ^ 14.
Proof. rewrite mult_IZR, pow_IZR. reflexivity. Qed.

Lemma rat_k0 : forall y, 0 <= y <= 1 -> Rabs (tab K0P y / tab K0Q (1 - y) - tgt 1 0 10 y) <= tgt 1 0 10 y / (4 * 10 ^ 14).
Proof.
  intros y Hy. rewrite <- B4, <- (Rmult_1_l (tab K0P y / tab K0Q (1 - y))).
  apply (rat_k K0P K0Q 1 (4 * 10 ^ 14) 1 (full 5) 250 y (tgt_l MK 1 0 10) (tgt_n MK 1 0 10)); [lia|lia|lia|apply tgt_n_pos; reflexivity|exact Hy|reflexivity|reflexivity|reflexivity|discriminate|exact chk_k0|apply tgt_eq; reflexivity|pose proof (tgt_pos 0 10 y ltac:(lra)); simpl pow in *; lra].
Qed.
Lemma rat_k1 : forall y, 0 <= y <= 1 -> Rabs (-1 * (tab K1P y / tab K1Q (1 - y)) - tgt 1 1 10 y) <= tgt 1 1 10 y / (4 * 10 ^ 14).
Proof.
  intros y Hy. rewrite <- B4.
  apply (rat_k K1P K1Q (-1) (4 * 10 ^ 14) 1 (full 5) 250 y (tgt_l MK 1 1 10) (tgt_n MK 1 1 10)); [lia|lia|lia|apply tgt_n_pos; reflexivity|exact Hy|reflexivity|reflexivity|reflexivity|discriminate|exact chk_k1|apply tgt_eq; reflexivity|pose proof (tgt_pos 1 10 y ltac:(lra)); simpl pow in *; lra].
Qed.
Lemma rat_k0i : forall y, 0 <= y <= 1 -> Rabs (tab K0PI y / tab K0QI (1 - y) - pr 1 0 0 10 y) <= pr 1 0 0 10 y / (4 * 10 ^ 14).
Proof.
  intros y Hy. rewrite <- B4, <- (Rmult_1_l (tab K0PI y / tab K0QI (1 - y))).
  apply (rat_k K0PI K0QI 1 (4 * 10 ^ 14) 1 (full 5) 250 y (fst (plz 1 0 0 10)) (snd (plz 1 0 0 10))); [lia|lia|lia|apply plz_pos|exact Hy|reflexivity|reflexivity|reflexivity|discriminate|exact chk_k0i|apply plz_eq|pose proof (pr1_ge 0 10 0 y ltac:(lra)); lra].
Qed.
Lemma rat_k1i : forall y, 0 <= y <= 1 -> Rabs (2 * (tab K1PI y / tab K1QI (1 - y)) - pr 1 1 0 10 y) <= pr 1 1 0 10 y / (4 * 10 ^ 14).
Proof.
  intros y Hy. rewrite <- B4.
  apply (rat_k K1PI K1QI 2 (4 * 10 ^ 14) 1 (full 5) 250 y (fst (plz 1 1 0 10)) (snd (plz 1 1 0 10))); [lia|lia|lia|apply plz_pos|exact Hy|reflexivity|reflexivity|reflexivity|discriminate|exact chk_k1i|apply plz_eq|pose proof (pr1_ge 1 10 0 y ltac:(lra)); lra].
Qed.

(** ** Y *)

(** 2 / pi *)
Definition pn : Z := 636619772367581343.
Definition pd : Z := 1000000000000000000.

(** sg B (pd N r(Y - y) + pn L s) - pd N s *)
Definition chk_y (sg B Y : Z) (r s : list dec) (L : list Z) (N : Z) : list Z :=
  padd (pscale (sg * B) (padd (pscale (pd * N) (prefl Y (zs r))) (pscale pn (pmul L (zs s))))) (pscale (- (pd * N)) (zs s)).

Lemma rat_y : forall r s B Y t sh y L N T, (0 < B)%Z -> (0 <= sh)%Z -> (0 < Y)%Z -> (0 < N)%Z -> 0 <= y <= IZR Y ->
  forallb (dz_ok 60) r = true -> forallb (dz_ok 60) s = true -> posl (zs s) = true -> s <> [] ->
  (neg_chk t sh Y (chk_y 1 B Y r s L N) && neg_chk t sh Y (chk_y (-1) B Y r s L N))%bool = true ->
  peval L y = IZR N * T ->
  Rabs (tab r (IZR Y - y) / tab s y - - (IZR pn / IZR pd * T)) <= 1 / IZR B.
Proof.
  intros r s B Y t sh y L N T HB Hsh HY HN Hy Dr Ds Ps Ns C PE. apply andb_prop in C. destruct C as [C1 C2].
  pose proof (neg_ok _ _ Y _ y Hsh HY C1 Hy) as E1. pose proof (neg_ok _ _ Y _ y Hsh HY C2 Hy) as E2.
  unfold chk_y in E1, E2.
  rewrite !peval_padd, !peval_pscale, !peval_padd, !peval_pscale, !peval_pmul, peval_prefl, (opp_IZR (pd * N)), (mult_IZR pd N), PE in E1, E2.
  rewrite (mult_IZR 1 B) in E1. rewrite (mult_IZR (-1) B) in E2.
  assert (QP : 0 < peval (zs s) y).
  { destruct s as [|c q]; [congruence|]. pose proof (peval_ge_hd (dz 60 c) (zs q) y ltac:(lra) Ps) as G.
    cbn [zs map posl forallb] in Ps. apply andb_prop in Ps. destruct Ps as [P1 _]. apply Z.ltb_lt, IZR_lt in P1. cbn [zs map]. fold (zs q). lra. }
  rewrite (tab_eq r _ Dr), (tab_eq s _ Ds). assert (T0 : 0 < IZR (10 ^ 60)) by (apply IZR_lt; reflexivity).
  assert (PD : 0 < IZR pd) by (apply IZR_lt; reflexivity).
  apply IZR_lt in HN, HB. set (PN := IZR pn) in *. set (PDr := IZR pd) in *. clearbody PN PDr.
  replace (peval (zs r) (IZR Y - y) / IZR (10 ^ 60) / (peval (zs s) y / IZR (10 ^ 60))) with (peval (zs r) (IZR Y - y) / peval (zs s) y) by (field; lra).
  apply (abs_core _ _ (- (PN * (IZR N * T))) (PDr * IZR N)); try assumption.
  - apply Rmult_lt_0_compat; assumption.
  - lra.
  - lra.
  - field. lra.
Qed.

Definition MY : Z := 80313433200.
Lemma chk_y0 : let L := tgt_l MY (-1) 0 26 in let N := tgt_n MY (-1) 0 26 in
  (neg_chk (full 5) 400 64 (chk_y 1 (10 ^ 15) 64 Y0R Y0S L N) && neg_chk (full 5) 400 64 (chk_y (-1) (10 ^ 15) 64 Y0R Y0S L N))%bool = true.
Proof. vm_compute. reflexivity. Qed.
Lemma chk_y1 : let L := tgt_l MY (-1) 1 26 in let N := tgt_n MY (-1) 1 26 in
  (neg_chk (full 5) 400 64 (chk_y 1 (10 ^ 15) 64 Y1R Y1S L N) && neg_chk (full 5) 400 64 (chk_y (-1) (10 ^ 15) 64 Y1R Y1S L N))%bool = true.
Proof. vm_compute. reflexivity. Qed.

Lemma rat_y0 : forall y, 0 <= y <= 64 -> Rabs (tab Y0R (64 - y) / tab Y0S y - - (IZR pn / IZR pd * tgt (-1) 0 26 y)) <= 1 / 10 ^ 15.
Proof.
  intros y Hy. replace (10 ^ 15) with (IZR (10 ^ 15)) by (rewrite pow_IZR; reflexivity).
  apply (rat_y Y0R Y0S (10 ^ 15) 64 (full 5) 400 y (tgt_l MY (-1) 0 26) (tgt_n MY (-1) 0 26)); [lia|lia|lia|apply tgt_n_pos; reflexivity|exact Hy|reflexivity|reflexivity|reflexivity|discriminate|exact chk_y0|apply tgt_eq; reflexivity].
Qed.
Lemma rat_y1 : forall y, 0 <= y <= 64 -> Rabs (tab Y1R (64 - y) / tab Y1S y - - (IZR pn / IZR pd * tgt (-1) 1 26 y)) <= 1 / 10 ^ 15.
Proof.
  intros y Hy. replace (10 ^ 15) with (IZR (10 ^ 15)) by (rewrite pow_IZR; reflexivity).
  apply (rat_y Y1R Y1S (10 ^ 15) 64 (full 5) 400 y (tgt_l MY (-1) 1 26) (tgt_n MY (-1) 1 26)); [lia|lia|lia|apply tgt_n_pos; reflexivity|exact Hy|reflexivity|reflexivity|reflexivity|discriminate|exact chk_y1|apply tgt_eq; reflexivity].
Qed.
