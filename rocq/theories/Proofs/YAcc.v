(** * Rounding errors of y0 and y1 on (0, 8) *)

From Coq Require Import ZArith Reals Bool Lra Lia List.
From Flocq Require Import Core IEEE754.BinarySingleNaN IEEE754.Binary IEEE754.Bits.
From Verif.Model Require Import Base Arith BesselTables Bessel.
From Verif.Float Require Import Bits64 Ieee Exact Platforms.
From Verif.Spec Require Import F64Spec Outcome BesselSpec Bessel2Spec.
From Verif.Proofs Require Import F64 F64Ops Lits Ext ExpBounds FlErr GammaAcc GserAcc HornerErr PolyZ BesselSeries BesselRat PosHorner BesselAcc BesselJAcc LnGammaFl EulerGamma PiBounds SecondSeries SecondRat Domains KAcc.
Import ListNotations.
Open Scope R_scope.

Local Notation exp := Rtrigo_def.exp.
Local Notation ln := Rpower.ln.

(** ** Bounds and slopes on [0, 64] *)

Definition chk_b1 (sg : Z) (L : list Z) (N : Z) : list Z := padd (pscale sg L) [(- N)%Z].
Definition chk_d1 (sg : Z) (L : list Z) (N : Z) : list Z := padd (pscale (2 * sg) (pder L)) [(- N)%Z].

Lemma bnd64 : forall t sh L N (T : R -> R) y, (0 <= sh)%Z -> (0 < N)%Z -> (forall z, peval L z = IZR N * T z) ->
  (neg_chk t sh 64 (chk_b1 1 L N) && neg_chk t sh 64 (chk_b1 (-1) L N))%bool = true -> 0 <= y <= 64 -> Rabs (T y) <= 1.
Proof.
  intros t sh L N T y Hsh HN E C Hy. apply andb_prop in C. destruct C as [C1 C2].
  pose proof (neg_ok _ _ 64 _ y Hsh ltac:(lia) C1 Hy) as E1. pose proof (neg_ok _ _ 64 _ y Hsh ltac:(lia) C2 Hy) as E2.
  unfold chk_b1 in E1, E2. rewrite !peval_padd, !peval_pscale, E, peval_cons, opp_IZR in E1, E2. change (peval [] y) with 0 in *. apply IZR_lt in HN.
  apply Rabs_le. split; apply Rmult_le_reg_l with (IZR N); lra.
Qed.
Lemma lip64 : forall t sh L N (T : R -> R) x y, (0 <= sh)%Z -> (0 < N)%Z -> (forall z, peval L z = IZR N * T z) ->
  (neg_chk t sh 64 (chk_d1 1 L N) && neg_chk t sh 64 (chk_d1 (-1) L N))%bool = true -> 0 <= x <= 64 -> 0 <= y <= 64 -> Rabs (T x - T y) <= Rabs (x - y) / 2.
Proof.
  intros t sh L N T x y Hsh HN E C Hx Hy. apply andb_prop in C. destruct C as [C1 C2].
  assert (E1 := fun z Hz => neg_ok _ _ 64 _ z Hsh ltac:(lia) C1 Hz). assert (E2 := fun z Hz => neg_ok _ _ 64 _ z Hsh ltac:(lia) C2 Hz). clear C1 C2. apply IZR_lt in HN.
  assert (D : forall z, 0 <= z <= 64 -> Rabs (peval (pder L) z) <= IZR N / 2).
  { intros z Hz. specialize (E1 z Hz). specialize (E2 z Hz). unfold chk_d1 in E1, E2. rewrite !peval_padd, !peval_pscale, peval_cons, opp_IZR, !mult_IZR in E1, E2. change (peval [] z) with 0 in *. apply Rabs_le. lra. }
  assert (G : forall x y, x < y -> 0 <= x <= 64 -> 0 <= y <= 64 -> Rabs (T x - T y) <= Rabs (x - y) / 2).
  { clear x y Hx Hy. intros x y Lt Hx Hy. destruct (MVT_cor2 (peval L) (peval (pder L)) x y Lt) as (c & Ec & Hc).
    { intros c _. apply derive_peval. }
    specialize (D c ltac:(lra)). apply Rmult_le_reg_l with (IZR N); [exact HN|]. rewrite <- (Rabs_pos_eq (IZR N)) at 1 by lra. rewrite <- Rabs_mult, Rmult_minus_distr_l, <- !E.
    rewrite <- Rabs_Ropp, Ropp_minus_distr, Ec, Rabs_mult, (Rabs_minus_sym x y).
    apply Rle_trans with (IZR N / 2 * Rabs (y - x)); [apply Rmult_le_compat_r; [apply Rabs_pos|exact D]|]. right. field. }
  destruct (Rtotal_order x y) as [Lt|[->|Lt]].
  - apply G; assumption.
  - rewrite !Rminus_diag_eq, !Rabs_R0 by reflexivity. lra.
  - rewrite (Rabs_minus_sym (T x)), (Rabs_minus_sym x). apply G; assumption.
Qed.

Lemma chk_ty : forallb (fun n => let L := tgt_l MY (-1) n 26 in let N := tgt_n MY (-1) n 26 in
  neg_chk (full 4) 150 64 (chk_b1 1 L N) && neg_chk (full 4) 150 64 (chk_b1 (-1) L N) && (neg_chk (full 4) 150 64 (chk_d1 1 L N) && neg_chk (full 4) 150 64 (chk_d1 (-1) L N))) [0%nat; 1%nat] = true.
Proof. vm_compute. reflexivity. Qed.

Lemma chk_ty_n : forall n, (n = 0 \/ n = 1)%nat -> let L := tgt_l MY (-1) n 26 in let N := tgt_n MY (-1) n 26 in
  (neg_chk (full 4) 150 64 (chk_b1 1 L N) && neg_chk (full 4) 150 64 (chk_b1 (-1) L N) && (neg_chk (full 4) 150 64 (chk_d1 1 L N) && neg_chk (full 4) 150 64 (chk_d1 (-1) L N)))%bool = true.
Proof.
  intros n Hn. pose proof (proj1 (forallb_forall _ _) chk_ty n) as H. apply H. destruct Hn as [-> | ->]; [left; reflexivity|right; left; reflexivity].
Qed.

Lemma tgt_y : forall n x y, (n = 0 \/ n = 1)%nat -> 0 <= x <= 64 -> 0 <= y <= 64 -> Rabs (tgt (-1) n 26 x) <= 1 /\ Rabs (tgt (-1) n 26 x - tgt (-1) n 26 y) <= Rabs (x - y) / 2.
Proof.
  intros n x y Hn Hx Hy. pose proof (chk_ty_n n Hn) as C. cbv zeta in C. apply andb_prop in C. destruct C as [C1 C2].
  assert (Hz : forall z, peval (tgt_l MY (-1) n 26) z = IZR (tgt_n MY (-1) n 26) * tgt (-1) n 26 z).
  { intros z. apply tgt_eq; destruct Hn as [-> | ->]; reflexivity. }
  assert (HN : (0 < tgt_n MY (-1) n 26)%Z) by (apply tgt_n_pos; reflexivity).
  split.
  - exact (bnd64 _ 150 _ _ _ x ltac:(lia) HN Hz C1 Hx).
  - exact (lip64 _ 150 _ _ _ x y ltac:(lia) HN Hz C2 Hx Hy).
Qed.

(** ** The series on (0, 8) *)

Lemma y_ser : forall n x b h, (n = 0 \/ n = 1)%nat -> 0 < x <= 8 -> infinite_sum (bterm (-1) n x) b -> infinite_sum (hterm (-1) n x) h ->
  Rabs (b - bterm (-1) n x 0 * pr (-1) n 0 26 (x * x)) <= Rabs (bterm (-1) n x 0) / 10 ^ 17 /\
  Rabs (h - bterm (-1) n x 0 * hr (-1) n 0 26 (x * x)) <= Rabs (bterm (-1) n x 0) / 10 ^ 17.
Proof.
  intros n x b h Hn Hx Hb Hh. assert (X : x * x <= IZR 64) by nra.
  assert (A1 : Rabs (-1) = 1) by (rewrite Rabs_left; lra).
  replace (10 ^ 17) with (IZR (10 ^ 17)) by (rewrite pow_IZR; reflexivity). split.
  - apply (series_near 64); try assumption; try lia; destruct Hn as [-> | ->]; vm_compute; reflexivity.
  - apply (hseries_near 64); try assumption; try lia; destruct Hn as [-> | ->]; vm_compute; reflexivity.
Qed.

Lemma pi_near : Rabs (2 / Rtrigo1.PI - IZR pn / IZR pd) <= 1 / 10 ^ 17 /\ 0 < 2 / Rtrigo1.PI <= 637 / 1000.
Proof.
  pose proof PI_bounds as B. pose proof PI_RGT_0 as P0. replace (IZR (2 ^ 70)) with 1180591620717411303424 in B by reflexivity.
  assert (E : forall a b, a * Rtrigo1.PI <= 2 <= b * Rtrigo1.PI -> a <= 2 / Rtrigo1.PI <= b).
  { intros a b [H1 H2]. split; apply Rmult_le_reg_r with Rtrigo1.PI; try assumption; replace (2 / Rtrigo1.PI * Rtrigo1.PI) with 2 by (field; lra); assumption. }
  set (p := Rtrigo1.PI) in *. clearbody p. split.
  - destruct (E (IZR pn / IZR pd - 1 / 10 ^ 17) (IZR pn / IZR pd + 1 / 10 ^ 17)) as [E1 E2]; [unfold pn, pd; lra|]. apply Rabs_le. lra.
  - destruct (E (1 / 10) (637 / 1000)) as [E1 E2]; lra.
Qed.

Lemma y_core : forall k c C b h W Hr B T P Q, 0 <= B -> Rabs W <= 101 / 100 -> 1 / 10 <= C <= 1 / 8 -> Rabs (c - C) <= 8 / 10 ^ 18 -> Rabs (b - B * W) <= B / 10 ^ 17 -> Rabs (h - B * Hr) <= B / 10 ^ 17 ->
  1 <= k <= 2 -> k * T = C * W + Hr / 2 -> Rabs T <= 1 -> Rabs (P - Q) <= 1 / 10 ^ 17 -> 0 < P <= 637 / 1000 ->
  Rabs (P * (c * b + h / 2) - B * k * (Q * T)) <= 5 / 10 ^ 17 * B.
Proof.
  intros k c C b h W Hr B T P Q HB HW HC Hc Hb Hh Hk HT T1 HP P0.
  replace (P * (c * b + h / 2) - B * k * (Q * T)) with (P * ((c - C) * b + (C * (b - B * W) + (h - B * Hr) / 2)) + B * (k * T) * (P - Q)).
  2:{ replace (B * k * (Q * T)) with (B * Q * (k * T)) by ring. rewrite HT. field. }
  eapply Rle_trans; [apply Rabs_triang|]. rewrite !Rabs_mult, (Rabs_pos_eq P), (Rabs_pos_eq B), (Rabs_pos_eq k) by lra.
  assert (BW : Rabs (B * W) <= B * (101 / 100)). { rewrite Rabs_mult, (Rabs_pos_eq B) by lra. apply Rmult_le_compat_l; lra. }
  assert (Bb : Rabs b <= B * (102 / 100)). { apply Rabs_le_inv in Hb, BW. apply Rabs_le. lra. }
  assert (E1 : Rabs ((c - C) * b) <= 8 / 10 ^ 18 * (B * (102 / 100))) by (rewrite Rabs_mult; apply Rmult_le_compat; try apply Rabs_pos; assumption).
  assert (E2 : Rabs (C * (b - B * W)) <= 1 / 8 * (B / 10 ^ 17)). { rewrite Rabs_mult, (Rabs_pos_eq C) by lra. apply Rmult_le_compat; [lra|apply Rabs_pos|lra|exact Hb]. }
  assert (E3 : Rabs ((c - C) * b + (C * (b - B * W) + (h - B * Hr) / 2)) <= 3 / 10 ^ 17 * B). { apply Rabs_le_inv in E1, E2, Hh. apply Rabs_le. lra. }
  assert (E4 : P * Rabs ((c - C) * b + (C * (b - B * W) + (h - B * Hr) / 2)) <= 637 / 1000 * (3 / 10 ^ 17 * B)) by (apply Rmult_le_compat; [lra|apply Rabs_pos|lra|exact E3]).
  assert (E5 : B * (k * Rabs T) * Rabs (P - Q) <= B * (2 * 1) * (1 / 10 ^ 17)).
  { apply Rmult_le_compat; [|apply Rabs_pos| |exact HP].
    - apply Rmult_le_pos; [lra|]. apply Rmult_le_pos; [lra|apply Rabs_pos].
    - apply Rmult_le_compat_l; [lra|]. apply Rmult_le_compat; [lra|apply Rabs_pos|lra|exact T1]. }
  lra.
Qed.

Lemma y0_ser : forall x v, 0 < x <= 8 -> is_Y 0 x v ->
  exists b, is_J 0 x b /\ Rabs b <= 102 / 100 /\ Rabs (v - (2 / Rtrigo1.PI * (ln x * b) - IZR pn / IZR pd * tgt (-1) 0 26 (x * x))) <= 5 / 10 ^ 17.
Proof.
  intros x v Hx (w & (g & b & h & Hg & Hb & Hh & ->) & ->). exists b. split; [exact Hb|].
  destruct (y_ser 0 x b h ltac:(lia) Hx Hb Hh) as [Sb Sh]. rewrite bterm_0 in Sb, Sh. cbn [pow fact] in Sb, Sh. simpl (INR 1) in Sb, Sh. replace (1 / 1) with 1 in * by field. rewrite Rabs_R1 in Sb, Sh.
  assert (X : 0 <= x * x <= 64) by nra. pose proof (pr_j_bound 0 (x * x) ltac:(lia) X) as W1. destruct (tgt_y 0 (x * x) (x * x) ltac:(lia) X X) as [T1 _].
  destruct pi_near as [P1 P2]. split. { apply Rabs_le_inv in Sb, W1. apply Rabs_le. lra. }
  assert (HT : 1 * tgt (-1) 0 26 (x * x) = IZR cn / IZR cd * pr (-1) 0 0 26 (x * x) + hr (-1) 0 0 26 (x * x) / 2) by (unfold tgt; cbn [pow]; lra).
  pose proof (y_core 1 _ _ b h _ _ 1 _ _ _ ltac:(lra) W1 c_val (c_near g Hg) Sb Sh ltac:(lra) HT T1 P1 P2) as K.
  cbn [sum_below]. rewrite (ln_half x) by lra.
  match goal with |- Rabs ?A <= _ => replace A with (- (2 / Rtrigo1.PI * ((ln 2 - g) * b + h / 2) - 1 * 1 * (IZR pn / IZR pd * tgt (-1) 0 26 (x * x)))) by (cbn [pow]; lra) end.
  rewrite Rabs_Ropp. rewrite (Rmult_1_r (5 / 10 ^ 17)) in K. exact K.
Qed.

Lemma y1_ser : forall x v, 0 < x <= 8 -> is_Y 1 x v ->
  exists b, is_J 1 x b /\ Rabs b <= 51 / 100 * x /\ Rabs (v - (2 / Rtrigo1.PI * (ln x * b - / x) - x * (IZR pn / IZR pd * tgt (-1) 1 26 (x * x)))) <= 3 / 10 ^ 17 * x.
Proof.
  intros x v Hx (w & (g & b & h & Hg & Hb & Hh & ->) & ->). exists b. split; [exact Hb|].
  destruct (y_ser 1 x b h ltac:(lia) Hx Hb Hh) as [Sb Sh]. rewrite bterm_0 in Sb, Sh. cbn [fact] in Sb, Sh. rewrite pow_1 in Sb, Sh. change (INR (1 * 1)) with 1 in Sb, Sh. replace (x / 2 / 1) with (x / 2) in * by field.
  rewrite (Rabs_pos_eq (x / 2)) in Sb, Sh by lra.
  assert (X : 0 <= x * x <= 64) by nra. pose proof (pr_j_bound 1 (x * x) ltac:(lia) X) as W1. destruct (tgt_y 1 (x * x) (x * x) ltac:(lia) X X) as [T1 _].
  destruct pi_near as [P1 P2]. split.
  { assert (BW : Rabs (x / 2 * pr (-1) 1 0 26 (x * x)) <= x / 2 * (101 / 100)) by (rewrite Rabs_mult, (Rabs_pos_eq (x / 2)) by lra; apply Rmult_le_compat_l; lra).
    apply Rabs_le_inv in Sb, BW. apply Rabs_le. lra. }
  assert (HT : 2 * tgt (-1) 1 26 (x * x) = IZR cn / IZR cd * pr (-1) 1 0 26 (x * x) + hr (-1) 1 0 26 (x * x) / 2) by (unfold tgt; rewrite pow_1; lra).
  pose proof (y_core 2 _ _ b h _ _ (x / 2) _ _ _ ltac:(lra) W1 c_val (c_near g Hg) Sb Sh ltac:(lra) HT T1 P1 P2) as K.
  cbn [sum_below]. unfold fterm. rewrite (ln_half x) by lra. change (1 - 0 - 1)%nat with 0%nat. change (2 * 0)%nat with 0%nat.
  eapply Rle_trans; [|eapply Rle_trans; [exact K|]]; [|lra]. right. rewrite <- Rabs_Ropp. f_equal. cbn [pow fact]. simpl (INR 1).
  set (C := IZR pn / IZR pd) in *. clearbody C. set (T := tgt (-1) 1 26 (x * x)) in *. clearbody T. clear - Hx. pose proof PI_RGT_0. field. lra.
Qed.

(** ** Horner chains with signs *)

Definition dabs (c : dec) : dec := Dec (Z.abs (dman c)) (dexp c).
Lemma dabs_eq : forall c, R_of_dec (dabs c) = Rabs (R_of_dec c).
Proof. intros c. unfold R_of_dec, dabs. cbn [dman dexp]. rewrite abs_IZR, Rabs_mult, (Rabs_pos_eq (powerRZ _ _)); [reflexivity|apply powerRZ_le; lra]. Qed.

Lemma tab_abs : forall l x, Rabs (tab l x) <= tab (map dabs l) (Rabs x).
Proof.
  induction l as [|c l IH]; intros x; [change (Rabs 0 <= 0); rewrite Rabs_R0; lra|].
  change (Rabs (R_of_dec c + x * tab l x) <= R_of_dec (dabs c) + Rabs x * tab (map dabs l) (Rabs x)). rewrite dabs_eq.
  eapply Rle_trans; [apply Rabs_triang|]. apply Rplus_le_compat_l. rewrite Rabs_mult. apply Rmult_le_compat_l; [apply Rabs_pos|apply IH].
Qed.

Lemma step_abs : forall c lc x h t T m r k d, Rabs (lc - c) <= uu * Rabs c + eta -> Rabs (h - t) <= k * T + d -> Rabs t <= T -> Rabs (m - x * h) <= uu * Rabs (x * h) + eta ->
  Rabs (r - (lc + m)) <= uu * Rabs (lc + m) + eta -> Rabs x <= 65 -> 0 <= k <= 1 / 10 ^ 13 -> 0 <= d ->
  Rabs (r - (c + x * t)) <= (k + 3 * uu) * (Rabs c + Rabs x * T) + (66 * d + 4 * eta).
Proof.
  intros c lc x h t T m r k d Hc Hh Ht Hm Hr Hx Hk Hd. pose proof eta_pos as E0.
  pose proof (Rabs_pos c) as C0. pose proof (Rabs_pos x) as X0. assert (T0 : 0 <= T) by (pose proof (Rabs_pos t); lra).
  assert (kT : 0 <= k * T) by (apply Rmult_le_pos; lra).
  assert (Bh : Rabs h <= T + (k * T + d)). { replace h with (t + (h - t)) by ring. eapply Rle_trans; [apply Rabs_triang|]. lra. }
  assert (Bxh : Rabs (x * h) <= Rabs x * (T + (k * T + d))) by (rewrite Rabs_mult; apply Rmult_le_compat_l; assumption).
  assert (Exh : Rabs (x * h - x * t) <= Rabs x * (k * T + d)). { rewrite <- Rmult_minus_distr_l, Rabs_mult. apply Rmult_le_compat_l; assumption. }
  assert (XT : 0 <= Rabs x * T) by (apply Rmult_le_pos; lra). assert (kXT : 0 <= k * (Rabs x * T) <= 1 / 10 ^ 13 * (Rabs x * T)) by (split; [apply Rmult_le_pos; lra|apply Rmult_le_compat_r; lra]).
  assert (Xd : 0 <= Rabs x * d <= 65 * d) by (split; [apply Rmult_le_pos; lra|apply Rmult_le_compat_r; lra]).
  replace (Rabs x * (T + (k * T + d))) with (Rabs x * T + k * (Rabs x * T) + Rabs x * d) in Bxh by ring.
  replace (Rabs x * (k * T + d)) with (k * (Rabs x * T) + Rabs x * d) in Exh by ring.
  replace ((k + 3 * uu) * (Rabs c + Rabs x * T)) with (k * Rabs c + 3 * uu * Rabs c + (k * (Rabs x * T) + 3 * uu * (Rabs x * T))) by ring.
  assert (kc : 0 <= k * Rabs c) by (apply Rmult_le_pos; lra).
  set (Y := Rabs x * T) in *. set (kY := k * Y) in *. set (D := Rabs x * d) in *. set (C := Rabs c) in *. set (kC := k * C) in *.
  assert (Bm : Rabs m <= (1 + uu) * (Y + kY + D) + eta).
  { replace m with (x * h + (m - x * h)) by ring. eapply Rle_trans; [apply Rabs_triang|]. assert (uu * Rabs (x * h) <= uu * (Y + kY + D)) by (apply Rmult_le_compat_l; [unfold uu; lra|exact Bxh]). lra. }
  assert (Bl : Rabs lc <= (1 + uu) * C + eta). { replace lc with (c + (lc - c)) by ring. eapply Rle_trans; [apply Rabs_triang|]. unfold C in *. lra. }
  assert (Bs : Rabs (lc + m) <= (1 + uu) * C + eta + ((1 + uu) * (Y + kY + D) + eta)) by (eapply Rle_trans; [apply Rabs_triang|]; lra).
  assert (U1 : uu * Rabs (x * h) <= uu * (Y + kY + D)) by (apply Rmult_le_compat_l; [unfold uu; lra|exact Bxh]).
  assert (U2 : uu * Rabs (lc + m) <= uu * ((1 + uu) * C + eta + ((1 + uu) * (Y + kY + D) + eta))) by (apply Rmult_le_compat_l; [unfold uu; lra|exact Bs]).
  replace (r - (c + x * t)) with ((r - (lc + m)) + ((lc - c) + ((m - x * h) + (x * h - x * t)))) by ring.
  eapply Rle_trans; [apply Rabs_triang|]. eapply Rle_trans; [apply Rplus_le_compat_l, Rabs_triang|]. eapply Rle_trans; [apply Rplus_le_compat_l, Rplus_le_compat_l, Rabs_triang|].
  assert (C0' : 0 <= C) by exact C0. clearbody Y kY D C kC. unfold uu in *. lra.
Qed.

Lemma tab_size : forall l x, forallb okd l = true -> 0 <= x <= 65 -> 0 <= tab l x <= 66 ^ length l.
Proof.
  induction l as [|c l IH]; intros x H Hx; [change (0 <= 0 <= 1); lra|]. cbn [forallb] in H. apply andb_prop in H. destruct H as [H1 H2].
  apply okd_range in H1. specialize (IH x H2 Hx). change (tab (c :: l) x) with (R_of_dec c + x * tab l x). cbn [length pow].
  assert (0 <= / 2 ^ 200) by (left; apply Rinv_0_lt_compat, pow_lt; lra).
  assert (0 <= x * tab l x <= 65 * 66 ^ length l) by (split; [apply Rmult_le_pos; lra|apply Rmult_le_compat; lra]).
  assert (1 <= 66 ^ length l) by (apply pow_R1_Rle; lra). lra.
Qed.

Section Y.
  Context (P : platform).
  Local Notation mul := (f64_mul P). Local Notation add := (f64_add P). Local Notation sub := (f64_sub P). Local Notation div := (f64_div P).

  Lemma horner_cons : forall (x : f64) c l, l <> [] -> @horner_add_first (ieee P) x (c :: l) = add (f64_lit c) (mul x (@horner_add_first (ieee P) x l)).
  Proof.
    intros x c l Hl. unfold horner_add_first. cbn [rev]. destruct (rev l) as [|d ds] eqn:E.
    - apply (f_equal (@rev dec)) in E. rewrite rev_involutive in E. cbn [rev] in E. congruence.
    - cbn [app]. rewrite fold_left_app. reflexivity.
  Qed.

  Lemma big70 : forall n, (n <= 20)%nat -> 10 * 70 ^ n <= bpow radix2 1000.
  Proof.
    intros n Hn. apply Rle_trans with (10 * 70 ^ 20); [apply Rmult_le_compat_l; [lra|apply Rle_pow; [lra|exact Hn]]|].
    apply Rle_trans with (2 ^ 140); [lra|]. replace (2 ^ 140) with (bpow radix2 140) by (rewrite bpow_powerRZ; change (IZR radix2) with 2; change 140%Z with (Z.of_nat 140); rewrite <- pow_powerRZ; reflexivity). apply bpow_le; lia.
  Qed.

  Lemma horner_signed : forall (x : f64) l, fin x -> Rabs (val x) <= 65 -> forallb okd (map dabs l) = true -> l <> [] -> (length l <= 20)%nat ->
    fin (@horner_add_first (ieee P) x l) /\
    Rabs (val (@horner_add_first (ieee P) x l) - tab l (val x)) <= 3 * INR (length l) * uu * tab (map dabs l) (Rabs (val x)) + 70 ^ length l * eta.
  Proof.
    intros x l Fx Hx. pose proof eta_pos as E0. pose proof eta_20 as E20. induction l as [|c l IH]; intros Ok Nl Ln; [congruence|].
    cbn [map forallb] in Ok. apply andb_prop in Ok. destruct Ok as [O1 O2]. apply okd_range in O1. rewrite dabs_eq in O1.
    assert (P200 : 0 < / 2 ^ 200) by (apply Rinv_0_lt_compat, pow_lt; lra).
    destruct (lit_fl c (below_1000 (Rabs (R_of_dec c)) 1 ltac:(lra) ltac:(lra))) as [Fc Ec].
    destruct l as [|d l'] eqn:EL.
    - cbn [length map]. change (@horner_add_first (ieee P) x [c]) with (f64_lit c). split; [exact Fc|].
      change (tab [c] (val x)) with (R_of_dec c + val x * 0). change (tab [dabs c] (Rabs (val x))) with (R_of_dec (dabs c) + Rabs (val x) * 0). rewrite dabs_eq, !Rmult_0_r, !Rplus_0_r. change (INR 1) with 1. rewrite pow_1.
      eapply Rle_trans; [exact Ec|]. unfold uu. lra.
    - rewrite <- EL in *. assert (Nl' : l <> []) by (rewrite EL; discriminate). clear EL d l'. cbn [length] in Ln. 
      specialize (IH O2 Nl' ltac:(lia)). destruct IH as [Fh Eh]. rewrite (horner_cons x c l Nl').
      set (h := @horner_add_first (ieee P) x l) in *. clearbody h.
      pose proof (tab_abs l (val x)) as Bt. pose proof (tab_size _ (Rabs (val x)) O2 ltac:(split; [apply Rabs_pos|exact Hx])) as ST. rewrite map_length in ST.
      set (T := tab (map dabs l) (Rabs (val x))) in *. set (t := tab l (val x)) in *. set (n := length l) in *.
      assert (Kn : 0 <= 3 * INR n * uu <= 1 / 10 ^ 13).
      { assert (INR n <= INR 20) by (apply le_INR; lia). pose proof (pos_INR n). replace (INR 20) with 20 in * by (simpl; lra). unfold uu. split; [|lra]. repeat apply Rmult_le_pos; lra. }
      assert (P66 : 66 ^ n <= 70 ^ n) by (apply pow_incr; lra). assert (P70 : 1 <= 70 ^ n) by (apply pow_R1_Rle; lra).
      assert (Dn : 0 <= 70 ^ n * eta <= 70 ^ n) by (split; [apply Rmult_le_pos; lra|rewrite <- (Rmult_1_r (70 ^ n)) at 2; apply Rmult_le_compat_l; lra]).
      assert (KT : 3 * INR n * uu * T <= 70 ^ n). { rewrite <- (Rmult_1_l (70 ^ n)). apply Rmult_le_compat; lra. }
      assert (B70 : 10 * 70 ^ S n <= bpow radix2 1000) by (apply big70; exact Ln). cbn [pow] in B70.
      assert (Bh : Rabs (val h) <= 3 * 70 ^ n). { replace (val h) with (t + (val h - t)) by ring. eapply Rle_trans; [apply Rabs_triang|]. lra. }
      assert (Bxh : Rabs (val x * val h) <= 65 * (3 * 70 ^ n)) by (rewrite Rabs_mult; apply Rmult_le_compat; try apply Rabs_pos; assumption).
      destruct (mul_fl P x h Fx Fh ltac:(lra)) as [Fm Em]. set (m := mul x h) in *. clearbody m.
      assert (Bm : Rabs (val m) <= 200 * 70 ^ n). { replace (val m) with (val x * val h + (val m - val x * val h)) by ring. eapply Rle_trans; [apply Rabs_triang|]. unfold uu in *. lra. }
      assert (Bc : Rabs (val (f64_lit c)) <= 2). { replace (val (f64_lit c)) with (R_of_dec c + (val (f64_lit c) - R_of_dec c)) by ring. eapply Rle_trans; [apply Rabs_triang|]. unfold uu in *. lra. }
      destruct (add_fl P (f64_lit c) m Fc Fm) as [Fr Er]. { eapply Rle_trans; [apply Rabs_triang|]. lra. }
      split; [exact Fr|]. change (tab (c :: l) (val x)) with (R_of_dec c + val x * t). change (tab (map dabs (c :: l)) (Rabs (val x))) with (R_of_dec (dabs c) + Rabs (val x) * T). rewrite dabs_eq.
      eapply Rle_trans; [exact (step_abs _ _ _ _ _ _ _ _ _ _ Ec Eh Bt Em Er Hx Kn (proj1 Dn))|].
      change (length (c :: l)) with (S n). rewrite S_INR. cbn [pow]. 
      replace (3 * (INR n + 1) * uu) with (3 * INR n * uu + 3 * uu) by ring. apply Rplus_le_compat_l. assert (eta <= 70 ^ n * eta) by (rewrite <- (Rmult_1_l eta) at 1; apply Rmult_le_compat_r; lra). lra.
  Qed.

  Lemma tab_lip : forall l a b n d, forallb (dz_ok 60) l = true -> (0 < d)%Z -> (pbound 65 1 (pder (zs l)) * d <=? n * 10 ^ 60)%Z = true ->
    Rabs a <= 65 -> Rabs b <= 65 -> Rabs (tab l a - tab l b) <= IZR n / IZR d * Rabs (a - b).
  Proof.
    intros l a b n d Ok Hd C Ha Hb. rewrite !(tab_eq l _ Ok). apply Z.leb_le, IZR_le in C. rewrite !mult_IZR in C. apply IZR_lt in Hd.
    pose proof (peval_lip 65 1 (zs l) a b ltac:(lia) ltac:(lia) ltac:(lra) ltac:(lra)) as H.
    assert (T : 0 < IZR (10 ^ 60)) by (apply IZR_lt; reflexivity). set (D := IZR (10 ^ 60)) in *. clearbody D.
    rewrite <- Rdiv_minus_distr. unfold Rdiv at 1. rewrite Rabs_mult, (Rabs_pos_eq (/ D)) by (left; apply Rinv_0_lt_compat; exact T).
    set (K := IZR (pbound 65 1 (pder (zs l)))) in *. clearbody K. set (A := Rabs (peval (zs l) a - peval (zs l) b)) in *. clearbody A.
    apply Rmult_le_reg_r with D; [exact T|]. replace (A * / D * D) with A by (field; lra). eapply Rle_trans; [exact H|].
    replace (IZR n / IZR d * Rabs (a - b) * D) with (IZR n * D / IZR d * Rabs (a - b)) by (field; lra). apply Rmult_le_compat_r; [apply Rabs_pos|].
    apply Rmult_le_reg_r with (IZR d); [exact Hd|]. replace (IZR n * D / IZR d * IZR d) with (IZR n * D) by (field; lra). exact C.
  Qed.

  Lemma y_parts : forall x r s B Lr, fin x -> 0 < val x < 8 -> forallb okd (map dabs r) = true -> forallb okd s = true -> (length r <= 9)%nat -> (length s <= 9)%nat -> r <> [] -> s <> [] ->
    tab (map dabs r) 65 <= B -> 0 <= Lr -> (forall a b, Rabs a <= 65 -> Rabs b <= 65 -> Rabs (tab r a - tab r b) <= Lr * Rabs (a - b)) -> 1 <= tab s 0 -> tab s 64 <= 3 ->
    exists y nh sd, @rat (ieee P) x r s = (y, nh, sd) /\ fin nh /\ fin sd /\ 0 <= val y <= 64 /\ Rabs (val y - val x * val x) <= 65 * uu /\
      Rabs (val nh - tab r (64 - val y)) <= 27 * uu * B + Lr * (65 * vv) + 1 / 10 ^ 18 /\ mr (36 * vv) (val sd) (tab s (val y)) /\ 1 <= tab s (val y) <= 3.
  Proof.
    intros x r s B Lr Fx Hx Okr Oks Ll Ls Nr Ns HB HL Lip Hs0 Hs64. unfold rat, powi2. ieee_simpl.
    destruct lit_64 as [F64 V64]. destruct (square P x 8 Fx ltac:(lia) ltac:(rewrite Rabs_pos_eq; lra)) as (Fy & By & Ey & _). cbv zeta in *.
    set (y := mul x x) in *. clearbody y. change (IZR (8 * 8)) with 64 in *.
    destruct (refl_sub P y (f64_lit 64.0) 64 Fy F64 V64 By ltac:(lra)) as (Fz & Mz & Bz).
    set (z := sub (f64_lit 64.0) y) in *. clearbody z. apply mr_abs in Mz; [|unfold vv; lra]. rewrite (Rabs_pos_eq (64 - val y)) in Mz by lra.
    assert (Ez : Rabs (val z - (64 - val y)) <= 65 * vv).
    { eapply Rle_trans; [exact Mz|]. apply Rle_trans with ((vv + 2 * (vv * vv)) * 64); [apply Rmult_le_compat_l; [unfold vv; lra|lra]|unfold vv; lra]. }
    assert (Z65 : Rabs (val z) <= 65). { apply Rabs_le_inv in Ez. apply Rabs_le. unfold vv in Ez. lra. }
    destruct (horner_signed z r Fz Z65 Okr Nr ltac:(lia)) as [Fn En]. destruct (horner_fl P y s Fy ltac:(lra) Ns Oks ltac:(lia)) as [Fs Ms].
    apply le_INR in Ll as Ir. apply le_INR in Ls as Is. replace (INR 9) with 9 in * by (simpl; lra). pose proof (pos_INR (length r)) as R0.
    assert (Ms' : mr (36 * vv) (val (@horner_add_first (ieee P) y s)) (tab s (val y))). { eapply mr_weak; [|exact Ms]. apply Rmult_le_compat_r; [unfold vv; lra|lra]. }
    clear Ms. rename Ms' into Ms.
    exists y, (@horner_add_first (ieee P) z r), (@horner_add_first (ieee P) y s). split; [reflexivity|].
    pose proof (tab_mono s 0 (val y) Oks ltac:(lra)) as S1. pose proof (tab_mono s (val y) 64 Oks ltac:(lra)) as S2.
    assert (Y2 : Rabs (val y - val x * val x) <= 65 * uu) by (pose proof eta_20; unfold uu in *; lra).
    split; [exact Fn|]. split; [exact Fs|]. split; [exact By|]. split; [exact Y2|]. split; [|split; [exact Ms|lra]].
    replace (val (@horner_add_first (ieee P) z r) - tab r (64 - val y)) with ((val (@horner_add_first (ieee P) z r) - tab r (val z)) + (tab r (val z) - tab r (64 - val y))) by ring.
    eapply Rle_trans; [apply Rabs_triang|].
    assert (LL : Rabs (tab r (val z) - tab r (64 - val y)) <= Lr * (65 * vv)).
    { eapply Rle_trans; [apply Lip; [exact Z65|rewrite Rabs_pos_eq; lra]|]. apply Rmult_le_compat_l; assumption. }
    pose proof (tab_mono (map dabs r) (Rabs (val z)) 65 Okr ltac:(split; [apply Rabs_pos|exact Z65])) as TB.
    pose proof (tab_size _ (Rabs (val z)) Okr ltac:(split; [apply Rabs_pos|exact Z65])) as [T0 _].
    assert (3 * INR (length r) * uu * tab (map dabs r) (Rabs (val z)) <= 27 * uu * B).
    { apply Rmult_le_compat; [|exact T0| |lra].
      - apply Rmult_le_pos; [lra|unfold uu; lra].
      - apply Rmult_le_compat_r; [unfold uu; lra|lra]. }
    assert (70 ^ length r * eta <= 70 ^ 9 * eta) by (apply Rmult_le_compat_r; [pose proof eta_pos; lra|apply Rle_pow; [lra|exact Ll]]).
    assert (70 ^ 9 * eta <= 1 / 10 ^ 18). { apply Rle_trans with (70 ^ 9 * / 10 ^ 100); [apply Rmult_le_compat_l; [lra|exact eta_small]|lra]. }
    lra.
  Qed.

  Lemma y_quot : forall a sd X N S Q T T' z e, fin a -> fin sd -> 0 < X <= 8 -> Rabs (val a - X * N) <= X * e + eta -> 0 <= e <= 1 / 10 ^ 13 -> mr (36 * vv) (val sd) S -> 1 <= S <= 3 ->
    Rabs (N / S - - (Q * T)) <= 1 / 10 ^ 15 -> Rabs T <= 1 -> Rabs (T - T') <= Rabs z / 2 -> Rabs z <= 65 * uu -> 0 < Q <= 637 / 1000 ->
    fin (div a sd) /\ Rabs (val (div a sd) + X * (Q * T')) <= X * (102 / 100 * e + 8 / 10 ^ 15) + 4 * eta.
  Proof.
    intros a sd X N S Q T T' z e Fa Fs HX Ha He Ms HS Hq HT HTT Hz HQ. pose proof eta_20 as E20. pose proof eta_pos as E0.
    assert (S0 : 99 / 100 <= val sd). { destruct (mr_near _ _ _ Ms ltac:(unfold vv; lra) ltac:(lra)) as [U _]. assert (1 * (1 - 2 * (36 * vv)) <= S * (1 - 2 * (36 * vv))) by (apply Rmult_le_compat_r; [unfold vv; lra|lra]). unfold vv in *. lra. }
    apply mr_inv in Ms; [|lra]. apply mr_abs in Ms; [|unfold vv; lra].
    assert (IS : 0 < / S <= 1). { split; [apply Rinv_0_lt_compat; lra|]. rewrite <- Rinv_1. apply Rinv_le_contravar; lra. }
    assert (ID : 0 < / val sd <= 1011 / 1000). { split; [apply Rinv_0_lt_compat; lra|]. replace (1011 / 1000) with (/ (1000 / 1011)) by field. apply Rinv_le_contravar; lra. }
    rewrite (Rabs_pos_eq (/ S)) in Ms by lra.
    assert (QT : Rabs (Q * T) <= 637 / 1000). { rewrite Rabs_mult, (Rabs_pos_eq Q) by lra. rewrite <- (Rmult_1_r (637 / 1000)). apply Rmult_le_compat; [lra|apply Rabs_pos|lra|exact HT]. }
    assert (BQ : Rabs (N / S) <= 64 / 100). { apply Rabs_le_inv in Hq, QT. apply Rabs_le. lra. }
    assert (E1 : Rabs (val a / val sd - X * (N / S)) <= X * (1011 / 1000 * e + 27 / 10 ^ 16) + 2 * eta).
    { replace (val a / val sd - X * (N / S)) with ((val a - X * N) * / val sd + X * (N * (/ val sd - / S))) by (unfold Rdiv; ring).
      eapply Rle_trans; [apply Rabs_triang|]. rewrite !Rabs_mult, (Rabs_pos_eq (/ val sd)), (Rabs_pos_eq X) by lra.
      assert (I1 : Rabs (val a - X * N) * / val sd <= (X * e + eta) * (1011 / 1000)). { apply Rmult_le_compat; [apply Rabs_pos|lra|exact Ha|lra]. }
      assert (I2 : Rabs N * Rabs (/ val sd - / S) <= 27 / 10 ^ 16).
      { apply Rle_trans with (Rabs N * ((36 * vv + 2 * (36 * vv * (36 * vv))) * / S)); [apply Rmult_le_compat_l; [apply Rabs_pos|exact Ms]|].
        replace (Rabs N * ((36 * vv + 2 * (36 * vv * (36 * vv))) * / S)) with ((36 * vv + 2 * (36 * vv * (36 * vv))) * (Rabs N * / S)) by ring.
        replace (Rabs N * / S) with (Rabs (N / S)) by (unfold Rdiv; rewrite Rabs_mult, (Rabs_pos_eq (/ S)); lra).
        apply Rle_trans with ((36 * vv + 2 * (36 * vv * (36 * vv))) * (64 / 100)); [apply Rmult_le_compat_l; [unfold vv; lra|exact BQ]|unfold vv; lra]. }
      assert (I3 : X * (Rabs N * Rabs (/ val sd - / S)) <= X * (27 / 10 ^ 16)) by (apply Rmult_le_compat_l; lra). lra. }
    assert (XQ : Rabs (X * (N / S)) <= X * (64 / 100)). { rewrite Rabs_mult, (Rabs_pos_eq X) by lra. apply Rmult_le_compat_l; lra. }
    assert (Xe : 0 <= X * e <= X * (1 / 10 ^ 13)) by (split; [apply Rmult_le_pos; lra|apply Rmult_le_compat_l; lra]).
    assert (BA : Rabs (val a / val sd) <= X * (65 / 100) + 2 * eta). { apply Rabs_le_inv in E1, XQ. apply Rabs_le. lra. }
    destruct (div_fl P a sd Fa Fs ltac:(lra) (below_1000 (Rabs (val a / val sd)) 9 ltac:(lra) ltac:(lra))) as [Fd Ed]. split; [exact Fd|].
    assert (U : uu * Rabs (val a / val sd) <= uu * (X * (65 / 100) + 2 * eta)) by (apply Rmult_le_compat_l; [unfold uu; lra|exact BA]).
    assert (TT : Rabs (X * (Q * T') - X * (Q * T)) <= X * (24 / 10 ^ 16)).
    { rewrite <- Rmult_minus_distr_l, <- Rmult_minus_distr_l, !Rabs_mult, (Rabs_pos_eq X), (Rabs_pos_eq Q) by lra. apply Rmult_le_compat_l; [lra|]. rewrite (Rabs_minus_sym T' T).
      apply Rle_trans with (637 / 1000 * (65 * uu / 2)); [apply Rmult_le_compat; [lra|apply Rabs_pos|lra|lra]|unfold uu; lra]. }
    assert (XN : Rabs (X * (N / S) + X * (Q * T)) <= X * (1 / 10 ^ 15)).
    { replace (X * (N / S) + X * (Q * T)) with (X * (N / S - - (Q * T))) by ring. rewrite Rabs_mult, (Rabs_pos_eq X) by lra. apply Rmult_le_compat_l; lra. }
    apply Rabs_le_inv in Ed, E1, TT, XN. unfold uu in *. apply Rabs_le. lra.
  Qed.

  Lemma two_pi : fin (f64_lit 0.636619772367581343075535053490057448) /\ Rabs (val (f64_lit 0.636619772367581343075535053490057448) - 2 / Rtrigo1.PI) <= 1 / 10 ^ 16.
  Proof.
    destruct pi_near as [P1 _].
    assert (V : R_of_dec 0.636619772367581343075535053490057448%dec = 636619772367581343075535053490057448 / 10 ^ 36).
    { unfold R_of_dec. cbn [dman dexp]. change (-36)%Z with (Z.opp (Z.of_nat 36)). rewrite powerRZ_neg', <- pow_powerRZ. lra. }
    destruct (lit_fl 0.636619772367581343075535053490057448%dec) as [F E].
    { rewrite V, Rabs_pos_eq by lra. apply (below_1000 _ 1); lra. }
    split; [exact F|]. rewrite V in E. rewrite (Rabs_pos_eq (636619772367581343075535053490057448 / 10 ^ 36)) in E by lra.
    pose proof eta_20. set (w := val _) in *. clearbody w. set (p := 2 / Rtrigo1.PI) in *. clearbody p. apply Rabs_le_inv in E, P1. unfold uu, pn, pd in *. apply Rabs_le. lra.
  Qed.

  Lemma lt_8 : forall x, fin x -> val x < 8 -> f64_lt x (f64_lit 8.0) = true.
  Proof. intros x Fx Hx. destruct lit_8 as [F8 V8]. apply lt_true. rewrite V8. split; [apply fin_nonnan, Fx|split; [apply fin_nonnan, F8|exact Hx]]. Qed.

  Lemma ln_abs_8 : forall x, fin x -> 0 < val x < 8 -> Rabs (ln (val x)) <= 1000.
  Proof.
    intros x Fx Hx. destruct (Rle_dec (val x) 1) as [L|L].
    - pose proof (ln_abs_x x Fx ltac:(lra)). apply Rabs_le. lra.
    - pose proof (ln_sub1 (val x) ltac:(lra)). assert (0 < ln (val x)) by (rewrite <- ln_1; apply ln_increasing; lra). apply Rabs_le. lra.
  Qed.

  (** the logarithmic term of y0, and the sum *)
  Lemma y0_tail : forall t1 tw j l b L Pp G v, fin t1 -> fin tw -> fin j -> fin l -> Rabs (val t1 + G) <= 9 / 10 ^ 14 -> Rabs G <= 1 -> Rabs (val tw - Pp) <= 1 / 10 ^ 16 -> 0 < Pp <= 637 / 1000 ->
    Rabs (val j - b) <= 3 / 10 ^ 14 -> Rabs b <= 102 / 100 -> Rabs (val l - L) <= 8 * uu * Rabs L + eta -> Rabs L <= 1000 -> Rabs (v - (Pp * (L * b) - G)) <= 5 / 10 ^ 17 ->
    fin (add t1 (mul (mul tw j) l)) /\ Rabs (val (add t1 (mul (mul tw j) l)) - v) <= 1 / 10 ^ 13 + 3 / 10 ^ 14 * Rabs L.
  Proof.
    intros t1 tw j l b L Pp G v F1 Fw Fj Fl H1 HG Hw HP Hj Hb Hl HL Hv. pose proof eta_20 as E20. pose proof eta_pos as E0. pose proof (Rabs_pos L) as L0.
    assert (Bj : Rabs (val j) <= 103 / 100) by (apply Rabs_le_inv in Hj, Hb; apply Rabs_le; lra).
    assert (Ew : Rabs (val tw * val j - Pp * b) <= 193 / 10 ^ 16).
    { replace (val tw * val j - Pp * b) with ((val tw - Pp) * val j + Pp * (val j - b)) by ring. eapply Rle_trans; [apply Rabs_triang|]. rewrite !Rabs_mult, (Rabs_pos_eq Pp) by lra.
      assert (Rabs (val tw - Pp) * Rabs (val j) <= 1 / 10 ^ 16 * (103 / 100)) by (apply Rmult_le_compat; try apply Rabs_pos; assumption).
      assert (Pp * Rabs (val j - b) <= 637 / 1000 * (3 / 10 ^ 14)) by (apply Rmult_le_compat; [lra|apply Rabs_pos|lra|exact Hj]). lra. }
    assert (BPb : Rabs (Pp * b) <= 65 / 100). { rewrite Rabs_mult, (Rabs_pos_eq Pp) by lra. apply Rle_trans with (637 / 1000 * (102 / 100)); [apply Rmult_le_compat; [lra|apply Rabs_pos|lra|exact Hb]|lra]. }
    assert (Bw : Rabs (val tw * val j) <= 66 / 100) by (apply Rabs_le_inv in Ew, BPb; apply Rabs_le; lra).
    destruct (mul_fl P tw j Fw Fj (below_1000 _ 1 ltac:(eapply Rle_trans; [exact Bw|lra]) ltac:(lra))) as [Fp Ep]. set (p := mul tw j) in *. clearbody p.
    assert (Ep' : Rabs (val p - Pp * b) <= 195 / 10 ^ 16). { apply Rabs_le_inv in Ep, Ew. unfold uu in *. apply Rabs_le. lra. }
    assert (Bp : Rabs (val p) <= 67 / 100) by (apply Rabs_le_inv in Ep', BPb; apply Rabs_le; lra).
    assert (El : Rabs (val p * val l - Pp * (L * b)) <= 202 / 10 ^ 16 * Rabs L + eta).
    { replace (val p * val l - Pp * (L * b)) with (val p * (val l - L) + (val p - Pp * b) * L) by ring. eapply Rle_trans; [apply Rabs_triang|]. rewrite !Rabs_mult.
      assert (Rabs (val p) * Rabs (val l - L) <= 67 / 100 * (8 * uu * Rabs L + eta)) by (apply Rmult_le_compat; try apply Rabs_pos; assumption).
      assert (Rabs (val p - Pp * b) * Rabs L <= 195 / 10 ^ 16 * Rabs L) by (apply Rmult_le_compat_r; assumption). unfold uu in *. lra. }
    assert (BLb : Rabs (Pp * (L * b)) <= 65 / 100 * Rabs L). { replace (Pp * (L * b)) with (Pp * b * L) by ring. rewrite Rabs_mult. apply Rmult_le_compat_r; assumption. }
    assert (Bm : Rabs (val p * val l) <= 66 / 100 * Rabs L + eta) by (apply Rabs_le_inv in El, BLb; apply Rabs_le; lra).
    destruct (mul_fl P p l Fp Fl (below_1000 _ 1000 ltac:(eapply Rle_trans; [exact Bm|lra]) ltac:(lra))) as [Fm Em]. set (m := mul p l) in *. clearbody m.
    assert (Em' : Rabs (val m - Pp * (L * b)) <= 204 / 10 ^ 16 * Rabs L + 3 * eta).
    { assert (uu * Rabs (val p * val l) <= uu * (66 / 100 * Rabs L + eta)) by (apply Rmult_le_compat_l; [unfold uu; lra|exact Bm]). apply Rabs_le_inv in Em, El. unfold uu in *. apply Rabs_le. lra. }
    assert (Bs : Rabs (val t1 + val m) <= 101 / 100 + 66 / 100 * Rabs L). { apply Rabs_le_inv in Em', BLb, H1, HG. apply Rabs_le. lra. }
    destruct (add_fl P t1 m F1 Fm (below_1000 _ 1000 ltac:(eapply Rle_trans; [exact Bs|lra]) ltac:(lra))) as [Fr Er]. split; [exact Fr|].
    assert (uu * Rabs (val t1 + val m) <= uu * (101 / 100 + 66 / 100 * Rabs L)) by (apply Rmult_le_compat_l; [unfold uu; lra|exact Bs]).
    set (r := add t1 m) in *. clearbody r. apply Rabs_le_inv in Er, Em', H1, Hv. unfold uu in *. apply Rabs_le. lra.
  Qed.

  Context (LN : accurate_ln (p_ln P)).
  Notation lnF := (libm P (p_ln P)).

  Lemma pq : 0 < IZR pn / IZR pd <= 637 / 1000.
  Proof. unfold pn, pd. lra. Qed.

  Lemma y0_fl : forall x v, fin x -> 0 < val x < 8 -> is_Y 0 (val x) v ->
    fin (@y0 (ieee P) x) /\ Rabs (val (@y0 (ieee P) x) - v) <= 1 / 10 ^ 13 + 3 / 10 ^ 14 * Rabs (ln (val x)).
  Proof.
    intros x v Fx Hx Hv. unfold y0. ieee_simpl. rewrite (lt_8 x Fx ltac:(lra)).
    assert (B65 : tab (map dabs Y0R) 65 <= IZR 235 / IZR 10) by (apply (tab_le_z (map dabs Y0R) 65 235 10); [vm_compute; reflexivity|reflexivity|vm_compute; reflexivity]).
    destruct (y_parts x Y0R Y0S (IZR 235 / IZR 10) (IZR 124 / IZR 100) Fx Hx eq_refl eq_refl ltac:(cbn; lia) ltac:(cbn; lia) ltac:(discriminate) ltac:(discriminate) B65 ltac:(lra)) as (y & nh & sd & ER & Fn & Fs & By & Ey & En & Ms & Bs).
    { intros a b. apply (tab_lip Y0R a b 124 100); [vm_compute; reflexivity|reflexivity|vm_compute; reflexivity]. }
    { replace 1 with (IZR 1 / IZR 1) by field. apply (tab_ge_z Y0S 0 1 1); [vm_compute; reflexivity|reflexivity|vm_compute; reflexivity]. }
    { replace 3 with (IZR 3 / IZR 1) by field. apply (tab_le_z Y0S 64 3 1); [vm_compute; reflexivity|reflexivity|vm_compute; reflexivity]. }
    rewrite ER. assert (X2 : 0 <= val x * val x <= 64) by nra.
    destruct (y0_ser (val x) v ltac:(lra) Hv) as (b & Hb & Bb & Sv).
    destruct (j0_fl P x b Fx ltac:(rewrite Rabs_pos_eq; lra) Hb) as [Fj Ej].
    destruct (tgt_y 0 (val y) (val x * val x) ltac:(lia) By X2) as [Ty Tl]. destruct (tgt_y 0 (val x * val x) (val y) ltac:(lia) X2 By) as [Tx _].
    destruct (y_quot nh sd 1 (tab Y0R (64 - val y)) (tab Y0S (val y)) (IZR pn / IZR pd) (tgt (-1) 0 26 (val y)) (tgt (-1) 0 26 (val x * val x)) (val y - val x * val x) (795 / 10 ^ 16)
      Fn Fs ltac:(lra)) as [Fd Ed]; try assumption.
    { rewrite !Rmult_1_l. pose proof eta_pos. eapply Rle_trans; [exact En|]. unfold uu, vv. lra. }
    { lra. } { apply rat_y0, By. } { exact pq. }
    pose proof (ln_abs_8 x Fx Hx) as L0. assert (L4 : Rabs (ln (val x)) <= 10 ^ 4) by lra. destruct (ln_fl P LN x Fx (proj1 Hx) L4) as [Fl El]. destruct two_pi as [Fw Ew]. destruct pi_near as [_ P2].
    rewrite Rmult_1_l in Ed.
    apply (y0_tail _ _ _ _ b (ln (val x)) (2 / Rtrigo1.PI) (IZR pn / IZR pd * tgt (-1) 0 26 (val x * val x)) v Fd Fw Fj Fl); try assumption.
    - eapply Rle_trans; [exact Ed|]. pose proof eta_20. lra.
    - rewrite Rabs_mult, (Rabs_pos_eq (IZR pn / IZR pd)) by (pose proof pq; lra). rewrite <- (Rmult_1_r 1). apply Rmult_le_compat; [pose proof pq; lra|apply Rabs_pos|pose proof pq; lra|exact Tx].
  Qed.

  (** rounding up to 2^1023 *)
  Lemma fl23 : forall r x, rounds r x -> Rabs x <= bpow radix2 1023 -> fin r /\ Rabs (val r - x) <= uu * Rabs x + eta.
  Proof.
    intros r x Hr Hx. destruct (rounds_small _ _ Hr) as [F V].
    - rewrite <- rnd_abs. apply Rle_lt_trans with (bpow radix2 1023).
      + apply rnd_le_fmt; [apply fmt_bpow; lia|exact Hx].
      + unfold Om. apply bpow_lt. lia.
    - split; [exact F|]. rewrite (val_fin r F), V, uu_eq. pose proof (rnd_abs_err x) as E.
      assert (bpow radix2 (-1075) <= eta) by (apply bpow_le; lia). lra.
  Qed.
  Lemma add_23 : forall x y, fin x -> fin y -> Rabs (val x + val y) <= bpow radix2 1023 ->
    fin (add x y) /\ Rabs (val (add x y) - (val x + val y)) <= uu * Rabs (val x + val y) + eta.
  Proof. intros x y Fx Fy H. apply fl23; [|exact H]. rewrite (val_fin x Fx), (val_fin y Fy). apply add_spec; assumption. Qed.
  Lemma sub_23 : forall x y, fin x -> fin y -> Rabs (val x - val y) <= bpow radix2 1023 ->
    fin (sub x y) /\ Rabs (val (sub x y) - (val x - val y)) <= uu * Rabs (val x - val y) + eta.
  Proof. intros x y Fx Fy H. apply fl23; [|exact H]. rewrite (val_fin x Fx), (val_fin y Fy). apply sub_spec; assumption. Qed.
  Lemma mul_23 : forall x y, fin x -> fin y -> Rabs (val x * val y) <= bpow radix2 1023 ->
    fin (mul x y) /\ Rabs (val (mul x y) - (val x * val y)) <= uu * Rabs (val x * val y) + eta.
  Proof. intros x y Fx Fy H. apply fl23; [|exact H]. rewrite (val_fin x Fx), (val_fin y Fy). apply mul_spec; assumption. Qed.
  Lemma div_23 : forall x y, fin x -> fin y -> val y <> 0 -> Rabs (val x / val y) <= bpow radix2 1023 ->
    fin (div x y) /\ Rabs (val (div x y) - (val x / val y)) <= uu * Rabs (val x / val y) + eta.
  Proof. intros x y Fx Fy Hy H. apply fl23; [|exact H]. rewrite (val_fin x Fx), (val_fin y Fy) in *. apply div_spec; assumption. Qed.

  Lemma y1_real : forall q d i p t1 r X A b L J Pp G v, 0 < X < 8 -> J * X = 1 -> 0 <= A -> Rabs L <= 1000 -> A = X * Rabs L -> Rabs (q - b * L) <= 112 / 10 ^ 16 * A + 7000000 * eta -> Rabs (b * L) <= 51 / 100 * A ->
    Rabs (d - J) <= uu * J + eta -> Rabs (i - (q - d)) <= uu * Rabs (q - d) + eta -> True -> 0 < Pp <= 637 / 1000 ->
    Rabs (t1 + X * G) <= X * (185 / 10 ^ 16) + 4 * eta -> Rabs G <= 1 ->
    forall tw, Rabs (tw - Pp) <= 1 / 10 ^ 16 -> Rabs (p - tw * i) <= uu * Rabs (tw * i) + eta -> Rabs (r - (t1 + p)) <= uu * Rabs (t1 + p) + eta ->
    Rabs (v - (Pp * (L * b - J) - X * G)) <= 3 / 10 ^ 17 * X ->
    Rabs i <= 55 / 100 * A + 11 / 10 * J /\ Rabs (p - Pp * (L * b - J)) <= 75 / 10 ^ 16 * A + 4 / 10 ^ 16 * J /\ Rabs (r - v) <= 2 / 10 ^ 14 * X + 1 / 10 ^ 14 * A + 1 / 10 ^ 15 * J.
  Proof.
    intros q d i p t1 r X A b L J Pp G v HX HJ HA HL EA Hq Hb Hd Hi _ HP H1 HG tw Hw Hp Hr Hv.
    assert (J8 : 1 / 8 <= J) by nra. pose proof eta_pos as E0. pose proof eta_small as ES.
    assert (EJ : 10000000 * eta <= 1 / 10 ^ 50 * J). { apply Rle_trans with (10000000 * / 10 ^ 100); [apply Rmult_le_compat_l; [lra|exact ES]|]. apply Rle_trans with (1 / 10 ^ 50 * (1 / 8)); [lra|apply Rmult_le_compat_l; lra]. }
    clear ES. set (e := eta) in *. clearbody e.
    assert (Bqd : Rabs (q - d) <= 52 / 100 * A + 101 / 100 * J). { apply Rabs_le_inv in Hq, Hb, Hd. unfold uu in *. apply Rabs_le. lra. }
    assert (Uqd : uu * Rabs (q - d) <= uu * (52 / 100 * A + 101 / 100 * J)) by (apply Rmult_le_compat_l; [unfold uu; lra|exact Bqd]).
    assert (Ei : Rabs (i - (b * L - J)) <= 113 / 10 ^ 16 * A + 24 / 10 ^ 17 * J). { apply Rabs_le_inv in Hq, Hd, Hi. unfold uu in *. apply Rabs_le. lra. }
    assert (Bi : Rabs i <= 52 / 100 * A + 102 / 100 * J). { apply Rabs_le_inv in Ei, Hb. apply Rabs_le. lra. }
    split; [lra|].
    assert (Ew : Rabs (tw * i - Pp * (b * L - J)) <= 73 / 10 ^ 16 * A + 26 / 10 ^ 17 * J).
    { replace (tw * i - Pp * (b * L - J)) with ((tw - Pp) * i + Pp * (i - (b * L - J))) by ring. eapply Rle_trans; [apply Rabs_triang|]. rewrite !Rabs_mult, (Rabs_pos_eq Pp) by lra.
      assert (Rabs (tw - Pp) * Rabs i <= 1 / 10 ^ 16 * (52 / 100 * A + 102 / 100 * J)) by (apply Rmult_le_compat; try apply Rabs_pos; assumption).
      assert (Pp * Rabs (i - (b * L - J)) <= 637 / 1000 * (113 / 10 ^ 16 * A + 24 / 10 ^ 17 * J)) by (apply Rmult_le_compat; [lra|apply Rabs_pos|lra|exact Ei]). lra. }
    assert (BP : Rabs (Pp * (b * L - J)) <= 33 / 100 * A + 64 / 100 * J).
    { rewrite Rabs_mult, (Rabs_pos_eq Pp) by lra. apply Rle_trans with (637 / 1000 * (51 / 100 * A + J)); [|lra]. apply Rmult_le_compat; [lra|apply Rabs_pos|lra|]. apply Rabs_le_inv in Hb. apply Rabs_le. lra. }
    assert (Bw : Rabs (tw * i) <= 34 / 100 * A + 65 / 100 * J). { apply Rabs_le_inv in Ew, BP. apply Rabs_le. lra. }
    assert (Uw : uu * Rabs (tw * i) <= uu * (34 / 100 * A + 65 / 100 * J)) by (apply Rmult_le_compat_l; [unfold uu; lra|exact Bw]).
    assert (Ep : Rabs (p - Pp * (b * L - J)) <= 75 / 10 ^ 16 * A + 4 / 10 ^ 16 * J). { apply Rabs_le_inv in Hp, Ew. unfold uu in *. apply Rabs_le. lra. }
    rewrite (Rmult_comm L b) in *. split; [exact Ep|].
    assert (XG : Rabs (X * G) <= X). { rewrite Rabs_mult, (Rabs_pos_eq X) by lra. rewrite <- (Rmult_1_r X) at 2. apply Rmult_le_compat_l; lra. }
    assert (Bt : Rabs (t1 + p) <= 2 * X + 34 / 100 * A + 65 / 100 * J). { apply Rabs_le_inv in H1, XG, Ep, BP. apply Rabs_le. lra. }
    assert (Ut : uu * Rabs (t1 + p) <= uu * (2 * X + 34 / 100 * A + 65 / 100 * J)) by (apply Rmult_le_compat_l; [unfold uu; lra|exact Bt]).
    apply Rabs_le_inv in Hr, H1, Ep, Hv. unfold uu in *. apply Rabs_le. lra.
  Qed.

  Lemma jl_fl : forall j l X b L, fin j -> fin l -> 0 < X < 8 -> Rabs (val j - b) <= 1 / 10 ^ 14 * X + 5070 * eta -> Rabs b <= 51 / 100 * X -> Rabs (val l - L) <= 8 * uu * Rabs L + eta -> Rabs L <= 1000 ->
    fin (mul j l) /\ Rabs (val (mul j l) - b * L) <= 112 / 10 ^ 16 * (X * Rabs L) + 7000000 * eta /\ Rabs (b * L) <= 51 / 100 * (X * Rabs L).
  Proof.
    intros j l X b L Fj Fl HX Hj Hb Hl HL. pose proof eta_20 as E20. pose proof eta_pos as E0. pose proof (Rabs_pos L) as L0.
    assert (BbL : Rabs (b * L) <= 51 / 100 * (X * Rabs L)). { rewrite Rabs_mult, <- Rmult_assoc. apply Rmult_le_compat_r; lra. }
    assert (Bj : Rabs (val j) <= 52 / 100 * X + 5070 * eta) by (apply Rabs_le_inv in Hj, Hb; apply Rabs_le; lra).
    assert (XL : 0 <= X * Rabs L <= 8000). { split; [apply Rmult_le_pos; lra|]. replace 8000 with (8 * 1000) by ring. apply Rmult_le_compat; lra. }
    assert (eL : 0 <= eta * Rabs L <= 1000 * eta). { split; [apply Rmult_le_pos; lra|]. rewrite Rmult_comm. apply Rmult_le_compat_r; lra. }
    assert (Xe : 0 <= X * eta <= 8 * eta) by (split; [apply Rmult_le_pos; lra|apply Rmult_le_compat_r; lra]).
    assert (ee : 0 <= eta * eta <= eta). { split; [apply Rmult_le_pos; lra|]. rewrite <- (Rmult_1_r eta) at 3. apply Rmult_le_compat_l; lra. }
    assert (E : Rabs (val j * val l - b * L) <= 106 / 10 ^ 16 * (X * Rabs L) + 6000000 * eta).
    { replace (val j * val l - b * L) with (val j * (val l - L) + (val j - b) * L) by ring. eapply Rle_trans; [apply Rabs_triang|]. rewrite !Rabs_mult.
      assert (A1 : Rabs (val j) * Rabs (val l - L) <= (52 / 100 * X + 5070 * eta) * (8 * uu * Rabs L + eta)) by (apply Rmult_le_compat; try apply Rabs_pos; assumption).
      assert (A2 : Rabs (val j - b) * Rabs L <= (1 / 10 ^ 14 * X + 5070 * eta) * Rabs L) by (apply Rmult_le_compat_r; assumption).
      replace ((52 / 100 * X + 5070 * eta) * (8 * uu * Rabs L + eta)) with (52 / 100 * 8 * uu * (X * Rabs L) + 52 / 100 * (X * eta) + 5070 * 8 * uu * (eta * Rabs L) + 5070 * (eta * eta)) in A1 by ring.
      replace ((1 / 10 ^ 14 * X + 5070 * eta) * Rabs L) with (1 / 10 ^ 14 * (X * Rabs L) + 5070 * (eta * Rabs L)) in A2 by ring.
      set (a := X * Rabs L) in *. set (f := eta * Rabs L) in *. set (g := X * eta) in *. set (h := eta * eta) in *. clearbody a f g h. unfold uu in *. lra. }
    assert (Bm : Rabs (val j * val l) <= 52 / 100 * (X * Rabs L) + 6000000 * eta) by (apply Rabs_le_inv in E, BbL; apply Rabs_le; lra).
    destruct (mul_fl P j l Fj Fl (below_1000 _ 5000 ltac:(eapply Rle_trans; [exact Bm|lra]) ltac:(lra))) as [Fm Em]. split; [exact Fm|]. split; [|exact BbL].
    assert (uu * Rabs (val j * val l) <= uu * (52 / 100 * (X * Rabs L) + 6000000 * eta)) by (apply Rmult_le_compat_l; [unfold uu; lra|exact Bm]).
    apply Rabs_le_inv in Em, E. unfold uu in *. apply Rabs_le. lra.
  Qed.

  Lemma y1_tail : forall x t1 tw j l b L Pp G v, fin x -> bpow radix2 (-1022) <= val x < 8 -> fin t1 -> fin tw -> fin j -> fin l ->
    Rabs (val t1 + val x * G) <= val x * (185 / 10 ^ 16) + 4 * eta -> Rabs G <= 1 -> Rabs (val tw - Pp) <= 1 / 10 ^ 16 -> 0 < Pp <= 637 / 1000 ->
    Rabs (val j - b) <= 1 / 10 ^ 14 * val x + 5070 * eta -> Rabs b <= 51 / 100 * val x -> Rabs (val l - L) <= 8 * uu * Rabs L + eta -> Rabs L <= 1000 ->
    Rabs (v - (Pp * (L * b - / val x) - val x * G)) <= 3 / 10 ^ 17 * val x ->
    let r := add t1 (mul tw (sub (mul j l) (div (f64_lit 1.0) x))) in
    fin r /\ Rabs (val r - v) <= 2 / 10 ^ 14 * val x + 1 / 10 ^ 14 * (val x * Rabs L) + 1 / 10 ^ 15 * / val x.
  Proof.
    intros x t1 tw j l b L Pp G v Fx HX F1 Fw Fj Fl H1 HG Hw HP Hj Hb Hl HL Hv. pose proof eta_20 as E20. pose proof eta_pos as E0. pose proof (Rabs_pos L) as L0.
    assert (Hx : 0 < val x < 8) by (pose proof (bpow_gt_0 radix2 (-1022)); lra).
    destruct (jl_fl j l (val x) b L Fj Fl Hx Hj Hb Hl HL) as (Fq & Eq & BbL). set (q := mul j l) in *. clearbody q.
    assert (XL : 0 <= val x * Rabs L <= 8000). { split; [apply Rmult_le_pos; lra|]. replace 8000 with (8 * 1000) by ring. apply Rmult_le_compat; lra. }
    assert (IX : 1 / 8 <= / val x <= bpow radix2 1022).
    { split; [replace (1 / 8) with (/ 8) by field; apply Rinv_le_contravar; lra|]. change 1022%Z with (Z.opp (-1022)). rewrite bpow_opp. apply Rinv_le_contravar; [apply bpow_gt_0|lra]. }
    assert (B23 : bpow radix2 1023 = 2 * bpow radix2 1022) by (change 2 with (bpow radix2 1); rewrite <- bpow_plus; reflexivity).
    assert (B10 : 2 ^ 40 <= bpow radix2 1022). { apply Rle_trans with (bpow radix2 40); [simpl; lra|apply bpow_le; lia]. }
    set (M := bpow radix2 1022) in *. clearbody M.
    destruct (div_23 (f64_lit 1.0) x fin_1 Fx ltac:(lra)) as [Fd Ed].
    { rewrite val_1. unfold Rdiv. rewrite Rmult_1_l, Rabs_pos_eq; lra. }
    rewrite val_1 in Ed. replace (1 / val x) with (/ val x) in Ed by (field; lra). rewrite (Rabs_pos_eq (/ val x)) in Ed by lra. set (d := div (f64_lit 1.0) x) in *. clearbody d.
    assert (JX : / val x * val x = 1) by (field; lra). set (J := / val x) in *. clearbody J. set (A := val x * Rabs L) in *. assert (EA : A = val x * Rabs L) by reflexivity. clearbody A.
    assert (Bqd : Rabs (val q - val d) <= 52 / 100 * A + 101 / 100 * J + 1). { apply Rabs_le_inv in Eq, BbL, Ed. unfold uu in *. apply Rabs_le. lra. }
    destruct (sub_23 q d Fq Fd) as [Fi Ei]. { rewrite B23. lra. }
    set (i := sub q d) in *. clearbody i.
    assert (Bi : Rabs (val i) <= 53 / 100 * A + 102 / 100 * J + 2).
    { assert (uu * Rabs (val q - val d) <= uu * (52 / 100 * A + 101 / 100 * J + 1)) by (apply Rmult_le_compat_l; [unfold uu; lra|exact Bqd]). apply Rabs_le_inv in Ei, Bqd. unfold uu in *. apply Rabs_le. lra. }
    assert (Bw : Rabs (val tw * val i) <= 53 / 100 * A + 102 / 100 * J + 2).
    { rewrite Rabs_mult. apply Rle_trans with (1 * Rabs (val i)); [|lra]. apply Rmult_le_compat_r; [apply Rabs_pos|]. apply Rabs_le_inv in Hw. apply Rabs_le. lra. }
    destruct (mul_23 tw i Fw Fi) as [Fp Ep]. { rewrite B23. lra. }
    set (p := mul tw i) in *. clearbody p.
    assert (Bp : Rabs (val p) <= 54 / 100 * A + 103 / 100 * J + 3).
    { assert (uu * Rabs (val tw * val i) <= uu * (53 / 100 * A + 102 / 100 * J + 2)) by (apply Rmult_le_compat_l; [unfold uu; lra|exact Bw]). apply Rabs_le_inv in Ep, Bw. unfold uu in *. apply Rabs_le. lra. }
    assert (XG : Rabs (val x * G) <= 8). { rewrite Rabs_mult, (Rabs_pos_eq (val x)) by lra. replace 8 with (8 * 1) by ring. apply Rmult_le_compat; try apply Rabs_pos; lra. }
    assert (Bt : Rabs (val t1) <= 10) by (apply Rabs_le_inv in H1, XG; apply Rabs_le; lra).
    destruct (add_23 t1 p F1 Fp) as [Fr Er]. { rewrite B23. eapply Rle_trans; [apply Rabs_triang|]. lra. }
    intros r. fold r in Fr, Er. split; [exact Fr|].
    apply (y1_real (val q) (val d) (val i) (val p) (val t1) (val r) (val x) A b L J Pp G v Hx JX (proj1 XL) HL EA Eq BbL Ed Ei Logic.I HP H1 HG (val tw) Hw Ep Er Hv).
  Qed.

  Lemma y1_fl : forall x v, fin x -> bpow radix2 (-1022) <= val x < 8 -> is_Y 1 (val x) v ->
    fin (@y1 (ieee P) x) /\ Rabs (val (@y1 (ieee P) x) - v) <= 2 / 10 ^ 14 * (val x * (1 + Rabs (ln (val x)))) + 1 / 10 ^ 15 / val x.
  Proof.
    intros x v Fx HX Hv. assert (Hx : 0 < val x < 8) by (pose proof (bpow_gt_0 radix2 (-1022)); lra).
    unfold y1. ieee_simpl. rewrite (lt_8 x Fx ltac:(lra)).
    assert (B65 : tab (map dabs Y1R) 65 <= IZR 29 / IZR 10) by (apply (tab_le_z (map dabs Y1R) 65 29 10); [vm_compute; reflexivity|reflexivity|vm_compute; reflexivity]).
    destruct (y_parts x Y1R Y1S (IZR 29 / IZR 10) (IZR 15 / IZR 100) Fx Hx eq_refl eq_refl ltac:(cbn; lia) ltac:(cbn; lia) ltac:(discriminate) ltac:(discriminate) B65 ltac:(lra)) as (y & nh & sd & ER & Fn & Fs & By & Ey & En & Ms & Bs).
    { intros a b. apply (tab_lip Y1R a b 15 100); [vm_compute; reflexivity|reflexivity|vm_compute; reflexivity]. }
    { replace 1 with (IZR 1 / IZR 1) by field. apply (tab_ge_z Y1S 0 1 1); [vm_compute; reflexivity|reflexivity|vm_compute; reflexivity]. }
    { replace 3 with (IZR 3 / IZR 1) by field. apply (tab_le_z Y1S 64 3 1); [vm_compute; reflexivity|reflexivity|vm_compute; reflexivity]. }
    rewrite ER. assert (X2 : 0 <= val x * val x <= 64) by nra. pose proof eta_pos as E0. pose proof eta_20 as E20. pose proof pq as PQ.
    destruct (y1_ser (val x) v ltac:(lra) Hv) as (b & Hb & Bb & Sv).
    destruct (j1_fl P x b Fx ltac:(rewrite Rabs_pos_eq; lra) Hb) as [Fj Ej]. rewrite (Rabs_pos_eq (val x)) in Ej by lra.
    destruct (tgt_y 1 (val y) (val x * val x) ltac:(lia) By X2) as [Ty Tl]. destruct (tgt_y 1 (val x * val x) (val y) ltac:(lia) X2 By) as [Tx _].
    assert (BN : Rabs (tab Y1R (64 - val y)) <= 2).
    { pose proof (rat_y1 (val y) By) as R. set (N := tab Y1R (64 - val y)) in *. set (S := tab Y1S (val y)) in *.
      assert (QT : Rabs (IZR pn / IZR pd * tgt (-1) 1 26 (val y)) <= 637 / 1000). { rewrite Rabs_mult, (Rabs_pos_eq (IZR pn / IZR pd)) by lra. rewrite <- (Rmult_1_r (637 / 1000)). apply Rmult_le_compat; [lra|apply Rabs_pos|lra|exact Ty]. }
      assert (Q : Rabs (N / S) <= 64 / 100) by (apply Rabs_le_inv in R, QT; apply Rabs_le; lra).
      replace N with (N / S * S) by (field; lra). rewrite Rabs_mult, (Rabs_pos_eq S) by lra. apply Rle_trans with (64 / 100 * 3); [apply Rmult_le_compat; [apply Rabs_pos|lra|exact Q|lra]|lra]. }
    assert (En' : Rabs (val nh - tab Y1R (64 - val y)) <= 98 / 10 ^ 16) by (eapply Rle_trans; [exact En|]; unfold uu, vv; lra). clear En.
    assert (Bn : Rabs (val nh) <= 21 / 10) by (apply Rabs_le_inv in En', BN; apply Rabs_le; lra).
    assert (Bxn : Rabs (val x * val nh) <= val x * (21 / 10)). { rewrite Rabs_mult, (Rabs_pos_eq (val x)) by lra. apply Rmult_le_compat_l; lra. }
    destruct (mul_fl P x nh Fx Fn (below_1000 _ 20 ltac:(eapply Rle_trans; [exact Bxn|lra]) ltac:(lra))) as [Fa Ea].
    assert (Ea' : Rabs (val (mul x nh) - val x * tab Y1R (64 - val y)) <= val x * (101 / 10 ^ 16) + eta).
    { replace (val (mul x nh) - val x * tab Y1R (64 - val y)) with ((val (mul x nh) - val x * val nh) + val x * (val nh - tab Y1R (64 - val y))) by ring.
      eapply Rle_trans; [apply Rabs_triang|]. rewrite (Rabs_mult (val x) (val nh - _)), (Rabs_pos_eq (val x)) by lra.
      assert (val x * Rabs (val nh - tab Y1R (64 - val y)) <= val x * (98 / 10 ^ 16)) by (apply Rmult_le_compat_l; lra).
      assert (uu * Rabs (val x * val nh) <= uu * (val x * (21 / 10))) by (apply Rmult_le_compat_l; [unfold uu; lra|exact Bxn]). unfold uu in *. lra. }
    set (a := mul x nh) in *. clearbody a.
    destruct (y_quot a sd (val x) (tab Y1R (64 - val y)) (tab Y1S (val y)) (IZR pn / IZR pd) (tgt (-1) 1 26 (val y)) (tgt (-1) 1 26 (val x * val x)) (val y - val x * val x) (101 / 10 ^ 16)
      Fa Fs ltac:(lra) Ea' ltac:(lra) Ms Bs (rat_y1 _ By) Ty Tl Ey PQ) as [Fd Ed].
    pose proof (ln_abs_8 x Fx Hx) as L0. assert (L4 : Rabs (ln (val x)) <= 10 ^ 4) by lra. destruct (ln_fl P LN x Fx (proj1 Hx) L4) as [Fl El]. destruct two_pi as [Fw Ew]. destruct pi_near as [_ P2].
    assert (Bg : Rabs (IZR pn / IZR pd * tgt (-1) 1 26 (val x * val x)) <= 1). { rewrite Rabs_mult, (Rabs_pos_eq (IZR pn / IZR pd)) by lra. rewrite <- (Rmult_1_r 1). apply Rmult_le_compat; [lra|apply Rabs_pos|lra|exact Tx]. }
    assert (Ed' : Rabs (val (div a sd) + val x * (IZR pn / IZR pd * tgt (-1) 1 26 (val x * val x))) <= val x * (185 / 10 ^ 16) + 4 * eta).
    { eapply Rle_trans; [exact Ed|]. apply Rplus_le_compat_r, Rmult_le_compat_l; lra. }
    destruct (y1_tail x (div a sd) _ _ _ b (ln (val x)) (2 / Rtrigo1.PI) (IZR pn / IZR pd * tgt (-1) 1 26 (val x * val x)) v Fx HX Fd Fw Fj Fl Ed' Bg Ew P2 Ej Bb El L0 Sv) as [Fr Er].
    split; [exact Fr|]. eapply Rle_trans; [exact Er|].
    assert (0 <= val x * Rabs (ln (val x))) by (apply Rmult_le_pos; [lra|apply Rabs_pos]). unfold Rdiv at 6. rewrite Rmult_plus_distr_l, Rmult_1_r. unfold Rdiv. lra.
  Qed.
End Y.
