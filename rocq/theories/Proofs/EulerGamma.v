(** * Euler's constant and ln 2 to eighteen digits *)

From Coq Require Import ZArith Reals Lra Lia List.
From Flocq Require Import Core.Raux.
From Verif.Spec Require Import Bessel2Spec.
From Verif.Proofs Require Import ExpBounds ErfcODE PolyZ Stirling StirlingConst.
Import ListNotations.
Open Scope R_scope.

(** ** ln 2 *)

Lemma ln2_low : 693147180559945309 / 10 ^ 18 <= ln 2.
Proof.
  replace (693147180559945309 / 10 ^ 18) with (IZR 693147180559945309 / IZR (10 ^ 18)) by (rewrite pow_IZR; reflexivity).
  set (p := 693147180559945309%Z). set (q := (10 ^ 18)%Z).
  assert (Q : 0 < IZR q) by (apply IZR_lt; reflexivity).
  rewrite <- (ln_exp (IZR p / IZR q)). apply ln_mono; [apply exp_pos|].
  eapply Rle_trans; [apply (tay_up 20)|].
  { split; [apply Rmult_le_pos; [apply IZR_le, Z.leb_le; vm_compute; reflexivity|left; apply Rinv_0_lt_compat, Q]|].
    apply Rmult_le_reg_r with (IZR q); [exact Q|]. replace (IZR p / IZR q * IZR q) with (IZR p) by (field; lra). rewrite Rmult_1_l. apply IZR_le, Z.leb_le. vm_compute. reflexivity. }
  pose proof (ztay_ok 20 p q eq_refl) as H.
  assert (Fa : INR (fact 20) = 2432902008176640000) by (rewrite fact_zfa; f_equal; vm_compute; reflexivity).
  assert (Fb : INR (fact 21) = 51090942171709440000) by (rewrite fact_zfa; f_equal; vm_compute; reflexivity).
  assert (U : (IZR p / IZR q) ^ 21 / INR (fact 21) <= / 10 ^ 22).
  { rewrite Fb. apply Rle_trans with ((7 / 10) ^ 21 / 51090942171709440000); [|simpl; lra].
    apply Rmult_le_compat_r; [lra|]. apply pow_incr. split; [apply Rmult_le_pos; [apply IZR_le, Z.leb_le; vm_compute; reflexivity|left; apply Rinv_0_lt_compat, Q]|].
    apply Rmult_le_reg_r with (IZR q); [exact Q|]. replace (IZR p / IZR q * IZR q) with (IZR p) by (field; lra).
    apply Rmult_le_reg_r with 10; [lra|]. replace (7 / 10 * IZR q * 10) with (7 * IZR q) by field. rewrite <- !mult_IZR. apply IZR_le, Z.leb_le. vm_compute. reflexivity. }
  rewrite Fa, pow_IZR, <- mult_IZR in H. set (T := tay 20 _) in *. set (y := (IZR p / IZR q) ^ 21 / INR (fact 21)) in *. clearbody T y.
  assert (C : (10 ^ 22 * ztay 20 p q <=? (2 * 10 ^ 22 - 4) * (2432902008176640000 * q ^ 20))%Z = true) by (vm_compute; reflexivity).
  apply Z.leb_le, IZR_le in C. rewrite (mult_IZR _ (ztay _ _ _)), <- H, (mult_IZR (2 * 10 ^ 22 - 4)) in C.
  change (Z.of_nat 20) with 20%Z in *.
  assert (D : 0 < IZR (2432902008176640000 * q ^ 20)) by (apply IZR_lt; reflexivity).
  set (d := IZR (2432902008176640000 * q ^ 20)) in *. clearbody d.
  assert (T <= 2 - 4 / 10 ^ 22).
  { apply Rmult_le_reg_r with d; [exact D|]. change (IZR (2 * 10 ^ 22 - 4)) with 19999999999999999999996 in C. change (IZR (10 ^ 22)) with 10000000000000000000000 in C.
    set (x := T * d) in *. clearbody x. lra. }
  lra.
Qed.

Lemma ln2_up : ln 2 <= 693147180559945310 / 10 ^ 18.
Proof.
  replace (693147180559945310 / 10 ^ 18) with (IZR 693147180559945310 / IZR (10 ^ 18)) by (rewrite pow_IZR; reflexivity).
  set (p := 693147180559945310%Z). set (q := (10 ^ 18)%Z).
  assert (Q : 0 < IZR q) by (apply IZR_lt; reflexivity).
  rewrite <- (ln_exp (IZR p / IZR q)). apply ln_mono; [lra|].
  eapply Rle_trans; [|apply (tay_low 20); apply Rmult_le_pos; [apply IZR_le, Z.leb_le; vm_compute; reflexivity|left; apply Rinv_0_lt_compat, Q]].
  pose proof (ztay_ok 20 p q eq_refl) as H.
  assert (Fa : INR (fact 20) = 2432902008176640000) by (rewrite fact_zfa; f_equal; vm_compute; reflexivity).
  rewrite Fa, pow_IZR, <- mult_IZR in H. set (T := tay 20 _) in *. clearbody T.
  assert (C : (2 * (2432902008176640000 * q ^ 20) <=? ztay 20 p q)%Z = true) by (vm_compute; reflexivity).
  apply Z.leb_le, IZR_le in C. rewrite <- H, (mult_IZR 2) in C.
  change (Z.of_nat 20) with 20%Z in *.
  assert (D : 0 < IZR (2432902008176640000 * q ^ 20)) by (apply IZR_lt; reflexivity).
  set (d := IZR (2432902008176640000 * q ^ 20)) in *. clearbody d.
  apply Rmult_le_reg_r with d; [exact D|]. lra.
Qed.

(** ** Existence *)

Lemma harmonic_S : forall n, harmonic (S n) = harmonic n + / INR (S n).
Proof. reflexivity. Qed.
Lemma harmonic_nonneg : forall n, 0 <= harmonic n.
Proof.
  induction n as [|n IH]; [simpl; lra|]. rewrite harmonic_S. assert (0 < / INR (S n)) by (apply Rinv_0_lt_compat, lt_0_INR; lia). lra.
Qed.

Lemma euler_exists : exists g, is_euler g.
Proof.
  set (f := fun n => harmonic (S n) - ln (INR (S n))).
  assert (D : Un_decreasing f).
  { intros n. unfold f. rewrite (harmonic_S (S n)). set (x := INR (S n)). rewrite (S_INR (S n)). fold x.
    assert (X : 0 < x) by (apply lt_0_INR; lia).
    assert (L : ln (x / (x + 1)) <= x / (x + 1) - 1).
    { assert (0 < x / (x + 1)) by (apply Rdiv_lt_0_compat; lra). pose proof (exp_ineq1_le (ln (x / (x + 1)))) as Q. rewrite exp_ln in Q by assumption. lra. }
    rewrite ln_div in L by lra. replace (x / (x + 1) - 1) with (- / (x + 1)) in L by (field; lra). lra. }
  assert (B : forall n, ln (INR (S n)) <= harmonic n + 1).
  { induction n as [|n IH]; [simpl; rewrite ln_1; lra|]. rewrite harmonic_S, (S_INR (S n)). set (x := INR (S n)) in *.
    assert (X : 0 < x) by (apply lt_0_INR; lia).
    pose proof (ln_1p_le (/ x) ltac:(left; apply Rinv_0_lt_compat, X)) as L.
    replace (1 + / x) with ((x + 1) / x) in L by (field; lra). rewrite ln_div in L by lra. lra. }
  destruct (decreasing_cv f D) as [g Hg].
  { exists 1. intros y [n ->]. unfold opp_seq, f. specialize (B n). rewrite harmonic_S. pose proof (Rinv_0_lt_compat (INR (S n)) ltac:(apply lt_0_INR; lia)). lra. }
  exists g. intros e He. destruct (Hg e He) as [N HN]. exists (S N). intros n Hn. destruct n as [|n]; [lia|]. apply HN. lia.
Qed.

(** ** Bounds *)

(** the slope of a convex function that vanishes at infinity *)
Lemma convex_slope : forall f f1 f2 : R -> R,
  (forall x, 0 < x -> derivable_pt_lim f x (f1 x)) -> (forall x, 0 < x -> derivable_pt_lim f1 x (f2 x)) ->
  (forall x, 0 < x -> 0 <= f2 x) -> vanishes f -> forall x, 0 < x -> f1 x <= 0.
Proof.
  intros f f1 f2 D1 D2 H2 V.
  assert (M : forall a b, 0 < a -> a <= b -> f1 a <= f1 b).
  { intros a b Ha Hab. apply (mono_on f1 f2 a b Hab); intros t Ht; [apply D2|apply H2]; lra. }
  intros a Ha. destruct (Rle_or_lt (f1 a) 0) as [H|H]; [exact H|exfalso].
  destruct (V 1 ltac:(lra)) as [B HB].
  set (x := Rmax B (a + (2 + Rabs (f a)) / f1 a)).
  assert (Px : 0 < (2 + Rabs (f a)) / f1 a) by (apply Rdiv_lt_0_compat; [pose proof (Rabs_pos (f a)); lra|exact H]).
  assert (X1 : B <= x) by apply Rmax_l. assert (X2 : a + (2 + Rabs (f a)) / f1 a <= x) by apply Rmax_r.
  assert (L : f a - f1 a * a <= f x - f1 a * x).
  { apply (mono_on (fun t => f t - f1 a * t) (fun t => f1 t - f1 a) a x); [lra| |].
    - intros t Ht. apply derivable_pt_lim_minus; [apply D1; lra|]. replace (f1 a) with (f1 a * 1) at 2 by ring.
      apply (derivable_pt_lim_scal id (f1 a)), derivable_pt_lim_id.
    - intros t Ht. pose proof (M a t Ha ltac:(lra)). lra. }
  assert (Q : 2 + Rabs (f a) <= f1 a * (x - a)).
  { apply Rle_trans with (f1 a * ((2 + Rabs (f a)) / f1 a)); [right; field; lra|]. apply Rmult_le_compat_l; lra. }
  pose proof (HB x X1) as Hx. apply Rabs_le_inv in Hx. pose proof (Rabs_pos (f a)). pose proof (Rle_abs (- f a)) as Ra. rewrite Rabs_Ropp in Ra. lra.
Qed.

Lemma dl2_sign : forall rb D, (0 < D)%Z -> (2 <=? length (rev2 rb))%nat = true ->
  forallb (fun c => (0 <=? c)%Z) (sgn_poly rb D) = true -> forall x, 0 < x -> 0 <= dl2 rb D x.
Proof.
  intros rb D HD Hl Hs x Hx. apply Nat.leb_le in Hl.
  pose proof (peval_nonneg (sgn_poly rb D) x ltac:(lra) Hs) as H. rewrite dl2_poly in H by assumption.
  assert (DP : 0 < IZR D) by (apply IZR_lt, HD).
  apply Rmult_le_reg_l with (2 * IZR D * (x ^ length (rev2 rb) * (x + 1) ^ length (rev2 rb))); [|lra].
  apply Rmult_lt_0_compat; [lra|]. apply Rmult_lt_0_compat; apply pow_lt; lra.
Qed.
Lemma dl2_sign_neg : forall rb D, (0 < D)%Z -> (2 <=? length (rev2 rb))%nat = true ->
  forallb (fun c => (0 <=? c)%Z) (pscale (-1) (sgn_poly rb D)) = true -> forall x, 0 < x -> dl2 rb D x <= 0.
Proof.
  intros rb D HD Hl Hs x Hx. apply Nat.leb_le in Hl.
  pose proof (peval_nonneg _ x ltac:(lra) Hs) as H. rewrite peval_pscale, dl2_poly in H by assumption.
  assert (DP : 0 < IZR D) by (apply IZR_lt, HD).
  apply Rmult_le_reg_l with (2 * IZR D * (x ^ length (rev2 rb) * (x + 1) ^ length (rev2 rb))); [|lra].
  apply Rmult_lt_0_compat; [lra|]. apply Rmult_lt_0_compat; apply pow_lt; lra.
Qed.

Lemma dl1_s9 : forall x, 0 < x -> dl1 s9 DS x <= 0.
Proof.
  apply (convex_slope (dl s9 DS) (dl1 s9 DS) (dl2 s9 DS)).
  - intros x Hx. apply derive_dl; [reflexivity|exact Hx].
  - intros x Hx. apply derive_dl1; [reflexivity|exact Hx].
  - apply dl2_sign; [reflexivity|vm_compute; reflexivity|vm_compute; reflexivity].
  - apply dl_vanishes; reflexivity.
Qed.
Lemma dl1_s10 : forall x, 0 < x -> 0 <= dl1 s10 DS x.
Proof.
  intros x Hx. enough (- dl1 s10 DS x <= 0) by lra. revert x Hx.
  apply (convex_slope (fun x => - dl s10 DS x) (fun x => - dl1 s10 DS x) (fun x => - dl2 s10 DS x)).
  - intros x Hx. apply (derivable_pt_lim_opp (dl s10 DS)), derive_dl; [reflexivity|exact Hx].
  - intros x Hx. apply (derivable_pt_lim_opp (dl1 s10 DS)), derive_dl1; [reflexivity|exact Hx].
  - intros x Hx. enough (dl2 s10 DS x <= 0) by lra. apply dl2_sign_neg; [reflexivity|vm_compute; reflexivity|vm_compute; reflexivity|exact Hx].
  - intros eps He. destruct (dl_vanishes s10 DS eq_refl eq_refl eps He) as [B HB]. exists B. intros x Hx. rewrite Rabs_Ropp. apply HB, Hx.
Qed.

(** what remains of ST1 besides the logarithm *)
Lemma rest_small : forall rb D, (0 < D)%Z -> exists C, 0 <= C /\ forall x, 1 <= x -> Rabs (ST1 rb D x - ln x) <= C / x.
Proof.
  intros rb D HD. assert (DP : 0 < IZR D) by (apply IZR_lt, HD).
  destruct (pinv_small (dinv rb) D HD eq_refl) as (C & HC & B).
  exists (C + 1). split; [lra|]. intros x Hx. specialize (B x Hx). unfold ST1.
  replace (ln x - / (2 * x) - pinv (dinv rb) x / IZR D - ln x) with (- (/ 2 * / x) + - (pinv (dinv rb) x / IZR D)) by (field; lra).
  eapply Rle_trans; [apply Rabs_triang|]. rewrite !Rabs_Ropp. assert (0 < / x) by (apply Rinv_0_lt_compat; lra).
  rewrite (Rabs_pos_eq (/ 2 * / x)) by lra. unfold Rdiv in *. lra.
Qed.

Lemma seq_lim : forall rb D g, (0 < D)%Z -> is_euler g -> Un_cv (fun n => harmonic n - ST1 rb D (INR (S n))) g.
Proof.
  intros rb D g HD Hg e He. destruct (rest_small rb D HD) as (C & HC & B).
  destruct (Hg (e / 3) ltac:(lra)) as [N HN].
  destruct (archimed ((3 * (C + 1)) / e)) as [A _].
  exists (N + Z.to_nat (Rdefinitions.up ((3 * (C + 1)) / e)) + 1)%nat. intros n Hn. specialize (HN (S n) ltac:(lia)).
  unfold R_dist in *. rewrite harmonic_S in HN.
  set (x := INR (S n)) in *.
  assert (X : 3 * (C + 1) / e <= x).
  { apply Rlt_le. eapply Rlt_le_trans; [exact A|]. unfold x. rewrite INR_IZR_INZ. apply IZR_le. lia. }
  assert (X1 : 1 <= x) by (unfold x; rewrite S_INR; pose proof (pos_INR n); lra).
  specialize (B x X1).
  assert (I : C / x <= e / 3 /\ / x <= e / 3).
  { assert (Y : (C + 1) / x <= e / 3).
    { apply Rmult_le_reg_r with (x * (3 / e)); [apply Rmult_lt_0_compat; [lra|apply Rdiv_lt_0_compat; lra]|].
      replace ((C + 1) / x * (x * (3 / e))) with (3 * (C + 1) / e) by (field; lra). replace (e / 3 * (x * (3 / e))) with x by (field; lra). exact X. }
    assert (0 < / x) by (apply Rinv_0_lt_compat; lra). unfold Rdiv in *. rewrite Rmult_plus_distr_r, Rmult_1_l in Y.
    assert (0 <= C * / x) by (apply Rmult_le_pos; lra). lra. }
  assert (IX : 0 < / x) by (apply Rinv_0_lt_compat; lra).
  apply Rabs_lt_inv in HN. apply Rabs_le_inv in B.
  apply Rabs_def1; lra.
Qed.

Lemma mono_lim_up : forall f g n, (forall m, (n <= m)%nat -> f (S m) <= f m) -> Un_cv f g -> g <= f n.
Proof.
  intros f g n D L. destruct (Rle_or_lt g (f n)) as [H|H]; [exact H|exfalso].
  assert (M : forall k, f (n + k)%nat <= f n).
  { induction k as [|k IH]; [rewrite Nat.add_0_r; lra|]. rewrite Nat.add_succ_r. specialize (D (n + k)%nat ltac:(lia)). lra. }
  destruct (L (g - f n) ltac:(lra)) as [N HN]. specialize (HN (n + N)%nat ltac:(lia)). specialize (M N). unfold R_dist in HN.
  apply Rabs_def2 in HN. lra.
Qed.

Lemma euler_up : forall g n, is_euler g -> g <= harmonic n - ST1 s9 DS (INR (S n)).
Proof.
  intros g n Hg. apply (mono_lim_up (fun n => harmonic n - ST1 s9 DS (INR (S n)))); [|apply seq_lim; [reflexivity|exact Hg]].
  intros m _. rewrite harmonic_S, (S_INR (S m)). pose proof (dl1_s9 (INR (S m)) ltac:(apply lt_0_INR; lia)) as Q. unfold dl1 in Q. lra.
Qed.
Lemma euler_low : forall g n, is_euler g -> harmonic n - ST1 s10 DS (INR (S n)) <= g.
Proof.
  intros g n Hg. enough (- g <= - (harmonic n - ST1 s10 DS (INR (S n)))) by lra.
  apply (mono_lim_up (fun n => - (harmonic n - ST1 s10 DS (INR (S n))))).
  - intros m _. rewrite harmonic_S, (S_INR (S m)). pose proof (dl1_s10 (INR (S m)) ltac:(apply lt_0_INR; lia)) as Q. unfold dl1 in Q. lra.
  - intros e He. destruct (seq_lim s10 DS g eq_refl Hg e He) as [N HN]. exists N. intros k Hk. specialize (HN k Hk). unfold R_dist in *.
    rewrite <- Rabs_Ropp. replace (- (- (harmonic k - ST1 s10 DS (INR (S k))) - - g)) with (harmonic k - ST1 s10 DS (INR (S k)) - g) by ring. exact HN.
Qed.

Lemma ln16 : ln 16 = 4 * ln 2.
Proof.
  replace 16 with (2 * (2 * (2 * 2))) by ring. rewrite !ln_mult by lra. ring.
Qed.

Lemma harmonic_15 : harmonic 15 = 1195757 / 360360.
Proof. cbn [harmonic]. rewrite !INR_IZR_INZ. simpl Z.of_nat. lra. Qed.

Lemma ST1_16 : forall rb, ST1 rb DS 16 = 4 * ln 2 - 1 / 32 - pinv (dinv rb) 16 / IZR DS.
Proof. intros rb. unfold ST1. rewrite ln16. field. apply IZR_neq. discriminate. Qed.

Lemma euler_bounds : forall g, is_euler g -> 577215664901532856 / 10 ^ 18 <= g <= 577215664901532866 / 10 ^ 18.
Proof.
  intros g Hg. pose proof (euler_up g 15 Hg) as U. pose proof (euler_low g 15 Hg) as L.
  replace (INR 16) with 16 in U, L by (rewrite INR_IZR_INZ; reflexivity).
  rewrite harmonic_15, ST1_16 in U, L. pose proof ln2_low. pose proof ln2_up.
  assert (V9 : pinv (dinv s9) 16 / IZR DS <= 325393912320869284 / 10 ^ 21).
  { unfold pinv, dinv, s9, DS, pder, peval. cbn -[IZR Rinv Rmult Rplus]. lra. }
  assert (V10 : 325393912320869280 / 10 ^ 21 <= pinv (dinv s10) 16 / IZR DS).
  { unfold pinv, dinv, s10, s9, DS, pder, peval. cbn -[IZR Rinv Rmult Rplus]. lra. }
  lra.
Qed.
