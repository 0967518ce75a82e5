(** * The total mass of the incomplete gamma function is 1 *)

From Coq Require Import ZArith Reals Lra Lia.
From Flocq Require Import Core.Raux.
From Verif.Spec Require Import GammaSpec IncGammaSpec.
From Verif.Proofs Require Import ErfcODE ErfcExists ExpBounds Stirling IncGamma.
Open Scope R_scope.

Lemma van_minus : forall f g, van f -> van g -> van (fun x => f x - g x).
Proof.
  intros f g Vf Vg eps He. destruct (Vf (eps / 2) ltac:(lra)) as (d1 & D1 & B1). destruct (Vg (eps / 2) ltac:(lra)) as (d2 & D2 & B2).
  exists (Rmin d1 d2). split; [apply Rmin_pos; assumption|]. intros x Hx. pose proof (Rmin_l d1 d2). pose proof (Rmin_r d1 d2).
  pose proof (B1 x ltac:(lra)) as C1. pose proof (B2 x ltac:(lra)) as C2. apply Rabs_le_inv in C1, C2. apply Rabs_le. lra.
Qed.
Lemma van_lin : forall f g c e, 0 <= c <= 1 -> 0 <= e -> van f -> van g -> van (fun x => e * (c * f x + (1 - c) * g x)).
Proof.
  intros f g c e Hc He Vf Vg eps Hp. set (k := eps / (e + 1)). assert (K : 0 < k) by (apply Rmult_lt_0_compat; [|apply Rinv_0_lt_compat]; lra).
  destruct (Vf k K) as (d1 & D1 & B1). destruct (Vg k K) as (d2 & D2 & B2).
  exists (Rmin d1 d2). split; [apply Rmin_pos; assumption|]. intros x Hx. pose proof (Rmin_l d1 d2). pose proof (Rmin_r d1 d2).
  pose proof (B1 x ltac:(lra)) as C1. pose proof (B2 x ltac:(lra)) as C2.
  rewrite Rabs_mult, (Rabs_pos_eq e) by exact He. apply Rle_trans with (e * k).
  - apply Rmult_le_compat_l; [exact He|]. eapply Rle_trans; [apply Rabs_triang|]. rewrite !Rabs_mult, (Rabs_pos_eq c), (Rabs_pos_eq (1 - c)) by lra.
    apply Rle_trans with (c * k + (1 - c) * k); [apply Rplus_le_compat; apply Rmult_le_compat_l; lra|right; ring].
  - replace eps with ((e + 1) * k) by (unfold k; field; lra). apply Rmult_le_compat_r; lra.
Qed.

(** t^c <= m^c (1 - c + c t / m) *)
Lemma pow_tangent : forall c s, 0 <= c <= 1 -> 0 < s -> Rpower s c <= 1 - c + c * s.
Proof.
  intros c s Hc Hs. unfold Rpower. set (u := ln s). assert (E : s = exp u) by (unfold u; rewrite exp_ln; [reflexivity|exact Hs]). rewrite E.
  set (m := c * u).
  assert (T : forall v, exp m * (1 + (v - m)) <= exp v).
  { intros v. replace (exp v) with (exp m * exp (v - m)) by (rewrite <- exp_plus; f_equal; ring). apply Rmult_le_compat_l; [left; apply exp_pos|].
    apply exp_ineq1_le. }
  pose proof (T u) as T1. pose proof (T 0) as T0. rewrite exp_0 in T0.
  apply Rle_trans with (c * (exp m * (1 + (u - m))) + (1 - c) * (exp m * (1 + (0 - m)))).
  - right. unfold m. ring.
  - apply Rle_trans with (c * exp u + (1 - c) * 1); [apply Rplus_le_compat; apply Rmult_le_compat_l; lra|lra].
Qed.

Section Total.
  Variable G : R -> R.
  Hypothesis HG : gamma_function G.
  Let Gp := G_pos G HG.

  Lemma inc_mono : forall a p x y, 0 < a -> lower_inc_gamma G a p -> 0 < x -> x <= y -> p x <= p y.
  Proof.
    intros a p x y Ha [D _] Hx Hxy. apply (mono_on p (dens G a) x y Hxy).
    - intros t Ht. apply D. lra.
    - intros t _. left. apply dens_pos, Gp, Ha.
  Qed.

  Lemma inc_step : forall a p, 0 < a -> lower_inc_gamma G a p -> lower_inc_gamma G (a + 1) (fun x => p x - xa G a x * / a).
  Proof.
    intros a p Ha [D V]. split.
    - intros x Hx. replace (Rpower x (a + 1 - 1) * exp (- x) / G (a + 1)) with (dens G a x - / a * (dens G a x * (a - x))).
      + apply (derivable_pt_lim_minus p (fun x => xa G a x * / a)); [apply D, Hx|].
        apply (derivable_pt_lim_ext (fun x => / a * xa G a x)); [intros; ring|]. apply (derive_scal_l (/ a) (xa G a)), derive_xa. exact Hx.
      + replace (Rpower x (a + 1 - 1)) with (x * Rpower x (a - 1)) by (rewrite <- Rpower_step by exact Hx; f_equal; ring).
        rewrite (G_step G HG a Ha). unfold dens. pose proof (Gp a Ha). field. lra.
    - apply van_minus; [exact V|]. apply (van_xa G a (Gp a Ha) Ha (fun _ => / a) (/ a)). intros. rewrite Rabs_pos_eq; [lra|left; apply Rinv_0_lt_compat, Ha].
  Qed.

  Lemma inc_unique : forall a p q x, 0 < a -> lower_inc_gamma G a p -> lower_inc_gamma G a q -> 0 < x -> p x = q x.
  Proof.
    intros a p q x Ha [Dp Vp] [Dq Vq] Hx. apply Rle_antisym.
    - apply (van_le p (dens G a) q (dens G a) x Vp Vq Hx); [intros t Ht; apply Dp; lra|intros t Ht; apply Dq; lra|intros; lra].
    - apply (van_le q (dens G a) p (dens G a) x Vq Vp Hx); [intros t Ht; apply Dq; lra|intros t Ht; apply Dp; lra|intros; lra].
  Qed.

  (** x^a exp(-x) is small for large x *)
  Lemma xa_tail : forall a eps B, 0 < a -> 0 < eps -> exists X, B <= X /\ 0 < X /\ forall x, X <= x -> xa G a x <= eps.
  Proof.
    intros a eps B Ha He. pose proof (Gp a Ha) as Ga. set (s0 := Rmax (Rmax (2 * a + 1) B) (/ (eps * G a))).
    assert (S1 : 2 * a + 1 <= s0) by (eapply Rle_trans; [apply Rmax_l|apply Rmax_l]). assert (S2 : B <= s0) by (eapply Rle_trans; [apply Rmax_r|apply Rmax_l]).
    assert (S3 : / (eps * G a) <= s0) by apply Rmax_r. assert (EG : 0 < eps * G a) by (apply Rmult_lt_0_compat; assumption).
    assert (SS : s0 <= s0 * s0) by (rewrite <- (Rmult_1_r s0) at 1; apply Rmult_le_compat_l; lra).
    exists (s0 * s0). split; [lra|]. split; [lra|]. intros x Hx. set (s := sqrt x). assert (X0 : 0 < x) by lra.
    assert (Hs : s * s = x) by (apply sqrt_sqrt; lra). assert (S0 : s0 <= s) by (unfold s; rewrite <- (sqrt_square s0) by lra; apply sqrt_le_1_alt, Hx).
    unfold xa, Rpower. rewrite <- exp_plus. apply Rle_trans with (exp (- s) / G a).
    - apply Rmult_le_compat_r; [left; apply Rinv_0_lt_compat, Ga|]. apply exp_mono. rewrite <- Hs, ln_mult by lra.
      assert (L : ln s <= s) by (pose proof (ln_1p_le (s - 1) ltac:(lra)) as L; replace (1 + (s - 1)) with s in L by ring; lra).
      assert (a * (ln s + ln s) <= a * (s + s)) by (apply Rmult_le_compat_l; lra).
      assert (s * (2 * a + 1) <= s * s) by (apply Rmult_le_compat_l; lra). lra.
    - assert (E : exp (- s) <= eps * G a).
      { rewrite exp_Ropp. rewrite <- (Rinv_inv (eps * G a)). apply Rinv_le_contravar; [apply Rinv_0_lt_compat, EG|]. pose proof (exp_ineq1_le s). lra. }
      apply Rmult_le_reg_r with (G a); [exact Ga|]. replace (exp (- s) / G a * G a) with (exp (- s)) by (field; lra). exact E.
  Qed.

  Lemma bound_back : forall a p M, 0 < a -> lower_inc_gamma G a p -> (forall x, 0 < x -> p x - xa G a x * / a <= M) -> forall x, 0 < x -> p x <= M.
  Proof.
    intros a p M Ha Hp H x Hx. apply Rnot_lt_le. intros N. destruct (xa_tail a ((p x - M) / 2 * a) x Ha) as (X & H1 & H2 & H3); [apply Rmult_lt_0_compat; lra|].
    pose proof (inc_mono a p x X Ha Hp Hx H1). pose proof (H X H2). pose proof (H3 X ltac:(lra)) as H5.
    apply Rmult_le_compat_r with (r := / a) in H5; [|left; apply Rinv_0_lt_compat, Ha]. replace ((p x - M) / 2 * a * / a) with ((p x - M) / 2) in H5 by (field; lra). lra.
  Qed.

  Fixpoint shift (a : R) (p : R -> R) (n : nat) : R -> R := match n with O => p | S k => fun x => shift a p k x - xa G (a + INR k) x * / (a + INR k) end.
  Lemma shift_ok : forall a p n, 0 < a -> lower_inc_gamma G a p -> lower_inc_gamma G (a + INR n) (shift a p n).
  Proof.
    intros a p n Ha Hp. induction n as [|n IH]; [rewrite Rplus_0_r; exact Hp|].
    rewrite S_INR, <- Rplus_assoc. cbn [shift]. apply inc_step; [pose proof (pos_INR n); lra|exact IH].
  Qed.
  Lemma shift_bound : forall a p n M, 0 < a -> lower_inc_gamma G a p -> (forall x, 0 < x -> shift a p n x <= M) -> forall x, 0 < x -> p x <= M.
  Proof.
    intros a p n M Ha Hp. induction n as [|n IH]; intros H; [exact H|]. apply IH. apply (bound_back (a + INR n) _ M).
    - pose proof (pos_INR n). lra.
    - apply shift_ok; assumption.
    - exact H.
  Qed.
  Lemma shift_le : forall a p n x, 0 < a -> 0 < x -> shift a p n x <= p x.
  Proof.
    intros a p n x Ha Hx. induction n as [|n IH]; [simpl; lra|]. cbn [shift]. pose proof (pos_INR n).
    pose proof (xa_pos G (a + INR n) (Gp (a + INR n) ltac:(lra)) x) as X. assert (0 < / (a + INR n)) by (apply Rinv_0_lt_compat; lra).
    pose proof (Rmult_lt_0_compat _ _ X ltac:(eassumption)). lra.
  Qed.

  (** integer parameters *)
  Lemma inc_one : lower_inc_gamma G 1 (fun x => 1 - exp (- x)).
  Proof.
    split.
    - intros x Hx. rewrite (proj1 (proj2 HG)). replace (1 - 1) with 0 by ring. rewrite Rpower_O by exact Hx. replace (1 * exp (- x) / 1) with (0 - - exp (- x)) by field.
      apply (derivable_pt_lim_minus (fun _ => 1) (fun x => exp (- x))); [apply derivable_pt_lim_const|apply derive_exp_opp].
    - intros eps He. exists eps. split; [exact He|]. intros x Hx. pose proof (exp_ineq1_le (- x)).
      assert (exp (- x) <= exp 0) by (apply exp_mono; lra). rewrite exp_0 in *. rewrite Rabs_pos_eq; lra.
  Qed.
  Definition pn (n : nat) : R -> R := shift 1 (fun x => 1 - exp (- x)) n.
  Lemma pn_ok : forall n, lower_inc_gamma G (1 + INR n) (pn n).
  Proof. intros n. apply shift_ok; [lra|exact inc_one]. Qed.
  Lemma pn_le : forall n x, 0 < x -> pn n x <= 1.
  Proof. intros n x Hx. eapply Rle_trans; [apply shift_le; lra|]. pose proof (exp_pos (- x)). lra. Qed.
  Lemma pn_lim : forall n eps, 0 < eps -> exists X, 0 < X /\ forall x, X <= x -> 1 - eps <= pn n x.
  Proof.
    induction n as [|n IH]; intros eps He.
    - exists (/ eps). split; [apply Rinv_0_lt_compat, He|]. intros x Hx. unfold pn. simpl. enough (exp (- x) <= eps) by lra.
      rewrite exp_Ropp, <- (Rinv_inv eps). apply Rinv_le_contravar; [apply Rinv_0_lt_compat, He|]. pose proof (exp_ineq1_le x). lra.
    - destruct (IH (eps / 2) ltac:(lra)) as (X & HX & B). pose proof (pos_INR n).
      destruct (xa_tail (1 + INR n) (eps / 2) X ltac:(lra) ltac:(lra)) as (Y & Y1 & Y2 & Y3). exists Y. split; [exact Y2|]. intros x Hx.
      unfold pn. cbn [shift]. fold (pn n x). pose proof (B x ltac:(lra)). pose proof (Y3 x Hx).
      pose proof (xa_pos G (1 + INR n) (Gp (1 + INR n) ltac:(lra)) x). assert (/ (1 + INR n) <= 1) by (rewrite <- Rinv_1; apply Rinv_le_contravar; lra).
      assert (xa G (1 + INR n) x * / (1 + INR n) <= xa G (1 + INR n) x * 1) by (apply Rmult_le_compat_l; lra). unfold pn in *. lra.
  Qed.

  (** Hoelder between b and b + 1 *)
  Lemma holder : forall b c p q r, 1 < b -> 0 <= c <= 1 -> lower_inc_gamma G (b + c) p -> lower_inc_gamma G b q -> lower_inc_gamma G (b + 1) r ->
    forall x, 0 < x -> p x <= b / (b - 1) * (c * r x + (1 - c) * q x).
  Proof.
    intros b c p q r Hb Hc Hp Hq Hr x Hx.
    assert (G1 : 0 < G b) by (apply Gp; lra). assert (G2 : 0 < G (b + c)) by (apply Gp; lra). pose proof (G_step G HG b ltac:(lra)) as GS.
    assert (KP : 0 < b / (b - 1)) by (apply Rmult_lt_0_compat; [|apply Rinv_0_lt_compat]; lra).
    apply (van_le p (dens G (b + c)) (fun x => b / (b - 1) * (c * r x + (1 - c) * q x)) (fun x => b / (b - 1) * (c * dens G (b + 1) x + (1 - c) * dens G b x)) x).
    - exact (proj2 Hp).
    - apply van_lin; [lra|lra|exact (proj2 Hr)|exact (proj2 Hq)].
    - exact Hx.
    - intros t Ht. apply (proj1 Hp). lra.
    - intros t Ht. apply (derive_scal_l (b / (b - 1)) (fun x => c * r x + (1 - c) * q x)).
      apply (derivable_pt_lim_plus (fun x => c * r x) (fun x => (1 - c) * q x)); [apply (derive_scal_l c r)|apply (derive_scal_l (1 - c) q)]; [apply (proj1 Hr)|apply (proj1 Hq)]; lra.
    - intros t Ht. assert (T : 0 < t) by lra. set (D := Rpower t (b - 1) * exp (- t)). assert (DP : 0 < D) by (apply Rmult_lt_0_compat; [apply Rpower_pos|apply exp_pos]).
      assert (E : dens G (b + c) t = D * Rpower t c / G (b + c)) by (unfold dens, D; replace (b + c - 1) with (b - 1 + c) by ring; rewrite Rpower_plus; unfold Rdiv; ring).
      assert (E1 : dens G b t = D / G b) by reflexivity.
      assert (E2 : dens G (b + 1) t = D * (t / b) / G b) by (unfold dens, D; replace (b + 1 - 1) with (b - 1 + 1) by ring; rewrite Rpower_step by exact T; rewrite GS; field; lra).
      rewrite E, E1, E2.
      pose proof (pow_tangent c (t / b) Hc ltac:(apply Rmult_lt_0_compat; [exact T|apply Rinv_0_lt_compat; lra])) as TG.
      assert (ET : Rpower t c = Rpower b c * Rpower (t / b) c).
      { unfold Rpower. rewrite ln_div by lra. rewrite <- exp_plus. f_equal. ring. }
      assert (K : Rpower b c * G b <= b / (b - 1) * G (b + c)).
      { pose proof (lG_diff G HG b c Hb ltac:(lra)) as [L _]. unfold Rpower. rewrite <- (exp_ln (G b) G1), <- (exp_ln (G (b + c)) G2), <- (exp_ln (b / (b - 1)) KP), <- !exp_plus.
        apply exp_mono. rewrite ln_div by lra. unfold lG in L. pose proof (ln_mono (b - 1) b ltac:(lra) ltac:(lra)) as M.
        assert (0 <= (1 - c) * (ln b - ln (b - 1))) by (apply Rmult_le_pos; lra). lra. }
      replace (b / (b - 1) * (c * (D * (t / b) / G b) + (1 - c) * (D / G b))) with (b / (b - 1) * (D / G b) * (1 - c + c * (t / b))) by (field; lra).
      rewrite ET. replace (D * (Rpower b c * Rpower (t / b) c) / G (b + c)) with (D / (G b * G (b + c)) * (Rpower b c * G b * Rpower (t / b) c)) by (field; lra).
      replace (b / (b - 1) * (D / G b) * (1 - c + c * (t / b))) with (D / (G b * G (b + c)) * (b / (b - 1) * G (b + c) * (1 - c + c * (t / b)))) by (field; lra).
      apply Rmult_le_compat_l; [apply Rmult_le_pos; [lra|left; apply Rinv_0_lt_compat, Rmult_lt_0_compat; assumption]|].
      apply Rmult_le_compat; [apply Rmult_le_pos; [left; apply Rpower_pos|lra]|left; apply Rpower_pos|exact K|exact TG].
  Qed.

  Lemma split_nat : forall a, 0 < a -> exists k c, a + 1 = 1 + INR k + c /\ 0 <= c <= 1.
  Proof.
    intros a Ha. destruct (archimed a) as [U1 U2]. exists (Z.to_nat (up a - 1)), (a - IZR (up a - 1)).
    assert (0 <= up a - 1)%Z by (assert (0 < up a)%Z by (apply lt_IZR; simpl; lra); lia). rewrite INR_IZR_INZ, Z2Nat.id by assumption. rewrite minus_IZR. split; lra.
  Qed.
  Lemma big_n : forall eps, 0 < eps -> exists N : nat, forall n, (N <= n)%nat -> (1 + INR n) / (INR n) <= 1 + eps.
  Proof.
    intros eps He. destruct (archimed (/ eps)) as [U _]. exists (Z.to_nat (up (/ eps))). intros n Hn.
    pose proof (Rinv_0_lt_compat _ He). assert (0 < up (/ eps))%Z by (apply lt_IZR; simpl; lra).
    apply le_INR in Hn. rewrite (INR_IZR_INZ (Z.to_nat _)), Z2Nat.id in Hn by lia.
    replace ((1 + INR n) / INR n) with (1 + / INR n) by (field; lra). apply Rplus_le_compat_l. rewrite <- (Rinv_inv eps). apply Rinv_le_contravar; lra.
  Qed.

  Theorem inc_le_1 : forall a p, 0 < a -> lower_inc_gamma G a p -> forall x, 0 < x -> p x <= 1.
  Proof.
    intros a p Ha Hp x Hx. apply Rnot_lt_le. intros N. destruct (split_nat a Ha) as (k & c & E & Hc).
    destruct (big_n ((p x - 1) / 2) ltac:(lra)) as (M & HM). set (n := S (M + k)). specialize (HM n ltac:(lia)).
    assert (E1 : a + INR (S (S M)) = 1 + INR n + c) by (unfold n; rewrite !S_INR, plus_INR; lra).
    assert (Pn : 1 <= INR n) by (unfold n; rewrite S_INR; pose proof (pos_INR (M + k)); lra).
    pose proof (shift_ok a p (S (S M)) Ha Hp) as SO. rewrite E1 in SO.
    enough (p x <= 1 + (p x - 1) / 2) by lra. refine (Rle_trans _ _ _ _ HM).
    apply (shift_bound a p (S (S M)) _ Ha Hp); [|exact Hx]. intros y Hy.
    pose proof (holder (1 + INR n) c _ (pn n) (pn (S n)) ltac:(lra) Hc SO (pn_ok n)) as H.
    replace (1 + INR n + 1) with (1 + INR (S n)) in H by (rewrite S_INR; ring). specialize (H (pn_ok (S n)) y Hy).
    replace (1 + INR n - 1) with (INR n) in H by ring.
    assert (KP : 0 < (1 + INR n) / INR n) by (apply Rmult_lt_0_compat; [|apply Rinv_0_lt_compat]; lra).
    eapply Rle_trans; [exact H|]. rewrite <- (Rmult_1_r ((1 + INR n) / INR n)) at 2. apply Rmult_le_compat_l; [lra|].
    pose proof (pn_le n y Hy). pose proof (pn_le (S n) y Hy).
    assert (c * pn (S n) y <= c * 1) by (apply Rmult_le_compat_l; lra). assert ((1 - c) * pn n y <= (1 - c) * 1) by (apply Rmult_le_compat_l; lra). lra.
  Qed.

  Theorem inc_lim_1 : forall a p, 0 < a -> lower_inc_gamma G a p -> forall eps, 0 < eps -> exists X, 0 < X /\ forall x, X <= x -> 1 - eps <= p x.
  Proof.
    intros a p Ha Hp eps He. destruct (split_nat a Ha) as (k & c & E & Hc).
    destruct (big_n (eps / 2) ltac:(lra)) as (M & HM). set (n := S (M + k)).
    assert (E1 : a + INR (S (S M)) = 1 + INR n + c) by (unfold n; rewrite !S_INR, plus_INR; lra).
    assert (Pn : 1 <= INR n) by (unfold n; rewrite S_INR; pose proof (pos_INR (M + k)); lra).
    (* (1 + n) + 1 lies between b = 1 + n + c and b + 1 *)
    set (b := 1 + INR n + c). pose proof (shift_ok a p (S (S M)) Ha Hp) as SO. pose proof (shift_ok a p (S (S (S M))) Ha Hp) as SO1.
    rewrite E1 in SO. replace (a + INR (S (S (S M)))) with (b + 1) in SO1 by (unfold b; rewrite <- E1, (S_INR (S (S M))); ring). fold b in SO.
    pose proof (pn_ok (S n)) as PO. replace (1 + INR (S n)) with (b + (1 - c)) in PO by (unfold b; rewrite S_INR; ring).
    destruct (pn_lim (S n) (eps / 4) ltac:(lra)) as (X & HX & B). exists X. split; [exact HX|]. intros x Hx. specialize (B x Hx).
    pose proof (holder b (1 - c) _ _ _ ltac:(unfold b; lra) ltac:(lra) PO SO SO1 x ltac:(lra)) as H.
    pose proof (shift_le a p (S (S M)) x Ha ltac:(lra)) as L1. pose proof (shift_le a p (S (S (S M))) x Ha ltac:(lra)) as L2.
    assert (P0 : 0 < p x) by (apply (inc_pos G a (Gp a Ha) Ha p Hp); lra).
    assert (H' : pn (S n) x <= b / (b - 1) * p x).
    { eapply Rle_trans; [exact H|]. apply Rmult_le_compat_l; [left; apply Rmult_lt_0_compat; [|apply Rinv_0_lt_compat]; unfold b; lra|].
      apply Rle_trans with ((1 - c) * p x + c * p x); [|right; ring]. replace (1 - (1 - c)) with c by ring. apply Rplus_le_compat; apply Rmult_le_compat_l; lra. }
    assert (K : b / (b - 1) <= 1 + eps / 2).
    { eapply Rle_trans; [|apply (HM n); lia]. replace (b / (b - 1)) with (1 + / (b - 1)) by (field; unfold b; lra). replace ((1 + INR n) / INR n) with (1 + / INR n) by (field; lra).
      apply Rplus_le_compat_l, Rinv_le_contravar; unfold b; lra. }
    pose proof (inc_le_1 a p Ha Hp x ltac:(lra)).
    assert (b / (b - 1) * p x <= (1 + eps / 2) * p x) by (apply Rmult_le_compat_r; lra).
    assert (eps / 2 * p x <= eps / 2 * 1) by (apply Rmult_le_compat_l; lra). lra.
  Qed.
End Total.
