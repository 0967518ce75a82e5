(** * The incomplete gamma function: existence, series, bounds *)

From Coq Require Import ZArith Reals Lra Lia.
From Flocq Require Import Core.Raux.
From Verif.Spec Require Import GammaSpec IncGammaSpec.
From Verif.Proofs Require Import ErfcODE ErfcExists ExpBounds Stirling.
Open Scope R_scope.

Lemma derive_scal_l : forall c (f : R -> R) x l, derivable_pt_lim f x l -> derivable_pt_lim (fun t => c * f t) x (c * l).
Proof. intros c f x l D. exact (derivable_pt_lim_scal f c x l D). Qed.

Lemma derive_exp_opp : forall x, derivable_pt_lim (fun t => exp (- t)) x (- exp (- x)).
Proof.
  intros x. replace (- exp (- x)) with (exp (- x) * (- 1)) by ring.
  apply (derivable_pt_lim_comp (fun t => - t) exp); [|apply derivable_pt_lim_exp]. apply (derivable_pt_lim_opp id). apply derivable_pt_lim_id.
Qed.

Lemma Rpower_step : forall x b, 0 < x -> Rpower x (b + 1) = x * Rpower x b.
Proof. intros x b Hx. rewrite Rpower_plus, Rpower_1 by exact Hx. ring. Qed.
Lemma Rpower_pos : forall x b, 0 < Rpower x b.
Proof. intros. apply exp_pos. Qed.

(** ** Existence *)

Lemma inc_gamma_exists : forall G a, 0 < G a -> 0 < a -> exists p, lower_inc_gamma G a p.
Proof.
  intros G a Ga Ha. set (d := fun u => exp (a * u - exp u)).
  assert (Dd : forall u, derivable_pt_lim d u (exp (a * u - exp u) * (a * 1 - exp u))).
  { intros u. apply (derivable_pt_lim_comp (fun u => a * u - exp u) exp); [|apply derivable_pt_lim_exp].
    apply (derivable_pt_lim_minus (fun u => a * u) exp); [|apply derivable_pt_lim_exp]. apply (derive_scal_l a id), derivable_pt_lim_id. }
  assert (C : continuity d) by (intros u; apply derivable_continuous_pt; eexists; apply Dd).
  set (g := glue d C). pose proof (glue_derive d C) as Dg. fold g in Dg.
  assert (Mono : forall u v, u <= v -> g u <= g v).
  { intros u v Huv. apply (mono_on g d u v Huv (fun t _ => Dg t)). intros t _. left. apply exp_pos. }
  assert (De : forall u, derivable_pt_lim (fun u => / a * exp (a * u)) u (exp (a * u))).
  { intros u. replace (exp (a * u)) with (/ a * (exp (a * u) * (a * 1))) by (field; lra). apply (derive_scal_l (/ a) (fun u => exp (a * u))).
    apply (derivable_pt_lim_comp (fun u => a * u) exp); [|apply derivable_pt_lim_exp]. apply (derive_scal_l a id), derivable_pt_lim_id. }
  assert (Inc : forall u v, u <= v -> g v - g u <= / a * exp (a * v) - / a * exp (a * u)).
  { intros u v Huv. enough (/ a * exp (a * u) - g u <= / a * exp (a * v) - g v) by lra.
    apply (mono_on (fun u => / a * exp (a * u) - g u) (fun u => exp (a * u) - d u) u v Huv).
    - intros t _. apply (derivable_pt_lim_minus (fun u => / a * exp (a * u)) g); [apply De|apply Dg].
    - intros t _. unfold d. enough (exp (a * t - exp t) <= exp (a * t)) by lra. apply exp_mono. pose proof (exp_pos t). lra. }
  destruct (completeness (fun y => exists u, u <= 0 /\ y = - g u)) as [L [HL1 HL2]].
  { exists (- g 0 + / a). intros y (u & Hu & ->). pose proof (Inc u 0 Hu) as I. rewrite Rmult_0_r, exp_0 in I. pose proof (Rinv_0_lt_compat a Ha).
    pose proof (Rmult_lt_0_compat (/ a) (exp (a * u)) ltac:(assumption) (exp_pos _)). lra. }
  { exists (- g 0), 0. split; [lra|reflexivity]. }
  exists (fun x => / G a * (g (ln x) + L)). split.
  - intros x Hx. replace (Rpower x (a - 1) * exp (- x) / G a) with (/ G a * (d (ln x) * / x + 0)).
    + apply (derive_scal_l (/ G a) (fun x => g (ln x) + L)). apply (derivable_pt_lim_plus (fun x => g (ln x)) (fun _ => L)); [|apply derivable_pt_lim_const].
      apply (derivable_pt_lim_comp ln g); [apply derivable_pt_lim_ln, Hx|apply Dg].
    + unfold d, Rpower. rewrite exp_ln by exact Hx. replace ((a - 1) * ln x) with (a * ln x + - ln x) by ring. unfold Rminus. rewrite !exp_plus, (exp_Ropp (ln x)), exp_ln by exact Hx. field. lra.
  - intros eps He. set (e1 := eps * G a). assert (E1 : 0 < e1) by (apply Rmult_lt_0_compat; assumption).
    (* some u with - g u > L - e1 *)
    assert (X : exists u, u <= 0 /\ L - e1 < - g u).
    { destruct (Classical_Prop.classic (exists u, u <= 0 /\ L - e1 < - g u)) as [Y|N]; [exact Y|exfalso].
      assert (L <= L - e1); [|lra]. apply HL2. intros y (u & Hu & ->). destruct (Rle_or_lt (- g u) (L - e1)) as [R|R]; [exact R|]. exfalso. apply N. exists u. split; assumption. }
    destruct X as (u & Hu & Lu). exists (exp u). split; [apply exp_pos|]. intros x Hx.
    assert (LX : ln x <= u) by (rewrite <- (ln_exp u); apply ln_mono; lra).
    pose proof (Mono (ln x) u LX). assert (- g (ln x) <= L) by (apply HL1; exists (ln x); split; [lra|reflexivity]).
    pose proof (Rinv_0_lt_compat _ Ga). rewrite Rabs_pos_eq by (apply Rmult_le_pos; lra).
    apply Rle_trans with (/ G a * e1); [apply Rmult_le_compat_l; lra|]. unfold e1. right. field. lra.
Qed.

(** ** Comparison: a function with a smaller derivative and limit 0 at 0 *)

Section Cmp.
  Variables (G : R -> R) (a : R).
  Hypothesis Ga : 0 < G a.
  Hypothesis Ha : 0 < a.
  Definition dens (x : R) : R := Rpower x (a - 1) * exp (- x) / G a.
  Lemma dens_pos : forall x, 0 < dens x.
  Proof. intros x. apply Rmult_lt_0_compat; [apply Rmult_lt_0_compat; [apply Rpower_pos|apply exp_pos]|apply Rinv_0_lt_compat, Ga]. Qed.

  Definition van (f : R -> R) : Prop := forall eps, 0 < eps -> exists d, 0 < d /\ forall x, 0 < x < d -> Rabs (f x) <= eps.

  Lemma van_le : forall f f' g g' X, van f -> van g -> 0 < X ->
    (forall x, 0 < x <= X -> derivable_pt_lim f x (f' x)) -> (forall x, 0 < x <= X -> derivable_pt_lim g x (g' x)) ->
    (forall x, 0 < x <= X -> f' x <= g' x) -> f X <= g X.
  Proof.
    intros f f' g g' X Vf Vg HX Df Dg Le. apply Rnot_lt_le. intros H. set (e := (f X - g X) / 4).
    destruct (Vf e ltac:(unfold e; lra)) as (d1 & D1 & B1). destruct (Vg e ltac:(unfold e; lra)) as (d2 & D2 & B2).
    set (t := Rmin (Rmin d1 d2) X / 2). assert (T0 : 0 < Rmin (Rmin d1 d2) X) by (repeat apply Rmin_pos; assumption).
    pose proof (Rmin_l (Rmin d1 d2) X). pose proof (Rmin_r (Rmin d1 d2) X). pose proof (Rmin_l d1 d2). pose proof (Rmin_r d1 d2).
    pose proof (B1 t ltac:(unfold t; lra)) as C1. pose proof (B2 t ltac:(unfold t; lra)) as C2. apply Rabs_le_inv in C1, C2.
    assert (M : g t - f t <= g X - f X).
    { apply (mono_on (fun x => g x - f x) (fun x => g' x - f' x) t X); [unfold t; lra| |].
      - intros x Hx. apply (derivable_pt_lim_minus g f); [apply Dg|apply Df]; unfold t in Hx; lra.
      - intros x Hx. pose proof (Le x ltac:(unfold t in Hx; lra)). lra. }
    unfold e in *. lra.
  Qed.

  Lemma van_ext : forall f g, (forall x, 0 < x -> f x = g x) -> van f -> van g.
  Proof. intros f g E V eps He. destruct (V eps He) as (d & D & B). exists d. split; [exact D|]. intros x Hx. rewrite <- E by lra. apply B, Hx. Qed.

  (** x^a vanishes at 0, also multiplied by a bounded function *)
  Lemma van_pow : forall f C, (forall x, 0 < x <= 1 -> Rabs (f x) <= C) -> van (fun x => Rpower x a * f x).
  Proof.
    intros f C B eps He. set (C1 := Rmax C 1). assert (H1 : 1 <= C1) by apply Rmax_r. assert (HC : C <= C1) by apply Rmax_l.
    set (y := eps / C1). assert (Y : 0 < y) by (apply Rmult_lt_0_compat; [exact He|apply Rinv_0_lt_compat; lra]).
    exists (Rmin 1 (exp (ln y / a))). split; [apply Rmin_pos; [lra|apply exp_pos]|]. intros x Hx.
    pose proof (Rmin_l 1 (exp (ln y / a))). pose proof (Rmin_r 1 (exp (ln y / a))).
    rewrite Rabs_mult, (Rabs_pos_eq (Rpower x a)) by (left; apply Rpower_pos).
    assert (P : Rpower x a <= y).
    { unfold Rpower. rewrite <- (exp_ln y Y). apply exp_mono. apply Rle_trans with (a * (ln y / a)); [|right; field; lra].
      apply Rmult_le_compat_l; [lra|]. rewrite <- (ln_exp (ln y / a)). apply ln_mono; lra. }
    apply Rle_trans with (y * C1); [|unfold y; right; field; lra].
    apply Rmult_le_compat; [left; apply Rpower_pos|apply Rabs_pos|exact P|]. pose proof (B x ltac:(lra)). lra.
  Qed.
End Cmp.

(** ** The series *)

Section Series.
  Variables (G : R -> R) (a : R).
  Hypothesis Ga : 0 < G a.
  Hypothesis Ha : 0 < a.

  (** rising a n = a (a+1) ... (a+n) *)
  Fixpoint rising (n : nat) : R := match n with O => a | S k => rising k * (a + INR n) end.
  Lemma rising_pos : forall n, 0 < rising n.
  Proof. induction n as [|n IH]; [exact Ha|]. cbn [rising]. apply Rmult_lt_0_compat; [exact IH|]. pose proof (pos_INR (S n)). lra. Qed.
  Definition term (n : nat) (x : R) : R := x ^ n / rising n.
  Fixpoint part (n : nat) (x : R) : R := match n with O => term 0 x | S k => part k x + term n x end.

  Lemma term_S : forall n x, term (S n) x = term n x * (x / (a + INR (S n))).
  Proof.
    intros n x. unfold term. cbn [rising pow]. pose proof (rising_pos n). pose proof (pos_INR (S n)). field. split; lra.
  Qed.
  Lemma term_pos : forall n x, 0 < x -> 0 < term n x.
  Proof. intros n x Hx. apply Rmult_lt_0_compat; [apply pow_lt, Hx|apply Rinv_0_lt_compat, rising_pos]. Qed.
  Lemma part_pos : forall n x, 0 < x -> 0 < part n x.
  Proof. induction n as [|n IH]; intros x Hx; cbn [part]; [apply term_pos, Hx|]. pose proof (IH x Hx). pose proof (term_pos (S n) x Hx). lra. Qed.

  Definition xa (x : R) : R := Rpower x a * exp (- x) / G a.
  Lemma derive_xa : forall x, 0 < x -> derivable_pt_lim xa x (dens G a x * (a - x)).
  Proof.
    intros x Hx. apply (derivable_pt_lim_ext (fun x => / G a * (Rpower x a * exp (- x)))); [intros t; unfold xa, Rdiv; ring|].
    replace (dens G a x * (a - x)) with (/ G a * (a * Rpower x (a - 1) * exp (- x) + Rpower x a * (- exp (- x)))).
    - apply (derive_scal_l (/ G a) (fun x => Rpower x a * exp (- x))). apply (derivable_pt_lim_mult (fun x => Rpower x a) (fun x => exp (- x))); [apply derivable_pt_lim_power, Hx|apply derive_exp_opp].
    - unfold dens. replace (Rpower x a) with (x * Rpower x (a - 1)) by (rewrite <- Rpower_step by exact Hx; f_equal; ring). unfold Rdiv. ring.
  Qed.
  Lemma xa_dens : forall x, 0 < x -> xa x = x * dens G a x.
  Proof. intros x Hx. unfold xa, dens. replace (Rpower x a) with (x * Rpower x (a - 1)) by (rewrite <- Rpower_step by exact Hx; f_equal; ring). unfold Rdiv. ring. Qed.
  Lemma xa_pos : forall x, 0 < xa x.
  Proof. intros x. apply Rmult_lt_0_compat; [apply Rmult_lt_0_compat; [apply Rpower_pos|apply exp_pos]|apply Rinv_0_lt_compat, Ga]. Qed.

  (** derivative of xa * term n *)
  Lemma derive_term : forall n x, derivable_pt_lim (term n) x (match n with O => 0 | S k => INR n * x ^ k / rising n end).
  Proof.
    intros n x. apply (derivable_pt_lim_ext (fun x => / rising n * x ^ n)); [intros t; unfold term, Rdiv; ring|].
    replace (match n with O => 0 | S k => INR n * x ^ k / rising n end) with (/ rising n * (INR n * x ^ pred n)).
    - apply (derive_scal_l (/ rising n) (fun x => x ^ n)), derivable_pt_lim_pow.
    - destruct n; [simpl; ring|]. simpl pred. unfold Rdiv. ring.
  Qed.
  Lemma derive_xa_term : forall n x, 0 < x -> derivable_pt_lim (fun x => xa x * term n x) x (dens G a x * ((a + INR n) * term n x - x * term n x)).
  Proof.
    intros n x Hx.
    replace (dens G a x * ((a + INR n) * term n x - x * term n x)) with (dens G a x * (a - x) * term n x + xa x * (match n with O => 0 | S k => INR n * x ^ k / rising n end)).
    - apply (derivable_pt_lim_mult xa (term n)); [apply derive_xa, Hx|apply derive_term].
    - rewrite xa_dens by exact Hx. destruct n as [|n]; [simpl INR; ring|]. unfold term. cbn [pow]. unfold Rdiv. ring.
  Qed.
  Lemma derive_xa_part : forall n x, 0 < x -> derivable_pt_lim (fun x => xa x * part n x) x (dens G a x * (1 - x * term n x)).
  Proof.
    induction n as [|n IH]; intros x Hx.
    - replace (1 - x * term 0 x) with ((a + INR 0) * term 0 x - x * term 0 x); [apply derive_xa_term, Hx|]. unfold term. simpl. field. lra.
    - apply (derivable_pt_lim_ext (fun x => xa x * part n x + xa x * term (S n) x)); [intros t; cbn [part]; ring|].
      replace (dens G a x * (1 - x * term (S n) x)) with (dens G a x * (1 - x * term n x) + dens G a x * ((a + INR (S n)) * term (S n) x - x * term (S n) x)).
      + apply (derivable_pt_lim_plus (fun x => xa x * part n x) (fun x => xa x * term (S n) x)); [apply IH, Hx|apply derive_xa_term, Hx].
      + rewrite term_S. pose proof (pos_INR (S n)). field. lra.
  Qed.

  Lemma van_xa : forall f C, (forall x, 0 < x <= 1 -> Rabs (f x) <= C) -> van (fun x => xa x * f x).
  Proof.
    intros f C B. apply (van_ext (fun x => Rpower x a * (exp (- x) / G a * f x))).
    - intros x Hx. unfold xa, Rdiv. ring.
    - apply (van_pow a Ha _ (/ G a * C)). intros x Hx. rewrite Rabs_mult. unfold Rdiv. pose proof (Rinv_0_lt_compat _ Ga).
      assert (E1 : exp (- x) <= 1) by (apply Rle_trans with (exp 0); [apply exp_mono; lra|rewrite exp_0; lra]). pose proof (exp_pos (- x)).
      rewrite Rabs_pos_eq by (apply Rmult_le_pos; lra). apply Rmult_le_compat; [apply Rmult_le_pos; lra|apply Rabs_pos| |apply B, Hx].
      rewrite <- (Rmult_1_l (/ G a)) at 2. apply Rmult_le_compat_r; lra.
  Qed.
  Lemma term_bound : forall n x, 0 < x <= 1 -> Rabs (term n x) <= / rising n.
  Proof.
    intros n x Hx. pose proof (term_pos n x ltac:(lra)). rewrite Rabs_pos_eq by lra. unfold term, Rdiv. rewrite <- (Rmult_1_l (/ rising n)) at 2.
    apply Rmult_le_compat_r; [left; apply Rinv_0_lt_compat, rising_pos|]. rewrite <- (pow1 n). apply pow_incr. lra.
  Qed.
  Lemma part_bound : forall n, exists C, forall x, 0 < x <= 1 -> Rabs (part n x) <= C.
  Proof.
    induction n as [|n [C HC]]; [eexists; exact (term_bound 0)|]. exists (C + / rising (S n)). intros x Hx. cbn [part].
    eapply Rle_trans; [apply Rabs_triang|]. pose proof (HC x Hx). pose proof (term_bound (S n) x Hx). lra.
  Qed.

  Variable p : R -> R.
  Hypothesis Hp : lower_inc_gamma G a p.

  Theorem series_low : forall n x, 0 < x -> xa x * part n x <= p x.
  Proof.
    intros n x Hx. destruct Hp as [D V]. destruct (part_bound n) as [C HC].
    apply (van_le (fun x => xa x * part n x) (fun x => dens G a x * (1 - x * term n x)) p (dens G a) x (van_xa _ C HC) V Hx).
    - intros t Ht. apply derive_xa_part. lra.
    - intros t Ht. apply D. lra.
    - intros t Ht. pose proof (dens_pos G a Ga t). pose proof (term_pos n t ltac:(lra)).
      rewrite <- (Rmult_1_r (dens G a t)) at 2. apply Rmult_le_compat_l; [lra|]. assert (0 < t * term n t) by (apply Rmult_lt_0_compat; lra). lra.
  Qed.

  Theorem series_up : forall n x, 0 < x < a + INR n + 1 -> p x <= xa x * (part n x + term n x * (x / (a + INR n + 1 - x))).
  Proof.
    intros n X HX. destruct Hp as [D V]. destruct (part_bound n) as [C HC]. pose proof (pos_INR n) as Pn.
    set (m := a + INR (S n)). assert (Em : m = a + INR n + 1) by (unfold m; rewrite S_INR; ring).
    set (c := m / (m - X)). assert (Hc : 0 < c) by (apply Rmult_lt_0_compat; [|apply Rinv_0_lt_compat]; lra).
    assert (E : xa X * (part n X + term n X * (X / (a + INR n + 1 - X))) = xa X * part n X + c * (xa X * term (S n) X)).
    { rewrite term_S. fold m. rewrite <- Em. unfold c. field. split; lra. }
    rewrite E.
    apply (van_le p (dens G a) (fun x => xa x * part n x + c * (xa x * term (S n) x))
             (fun x => dens G a x * (1 - x * term n x) + c * (dens G a x * ((a + INR (S n)) * term (S n) x - x * term (S n) x))) X V).
    - apply (van_ext (fun x => xa x * (part n x + c * term (S n) x))); [intros; ring|]. apply (van_xa _ (C + c * / rising (S n))). intros x Hx.
      eapply Rle_trans; [apply Rabs_triang|]. apply Rplus_le_compat; [apply HC, Hx|]. rewrite Rabs_mult, (Rabs_pos_eq c) by lra. apply Rmult_le_compat_l; [lra|apply term_bound, Hx].
    - lra.
    - intros t Ht. apply D. lra.
    - intros t Ht. apply (derivable_pt_lim_plus (fun x => xa x * part n x) (fun x => c * (xa x * term (S n) x))); [apply derive_xa_part; lra|].
      apply (derive_scal_l c (fun x => xa x * term (S n) x)). apply derive_xa_term. lra.
    - intros t Ht. pose proof (dens_pos G a Ga t). pose proof (term_pos n t ltac:(lra)) as TP. rewrite term_S. fold m.
      replace (dens G a t * (1 - t * term n t) + c * (dens G a t * (m * (term n t * (t / m)) - t * (term n t * (t / m)))))
        with (dens G a t + dens G a t * (t * term n t) * (c * (1 - t / m) - 1)) by (field; lra).
      enough (0 <= dens G a t * (t * term n t) * (c * (1 - t / m) - 1)) by lra.
      apply Rmult_le_pos; [apply Rmult_le_pos; [lra|apply Rmult_le_pos; lra]|].
      replace (c * (1 - t / m) - 1) with ((X - t) / (m - X)) by (unfold c; field; lra). apply Rmult_le_pos; [lra|left; apply Rinv_0_lt_compat; lra].
  Qed.

  (** P(a, x) >= x^a exp(-x) / Gamma(a+1) *)
  Lemma inc_low : forall x, 0 < x -> xa x / a <= p x.
  Proof. intros x Hx. eapply Rle_trans; [|apply (series_low 0 x Hx)]. unfold part, term. simpl. right. field. lra. Qed.
  Lemma inc_pos : forall x, 0 < x -> 0 < p x.
  Proof. intros x Hx. pose proof (series_low 0 x Hx). pose proof (Rmult_lt_0_compat _ _ (xa_pos x) (part_pos 0 x Hx)). lra. Qed.
End Series.
