(** * The differential equation of exp (x^2) erfc x *)

From Coq Require Import Reals Lra Lia.
From Flocq Require Import Core.Raux.
From Verif.Spec Require Import ErfSpec.
From Verif.Proofs Require Import DawsonTaylor.
Open Scope R_scope.

Notation K := (2 / sqrt PI).

Lemma sqrtPI_pos : 0 < sqrt PI.
Proof. apply sqrt_lt_R0, PI_RGT_0. Qed.
Lemma K_pos : 0 < K.
Proof. apply Rdiv_lt_0_compat; [lra|apply sqrtPI_pos]. Qed.

Lemma exp_sq_inv : forall x, exp (x * x) * exp (- (x * x)) = 1.
Proof. intros x. rewrite <- exp_plus. replace (x * x + - (x * x)) with 0 by ring. apply exp_0. Qed.

Lemma derive_nsq : forall x, derivable_pt_lim (fun t => exp (- (t * t))) x (- (2 * x) * exp (- (x * x))).
Proof.
  intros x. replace (- (2 * x) * exp (- (x * x))) with (exp (- (x * x)) * (- (1 * x + x * 1))) by ring.
  apply (derivable_pt_lim_comp (fun t => - (t * t)) exp).
  - apply (derivable_pt_lim_opp (fun t => t * t)).
    apply (derivable_pt_lim_mult id id); apply derivable_pt_lim_id.
  - apply derivable_pt_lim_exp.
Qed.

(** a function with nonnegative derivative does not decrease *)
Lemma mono_on : forall (f f' : R -> R) a b, a <= b ->
  (forall t, a <= t <= b -> derivable_pt_lim f t (f' t)) -> (forall t, a <= t <= b -> 0 <= f' t) ->
  f a <= f b.
Proof.
  intros f f' a b Hb D N. destruct Hb as [Hb|<-]; [|lra].
  destruct (MVT_cor2 f f' a b Hb) as (c & E & Hc).
  { intros c Hc. apply D. exact Hc. }
  pose proof (N c ltac:(lra)). nra.
Qed.

(** backward comparison for g' = 2 x g + r *)
Lemma backward : forall (g r : R -> R) a b rho, 0 <= a -> a <= b -> 0 <= rho ->
  (forall t, a <= t <= b -> derivable_pt_lim g t (2 * t * g t + r t)) ->
  (forall t, a <= t <= b -> Rabs (r t) <= rho) ->
  Rabs (g a) <= Rabs (g b) / (1 + (b * b - a * a)) + rho * (b - a).
Proof.
  intros g r a b rho Ha Hab Hr D B.
  assert (S : 0 <= b * b - a * a) by nra.
  destruct Hab as [Hab|<-].
  2:{ replace (a * a - a * a) with 0 by ring. replace (a - a) with 0 by ring. unfold Rdiv.
      rewrite Rplus_0_r, Rinv_1. lra. }
  set (h := fun t => exp (- (t * t)) * g t).
  assert (Dh : forall t, a <= t <= b -> derivable_pt_lim h t (exp (- (t * t)) * r t)).
  { intros t Ht. replace (exp (- (t * t)) * r t) with
      ((- (2 * t) * exp (- (t * t))) * g t + exp (- (t * t)) * (2 * t * g t + r t)) by ring.
    apply (derivable_pt_lim_mult (fun t => exp (- (t * t))) g); [apply derive_nsq|apply D; exact Ht]. }
  destruct (MVT_cor2 h (fun t => exp (- (t * t)) * r t) a b Hab) as (c & E & Hc).
  { intros t Ht. apply Dh. exact Ht. }
  assert (G : g a = exp (a * a - b * b) * g b - exp (a * a - c * c) * r c * (b - a)).
  { unfold h in E.
    assert (X : exp (a * a) * (exp (- (b * b)) * g b - exp (- (a * a)) * g a) = exp (a * a) * (exp (- (c * c)) * r c * (b - a)))
      by (rewrite E; reflexivity).
    assert (Y : exp (a * a) * exp (- (a * a)) = 1) by apply exp_sq_inv.
    replace (a * a - b * b) with (a * a + - (b * b)) by ring. replace (a * a - c * c) with (a * a + - (c * c)) by ring.
    rewrite !exp_plus.
    replace (exp (a * a) * (exp (- (b * b)) * g b - exp (- (a * a)) * g a)) with
      (exp (a * a) * exp (- (b * b)) * g b - (exp (a * a) * exp (- (a * a))) * g a) in X by ring.
    rewrite Y in X. lra. }
  rewrite G. unfold Rminus at 1. eapply Rle_trans; [apply Rabs_triang|]. rewrite Rabs_Ropp, !Rabs_mult.
  assert (E1 : exp (a * a - b * b) <= / (1 + (b * b - a * a))).
  { replace (a * a - b * b) with (- (b * b - a * a)) by ring. rewrite exp_Ropp.
    apply Rinv_le_contravar; [lra|]. apply exp_ineq1_le. }
  assert (E2 : exp (a * a - c * c) <= 1).
  { rewrite <- exp_0. destruct (Req_dec (a * a - c * c) 0) as [->|N]; [lra|]. left. apply exp_increasing. nra. }
  rewrite (Rabs_pos_eq (exp (a * a - b * b))), (Rabs_pos_eq (exp (a * a - c * c))) by (left; apply exp_pos).
  rewrite (Rabs_pos_eq (b - a)) by lra.
  apply Rplus_le_compat.
  - unfold Rdiv. rewrite Rmult_comm. apply Rmult_le_compat_l; [apply Rabs_pos|exact E1].
  - apply Rmult_le_compat_r; [lra|]. pose proof (exp_pos (a * a - c * c)). pose proof (Rabs_pos (r c)).
    pose proof (B c ltac:(lra)). apply Rle_trans with (1 * rho); [|lra]. apply Rmult_le_compat; lra.
Qed.

Section Erfc.
  Context (E : R -> R) (HE : erfc_function E).
  Notation w := (scaled_erfc E).

  Lemma derive_w : forall x, derivable_pt_lim w x (2 * x * w x - K).
  Proof.
    intros x. unfold scaled_erfc.
    replace (2 * x * (exp (x * x) * E x) - K) with
      (2 * x * exp (x * x) * E x + exp (x * x) * (- K * exp (- (x * x)))).
    - apply (derivable_pt_lim_mult (fun t => exp (t * t)) E); [apply derive_sq|apply HE].
    - replace (exp (x * x) * (- K * exp (- (x * x)))) with (- K * (exp (x * x) * exp (- (x * x)))) by ring.
      rewrite exp_sq_inv. ring.
  Qed.

  Lemma E_w : forall x, E x = exp (- (x * x)) * w x.
  Proof.
    intros x. unfold scaled_erfc. rewrite <- Rmult_assoc, (Rmult_comm (exp (- _))), exp_sq_inv. ring.
  Qed.

  (** an approximation p with residual r, against w *)
  Lemma w_backward : forall (p r : R -> R) a b rho, 0 <= a -> a <= b -> 0 <= rho ->
    (forall t, a <= t <= b -> derivable_pt_lim p t (2 * t * p t - K + r t)) ->
    (forall t, a <= t <= b -> Rabs (r t) <= rho) ->
    Rabs (p a - w a) <= Rabs (p b - w b) / (1 + (b * b - a * a)) + rho * (b - a).
  Proof.
    intros p r a b rho Ha Hab Hr D B.
    apply (backward (fun t => p t - w t) r); try assumption.
    intros t Ht. replace (2 * t * (p t - w t) + r t) with ((2 * t * p t - K + r t) - (2 * t * w t - K)) by ring.
    apply derivable_pt_lim_minus; [apply D; exact Ht|apply derive_w].
  Qed.

  (** ** The asymptotic expansion *)

  Fixpoint ac (k : nat) : R :=
    match k with O => / sqrt PI | S j => - (2 * INR j + 1) / 2 * ac j end.

  Fixpoint asy (k : nat) (x : R) : R :=
    match k with O => 0 | S j => asy j x + ac j * (/ x) ^ (2 * j + 1) end.

  Lemma derive_asy : forall k x, 0 < x ->
    derivable_pt_lim (asy k) x (2 * x * asy k x - K + 2 * ac k * (/ x) ^ (2 * k)).
  Proof.
    induction k as [|k IH]; intros x Hx.
    - simpl asy. simpl ac. replace (2 * x * 0 - K + 2 * / sqrt PI * (/ x) ^ (2 * 0)) with 0.
      + apply derivable_pt_lim_const.
      + simpl. unfold Rdiv. ring.
    - change (asy (S k)) with (fun x => asy k x + ac k * (/ x) ^ (2 * k + 1)). cbv beta.
      replace (2 * x * (asy k x + ac k * (/ x) ^ (2 * k + 1)) - K + 2 * ac (S k) * (/ x) ^ (2 * S k)) with
        ((2 * x * asy k x - K + 2 * ac k * (/ x) ^ (2 * k))
         + ac k * (INR (2 * k + 1) * (/ x) ^ (2 * k) * (- / (x * x)))).
      + apply (derivable_pt_lim_plus (asy k) (fun x => ac k * (/ x) ^ (2 * k + 1))); [apply IH, Hx|].
        apply (derivable_pt_lim_scal (fun x => (/ x) ^ (2 * k + 1))).
        apply (derivable_pt_lim_comp Rinv (fun y => y ^ (2 * k + 1))).
        * replace (- / (x * x)) with ((0 * x - 1 * 1) / Rsqr x) by (unfold Rsqr; field; lra).
          eapply derivable_pt_lim_ext; [|apply (derivable_pt_lim_div (fun _ => 1) id); [apply derivable_pt_lim_const|apply derivable_pt_lim_id|unfold id; lra]].
          intros y. unfold div_fct, id. unfold Rdiv. ring.
        * replace (2 * k)%nat with (pred (2 * k + 1)) at 2 by lia. apply derivable_pt_lim_pow.
      + cbn [ac]. replace (2 * S k)%nat with (2 + 2 * k)%nat by lia. rewrite !pow_add.
        rewrite plus_INR, mult_INR. simpl (INR 2). simpl (INR 1). simpl ((/ x) ^ 1). simpl ((/ x) ^ 2).
        pose proof sqrtPI_pos. field. split; lra.
  Qed.

  Lemma asy_bounded : forall k, exists C, forall x, 1 <= x -> Rabs (asy k x) <= C.
  Proof.
    induction k as [|k [C IH]].
    - exists 0. intros x _. simpl. rewrite Rabs_R0. lra.
    - exists (C + Rabs (ac k)). intros x Hx. simpl asy. eapply Rle_trans; [apply Rabs_triang|].
      apply Rplus_le_compat; [apply IH, Hx|]. rewrite Rabs_mult.
      rewrite <- (Rmult_1_r (Rabs (ac k))) at 2. apply Rmult_le_compat_l; [apply Rabs_pos|].
      rewrite <- RPow_abs, Rabs_pos_eq by (left; apply Rinv_0_lt_compat; lra).
      rewrite <- (pow1 (2 * k + 1)). apply pow_incr. split; [left; apply Rinv_0_lt_compat; lra|].
      rewrite <- Rinv_1. apply Rinv_le_contravar; lra.
  Qed.

  Lemma ac_sign : forall k, 0 < (-1) ^ k * ac k.
  Proof.
    induction k as [|k IH].
    - simpl. rewrite Rmult_1_l. apply Rinv_0_lt_compat, sqrtPI_pos.
    - cbn [ac pow]. replace (-1 * (-1) ^ k * (- (2 * INR k + 1) / 2 * ac k)) with
        ((2 * INR k + 1) / 2 * ((-1) ^ k * ac k)) by field.
      apply Rmult_lt_0_compat; [pose proof (pos_INR k); lra|exact IH].
  Qed.

  (** the partial sums alternate around w *)
  Lemma asy_side : forall k x, 0 < x -> 0 <= (-1) ^ k * (w x - asy k x).
  Proof.
    intros k x Hx.
    set (F := fun t => (-1) ^ k * (exp (- (t * t)) * asy k t - E t)).
    assert (D : forall t, 0 < t -> derivable_pt_lim F t (exp (- (t * t)) * (2 * ((-1) ^ k * ac k) * (/ t) ^ (2 * k)))).
    { intros t Ht. unfold F.
      replace (exp (- (t * t)) * (2 * ((-1) ^ k * ac k) * (/ t) ^ (2 * k))) with
        ((-1) ^ k * ((- (2 * t) * exp (- (t * t))) * asy k t
          + exp (- (t * t)) * (2 * t * asy k t - K + 2 * ac k * (/ t) ^ (2 * k)) - (- K * exp (- (t * t))))) by ring.
      apply (derivable_pt_lim_scal (fun t => exp (- (t * t)) * asy k t - E t)).
      apply (derivable_pt_lim_minus (fun t => exp (- (t * t)) * asy k t) E); [|apply HE].
      apply (derivable_pt_lim_mult (fun t => exp (- (t * t))) (asy k)); [apply derive_nsq|apply derive_asy, Ht]. }
    assert (Mono : forall y, x <= y -> F x <= F y).
    { intros y Hy. apply (mono_on F (fun t => exp (- (t * t)) * (2 * ((-1) ^ k * ac k) * (/ t) ^ (2 * k)))); [exact Hy| |].
      - intros t Ht. apply D. lra.
      - intros t Ht. apply Rmult_le_pos; [left; apply exp_pos|].
        apply Rmult_le_pos; [pose proof (ac_sign k); lra|]. apply pow_le. left. apply Rinv_0_lt_compat. lra. }
    assert (NP : F x <= 0).
    { apply Rnot_lt_le. intros Pos. destruct (asy_bounded k) as [C HC].
      destruct HE as [_ HL]. destruct (HL (F x / 4) ltac:(lra)) as [B HB].
      assert (C0 : 0 <= C) by (eapply Rle_trans; [apply Rabs_pos|apply (HC 1); lra]).
      set (y := Rmax (Rmax x B) (Rmax 1 (4 * (C + 1) / F x))).
      assert (Y1 : x <= y) by (unfold y; eapply Rle_trans; [apply Rmax_l|apply Rmax_l]).
      assert (Y2 : B <= y) by (unfold y; eapply Rle_trans; [apply Rmax_r|apply Rmax_l]).
      assert (Y3 : 1 <= y) by (unfold y; eapply Rle_trans; [apply Rmax_l|apply Rmax_r]).
      assert (Y4 : 4 * (C + 1) / F x <= y) by (unfold y; eapply Rle_trans; [apply Rmax_r|apply Rmax_r]).
      specialize (Mono y Y1). specialize (HB y Y2). specialize (HC y Y3).
      assert (EX : exp (- (y * y)) <= / y).
      { rewrite exp_Ropp. apply Rinv_le_contravar; [lra|]. pose proof (exp_ineq1_le (y * y)). nra. }
      assert (YC : C * / y <= F x / 4).
      { apply Rmult_le_reg_r with y; [lra|]. rewrite Rmult_assoc, Rinv_l, Rmult_1_r by lra.
        apply Rmult_le_compat_r with (r := F x / 4) in Y4; [|lra].
        replace (4 * (C + 1) / F x * (F x / 4)) with (C + 1) in Y4 by (field; lra). lra. }
      assert (A : Rabs (exp (- (y * y)) * asy k y) <= F x / 4).
      { rewrite Rabs_mult, (Rabs_pos_eq (exp _)) by (left; apply exp_pos).
        apply Rle_trans with (/ y * C); [|lra]. apply Rmult_le_compat; [left; apply exp_pos|apply Rabs_pos|exact EX|exact HC]. }
      assert (Fy : Rabs (F y) <= F x / 2).
      { unfold F at 1. rewrite Rabs_mult, pow_1_abs, Rmult_1_l. unfold Rminus.
        eapply Rle_trans; [apply Rabs_triang|]. rewrite Rabs_Ropp. lra. }
      apply Rabs_le_inv in Fy. lra. }
    unfold F in NP. rewrite (E_w x) in NP.
    replace ((-1) ^ k * (exp (- (x * x)) * asy k x - exp (- (x * x)) * w x)) with
      (- (exp (- (x * x)) * ((-1) ^ k * (w x - asy k x)))) in NP by ring.
    pose proof (exp_pos (- (x * x))). apply Rnot_lt_le. intros N.
    assert (0 < exp (- (x * x)) * - ((-1) ^ k * (w x - asy k x))) by (apply Rmult_lt_0_compat; lra). lra.
  Qed.

  (** the first omitted term bounds the error *)
  Lemma asy_error : forall k x, 0 < x -> Rabs (w x - asy k x) <= Rabs (ac k) * (/ x) ^ (2 * k + 1).
  Proof.
    intros k x Hx. pose proof (asy_side k x Hx) as A. pose proof (asy_side (S k) x Hx) as B.
    cbn [asy pow] in B. pose proof (ac_sign k) as S.
    assert (Q : 0 < (/ x) ^ (2 * k + 1)) by (apply pow_lt, Rinv_0_lt_compat, Hx).
    assert (X : Rabs (w x - asy k x) = (-1) ^ k * (w x - asy k x)).
    { rewrite <- (Rabs_pos_eq _ A), Rabs_mult, pow_1_abs, Rmult_1_l. reflexivity. }
    assert (Y : Rabs (ac k) = (-1) ^ k * ac k).
    { rewrite <- (Rabs_pos_eq ((-1) ^ k * ac k)), Rabs_mult, pow_1_abs, Rmult_1_l by lra. reflexivity. }
    rewrite X, Y. lra.
  Qed.

  Lemma w_pos : forall x, 0 < x -> 0 < w x.
  Proof.
    intros x Hx. pose proof (asy_side 0 x Hx) as A. simpl in A. rewrite Rmult_1_l, Rminus_0_r in A.
    destruct A as [A|A]; [exact A|]. exfalso.
    (* the derivative of w at x would be negative, and w negative after x *)
    assert (D : forall y, x <= y -> E y <= E x).
    { intros y Hy. destruct Hy as [Hy|<-]; [|lra].
      destruct (MVT_cor2 E (fun x => - K * exp (- (x * x))) x y Hy) as (c & Eq & Hc).
      { intros c Hc. apply HE. }
      pose proof K_pos. pose proof (exp_pos (- (c * c))). assert (0 < K * exp (- (c * c))) by (apply Rmult_lt_0_compat; lra). nra. }
    assert (Lt : E (x + 1) < E x).
    { destruct (MVT_cor2 E (fun x => - K * exp (- (x * x))) x (x + 1) ltac:(lra)) as (c & Eq & Hc).
      { intros c Hc. apply HE. }
      pose proof K_pos. pose proof (exp_pos (- (c * c))). assert (0 < K * exp (- (c * c))) by (apply Rmult_lt_0_compat; lra). nra. }
    rewrite (E_w x), <- A, Rmult_0_r in Lt.
    pose proof (asy_side 0 (x + 1) ltac:(lra)) as A1. simpl in A1. rewrite Rmult_1_l, Rminus_0_r in A1.
    rewrite (E_w (x + 1)) in Lt. pose proof (exp_pos (- ((x + 1) * (x + 1)))). nra.
  Qed.
End Erfc.

(** a crude comparison in either direction *)
Lemma backward_crude : forall (g r : R -> R) a b rho, a <= b -> 0 <= rho ->
  (forall t, a <= t <= b -> derivable_pt_lim g t (2 * t * g t + r t)) ->
  (forall t, a <= t <= b -> Rabs (r t) <= rho) ->
  Rabs (g a) <= exp (a * a) * (Rabs (g b) + rho * (b - a)).
Proof.
  intros g r a b rho Hab Hr D B.
  assert (One : forall t, exp (- (t * t)) <= 1).
  { intros t. rewrite <- exp_0. destruct (Req_dec (t * t) 0) as [->|N]; [rewrite Ropp_0; lra|]. left. apply exp_increasing. nra. }
  destruct Hab as [Hab|<-].
  2:{ replace (a - a) with 0 by ring. rewrite Rmult_0_r, Rplus_0_r. pose proof (Rabs_pos (g a)).
      pose proof (exp_ineq1_le (a * a)). nra. }
  set (h := fun t => exp (- (t * t)) * g t).
  assert (Dh : forall t, a <= t <= b -> derivable_pt_lim h t (exp (- (t * t)) * r t)).
  { intros t Ht. replace (exp (- (t * t)) * r t) with
      ((- (2 * t) * exp (- (t * t))) * g t + exp (- (t * t)) * (2 * t * g t + r t)) by ring.
    apply (derivable_pt_lim_mult (fun t => exp (- (t * t))) g); [apply derive_nsq|apply D; exact Ht]. }
  destruct (MVT_cor2 h (fun t => exp (- (t * t)) * r t) a b Hab) as (c & Ec & Hc).
  { intros t Ht. apply Dh. exact Ht. }
  unfold h in Ec.
  assert (G : g a = exp (a * a) * (exp (- (b * b)) * g b - exp (- (c * c)) * r c * (b - a))).
  { rewrite <- Ec. pose proof (exp_sq_inv a) as Y.
    replace (exp (a * a) * (exp (- (b * b)) * g b - (exp (- (b * b)) * g b - exp (- (a * a)) * g a))) with
      (exp (a * a) * exp (- (a * a)) * g a) by ring. rewrite Y. ring. }
  rewrite G at 1. rewrite Rabs_mult, (Rabs_pos_eq (exp (a * a))) by (left; apply exp_pos).
  apply Rmult_le_compat_l; [left; apply exp_pos|]. unfold Rminus at 1. eapply Rle_trans; [apply Rabs_triang|].
  rewrite Rabs_Ropp, !Rabs_mult, !(Rabs_pos_eq (exp _)), (Rabs_pos_eq (b - a)) by (try (left; apply exp_pos); lra).
  pose proof (One b). pose proof (One c). pose proof (Rabs_pos (g b)). pose proof (Rabs_pos (r c)).
  pose proof (exp_pos (- (b * b))). pose proof (exp_pos (- (c * c))). pose proof (B c ltac:(lra)).
  apply Rplus_le_compat.
  - rewrite <- (Rmult_1_l (Rabs (g b))) at 2. apply Rmult_le_compat_r; lra.
  - apply Rmult_le_compat_r; [lra|]. apply Rle_trans with (1 * rho); [|lra]. apply Rmult_le_compat; lra.
Qed.
