(** * Bounds of integer polynomials on [0, 1] by bisection, in fixed point *)

From Coq Require Import ZArith Reals Lra Lia List.
From Flocq Require Import Core.Raux.
From Verif.Proofs Require Import Poly PolyZ PolyShift.
Import ListNotations.
Open Scope R_scope.

(** every coefficient divided by 2^k, rounded down *)
Definition ptrunc (k : Z) (l : list Z) : list Z := map (fun c => Z.shiftr c k) l.

Lemma ptrunc_near : forall k l x, (0 <= k)%Z -> Rabs x <= 1 ->
  Rabs (peval (ptrunc k l) x - peval l x / IZR (2 ^ k)) <= IZR (Z.of_nat (length l)).
Proof.
  intros k l x Hk Hx. assert (TP : 0 < IZR (2 ^ k)) by (apply IZR_lt, Z.pow_pos_nonneg; lia).
  induction l as [|c l IH].
  - change (peval (ptrunc k []) x) with 0. change (peval [] x) with 0. replace (0 - 0 / IZR (2 ^ k)) with 0 by (field; lra).
    rewrite Rabs_R0. simpl. lra.
  - cbn [ptrunc map length]. fold (ptrunc k l). rewrite !peval_cons.
    rewrite Nat2Z.inj_succ, <- Z.add_1_r, plus_IZR.
    replace (IZR (Z.shiftr c k) + x * peval (ptrunc k l) x - (IZR c + x * peval l x) / IZR (2 ^ k)) with
      ((IZR (Z.shiftr c k) - IZR c / IZR (2 ^ k)) + x * (peval (ptrunc k l) x - peval l x / IZR (2 ^ k))) by (field; lra).
    eapply Rle_trans; [apply Rabs_triang|]. rewrite Rabs_mult, Rplus_comm. apply Rplus_le_compat.
    + apply Rle_trans with (1 * Rabs (peval (ptrunc k l) x - peval l x / IZR (2 ^ k))); [|lra].
      apply Rmult_le_compat_r; [apply Rabs_pos|exact Hx].
    + rewrite Z.shiftr_div_pow2 by exact Hk.
      pose proof (Z.div_mod c (2 ^ k) ltac:(apply Z.pow_nonzero; lia)) as DM.
      pose proof (Z.mod_pos_bound c (2 ^ k) ltac:(apply Z.pow_pos_nonneg; lia)) as MB.
      assert (E : IZR c / IZR (2 ^ k) = IZR (c / 2 ^ k) + IZR (c mod 2 ^ k) / IZR (2 ^ k)).
      { rewrite DM at 1. rewrite plus_IZR, mult_IZR. field. lra. }
      rewrite E. assert (0 <= IZR (c mod 2 ^ k) / IZR (2 ^ k) <= 1).
      { destruct MB as [M1 M2]. apply IZR_le in M1. apply IZR_lt in M2. split.
        - apply Rmult_le_pos; [exact M1|left; apply Rinv_0_lt_compat, TP].
        - apply div_le; lra. }
      apply Rabs_le. lra.
Qed.

Lemma len_padd : forall l m, length (padd l m) = Nat.max (length l) (length m).
Proof. induction l as [|a l IH]; intros [|b m]; cbn [padd length]; auto. rewrite IH. reflexivity. Qed.
Lemma len_pscale : forall k l, length (pscale k l) = length l.
Proof. intros. apply map_length. Qed.
Lemma len_pshift : forall m l, length (pshift m l) = length l.
Proof.
  intros m. induction l as [|c l IH]; [reflexivity|]. cbn [pshift fold_right]. fold (pshift m l).
  rewrite !len_padd, len_pscale. cbn [length]. lia.
Qed.
Lemma len_phom : forall N l, length (phom N l) = length l.
Proof. intros N. induction l; cbn [phom length]; congruence. Qed.
Lemma len_ptrunc : forall k l, length (ptrunc k l) = length l.
Proof. intros. apply map_length. Qed.

(** [phom 2], by shifts *)
Fixpoint phs (l : list Z) : list Z :=
  match l with
  | [] => []
  | c :: l' => Z.shiftl c (Z.of_nat (length l')) :: phs l'
  end.
Lemma phs_eq : forall l, phs l = phom 2 l.
Proof. induction l as [|c l IH]; [reflexivity|]. cbn [phs phom]. rewrite IH, Z.shiftl_mul_pow2 by lia. reflexivity. Qed.

(** [p] approximates f on [m - h, m + h] within [e] *)
Definition near (f : R -> R) (m h : R) (p : list Z) (e : Z) : Prop :=
  forall x, Rabs x <= 1 -> Rabs (f (m + h * x) - peval p x) <= IZR e.

(** the half on the side of s = 1 or -1 *)
Definition phalf (s : Z) (p : list Z) : list Z :=
  let n := Z.of_nat (length p) in ptrunc (n - 1) (pshift s (phs p)).

Lemma half_near : forall f m h p e s, near f m h p e -> (s = 1 \/ s = -1)%Z -> p <> [] ->
  near f (m + IZR s * (h / 2)) (h / 2) (phalf s p) (e + Z.of_nat (length p)).
Proof.
  intros f m h p e s N Hs Hp x Hx.
  assert (L1 : (1 <= Z.of_nat (length p))%Z) by (destruct p; [congruence|cbn [length]; lia]).
  set (y := (x + IZR s) / 2).
  assert (Hy : Rabs y <= 1).
  { apply Rabs_le_inv in Hx. unfold y. apply Rabs_le. destruct Hs as [-> | ->]; simpl; lra. }
  specialize (N y Hy). replace (m + IZR s * (h / 2) + h / 2 * x) with (m + h * y) by (unfold y; field).
  unfold phalf. rewrite phs_eq. set (n := Z.of_nat (length p)) in *.
  pose proof (ptrunc_near (n - 1) (pshift s (phom 2 p)) x ltac:(lia) Hx) as T.
  rewrite len_pshift, len_phom in T. fold n in T.
  rewrite peval_pshift in T.
  assert (E : peval (phom 2 p) (x + IZR s) / IZR (2 ^ (n - 1)) = peval p y).
  { pose proof (peval_phom 2 p (x + IZR s) ltac:(lia)) as E. fold n in E. fold y in E.
    replace n with (Z.succ (n - 1)) in E by lia. rewrite Z.pow_succ_r, mult_IZR in E by lia.
    assert (TP : 0 < IZR (2 ^ (n - 1))) by (apply IZR_lt, Z.pow_pos_nonneg; lia).
    apply (Rmult_eq_reg_l (2 * IZR (2 ^ (n - 1)))); [|lra]. rewrite <- E. field. lra. }
  rewrite E in T. rewrite plus_IZR.
  replace (f (m + h * y) - peval (ptrunc (n - 1) (pshift s (phom 2 p))) x) with
    ((f (m + h * y) - peval p y) + - (peval (ptrunc (n - 1) (pshift s (phom 2 p))) x - peval p y)) by ring.
  eapply Rle_trans; [apply Rabs_triang|]. rewrite Rabs_Ropp. apply Rplus_le_compat; assumption.
Qed.

(** without the trailing coefficients 0 and -1, the head excepted *)
Fixpoint pstrip (l : list Z) : list Z :=
  match l with
  | [] => []
  | c :: l' => match pstrip l' with [] => if ((c =? 0) || (c =? -1))%Z%bool then [] else [c] | d :: r => c :: d :: r end
  end.
Definition pkeep (l : list Z) : list Z := match l with [] => [] | c :: l' => c :: pstrip l' end.
Definition plost (l : list Z) : Z := Z.of_nat (length l - length (pkeep l)).
Lemma pstrip_near : forall l x, Rabs x <= 1 -> (length (pstrip l) <= length l)%nat /\ Rabs (peval l x - peval (pstrip l) x) <= IZR (Z.of_nat (length l - length (pstrip l))).
Proof.
  intros l x Hx. induction l as [|c l [IL IH]]; [split; [cbn; lia|change (peval (pstrip []) x) with (peval [] x); rewrite Rminus_diag_eq, Rabs_R0 by reflexivity; cbn; lra]|].
  assert (M : forall r, Rabs (x * r) <= Rabs r).
  { intros r. rewrite Rabs_mult. pose proof (Rabs_pos r). apply Rle_trans with (1 * Rabs r); [apply Rmult_le_compat_r; assumption|lra]. }
  cbn [pstrip]. destruct (pstrip l) as [|d r] eqn:E.
  - change (peval [] x) with 0 in IH. cbn [length] in IH. rewrite Nat.sub_0_r, Rminus_0_r in IH. specialize (M (peval l x)).
    destruct ((c =? 0) || (c =? -1))%Z%bool eqn:C.
    + split; [cbn [length]; lia|]. change (peval [] x) with 0. rewrite peval_cons, Rminus_0_r. cbn [length]. rewrite Nat.sub_0_r, Nat2Z.inj_succ, <- Z.add_1_r, plus_IZR.
      eapply Rle_trans; [apply Rabs_triang|]. assert (Rabs (IZR c) <= 1).
      { apply Bool.orb_prop in C. destruct C as [C|C]; apply Z.eqb_eq in C; subst c; [rewrite Rabs_R0; lra|]. change (IZR (-1)) with (-1). rewrite Rabs_left; lra. }
      lra.
    + split; [cbn [length]; lia|]. rewrite !peval_cons. change (peval [] x) with 0. cbn [length]. replace (S (length l) - 1)%nat with (length l) by lia.
      replace (IZR c + x * peval l x - (IZR c + x * 0)) with (x * peval l x) by ring. lra.
  - split; [cbn [length] in *; lia|]. set (r' := d :: r) in *. rewrite !(peval_cons c). cbn [length]. rewrite Nat.sub_succ.
    replace (IZR c + x * peval l x - (IZR c + x * peval r' x)) with (x * (peval l x - peval r' x)) by ring. eapply Rle_trans; [apply M|exact IH].
Qed.
Lemma keep_near : forall f m h p e, near f m h p e -> near f m h (pkeep p) (e + plost p).
Proof.
  intros f m h p e N x Hx. specialize (N x Hx). unfold plost. destruct p as [|c l]; [cbn [pkeep length Nat.sub]; simpl (Z.of_nat 0); rewrite Z.add_0_r; exact N|].
  cbn [pkeep length]. rewrite Nat.sub_succ. destruct (pstrip_near l x Hx) as [_ S]. rewrite plus_IZR. rewrite !peval_cons in *.
  assert (M : forall r, Rabs (x * r) <= Rabs r).
  { intros r. rewrite Rabs_mult. pose proof (Rabs_pos r). apply Rle_trans with (1 * Rabs r); [apply Rmult_le_compat_r; assumption|lra]. }
  replace (f (m + h * x) - (IZR c + x * peval (pstrip l) x)) with ((f (m + h * x) - (IZR c + x * peval l x)) + x * (peval l x - peval (pstrip l) x)) by ring.
  eapply Rle_trans; [apply Rabs_triang|]. specialize (M (peval l x - peval (pstrip l) x)). lra.
Qed.
Lemma keep_nonempty : forall p, p <> [] -> pkeep p <> [].
Proof. intros [|c l] H; [congruence|discriminate]. Qed.

Inductive tree := Leaf | Node (l r : tree).

(** the variation: for every leaf the bound times the width, in units of
    2^-[d]; [w] is the width of the interval in these units *)
Fixpoint tvar (t : tree) (w : Z) (p : list Z) (e : Z) : Z :=
  match t with
  | Leaf => (w * (pnorm p + e))%Z
  | Node l r =>
      let n := Z.of_nat (length p) in
      (tvar l (w / 2) (phalf (-1) p) (e + n) + tvar r (w / 2) (phalf 1 p) (e + n))%Z
  end.
(** an upper bound *)
Fixpoint tmax (t : tree) (p : list Z) (e : Z) : Z :=
  match t with
  | Leaf => (hd 0 p + pnorm (tl p) + e)%Z
  | Node l r =>
      let q := pkeep p in let e' := (e + plost p + Z.of_nat (length q))%Z in Z.max (tmax l (phalf (-1) q) e') (tmax r (phalf 1 q) e')
  end.
(** the widths are divisible *)
Fixpoint tfit (t : tree) (w : Z) : bool :=
  match t with
  | Leaf => true
  | Node l r => ((w mod 2 =? 0) && tfit l (w / 2) && tfit r (w / 2))%Z%bool
  end.

Lemma phalf_nonempty : forall s p, p <> [] -> phalf s p <> [].
Proof.
  intros s p Hp. intros E. assert (L : length (phalf s p) = length p).
  { unfold phalf. cbv zeta. rewrite phs_eq, len_ptrunc, len_pshift, len_phom. reflexivity. }
  rewrite E in L. destruct p; [congruence|discriminate].
Qed.

Lemma tmax_ok : forall t f m h p e, p <> [] -> near f m h p e -> 0 <= h ->
  forall y, m - h <= y <= m + h -> f y <= IZR (tmax t p e).
Proof.
  induction t as [|l IL r IR]; intros f m h p e Hp N Hh y Hy.
  - destruct Hh as [Hh|<-].
    + specialize (N ((y - m) / h)). replace (m + h * ((y - m) / h)) with y in N by (field; lra).
      assert (B : Rabs ((y - m) / h) <= 1).
      { unfold Rdiv. rewrite Rabs_mult, (Rabs_pos_eq (/ h)) by (left; apply Rinv_0_lt_compat, Hh).
        apply div_le; [exact Hh|]. rewrite Rmult_1_l. apply Rabs_le. lra. }
      specialize (N B). set (x := (y - m) / h) in *. destruct p as [|c q]; [congruence|].
      cbn [tmax hd tl]. rewrite peval_cons in N. pose proof (peval_norm q x B) as Q. rewrite !plus_IZR.
      assert (x * peval q x <= IZR (pnorm q)).
      { eapply Rle_trans; [apply Rle_abs|]. rewrite Rabs_mult. pose proof (Rabs_pos (peval q x)).
        apply Rle_trans with (1 * Rabs (peval q x)); [apply Rmult_le_compat_r; assumption|lra]. }
      apply Rabs_le_inv in N. lra.
    + specialize (N 0). rewrite Rabs_R0 in N. specialize (N ltac:(lra)). rewrite Rmult_0_l, Rplus_0_r in N.
      replace y with m by lra. destruct p as [|c q]; [congruence|]. cbn [tmax hd tl]. rewrite peval_cons in N.
      pose proof (pnorm_nonneg q) as PN. apply IZR_le in PN. rewrite !plus_IZR. apply Rabs_le_inv in N. lra.
  - cbn [tmax]. cbv zeta. apply keep_near in N. apply keep_nonempty in Hp. generalize dependent (e + plost p)%Z. clear e. generalize dependent (pkeep p). clear p. intros p Hp e N.
    destruct (Rle_or_lt y m) as [L|L].
    + apply Rle_trans with (IZR (tmax l (phalf (-1) p) (e + Z.of_nat (length p)))).
      * apply (IL f (m + IZR (-1) * (h / 2)) (h / 2)); [apply phalf_nonempty, Hp|apply half_near; auto|lra|simpl; lra].
      * apply IZR_le. apply Z.le_max_l.
    + apply Rle_trans with (IZR (tmax r (phalf 1 p) (e + Z.of_nat (length p)))).
      * apply (IR f (m + IZR 1 * (h / 2)) (h / 2)); [apply phalf_nonempty, Hp|apply half_near; auto|lra|simpl; lra].
      * apply IZR_le. apply Z.le_max_r.
Qed.

(** a function whose derivative is at most f in absolute value *)
Lemma tvar_ok : forall t (f g g' : R -> R) (u c : R) m h p e w, 0 < u -> 0 <= c -> p <> [] -> near f m h p e -> 0 <= h ->
  h = IZR w * u / 2 -> tfit t w = true ->
  (forall y, m - h <= y <= m + h -> derivable_pt_lim g y (g' y)) ->
  (forall y, m - h <= y <= m + h -> Rabs (g' y) <= c * Rabs (f y)) ->
  forall y z, m - h <= y <= m + h -> m - h <= z <= m + h -> Rabs (g y - g z) <= c * u * IZR (tvar t w p e).
Proof.
  induction t as [|l IL r IR]; intros f g g' u c m h p e w Hu Hc Hp N Hh Hw Fit D B.
  - assert (G : forall y z, m - h <= y -> y < z -> z <= m + h -> Rabs (g y - g z) <= c * u * IZR (tvar Leaf w p e)).
    { intros y z H1 H2 H3. assert (HP : 0 < h) by lra.
      destruct (MVT_cor2 g g' y z H2) as (k & Ek & Hk).
      { intros k Hk. apply D. lra. }
      rewrite Rabs_minus_sym, Ek, Rabs_mult, (Rabs_pos_eq (z - y)) by lra.
      assert (Fk : Rabs (f k) <= IZR (pnorm p + e)).
      { specialize (N ((k - m) / h)). replace (m + h * ((k - m) / h)) with k in N by (field; lra).
        assert (Bx : Rabs ((k - m) / h) <= 1).
        { unfold Rdiv. rewrite Rabs_mult, (Rabs_pos_eq (/ h)) by (left; apply Rinv_0_lt_compat, HP).
          apply div_le; [exact HP|]. rewrite Rmult_1_l. apply Rabs_le. lra. }
        specialize (N Bx). pose proof (peval_norm p _ Bx) as Q. rewrite plus_IZR.
        apply Rabs_le_inv in N, Q. apply Rabs_le. lra. }
      cbn [tvar]. rewrite mult_IZR. set (A := IZR (pnorm p + e)) in *.
      pose proof (B k ltac:(lra)) as Bk.
      apply Rle_trans with ((c * A) * (IZR w * u)); [|right; ring].
      apply Rmult_le_compat; [apply Rabs_pos|lra| |lra].
      eapply Rle_trans; [exact Bk|]. apply Rmult_le_compat_l; assumption. }
    intros y z Hy Hz. destruct (Rtotal_order y z) as [L|[->|L]].
    + apply G; lra.
    + rewrite Rminus_diag_eq, Rabs_R0 by reflexivity.
      destruct Hh as [Hh|Hh].
      * eapply Rle_trans; [apply Rabs_pos|apply (G (m - h) (m + h)); lra].
      * assert (IZR w * u = 0) by lra. apply Rmult_integral in H. destruct H as [H|H]; [|lra].
        cbn [tvar]. rewrite mult_IZR, H. lra.
    + rewrite Rabs_minus_sym. apply G; lra.
  - cbn [tfit] in Fit. apply andb_prop in Fit. destruct Fit as [Fit F2]. apply andb_prop in Fit. destruct Fit as [Fm F1].
    apply Z.eqb_eq in Fm.
    assert (W2 : IZR w = 2 * IZR (w / 2)).
    { rewrite <- (mult_IZR 2). f_equal. pose proof (Z.div_mod w 2 ltac:(lia)). lia. }
    cbn [tvar]. set (el := (e + Z.of_nat (length p))%Z).
    assert (Hl : forall y z, m - h <= y <= m -> m - h <= z <= m -> Rabs (g y - g z) <= c * u * IZR (tvar l (w / 2) (phalf (-1) p) el)).
    { intros y z Hy Hz. apply (IL f g g' u c (m + IZR (-1) * (h / 2)) (h / 2)); auto.
      - apply phalf_nonempty, Hp.
      - apply half_near; auto.
      - lra.
      - rewrite Hw, W2. field.
      - intros k Hk. apply D. simpl in Hk. lra.
      - intros k Hk. apply B. simpl in Hk. lra.
      - simpl. lra.
      - simpl. lra. }
    assert (Hr : forall y z, m <= y <= m + h -> m <= z <= m + h -> Rabs (g y - g z) <= c * u * IZR (tvar r (w / 2) (phalf 1 p) el)).
    { intros y z Hy Hz. apply (IR f g g' u c (m + IZR 1 * (h / 2)) (h / 2)); auto.
      - apply phalf_nonempty, Hp.
      - apply half_near; auto.
      - lra.
      - rewrite Hw, W2. field.
      - intros k Hk. apply D. simpl in Hk. lra.
      - intros k Hk. apply B. simpl in Hk. lra.
      - simpl. lra.
      - simpl. lra. }
    intros y z Hy Hz. rewrite plus_IZR, Rmult_plus_distr_l.
    assert (Pl : 0 <= c * u * IZR (tvar l (w / 2) (phalf (-1) p) el)) by (eapply Rle_trans; [apply Rabs_pos|apply (Hl m m); lra]).
    assert (Pr : 0 <= c * u * IZR (tvar r (w / 2) (phalf 1 p) el)) by (eapply Rle_trans; [apply Rabs_pos|apply (Hr m m); lra]).
    destruct (Rle_or_lt y m) as [Ly|Ly]; destruct (Rle_or_lt z m) as [Lz|Lz].
    + pose proof (Hl y z ltac:(lra) ltac:(lra)). lra.
    + replace (g y - g z) with ((g y - g m) + (g m - g z)) by ring. eapply Rle_trans; [apply Rabs_triang|].
      apply Rplus_le_compat; [apply Hl; lra|apply Hr; lra].
    + replace (g y - g z) with ((g y - g m) + (g m - g z)) by ring. eapply Rle_trans; [apply Rabs_triang|].
      rewrite Rplus_comm. apply Rplus_le_compat; [apply Hl; lra|apply Hr; lra].
    + pose proof (Hr y z ltac:(lra) ltac:(lra)). lra.
Qed.
