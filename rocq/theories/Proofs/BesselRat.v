(** * The rational approximations of src/bessel.rs around 0, over the reals *)

From Coq Require Import ZArith Reals Bool Lra Lia List.
From Flocq Require Import Core.Raux.
From Verif.Model Require Import Base BesselTables.
From Verif.Float Require Import Exact.
From Verif.Spec Require Import BesselSpec.
From Verif.Proofs Require Import Poly PolyZ PolyShift PolyTree HornerErr BesselSeries.
Import ListNotations.
Open Scope R_scope.

(** ** Sign of an integer polynomial on [0, Y] *)

(** l (Y x) *)
Fixpoint pdil (Y c : Z) (l : list Z) : list Z :=
  match l with
  | [] => []
  | a :: l' => (a * c)%Z :: pdil Y (c * Y) l'
  end.
Lemma peval_pdil : forall Y l c x, peval (pdil Y c l) x = IZR c * peval l (IZR Y * x).
Proof.
  intros Y. induction l as [|a l IH]; intros c x; [cbn [pdil]; change (peval [] x) with 0; change (peval [] (IZR Y * x)) with 0; ring|].
  cbn [pdil]. rewrite !peval_cons, IH, !mult_IZR. ring.
Qed.
Lemma len_pdil : forall Y l c, length (pdil Y c l) = length l.
Proof. intros Y. induction l; intros c; cbn [pdil length]; congruence. Qed.

Definition p_init (sh Y : Z) (l : list Z) : list Z := ptrunc sh (pshift 1 (phs (pdil Y 1 l))).

Fixpoint full (d : nat) : tree := match d with O => Leaf | S d' => Node (full d') (full d') end.

Definition neg_chk (t : tree) (sh Y : Z) (l : list Z) : bool :=
  (tmax t (p_init sh Y l) (Z.of_nat (length l)) <=? 0)%Z.

Lemma neg_ok : forall t sh Y l y, (0 <= sh)%Z -> (0 < Y)%Z -> neg_chk t sh Y l = true -> 0 <= y <= IZR Y -> peval l y <= 0.
Proof.
  intros t sh Y l y Hsh HY C Hy. apply Z.leb_le in C. assert (YP : 0 < IZR Y) by (apply IZR_lt, HY).
  destruct l as [|c0 l0]; [change (0 <= 0); lra|]. set (l := c0 :: l0) in *.
  set (K := IZR (2 ^ Z.of_nat (length l)) / 2 / IZR (2 ^ sh)).
  assert (SP : 0 < IZR (2 ^ sh)) by (apply IZR_lt, Z.pow_pos_nonneg; lia).
  assert (LP : 0 < IZR (2 ^ Z.of_nat (length l))) by (apply IZR_lt, Z.pow_pos_nonneg; lia).
  assert (KP : 0 < K) by (unfold K; apply Rdiv_lt_0_compat; lra).
  assert (N : near (fun y => K * peval l y) (IZR Y / 2) (IZR Y / 2) (p_init sh Y l) (Z.of_nat (length l))).
  { intros x Hx. unfold p_init. rewrite phs_eq.
    pose proof (ptrunc_near sh (pshift 1 (phom 2 (pdil Y 1 l))) x Hsh Hx) as T.
    rewrite len_pshift, len_phom, len_pdil in T. rewrite Rabs_minus_sym.
    replace (K * peval l (IZR Y / 2 + IZR Y / 2 * x)) with (peval (pshift 1 (phom 2 (pdil Y 1 l))) x / IZR (2 ^ sh)); [exact T|].
    rewrite peval_pshift. pose proof (peval_phom 2 (pdil Y 1 l) (x + IZR 1) ltac:(lia)) as E.
    rewrite len_pdil, peval_pdil in E. unfold K.
    replace (IZR Y * ((x + IZR 1) / IZR 2)) with (IZR Y / 2 + IZR Y / 2 * x) in E by (simpl; field).
    apply Rmult_eq_reg_l with (2 * IZR (2 ^ sh)); [|lra].
    replace (2 * IZR (2 ^ sh) * (peval (phom 2 (pdil Y 1 l)) (x + IZR 1) / IZR (2 ^ sh))) with (IZR 2 * peval (phom 2 (pdil Y 1 l)) (x + IZR 1)) by (simpl; field; lra).
    rewrite E. simpl (IZR 1). field. lra. }
  pose proof (tmax_ok t _ _ _ (p_init sh Y l) _ ltac:(intros Q; apply (f_equal (@length Z)) in Q; unfold p_init in Q; rewrite phs_eq, len_ptrunc, len_pshift, len_phom, len_pdil in Q; discriminate) N ltac:(lra) y ltac:(lra)) as T.
  apply IZR_le in C. apply Rmult_le_reg_l with K; [exact KP|]. rewrite Rmult_0_r. cbv beta in T. lra.
Qed.

(** l (Y - y) *)
Fixpoint palt (c : Z) (l : list Z) : list Z :=
  match l with
  | [] => []
  | a :: l' => (c * a)%Z :: palt (- c) l'
  end.
Lemma peval_palt : forall l c x, peval (palt c l) x = IZR c * peval l (- x).
Proof.
  induction l as [|a l IH]; intros c x; [cbn [palt]; change (peval [] x) with 0; change (peval [] (- x)) with 0; ring|].
  cbn [palt]. rewrite !peval_cons, IH, mult_IZR, opp_IZR. ring.
Qed.
Definition prefl (Y : Z) (l : list Z) : list Z := pshift (- Y) (palt 1 l).
Lemma peval_prefl : forall Y l x, peval (prefl Y l) x = peval l (IZR Y - x).
Proof.
  intros. unfold prefl. rewrite peval_pshift, peval_palt, opp_IZR. simpl (IZR 1). rewrite Rmult_1_l. f_equal. ring.
Qed.

(** ** Values of the tables *)

Definition tab (l : list dec) (x : R) : R := fold_right (fun c a => R_of_dec c + x * a) 0 l.
Definition zs (l : list dec) : list Z := map (dz 60) l.

Lemma tab_eq : forall l x, forallb (dz_ok 60) l = true -> tab l x = peval (zs l) x / IZR (10 ^ 60).
Proof.
  intros l x. assert (T : 0 < IZR (10 ^ 60)) by (apply IZR_lt; reflexivity).
  induction l as [|c l IH]; intros H; [change (0 = 0 / IZR (10 ^ 60)); field; lra|].
  cbn [forallb] in H. apply andb_prop in H. destruct H as [H1 H2].
  cbn [zs map]. fold (zs l). rewrite peval_cons. change (tab (c :: l) x) with (R_of_dec c + x * tab l x).
  rewrite IH, (dz_eq 60 c) by (assumption || lia). field. lra.
Qed.

(** with [k] digits *)
Definition zk (k : Z) (l : list dec) : list Z := map (dz k) l.
Lemma tab_eqk : forall k l x, (0 <= k)%Z -> forallb (dz_ok k) l = true -> tab l x = peval (zk k l) x / IZR (10 ^ k).
Proof.
  intros k l x Hk. assert (T : 0 < IZR (10 ^ k)) by (apply IZR_lt, Z.pow_pos_nonneg; lia).
  induction l as [|c l IH]; intros H; [change (0 = 0 / IZR (10 ^ k)); field; lra|].
  cbn [forallb] in H. apply andb_prop in H. destruct H as [H1 H2].
  cbn [zk map]. fold (zk k l). rewrite peval_cons. change (tab (c :: l) x) with (R_of_dec c + x * tab l x).
  rewrite IH, (dz_eq k c) by (assumption || lia). field. lra.
Qed.

(** both signs, with the polynomials computed once *)
Definition neg2 (t : tree) (sh Y k : Z) (X C : list Z) : bool :=
  (neg_chk t sh Y (padd (pscale (1 * k) X) C) && neg_chk t sh Y (padd (pscale (-1 * k) X) C))%bool.

Definition posl (l : list Z) : bool := forallb (fun c => 0 <? c)%Z l.
Lemma peval_nonneg : forall l x, 0 <= x -> posl l = true -> 0 <= peval l x.
Proof.
  induction l as [|c l IH]; intros x Hx H; [change (0 <= 0); lra|]. cbn [posl forallb] in H. apply andb_prop in H. destruct H as [H1 H2].
  apply Z.ltb_lt, IZR_lt in H1. rewrite peval_cons. specialize (IH x Hx H2). nra.
Qed.
Lemma peval_ge_hd : forall c l x, 0 <= x -> posl (c :: l) = true -> IZR c <= peval (c :: l) x.
Proof.
  intros c l x Hx H. cbn [posl forallb] in H. apply andb_prop in H. destruct H as [_ H].
  rewrite peval_cons. pose proof (peval_nonneg l x Hx H). nra.
Qed.

(** ** I_0 and I_1 *)

(** B (k P M - l Q) * sg - l Q *)
Definition chk_i (sg k B : Z) (n m : nat) (p q : list dec) : list Z :=
  let '(l, M) := plz 1 n 0 m in
  let lq := pmul l (prefl 225 (zs q)) in
  padd (pscale (sg * B) (padd (pscale (k * M) (zs p)) (pscale (-1) lq))) (pscale (-1) lq).

Lemma ratio_core : forall p q s M B E, 0 < q -> 0 < M -> 0 < s -> 0 < B ->
  B * (p * M - s * q) - s * q <= 0 -> - B * (p * M - s * q) - s * q <= 0 -> E = s / M ->
  Rabs (p / q - E) <= E / B.
Proof.
  intros p q s M B E Q HM S HB H1 H2 ->.
  replace (p / q - s / M) with ((p * M - s * q) / (q * M)) by (field; lra).
  assert (0 < q * M) by (apply Rmult_lt_0_compat; assumption).
  unfold Rdiv at 1. rewrite Rabs_mult, (Rabs_pos_eq (/ _)) by (left; apply Rinv_0_lt_compat; assumption).
  apply Rmult_le_reg_r with (q * M); [assumption|]. rewrite Rmult_assoc, Rinv_l, Rmult_1_r by lra.
  replace (s / M / B * (q * M)) with (s * q / B) by (field; lra).
  apply Rabs_le. split; apply Rmult_le_reg_r with B; try exact HB.
  - replace (- (s * q / B) * B) with (- (s * q)) by (field; lra). lra.
  - replace (s * q / B * B) with (s * q) by (field; lra). lra.
Qed.

Lemma rat_i : forall n m p q k B t sh y, (0 < k)%Z -> (0 < B)%Z -> (0 <= sh)%Z -> 0 <= y <= 225 ->
  forallb (dz_ok 60) p = true -> forallb (dz_ok 60) q = true -> posl (zs q) = true -> q <> [] ->
  neg_chk t sh 225 (chk_i 1 k B n m p q) = true -> neg_chk t sh 225 (chk_i (-1) k B n m p q) = true ->
  0 < pr 1 n 0 m y ->
  Rabs (IZR k * tab p y / tab q (225 - y) - pr 1 n 0 m y) <= pr 1 n 0 m y / IZR B.
Proof.
  intros n m p q k B t sh y Hk HB Hsh Hy Dp Dq Pq Nq C1 C2 P0.
  pose proof (neg_ok _ _ 225 _ y Hsh ltac:(lia) C1 Hy) as E1. pose proof (neg_ok _ _ 225 _ y Hsh ltac:(lia) C2 Hy) as E2.
  unfold chk_i in E1, E2. pose proof (plz_eq 1 n m 0 y) as PE. pose proof (plz_pos 1 n m 0) as MP.
  destruct (plz 1 n 0 m) as [l M]. cbn [fst snd] in *.
  rewrite !peval_padd, !peval_pscale, !peval_padd, !peval_pscale, !peval_pmul, peval_prefl, !mult_IZR in E1, E2. simpl (IZR 1) in *. simpl (IZR (-1)) in *.
  assert (QP : 0 < peval (zs q) (225 - y)).
  { destruct q as [|c q]; [congruence|]. pose proof (peval_ge_hd (dz 60 c) (zs q) (225 - y) ltac:(lra) Pq) as G.
    cbn [zs map posl forallb] in Pq. apply andb_prop in Pq. destruct Pq as [P1 _]. apply Z.ltb_lt, IZR_lt in P1. cbn [zs map]. fold (zs q). lra. }
  rewrite (tab_eq p y Dp), (tab_eq q _ Dq). assert (T : 0 < IZR (10 ^ 60)) by (apply IZR_lt; reflexivity).
  apply IZR_lt in MP, HB, Hk.
  replace (IZR k * (peval (zs p) y / IZR (10 ^ 60)) / (peval (zs q) (225 - y) / IZR (10 ^ 60))) with
    (IZR k * peval (zs p) y / peval (zs q) (225 - y)) by (field; lra).
  rewrite PE in *.
  apply (ratio_core _ _ (IZR M * pr 1 n 0 m y) (IZR M)); try assumption.
  - apply Rmult_lt_0_compat; assumption.
  - lra.
  - lra.
  - field. lra.
Qed.

Definition ti : tree := Node (Node (Node (full 3) (full 2)) (full 2)) (full 3).

Lemma chk_i0 : (neg_chk ti 440 225 (chk_i 1 1 (10 ^ 14) 0 38 I0P I0Q) && neg_chk ti 440 225 (chk_i (-1) 1 (10 ^ 14) 0 38 I0P I0Q))%bool = true.
Proof. vm_compute. reflexivity. Qed.
Lemma chk_i1 : (neg_chk ti 440 225 (chk_i 1 2 (10 ^ 14) 1 38 I1P I1Q) && neg_chk ti 440 225 (chk_i (-1) 2 (10 ^ 14) 1 38 I1P I1Q))%bool = true.
Proof. vm_compute. reflexivity. Qed.

Lemma pr1_ge : forall n m k y, 0 <= y -> 1 <= pr 1 n k m y.
Proof.
  intros n. induction m as [|m IH]; intros k y Hy; cbn [pr]; [lra|]. specialize (IH (S k) y Hy). pose proof (wz_posR n k) as W.
  assert (0 <= 1 * y / IZR (wz n k)) by (apply Rmult_le_pos; [lra|left; apply Rinv_0_lt_compat, W]).
  assert (0 <= 1 * y / IZR (wz n k) * pr 1 n (S k) m y) by (apply Rmult_le_pos; lra). lra.
Qed.

Lemma rat_i0 : forall y, 0 <= y <= 225 ->
  Rabs (tab I0P y / tab I0Q (225 - y) - pr 1 0 0 38 y) <= pr 1 0 0 38 y / 10 ^ 14.
Proof.
  intros y Hy. pose proof chk_i0 as C. apply andb_prop in C. destruct C as [C1 C2].
  pose proof (rat_i 0 38 I0P I0Q 1 (10 ^ 14) ti 440 y ltac:(lia) ltac:(lia) ltac:(lia) Hy eq_refl eq_refl eq_refl ltac:(discriminate) C1 C2) as R.
  specialize (R ltac:(pose proof (pr1_ge 0 38 0 y ltac:(lra)); lra)). simpl (IZR 1) in R. rewrite Rmult_1_l in R.
  replace (IZR (10 ^ 14)) with (10 ^ 14) in R by (rewrite pow_IZR; reflexivity). exact R.
Qed.
Lemma rat_i1 : forall y, 0 <= y <= 225 ->
  Rabs (2 * tab I1P y / tab I1Q (225 - y) - pr 1 1 0 38 y) <= pr 1 1 0 38 y / 10 ^ 14.
Proof.
  intros y Hy. pose proof chk_i1 as C. apply andb_prop in C. destruct C as [C1 C2].
  pose proof (rat_i 1 38 I1P I1Q 2 (10 ^ 14) ti 440 y ltac:(lia) ltac:(lia) ltac:(lia) Hy eq_refl eq_refl eq_refl ltac:(discriminate) C1 C2) as R.
  specialize (R ltac:(pose proof (pr1_ge 1 38 0 y ltac:(lra)); lra)).
  replace (IZR (10 ^ 14)) with (10 ^ 14) in R by (rewrite pow_IZR; reflexivity). exact R.
Qed.

(** ** J_0 and J_1 *)

(** (D y - u) (D y - v) *)
Definition quad (D u v : Z) : list Z := pmul [(- u)%Z; D] [(- v)%Z; D].
Lemma quad_eq : forall D u v y, peval (quad D u v) y = (IZR D * y - IZR u) * (IZR D * y - IZR v).
Proof. intros. unfold quad. rewrite peval_pmul, !peval_cons, !opp_IZR. change (peval [] y) with 0. ring. Qed.

(** sg B (k R quad M - l S D^2) - S M D^2, with D = 10^60 *)
Definition chk_j (sg k B : Z) (n m : nat) (r s : list dec) (u v : dec) : list Z :=
  let '(l, M) := plz (-1) n 0 m in
  let D := (10 ^ 60)%Z in
  padd (pscale (sg * B) (padd (pscale (k * M) (pmul (prefl 64 (zs r)) (quad D (dz 60 u) (dz 60 v)))) (pscale (- (D * D)) (pmul l (zs s)))))
       (pscale (- (M * D * D)) (zs s)).

Lemma abs_core : forall a s l M B E, 0 < s -> 0 < M -> 0 < B ->
  B * (a * M - l * s) - s * M <= 0 -> - B * (a * M - l * s) - s * M <= 0 -> E = l / M -> Rabs (a / s - E) <= 1 / B.
Proof.
  intros a s l M B E S HM HB H1 H2 ->.
  replace (a / s - l / M) with ((a * M - l * s) / (s * M)) by (field; lra).
  assert (0 < s * M) by (apply Rmult_lt_0_compat; assumption).
  unfold Rdiv at 1. rewrite Rabs_mult, (Rabs_pos_eq (/ _)) by (left; apply Rinv_0_lt_compat; assumption).
  apply Rmult_le_reg_r with (s * M); [assumption|]. rewrite Rmult_assoc, Rinv_l, Rmult_1_r by lra.
  apply Rabs_le. split; apply Rmult_le_reg_r with B; try exact HB.
  - replace (- (1 / B * (s * M)) * B) with (- (s * M)) by (field; lra). lra.
  - replace (1 / B * (s * M) * B) with (s * M) by (field; lra). lra.
Qed.

Lemma rat_j : forall n m r s u v k B t sh y, (0 < k)%Z -> (0 < B)%Z -> (0 <= sh)%Z -> 0 <= y <= 64 ->
  forallb (dz_ok 60) (u :: v :: r) = true -> forallb (dz_ok 60) s = true -> posl (zs s) = true -> s <> [] ->
  neg_chk t sh 64 (chk_j 1 k B n m r s u v) = true -> neg_chk t sh 64 (chk_j (-1) k B n m r s u v) = true ->
  Rabs (IZR k * (tab r (64 - y) * (y - R_of_dec u) * (y - R_of_dec v)) / tab s y - pr (-1) n 0 m y) <= 1 / IZR B.
Proof.
  intros n m r s u v k B t sh y Hk HB Hsh Hy Dr Ds Ps Ns C1 C2.
  pose proof (neg_ok _ _ 64 _ y Hsh ltac:(lia) C1 Hy) as E1. pose proof (neg_ok _ _ 64 _ y Hsh ltac:(lia) C2 Hy) as E2.
  unfold chk_j in E1, E2. pose proof (plz_eq (-1) n m 0 y) as PE. pose proof (plz_pos (-1) n m 0) as MP.
  destruct (plz (-1) n 0 m) as [l M]. cbn [fst snd] in *. cbv zeta in E1, E2.
  cbn [forallb] in Dr. apply andb_prop in Dr. destruct Dr as [Du Dr]. apply andb_prop in Dr. destruct Dr as [Dv Dr].
  rewrite (dz_eq 60 u ltac:(lia) Du), (dz_eq 60 v ltac:(lia) Dv).
  rewrite (tab_eq r _ Dr), (tab_eq s _ Ds).
  assert (T : 0 < IZR (10 ^ 60)) by (apply IZR_lt; reflexivity). set (D := (10 ^ 60)%Z) in *. clearbody D.
  rewrite !peval_padd, !peval_pscale, !peval_padd, !peval_pscale, !peval_pmul, peval_prefl, quad_eq, !mult_IZR, !opp_IZR, !mult_IZR in E1, E2.
  assert (QP : 0 < peval (zs s) y).
  { destruct s as [|c s]; [congruence|]. pose proof (peval_ge_hd (dz 60 c) (zs s) y ltac:(lra) Ps) as G.
    cbn [zs map posl forallb] in Ps. apply andb_prop in Ps. destruct Ps as [P1 _]. apply Z.ltb_lt, IZR_lt in P1. cbn [zs map]. fold (zs s). lra. }
  apply IZR_lt in MP, HB, Hk. rewrite PE in *.
  set (A := peval (zs r) (64 - y)) in *. set (S := peval (zs s) y) in *. set (W := pr (-1) n 0 m y) in *.
  set (X := (IZR D * y - IZR (dz 60 u)) * (IZR D * y - IZR (dz 60 v))) in *.
  replace (IZR k * (A / IZR D * (y - IZR (dz 60 u) / IZR D) * (y - IZR (dz 60 v) / IZR D)) / (S / IZR D)) with
    (IZR k * A * X / (S * IZR D * IZR D)) by (unfold X; field; lra).
  apply (abs_core _ _ (IZR M * W) (IZR M)); try assumption.
  - repeat apply Rmult_lt_0_compat; assumption.
  - eapply Rle_trans; [|exact E1]. right. simpl (IZR 1). ring.
  - eapply Rle_trans; [|exact E2]. right. simpl (IZR (-1)). ring.
  - field. lra.
Qed.

Definition XJ00d : dec := 5.783185962946785%dec.
Definition XJ10d : dec := 3.047126234366209e1%dec.
Definition XJ01d : dec := 1.468197064212389e1%dec.
Definition XJ11d : dec := 4.921_845_632_169_46e1%dec.

Lemma chk_j0 : (neg_chk (full 5) 720 64 (chk_j 1 1 (5 * 10 ^ 14) 0 26 J0R J0S XJ00d XJ10d)
  && neg_chk (full 5) 720 64 (chk_j (-1) 1 (5 * 10 ^ 14) 0 26 J0R J0S XJ00d XJ10d))%bool = true.
Proof. vm_compute. reflexivity. Qed.
Lemma chk_j1 : (neg_chk (full 3) 720 64 (chk_j 1 2 (10 ^ 15) 1 26 J1R J1S XJ01d XJ11d)
  && neg_chk (full 3) 720 64 (chk_j (-1) 2 (10 ^ 15) 1 26 J1R J1S XJ01d XJ11d))%bool = true.
Proof. vm_compute. reflexivity. Qed.

Lemma rat_j0 : forall y, 0 <= y <= 64 ->
  Rabs (tab J0R (64 - y) * (y - R_of_dec XJ00d) * (y - R_of_dec XJ10d) / tab J0S y - pr (-1) 0 0 26 y) <= 2 / 10 ^ 15.
Proof.
  intros y Hy. pose proof chk_j0 as C. apply andb_prop in C. destruct C as [C1 C2].
  pose proof (rat_j 0 26 J0R J0S XJ00d XJ10d 1 (5 * 10 ^ 14) (full 5) 720 y ltac:(lia) ltac:(lia) ltac:(lia) Hy eq_refl eq_refl eq_refl ltac:(discriminate) C1 C2) as R.
  simpl (IZR 1) in R. rewrite Rmult_1_l in R. eapply Rle_trans; [exact R|].
  replace (IZR (5 * 10 ^ 14)) with (5 * 10 ^ 14) by (rewrite mult_IZR, pow_IZR; reflexivity). lra.
Qed.
Lemma rat_j1 : forall y, 0 <= y <= 64 ->
  Rabs (2 * (tab J1R (64 - y) * (y - R_of_dec XJ01d) * (y - R_of_dec XJ11d)) / tab J1S y - pr (-1) 1 0 26 y) <= 1 / 10 ^ 15.
Proof.
  intros y Hy. pose proof chk_j1 as C. apply andb_prop in C. destruct C as [C1 C2].
  pose proof (rat_j 1 26 J1R J1S XJ01d XJ11d 2 (10 ^ 15) (full 3) 720 y ltac:(lia) ltac:(lia) ltac:(lia) Hy eq_refl eq_refl eq_refl ltac:(discriminate) C1 C2) as R.
  eapply Rle_trans; [exact R|].
  replace (IZR (10 ^ 15)) with (10 ^ 15) by (rewrite pow_IZR; reflexivity). lra.
Qed.

(** bounds of the partial sums and of their slopes *)
Definition chk_b (sg : Z) (n m : nat) : list Z :=
  let '(l, M) := plz (-1) n 0 m in padd (pscale (100 * sg) l) [(- (101 * M))%Z].
Definition chk_d (sg : Z) (n m : nat) : list Z :=
  let '(l, M) := plz (-1) n 0 m in padd (pscale (3 * sg) (pder l)) [(- M)%Z].

Lemma pr_b : forall n m t sh y, (0 <= sh)%Z -> 0 <= y <= 64 ->
  neg_chk t sh 64 (chk_b 1 n m) = true -> neg_chk t sh 64 (chk_b (-1) n m) = true -> Rabs (pr (-1) n 0 m y) <= 101 / 100.
Proof.
  intros n m t sh y Hsh Hy C1 C2. pose proof (neg_ok _ _ 64 _ y Hsh ltac:(lia) C1 Hy) as E1. pose proof (neg_ok _ _ 64 _ y Hsh ltac:(lia) C2 Hy) as E2.
  unfold chk_b in E1, E2. pose proof (plz_eq (-1) n m 0 y) as PE. pose proof (plz_pos (-1) n m 0) as MP.
  destruct (plz (-1) n 0 m) as [l M]. cbn [fst snd] in *. apply IZR_lt in MP.
  rewrite !peval_padd, !peval_pscale, PE, peval_cons, opp_IZR, !mult_IZR in E1, E2. change (peval [] y) with 0 in *.

  apply Rabs_le. split; apply Rmult_le_reg_l with (IZR M); lra.
Qed.
Lemma pr_lip : forall n m t sh x y, (0 <= sh)%Z -> 0 <= x <= 64 -> 0 <= y <= 64 ->
  neg_chk t sh 64 (chk_d 1 n m) = true -> neg_chk t sh 64 (chk_d (-1) n m) = true ->
  Rabs (pr (-1) n 0 m x - pr (-1) n 0 m y) <= Rabs (x - y) / 3.
Proof.
  intros n m t sh x y Hsh Hx Hy C1 C2.
  assert (E1 := fun z Hz => neg_ok _ _ 64 _ z Hsh ltac:(lia) C1 Hz). assert (E2 := fun z Hz => neg_ok _ _ 64 _ z Hsh ltac:(lia) C2 Hz). clear C1 C2.
  unfold chk_d in E1, E2. pose proof (plz_eq (-1) n m 0) as PE. pose proof (plz_pos (-1) n m 0) as MP.
  destruct (plz (-1) n 0 m) as [l M]. cbn [fst snd] in *. apply IZR_lt in MP.
  assert (D : forall z, 0 <= z <= 64 -> Rabs (peval (pder l) z) <= IZR M / 3).
  { intros z Hz. specialize (E1 z Hz). specialize (E2 z Hz).
    rewrite !peval_padd, !peval_pscale, peval_cons, opp_IZR in E1, E2. change (peval [] z) with 0 in *.
    simpl (IZR (3 * 1)) in E1. simpl (IZR (3 * -1)) in E2. apply Rabs_le. lra. }
  assert (G : forall x y, 0 <= x -> y <= 64 -> x < y -> Rabs (peval l x - peval l y) <= IZR M / 3 * Rabs (x - y)).
  { intros u w Hu Hw L. destruct (MVT_cor2 (peval l) (peval (pder l)) u w L) as (c & Ec & Hc).
    { intros c _. apply derive_peval. }
    rewrite <- Rabs_Ropp, Ropp_minus_distr, Ec, Rabs_mult, (Rabs_minus_sym u w).
    apply Rmult_le_compat_r; [apply Rabs_pos|]. apply D. lra. }
  assert (H : Rabs (peval l x - peval l y) <= IZR M / 3 * Rabs (x - y)).
  { destruct (Rtotal_order x y) as [L|[->|L]].
    - apply G; lra.
    - rewrite !Rminus_diag_eq, !Rabs_R0 by reflexivity. lra.
    - rewrite (Rabs_minus_sym (peval l x)), (Rabs_minus_sym x). apply G; lra. }
  rewrite !PE, <- Rmult_minus_distr_l, Rabs_mult, (Rabs_pos_eq (IZR M)) in H by lra.
  apply Rmult_le_reg_l with (IZR M); [exact MP|]. simpl (IZR (-1)) in H. lra.
Qed.

Lemma chk_b01 : (neg_chk (full 3) 100 64 (chk_b 1 0 26) && neg_chk (full 3) 100 64 (chk_b (-1) 0 26)
  && neg_chk (full 3) 100 64 (chk_b 1 1 26) && neg_chk (full 3) 100 64 (chk_b (-1) 1 26))%bool = true.
Proof. vm_compute. reflexivity. Qed.
Lemma chk_d01 : (neg_chk (full 3) 100 64 (chk_d 1 0 26) && neg_chk (full 3) 100 64 (chk_d (-1) 0 26)
  && neg_chk (full 3) 100 64 (chk_d 1 1 26) && neg_chk (full 3) 100 64 (chk_d (-1) 1 26))%bool = true.
Proof. vm_compute. reflexivity. Qed.

Lemma pr_j_bound : forall n y, (n = 0 \/ n = 1)%nat -> 0 <= y <= 64 -> Rabs (pr (-1) n 0 26 y) <= 101 / 100.
Proof.
  intros n y Hn Hy. pose proof chk_b01 as C. apply andb_prop in C. destruct C as [C C4]. apply andb_prop in C. destruct C as [C C3].
  apply andb_prop in C. destruct C as [C1 C2].
  destruct Hn as [-> | ->]; apply (pr_b _ 26 (full 3) 100); try assumption; lia.
Qed.
Lemma pr_j_lip : forall n x y, (n = 0 \/ n = 1)%nat -> 0 <= x <= 64 -> 0 <= y <= 64 ->
  Rabs (pr (-1) n 0 26 x - pr (-1) n 0 26 y) <= Rabs (x - y) / 3.
Proof.
  intros n x y Hn Hx Hy. pose proof chk_d01 as C. apply andb_prop in C. destruct C as [C C4]. apply andb_prop in C. destruct C as [C C3].
  apply andb_prop in C. destruct C as [C1 C2].
  destruct Hn as [-> | ->]; apply (pr_lip _ 26 (full 3) 100); try assumption; lia.
Qed.
