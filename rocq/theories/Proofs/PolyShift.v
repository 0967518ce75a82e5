(** * Bounds of integer polynomials on small intervals *)

From Coq Require Import ZArith Reals Lra Lia List.
From Flocq Require Import Core.Raux.
From Verif.Proofs Require Import Poly PolyZ.
Import ListNotations.
Open Scope R_scope.

(** l (x + m) *)
Definition pshift (m : Z) (l : list Z) : list Z :=
  fold_right (fun c acc => padd [c] (padd (pscale m acc) (0%Z :: acc))) [] l.

Lemma peval_pshift : forall m l x, peval (pshift m l) x = peval l (x + IZR m).
Proof.
  intros m l x. induction l as [|c l IH]; [reflexivity|].
  cbn [pshift fold_right]. fold (pshift m l). rewrite !peval_padd, peval_pscale, !peval_cons, IH.
  change (peval [] x) with 0. ring.
Qed.

(** N^(degree) l (x / N) *)
Fixpoint phom (N : Z) (l : list Z) : list Z :=
  match l with
  | [] => []
  | c :: l' => (c * N ^ Z.of_nat (length l'))%Z :: phom N l'
  end.

Lemma peval_phom : forall N l x, (0 < N)%Z ->
  IZR N * peval (phom N l) x = IZR (N ^ Z.of_nat (length l)) * peval l (x / IZR N).
Proof.
  intros N l x HN. assert (NP : 0 < IZR N) by (apply IZR_lt; exact HN).
  induction l as [|c l IH]; [change (IZR N * 0 = 1 * 0); ring|].
  cbn [phom length]. rewrite !peval_cons, mult_IZR.
  rewrite Nat2Z.inj_succ, Z.pow_succ_r, mult_IZR by lia.
  transitivity (IZR N * (IZR c * IZR (N ^ Z.of_nat (length l))) + x * (IZR N * peval (phom N l) x)); [ring|].
  rewrite IH. field. lra.
Qed.

(** around M / N *)
Definition ploc (N M : Z) (l : list Z) : list Z := pshift M (phom N l).

Lemma peval_ploc : forall N M l t, (0 < N)%Z ->
  IZR N * peval (ploc N M l) (t * IZR N - IZR M) = IZR (N ^ Z.of_nat (length l)) * peval l t.
Proof.
  intros N M l t HN. assert (NP : 0 < IZR N) by (apply IZR_lt; exact HN).
  unfold ploc. rewrite peval_pshift. replace (t * IZR N - IZR M + IZR M) with (t * IZR N) by ring.
  rewrite peval_phom by exact HN. do 2 f_equal. field. lra.
Qed.

Lemma ploc_abs : forall N M H l t B, (0 < N)%Z -> (0 <= H)%Z -> Rabs (t * IZR N - IZR M) <= IZR H ->
  (N * pbound H 1 (ploc N M l) <= B * N ^ Z.of_nat (length l))%Z -> Rabs (peval l t) <= IZR B.
Proof.
  intros N M H l t B HN HH Ht HB. assert (NP : 0 < IZR N) by (apply IZR_lt; exact HN).
  set (W := IZR (N ^ Z.of_nat (length l))). assert (WP : 0 < W) by (apply IZR_lt, Z.pow_pos_nonneg; lia).
  apply IZR_le in HB. rewrite !mult_IZR in HB. fold W in HB.
  pose proof (peval_bound H 1 (ploc N M l) (t * IZR N - IZR M) HH ltac:(lia) ltac:(unfold Rdiv; rewrite Rinv_1, Rmult_1_r; exact Ht)) as PB.
  apply (Rmult_le_reg_l W); [exact WP|].
  replace (W * Rabs (peval l t)) with (Rabs (W * peval l t)) by (rewrite Rabs_mult, (Rabs_pos_eq W); lra).
  unfold W. rewrite <- (peval_ploc N M l t HN). fold W. rewrite Rabs_mult, (Rabs_pos_eq (IZR N)) by lra.
  apply Rle_trans with (IZR N * IZR (pbound H 1 (ploc N M l))); [apply Rmult_le_compat_l; lra|lra].
Qed.

Lemma ploc_up : forall N M H l t B, (0 < N)%Z -> (0 <= H)%Z -> Rabs (t * IZR N - IZR M) <= IZR H ->
  (N * (hd 0 (ploc N M l) + H * pbound H 1 (tl (ploc N M l))) <= B * N ^ Z.of_nat (length l))%Z -> peval l t <= IZR B.
Proof.
  intros N M H l t B HN HH Ht HB. assert (NP : 0 < IZR N) by (apply IZR_lt; exact HN).
  set (W := IZR (N ^ Z.of_nat (length l))). assert (WP : 0 < W) by (apply IZR_lt, Z.pow_pos_nonneg; lia).
  apply IZR_le in HB. rewrite !mult_IZR, plus_IZR, mult_IZR in HB. fold W in HB.
  pose proof (peval_ploc N M l t HN) as E. fold W in E.
  apply (Rmult_le_reg_l W); [exact WP|]. rewrite <- E.
  apply Rle_trans with (IZR N * (IZR (hd 0%Z (ploc N M l)) + IZR H * IZR (pbound H 1 (tl (ploc N M l))))); [|lra].
  apply Rmult_le_compat_l; [lra|].
  destruct (ploc N M l) as [|c q]; [change (0 <= 0 + IZR H * 0); lra|].
  rewrite peval_cons. cbn [hd tl]. apply Rplus_le_compat_l.
  pose proof (peval_bound H 1 q (t * IZR N - IZR M) HH ltac:(lia) ltac:(unfold Rdiv; rewrite Rinv_1, Rmult_1_r; exact Ht)) as PB.
  eapply Rle_trans; [apply Rle_abs|]. rewrite Rabs_mult. apply Rmult_le_compat; try apply Rabs_pos; assumption.
Qed.
