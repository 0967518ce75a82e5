(** * Polynomials with integer coefficients, lowest degree first *)

From Coq Require Import ZArith Reals Lra Lia List.
From Flocq Require Import Core.Raux.
From Verif.Proofs Require Import Poly.
Import ListNotations.
Open Scope R_scope.

Definition peval (l : list Z) (x : R) : R := fold_right (fun c a => IZR c + x * a) 0 l.

Fixpoint padd (l m : list Z) : list Z :=
  match l, m with
  | [], _ => m
  | _, [] => l
  | a :: l', b :: m' => (a + b)%Z :: padd l' m'
  end.
Definition pscale (k : Z) (l : list Z) : list Z := map (Z.mul k) l.
Fixpoint pder (l : list Z) : list Z :=
  match l with
  | [] => []
  | _ :: l' => padd l' (0%Z :: pder l')
  end.
Fixpoint pmul (l m : list Z) : list Z :=
  match l with
  | [] => []
  | a :: l' => padd (pscale a m) (0%Z :: pmul l' m)
  end.

(** a bound on the value for |x| <= n / d *)
Fixpoint pbound (n d : Z) (l : list Z) : Z :=
  match l with
  | [] => 0%Z
  | c :: l' => (Z.abs c + (pbound n d l' * n / d + 1))%Z
  end.

(** the value at n / d, times d ^ degree *)
Fixpoint zeval (x : Z) (l : list Z) : Z :=
  match l with
  | [] => 0%Z
  | c :: l' => (c + x * zeval x l')%Z
  end.

Lemma peval_cons : forall c l x, peval (c :: l) x = IZR c + x * peval l x.
Proof. reflexivity. Qed.

Lemma peval_zeval : forall l x, peval l (IZR x) = IZR (zeval x l).
Proof.
  induction l as [|c l IH]; intros x; [reflexivity|].
  rewrite peval_cons. cbn [zeval]. rewrite plus_IZR, mult_IZR, IH. reflexivity.
Qed.

Lemma peval_padd : forall l m x, peval (padd l m) x = peval l x + peval m x.
Proof.
  induction l as [|a l IH]; intros m x; [cbn [padd]; change (peval [] x) with 0; ring|].
  destruct m as [|b m]; [cbn [padd]; change (peval [] x) with 0; ring|].
  cbn [padd]. rewrite !peval_cons, IH, plus_IZR. ring.
Qed.
Lemma peval_pscale : forall k l x, peval (pscale k l) x = IZR k * peval l x.
Proof.
  induction l as [|a l IH]; intros x; [change (0 = IZR k * 0); ring|].
  change (pscale k (a :: l)) with ((k * a)%Z :: pscale k l). rewrite !peval_cons, IH, mult_IZR. ring.
Qed.
Lemma peval_pmul : forall l m x, peval (pmul l m) x = peval l x * peval m x.
Proof.
  induction l as [|a l IH]; intros m x; [change (0 = 0 * peval m x); ring|].
  cbn [pmul]. rewrite peval_padd, peval_pscale, !peval_cons, IH. ring.
Qed.

Lemma derive_peval : forall l x, derivable_pt_lim (peval l) x (peval (pder l) x).
Proof.
  induction l as [|c l IH]; intros x.
  - apply derivable_pt_lim_const.
  - change (peval (c :: l)) with (fun x => IZR c + x * peval l x). cbn [pder].
    rewrite peval_padd, peval_cons.
    replace (peval l x + (0 + x * peval (pder l) x)) with (0 + (1 * peval l x + x * peval (pder l) x)) by ring.
    apply (derivable_pt_lim_plus (fun _ => IZR c) (fun x => x * peval l x)); [apply derivable_pt_lim_const|].
    apply (derivable_pt_lim_mult id (peval l)); [apply derivable_pt_lim_id|apply IH].
Qed.

Lemma pbound_nonneg : forall n d l, (0 <= n)%Z -> (0 < d)%Z -> (0 <= pbound n d l)%Z.
Proof.
  intros n d l Hn Hd. induction l as [|c l IH]; cbn [pbound]; [lia|].
  assert (0 <= pbound n d l * n / d)%Z by (apply Z.div_pos; [apply Z.mul_nonneg_nonneg; lia|lia]). lia.
Qed.

Lemma peval_bound : forall n d l x, (0 <= n)%Z -> (0 < d)%Z -> Rabs x <= IZR n / IZR d ->
  Rabs (peval l x) <= IZR (pbound n d l).
Proof.
  intros n d l x Hn Hd Hx. assert (DP : 0 < IZR d) by (apply IZR_lt; exact Hd).
  induction l as [|c l IH].
  - change (peval [] x) with 0. rewrite Rabs_R0. cbn [pbound]. lra.
  - rewrite peval_cons. cbn [pbound]. eapply Rle_trans; [apply Rabs_triang|].
    rewrite plus_IZR, abs_IZR. apply Rplus_le_compat_l. rewrite Rabs_mult.
    pose proof (IZR_div_up (pbound n d l * n) d Hd) as U.
    eapply Rle_trans; [|exact U]. rewrite mult_IZR.
    replace (IZR (pbound n d l) * IZR n / IZR d) with (IZR n / IZR d * IZR (pbound n d l)) by (field; lra).
    apply Rmult_le_compat; auto using Rabs_pos.
Qed.

(** on [-1, 1] *)
Definition pnorm (l : list Z) : Z := fold_right (fun c a => Z.abs c + a)%Z 0%Z l.

Lemma pnorm_nonneg : forall l, (0 <= pnorm l)%Z.
Proof. induction l as [|c l IH]; cbn [pnorm fold_right]; [lia|]. fold (pnorm l). lia. Qed.

Lemma peval_norm : forall l x, Rabs x <= 1 -> Rabs (peval l x) <= IZR (pnorm l).
Proof.
  intros l x Hx. induction l as [|c l IH].
  - change (peval [] x) with 0. rewrite Rabs_R0. cbn. lra.
  - rewrite peval_cons. change (pnorm (c :: l)) with (Z.abs c + pnorm l)%Z.
    eapply Rle_trans; [apply Rabs_triang|]. rewrite plus_IZR, abs_IZR. apply Rplus_le_compat_l.
    rewrite Rabs_mult, <- (Rmult_1_l (IZR (pnorm l))). apply Rmult_le_compat; auto using Rabs_pos.
Qed.

(** Lipschitz bound *)
Lemma peval_lip : forall n d l x y, (0 <= n)%Z -> (0 < d)%Z -> Rabs x <= IZR n / IZR d -> Rabs y <= IZR n / IZR d ->
  Rabs (peval l x - peval l y) <= IZR (pbound n d (pder l)) * Rabs (x - y).
Proof.
  intros n d l x y Hn Hd Hx Hy.
  assert (G : forall x y, x < y -> Rabs x <= IZR n / IZR d -> Rabs y <= IZR n / IZR d ->
    Rabs (peval l x - peval l y) <= IZR (pbound n d (pder l)) * Rabs (x - y)).
  { clear x y Hx Hy. intros x y L Hx Hy.
    destruct (MVT_cor2 (peval l) (peval (pder l)) x y L) as (c & Ec & Hc).
    { intros c _. apply derive_peval. }
    rewrite <- Rabs_Ropp, Ropp_minus_distr, Ec, Rabs_mult, (Rabs_minus_sym x y).
    apply Rmult_le_compat_r; [apply Rabs_pos|]. apply peval_bound; [exact Hn|exact Hd|].
    apply Rabs_le_inv in Hx, Hy. apply Rabs_le. lra. }
  destruct (Rtotal_order x y) as [L|[->|L]].
  - apply G; assumption.
  - rewrite !Rminus_diag_eq, !Rabs_R0, Rmult_0_r by reflexivity. lra.
  - rewrite (Rabs_minus_sym (peval l x)), (Rabs_minus_sym x). apply G; assumption.
Qed.
