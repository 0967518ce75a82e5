(** * Numerical equality: equal values, or both NaN *)

From Coq Require Import ZArith Reals Bool Lra Lia Setoid Morphisms.
From Flocq Require Import Core IEEE754.BinarySingleNaN IEEE754.Binary IEEE754.Bits.
From Verif.Model Require Import Base Arith.
From Verif.Float Require Import Bits64 Ieee.
From Verif.Spec Require Import F64Spec Outcome.
From Verif.Proofs Require Import F64 F64Ops Lits Ext Boundaries.
Open Scope R_scope.

Global Instance eqz_equiv : Equivalence eqz.
Proof.
  split.
  - intros x. destruct (Binary.is_nan x) eqn:E; [left|right]; unfold is_NaN, number; auto.
  - intros x y [H|H]; [left|right]; intuition congruence.
  - intros x y z [H|H] [G|G]; unfold is_NaN, number in *; try (exfalso; intuition congruence);
      [left|right]; intuition congruence.
Qed.

Lemma eqz_of_eqn : forall x y, x ~= y -> eqz x y.
Proof. intros x y [-> |[A B]]; [reflexivity|left; split; assumption]. Qed.

(** bit-identical, both NaN, or both zeros *)
Lemma eqz_cases : forall x y : f64, eqz x y ->
  x = y \/ (Binary.is_nan x = true /\ Binary.is_nan y = true)
  \/ (fin x /\ fin y /\ Binary.B2R x = 0 /\ Binary.B2R y = 0).
Proof.
  intros x y [H|(Nx & Ny & V)]; [right; left; exact H|].
  destruct (fin_or_inf x Nx) as [Fx|[s ->]].
  - assert (Fy : fin y) by (apply fin_iff_val; [exact Ny|rewrite <- V; apply fin_abs_val; exact Fx]).
    rewrite (val_fin x Fx), (val_fin y Fy) in V.
    destruct (Req_dec (Binary.B2R x) 0) as [Z|Z].
    + right. right. rewrite <- V. auto.
    + left. apply f64_ext_nz; auto.
      * rewrite (val_fin x Fx), (val_fin y Fy). exact V.
      * rewrite (val_fin x Fx). exact Z.
  - left. symmetry. destruct s.
    + apply val_inf_neg; [exact Ny|]. rewrite <- V. apply val_inf_t.
    + apply val_inf_pos; [exact Ny|]. rewrite <- V. apply val_inf_f.
Qed.

Lemma eqz_val : forall x y, number x -> number y -> val x = val y -> eqz x y.
Proof. intros. right. auto. Qed.
Lemma eqz_rounds : forall x y r, rounds x r -> rounds y r -> eqz x y.
Proof. intros x y r [N V] [N' V']. apply eqz_val; congruence. Qed.
Lemma eqz_nans : forall x y, Binary.is_nan x = true -> Binary.is_nan y = true -> eqz x y.
Proof. intros. left. split; assumption. Qed.
Lemma eqz_nan : forall x y, eqz x y -> Binary.is_nan x = Binary.is_nan y.
Proof. intros x y [[A B]|(A & B & _)]; unfold is_NaN, number in *; congruence. Qed.

Global Instance neg_eqz : Proper (eqz ==> eqz) f64_neg.
Proof.
  intros x y [[A B]|(A & B & V)].
  - apply eqz_nans; rewrite nan_neg; assumption.
  - apply eqz_val; unfold number; rewrite ?nan_neg, ?val_neg; try assumption. congruence.
Qed.
Lemma abs_eqz : Proper (eqz ==> eqz) f64_abs.
Proof.
  intros x y [[A B]|(A & B & V)].
  - apply eqz_nans; rewrite nan_abs; assumption.
  - apply eqz_val; unfold number; rewrite ?nan_abs, ?val_abs; try assumption. congruence.
Qed.

Lemma lt_eqz : forall x x' y y', eqz x x' -> eqz y y' -> f64_lt x y = f64_lt x' y'.
Proof.
  intros x x' y y' [[A B]|(A & B & V)] H.
  - rewrite !lt_nan_l by assumption. reflexivity.
  - destruct H as [[C D]|(C & D & W)].
    + rewrite !lt_nan_r by assumption. reflexivity.
    + rewrite !lt_val by assumption. congruence.
Qed.

Section Ops.
  Context (P : platform).

  Lemma add_inf_inf : forall s s', f64_add P (B754_infinity s) (B754_infinity s') ~=
    if Bool.eqb s s' then B754_infinity s else f64_NAN.
  Proof. intros [] []; try (left; reflexivity); right; split; reflexivity. Qed.

  (** a sum with a zero argument is determined up to the sign of zero *)
  Lemma add_zero_l : forall x y, fin x -> Binary.B2R x = 0 -> eqz (f64_add P x y) y.
  Proof.
    intros x y Fx Zx. destruct (Binary.is_nan y) eqn:Ny.
    - apply eqz_nans; [apply add_nan_r|]; exact Ny.
    - destruct (fin_or_inf y Ny) as [Fy|[s ->]].
      + destruct (add_spec P x y Fx Fy) as [N V]. apply eqz_val; [exact N|exact Ny|].
        rewrite V, Zx, Rplus_0_l, (val_fin y Fy). apply rs_fmt; [apply fmt_B2R|left; apply B2R_lt_Om].
      + rewrite add_fin_inf by exact Fx. reflexivity.
  Qed.
  Lemma add_zero_r : forall x y, fin y -> Binary.B2R y = 0 -> eqz (f64_add P x y) x.
  Proof.
    intros x y Fy Zy. transitivity (f64_add P y x).
    - apply eqz_of_eqn, add_comm.
    - apply add_zero_l; assumption.
  Qed.

  Global Instance add_eqz : Proper (eqz ==> eqz ==> eqz) (f64_add P).
  Proof.
    intros x x' Hx y y' Hy.
    destruct (eqz_cases _ _ Hx) as [<- |[[A B]|(A & B & C & D)]].
    - destruct (eqz_cases _ _ Hy) as [<- |[[A B]|(A & B & C & D)]].
      + reflexivity.
      + apply eqz_nans; apply add_nan_r; assumption.
      + rewrite (add_zero_r x y A C), (add_zero_r x y' B D). reflexivity.
    - apply eqz_nans; apply add_nan_l; assumption.
    - rewrite (add_zero_l x y A C), (add_zero_l x' y' B D). exact Hy.
  Qed.

  Global Instance sub_eqz : Proper (eqz ==> eqz ==> eqz) (f64_sub P).
  Proof.
    intros x x' Hx y y' Hy.
    rewrite (eqz_of_eqn _ _ (sub_add_neg P x y)), (eqz_of_eqn _ _ (sub_add_neg P x' y')).
    rewrite Hx, Hy. reflexivity.
  Qed.

  (** a product with a zero argument *)
  Lemma mul_zero_val : forall x y, fin x -> Binary.B2R x = 0 ->
    (fin y /\ number (f64_mul P x y) /\ val (f64_mul P x y) = 0)
    \/ (Binary.is_finite y = false /\ Binary.is_nan (f64_mul P x y) = true).
  Proof.
    intros x y Fx Zx. destruct (Binary.is_nan y) eqn:Ny.
    - right. split; [destruct y; try discriminate Ny; reflexivity|apply mul_nan_r; exact Ny].
    - destruct (fin_or_inf y Ny) as [Fy|[s ->]].
      + left. destruct (mul_spec P x y Fx Fy) as [N V]. split; [exact Fy|]. split; [exact N|].
        rewrite V, Zx, Rmult_0_l. apply rs_0.
      + right. split; [reflexivity|]. destruct x as [s'|s'| |s' m e H]; try discriminate Fx; [reflexivity|].
        exfalso. apply (Binary.B2R_Bsign_inj 53 1024 (B754_finite s' m e H) (B754_zero s')) in Fx; try reflexivity; [discriminate Fx|exact Zx].
  Qed.

  Lemma mul_eqz_l : forall x x' y, eqz x x' -> eqz (f64_mul P x y) (f64_mul P x' y).
  Proof.
    intros x x' y Hx. destruct (eqz_cases _ _ Hx) as [<- |[[A B]|(A & B & C & D)]].
    - reflexivity.
    - apply eqz_nans; apply mul_nan_l; assumption.
    - destruct (mul_zero_val x y A C) as [(F1 & N1 & V1)|(F1 & N1)];
      destruct (mul_zero_val x' y B D) as [(F2 & N2 & V2)|(F2 & N2)]; try congruence.
      + apply eqz_val; congruence.
      + apply eqz_nans; assumption.
  Qed.

  Global Instance mul_eqz : Proper (eqz ==> eqz ==> eqz) (f64_mul P).
  Proof.
    intros x x' Hx y y' Hy. rewrite (mul_eqz_l x x' y Hx).
    rewrite (eqz_of_eqn _ _ (mul_comm P x' y)), (eqz_of_eqn _ _ (mul_comm P x' y')).
    apply mul_eqz_l. exact Hy.
  Qed.

  (** division, when the divisor is not zero *)
  Lemma div_eqz : forall x x' y y', eqz x x' -> eqz y y' -> (number y -> val y <> 0) ->
    eqz (f64_div P x y) (f64_div P x' y').
  Proof.
    intros x x' y y' Hx Hy NZ.
    destruct (eqz_cases _ _ Hy) as [<- |[[A B]|(A & B & C & D)]].
    - destruct (eqz_cases _ _ Hx) as [<- |[[A B]|(A & B & C & D)]].
      + reflexivity.
      + apply eqz_nans; apply div_nan_l; assumption.
      + destruct (Binary.is_nan y) eqn:Ny.
        { apply eqz_nans; apply div_nan_r; exact Ny. }
        specialize (NZ Ny).
        destruct (fin_or_inf y Ny) as [Fy|[s ->]].
        * rewrite (val_fin y Fy) in NZ.
          apply (eqz_rounds _ _ 0).
          -- pose proof (div_spec P x y A Fy NZ) as H. rewrite C in H. unfold Rdiv in H. rewrite Rmult_0_l in H. exact H.
          -- pose proof (div_spec P x' y B Fy NZ) as H. rewrite D in H. unfold Rdiv in H. rewrite Rmult_0_l in H. exact H.
        * destruct x as [s1|s1| |s1 m1 e1 H1]; try discriminate A; destruct x' as [s2|s2| |s2 m2 e2 H2]; try discriminate B;
            apply eqz_val; reflexivity.
    - apply eqz_nans; apply div_nan_r; assumption.
    - exfalso. apply NZ; [apply fin_nonnan; exact A|]. rewrite (val_fin y A). exact C.
  Qed.

  (** negation *)
  Lemma neg_mul_l : forall x y, eqz (f64_mul P (f64_neg x) y) (f64_neg (f64_mul P x y)).
  Proof. intros. apply eqz_of_eqn, mul_neg_l. Qed.
  Lemma neg_mul_r : forall x y, eqz (f64_mul P x (f64_neg y)) (f64_neg (f64_mul P x y)).
  Proof. intros. apply eqz_of_eqn, mul_neg_r. Qed.
  Lemma neg_div_l : forall x y, eqz (f64_div P (f64_neg x) y) (f64_neg (f64_div P x y)).
  Proof. intros. apply eqz_of_eqn, div_neg_l. Qed.
  Lemma neg_div_r : forall x y, eqz (f64_div P x (f64_neg y)) (f64_neg (f64_div P x y)).
  Proof. intros. apply eqz_of_eqn, div_neg_r. Qed.
  Lemma neg_neg_z : forall x, eqz (f64_neg (f64_neg x)) x.
  Proof. intros. rewrite neg_neg. reflexivity. Qed.

  Lemma neg_add : forall x y, eqz (f64_add P (f64_neg x) (f64_neg y)) (f64_neg (f64_add P x y)).
  Proof.
    intros x y. destruct (Binary.is_nan x) eqn:Nx.
    { apply eqz_nans; rewrite ?nan_neg; apply add_nan_l; rewrite ?nan_neg; exact Nx. }
    destruct (Binary.is_nan y) eqn:Ny.
    { apply eqz_nans; rewrite ?nan_neg; apply add_nan_r; rewrite ?nan_neg; exact Ny. }
    destruct (fin_or_inf x Nx) as [Fx|[s ->]].
    - destruct (fin_or_inf y Ny) as [Fy|[s' ->]].
      + destruct (add_spec P x y Fx Fy) as [N V].
        destruct (add_spec P (f64_neg x) (f64_neg y)) as [N' V']; [rewrite fin_neg; exact Fx|rewrite fin_neg; exact Fy|].
        apply eqz_val; [exact N'|unfold number; rewrite nan_neg; exact N|].
        rewrite V', val_neg, V, !B2R_neg, <- rs_opp. f_equal. ring.
      + change (f64_neg (B754_infinity s')) with (B754_infinity (negb s') : f64).
        rewrite !add_fin_inf by (rewrite ?fin_neg; exact Fx). reflexivity.
    - change (f64_neg (B754_infinity s)) with (B754_infinity (negb s) : f64).
      destruct (fin_or_inf y Ny) as [Fy|[s' ->]].
      + rewrite !add_inf_fin by (rewrite ?fin_neg; exact Fy). reflexivity.
      + change (f64_neg (B754_infinity s')) with (B754_infinity (negb s') : f64).
        rewrite (eqz_of_eqn _ _ (add_inf_inf _ _)), (eqz_of_eqn _ _ (add_inf_inf _ _)).
        destruct s, s'; try reflexivity; apply eqz_nans; reflexivity.
  Qed.

  Lemma neg_sub : forall x y, eqz (f64_sub P (f64_neg x) (f64_neg y)) (f64_neg (f64_sub P x y)).
  Proof.
    intros x y. rewrite (eqz_of_eqn _ _ (sub_add_neg P _ _)), (eqz_of_eqn _ _ (sub_add_neg P x y)).
    apply neg_add.
  Qed.
  Lemma sub_neg_add : forall x y, eqz (f64_sub P x (f64_neg y)) (f64_add P x y).
  Proof. intros x y. rewrite (eqz_of_eqn _ _ (sub_add_neg P _ _)), neg_neg. reflexivity. Qed.
  Lemma add_neg_sub : forall x y, eqz (f64_add P x (f64_neg y)) (f64_sub P x y).
  Proof. intros x y. symmetry. apply eqz_of_eqn, sub_add_neg. Qed.
  Lemma add_comm_z : forall x y, eqz (f64_add P x y) (f64_add P y x).
  Proof. intros. apply eqz_of_eqn, add_comm. Qed.
  Lemma mul_comm_z : forall x y, eqz (f64_mul P x y) (f64_mul P y x).
  Proof. intros. apply eqz_of_eqn, mul_comm. Qed.
End Ops.
