(** * More about the IEEE operations: signs, infinities, NaN, literals, casts *)

From Coq Require Import ZArith Reals Bool Lra Lia Psatz Morphisms Setoid.
From Flocq Require Import Core IEEE754.BinarySingleNaN IEEE754.Binary IEEE754.Bits.
From Flocq Require Import Relative.
From Verif.Model Require Import Base Arith.
From Verif.Float Require Import Bits64 Ieee Exact.
From Verif.Proofs Require Import F64.
Open Scope R_scope.

(** ** Equality up to the payload of NaN *)

#[global] Instance eqn_equiv : Equivalence eqn.
Proof.
  split.
  - intros x. now left.
  - intros x y [->|[]]; [now left|right; auto].
  - intros x y z [->|[]] [->|[]]; unfold eqn; auto; try congruence.
Qed.

Lemma eqn_nan : forall x y, x ~= y -> Binary.is_nan x = Binary.is_nan y.
Proof. intros x y [->|[-> ->]]; auto. Qed.

Lemma eqn_nonnan : forall x y, x ~= y -> nonnan x -> x = y.
Proof. intros x y [->|[H _]] N; congruence. Qed.

Lemma eqn_of : forall x y,
  Binary.is_nan x = Binary.is_nan y -> (nonnan x -> nonnan y -> x = y) -> x ~= y.
Proof.
  intros x y H K. destruct (Binary.is_nan x) eqn:Nx; [right|left]; auto.
Qed.

(** ** When the result is NaN *)

Section Nan.
  Context (P : platform).

  Lemma is_nan_BSN2B : forall n (x : BinarySingleNaN.binary_float 53 1024),
    Binary.is_nan (Binary.BSN2B 53 1024 n x) = BinarySingleNaN.is_nan x.
  Proof. intros [n Hn] [| | |]; simpl; auto. Qed.

  Lemma add_nan_l : forall x y, Binary.is_nan x = true -> Binary.is_nan (f64_add P x y) = true.
  Proof. intros x y H. unfold f64_add, Binary.Bplus. rewrite is_nan_BSN2B. destruct x; try discriminate. destruct y; reflexivity. Qed.
  Lemma add_nan_r : forall x y, Binary.is_nan y = true -> Binary.is_nan (f64_add P x y) = true.
  Proof. intros x y H. unfold f64_add, Binary.Bplus. rewrite is_nan_BSN2B. destruct y; try discriminate. destruct x; reflexivity. Qed.
  Lemma sub_nan_l : forall x y, Binary.is_nan x = true -> Binary.is_nan (f64_sub P x y) = true.
  Proof. intros x y H. unfold f64_sub, Binary.Bminus. rewrite is_nan_BSN2B. destruct x; try discriminate. destruct y; reflexivity. Qed.
  Lemma sub_nan_r : forall x y, Binary.is_nan y = true -> Binary.is_nan (f64_sub P x y) = true.
  Proof. intros x y H. unfold f64_sub, Binary.Bminus. rewrite is_nan_BSN2B. destruct y; try discriminate. destruct x; reflexivity. Qed.
  Lemma mul_nan_l : forall x y, Binary.is_nan x = true -> Binary.is_nan (f64_mul P x y) = true.
  Proof. intros x y H. unfold f64_mul, Binary.Bmult. rewrite is_nan_BSN2B. destruct x; try discriminate. destruct y; reflexivity. Qed.
  Lemma mul_nan_r : forall x y, Binary.is_nan y = true -> Binary.is_nan (f64_mul P x y) = true.
  Proof. intros x y H. unfold f64_mul, Binary.Bmult. rewrite is_nan_BSN2B. destruct y; try discriminate. destruct x; reflexivity. Qed.
  Lemma div_nan_l : forall x y, Binary.is_nan x = true -> Binary.is_nan (f64_div P x y) = true.
  Proof. intros x y H. unfold f64_div, Binary.Bdiv. rewrite is_nan_BSN2B. destruct x; try discriminate. destruct y; reflexivity. Qed.
  Lemma div_nan_r : forall x y, Binary.is_nan y = true -> Binary.is_nan (f64_div P x y) = true.
  Proof. intros x y H. unfold f64_div, Binary.Bdiv. rewrite is_nan_BSN2B. destruct y; try discriminate. destruct x; reflexivity. Qed.
  Lemma sqrt_nan : forall x, Binary.is_nan x = true -> Binary.is_nan (f64_sqrt P x) = true.
  Proof. intros x H. unfold f64_sqrt, Binary.Bsqrt. rewrite is_nan_BSN2B. destruct x; try discriminate. reflexivity. Qed.
  Lemma floor_nan : forall x, Binary.is_nan x = true -> Binary.is_nan (f64_floor P x) = true.
  Proof. intros x H. unfold f64_floor, Binary.Bnearbyint. rewrite is_nan_BSN2B. destruct x; try discriminate. reflexivity. Qed.
  Lemma trunc_nan : forall x, Binary.is_nan x = true -> Binary.is_nan (f64_trunc P x) = true.
  Proof. intros x H. unfold f64_trunc, Binary.Bnearbyint. rewrite is_nan_BSN2B. destruct x; try discriminate. reflexivity. Qed.
  Lemma libm_nan : forall f x, Binary.is_nan x = true -> Binary.is_nan (libm P f x) = true.
  Proof. intros f x H. unfold libm, f64_is_nan, un_nan. rewrite H. destruct (p_un_nan P x); auto. Qed.
  Lemma libm_nonnan : forall f x, nonnan x -> libm P f x = f x.
  Proof. intros f x H. unfold libm, f64_is_nan. now rewrite H. Qed.
  Lemma fma_nan : forall x y z,
    Binary.is_nan x = true \/ Binary.is_nan y = true \/ Binary.is_nan z = true ->
    Binary.is_nan (f64_fma P x y z) = true.
  Proof.
    intros x y z H. unfold f64_fma, Binary.Bfma. rewrite is_nan_BSN2B.
    destruct x as [[]|[]| |[]], y as [[]|[]| |[]], z as [[]|[]| |[]]; simpl in H; try reflexivity;
      exfalso; destruct H as [H|[H|H]]; discriminate.
  Qed.
End Nan.

(** ** Signs of results *)

Section Signs.
  Context (P : platform).

  Lemma mul_sign : forall x y, nonnan (f64_mul P x y) ->
    Binary.Bsign (f64_mul P x y) = xorb (Binary.Bsign x) (Binary.Bsign y).
  Proof.
    intros x y N.
    pose proof (Binary.Bmult_correct 53 1024 prec_gt_0_64 prec_lt_emax_64 (p_mul_nan P) mode_NE x y) as H.
    destruct Rlt_bool.
    - now apply H.
    - apply overflow_inf in H. unfold f64_mul. rewrite H. reflexivity.
  Qed.

  Lemma div_sign : forall x y, nonnan (f64_div P x y) -> nonnan x -> nonnan y ->
    Binary.Bsign (f64_div P x y) = xorb (Binary.Bsign x) (Binary.Bsign y).
  Proof.
    intros x y N Nx Ny.
    destruct (Req_dec (Binary.B2R y) 0) as [Z|Z].
    - destruct y as [sy|sy| |sy my ey By]; try discriminate.
      + destruct x as [sx|sx| |sx mx ex Bx]; try discriminate; try reflexivity;
          unfold f64_div, Binary.Bdiv in N; rewrite is_nan_BSN2B in N; discriminate.
      + destruct x as [sx|sx| |sx mx ex Bx]; try discriminate; try reflexivity;
          unfold f64_div, Binary.Bdiv in N; rewrite is_nan_BSN2B in N; discriminate.
      + exfalso. simpl in Z. apply eq_0_F2R in Z. destruct sy; discriminate.
    - pose proof (Binary.Bdiv_correct 53 1024 prec_gt_0_64 prec_lt_emax_64 (p_div_nan P) mode_NE x y Z) as H.
      destruct Rlt_bool.
      + now apply H.
      + apply overflow_inf in H. unfold f64_div. rewrite H. reflexivity.
  Qed.

  Lemma add_sign : forall x y, fin x -> fin y ->
    Binary.Bsign (f64_add P x y) =
    match Rcompare (Binary.B2R x + Binary.B2R y) 0 with
    | Eq => Binary.Bsign x && Binary.Bsign y
    | Lt => true
    | Gt => false
    end.
  Proof.
    intros x y Fx Fy.
    pose proof (Binary.Bplus_correct 53 1024 prec_gt_0_64 prec_lt_emax_64 (p_add_nan P) mode_NE x y Fx Fy) as H.
    destruct Rlt_bool eqn:E.
    - now apply H.
    - destruct H as [H S]. apply overflow_inf in H. unfold f64_add. rewrite H. simpl.
      pose proof (Bsign_B2R x Fx). pose proof (Bsign_B2R y Fy). rewrite <- S in *.
      assert (NZ : Binary.B2R x + Binary.B2R y <> 0).
      { intros Z. rewrite Z, round_0, Rabs_R0 in E by auto with typeclass_instances.
        rewrite Rlt_bool_true in E; [discriminate|apply bpow_gt_0]. }
      destruct (Binary.Bsign x).
      + rewrite Rcompare_Lt; auto; lra.
      + rewrite Rcompare_Gt; auto; lra.
  Qed.

  Lemma sub_sign : forall x y, fin x -> fin y ->
    Binary.Bsign (f64_sub P x y) =
    match Rcompare (Binary.B2R x - Binary.B2R y) 0 with
    | Eq => Binary.Bsign x && negb (Binary.Bsign y)
    | Lt => true
    | Gt => false
    end.
  Proof.
    intros x y Fx Fy.
    pose proof (Binary.Bminus_correct 53 1024 prec_gt_0_64 prec_lt_emax_64 (p_sub_nan P) mode_NE x y Fx Fy) as H.
    destruct Rlt_bool eqn:E.
    - now apply H.
    - destruct H as [H S]. apply overflow_inf in H. unfold f64_sub. rewrite H. simpl.
      pose proof (Bsign_B2R x Fx). pose proof (Bsign_B2R y Fy).
      assert (NZ : Binary.B2R x - Binary.B2R y <> 0).
      { intros Z. rewrite Z, round_0, Rabs_R0 in E by auto with typeclass_instances.
        rewrite Rlt_bool_true in E; [discriminate|apply bpow_gt_0]. }
      destruct (Binary.Bsign x), (Binary.Bsign y); try discriminate.
      + rewrite Rcompare_Lt; auto; lra.
      + rewrite Rcompare_Gt; auto; lra.
  Qed.

  (** ** Commutativity and negation, exactly *)

  Lemma add_comm : forall x y, f64_add P x y ~= f64_add P y x.
  Proof.
    intros x y. destruct (Binary.is_nan x) eqn:Nx.
    { right. split; [now apply add_nan_l|now apply add_nan_r]. }
    destruct (Binary.is_nan y) eqn:Ny.
    { right. split; [now apply add_nan_r|now apply add_nan_l]. }
    destruct (Binary.is_finite x) eqn:Fx, (Binary.is_finite y) eqn:Fy.
    - left. destruct (add_spec P x y Fx Fy) as [N1 V1], (add_spec P y x Fy Fx) as [N2 V2].
      apply f64_ext; auto.
      + rewrite V1, V2. f_equal. ring.
      + rewrite !add_sign by auto. rewrite Rplus_comm, andb_comm. reflexivity.
    - destruct x as [|[]| |], y as [|[]| |]; try discriminate; left; reflexivity.
    - destruct x as [|[]| |], y as [|[]| |]; try discriminate; left; reflexivity.
    - destruct x as [|[]| |], y as [|[]| |]; try discriminate; (left; reflexivity) ||
      (right; unfold f64_add, Binary.Bplus; rewrite !is_nan_BSN2B; auto).
  Qed.

  Lemma mul_comm : forall x y, f64_mul P x y ~= f64_mul P y x.
  Proof.
    intros x y. destruct (Binary.is_nan x) eqn:Nx.
    { right. split; [now apply mul_nan_l|now apply mul_nan_r]. }
    destruct (Binary.is_nan y) eqn:Ny.
    { right. split; [now apply mul_nan_r|now apply mul_nan_l]. }
    destruct (Binary.is_finite x) eqn:Fx, (Binary.is_finite y) eqn:Fy.
    - left. destruct (mul_spec P x y Fx Fy) as [N1 V1], (mul_spec P y x Fy Fx) as [N2 V2].
      apply f64_ext; auto.
      + rewrite V1, V2. f_equal. ring.
      + rewrite !mul_sign by auto. apply xorb_comm.
    - destruct x as [|[]| |[]], y as [|[]| |[]]; try discriminate; (left; reflexivity) ||
      (right; unfold f64_mul, Binary.Bmult; rewrite !is_nan_BSN2B; auto).
    - destruct x as [|[]| |[]], y as [|[]| |[]]; try discriminate; (left; reflexivity) ||
      (right; unfold f64_mul, Binary.Bmult; rewrite !is_nan_BSN2B; auto).
    - destruct x as [|[]| |[]], y as [|[]| |[]]; try discriminate; (left; reflexivity) ||
      (right; unfold f64_mul, Binary.Bmult; rewrite !is_nan_BSN2B; auto).
  Qed.

  Lemma Bsign_neg : forall x, Binary.Bsign (f64_neg x) = negb (Binary.Bsign x).
  Proof. intros []; reflexivity. Qed.

  Lemma mul_neg_l : forall x y, f64_mul P (f64_neg x) y ~= f64_neg (f64_mul P x y).
  Proof.
    intros x y. destruct (Binary.is_nan x) eqn:Nx.
    { right. rewrite nan_neg. split; apply mul_nan_l; auto. now rewrite nan_neg. }
    destruct (Binary.is_nan y) eqn:Ny.
    { right. rewrite nan_neg. split; apply mul_nan_r; auto. }
    destruct (Binary.is_finite x) eqn:Fx, (Binary.is_finite y) eqn:Fy.
    - left. assert (Fx' : fin (f64_neg x)) by now rewrite fin_neg.
      destruct (mul_spec P (f64_neg x) y Fx' Fy) as [N1 V1], (mul_spec P x y Fx Fy) as [N2 V2].
      apply f64_ext; auto.
      + now rewrite nan_neg.
      + rewrite val_neg, V1, V2, B2R_neg, <- rs_opp. f_equal. ring.
      + rewrite Bsign_neg, !mul_sign, Bsign_neg by auto.
        now rewrite negb_xorb_l.
    - destruct x as [[]|[]| |[]], y as [[]|[]| |[]]; try discriminate; (left; reflexivity) ||
      (right; rewrite nan_neg; unfold f64_mul, Binary.Bmult; rewrite !is_nan_BSN2B; auto).
    - destruct x as [[]|[]| |[]], y as [[]|[]| |[]]; try discriminate; (left; reflexivity) ||
      (right; rewrite nan_neg; unfold f64_mul, Binary.Bmult; rewrite !is_nan_BSN2B; auto).
    - destruct x as [[]|[]| |[]], y as [[]|[]| |[]]; try discriminate; (left; reflexivity) ||
      (right; rewrite nan_neg; unfold f64_mul, Binary.Bmult; rewrite !is_nan_BSN2B; auto).
  Qed.

  Lemma neg_eqn : forall x y, x ~= y -> f64_neg x ~= f64_neg y.
  Proof. intros x y [->|[H1 H2]]; [now left|right]. now rewrite !nan_neg. Qed.

  Lemma mul_neg_r : forall x y, f64_mul P x (f64_neg y) ~= f64_neg (f64_mul P x y).
  Proof.
    intros x y. rewrite mul_comm, mul_neg_l. apply neg_eqn, mul_comm.
  Qed.

  (** NaN of a quotient does not depend on signs *)
  Lemma div_neg_l : forall x y, f64_div P (f64_neg x) y ~= f64_neg (f64_div P x y).
  Proof.
    intros x y. destruct (Binary.is_nan x) eqn:Nx.
    { right. rewrite nan_neg. split; apply div_nan_l; auto. now rewrite nan_neg. }
    destruct (Binary.is_nan y) eqn:Ny.
    { right. rewrite nan_neg. split; apply div_nan_r; auto. }
    destruct (Binary.is_finite x && Binary.is_finite_strict 53 1024 y)%bool eqn:F.
    - apply andb_true_iff in F as [Fx Sy].
      assert (Fy : fin y) by (destruct y; auto; discriminate).
      assert (Zy : Binary.B2R y <> 0).
      { destruct y as [| | |s m e B]; try discriminate. simpl. intros Z.
        apply eq_0_F2R in Z. destruct s; discriminate. }
      left. assert (Fx' : fin (f64_neg x)) by now rewrite fin_neg.
      destruct (div_spec P (f64_neg x) y Fx' Fy Zy) as [N1 V1], (div_spec P x y Fx Fy Zy) as [N2 V2].
      apply f64_ext; auto.
      + now rewrite nan_neg.
      + rewrite val_neg, V1, V2, B2R_neg, <- rs_opp. f_equal. unfold Rdiv. ring.
      + rewrite Bsign_neg, !div_sign, Bsign_neg by (auto; now rewrite nan_neg).
        now rewrite negb_xorb_l.
    - destruct x as [[]|[]| |[]], y as [[]|[]| |[]]; try discriminate; (left; reflexivity) ||
      (right; rewrite nan_neg; unfold f64_div, Binary.Bdiv; rewrite !is_nan_BSN2B; auto).
  Qed.

  Lemma div_neg_r : forall x y, f64_div P x (f64_neg y) ~= f64_neg (f64_div P x y).
  Proof.
    intros x y. destruct (Binary.is_nan x) eqn:Nx.
    { right. rewrite nan_neg. split; apply div_nan_l; auto. }
    destruct (Binary.is_nan y) eqn:Ny.
    { right. rewrite nan_neg. split; apply div_nan_r; auto. now rewrite nan_neg. }
    destruct (Binary.is_finite x && Binary.is_finite_strict 53 1024 y)%bool eqn:F.
    - apply andb_true_iff in F as [Fx Sy].
      assert (Fy : fin y) by (destruct y; auto; discriminate).
      assert (Zy : Binary.B2R y <> 0).
      { destruct y as [| | |s m e B]; try discriminate. simpl. intros Z.
        apply eq_0_F2R in Z. destruct s; discriminate. }
      left. assert (Fy' : fin (f64_neg y)) by now rewrite fin_neg.
      assert (Zy' : Binary.B2R (f64_neg y) <> 0) by (rewrite B2R_neg; lra).
      destruct (div_spec P x (f64_neg y) Fx Fy' Zy') as [N1 V1], (div_spec P x y Fx Fy Zy) as [N2 V2].
      apply f64_ext; auto.
      + now rewrite nan_neg.
      + rewrite val_neg, V1, V2, B2R_neg, <- rs_opp. f_equal. field. auto.
      + rewrite Bsign_neg, !div_sign, Bsign_neg by (auto; now rewrite nan_neg).
        now rewrite negb_xorb_r.
    - destruct x as [[]|[]| |[]], y as [[]|[]| |[]]; try discriminate; (left; reflexivity) ||
      (right; rewrite nan_neg; unfold f64_div, Binary.Bdiv; rewrite !is_nan_BSN2B; auto).
  Qed.

  (** [x - y] is [x + (-y)] *)
  Lemma sub_add_neg : forall x y, f64_sub P x y ~= f64_add P x (f64_neg y).
  Proof.
    intros x y. destruct (Binary.is_nan x) eqn:Nx.
    { right. split; [apply sub_nan_l|apply add_nan_l]; auto. }
    destruct (Binary.is_nan y) eqn:Ny.
    { right. split; [apply sub_nan_r|apply add_nan_r]; auto. now rewrite nan_neg. }
    destruct (Binary.is_finite x) eqn:Fx, (Binary.is_finite y) eqn:Fy.
    - left. assert (Fy' : fin (f64_neg y)) by now rewrite fin_neg.
      destruct (sub_spec P x y Fx Fy) as [N1 V1], (add_spec P x (f64_neg y) Fx Fy') as [N2 V2].
      apply f64_ext; auto.
      + rewrite V1, V2, B2R_neg. f_equal.
      + rewrite sub_sign, add_sign, B2R_neg, Bsign_neg by auto. reflexivity.
    - destruct x as [[]|[]| |[]], y as [[]|[]| |[]]; try discriminate; (left; reflexivity) ||
      (right; unfold f64_sub, f64_add, Binary.Bminus, Binary.Bplus; rewrite !is_nan_BSN2B; auto).
    - destruct x as [[]|[]| |[]], y as [[]|[]| |[]]; try discriminate; (left; reflexivity) ||
      (right; unfold f64_sub, f64_add, Binary.Bminus, Binary.Bplus; rewrite !is_nan_BSN2B; auto).
    - destruct x as [[]|[]| |[]], y as [[]|[]| |[]]; try discriminate; (left; reflexivity) ||
      (right; unfold f64_sub, f64_add, Binary.Bminus, Binary.Bplus; rewrite !is_nan_BSN2B; auto).
  Qed.

  (** Negating both operands of a sum negates a nonzero result *)
  Lemma add_neg_neg : forall x y, val (f64_add P x y) <> 0 ->
    f64_add P (f64_neg x) (f64_neg y) ~= f64_neg (f64_add P x y).
  Proof.
    intros x y NZ. destruct (Binary.is_nan x) eqn:Nx.
    { right. rewrite nan_neg. split; apply add_nan_l; auto. now rewrite nan_neg. }
    destruct (Binary.is_nan y) eqn:Ny.
    { right. rewrite nan_neg. split; apply add_nan_r; auto. now rewrite nan_neg. }
    destruct (Binary.is_finite x) eqn:Fx, (Binary.is_finite y) eqn:Fy.
    - left. assert (Fx' : fin (f64_neg x)) by now rewrite fin_neg.
      assert (Fy' : fin (f64_neg y)) by now rewrite fin_neg.
      destruct (add_spec P _ _ Fx' Fy') as [N1 V1], (add_spec P x y Fx Fy) as [N2 V2].
      apply f64_ext_nz; auto.
      + now rewrite nan_neg.
      + rewrite val_neg, V1, V2, !B2R_neg, <- rs_opp. f_equal. ring.
      + rewrite V1, !B2R_neg. rewrite V2 in NZ.
        replace (- Binary.B2R x + - Binary.B2R y) with (- (Binary.B2R x + Binary.B2R y)) by ring.
        rewrite rs_opp. lra.
    - destruct x as [[]|[]| |[]], y as [[]|[]| |[]]; try discriminate; (left; reflexivity) ||
      (right; rewrite nan_neg; unfold f64_add, Binary.Bplus; rewrite !is_nan_BSN2B; auto).
    - destruct x as [[]|[]| |[]], y as [[]|[]| |[]]; try discriminate; (left; reflexivity) ||
      (right; rewrite nan_neg; unfold f64_add, Binary.Bplus; rewrite !is_nan_BSN2B; auto).
    - destruct x as [[]|[]| |[]], y as [[]|[]| |[]]; try discriminate; (left; reflexivity) ||
      (right; rewrite nan_neg; unfold f64_add, Binary.Bplus; rewrite !is_nan_BSN2B; auto).
  Qed.

  (** ** Every operation respects equality up to NaN payload *)

  #[global] Instance add_eqn : Proper (eqn ==> eqn ==> eqn) (f64_add P).
  Proof.
    intros x x' [->|[Hx Hx']] y y' [->|[Hy Hy']]; try (now left); right;
      split; auto using add_nan_l, add_nan_r.
  Qed.
  #[global] Instance sub_eqn : Proper (eqn ==> eqn ==> eqn) (f64_sub P).
  Proof.
    intros x x' [->|[Hx Hx']] y y' [->|[Hy Hy']]; try (now left); right;
      split; auto using sub_nan_l, sub_nan_r.
  Qed.
  #[global] Instance mul_eqn : Proper (eqn ==> eqn ==> eqn) (f64_mul P).
  Proof.
    intros x x' [->|[Hx Hx']] y y' [->|[Hy Hy']]; try (now left); right;
      split; auto using mul_nan_l, mul_nan_r.
  Qed.
  #[global] Instance div_eqn : Proper (eqn ==> eqn ==> eqn) (f64_div P).
  Proof.
    intros x x' [->|[Hx Hx']] y y' [->|[Hy Hy']]; try (now left); right;
      split; auto using div_nan_l, div_nan_r.
  Qed.
  #[global] Instance fma_eqn : Proper (eqn ==> eqn ==> eqn ==> eqn) (f64_fma P).
  Proof.
    intros x x' [->|[Hx Hx']] y y' [->|[Hy Hy']] z z' [->|[Hz Hz']]; try (now left); right;
      split; apply fma_nan; auto.
  Qed.
  #[global] Instance sqrt_eqn : Proper (eqn ==> eqn) (f64_sqrt P).
  Proof. intros x x' [->|[Hx Hx']]; [now left|right; split; now apply sqrt_nan]. Qed.
  #[global] Instance floor_eqn : Proper (eqn ==> eqn) (f64_floor P).
  Proof. intros x x' [->|[Hx Hx']]; [now left|right; split; now apply floor_nan]. Qed.
  #[global] Instance trunc_eqn : Proper (eqn ==> eqn) (f64_trunc P).
  Proof. intros x x' [->|[Hx Hx']]; [now left|right; split; now apply trunc_nan]. Qed.
  #[global] Instance libm_eqn : forall f, Proper (eqn ==> eqn) (libm P f).
  Proof. intros f x x' [->|[Hx Hx']]; [now left|right; split; now apply libm_nan]. Qed.
End Signs.

#[global] Instance neg_eqn_proper : Proper (eqn ==> eqn) f64_neg.
Proof. intros x y H. now apply neg_eqn. Qed.
#[global] Instance abs_eqn : Proper (eqn ==> eqn) f64_abs.
Proof. intros x y [->|[H1 H2]]; [now left|right]. now rewrite !nan_abs. Qed.
#[global] Instance lt_eqn : Proper (eqn ==> eqn ==> Logic.eq) f64_lt.
Proof.
  intros x x' [->|[Hx Hx']] y y' [->|[Hy Hy']]; auto; unfold f64_lt;
    rewrite ?(compare_nan_l x), ?(compare_nan_l x'), ?(compare_nan_r _ y), ?(compare_nan_r _ y') by auto; auto.
Qed.
#[global] Instance le_eqn : Proper (eqn ==> eqn ==> Logic.eq) f64_le.
Proof.
  intros x x' [->|[Hx Hx']] y y' [->|[Hy Hy']]; auto; unfold f64_le;
    rewrite ?(compare_nan_l x), ?(compare_nan_l x'), ?(compare_nan_r _ y), ?(compare_nan_r _ y') by auto; auto.
Qed.
#[global] Instance eq_eqn : Proper (eqn ==> eqn ==> Logic.eq) f64_eq.
Proof.
  intros x x' [->|[Hx Hx']] y y' [->|[Hy Hy']]; auto; unfold f64_eq;
    rewrite ?(compare_nan_l x), ?(compare_nan_l x'), ?(compare_nan_r _ y), ?(compare_nan_r _ y') by auto; auto.
Qed.
#[global] Instance is_nan_eqn : Proper (eqn ==> Logic.eq) f64_is_nan.
Proof. intros x y H. now apply eqn_nan. Qed.
#[global] Instance is_infinite_eqn : Proper (eqn ==> Logic.eq) f64_is_infinite.
Proof. intros x y [->|[H1 H2]]; auto. destruct x, y; try discriminate; auto. Qed.
#[global] Instance to_int_eqn : forall lo hi, Proper (eqn ==> Logic.eq) (f64_to_int lo hi).
Proof. intros lo hi x y [->|[H1 H2]]; auto. destruct x, y; try discriminate; auto. Qed.

(** ** Literals and integers *)

Lemma of_Z_spec : forall z, rounds (f64_of_Z z) (IZR z).
Proof.
  intros z.
  pose proof (Binary.binary_normalize_correct 53 1024 prec_gt_0_64 prec_lt_emax_64 mode_NE z 0 false) as H.
  change (round radix2 fexp64 (round_mode mode_NE)) with rnd in H.
  assert (E : F2R (Float radix2 z 0) = IZR z) by (unfold F2R; simpl; ring).
  rewrite E in H. unfold f64_of_Z.
  destruct (Rlt_bool_spec (Rabs (rnd (IZR z))) (bpow radix2 1024)) as [L|G].
  - destruct H as (H1 & H2 & _). now apply rounds_fin.
  - apply overflow_inf in H. rewrite H. apply rounds_over; auto.
    destruct (Rlt_bool_spec (IZR z) 0); simpl; lra.
Qed.

Lemma of_Z_exact : forall z, (Z.abs z <= 2 ^ 53)%Z ->
  fin (f64_of_Z z) /\ Binary.B2R (f64_of_Z z) = IZR z.
Proof.
  intros z H. destruct (rounds_small _ _ (of_Z_spec z)) as [F E].
  - rewrite rnd_fmt by now apply fmt_IZR. rewrite <- abs_IZR.
    apply Rle_lt_trans with (IZR (2 ^ 53)); [now apply IZR_le|].
    change (IZR (2 ^ 53)) with (IZR (Zpower radix2 53)). rewrite IZR_Zpower by lia.
    apply bpow_lt. lia.
  - split; auto. rewrite E. apply rnd_fmt. now apply fmt_IZR.
Qed.

Lemma SF2B_rounds : forall z HV r (s : bool),
  (if Rlt_bool (Rabs (rnd r)) (bpow radix2 1024)
   then SF2R radix2 z = rnd r /\ is_finite_SF z = true /\ sign_SF z = s
   else z = BinarySingleNaN.binary_overflow 53 1024 mode_NE s) ->
  (if s then r <= 0 else 0 <= r) ->
  rounds (Binary.BSN2B 53 1024 default_nan (SF2B z HV)) r.
Proof.
  intros z HV r s H S.
  destruct (Rlt_bool_spec (Rabs (rnd r)) (bpow radix2 1024)) as [L|G].
  - destruct H as (H1 & H2 & H3). destruct z as [sz|sz| |sz mz ez]; try discriminate.
    + apply rounds_fin; [reflexivity|exact H1].
    + apply rounds_fin; [reflexivity|exact H1].
  - subst z. now apply rounds_over.
Qed.

Lemma lit_ratio_spec : forall s m d,
  rounds (lit_ratio s m d) (IZR (SpecFloat.cond_Zopp s (Z.pos m)) / IZR (Z.pos d)).
Proof.
  intros s m d. unfold lit_ratio.
  pose proof (proj2 (Bdiv_correct_aux 53 1024 prec_gt_0_64 prec_lt_emax_64 mode_NE s m 0 false d 0)) as H.
  cbv zeta in H.
  change (round radix2 fexp64 (round_mode mode_NE)) with rnd in H.
  assert (E1 : F2R (Float radix2 (SpecFloat.cond_Zopp s (Z.pos m)) 0)
               = IZR (SpecFloat.cond_Zopp s (Z.pos m))) by (unfold F2R; simpl Fexp; simpl bpow; simpl Fnum; ring).
  assert (E2 : F2R (Float radix2 (SpecFloat.cond_Zopp false (Z.pos d)) 0) = IZR (Z.pos d))
    by (unfold F2R; simpl Fexp; simpl bpow; simpl Fnum; simpl SpecFloat.cond_Zopp; ring).
  rewrite E1, E2 in H. eapply SF2B_rounds; [exact H|].
  rewrite xorb_false_r.
  assert (0 < IZR (Z.pos d)) by now apply IZR_lt.
  assert (0 < / IZR (Z.pos d)) by now apply Rinv_0_lt_compat.
  unfold Rdiv. destruct s; cbn [SpecFloat.cond_Zopp].
  - assert (IZR (- Z.pos m) <= 0) by (apply IZR_le; lia). nra.
  - assert (0 <= IZR (Z.pos m)) by (apply IZR_le; lia). nra.
Qed.

Lemma lit_spec : forall d, rounds (f64_lit d) (R_of_dec d).
Proof.
  intros [m e]. unfold f64_lit, R_of_dec. cbn [dman dexp].
  destruct (Z.leb_spec 0 e) as [H|H].
  - replace (IZR m * powerRZ 10 e) with (IZR (m * 10 ^ e)); [apply of_Z_spec|].
    rewrite mult_IZR. f_equal. destruct e as [|p|p]; try lia; auto.
    rewrite <- (Z2Nat.id (Z.pos p)) by lia. rewrite <- pow_powerRZ, pow_IZR. reflexivity.
  - assert (Ee : powerRZ 10 e = / IZR (10 ^ (- e))).
    { assert (N : exists n, e = (- Z.of_nat n)%Z) by (exists (Z.to_nat (- e)); lia).
      destruct N as [n ->]. rewrite powerRZ_neg', Z.opp_involutive. f_equal.
      rewrite <- pow_powerRZ, pow_IZR. reflexivity. }
    assert (Hp : (0 < 10 ^ (- e))%Z) by (apply Z.pow_pos_nonneg; lia).
    rewrite Ee. destruct m as [|m|m].
    + rewrite Rmult_0_l. apply rounds_fin; auto. simpl. now rewrite rnd_0.
    + generalize (lit_ratio_spec false m (Z.to_pos (10 ^ (- e)))). rewrite Z2Pos.id by auto. auto.
    + generalize (lit_ratio_spec true m (Z.to_pos (10 ^ (- e)))). rewrite Z2Pos.id by auto. auto.
Qed.

(** a literal that denotes a representable number *)
Lemma lit_exact : forall d r, R_of_dec d = r -> fmt r -> Rabs r < Om ->
  fin (f64_lit d) /\ Binary.B2R (f64_lit d) = r.
Proof.
  intros d r E F B. pose proof (lit_spec d) as H. rewrite E in H.
  destruct (rounds_small _ _ H) as [H1 H2]; rewrite rnd_fmt in *; auto.
Qed.

(** a literal whose float is known by computation *)
Lemma lit_B2FF : forall d s m e, Binary.B2FF (f64_lit d) = Binary.F754_finite s m e ->
  fin (f64_lit d) /\ Binary.B2R (f64_lit d) = F2R (Float radix2 (SpecFloat.cond_Zopp s (Z.pos m)) e).
Proof.
  intros d s m e H. split.
  - destruct (f64_lit d); try discriminate; auto.
  - rewrite <- Binary.FF2R_B2FF, H. reflexivity.
Qed.

(** ** Casts and rounding to integers *)

Lemma Btrunc_val : forall x : f64, fin x -> Binary.Btrunc x = Ztrunc (Binary.B2R x).
Proof.
  intros x F. apply eq_IZR.
  rewrite (Binary.Btrunc_correct 53 1024 prec_lt_emax_64 x).
  rewrite round_FIX_IZR. reflexivity.
Qed.

Lemma to_int_fin : forall lo hi x, fin x ->
  f64_to_int lo hi x = Z.max lo (Z.min hi (Ztrunc (val x))).
Proof.
  intros lo hi x F. rewrite val_fin by auto. rewrite <- Btrunc_val by auto.
  destruct x; try discriminate; reflexivity.
Qed.

Lemma Ztrunc_Om : Ztrunc Om = (2 ^ 1024)%Z.
Proof. unfold Om. rewrite <- (IZR_Zpower radix2) by lia. apply Ztrunc_IZR. Qed.

Lemma to_int_val : forall lo hi x, nonnan x ->
  (lo <= hi)%Z -> (- 2 ^ 1024 <= lo)%Z -> (hi <= 2 ^ 1024)%Z ->
  f64_to_int lo hi x = Z.max lo (Z.min hi (Ztrunc (val x))).
Proof.
  intros lo hi x N O L H. destruct (Binary.is_finite x) eqn:F; [now apply to_int_fin|].
  destruct x as [|[]| |]; try discriminate; simpl.
  - rewrite Ztrunc_opp, Ztrunc_Om. lia.
  - rewrite Ztrunc_Om. lia.
Qed.

Lemma trunc_spec : forall P x, fin x ->
  fin (f64_trunc P x) /\ Binary.B2R (f64_trunc P x) = IZR (Ztrunc (Binary.B2R x)).
Proof.
  intros P x F.
  destruct (Binary.Bnearbyint_correct 53 1024 prec_lt_emax_64 (p_un_nan P) mode_ZR x) as (H1 & H2 & _).
  unfold f64_trunc. split.
  - now rewrite H2.
  - rewrite H1. now rewrite round_FIX_IZR.
Qed.

Lemma floor_spec : forall P x, fin x ->
  fin (f64_floor P x) /\ Binary.B2R (f64_floor P x) = IZR (Zfloor (Binary.B2R x)).
Proof.
  intros P x F.
  destruct (Binary.Bnearbyint_correct 53 1024 prec_lt_emax_64 (p_un_nan P) mode_DN x) as (H1 & H2 & _).
  unfold f64_floor. split.
  - now rewrite H2.
  - rewrite H1. now rewrite round_FIX_IZR.
Qed.

(** ** min, max, clamp *)

Lemma max_val : forall P x y, nonnan x -> nonnan y ->
  nonnan (f64_max P x y) /\ val (f64_max P x y) = Rmax (val x) (val y).
Proof.
  intros P x y Nx Ny. unfold f64_max, f64_is_nan. rewrite Nx, Ny.
  rewrite !lt_val by auto.
  destruct (Rlt_bool_spec (val x) (val y)); [rewrite Rmax_right by lra; auto|].
  destruct (Rlt_bool_spec (val y) (val x)); [rewrite Rmax_left by lra; auto|].
  assert (val x = val y) by lra. rewrite Rmax_left by lra. destruct p_tie; auto.
Qed.

Lemma min_val : forall P x y, nonnan x -> nonnan y ->
  nonnan (f64_min P x y) /\ val (f64_min P x y) = Rmin (val x) (val y).
Proof.
  intros P x y Nx Ny. unfold f64_min, f64_is_nan. rewrite Nx, Ny.
  rewrite !lt_val by auto.
  destruct (Rlt_bool_spec (val x) (val y)); [rewrite Rmin_left by lra; auto|].
  destruct (Rlt_bool_spec (val y) (val x)); [rewrite Rmin_right by lra; auto|].
  assert (val x = val y) by lra. rewrite Rmin_left by lra. destruct p_tie; auto.
Qed.

(** ** Relative error of rounding *)

Lemma rnd_rel : forall a, bpow radix2 (-1022) <= Rabs a ->
  Rabs (rnd a - a) <= bpow radix2 (-53) * Rabs a.
Proof.
  intros a H. pose proof (relative_error_N_FLT radix2 (-1074) 53 ltac:(lia) (fun x => negb (Z.even x)) a H) as E.
  change (round radix2 (FLT_exp (-1074) 53) (Znearest (fun x => negb (Z.even x))) a) with (rnd a) in E.
  replace (bpow radix2 (-53)) with (/ 2 * bpow radix2 (- (53) + 1)); auto.
  change (- (53) + 1)%Z with (1 + -53)%Z. rewrite bpow_plus. simpl (bpow radix2 1). lra.
Qed.

(** absolute error, valid everywhere *)
Lemma rnd_abs_err : forall a, Rabs (rnd a - a) <= bpow radix2 (-53) * Rabs a + bpow radix2 (-1075).
Proof.
  intros a. destruct (Rle_or_lt (bpow radix2 (-1022)) (Rabs a)) as [H|H].
  - pose proof (rnd_rel a H). pose proof (bpow_ge_0 radix2 (-1075)). lra.
  - pose proof (error_le_half_ulp radix2 fexp64 (fun x => negb (Z.even x)) a) as E.
    change (round radix2 fexp64 (Znearest (fun x => negb (Z.even x))) a) with (rnd a) in E.
    assert (U : ulp radix2 fexp64 a = bpow radix2 (-1074)).
    { apply (ulp_FLT_small radix2 (-1074) 53).
      replace (-1074 + 53)%Z with (1 + -1022)%Z by lia. rewrite bpow_plus. simpl (bpow radix2 1).
      pose proof (bpow_gt_0 radix2 (-1022)). lra. }
    rewrite U in E. replace (bpow radix2 (-1074)) with (2 * bpow radix2 (-1075)) in E.
    + assert (0 <= bpow radix2 (-53) * Rabs a).
      { apply Rmult_le_pos; [apply bpow_ge_0|apply Rabs_pos]. } lra.
    + change (-1074)%Z with (1 + -1075)%Z. rewrite bpow_plus. simpl (bpow radix2 1). lra.
Qed.
