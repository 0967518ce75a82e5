(** * Working with binary64: value, order and rounding of the operations *)

From Coq Require Import ZArith Reals Bool Lra Lia Psatz.
From Flocq Require Import Core IEEE754.BinarySingleNaN IEEE754.Binary IEEE754.Bits.
From Verif.Model Require Import Base Arith.
From Verif.Float Require Import Bits64 Ieee.
From Verif.Spec Require Export F64Spec.
Open Scope R_scope.

Notation fexp64 := (SpecFloat.fexp 53 1024).
Notation fmt := (generic_format radix2 fexp64).
Notation fin x := (Binary.is_finite x = true).
Notation nonnan x := (Binary.is_nan x = false).

#[global] Instance fexp64_valid : Valid_exp fexp64.
Proof. apply (BinarySingleNaN.fexp_correct 53 1024), prec_gt_0_64. Qed.

#[global] Instance fexp64_mono : Monotone_exp fexp64.
Proof. apply (BinarySingleNaN.fexp_monotone 53 1024). Qed.

Lemma fexp64_FLT : forall e, fexp64 e = FLT_exp (-1074) 53 e.
Proof. intros e. reflexivity. Qed.

(** saturated at the infinities *)
Definition rs (r : R) : R := Rmax (- Om) (Rmin Om (rnd r)).

Lemma Om_pos : 0 < Om.
Proof. apply bpow_gt_0. Qed.

Lemma rnd_le : forall a b, a <= b -> rnd a <= rnd b.
Proof. intros a b H. apply round_le; auto with typeclass_instances. Qed.

Lemma rnd_0 : rnd 0 = 0.
Proof. apply round_0; auto with typeclass_instances. Qed.

Lemma rnd_opp : forall a, rnd (- a) = - rnd a.
Proof. intros a. apply round_NE_opp. Qed.

Lemma rnd_fmt : forall a, fmt a -> rnd a = a.
Proof. intros a H. apply round_generic; auto with typeclass_instances. Qed.

Lemma fmt_rnd : forall a, fmt (rnd a).
Proof. intros a. apply generic_format_round; auto with typeclass_instances. Qed.

Lemma fmt_B2R : forall x : f64, fmt (Binary.B2R x).
Proof. intros x. apply Binary.generic_format_B2R. Qed.

Lemma rnd_B2R : forall x : f64, rnd (Binary.B2R x) = Binary.B2R x.
Proof. intros x. apply rnd_fmt, fmt_B2R. Qed.

Lemma fmt_0 : fmt 0.
Proof. apply generic_format_0. Qed.

Lemma fmt_opp : forall a, fmt a -> fmt (- a).
Proof. intros a. apply generic_format_opp. Qed.

Lemma fmt_bpow : forall e, (-1074 <= e)%Z -> fmt (bpow radix2 e).
Proof.
  intros e H. apply generic_format_bpow. rewrite fexp64_FLT. unfold FLT_exp. lia.
Qed.

(** every [m * 2^e] with at most 53 bits and [e >= -1074] is in the format *)
Lemma fmt_F2R : forall m e, (Z.abs m <= 2 ^ 53)%Z -> (-1074 <= e)%Z -> fmt (IZR m * bpow radix2 e).
Proof.
  intros m e Hm He.
  destruct (Z.eq_dec (Z.abs m) (2 ^ 53)) as [E|N].
  - assert (H : fmt (bpow radix2 (53 + e))) by (apply fmt_bpow; lia).
    rewrite bpow_plus in H. rewrite <- (IZR_Zpower radix2 53) in H by lia.
    change (Zpower radix2 53) with (2 ^ 53)%Z in H. rewrite <- E in H.
    destruct (Z.abs_spec m) as [[_ A]|[_ A]]; rewrite A in H; auto.
    rewrite opp_IZR, <- Ropp_mult_distr_l in H. apply fmt_opp in H.
    now rewrite Ropp_involutive in H.
  - change fexp64 with (FLT_exp (-1074) 53). apply generic_format_FLT.
    exists (Float radix2 m e); simpl; auto; try lia.
Qed.

Lemma fmt_IZR : forall m, (Z.abs m <= 2 ^ 53)%Z -> fmt (IZR m).
Proof.
  intros m H. generalize (fmt_F2R m 0 H ltac:(lia)). simpl bpow. now rewrite Rmult_1_r.
Qed.

Lemma fmt_Om : fmt Om.
Proof. apply fmt_bpow; lia. Qed.

Lemma rnd_ge : forall a b, fmt a -> a <= b -> a <= rnd b.
Proof. intros a b F H. rewrite <- (rnd_fmt a F). now apply rnd_le. Qed.

Lemma rnd_le_fmt : forall a b, fmt a -> b <= a -> rnd b <= a.
Proof. intros a b F H. rewrite <- (rnd_fmt a F). now apply rnd_le. Qed.

Lemma rnd_abs : forall a, rnd (Rabs a) = Rabs (rnd a).
Proof. intros a. apply round_NE_abs. auto with typeclass_instances. Qed.

Lemma rnd_pos : forall a, 0 <= a -> 0 <= rnd a.
Proof. intros a H. apply rnd_ge; auto. apply fmt_0. Qed.

Lemma rnd_neg : forall a, a <= 0 -> rnd a <= 0.
Proof. intros a H. apply rnd_le_fmt; auto. apply fmt_0. Qed.

Lemma rs_le : forall a b, a <= b -> rs a <= rs b.
Proof.
  intros a b H. unfold rs. apply Rle_max_compat_l, Rle_min_compat_l, rnd_le, H.
Qed.

Lemma rs_in : forall a, Rabs (rnd a) <= Om -> rs a = rnd a.
Proof.
  intros a H. apply Rabs_le_inv in H. unfold rs. rewrite Rmin_right by lra.
  rewrite Rmax_right; lra.
Qed.

Lemma rs_fmt : forall a, fmt a -> Rabs a <= Om -> rs a = a.
Proof. intros a F H. rewrite rs_in; rewrite rnd_fmt; auto. Qed.

Lemma rs_opp : forall a, rs (- a) = - rs a.
Proof.
  intros a. unfold rs. rewrite rnd_opp. pose proof Om_pos.
  unfold Rmax, Rmin. repeat destruct Rle_dec; lra.
Qed.

Lemma rs_0 : rs 0 = 0.
Proof. rewrite rs_fmt; auto using fmt_0. rewrite Rabs_R0. left; apply Om_pos. Qed.

Lemma rs_bound : forall a, - Om <= rs a <= Om.
Proof.
  intros a. pose proof Om_pos. unfold rs, Rmax, Rmin. repeat destruct Rle_dec; lra.
Qed.

Lemma rs_over : forall a, Om <= rnd a -> rs a = Om.
Proof. intros a H. pose proof Om_pos. unfold rs. rewrite Rmin_left by lra. rewrite Rmax_right; lra. Qed.

Lemma rs_under : forall a, rnd a <= - Om -> rs a = - Om.
Proof. intros a H. pose proof Om_pos. unfold rs. rewrite Rmin_right by lra. rewrite Rmax_left; lra. Qed.

Lemma rs_ge : forall a b, fmt a -> a <= Om -> a <= b -> a <= rs b.
Proof.
  intros a b F H1 H. pose proof (rnd_ge a b F H). unfold rs.
  eapply Rle_trans; [|apply Rmax_r]. apply Rmin_glb; auto.
Qed.

Lemma rs_le_fmt : forall a b, fmt a -> - Om <= a -> b <= a -> rs b <= a.
Proof.
  intros a b F H1 H. pose proof (rnd_le_fmt a b F H). unfold rs.
  apply Rmax_lub; auto. eapply Rle_trans; [apply Rmin_r|]; auto.
Qed.

Lemma rs_pos : forall a, 0 <= a -> 0 <= rs a.
Proof. intros a H. apply rs_ge; auto using fmt_0. left; apply Om_pos. Qed.

(** ** Classification *)

Lemma fin_nonnan : forall x : f64, fin x -> nonnan x.
Proof. intros [] H; simpl in *; auto; discriminate. Qed.

Lemma val_fin : forall x : f64, fin x -> val x = Binary.B2R x.
Proof. intros [] H; simpl in *; auto; discriminate. Qed.

Lemma B2R_lt_Om : forall x : f64, Rabs (Binary.B2R x) < Om.
Proof. intros x. apply Binary.abs_B2R_lt_emax. Qed.

Lemma fin_abs_val : forall x : f64, fin x -> Rabs (val x) < Om.
Proof. intros x H. rewrite val_fin by auto. apply B2R_lt_Om. Qed.

Lemma val_bound : forall x : f64, - Om <= val x <= Om.
Proof.
  intros x. pose proof Om_pos. pose proof (B2R_lt_Om x) as H1. apply Rabs_lt_inv in H1.
  destruct x as [s|[]| |]; simpl in *; lra.
Qed.

Lemma fin_iff_val : forall x : f64, nonnan x -> (fin x <-> Rabs (val x) < Om).
Proof.
  intros x N. split; [apply fin_abs_val|].
  pose proof Om_pos. destruct x as [s|[]| |]; simpl in *; auto; try discriminate.
  - rewrite Rabs_Ropp, Rabs_pos_eq; lra.
  - rewrite Rabs_pos_eq; lra.
Qed.

Lemma val_fmt : forall x : f64, fmt (val x).
Proof.
  intros x. destruct x as [s|[]|s pl H|s m e H].
  - apply (fmt_B2R (B754_zero s)).
  - apply fmt_opp, fmt_Om.
  - apply fmt_Om.
  - apply fmt_0.
  - apply (fmt_B2R (B754_finite s m e H)).
Qed.

Lemma val_inf_pos : forall x : f64, nonnan x -> (val x = Om <-> x = B754_infinity false).
Proof.
  intros x N. split; [|intros ->; reflexivity].
  pose proof Om_pos. pose proof (B2R_lt_Om x) as L. apply Rabs_lt_inv in L.
  destruct x as [s|[]| |]; simpl in *; intros; auto; try discriminate; lra.
Qed.

Lemma val_inf_neg : forall x : f64, nonnan x -> (val x = - Om <-> x = B754_infinity true).
Proof.
  intros x N. split; [|intros ->; reflexivity].
  pose proof Om_pos. pose proof (B2R_lt_Om x) as L. apply Rabs_lt_inv in L.
  destruct x as [s|[]| |]; simpl in *; intros; auto; try discriminate; lra.
Qed.

(** ** Comparisons *)

Lemma compare_val : forall x y : f64,
  nonnan x -> nonnan y -> Binary.Bcompare x y = Some (Rcompare (val x) (val y)).
Proof.
  intros x y Nx Ny. pose proof Om_pos.
  pose proof (B2R_lt_Om x) as Lx. apply Rabs_lt_inv in Lx.
  pose proof (B2R_lt_Om y) as Ly. apply Rabs_lt_inv in Ly.
  destruct (Binary.is_finite x) eqn:Fx, (Binary.is_finite y) eqn:Fy.
  - rewrite Binary.Bcompare_correct by auto. now rewrite !val_fin.
  - rewrite (val_fin x) by auto. destruct y as [|[]| |]; try discriminate;
      destruct x as [| | |[]]; try discriminate; simpl val in *;
      (rewrite Rcompare_Gt by lra; reflexivity) || (rewrite Rcompare_Lt by lra; reflexivity).
  - rewrite (val_fin y) by auto. destruct x as [|[]| |]; try discriminate;
      destruct y as [| | |[]]; try discriminate; simpl val in *;
      (rewrite Rcompare_Gt by lra; reflexivity) || (rewrite Rcompare_Lt by lra; reflexivity).
  - destruct x as [|[]| |], y as [|[]| |]; try discriminate; simpl val;
      [rewrite Rcompare_Eq by lra|rewrite Rcompare_Lt by lra
      |rewrite Rcompare_Gt by lra|rewrite Rcompare_Eq by lra]; reflexivity.
Qed.

Lemma compare_nan_l : forall x y : f64, Binary.is_nan x = true -> Binary.Bcompare x y = None.
Proof. intros [] y; try discriminate. destruct y; reflexivity. Qed.

Lemma compare_nan_r : forall x y : f64, Binary.is_nan y = true -> Binary.Bcompare x y = None.
Proof. intros x []; try discriminate. destruct x; reflexivity. Qed.

Lemma lt_val : forall x y, nonnan x -> nonnan y -> f64_lt x y = Rlt_bool (val x) (val y).
Proof.
  intros x y Nx Ny. unfold f64_lt, Rlt_bool. rewrite compare_val by auto. reflexivity.
Qed.

Lemma le_val : forall x y, nonnan x -> nonnan y -> f64_le x y = Rle_bool (val x) (val y).
Proof.
  intros x y Nx Ny. unfold f64_le, Rle_bool. rewrite compare_val by auto.
  destruct (Rcompare _ _); reflexivity.
Qed.

Lemma eq_val : forall x y, nonnan x -> nonnan y -> f64_eq x y = Req_bool (val x) (val y).
Proof.
  intros x y Nx Ny. unfold f64_eq, Req_bool. rewrite compare_val by auto. reflexivity.
Qed.

Lemma lt_true : forall x y, f64_lt x y = true <-> nonnan x /\ nonnan y /\ val x < val y.
Proof.
  intros x y. destruct (Binary.is_nan x) eqn:Nx.
  - unfold f64_lt. rewrite compare_nan_l by auto. intuition discriminate.
  - destruct (Binary.is_nan y) eqn:Ny.
    + unfold f64_lt. rewrite compare_nan_r by auto. intuition discriminate.
    + rewrite lt_val by auto. destruct (Rlt_bool_spec (val x) (val y)); intuition (discriminate || lra).
Qed.

Lemma le_true : forall x y, f64_le x y = true <-> nonnan x /\ nonnan y /\ val x <= val y.
Proof.
  intros x y. destruct (Binary.is_nan x) eqn:Nx.
  - unfold f64_le. rewrite compare_nan_l by auto. intuition discriminate.
  - destruct (Binary.is_nan y) eqn:Ny.
    + unfold f64_le. rewrite compare_nan_r by auto. intuition discriminate.
    + rewrite le_val by auto. destruct (Rle_bool_spec (val x) (val y)); intuition (discriminate || lra).
Qed.

Lemma eq_true : forall x y, f64_eq x y = true <-> nonnan x /\ nonnan y /\ val x = val y.
Proof.
  intros x y. destruct (Binary.is_nan x) eqn:Nx.
  - unfold f64_eq. rewrite compare_nan_l by auto. intuition discriminate.
  - destruct (Binary.is_nan y) eqn:Ny.
    + unfold f64_eq. rewrite compare_nan_r by auto. intuition discriminate.
    + rewrite eq_val by auto. destruct (Req_bool_spec (val x) (val y)); intuition (discriminate || lra).
Qed.

Lemma lt_false : forall x y, nonnan x -> nonnan y -> (f64_lt x y = false <-> val y <= val x).
Proof. intros x y Nx Ny. rewrite lt_val by auto. destruct (Rlt_bool_spec (val x) (val y)); intuition (discriminate || lra). Qed.

Lemma le_false : forall x y, nonnan x -> nonnan y -> (f64_le x y = false <-> val y < val x).
Proof. intros x y Nx Ny. rewrite le_val by auto. destruct (Rle_bool_spec (val x) (val y)); intuition (discriminate || lra). Qed.

Lemma eq_false : forall x y, nonnan x -> nonnan y -> (f64_eq x y = false <-> val x <> val y).
Proof. intros x y Nx Ny. rewrite eq_val by auto. destruct (Req_bool_spec (val x) (val y)); intuition (discriminate || lra). Qed.

Lemma cmp_nan_l : forall x y, Binary.is_nan x = true ->
  f64_lt x y = false /\ f64_le x y = false /\ f64_eq x y = false.
Proof. intros x y H. unfold f64_lt, f64_le, f64_eq. rewrite compare_nan_l by auto. auto. Qed.

Lemma cmp_nan_r : forall x y, Binary.is_nan y = true ->
  f64_lt x y = false /\ f64_le x y = false /\ f64_eq x y = false.
Proof. intros x y H. unfold f64_lt, f64_le, f64_eq. rewrite compare_nan_r by auto. auto. Qed.

(** ** Sign operations *)

Lemma val_neg : forall x, val (f64_neg x) = - val x.
Proof.
  intros [[]|[]| |[] m e H]; unfold f64_neg; simpl; try lra; unfold F2R; cbn [Fnum Fexp];
    change (Z.neg m) with (- Z.pos m)%Z; rewrite opp_IZR; ring.
Qed.

Lemma nan_neg : forall x, Binary.is_nan (f64_neg x) = Binary.is_nan x.
Proof. intros []; reflexivity. Qed.

Lemma fin_neg : forall x, Binary.is_finite (f64_neg x) = Binary.is_finite x.
Proof. intros []; reflexivity. Qed.

Lemma neg_neg : forall x, f64_neg (f64_neg x) = x.
Proof. intros [[]|[]|[]|[]]; reflexivity. Qed.

Lemma B2R_neg : forall x : f64, Binary.B2R (f64_neg x) = - Binary.B2R x.
Proof.
  intros [[]|[]| |[] m e H]; unfold f64_neg; simpl; try lra; unfold F2R; cbn [Fnum Fexp];
    change (Z.neg m) with (- Z.pos m)%Z; rewrite opp_IZR; ring.
Qed.

Lemma val_abs : forall x, val (f64_abs x) = Rabs (val x).
Proof.
  intros [[]|[]| |[] m e H]; unfold f64_abs; simpl; pose proof Om_pos;
    rewrite ?Rabs_Ropp, ?Rabs_R0; auto; try (rewrite Rabs_pos_eq; lra).
  - rewrite <- F2R_Zabs. reflexivity.
  - rewrite <- F2R_Zabs. reflexivity.
Qed.

Lemma nan_abs : forall x, Binary.is_nan (f64_abs x) = Binary.is_nan x.
Proof. intros []; reflexivity. Qed.

Lemma fin_abs : forall x, Binary.is_finite (f64_abs x) = Binary.is_finite x.
Proof. intros []; reflexivity. Qed.

Lemma abs_neg : forall x, f64_abs (f64_neg x) = f64_abs x.
Proof. intros []; reflexivity. Qed.

Lemma B2R_abs : forall x : f64, Binary.B2R (f64_abs x) = Rabs (Binary.B2R x).
Proof.
  intros [[]|[]| |[] m e H]; unfold f64_abs; simpl; rewrite ?Rabs_R0; auto;
    rewrite <- F2R_Zabs; reflexivity.
Qed.

Lemma f64_sign_Bsign : forall x : f64, f64_sign x = Binary.Bsign x.
Proof. intros []; reflexivity. Qed.

(** A non-NaN float is determined by its value and sign bit *)
Lemma f64_ext : forall x y : f64,
  nonnan x -> nonnan y -> val x = val y -> Binary.Bsign x = Binary.Bsign y -> x = y.
Proof.
  intros x y Nx Ny V S. destruct (Binary.is_finite x) eqn:Fx.
  - assert (Fy : fin y).
    { apply fin_iff_val; auto. rewrite <- V. now apply fin_abs_val. }
    apply Binary.B2R_Bsign_inj; auto. now rewrite <- !val_fin.
  - assert (Fy : Binary.is_finite y = false).
    { destruct (Binary.is_finite y) eqn:Fy; auto. apply fin_abs_val in Fy.
      rewrite <- V in Fy. apply fin_iff_val in Fy; auto. congruence. }
    destruct x, y; simpl in *; try discriminate. now rewrite S.
Qed.

Lemma sign_of_val : forall x : f64, nonnan x -> val x <> 0 ->
  Binary.Bsign x = Rlt_bool (val x) 0.
Proof.
  intros x N V. pose proof Om_pos.
  destruct x as [s|[]| |s m e B]; simpl in *; try discriminate; try lra.
  - rewrite Rlt_bool_true; auto; lra.
  - rewrite Rlt_bool_false; auto; lra.
  - destruct s.
    + rewrite Rlt_bool_true; auto. apply F2R_lt_0. reflexivity.
    + rewrite Rlt_bool_false; auto. apply F2R_ge_0. simpl. lia.
Qed.

(** Two non-NaN floats with the same nonzero value are equal *)
Lemma f64_ext_nz : forall x y : f64,
  nonnan x -> nonnan y -> val x = val y -> val x <> 0 -> x = y.
Proof.
  intros x y Nx Ny V Z. apply f64_ext; auto. rewrite !sign_of_val; auto; congruence.
Qed.

(** ** Results of correctly rounded operations *)

(** [rounds z r]: [z] is the rounding of the real [r] *)
Definition rounds (z : f64) (r : R) : Prop := nonnan z /\ val z = rs r.

Lemma overflow_inf : forall (z : f64) s,
  Binary.B2FF z = Binary.binary_overflow 53 1024 mode_NE s -> z = B754_infinity s.
Proof.
  intros z s H. apply Binary.B2FF_inj. rewrite H. reflexivity.
Qed.

Lemma rounds_fin : forall (z : f64) r,
  fin z -> Binary.B2R z = rnd r -> rounds z r.
Proof.
  intros z r F E. split; [now apply fin_nonnan|].
  rewrite val_fin, E by auto. symmetry. apply rs_in. rewrite <- E.
  left; apply B2R_lt_Om.
Qed.

Lemma rounds_over : forall r (s : bool),
  Om <= Rabs (rnd r) -> (if s then r <= 0 else 0 <= r) -> rounds (B754_infinity s) r.
Proof.
  intros r s O S. split; auto. pose proof Om_pos. destruct s; simpl.
  - pose proof (rnd_neg r S). rewrite Rabs_left1 in O by auto. symmetry. apply rs_under. lra.
  - pose proof (rnd_pos r S). rewrite Rabs_pos_eq in O by auto. symmetry. apply rs_over. lra.
Qed.

Lemma rounds_small : forall z r, rounds z r -> Rabs (rnd r) < Om -> fin z /\ Binary.B2R z = rnd r.
Proof.
  intros z r [N V] B. assert (V' : val z = rnd r) by (rewrite V; apply rs_in; lra).
  assert (F : fin z) by (apply fin_iff_val; [auto|now rewrite V']).
  split; auto. now rewrite <- val_fin.
Qed.

Lemma Bsign_B2R : forall x : f64, fin x ->
  (if Binary.Bsign x then Binary.B2R x <= 0 else 0 <= Binary.B2R x).
Proof.
  intros [s| | |s m e B] F; try discriminate; simpl.
  - destruct s; lra.
  - destruct s; simpl; [apply F2R_le_0|apply F2R_ge_0]; simpl; lia.
Qed.

(** Format of subtraction used below *)
Section Ops.
  Context (P : platform).

  Lemma add_spec : forall x y, fin x -> fin y -> rounds (f64_add P x y) (Binary.B2R x + Binary.B2R y).
  Proof.
    intros x y Fx Fy.
    pose proof (Binary.Bplus_correct 53 1024 prec_gt_0_64 prec_lt_emax_64 (p_add_nan P) mode_NE x y Fx Fy) as H.
    change (round radix2 fexp64 (round_mode mode_NE)) with rnd in H. unfold f64_add.
    destruct (Rlt_bool_spec (Rabs (rnd (Binary.B2R x + Binary.B2R y))) (bpow radix2 1024)) as [L|G].
    - destruct H as (H1 & H2 & _). now apply rounds_fin.
    - destruct H as [H S]. apply overflow_inf in H. rewrite H. apply rounds_over; auto.
      pose proof (Bsign_B2R x Fx). pose proof (Bsign_B2R y Fy). rewrite <- S in *.
      destruct (Binary.Bsign x); lra.
  Qed.

  Lemma sub_spec : forall x y, fin x -> fin y -> rounds (f64_sub P x y) (Binary.B2R x - Binary.B2R y).
  Proof.
    intros x y Fx Fy.
    pose proof (Binary.Bminus_correct 53 1024 prec_gt_0_64 prec_lt_emax_64 (p_sub_nan P) mode_NE x y Fx Fy) as H.
    change (round radix2 fexp64 (round_mode mode_NE)) with rnd in H. unfold f64_sub.
    destruct (Rlt_bool_spec (Rabs (rnd (Binary.B2R x - Binary.B2R y))) (bpow radix2 1024)) as [L|G].
    - destruct H as (H1 & H2 & _). now apply rounds_fin.
    - destruct H as [H S]. apply overflow_inf in H. rewrite H. apply rounds_over; auto.
      pose proof (Bsign_B2R x Fx). pose proof (Bsign_B2R y Fy).
      destruct (Binary.Bsign x), (Binary.Bsign y); simpl in *; try discriminate; lra.
  Qed.

  Lemma mul_spec : forall x y, fin x -> fin y -> rounds (f64_mul P x y) (Binary.B2R x * Binary.B2R y).
  Proof.
    intros x y Fx Fy.
    pose proof (Binary.Bmult_correct 53 1024 prec_gt_0_64 prec_lt_emax_64 (p_mul_nan P) mode_NE x y) as H.
    change (round radix2 fexp64 (round_mode mode_NE)) with rnd in H. unfold f64_mul.
    destruct (Rlt_bool_spec (Rabs (rnd (Binary.B2R x * Binary.B2R y))) (bpow radix2 1024)) as [L|G].
    - destruct H as (H1 & H2 & _). rewrite Fx, Fy in H2. now apply rounds_fin.
    - apply overflow_inf in H. rewrite H. apply rounds_over; auto.
      pose proof (Bsign_B2R x Fx). pose proof (Bsign_B2R y Fy).
      destruct (Binary.Bsign x), (Binary.Bsign y); simpl in *; nra.
  Qed.

  Lemma div_spec : forall x y, fin x -> fin y -> Binary.B2R y <> 0 ->
    rounds (f64_div P x y) (Binary.B2R x / Binary.B2R y).
  Proof.
    intros x y Fx Fy Zy.
    pose proof (Binary.Bdiv_correct 53 1024 prec_gt_0_64 prec_lt_emax_64 (p_div_nan P) mode_NE x y Zy) as H.
    change (round radix2 fexp64 (round_mode mode_NE)) with rnd in H. unfold f64_div.
    destruct (Rlt_bool_spec (Rabs (rnd (Binary.B2R x / Binary.B2R y))) (bpow radix2 1024)) as [L|G].
    - destruct H as (H1 & H2 & _). rewrite Fx in H2. now apply rounds_fin.
    - apply overflow_inf in H. rewrite H. apply rounds_over; auto.
      pose proof (Bsign_B2R x Fx) as S1. pose proof (Bsign_B2R y Fy) as S2.
      unfold Rdiv. destruct (Binary.Bsign x), (Binary.Bsign y); simpl in *.
      + assert (/ Binary.B2R y < 0) by (apply Rinv_lt_0_compat; lra). nra.
      + assert (0 < / Binary.B2R y) by (apply Rinv_0_lt_compat; lra). nra.
      + assert (/ Binary.B2R y < 0) by (apply Rinv_lt_0_compat; lra). nra.
      + assert (0 < / Binary.B2R y) by (apply Rinv_0_lt_compat; lra). nra.
  Qed.

  Lemma fma_spec : forall x y z, fin x -> fin y -> fin z ->
    rounds (f64_fma P x y z) (Binary.B2R x * Binary.B2R y + Binary.B2R z).
  Proof.
    intros x y z Fx Fy Fz.
    pose proof (Binary.Bfma_correct 53 1024 prec_gt_0_64 prec_lt_emax_64 (p_fma_nan P) mode_NE x y z Fx Fy Fz) as H.
    cbv zeta in H. change (round radix2 fexp64 (round_mode mode_NE)) with rnd in H. unfold f64_fma.
    destruct (Rlt_bool_spec (Rabs (rnd (Binary.B2R x * Binary.B2R y + Binary.B2R z))) (bpow radix2 1024)) as [L|G].
    - destruct H as (H1 & H2 & _). now apply rounds_fin.
    - apply overflow_inf in H. rewrite H. apply rounds_over; auto.
      destruct (Rlt_bool_spec (Binary.B2R x * Binary.B2R y + Binary.B2R z) 0); simpl; lra.
  Qed.

  Lemma sqrt_spec : forall x, fin x -> 0 <= Binary.B2R x ->
    fin (f64_sqrt P x) /\ Binary.B2R (f64_sqrt P x) = rnd (R_sqrt.sqrt (Binary.B2R x)).
  Proof.
    intros x Fx Px.
    pose proof (Binary.Bsqrt_correct 53 1024 prec_gt_0_64 prec_lt_emax_64 (p_un_nan P) mode_NE x) as H.
    destruct H as (H1 & H2 & _). unfold f64_sqrt. split; auto. rewrite H2.
    destruct x as [s| | |[] m e B]; simpl in *; auto; try discriminate.
    exfalso. assert (F2R (Float radix2 (Z.neg m) e) < 0) by now apply F2R_lt_0.
    simpl in *. lra.
  Qed.
End Ops.
