(** * Values of literals *)

From Coq Require Import ZArith Reals Bool Lra Lia.
From Flocq Require Import Core IEEE754.BinarySingleNaN IEEE754.Binary IEEE754.Bits.
From Verif.Model Require Import Base Arith.
From Verif.Float Require Import Bits64 Ieee Exact.
From Verif.Spec Require Import F64Spec Outcome.
From Verif.Proofs Require Import F64 F64Ops.
Open Scope R_scope.

Lemma bpow2_nonneg_IZR : forall k, (0 <= k)%Z -> bpow radix2 k = IZR (2 ^ k).
Proof. intros k Hk. rewrite <- IZR_Zpower by exact Hk. reflexivity. Qed.

Lemma bpow2_neg_IZR : forall k, (0 <= k)%Z -> bpow radix2 (- k) = / IZR (2 ^ k).
Proof. intros k Hk. rewrite bpow_opp, bpow2_nonneg_IZR by exact Hk. reflexivity. Qed.

Lemma bpow2_inv_IZR : forall e, (e <= 0)%Z -> bpow radix2 e = / IZR (2 ^ (- e)).
Proof. intros e He. rewrite <- bpow2_neg_IZR by lia. f_equal. lia. Qed.

Lemma powerRZ_10 : forall e, powerRZ 10 e = IZR (10 ^ Z.max 0 e) / IZR (10 ^ Z.max 0 (- e)).
Proof.
  intros e. destruct (Z.le_gt_cases 0 e) as [H|H].
  - rewrite (Z.max_r 0 e), (Z.max_l 0 (- e)) by lia. rewrite Z.pow_0_r.
    rewrite <- (Z2Nat.id e H) at 2. rewrite <- pow_IZR, <- (Z2Nat.id e H) at 1.
    rewrite <- pow_powerRZ. field.
  - rewrite (Z.max_l 0 e), (Z.max_r 0 (- e)) by lia. rewrite Z.pow_0_r.
    rewrite <- (Z.opp_involutive e) at 1. rewrite powerRZ_neg'.
    rewrite <- (Z2Nat.id (- e)) by lia. rewrite <- pow_IZR, <- pow_powerRZ.
    unfold Rdiv. rewrite Rmult_1_l. reflexivity.
Qed.

Lemma pow10_pos : forall k, (0 <= k)%Z -> 0 < IZR (10 ^ k).
Proof. intros k H. apply IZR_lt. apply Z.pow_pos_nonneg; lia. Qed.

(** a literal that denotes [m / 2^k] *)
Lemma lit_dyadic : forall d m k,
  (dman d * 2 ^ k * 10 ^ Z.max 0 (dexp d) = m * 10 ^ Z.max 0 (- dexp d))%Z ->
  (Z.abs m <= 2 ^ 53)%Z -> (0 <= k <= 1074)%Z ->
  fin (f64_lit d) /\ Binary.B2R (f64_lit d) = IZR m / IZR (2 ^ k).
Proof.
  intros d m k E Hm Hk.
  assert (K : 0 < IZR (2 ^ k)) by (apply IZR_lt; apply Z.pow_pos_nonneg; lia).
  assert (V : IZR m / IZR (2 ^ k) = IZR m * bpow radix2 (- k)).
  { rewrite bpow2_neg_IZR by lia. reflexivity. }
  apply lit_exact.
  - unfold R_of_dec. rewrite powerRZ_10.
    pose proof (pow10_pos (Z.max 0 (- dexp d)) ltac:(lia)) as H1.
    apply (f_equal IZR) in E. rewrite !mult_IZR in E.
    apply Rmult_eq_reg_r with (IZR (2 ^ k) * IZR (10 ^ Z.max 0 (- dexp d))).
    + field_simplify; [|lra|lra]. lra.
    + apply Rmult_integral_contrapositive_currified; lra.
  - rewrite V. apply fmt_F2R; lia.
  - rewrite V, Rabs_mult, (Rabs_pos_eq (bpow _ _)) by apply bpow_ge_0.
    apply Rle_lt_trans with (bpow radix2 53 * bpow radix2 0).
    + apply Rmult_le_compat; [apply Rabs_pos|apply bpow_ge_0| |apply bpow_le; lia].
      rewrite <- abs_IZR, bpow2_nonneg_IZR by lia. apply IZR_le. exact Hm.
    + rewrite <- bpow_plus. apply bpow_lt. lia.
Qed.

Lemma lit_dyadic_val : forall d m k,
  (dman d * 2 ^ k * 10 ^ Z.max 0 (dexp d) = m * 10 ^ Z.max 0 (- dexp d))%Z ->
  (Z.abs m <= 2 ^ 53)%Z -> (0 <= k <= 1074)%Z ->
  fin (f64_lit d) /\ val (f64_lit d) = IZR m / IZR (2 ^ k).
Proof.
  intros d m k E Hm Hk. destruct (lit_dyadic d m k E Hm Hk) as [F V].
  split; [exact F|]. rewrite val_fin by exact F. exact V.
Qed.

(** [lit_facts d m k] adds the value [m / 2^k] of the literal [d] to the
    context *)
Ltac lit_facts d m k F V :=
  let Q := fresh in
  assert (Q : fin (f64_lit d) /\ val (f64_lit d) = IZR m / IZR (2 ^ k))
    by (apply lit_dyadic_val; [vm_compute; reflexivity|vm_compute; discriminate
                              |split; vm_compute; discriminate]);
  destruct Q as [F V];
  let w := eval vm_compute in (2 ^ k)%Z in
  change (2 ^ k)%Z with w in V.

Lemma lit_0 : f64_lit 0.0 = f64_zero.
Proof. reflexivity. Qed.
Lemma val_0 : val (f64_lit 0.0) = 0.
Proof. reflexivity. Qed.
Lemma nn_0 : nonnan (f64_lit 0.0).
Proof. reflexivity. Qed.
Lemma fin_1 : fin (f64_lit 1.0).
Proof. lit_facts 1.0%dec 1%Z 0%Z HF HV. exact HF. Qed.
Lemma val_1 : val (f64_lit 1.0) = 1.
Proof. lit_facts 1.0%dec 1%Z 0%Z HF HV. lra. Qed.
Lemma nn_1 : nonnan (f64_lit 1.0).
Proof. apply fin_nonnan, fin_1. Qed.
Lemma fin_2 : fin (f64_lit 2.0).
Proof. lit_facts 2.0%dec 2%Z 0%Z HF HV. exact HF. Qed.
Lemma val_2 : val (f64_lit 2.0) = 2.
Proof. lit_facts 2.0%dec 2%Z 0%Z HF HV. lra. Qed.
Lemma nn_2 : nonnan (f64_lit 2.0).
Proof. apply fin_nonnan, fin_2. Qed.

Lemma pos_true : forall x, f64_lt (f64_lit 0.0) x = true <-> positive x.
Proof. intros x. rewrite lt_true, val_0. unfold positive, number. pose proof nn_0. tauto. Qed.
Lemma nonneg_true : forall x, f64_le (f64_lit 0.0) x = true <-> nonneg x.
Proof. intros x. rewrite le_true, val_0. unfold nonneg, number. pose proof nn_0. tauto. Qed.
Lemma pos_false : forall x, f64_lt (f64_lit 0.0) x = false <-> ~ positive x.
Proof. intros x. rewrite <- pos_true. destruct f64_lt; split; congruence. Qed.
Lemma nonneg_false : forall x, f64_le (f64_lit 0.0) x = false <-> ~ nonneg x.
Proof. intros x. rewrite <- nonneg_true. destruct f64_le; split; congruence. Qed.

(** unfold the operations of the IEEE reading *)
Ltac ieee_simpl :=
  cbn [ieee F lit of_int to_int add sub mul div neg abs sqrt floor trunc lt le eq is_nan
       is_infinite is_sign_positive nan infinity epsilon min_positive copysign fmax fmin
       exp ln sin cos sinh cosh powf cexp fused_mul_add has_fma checks frexp ldexp].
Ltac ieee_simpl_in H :=
  cbn [ieee F lit of_int to_int add sub mul div neg abs sqrt floor trunc lt le eq is_nan
       is_infinite is_sign_positive nan infinity epsilon min_positive copysign fmax fmin
       exp ln sin cos sinh cosh powf cexp fused_mul_add has_fma checks frexp ldexp] in H.

Lemma not_panic_returns : forall {A} (m : res A), returns m -> ~ panics m.
Proof. intros A m [r E] [p E']. congruence. Qed.

Lemma ok_inj : forall {A} (a b : A), Ok a = Ok b -> a = b.
Proof. intros A a b H. injection H. auto. Qed.
