(** * Rational bounds on PI and 1 / sqrt PI, from Machin's formula *)

From Coq Require Import ZArith Reals Lra Lia Machin.
From Flocq Require Import Core.Raux.
From Verif.Proofs Require Import Poly.
Open Scope R_scope.

(** the terms of PI/4 = 2 atan(1/3) + atan(1/7) as fractions *)
Definition pt_num (n : nat) : Z := (2 * 7 ^ Z.of_nat (2 * n + 1) + 3 ^ Z.of_nat (2 * n + 1))%Z.
Definition pt_den (n : nat) : Z := (Z.of_nat (2 * n + 1) * 21 ^ Z.of_nat (2 * n + 1))%Z.

Lemma pt_den_pos : forall n, (0 < pt_den n)%Z.
Proof. intros n. unfold pt_den. apply Z.mul_pos_pos; [lia|apply Z.pow_pos_nonneg; lia]. Qed.

Lemma pow_inv_IZR : forall b n, (0 < b)%Z -> (/ IZR b) ^ n = / IZR (b ^ Z.of_nat n).
Proof.
  intros b n Hb. rewrite <- pow_IZR. rewrite pow_inv. reflexivity.
Qed.

Lemma pt_eq : forall n, PI_2_3_7_tg n = IZR (pt_num n) / IZR (pt_den n).
Proof.
  intros n. unfold PI_2_3_7_tg, Ratan_seq, pt_num, pt_den.
  rewrite (pow_inv_IZR 3), (pow_inv_IZR 7) by lia. set (m := (2 * n + 1)%nat).
  rewrite INR_IZR_INZ, plus_IZR, !mult_IZR.
  change 21%Z with (3 * 7)%Z. rewrite Z.pow_mul_l, mult_IZR.
  assert (A : 0 < IZR (3 ^ Z.of_nat m)) by (apply IZR_lt, Z.pow_pos_nonneg; lia).
  assert (B : 0 < IZR (7 ^ Z.of_nat m)) by (apply IZR_lt, Z.pow_pos_nonneg; lia).
  assert (C : 0 < IZR (Z.of_nat m)) by (apply IZR_lt; lia).
  field. repeat split; lra.
Qed.

Definition D80 : Z := (2 ^ 80)%Z.

(** partial sums in units of 2^-80, each term rounded down *)
Fixpoint psum (n : nat) : Z :=
  let t := (pt_num n * D80 / pt_den n)%Z in
  match n with
  | O => t
  | S n' => (psum n' + if Nat.even n then t else - t)%Z
  end.

Lemma D80_pos : 0 < IZR D80.
Proof. apply IZR_lt. reflexivity. Qed.

Lemma psum_ok : forall n,
  Rabs (sum_f_R0 (tg_alt PI_2_3_7_tg) n * IZR D80 - IZR (psum n)) <= IZR (Z.of_nat n + 1).
Proof.
  assert (T : forall n, 0 <= PI_2_3_7_tg n * IZR D80 - IZR (pt_num n * D80 / pt_den n) <= 1).
  { intros n. rewrite pt_eq. pose proof (pt_den_pos n) as Hd.
    assert (Dp : 0 < IZR (pt_den n)) by (apply IZR_lt; exact Hd).
    pose proof (IZR_div_up (pt_num n * D80) _ Hd) as U. pose proof (IZR_div_down (pt_num n * D80) _ Hd) as L.
    rewrite plus_IZR in U. rewrite mult_IZR in U, L.
    replace (IZR (pt_num n) / IZR (pt_den n) * IZR D80) with (IZR (pt_num n) * IZR D80 / IZR (pt_den n)) by (field; lra).
    lra. }
  induction n as [|n IH].
  - cbn [sum_f_R0 psum]. unfold tg_alt. specialize (T O). simpl (Z.of_nat 0 + 1)%Z. rewrite pow_O, Rmult_1_l.
    apply Rabs_le. lra.
  - cbn [sum_f_R0]. change (psum (S n)) with (psum n + (if Nat.even (S n) then pt_num (S n) * D80 / pt_den (S n) else - (pt_num (S n) * D80 / pt_den (S n))))%Z.
    specialize (T (S n)). set (t := (pt_num (S n) * D80 / pt_den (S n))%Z) in *.
    unfold tg_alt at 2.
    replace (IZR (Z.of_nat (S n) + 1)) with (IZR (Z.of_nat n + 1) + 1) by (rewrite <- plus_IZR; f_equal; lia).
    apply Rabs_le_inv in IH. apply Rabs_le.
    destruct (Nat.even (S n)) eqn:E.
    + apply Nat.even_spec in E. destruct E as [k E]. assert (Q : (-1) ^ S n = 1) by (rewrite E; apply pow_1_even). rewrite Q, (plus_IZR (psum n)). lra.
    + assert (O : Nat.odd (S n) = true) by (rewrite <- Nat.negb_even, E; reflexivity).
      apply Nat.odd_spec in O. destruct O as [k O]. assert (Q : (-1) ^ S n = -1) by (rewrite O, Nat.add_1_r; apply pow_1_odd).
      rewrite Q, (plus_IZR (psum n)), opp_IZR. lra.
Qed.

(** PI in units of 2^-70 *)
Lemma PI_bounds : 3708937962535486895299 <= PI * IZR (2 ^ 70) <= 3708937962535486895302.
Proof.
  pose proof (PI_2_3_7_ineq 12) as [L U].
  pose proof (psum_ok (S (2 * 12))) as A. pose proof (psum_ok (2 * 12)) as B.
  apply Rabs_le_inv in A, B.
  set (s1 := sum_f_R0 _ (S (2 * 12))) in *. set (s2 := sum_f_R0 _ (2 * 12)) in *.
  assert (E1 : psum (S (2 * 12)) = 949488118409084645196998%Z) by (vm_compute; reflexivity).
  assert (E2 : psum (2 * 12) = 949488118409084645196998%Z) by (vm_compute; reflexivity).
  rewrite E1 in A. rewrite E2 in B. clearbody s1 s2.
  change (Z.of_nat (S (2 * 12)) + 1)%Z with 26%Z in A. change (Z.of_nat (2 * 12) + 1)%Z with 25%Z in B.
  change D80 with 1208925819614629174706176%Z in *. change (2 ^ 70)%Z with 1180591620717411303424%Z.
  lra.
Qed.

(** 1 / sqrt PI in units of 2^-70 *)
Definition isp70 : Z := 666077494832526926684.
Lemma isp_bounds : IZR isp70 - 1 <= / sqrt PI * IZR (2 ^ 70) <= IZR isp70 + 2.
Proof.
  pose proof PI_bounds as [L U]. pose proof PI_RGT_0 as P.
  assert (S : 0 < sqrt PI) by (apply sqrt_lt_R0; exact P).
  assert (I : 0 < / sqrt PI) by (apply Rinv_0_lt_compat; exact S).
  assert (Q : (/ sqrt PI) * (/ sqrt PI) * PI = 1).
  { rewrite <- (sqrt_sqrt PI) at 3 by lra. field. lra. }
  set (i := / sqrt PI) in *. clearbody i.
  change (2 ^ 70)%Z with 1180591620717411303424%Z in *. unfold isp70.
  split.
  - apply Rnot_lt_le. intros N.
    assert (A : i * 1180591620717411303424 * (i * 1180591620717411303424) <= 666077494832526926683 * 666077494832526926683).
    { apply Rmult_le_compat; lra. }
    assert (B : (i * 1180591620717411303424 * (i * 1180591620717411303424)) * (PI * 1180591620717411303424)
      <= (666077494832526926683 * 666077494832526926683) * 3708937962535486895302).
    { apply Rmult_le_compat; try lra. apply Rmult_le_pos; lra. }
    replace ((i * 1180591620717411303424 * (i * 1180591620717411303424)) * (PI * 1180591620717411303424)) with
      (i * i * PI * (1180591620717411303424 * 1180591620717411303424 * 1180591620717411303424)) in B by ring.
    rewrite Q in B. lra.
  - apply Rnot_lt_le. intros N.
    assert (A : 666077494832526926686 * 666077494832526926686 <= i * 1180591620717411303424 * (i * 1180591620717411303424)).
    { apply Rmult_le_compat; lra. }
    assert (B : (666077494832526926686 * 666077494832526926686) * 3708937962535486895299
      <= (i * 1180591620717411303424 * (i * 1180591620717411303424)) * (PI * 1180591620717411303424)).
    { apply Rmult_le_compat; lra. }
    replace ((i * 1180591620717411303424 * (i * 1180591620717411303424)) * (PI * 1180591620717411303424)) with
      (i * i * PI * (1180591620717411303424 * 1180591620717411303424 * 1180591620717411303424)) in B by ring.
    rewrite Q in B. lra.
Qed.
