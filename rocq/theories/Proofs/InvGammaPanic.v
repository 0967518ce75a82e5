(** * invgammp panics for large a and moderate p below one half *)

From Coq Require Import ZArith Reals Bool Lra Lia List.
From Flocq Require Import Core IEEE754.BinarySingleNaN IEEE754.Binary IEEE754.Bits.
From Verif.Model Require Import Base Arith Gamma.
From Verif.Float Require Import Bits64 Ieee Exact Platforms.
From Verif.Spec Require Import F64Spec Outcome.
From Verif.Proofs Require Import F64 F64Ops Lits Ext Boundaries Domains GammaPQ DawsonNeg GammaNaN Ideal.
Open Scope R_scope.

(** a literal lies between two neighbouring multiples of 2^-16 *)
Lemma lit_inb : forall d m n, (Z.abs m <= 2 ^ 53)%Z -> (Z.abs n <= 2 ^ 53)%Z ->
  IZR m / 65536 <= R_of_dec d <= IZR n / 65536 -> inb (f64_lit d) (IZR m / 65536) (IZR n / 65536).
Proof.
  intros d m n Hm Hn H. apply (rounds_inb _ _ _ _ (lit_spec d)); auto.
  - apply (fmt_q m 16); [exact Hm|lia|reflexivity].
  - apply (fmt_q n 16); [exact Hn|lia|reflexivity].
  - unfold Rdiv. rewrite Rabs_mult, (Rabs_pos_eq (/ 65536)) by lra. rewrite <- abs_IZR. apply IZR_le in Hm. simpl in Hm. lra.
  - unfold Rdiv. rewrite Rabs_mult, (Rabs_pos_eq (/ 65536)) by lra. rewrite <- abs_IZR. apply IZR_le in Hn. simpl in Hn. lra.
Qed.

Ltac litb := apply lit_inb; [vm_compute; discriminate|vm_compute; discriminate
  |unfold R_of_dec; cbn [dman dexp]; rewrite powerRZ_10; simpl; lra].

Section Inv.
  Context (P : platform).
  Notation sub := (f64_sub P). Notation mul := (f64_mul P). Notation add := (f64_add P). Notation div := (f64_div P).

  Lemma sub_inb : forall x y a b c d l h, inb x a b -> inb y c d -> fmt l -> fmt h ->
    Rabs l <= 2 ^ 60 -> Rabs h <= 2 ^ 60 -> l <= a - d -> b - c <= h -> inb (sub x y) l h.
  Proof.
    intros x y a b c d l h [Fx Hx] [Fy Hy] Fl Fh Bl Bh H1 H2.
    apply (rounds_inb _ _ _ _ (sub_spec P x y Fx Fy)); auto. lra.
  Qed.

  Lemma addw_inb : forall x y a b c d l h, inb x a b -> inb y c d -> fmt l -> fmt h ->
    Rabs l <= 2 ^ 60 -> Rabs h <= 2 ^ 60 -> l <= a + c -> b + d <= h -> inb (add x y) l h.
  Proof.
    intros x y a b c d l h [Fx Hx] [Fy Hy] Fl Fh Bl Bh H1 H2.
    apply (rounds_inb _ _ _ _ (add_spec P x y Fx Fy)); auto. lra.
  Qed.

  (** positive operands *)
  Lemma mulp_inb : forall x y a b c d l h, inb x a b -> inb y c d -> 0 <= a -> 0 <= c -> fmt l -> fmt h ->
    Rabs l <= 2 ^ 60 -> Rabs h <= 2 ^ 60 -> l <= a * c -> b * d <= h -> inb (mul x y) l h.
  Proof.
    intros x y a b c d l h [Fx Hx] [Fy Hy] Pa Pc Fl Fh Bl Bh H1 H2.
    apply (rounds_inb _ _ _ _ (mul_spec P x y Fx Fy)); auto. split.
    - apply Rle_trans with (a * c); [exact H1|]. apply Rmult_le_compat; lra.
    - apply Rle_trans with (b * d); [|exact H2]. apply Rmult_le_compat; lra.
  Qed.

  Lemma divp_inb : forall x y a b c d l h, inb x a b -> inb y c d -> 0 <= a -> 0 < c -> fmt l -> fmt h ->
    Rabs l <= 2 ^ 60 -> Rabs h <= 2 ^ 60 -> 0 <= l -> l * d <= a -> b <= h * c -> inb (div x y) l h.
  Proof.
    intros x y a b c d l h [Fx Hx] [Fy Hy] Pa Pc Fl Fh Bl Bh Pl H1 H2.
    assert (Y : 0 < Binary.B2R y) by lra.
    assert (Hh : 0 <= h). { destruct (Rle_or_lt 0 h) as [|C]; [assumption|]. assert (0 < - h * c) by (apply Rmult_lt_0_compat; lra). lra. }
    apply (rounds_inb _ _ _ _ (div_spec P x y Fx Fy ltac:(lra))); auto. split.
    - apply Rmult_le_reg_r with (Binary.B2R y); [exact Y|]. unfold Rdiv. rewrite Rmult_assoc, Rinv_l, Rmult_1_r by lra.
      apply Rle_trans with (l * d); [apply Rmult_le_compat_l; lra|lra].
    - apply Rmult_le_reg_r with (Binary.B2R y); [exact Y|]. unfold Rdiv. rewrite Rmult_assoc, Rinv_l, Rmult_1_r by lra.
      apply Rle_trans with (h * c); [lra|apply Rmult_le_compat_l; lra].
  Qed.

  Context (LN : ln_of_negative_is_NaN (p_ln P)) (LP : plausible_ln (p_ln P)).

  (** the normal quantile used in the starting point, with its sign *)
  Definition quantile (p : f64) : f64 :=
    let t := f64_sqrt P (mul (f64_neg (f64_lit 2.0)) (libm P (p_ln P) p)) in
    sub (div (add (f64_lit 2.30753) (mul t (f64_lit 0.27061)))
             (add (f64_lit 1.0) (mul t (add (f64_lit 0.99229) (mul t (f64_lit 0.04481)))))) t.

  Lemma quantile_inb : forall p, number p -> 0.01 <= val p <= 0.3 ->
    inb (f64_neg (quantile p)) (19628 / 65536) (170000 / 65536).
  Proof.
    intros p Np Hp. unfold quantile. rewrite libm_nonnan by exact Np. destruct (LP p Np Hp) as [NL VL].
    set (L := p_ln P p) in *.
    assert (FL : fin L) by (apply fin_iff_val; [exact NL|rewrite Rabs_left by lra; pose proof Om_big; lra]).
    rewrite (val_fin L FL) in VL.
    assert (B2 : inb (mul (f64_neg (f64_lit 2.0)) L) (147 / 64) 10).
    { eapply mul_inb; [apply neg_inb; exact inb_2|split; [exact FL|exact VL]|fq 147%Z 6%Z|fq 10%Z 0%Z|ab|ab|].
      intros u v Hu Hv. nra. }
    destruct B2 as [F2 V2]. destruct (sqrt_spec P _ F2 ltac:(lra)) as [Ft Vt].
    set (t := f64_sqrt P _) in *.
    assert (Bt : inb t (1551 / 1024) (203 / 64)).
    { split; [exact Ft|]. rewrite Vt. split.
      - apply rnd_ge; [fq 1551%Z 10%Z|]. rewrite <- (sqrt_square (1551 / 1024)) by lra. apply sqrt_le_1_alt. lra.
      - apply rnd_le_fmt; [fq 203%Z 6%Z|]. rewrite <- (sqrt_square (203 / 64)) by lra. apply sqrt_le_1_alt. lra. }
    assert (N1 : inb (mul t (f64_lit 0.27061)) (26860 / 65536) (56255 / 65536)).
    { eapply mulp_inb; [exact Bt|apply (lit_inb _ 17734 17735); [lia|lia|unfold R_of_dec; cbn [dman dexp]; rewrite powerRZ_10; simpl; lra]|lra|lra|fq 26860%Z 16%Z|fq 56255%Z 16%Z|ab|ab|lra|lra]. }
    assert (N2 : inb (add (f64_lit 2.30753) (mul t (f64_lit 0.27061))) (178086 / 65536) (207482 / 65536)).
    { eapply addw_inb; [apply (lit_inb _ 151226 151227); [lia|lia|unfold R_of_dec; cbn [dman dexp]; rewrite powerRZ_10; simpl; lra]|exact N1|fq 178086%Z 16%Z|fq 207482%Z 16%Z|ab|ab|lra|lra]. }
    assert (D1 : inb (mul t (f64_lit 0.04481)) (4446 / 65536) (9320 / 65536)).
    { eapply mulp_inb; [exact Bt|apply (lit_inb _ 2936 2937); [lia|lia|unfold R_of_dec; cbn [dman dexp]; rewrite powerRZ_10; simpl; lra]|lra|lra|fq 4446%Z 16%Z|fq 9320%Z 16%Z|ab|ab|lra|lra]. }
    assert (D2 : inb (add (f64_lit 0.99229) (mul t (f64_lit 0.04481))) (69476 / 65536) (74351 / 65536)).
    { eapply addw_inb; [apply (lit_inb _ 65030 65031); [lia|lia|unfold R_of_dec; cbn [dman dexp]; rewrite powerRZ_10; simpl; lra]|exact D1|fq 69476%Z 16%Z|fq 74351%Z 16%Z|ab|ab|lra|lra]. }
    assert (D3 : inb (mul t (add (f64_lit 0.99229) (mul t (f64_lit 0.04481)))) (105230 / 65536) (235836 / 65536)).
    { eapply mulp_inb; [exact Bt|exact D2|lra|lra|fq 105230%Z 16%Z|fq 235836%Z 16%Z|ab|ab|lra|lra]. }
    assert (D4 : inb (add (f64_lit 1.0) (mul t (add (f64_lit 0.99229) (mul t (f64_lit 0.04481))))) (170766 / 65536) (301372 / 65536)).
    { eapply addw_inb; [exact inb_1|exact D3|fq 170766%Z 16%Z|fq 301372%Z 16%Z|ab|ab|lra|lra]. }
    assert (Q : inb (div (add (f64_lit 2.30753) (mul t (f64_lit 0.27061)))
             (add (f64_lit 1.0) (mul t (add (f64_lit 0.99229) (mul t (f64_lit 0.04481)))))) (38600 / 65536) (79628 / 65536)).
    { eapply divp_inb; [exact N2|exact D4|lra|lra|fq 38600%Z 16%Z|fq 79628%Z 16%Z|ab|ab|lra|lra|lra]. }
    assert (X : inb (sub (div (add (f64_lit 2.30753) (mul t (f64_lit 0.27061)))
             (add (f64_lit 1.0) (mul t (add (f64_lit 0.99229) (mul t (f64_lit 0.04481)))))) t) (- (170000 / 65536)) (- (19628 / 65536))).
    { eapply sub_inb; [exact Q|exact Bt|fq (-170000)%Z 16%Z|fq (-19628)%Z 16%Z|ab|ab|lra|lra]. }
    apply neg_inb in X. rewrite !Ropp_involutive in X. exact X.
  Qed.

  (** relative error of one rounding *)
  Lemma rounds_near : forall z r, rounds z r -> bpow radix2 (-1000) <= r <= bpow radix2 1000 ->
    fin z /\ r * (1 - bpow radix2 (-53)) <= Binary.B2R z <= r * (1 + bpow radix2 (-53)).
  Proof.
    intros z r H B. pose proof (bpow_gt_0 radix2 (-1000)) as B0.
    assert (B1 : bpow radix2 (-1022) <= bpow radix2 (-1000)) by (apply bpow_le; lia).
    pose proof (rnd_up r ltac:(lra)) as E. pose proof u_small as U.
    assert (O : bpow radix2 1001 <= Om) by (unfold Om; apply bpow_le; lia).
    assert (E2 : bpow radix2 1001 = 2 * bpow radix2 1000) by (change 1001%Z with (1 + 1000)%Z; rewrite bpow_plus; reflexivity).
    destruct (rounds_small z r H) as [F V].
    - rewrite Rabs_pos_eq by (apply rnd_pos; lra). assert (r * (1 + bpow radix2 (-53)) < r * 2) by (apply Rmult_lt_compat_l; lra). lra.
    - split; [exact F|]. rewrite V. exact E.
  Qed.

  Lemma rel6 : forall r z, 0 <= r ->
    r * (1 - bpow radix2 (-53)) <= z <= r * (1 + bpow radix2 (-53)) -> 0.999999 * r <= z <= 1.000001 * r.
  Proof.
    intros r z Hr H. pose proof u_small as U. set (u := bpow radix2 (-53)) in *.
    assert (0 <= r * u) by (apply Rmult_le_pos; lra).
    assert (r * u <= r * (1 / 1000000)) by (apply Rmult_le_compat_l; lra). lra.
  Qed.

  Lemma rel_abs : forall r z, 0 <= r <= 1 -> z <= r * (1 + bpow radix2 (-53)) -> z <= r + bpow radix2 (-53).
  Proof.
    intros r z Hr H. pose proof u_small as U. set (u := bpow radix2 (-53)) in *.
    assert (r * u <= 1 * u) by (apply Rmult_le_compat_r; lra). lra.
  Qed.

  (** the starting point lies in the wedge where gammp is NaN *)
  Definition start (p a : f64) : f64 :=
    f64_max P (f64_lit 1e-3)
      (mul a (@powi3 (ieee P) (sub (sub (f64_lit 1.0) (div (f64_lit 1.0) (mul (f64_lit 9.0) a)))
                     (div (f64_neg (quantile p)) (mul (f64_lit 3.0) (f64_sqrt P a)))))).

  Lemma start_wedge : forall p a, number p -> 0.01 <= val p <= 0.3 -> fin a ->
    100 <= Binary.B2R a <= bpow radix2 80 ->
    fin (start p a) /\ 0.201 * Binary.B2R a <= Binary.B2R (start p a) <= Binary.B2R (pred1 P a).
  Proof.
    intros p a Np Hp Fa Ba. destruct (quantile_inb p Np Hp) as [Fy By]. unfold start.
    set (y := f64_neg (quantile p)) in *. set (A := Binary.B2R a) in *. set (Y := Binary.B2R y) in *.
    destruct (sqrt_spec P a Fa ltac:(fold A; lra)) as [Fq Vq]. fold A in Vq. set (q := f64_sqrt P a) in *.
    set (s := R_sqrt.sqrt A) in *.
    assert (SS : s * s = A) by (apply sqrt_sqrt; lra).
    assert (S10 : 10 <= s). { replace 10 with (R_sqrt.sqrt (10 * 10)) by (apply sqrt_square; lra). apply sqrt_le_1_alt. lra. }
    assert (S40 : s <= bpow radix2 40). { rewrite <- (sqrt_bpow radix2 40). apply sqrt_le_1_alt. exact (proj2 Ba). }
    pose proof u_small as U. set (u := bpow radix2 (-53)) in *.
    assert (Lo : bpow radix2 (-1000) <= 1 / 1000000).
    { unfold u in U. assert (bpow radix2 (-1000) <= bpow radix2 (-53)) by (apply bpow_le; lia). lra. }
    assert (Lo2 : bpow radix2 (-1000) * bpow radix2 100 <= 1 / 1000000).
    { rewrite <- bpow_plus. unfold u in U. assert (bpow radix2 (-1000 + 100) <= bpow radix2 (-53)) by (apply bpow_le; lia). lra. }
    assert (H80 : bpow radix2 80 <= bpow radix2 100 / 1000000).
    { assert (E : bpow radix2 100 = 1048576 * bpow radix2 80) by (change 100%Z with (20 + 80)%Z; rewrite bpow_plus; reflexivity).
      assert (0 < bpow radix2 80) by apply bpow_gt_0. lra. }
    assert (H100 : bpow radix2 100 <= bpow radix2 1000) by (apply bpow_le; lia).
    assert (H40 : bpow radix2 40 <= bpow radix2 80) by (apply bpow_le; lia).
    assert (Bq : s * (1 - u) <= Binary.B2R q <= s * (1 + u)).
    { rewrite Vq. apply rnd_up. assert (bpow radix2 (-1022) <= bpow radix2 (-1000)) by (apply bpow_le; lia). lra. }
    assert (Bq' : 0.99999 * s <= Binary.B2R q <= 1.00001 * s) by (apply rel6 in Bq; lra). clear Bq.
    (* 9 a and its inverse *)
    lit_facts 9.0%dec 9%Z 0%Z F9 V9. rewrite (val_fin _ F9) in V9.
    destruct (rounds_near _ _ (mul_spec P _ a F9 Fa)) as [Fd1 Vd1]; [rewrite V9; fold A; lra|].
    rewrite V9 in Vd1. fold A in Vd1. fold u in Vd1. set (d1 := mul (f64_lit 9.0) a) in *.
    assert (Wd1 : 8.9 * A <= Binary.B2R d1 <= 9.0001 * A) by (apply rel6 in Vd1; lra). clear Vd1.
    assert (I1 : 0.1111 / A <= 1 / Binary.B2R d1 <= 0.1125 / A).
    { split.
      - apply Rmult_le_reg_r with (Binary.B2R d1); [lra|]. unfold Rdiv. rewrite (Rmult_assoc 1), Rinv_l by lra.
        apply Rmult_le_reg_r with A; [lra|]. replace (0.1111 * / A * Binary.B2R d1 * A) with (0.1111 * Binary.B2R d1) by (field; lra). lra.
      - apply Rmult_le_reg_r with (Binary.B2R d1); [lra|]. unfold Rdiv. rewrite (Rmult_assoc 1), Rinv_l by lra.
        apply Rmult_le_reg_r with A; [lra|]. replace (0.1125 * / A * Binary.B2R d1 * A) with (0.1125 * Binary.B2R d1) by (field; lra). lra. }
    assert (IA : / bpow radix2 100 <= / A <= 1 / 100).
    { split; [apply Rinv_le; lra|]. replace (1 / 100) with (/ 100) by lra. apply Rinv_le; lra. }
    assert (IL : 1000000 * bpow radix2 (-1000) <= / bpow radix2 100).
    { apply Rmult_le_reg_r with (bpow radix2 100); [apply bpow_gt_0|]. rewrite Rinv_l by (apply Rgt_not_eq, bpow_gt_0). lra. }
    destruct (rounds_near _ _ (div_spec P _ d1 fin_1 Fd1 ltac:(lra))) as [Fe1 Ve1].
    { rewrite <- (val_fin _ fin_1), val_1. pose proof (bpow_gt_0 radix2 (-1000)). unfold Rdiv in *. lra. }
    rewrite <- (val_fin _ fin_1), val_1 in Ve1. fold u in Ve1. set (e1 := div (f64_lit 1.0) d1) in *.
    assert (We1 : 0.111 / A <= Binary.B2R e1 <= 0.01).
    { apply rel6 in Ve1; unfold Rdiv in *; lra. }
    (* 3 sqrt a and the quotient *)
    lit_facts 3.0%dec 3%Z 0%Z F3 V3. rewrite (val_fin _ F3) in V3.
    destruct (rounds_near _ _ (mul_spec P _ q F3 Fq)) as [Fd3 Vd3]; [rewrite V3; lra|].
    rewrite V3 in Vd3. fold u in Vd3. set (d3 := mul (f64_lit 3.0) q) in *.
    assert (Wd3 : 2.999 * s <= Binary.B2R d3 <= 3.001 * s) by (apply rel6 in Vd3; lra). clear Vd3.
    assert (I3 : 0.0997 / s <= Y / Binary.B2R d3 <= 0.87 / s).
    { split.
      - apply Rmult_le_reg_r with (Binary.B2R d3); [lra|]. unfold Rdiv. rewrite (Rmult_assoc Y), Rinv_l by lra.
        apply Rmult_le_reg_r with s; [lra|]. replace (0.0997 * / s * Binary.B2R d3 * s) with (0.0997 * Binary.B2R d3) by (field; lra). assert (19628 / 65536 * s <= Y * s) by (apply Rmult_le_compat_r; lra). lra.
      - apply Rmult_le_reg_r with (Binary.B2R d3); [lra|]. unfold Rdiv. rewrite (Rmult_assoc Y), Rinv_l by lra.
        apply Rmult_le_reg_r with s; [lra|]. replace (0.87 * / s * Binary.B2R d3 * s) with (0.87 * Binary.B2R d3) by (field; lra). assert (Y * s <= 170000 / 65536 * s) by (apply Rmult_le_compat_r; lra). lra. }
    assert (IS : / bpow radix2 100 <= / s <= 1 / 10).
    { split; [apply Rinv_le; lra|]. replace (1 / 10) with (/ 10) by lra. apply Rinv_le; lra. }
    destruct (rounds_near _ _ (div_spec P y d3 Fy Fd3 ltac:(lra))) as [Fe3 Ve3].
    { fold Y. pose proof (bpow_gt_0 radix2 (-1000)). unfold Rdiv in *. lra. }
    fold Y in Ve3. fold u in Ve3. set (e3 := div y d3) in *.
    assert (We3 : 0.0995 / s <= Binary.B2R e3 <= 0.09).
    { apply rel6 in Ve3; unfold Rdiv in *; lra. }
    (* the base of the cube *)
    assert (E1 : 0 < / A) by (apply Rinv_0_lt_compat; lra). assert (E3 : 0 < / s) by (apply Rinv_0_lt_compat; lra).
    assert (Z1 : 0 <= Binary.B2R e1) by (unfold Rdiv in *; lra). assert (Z3 : 0 <= Binary.B2R e3) by (unfold Rdiv in *; lra).
    destruct (rounds_near _ _ (sub_spec P _ e1 fin_1 Fe1)) as [Fw1 Vw1].
    { rewrite <- (val_fin _ fin_1), val_1. lra. }
    rewrite <- (val_fin _ fin_1), val_1 in Vw1. fold u in Vw1. set (w1 := sub (f64_lit 1.0) e1) in *.
    assert (Ww1 : 0.98 <= Binary.B2R w1 <= 1 - Binary.B2R e1 + u).
    { split; [apply rel6 in Vw1; lra|apply (rel_abs (1 - Binary.B2R e1)); [lra|exact (proj2 Vw1)]]. }
    clear Vw1. assert (W10 : Binary.B2R w1 <= 1).
    { destruct (sub_spec P _ e1 fin_1 Fe1) as [N V]. fold w1 in N, V. rewrite (val_fin _ Fw1) in V. rewrite V.
      pose proof Om_big. apply rs_le_fmt; [apply (fmt_IZR 1); lia|lra|]. rewrite <- (val_fin _ fin_1), val_1. lra. }
    destruct (rounds_near _ _ (sub_spec P w1 e3 Fw1 Fe3)) as [Fw Vw]; [lra|].
    fold u in Vw. set (w := sub w1 e3) in *.
    assert (Ww : 0.88 <= Binary.B2R w <= 1 - Binary.B2R e1 - Binary.B2R e3 + 3 * u).
    { split; [apply rel6 in Vw; lra|]. apply Rle_trans with (Binary.B2R w1 - Binary.B2R e3 + u); [|lra].
      apply (rel_abs (Binary.B2R w1 - Binary.B2R e3)); [lra|exact (proj2 Vw)]. }
    clear Vw.
    assert (Aw : A * Binary.B2R w <= A - 1).
    { assert (A * Binary.B2R w <= A * (1 - 0.111 / A - 0.0995 / s + 3 * u)) by (apply Rmult_le_compat_l; lra).
      assert (EA : A * (1 - 0.111 / A - 0.0995 / s + 3 * u) = A - 0.111 - 0.0995 * s + 3 * (u * A)).
      { rewrite <- SS. field. lra. }
      assert (UA : u * A <= 0.001 * s).
      { rewrite <- SS. rewrite <- Rmult_assoc. apply Rmult_le_compat_r; [lra|].
        apply Rle_trans with (u * bpow radix2 40); [apply Rmult_le_compat_l; lra|]. unfold u. rewrite <- bpow_plus. simpl. lra. }
      lra. }
    assert (W1 : Binary.B2R w <= 1).
    { apply Rmult_le_reg_l with A; lra. }
    (* the cube *)
    assert (C2 : inb (mul w w) (3 / 4) 1).
    { eapply mulp_inb; [split; [exact Fw|split; [exact (proj1 Ww)|exact W1]]|split; [exact Fw|split; [exact (proj1 Ww)|exact W1]]|lra|lra|fq 3%Z 2%Z|fq 1%Z 0%Z|ab|ab|lra|lra]. }
    destruct C2 as [F2 V2].
    assert (C3 : inb (mul w (mul w w)) (1 / 2) (Binary.B2R w)).
    { apply (rounds_inb _ _ _ _ (mul_spec P _ _ Fw F2)); [fq 1%Z 1%Z|apply fmt_B2R|ab|ab|]. split.
      - apply Rle_trans with (0.88 * (3 / 4)); [lra|apply Rmult_le_compat; lra].
      - rewrite <- (Rmult_1_r (Binary.B2R w)) at 2. apply Rmult_le_compat_l; lra. }
    destruct C3 as [Fc Vc]. unfold powi3. change (@Arith.mul (ieee P)) with mul. 
    set (c := mul w (mul w w)) in *.
    assert (AC : A * (1 / 2) <= A * Binary.B2R c <= A * Binary.B2R w) by (split; apply Rmult_le_compat_l; lra).
    destruct (rounds_near _ _ (mul_spec P a c Fa Fc)) as [Fx Vx]; [fold A; lra|].
    destruct (mul_spec P a c Fa Fc) as [Nx Rx]. fold A in Vx, Rx. set (x := mul a c) in *.
    assert (NM : number (f64_lit 1e-3)) by exact nn_001.
    destruct (max_val P (f64_lit 1e-3) x NM Nx) as [NX VX].
    assert (V3' : val (f64_lit 1e-3) <= 1).
    { destruct (lit_spec 1e-3) as [_ E]. rewrite E. apply rs_le_fmt; [apply (fmt_IZR 1); lia|pose proof Om_big; lra|].
      unfold R_of_dec; cbn [dman dexp]; rewrite powerRZ_10; simpl; lra. }
    assert (XL : 0.201 * A <= Binary.B2R x) by (apply rel6 in Vx; lra).
    rewrite Rmax_right in VX by (rewrite (val_fin x Fx); lra).
    set (M := f64_max P (f64_lit 1e-3) x) in *.
    assert (FM : fin M).
    { apply fin_iff_val; [exact NX|]. rewrite VX. apply fin_iff_val; [exact Nx|exact Fx]. }
    rewrite (val_fin M FM) in VX. split; [exact FM|]. rewrite VX. split; [rewrite (val_fin x Fx); exact XL|].
    destruct (pred1_bounds P a Fa) as (_ & _ & V1).
    { fold A. split; [lra|]. apply Rle_trans with (bpow radix2 80); [lra|apply bpow_le; lia]. }
    rewrite V1, Rx. fold A. apply rs_le. lra.
  Qed.

  Lemma invgammp_step_nan : forall p a gln a1 lna1 afac j x, nonneg x -> 0 < val x ->
    (exists g, @gammp (ieee P) a x = Ok g /\ is_NaN g) ->
    exists y, @invgammp_body (ieee P) p a gln a1 lna1 afac j x = Ok (Next y) /\ Binary.is_nan y = true.
  Proof.
    intros p a gln a1 lna1 afac j x Hx Vx (g & E & Ng). unfold is_NaN in Ng. unfold invgammp_body. ieee_simpl.
    replace (f64_le x (f64_lit 0.0)) with false.
    2:{ symmetry. apply le_false; [apply Hx|apply nn_0|]. rewrite val_0. exact Vx. }
    ieee_simpl_in E. rewrite E. cbn [bind].
    set (u := f64_div P (f64_sub P g p) _).
    assert (Nu : Binary.is_nan u = true) by (unfold u; auto with nan).
    set (t := f64_div P u _). assert (Nt : Binary.is_nan t = true) by (unfold t; auto with nan).
    assert (Nx : Binary.is_nan (f64_sub P x t) = true) by auto with nan.
    rewrite (le_nan_l (f64_sub P x t)) by exact Nx.
    rewrite (lt_nan_l (f64_abs t)) by auto with nan.
    eexists. split; [reflexivity|exact Nx].
  Qed.

  Lemma invgammp_panics_f64 : forall p a, number p -> 0.01 <= val p <= 0.3 -> fin a ->
    100 <= Binary.B2R a <= bpow radix2 80 -> panics (@invgammp (ieee P) p a).
  Proof.
    intros p a Np Hp Fa Ba. unfold invgammp.
    change (@lt (ieee P)) with f64_lt. change (@le (ieee P)) with f64_le. change (@lit (ieee P)) with f64_lit.
    assert (Na : number a) by (apply fin_nonnan; exact Fa). pose proof (val_fin a Fa) as VA.
    assert (PA : positive a) by (split; [exact Na|lra]).
    rewrite (proj2 (pos_true a) PA).
    assert (C1 : f64_le (f64_lit 1.0) p = false) by (apply le_false; [apply fin_nonnan, fin_1|exact Np|rewrite val_1; lra]).
    assert (C2 : f64_le p (f64_lit 0.0) = false) by (apply le_false; [exact Np|apply nn_0|rewrite val_0; lra]).
    rewrite C1, C2.
    set (gln := @ln_gamma (ieee P) a). set (a1 := @Arith.sub (ieee P) a _). set (lna1 := @ln (ieee P) a1).
    destruct (start_wedge p a Np Hp Fa Ba) as (FS & BS).
    assert (G : fst (@invgammp_guess (ieee P) p a gln a1 lna1) = start p a).
    { unfold invgammp_guess. ieee_simpl.
      assert (C3 : f64_lt (f64_lit 1.0) a = true) by (apply lt_true; split; [apply fin_nonnan, fin_1|split; [exact Na|rewrite val_1; lra]]).
      assert (C4 : f64_lt p (f64_lit 0.5) = true).
      { lit_facts 0.5%dec 1%Z 1%Z F5 V5. apply lt_true. split; [exact Np|split; [apply fin_nonnan; exact F5|lra]]. }
      rewrite C3, C4. cbn [fst]. unfold start, quantile. ieee_simpl. reflexivity. }
    destruct (@invgammp_guess (ieee P) p a gln a1 lna1) as [x afac]. cbn [fst] in G. subst x.
    assert (B100 : bpow radix2 80 <= bpow radix2 100) by (apply bpow_le; lia).
    destruct (gamm_nan_f64 P LN a (start p a) Fa FS ltac:(lra) BS) as [GN _].
    destruct (pred1_bounds P a Fa ltac:(lra)) as (_ & B1 & _).
    assert (VS : 0 < val (start p a)) by (rewrite (val_fin _ FS); lra).
    assert (NS : nonneg (start p a)) by (split; [apply fin_nonnan; exact FS|lra]).
    change (range 0 12) with (0 :: 1 :: range 2 12)%Z. cbn [for_loop].
    destruct (invgammp_step_nan p a gln a1 lna1 afac 0 _ NS VS GN) as (y & E & Ny). rewrite E.
    destruct (invgammp_nan_x P p a gln a1 lna1 afac 1 y Ny) as [r E']. rewrite E'. eexists; reflexivity.
  Qed.
End Inv.

Theorem invgammp_panics : forall P p a, ln_of_negative_is_NaN (p_ln P) -> plausible_ln (p_ln P) ->
  between 0.01 0.3 p -> between 100 (bpow radix2 80) a -> panics (@invgammp (ieee P) p a).
Proof.
  intros P p a L1 L2 [Np Hp] [Na Ha].
  assert (Fa : fin a).
  { apply fin_range; [exact Na|]. assert (bpow radix2 80 < bpow radix2 200) by (apply bpow_lt; lia). lra. }
  rewrite (val_fin a Fa) in Ha. apply invgammp_panics_f64; auto.
Qed.
