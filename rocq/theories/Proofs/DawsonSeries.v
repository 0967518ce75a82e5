(** * The series branch of dawson *)

From Coq Require Import ZArith Reals Bool Lra Lia List.
From Flocq Require Import Core IEEE754.BinarySingleNaN IEEE754.Binary IEEE754.Bits.
From Verif.Model Require Import Base Arith Utils Dawson.
From Verif.Float Require Import Bits64 Ieee Exact.
From Verif.Spec Require Import F64Spec Outcome DawsonSpec.
From Verif.Proofs Require Import F64 F64Ops Lits Ext Poly DawsonTaylor.
Open Scope R_scope.

(** ** Error tracking for quantities bounded by 1, in units of u = 2^-53 *)

Notation u53 := (bpow radix2 (-53)).

Definition near (z : f64) (r k : R) : Prop := fin z /\ Rabs (Binary.B2R z - r) <= k * u53.

Lemma u53_small : 0 < u53 < / 1000000.
Proof. exact bpow_53_small. Qed.
Lemma tiny_u : bpow radix2 (-1075) <= / 1000000 * u53.
Proof.
  pose proof u53_small. apply Rle_trans with (bpow radix2 (-60 + -53)).
  - apply bpow_le. lia.
  - rewrite bpow_plus. apply Rmult_le_compat_r; [lra|]. simpl. lra.
Qed.

Lemma rounds_near : forall z r r0 k, rounds z r -> Rabs r <= 1.5 -> Rabs (r - r0) <= k * u53 ->
  near z r0 (k + 1.5001).
Proof.
  intros z r r0 k H B K. pose proof (rnd_abs_err r) as E. pose proof tiny_u. pose proof u53_small.
  assert (E' : Rabs (rnd r - r) <= 1.5001 * u53).
  { eapply Rle_trans; [exact E|].
    assert (u53 * Rabs r <= u53 * 1.5) by (apply Rmult_le_compat_l; lra). lra. }
  destruct (rounds_small _ _ H) as [F V].
  { pose proof (Rabs_triang (rnd r - r) r) as T. replace (rnd r - r + r) with (rnd r) in T by ring.
    pose proof Om_big. assert (1.5001 * u53 < 1) by lra. lra. }
  split; [exact F|]. rewrite V.
  replace (rnd r - r0) with ((rnd r - r) + (r - r0)) by ring.
  eapply Rle_trans; [apply Rabs_triang|]. lra.
Qed.

Section Series.
  Context (P : platform).

  Lemma near_mul : forall a b A B k l, near a A k -> near b B l -> Rabs A <= 1 -> Rabs B <= 1 ->
    0 <= k <= 100 -> 0 <= l <= 100 -> near (f64_mul P a b) (A * B) (k + l + 2).
  Proof.
    intros a b A B k l [Fa Ha] [Fb Hb] BA BB Hk Hl. pose proof u53_small as U.
    pose proof (mul_spec P a b Fa Fb) as M.
    set (x := Binary.B2R a) in *. set (y := Binary.B2R b) in *.
    assert (S : Rabs (x * y - A * B) <= (k + l + 0.1) * u53).
    { replace (x * y - A * B) with ((x - A) * (y - B) + ((x - A) * B + A * (y - B))) by ring.
      eapply Rle_trans; [apply Rabs_triang|].
      pose proof (Rabs_triang ((x - A) * B) (A * (y - B))) as T. rewrite !Rabs_mult in *.
      assert (Rabs (x - A) * Rabs (y - B) <= (k * u53) * (l * u53))
        by (apply Rmult_le_compat; auto using Rabs_pos).
      assert (Rabs (x - A) * Rabs B <= k * u53 * 1) by (apply Rmult_le_compat; auto using Rabs_pos).
      assert (Rabs A * Rabs (y - B) <= 1 * (l * u53)) by (apply Rmult_le_compat; auto using Rabs_pos).
      assert ((k * u53) * (l * u53) <= (100 * u53) * (100 * u53)).
      { apply Rmult_le_compat; try (apply Rmult_le_pos; lra); apply Rmult_le_compat_r; lra. }
      assert (100 * u53 * (100 * u53) <= 100 * u53 * 0.001) by (apply Rmult_le_compat_l; lra).
      lra. }
    assert (SB : (k + l + 0.1) * u53 <= 201 * u53) by (apply Rmult_le_compat_r; lra).
    pose proof (rounds_near _ _ (A * B) (k + l + 0.1) M) as G.
    destruct G as [F G]; [|exact S|].
    - assert (Rabs (A * B) <= 1 * 1) by (rewrite Rabs_mult; apply Rmult_le_compat; auto using Rabs_pos).
      pose proof (Rabs_triang (x * y - A * B) (A * B)) as T. replace (x * y - A * B + A * B) with (x * y) in T by ring.
      lra.
    - split; [exact F|]. eapply Rle_trans; [exact G|]. apply Rmult_le_compat_r; lra.
  Qed.

  Lemma near_1_sub : forall b B l, near b B l -> 0 <= B <= 1 -> 0 <= l <= 100 ->
    near (f64_sub P (f64_lit 1.0) b) (1 - B) (l + 2).
  Proof.
    intros b B l [Fb Hb] BB Hl. pose proof u53_small as U.
    pose proof (sub_spec P _ b fin_1 Fb) as M.
    replace (Binary.B2R (f64_lit 1.0)) with 1 in M by (rewrite <- (val_fin _ fin_1); symmetry; exact val_1).
    set (y := Binary.B2R b) in *.
    assert (SB : l * u53 <= 100 * u53) by (apply Rmult_le_compat_r; lra).
    pose proof (rounds_near _ _ (1 - B) l M) as G.
    apply Rabs_le_inv in Hb.
    destruct G as [F G].
    - apply Rabs_le. lra.
    - replace (1 - y - (1 - B)) with (- (y - B)) by ring. rewrite Rabs_Ropp. apply Rabs_le. lra.
    - split; [exact F|]. eapply Rle_trans; [exact G|]. apply Rmult_le_compat_r; lra.
  Qed.

  Lemma near_self : forall x : f64, fin x -> near x (Binary.B2R x) 0.
  Proof. intros x F. split; [exact F|]. rewrite Rminus_eq_0, Rabs_R0. pose proof u53_small. lra. Qed.

  Lemma near_div : forall a b A B, fin a -> fin b -> Binary.B2R a = A -> Binary.B2R b = B -> B <> 0 ->
    Rabs (A / B) <= 1 -> near (f64_div P a b) (A / B) 2.
  Proof.
    intros a b A B Fa Fb <- <- NB L.
    destruct (rounds_near _ _ (Binary.B2R a / Binary.B2R b) 0 (div_spec P a b Fa Fb NB)) as [F G].
    - lra.
    - rewrite Rminus_eq_0, Rabs_R0. lra.
    - split; [exact F|]. pose proof u53_small. lra.
  Qed.

  Lemma near_lit : forall d, Rabs (R_of_dec d) <= 1 -> near (f64_lit d) (R_of_dec d) 2.
  Proof.
    intros d B. destruct (rounds_near _ _ (R_of_dec d) 0 (lit_spec d)) as [F G].
    - lra.
    - rewrite Rminus_eq_0, Rabs_R0. lra.
    - split; [exact F|]. pose proof u53_small. lra.
  Qed.

  Lemma R_04 : R_of_dec 0.4 = 2 / 5.
  Proof. unfold R_of_dec; cbn [dman dexp]; rewrite powerRZ_10; simpl; lra. Qed.

  Definition dfactor (x : f64) : f64 :=
    f64_sub P (f64_lit 1.0)
      (f64_mul P (f64_mul P (f64_div P (f64_lit 2.0) (f64_lit 3.0)) (f64_mul P x x))
         (f64_sub P (f64_lit 1.0)
            (f64_mul P (f64_mul P (f64_lit 0.4) (f64_mul P x x))
               (f64_sub P (f64_lit 1.0)
                  (f64_mul P (f64_div P (f64_lit 2.0) (f64_lit 7.0)) (f64_mul P x x)))))).

  Lemma dawson_series_eq : forall x, @dawson_series (ieee P) x = f64_mul P x (dfactor x).
  Proof. reflexivity. Qed.

  Lemma dfactor_near : forall x, fin x -> Rabs (Binary.B2R x) <= 1 / 4 ->
    let X := Binary.B2R x in
    near (dfactor x) (1 - 2 / 3 * (X * X) * (1 - 2 / 5 * (X * X) * (1 - 2 / 7 * (X * X)))) 28.
  Proof.
    intros x Fx Bx X. fold X in Bx. pose proof (near_self x Fx) as Nx. fold X in Nx.
    assert (B1 : Rabs X <= 1) by lra.
    pose proof (near_mul _ _ _ _ _ _ Nx Nx B1 B1 ltac:(lra) ltac:(lra)) as Nq.
    set (Q := X * X) in *.
    assert (BQ : 0 <= Q <= 1 / 16).
    { unfold Q. pose proof (Rle_0_sqr X) as S0. unfold Rsqr in S0.
      assert (Rabs X * Rabs X <= 1 / 4 * (1 / 4)) by (apply Rmult_le_compat; auto using Rabs_pos).
      rewrite <- Rabs_mult, (Rabs_pos_eq (X * X)) in H by exact S0. lra. }
    assert (AQ : Rabs Q <= 1) by (rewrite Rabs_pos_eq; lra).
    lit_facts 3.0%dec 3%Z 0%Z F3 V3. lit_facts 7.0%dec 7%Z 0%Z F7 V7.
    rewrite (val_fin _ F3) in V3. rewrite (val_fin _ F7) in V7. pose proof val_2 as V2. rewrite (val_fin _ fin_2) in V2.
    assert (N1 : near (f64_div P (f64_lit 2.0) (f64_lit 3.0)) (2 / 3) 2)
      by (apply near_div; try assumption; try exact fin_2; try lra; rewrite Rabs_pos_eq; lra).
    assert (N3 : near (f64_div P (f64_lit 2.0) (f64_lit 7.0)) (2 / 7) 2)
      by (apply near_div; try assumption; try exact fin_2; try lra; rewrite Rabs_pos_eq; lra).
    assert (N2 : near (f64_lit 0.4) (2 / 5) 2).
    { rewrite <- R_04. apply near_lit. rewrite R_04, Rabs_pos_eq; lra. }
    pose proof (near_mul _ _ _ _ _ _ N3 Nq ltac:(rewrite Rabs_pos_eq; lra) AQ ltac:(lra) ltac:(lra)) as M3.
    pose proof (near_1_sub _ _ _ M3 ltac:(lra) ltac:(lra)) as S3.
    pose proof (near_mul _ _ _ _ _ _ N2 Nq ltac:(rewrite Rabs_pos_eq; lra) AQ ltac:(lra) ltac:(lra)) as M2.
    set (T3 := 1 - 2 / 7 * Q) in *. assert (B3 : 0 <= T3 <= 1) by (unfold T3; lra).
    pose proof (near_mul _ _ _ _ _ _ M2 S3 ltac:(rewrite Rabs_pos_eq; lra) ltac:(rewrite Rabs_pos_eq; lra)
      ltac:(lra) ltac:(lra)) as M2'.
    assert (B2' : 0 <= 2 / 5 * Q * T3 <= 1).
    { split; [apply Rmult_le_pos; lra|]. apply Rle_trans with (1 * 1); [|lra]. apply Rmult_le_compat; lra. }
    pose proof (near_1_sub _ _ _ M2' B2' ltac:(lra)) as S2.
    pose proof (near_mul _ _ _ _ _ _ N1 Nq ltac:(rewrite Rabs_pos_eq; lra) AQ ltac:(lra) ltac:(lra)) as M1.
    set (T2 := 1 - 2 / 5 * Q * T3) in *. assert (B2 : 0 <= T2 <= 1) by (unfold T2; lra).
    pose proof (near_mul _ _ _ _ _ _ M1 S2 ltac:(rewrite Rabs_pos_eq; lra) ltac:(rewrite Rabs_pos_eq; lra)
      ltac:(lra) ltac:(lra)) as M1'.
    assert (B1' : 0 <= 2 / 3 * Q * T2 <= 1).
    { split; [apply Rmult_le_pos; lra|]. apply Rle_trans with (1 * 1); [|lra]. apply Rmult_le_compat; lra. }
    destruct (near_1_sub _ _ _ M1' B1' ltac:(lra)) as [F S1]. split; [exact F|].
    eapply Rle_trans; [exact S1|]. apply Rmult_le_compat_r; [pose proof u53_small; lra|lra].
  Qed.

  Lemma lit_02 : fin (f64_lit 0.2) /\ 1 / 5 <= val (f64_lit 0.2) <= 1 / 4.
  Proof.
    destruct (lit_B2FF 0.2 false 7205759403792794 (-55)) as [F V]; [vm_compute; reflexivity|].
    split; [exact F|]. rewrite (val_fin _ F), V. unfold F2R. simpl. lra.
  Qed.

  Lemma dawson_small : forall x, number x -> Rabs (val x) < 1 / 5 ->
    fin x /\ @dawson (ieee P) x = Ok (f64_mul P x (dfactor x)).
  Proof.
    intros x Nx Bx. destruct lit_02 as [F2 V2]. split.
    - apply fin_iff_val; [exact Nx|]. pose proof Om_big. lra.
    - unfold dawson. ieee_simpl. rewrite (proj2 (lt_true (f64_abs x) (f64_lit 0.2))); [reflexivity|].
      rewrite nan_abs, val_abs. split; [exact Nx|]. split; [apply fin_nonnan; exact F2|lra].
  Qed.

  (** C38 *)
  Theorem dawson_accurate : forall (D : R -> R) (x : f64), dawson_integral D (1 / 5) ->
    number x -> Rabs (val x) < 1 / 5 ->
    exists r, @dawson (ieee P) x = Ok r /\ finite r
    /\ Rabs (val r - D (val x)) <= 5e-8 * Rabs (val x) + bpow radix2 (-1075).
  Proof.
    intros D x HD Nx Bx. destruct (dawson_small x Nx Bx) as [Fx E].
    pose proof (dawson_taylor D (1 / 5) (val x) HD ltac:(lra)) as T.
    rewrite (val_fin x Fx) in *. pose proof (dfactor_near x Fx ltac:(lra)) as [Fs Hs]. cbv zeta in Hs.
    pose proof (mul_spec P x _ Fx Fs) as M.
    set (X := Binary.B2R x) in *. set (s := Binary.B2R (dfactor x)) in *.
    set (S := 1 - 2 / 3 * (X * X) * (1 - 2 / 5 * (X * X) * (1 - 2 / 7 * (X * X)))) in *.
    assert (DP : dpoly X = X * S) by (unfold dpoly, S; field).
    pose proof u53_small as U. pose proof (Rabs_pos X) as PX.
    assert (Sq : 0 <= X * X <= 1 / 25).
    { pose proof (Rle_0_sqr X) as S0. unfold Rsqr in S0.
      assert (Q : Rabs X * Rabs X <= 1 / 5 * (1 / 5)) by (apply Rmult_le_compat; lra).
      rewrite <- Rabs_mult, (Rabs_pos_eq (X * X)) in Q by exact S0. lra. }
    assert (BS : 0.9 <= S <= 1).
    { unfold S. set (Q := X * X) in *.
      assert (0 <= 2 / 5 * Q * (1 - 2 / 7 * Q) <= 1) by (split; [apply Rmult_le_pos; lra|nra]).
      assert (0 <= 2 / 3 * Q * (1 - 2 / 5 * Q * (1 - 2 / 7 * Q)) <= 2 / 3 * Q * 1)
        by (split; [apply Rmult_le_pos; lra|apply Rmult_le_compat_l; lra]).
      lra. }
    apply Rabs_le_inv in Hs.
    assert (Bs : 0 <= s <= 1.01) by lra.
    assert (XS : Rabs (X * s) <= Rabs X * 1.01).
    { rewrite Rabs_mult. apply Rmult_le_compat_l; [exact PX|]. rewrite Rabs_pos_eq; lra. }
    destruct (rounds_small _ _ M) as [Fr Vr].
    { pose proof (rnd_abs_err (X * s)) as R1. pose proof (Rabs_triang (rnd (X * s) - X * s) (X * s)) as R2.
      replace (rnd (X * s) - X * s + X * s) with (rnd (X * s)) in R2 by ring.
      assert (u53 * Rabs (X * s) <= 1 * Rabs (X * s)) by (apply Rmult_le_compat_r; [apply Rabs_pos|lra]).
      pose proof tiny_u. pose proof Om_big. lra. }
    exists (f64_mul P x (dfactor x)). split; [exact E|]. split; [exact Fr|].
    rewrite (val_fin _ Fr), Vr.
    pose proof (rnd_abs_err (X * s)) as R1.
    replace (rnd (X * s) - D X) with ((rnd (X * s) - X * s) + (X * (s - S) - (D X - dpoly X))) by (rewrite DP; ring).
    eapply Rle_trans; [apply Rabs_triang|].
    assert (R2 : Rabs (X * (s - S) - (D X - dpoly X)) <= Rabs X * (28 * u53) + 16 / 945 * Rabs X ^ 9).
    { eapply Rle_trans; [apply Rabs_triang|]. rewrite Rabs_Ropp, Rabs_mult.
      apply Rplus_le_compat; [|exact T]. apply Rmult_le_compat_l; [exact PX|]. apply Rabs_le. lra. }
    assert (R3 : u53 * Rabs (X * s) <= u53 * (Rabs X * 1.01)) by (apply Rmult_le_compat_l; lra).
    assert (R4 : Rabs X ^ 9 <= Rabs X * (1 / 5) ^ 8).
    { change (Rabs X ^ 9) with (Rabs X * Rabs X ^ 8). apply Rmult_le_compat_l; [exact PX|].
      apply pow_incr. lra. }
    assert (R5 : u53 <= bpow radix2 (-40)) by (apply bpow_le; lia).
    assert (R6 : bpow radix2 (-40) <= 1e-12) by (simpl; lra).
    assert (R7 : Rabs X * (30 * u53) <= Rabs X * (30 * 1e-12)) by (apply Rmult_le_compat_l; lra).
    assert (R8 : 16 / 945 * ((1 / 5) ^ 8) <= 4.4e-8) by lra.
    assert (R9 : Rabs X * (16 / 945 * ((1 / 5) ^ 8)) <= Rabs X * 4.4e-8) by (apply Rmult_le_compat_l; lra).
    assert (R10 : u53 * (Rabs X * 1.01) <= Rabs X * (2 * u53)) by nra.
    lra.
  Qed.

  (** C39 near zero *)
  Theorem dawson_small_positive : forall x : f64, positive x -> val x < 1 / 5 ->
    exists r, @dawson (ieee P) x = Ok r /\ positive r.
  Proof.
    intros x [Nx Px] Bx. destruct (dawson_small x Nx) as [Fx E]; [rewrite Rabs_pos_eq; lra|].
    exists (f64_mul P x (dfactor x)). split; [exact E|].
    rewrite (val_fin x Fx) in *. pose proof (dfactor_near x Fx ltac:(rewrite Rabs_pos_eq; lra)) as [Fs Hs]. cbv zeta in Hs.
    pose proof (mul_spec P x _ Fx Fs) as [N V]. split; [exact N|]. rewrite V.
    set (X := Binary.B2R x) in *. set (s := Binary.B2R (dfactor x)) in *.
    set (S := 1 - 2 / 3 * (X * X) * (1 - 2 / 5 * (X * X) * (1 - 2 / 7 * (X * X)))) in *.
    assert (Sq : 0 <= X * X <= 1 / 25) by (split; nra).
    assert (BS : 0.9 <= S <= 1).
    { unfold S. set (Q := X * X) in *.
      assert (0 <= 2 / 5 * Q * (1 - 2 / 7 * Q) <= 1) by (split; [apply Rmult_le_pos; lra|nra]).
      assert (0 <= 2 / 3 * Q * (1 - 2 / 5 * Q * (1 - 2 / 7 * Q)) <= 2 / 3 * Q * 1)
        by (split; [apply Rmult_le_pos; lra|apply Rmult_le_compat_l; lra]).
      lra. }
    pose proof u53_small as U. apply Rabs_le_inv in Hs. assert (Bs : 0.8 <= s <= 1.01) by lra.
    (* X is at least the smallest subnormal number *)
    assert (XM : bpow radix2 (-1074) <= X).
    { pose proof (generic_format_ge_bpow radix2 (SpecFloat.fexp 53 1024) (-1074)) as G.
      apply G.
      - intros e. unfold SpecFloat.fexp, SpecFloat.emin. lia.
      - lra.
      - apply fmt_B2R. }
    assert (H75 : bpow radix2 (-1074) = 2 * bpow radix2 (-1075)).
    { change (-1074)%Z with (1 + -1075)%Z. rewrite bpow_plus. reflexivity. }
    pose proof (bpow_gt_0 radix2 (-1075)) as P75.
    assert (LB : 0.8 * X <= X * s) by nra.
    pose proof (rnd_abs_err (X * s)) as R1.
    assert (XS : 0 < X * s) by lra. rewrite (Rabs_pos_eq (X * s)) in R1 by lra.
    apply Rabs_le_inv in R1.
    assert (G : 0 < rnd (X * s)).
    { assert (u53 * (X * s) <= 0.1 * (X * s)) by (apply Rmult_le_compat_r; lra). lra. }
    assert (G2 : X * s <= 1) by (apply Rle_trans with (1 / 5 * 1.01); [apply Rmult_le_compat; lra|lra]).
    rewrite rs_in; [exact G|]. rewrite Rabs_pos_eq by lra.
    assert (rnd (X * s) <= 1) by (apply rnd_le_fmt; [apply (fmt_IZR 1); lia|exact G2]).
    pose proof Om_big. lra.
  Qed.
End Series.
