(** * Signs and bounds of sums, products, quotients, infinities included *)

From Coq Require Import ZArith Reals Bool Lra Lia.
From Flocq Require Import Core IEEE754.BinarySingleNaN IEEE754.Binary IEEE754.Bits.
From Verif.Model Require Import Base Arith.
From Verif.Float Require Import Bits64 Ieee Exact.
From Verif.Spec Require Import F64Spec Outcome.
From Verif.Proofs Require Import F64 F64Ops Lits.
Open Scope R_scope.

Lemma fin_or_inf : forall x : f64, number x -> fin x \/ exists s, x = B754_infinity s.
Proof. intros [s|s|s pl H|s m e H] N; try (left; reflexivity); [right; eauto|discriminate]. Qed.

Lemma fin_of_bound : forall (x : f64) b, number x -> Rabs (val x) <= b -> b < Om -> fin x.
Proof. intros x b N H1 H2. apply fin_iff_val; [exact N|lra]. Qed.

Lemma val_inf_f : val (B754_infinity false) = Om. Proof. reflexivity. Qed.
Lemma val_inf_t : val (B754_infinity true) = - Om. Proof. reflexivity. Qed.

Lemma Om_big : 2 ^ 60 < Om.
Proof.
  unfold Om. change (bpow radix2 1024) with (IZR (2 ^ 1024)). rewrite pow_IZR.
  apply IZR_lt. reflexivity.
Qed.

Lemma inf_nonneg : forall s, 0 <= val (B754_infinity s : f64) -> s = false.
Proof. intros [|] H; auto. rewrite val_inf_t in H. pose proof Om_pos. lra. Qed.

Section Ext.
  Context (P : platform).
  Notation add := (f64_add P). Notation sub := (f64_sub P).
  Notation mul := (f64_mul P). Notation div := (f64_div P).

  Ltac fi x N s := destruct (fin_or_inf x N) as [?|[s ->]].

  Lemma add_fin_inf : forall x s, fin x -> add x (B754_infinity s) = B754_infinity s.
  Proof. intros [s0|s0|s0 pl B|s0 m e B] s H; try discriminate; reflexivity. Qed.
  Lemma add_inf_fin : forall x s, fin x -> add (B754_infinity s) x = B754_infinity s.
  Proof. intros [s0|s0|s0 pl B|s0 m e B] s H; try discriminate; reflexivity. Qed.

  Lemma add_nonneg : forall x y, nonneg x -> nonneg y ->
    nonneg (add x y) /\ val x <= val (add x y) /\ val y <= val (add x y).
  Proof.
    intros x y [Nx Vx] [Ny Vy].
    destruct (fin_or_inf x Nx) as [Fx|[s ->]]; destruct (fin_or_inf y Ny) as [Fy|[s' ->]].
    - destruct (add_spec P x y Fx Fy) as [N V]. rewrite <- !val_fin in V by assumption.
      assert (A : val x <= val (add x y)).
      { rewrite V. apply rs_ge; [apply val_fmt|apply val_bound|lra]. }
      assert (B : val y <= val (add x y)).
      { rewrite V. apply rs_ge; [apply val_fmt|apply val_bound|lra]. }
      repeat split; auto; lra.
    - apply inf_nonneg in Vy. subst. pose proof (val_bound x). rewrite add_fin_inf by exact Fx.
      rewrite val_inf_f. pose proof Om_pos. repeat split; try reflexivity; rewrite ?val_inf_f; lra.
    - apply inf_nonneg in Vx. subst. pose proof (val_bound y). rewrite add_inf_fin by exact Fy.
      rewrite val_inf_f. pose proof Om_pos. repeat split; try reflexivity; rewrite ?val_inf_f; lra.
    - apply inf_nonneg in Vy. apply inf_nonneg in Vx. subst. change (add (B754_infinity false) (B754_infinity false)) with (B754_infinity false : f64). rewrite val_inf_f. pose proof Om_pos.
      repeat split; try reflexivity; rewrite ?val_inf_f; lra.
  Qed.

  Lemma inf_fin_mul : forall s (y : f64), fin y -> val y <> 0 ->
    mul (B754_infinity s) y = B754_infinity (xorb s (Binary.Bsign y)).
  Proof.
    intros s [s'| | |s' m e H] F V; try discriminate; [exfalso; apply V; reflexivity|reflexivity].
  Qed.

  Lemma val_sign : forall x : f64, nonnan x ->
    if Binary.Bsign x then val x <= 0 else 0 <= val x.
  Proof.
    intros x N. destruct (fin_or_inf x N) as [Fx|[s ->]].
    - rewrite val_fin by exact Fx. apply Bsign_B2R. exact Fx.
    - pose proof Om_pos. destruct s; cbn; lra.
  Qed.

  Lemma sign_pos : forall x : f64, nonnan x -> 0 < val x -> Binary.Bsign x = false.
  Proof. intros x N V. pose proof (val_sign x N). destruct Binary.Bsign; auto. lra. Qed.
  Lemma sign_neg : forall x : f64, nonnan x -> val x < 0 -> Binary.Bsign x = true.
  Proof. intros x N V. pose proof (val_sign x N). destruct Binary.Bsign; auto. lra. Qed.

  Lemma mul_pos : forall x y, positive x -> positive y -> nonneg (mul x y).
  Proof.
    intros x y [Nx Vx] [Ny Vy].
    pose proof (sign_pos x Nx Vx) as Sx. pose proof (sign_pos y Ny Vy) as Sy.
    assert (N : nonnan (mul x y)).
    { destruct (fin_or_inf x Nx) as [Fx|[s ->]]; destruct (fin_or_inf y Ny) as [Fy|[s' ->]].
      - apply (mul_spec P x y Fx Fy).
      - rewrite (eqn_nan _ _ (mul_comm P x (B754_infinity s'))).
        rewrite inf_fin_mul; [reflexivity|exact Fx|lra].
      - rewrite inf_fin_mul; [reflexivity|exact Fy|lra].
      - reflexivity. }
    split; [exact N|]. pose proof (val_sign _ N) as H.
    rewrite (mul_sign P x y N), Sx, Sy in H. exact H.
  Qed.

  Lemma mul_zero_l : forall x y, nonnan (mul x y) -> val x = 0 -> val (mul x y) = 0.
  Proof.
    intros x y N Z. destruct x as [s|s|s pl H|s m e H].
    - destruct y; try discriminate; reflexivity.
    - exfalso. pose proof Om_pos. destruct s; cbn in Z; lra.
    - rewrite (mul_nan_l P (B754_nan s pl H) y) in N by reflexivity. discriminate.
    - exfalso. cbn in Z. apply eq_0_F2R in Z. destruct s; discriminate.
  Qed.

  Lemma mul_zero_r : forall x y, nonnan (mul x y) -> val y = 0 -> val (mul x y) = 0.
  Proof.
    intros x y N Z. pose proof (mul_comm P x y) as E. pose proof (eqn_nonnan _ _ E N) as E'.
    rewrite E' in *. apply mul_zero_l; assumption.
  Qed.

  Lemma mul_nonneg : forall x y, nonneg x -> nonneg y -> is_NaN (mul x y) \/ nonneg (mul x y).
  Proof.
    intros x y [Nx Vx] [Ny Vy]. destruct (Binary.is_nan (mul x y)) eqn:N; [left; exact N|right].
    destruct Vx as [Vx|Vx].
    - destruct Vy as [Vy|Vy]; [apply mul_pos; split; assumption|].
      split; [exact N|]. rewrite mul_zero_r; auto; lra.
    - split; [exact N|]. rewrite mul_zero_l; auto; lra.
  Qed.

  Lemma fin_mul_nonneg : forall x y, nonneg x -> nonneg y -> fin x -> fin y -> nonneg (mul x y).
  Proof.
    intros x y Hx Hy Fx Fy. destruct (mul_nonneg x y Hx Hy) as [N|H]; auto.
    destruct (mul_spec P x y Fx Fy) as [N' _]. unfold is_NaN in N. congruence.
  Qed.

  (** the quotient of two nonnegative numbers *)
  Lemma div_nonneg : forall x y, nonneg x -> positive y -> is_NaN (div x y) \/ nonneg (div x y).
  Proof.
    intros x y [Nx Vx] [Ny Vy]. destruct (Binary.is_nan (div x y)) eqn:N; [left; exact N|right].
    split; [exact N|]. pose proof (val_sign _ N) as H.
    rewrite (div_sign P x y N Nx Ny), (sign_pos y Ny Vy), xorb_false_r in H.
    destruct Vx as [Vx|Vx].
    - rewrite (sign_pos x Nx Vx) in H. exact H.
    - destruct x as [s|s|s pl B|s m e B].
      + destruct y as [s'|s'| |s' m e B]; try discriminate; cbn;
          try apply Rle_refl.
      + exfalso. pose proof Om_pos. destruct s; cbn in Vx; lra.
      + discriminate.
      + exfalso. cbn in Vx. symmetry in Vx. apply eq_0_F2R in Vx. destruct s; discriminate.
  Qed.

  Lemma div_fin_nonneg : forall x y, nonneg x -> fin x -> positive y -> nonneg (div x y).
  Proof.
    intros x y Hx Fx Hy. destruct (div_nonneg x y Hx Hy) as [N|H]; auto. exfalso.
    destruct Hy as [Ny Vy]. destruct (fin_or_inf y Ny) as [Fy|[s ->]].
    - destruct (div_spec P x y Fx Fy) as [N' _].
      + rewrite val_fin in Vy by exact Fy. lra.
      + unfold is_NaN in N. congruence.
    - destruct x; try discriminate.
  Qed.

  (** subtracting a nonnegative number *)
  Lemma sub_le : forall x y, nonneg y -> nonnan (sub x y) -> val (sub x y) <= val x.
  Proof.
    intros x y [Ny Vy] N. destruct (Binary.is_nan x) eqn:Nx.
    { rewrite (sub_nan_l P x y Nx) in N. discriminate. }
    destruct (fin_or_inf x Nx) as [Fx|[s ->]]; destruct (fin_or_inf y Ny) as [Fy|[s' ->]].
    - destruct (sub_spec P x y Fx Fy) as [_ V]. rewrite <- !val_fin in V by assumption.
      rewrite V. apply rs_le_fmt; [apply val_fmt|apply val_bound|lra].
    - apply inf_nonneg in Vy. subst. pose proof (val_bound x) as [B _].
      destruct x; try discriminate; exact B.
    - destruct y; try discriminate; apply Rle_refl.
    - apply inf_nonneg in Vy. subst. destruct s; [|discriminate]. apply Rle_refl.
  Qed.

  Lemma sub_fin_num : forall x y, fin x -> number y -> number (sub x y).
  Proof.
    intros x y Fx Ny. destruct (fin_or_inf y Ny) as [Fy|[s ->]].
    - apply (sub_spec P x y Fx Fy).
    - destruct x; try discriminate; reflexivity.
  Qed.

  Lemma sub_num_fin : forall x y, number x -> fin y -> number (sub x y).
  Proof.
    intros x y Nx Fy. destruct (fin_or_inf x Nx) as [Fx|[s ->]].
    - apply (sub_spec P x y Fx Fy).
    - destruct y; try discriminate; reflexivity.
  Qed.

  Lemma add_num_fin : forall x y, number x -> fin y -> number (add x y).
  Proof.
    intros x y Nx Fy. destruct (fin_or_inf x Nx) as [Fx|[s ->]].
    - apply (add_spec P x y Fx Fy).
    - destruct y; try discriminate; reflexivity.
  Qed.

  (** monotone in the first argument, finite second *)
  Lemma sub_mono_l : forall x x' y, fin y -> number x -> number x' -> val x <= val x' ->
    val (sub x y) <= val (sub x' y).
  Proof.
    intros x x' y Fy Nx Nx' L.
    destruct (fin_or_inf x Nx) as [Fx|[s ->]].
    - destruct (fin_or_inf x' Nx') as [Fx'|[s' ->]].
      + destruct (sub_spec P x y Fx Fy) as [_ V]. destruct (sub_spec P x' y Fx' Fy) as [_ V'].
        rewrite V, V'. apply rs_le. rewrite <- !val_fin by assumption. lra.
      + destruct s'.
        * exfalso. rewrite val_inf_t in L. pose proof (fin_abs_val x Fx).
          pose proof (Rle_abs (- val x)). rewrite Rabs_Ropp in *. lra.
        * replace (sub (B754_infinity false) y) with (B754_infinity false : f64)
            by (destruct y; try discriminate; reflexivity).
          apply val_bound.
    - destruct s.
      + replace (sub (B754_infinity true) y) with (B754_infinity true : f64)
          by (destruct y; try discriminate; reflexivity).
        apply val_bound.
      + rewrite val_inf_f in L.
        assert (E : val x' = Om) by (apply Rle_antisym; [apply val_bound|exact L]).
        apply val_inf_pos in E; [|exact Nx']. subst. apply Rle_refl.
  Qed.

  (** swapping a subtraction negates it *)
  Lemma sub_swap : forall x y, nonnan (sub x y) -> val (sub x y) <> 0 ->
    sub y x = f64_neg (sub x y).
  Proof.
    intros x y N Z.
    destruct (Binary.is_nan x) eqn:Nx. { rewrite (sub_nan_l P x y Nx) in N. discriminate. }
    destruct (Binary.is_nan y) eqn:Ny. { rewrite (sub_nan_r P x y Ny) in N. discriminate. }
    destruct (fin_or_inf x Nx) as [Fx|[s ->]]; destruct (fin_or_inf y Ny) as [Fy|[s' ->]].
    - destruct (sub_spec P x y Fx Fy) as [_ V]. destruct (sub_spec P y x Fy Fx) as [N' V'].
      assert (E : val (sub y x) = - val (sub x y)).
      { rewrite V, V', <- rs_opp. f_equal. ring. }
      apply f64_ext_nz.
      + exact N'.
      + rewrite nan_neg. exact N.
      + rewrite val_neg. exact E.
      + lra.
    - destruct x; try discriminate; destruct s'; reflexivity.
    - destruct y; try discriminate; destruct s; reflexivity.
    - destruct s, s'; try discriminate; reflexivity.
  Qed.
End Ext.
