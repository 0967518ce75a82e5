(** * Bounds for Horner evaluation in f64

    [polynomial x cs] of src/utils.rs, with or without fused multiply-add,
    bounded by integer computation on a fixed-point scale of 2^-60. *)

From Coq Require Import ZArith Reals Bool Lra Lia Psatz List.
From Flocq Require Import Core IEEE754.BinarySingleNaN IEEE754.Binary IEEE754.Bits.
From Verif.Model Require Import Base Arith Utils.
From Verif.Float Require Import Bits64 Ieee Exact.
From Verif.Spec Require Import F64Spec Outcome.
From Verif.Proofs Require Import F64 F64Ops Lits Ext.
Import ListNotations.
Open Scope R_scope.

Definition K60 : Z := (2 ^ 60)%Z.

Lemma K60_pos : 0 < IZR K60.
Proof. apply IZR_lt. reflexivity. Qed.

Lemma le_div : forall a b k, 0 < k -> a * k <= b -> a <= b / k.
Proof.
  intros a b k Hk H. apply Rmult_le_reg_r with k; [exact Hk|].
  replace (b / k * k) with b by (field; lra). exact H.
Qed.

Lemma div_le : forall a b k, 0 < k -> a <= b * k -> a / k <= b.
Proof.
  intros a b k Hk H. apply Rmult_le_reg_r with k; [exact Hk|].
  replace (a / k * k) with a by (field; lra). exact H.
Qed.

(** [IZR (b / d)] from above *)
Lemma IZR_div_up : forall a d, (0 < d)%Z -> IZR a / IZR d <= IZR (a / d + 1).
Proof.
  intros a d H. assert (D : 0 < IZR d) by (apply IZR_lt; exact H).
  apply Rmult_le_reg_r with (IZR d); [exact D|]. unfold Rdiv.
  rewrite Rmult_assoc, Rinv_l, Rmult_1_r by lra. rewrite <- mult_IZR. apply IZR_le.
  pose proof (Z.div_mod a d ltac:(lia)). pose proof (Z.mod_pos_bound a d H). nia.
Qed.

Lemma IZR_div_down : forall a d, (0 < d)%Z -> IZR (a / d) <= IZR a / IZR d.
Proof.
  intros a d H. assert (D : 0 < IZR d) by (apply IZR_lt; exact H).
  apply Rmult_le_reg_r with (IZR d); [exact D|]. unfold Rdiv.
  rewrite Rmult_assoc, Rinv_l, Rmult_1_r by lra. rewrite <- mult_IZR. apply IZR_le.
  pose proof (Z.div_mod a d ltac:(lia)). pose proof (Z.mod_pos_bound a d H). nia.
Qed.

(** an upper bound of [|c|] times 2^60 *)
Definition dec_up (c : dec) : Z :=
  (Z.abs (dman c) * 2 ^ 60 * 10 ^ Z.max 0 (dexp c) / 10 ^ Z.max 0 (- dexp c) + 1)%Z.

Lemma dec_up_ok : forall c, Rabs (R_of_dec c) <= IZR (dec_up c) / IZR K60.
Proof.
  intros [m e]. unfold dec_up, R_of_dec. cbn [dman dexp]. rewrite powerRZ_10.
  pose proof K60_pos as HK.
  assert (D : (0 < 10 ^ Z.max 0 (- e))%Z) by (apply Z.pow_pos_nonneg; lia).
  assert (N : 0 <= IZR (10 ^ Z.max 0 e)) by (apply IZR_le, Z.pow_nonneg; lia).
  assert (DR : 0 < IZR (10 ^ Z.max 0 (- e))) by (apply IZR_lt; exact D).
  rewrite Rabs_mult, <- abs_IZR.
  rewrite (Rabs_pos_eq (_ / _)) by (apply Rmult_le_pos; [exact N|apply Rlt_le, Rinv_0_lt_compat, DR]).
  pose proof (IZR_div_up (Z.abs m * 2 ^ 60 * 10 ^ Z.max 0 e) _ D) as H.
  apply le_div; [exact HK|].
  eapply Rle_trans; [|exact H]. rewrite !mult_IZR. apply Req_le. unfold K60. field. lra.
Qed.

(** rounding enlarges a bound by at most this much *)
Definition up (s : Z) : Z := (s + s / 2 ^ 50 + 2)%Z.

Lemma up_ok : forall s x y, (0 <= s)%Z -> Rabs x <= IZR s / IZR K60 ->
  Rabs (y - x) <= bpow radix2 (-51) * (IZR s / IZR K60) + bpow radix2 (-70) ->
  Rabs y <= IZR (up s) / IZR K60.
Proof.
  intros s x y Hs Hx Hy. pose proof K60_pos as HK. unfold up.
  assert (Y : Rabs y <= Rabs x + Rabs (y - x)).
  { replace y with (x + (y - x)) at 1 by ring. apply Rabs_triang. }
  assert (D : IZR s / IZR (2 ^ 50) <= IZR (s / 2 ^ 50 + 1)) by (apply IZR_div_up; reflexivity).
  assert (S0 : 0 <= IZR s) by (apply IZR_le; exact Hs).
  replace (s + s / 2 ^ 50 + 2)%Z with (s + (s / 2 ^ 50 + 1) + 1)%Z by ring.
  rewrite 2!plus_IZR. unfold Rdiv in *. rewrite !Rmult_plus_distr_r.
  assert (T : bpow radix2 (-70) <= 1 * / IZR K60).
  { rewrite Rmult_1_l. change (/ IZR K60) with (/ IZR (2 ^ 60)).
    rewrite <- bpow2_nonneg_IZR, <- bpow_opp by lia. apply bpow_le. lia. }
  assert (I : 0 < / IZR K60) by (apply Rinv_0_lt_compat; exact HK).
  assert (U : bpow radix2 (-51) * (IZR s * / IZR K60) <= IZR (s / 2 ^ 50 + 1) * / IZR K60).
  { apply Rle_trans with (IZR s * / IZR (2 ^ 50) * / IZR K60).
    - rewrite <- bpow2_nonneg_IZR, <- bpow_opp by lia.
      replace (IZR s * bpow radix2 (- (50)) * / IZR K60) with
        (bpow radix2 (-50) * (IZR s * / IZR K60)) by (change (- (50))%Z with (-50)%Z; ring).
      apply Rmult_le_compat_r; [apply Rmult_le_pos; lra|]. apply bpow_le. lia.
    - apply Rmult_le_compat_r; [lra|exact D]. }
  lra.
Qed.

Lemma tiny_1075 : 4 * bpow radix2 (-1075) <= bpow radix2 (-70).
Proof.
  change 4 with (bpow radix2 2). rewrite <- bpow_plus. apply bpow_le. lia.
Qed.

Section Poly.
  Context (P : platform).

  Definition madd (a x c : f64) : f64 := @mul_add (ieee P) a x c.

  Lemma bpow_53_51 : bpow radix2 (-51) = 4 * bpow radix2 (-53).
  Proof. change 4 with (bpow radix2 2). rewrite <- bpow_plus. reflexivity. Qed.

  Lemma bpow_53_small : 0 < bpow radix2 (-53) < / 1000000.
  Proof.
    split; [apply bpow_gt_0|]. rewrite bpow2_inv_IZR by lia.
    apply Rinv_lt_contravar; [|apply IZR_lt; reflexivity].
    apply Rmult_lt_0_compat; apply IZR_lt; reflexivity.
  Qed.

  (** one step of Horner's rule *)
  Lemma madd_err : forall a x c S, fin a -> fin x -> fin c ->
    Rabs (Binary.B2R a * Binary.B2R x) + Rabs (Binary.B2R c) <= S -> S <= bpow radix2 1000 ->
    fin (madd a x c) /\
    Rabs (Binary.B2R (madd a x c) - (Binary.B2R a * Binary.B2R x + Binary.B2R c))
      <= bpow radix2 (-51) * S + bpow radix2 (-70).
  Proof.
    intros a x c S Fa Fx Fc HS HB.
    set (p := Binary.B2R a * Binary.B2R x) in *. set (q := Binary.B2R c) in *.
    pose proof (Rabs_pos p) as Pp. pose proof (Rabs_pos q) as Pq.
    pose proof bpow_53_small as Hu. pose proof tiny_1075 as Ht. pose proof (bpow_gt_0 radix2 (-1075)) as H0.
    assert (Big : bpow radix2 1000 * 8 <= bpow radix2 1023).
    { change 8 with (bpow radix2 3). rewrite <- bpow_plus. apply bpow_le. lia. }
    assert (Big1 : 1 <= bpow radix2 1000).
    { change 1 with (bpow radix2 0). apply bpow_le. lia. }
    assert (BO : bpow radix2 1023 < Om) by (apply bpow_lt; lia).
    assert (T70 : bpow radix2 (-70) <= 1).
    { change 1 with (bpow radix2 0). apply bpow_le. lia. }
    rewrite bpow_53_51. unfold madd, mul_add. ieee_simpl.
    destruct (p_fma P).
    - pose proof (fma_spec P a x c Fa Fx Fc) as R. fold p q in R.
      pose proof (rnd_abs_err (p + q)) as E. pose proof (Rabs_triang p q) as T.
      assert (U : bpow radix2 (-53) * Rabs (p + q) <= bpow radix2 (-53) * S).
      { apply Rmult_le_compat_l; lra. }
      assert (U2 : bpow radix2 (-53) * S <= / 1000000 * S) by (apply Rmult_le_compat_r; lra).
      destruct (rounds_small _ _ R) as [Ff Vf].
      + replace (rnd (p + q)) with ((p + q) + (rnd (p + q) - (p + q))) by ring.
        eapply Rle_lt_trans; [apply Rabs_triang|]. lra.
      + split; [exact Ff|]. rewrite Vf.
        assert (0 <= bpow radix2 (-53) * S) by (apply Rmult_le_pos; lra). lra.
    - pose proof (mul_spec P a x Fa Fx) as R1. fold p in R1.
      pose proof (rnd_abs_err p) as E1.
      assert (U : bpow radix2 (-53) * Rabs p <= / 1000000 * Rabs p) by (apply Rmult_le_compat_r; lra).
      assert (A1 : Rabs (rnd p) <= Rabs p + bpow radix2 (-53) * Rabs p + bpow radix2 (-1075)).
      { replace (rnd p) with (p + (rnd p - p)) by ring.
        eapply Rle_trans; [apply Rabs_triang|]. lra. }
      destruct (rounds_small _ _ R1) as [F1 V1]; [lra|].
      pose proof (add_spec P (f64_mul P a x) c F1 Fc) as R2. rewrite V1 in R2. fold q in R2.
      pose proof (rnd_abs_err (rnd p + q)) as E2. pose proof (Rabs_triang (rnd p) q) as T.
      set (m := Rabs (rnd p + q)) in *.
      assert (M : m <= 2 * S + bpow radix2 (-1075)) by lra.
      assert (U2 : bpow radix2 (-53) * m <= bpow radix2 (-53) * (2 * S) + bpow radix2 (-1075)).
      { apply Rle_trans with (bpow radix2 (-53) * (2 * S + bpow radix2 (-1075))).
        - apply Rmult_le_compat_l; lra.
        - rewrite Rmult_plus_distr_l.
          assert (bpow radix2 (-53) * bpow radix2 (-1075) <= 1 * bpow radix2 (-1075))
            by (apply Rmult_le_compat_r; lra). lra. }
      assert (U3 : bpow radix2 (-53) * S <= / 1000000 * S) by (apply Rmult_le_compat_r; lra).
      destruct (rounds_small _ _ R2) as [Ff Vf].
      + replace (rnd (rnd p + q)) with ((rnd p + q) + (rnd (rnd p + q) - (rnd p + q))) by ring.
        eapply Rle_lt_trans; [apply Rabs_triang|]. fold m. lra.
      + split; [exact Ff|]. rewrite Vf.
        replace (rnd (rnd p + q) - (p + q)) with
          ((rnd (rnd p + q) - (rnd p + q)) + (rnd p - p)) by ring.
        eapply Rle_trans; [apply Rabs_triang|].
        assert (bpow radix2 (-53) * Rabs p <= bpow radix2 (-53) * S).
        { apply Rmult_le_compat_l; lra. }
        assert (0 <= bpow radix2 (-53) * S) by (apply Rmult_le_pos; lra).
        lra.
  Qed.

  (** a literal coefficient *)
  Lemma lit_bound : forall c, (dec_up c <= 2 ^ 200)%Z ->
    fin (f64_lit c) /\ Rabs (Binary.B2R (f64_lit c)) <= IZR (up (dec_up c)) / IZR K60 /\
    Rabs (Binary.B2R (f64_lit c) - R_of_dec c)
      <= bpow radix2 (-51) * (IZR (dec_up c) / IZR K60) + bpow radix2 (-70).
  Proof.
    intros c Hc. pose proof (lit_spec c) as R. pose proof (dec_up_ok c) as D.
    pose proof (rnd_abs_err (R_of_dec c)) as E. pose proof bpow_53_small as Hu.
    pose proof tiny_1075 as Ht. pose proof (bpow_gt_0 radix2 (-1075)) as H0.
    pose proof K60_pos as HK. pose proof (Rabs_pos (R_of_dec c)) as Pc.
    assert (S0 : (0 <= dec_up c)%Z).
    { unfold dec_up. assert (0 <= Z.abs (dman c) * 2 ^ 60 * 10 ^ Z.max 0 (dexp c))%Z.
      { apply Z.mul_nonneg_nonneg; [apply Z.mul_nonneg_nonneg; lia|apply Z.pow_nonneg; lia]. }
      assert (0 < 10 ^ Z.max 0 (- dexp c))%Z by (apply Z.pow_pos_nonneg; lia).
      pose proof (Z.div_pos _ _ H H1). lia. }
    set (S := IZR (dec_up c) / IZR K60) in *.
    assert (U : bpow radix2 (-53) * Rabs (R_of_dec c) <= bpow radix2 (-53) * S)
      by (apply Rmult_le_compat_l; lra).
    assert (S1 : 0 <= S) by lra.
    assert (U2 : bpow radix2 (-53) * S <= / 1000000 * S) by (apply Rmult_le_compat_r; lra).
    assert (U3 : 0 <= bpow radix2 (-53) * S) by (apply Rmult_le_pos; lra).
    assert (SB : S <= bpow radix2 1000).
    { unfold S. apply div_le; [exact HK|].
      rewrite bpow2_nonneg_IZR by lia. rewrite <- mult_IZR. apply IZR_le.
      eapply Z.le_trans; [exact Hc|]. vm_compute. discriminate. }
    assert (Big : bpow radix2 1000 * 8 <= bpow radix2 1023).
    { change 8 with (bpow radix2 3). rewrite <- bpow_plus. apply bpow_le. lia. }
    assert (BO : bpow radix2 1023 < Om) by (apply bpow_lt; lia).
    assert (T70 : bpow radix2 (-70) <= 1).
    { change 1 with (bpow radix2 0). apply bpow_le. lia. }
    assert (Big1 : 1 <= bpow radix2 1000).
    { change 1 with (bpow radix2 0). apply bpow_le. lia. }
    destruct (rounds_small _ _ R) as [Ff Vf].
    - replace (rnd (R_of_dec c)) with (R_of_dec c + (rnd (R_of_dec c) - R_of_dec c)) by ring.
      eapply Rle_lt_trans; [apply Rabs_triang|]. lra.
    - assert (Er : Rabs (Binary.B2R (f64_lit c) - R_of_dec c)
                   <= bpow radix2 (-51) * S + bpow radix2 (-70)).
      { rewrite Vf, bpow_53_51. lra. }
      split; [exact Ff|]. split; [|exact Er].
      apply (up_ok _ (R_of_dec c)); assumption.
  Qed.

  (** bound on the accumulator, for [|x| <= tn / td] *)
  Definition hstep (tn td b : Z) (c : dec) : Z := up (b * tn / td + 1 + up (dec_up c)).

  Definition hok (tn td b : Z) (c : dec) : bool :=
    (dec_up c <=? 2 ^ 200)%Z && (b * tn / td + 1 + up (dec_up c) <=? 2 ^ 200)%Z.

  Fixpoint hbound (tn td b : Z) (cs : list dec) : option Z :=
    match cs with
    | [] => Some b
    | c :: cs' => if hok tn td b c then hbound tn td (hstep tn td b c) cs' else None
    end.

  Lemma dec_up_nonneg : forall c, (0 <= dec_up c)%Z.
  Proof.
    intros c. unfold dec_up.
    assert (H : (0 <= Z.abs (dman c) * 2 ^ 60 * 10 ^ Z.max 0 (dexp c))%Z).
    { apply Z.mul_nonneg_nonneg; [apply Z.mul_nonneg_nonneg; lia|apply Z.pow_nonneg; lia]. }
    assert (H1 : (0 < 10 ^ Z.max 0 (- dexp c))%Z) by (apply Z.pow_pos_nonneg; lia).
    pose proof (Z.div_pos _ _ H H1). lia.
  Qed.

  Lemma up_nonneg : forall s, (0 <= s)%Z -> (s <= up s)%Z.
  Proof. intros s H. unfold up. pose proof (Z.div_pos s (2 ^ 50) H ltac:(lia)). lia. Qed.

  (** the real value of one step, against its bound *)
  Lemma hstep_ok : forall tn td b c a x, (0 <= tn)%Z -> (0 < td)%Z -> (0 <= b)%Z ->
    hok tn td b c = true -> fin a -> fin x ->
    Rabs (Binary.B2R a) <= IZR b / IZR K60 -> Rabs (Binary.B2R x) <= IZR tn / IZR td ->
    fin (madd a x (f64_lit c)) /\ (0 <= hstep tn td b c)%Z /\
    Rabs (Binary.B2R (madd a x (f64_lit c))) <= IZR (hstep tn td b c) / IZR K60.
  Proof.
    intros tn td b c a x Htn Htd Hb Hok Fa Fx Ha Hx.
    apply andb_prop in Hok. destruct Hok as [O1 O2]. apply Z.leb_le in O1, O2.
    destruct (lit_bound c O1) as (Fc & Bc & _).
    pose proof K60_pos as HK. assert (TD : 0 < IZR td) by (apply IZR_lt; exact Htd).
    pose proof (up_nonneg _ (dec_up_nonneg c)) as UN. pose proof (dec_up_nonneg c) as DN.
    set (s := (b * tn / td + 1 + up (dec_up c))%Z) in *.
    assert (Hs : (0 <= s)%Z).
    { unfold s. pose proof (Z.div_pos (b * tn) td ltac:(nia) Htd). lia. }
    assert (HSum : Rabs (Binary.B2R a * Binary.B2R x) + Rabs (Binary.B2R (f64_lit c))
                   <= IZR s / IZR K60).
    { unfold s. rewrite plus_IZR, Rdiv_plus_distr. apply Rplus_le_compat; [|exact Bc].
      rewrite Rabs_mult.
      apply Rle_trans with ((IZR b / IZR K60) * (IZR tn / IZR td)).
      - apply Rmult_le_compat; auto using Rabs_pos.
      - pose proof (IZR_div_up (b * tn) td Htd) as D. rewrite mult_IZR in D.
        replace (IZR b / IZR K60 * (IZR tn / IZR td)) with (IZR b * IZR tn / IZR td / IZR K60)
          by (field; lra).
        unfold Rdiv at 1 3. apply Rmult_le_compat_r; [|exact D].
        apply Rlt_le, Rinv_0_lt_compat, HK. }
    destruct (madd_err a x (f64_lit c) (IZR s / IZR K60) Fa Fx Fc HSum) as [Fm Em].
    { apply div_le; [exact HK|].
      rewrite bpow2_nonneg_IZR by lia. rewrite <- mult_IZR. apply IZR_le.
      eapply Z.le_trans; [exact O2|]. vm_compute. discriminate. }
    split; [exact Fm|]. split.
    - unfold hstep. fold s. pose proof (up_nonneg s Hs). lia.
    - unfold hstep. fold s.
      apply (up_ok s (Binary.B2R a * Binary.B2R x + Binary.B2R (f64_lit c))); auto.
      eapply Rle_trans; [apply Rabs_triang|]. exact HSum.
  Qed.

  Lemma horner_bound : forall tn td x, (0 <= tn)%Z -> (0 < td)%Z -> fin x ->
    Rabs (Binary.B2R x) <= IZR tn / IZR td ->
    forall cs b b' a, (0 <= b)%Z -> hbound tn td b cs = Some b' -> fin a ->
    Rabs (Binary.B2R a) <= IZR b / IZR K60 ->
    let r := fold_left (fun acc c => madd acc x (f64_lit c)) cs a in
    fin r /\ (0 <= b')%Z /\ Rabs (Binary.B2R r) <= IZR b' / IZR K60.
  Proof.
    intros tn td x Htn Htd Fx Hx. induction cs as [|c cs IH]; intros b b' a Hb H Fa Ha.
    - cbn [hbound] in H. injection H as <-. cbn [fold_left]. auto.
    - cbn [hbound] in H. destruct (hok tn td b c) eqn:O; [|discriminate].
      destruct (hstep_ok tn td b c a x Htn Htd Hb O Fa Fx Ha Hx) as (F1 & B1 & H1).
      cbn [fold_left]. apply (IH (hstep tn td b c)); assumption.
  Qed.

  Lemma polynomial_unfold : forall x cs,
    @polynomial (ieee P) x cs = fold_left (fun acc c => madd acc x (f64_lit c)) cs (f64_lit 0.0).
  Proof. reflexivity. Qed.

  Lemma polynomial_bound : forall tn td x cs b, (0 <= tn)%Z -> (0 < td)%Z -> fin x ->
    Rabs (Binary.B2R x) <= IZR tn / IZR td -> hbound tn td 0 cs = Some b ->
    fin (@polynomial (ieee P) x cs) /\
    Rabs (Binary.B2R (@polynomial (ieee P) x cs)) <= IZR b / IZR K60.
  Proof.
    intros tn td x cs b Htn Htd Fx Hx H. rewrite polynomial_unfold.
    destruct (horner_bound tn td x Htn Htd Fx Hx cs 0 b (f64_lit 0.0)) as (F1 & _ & B1); auto.
    - lia.
    - change (f64_lit 0.0) with f64_zero. change (Binary.B2R f64_zero) with 0. rewrite Rabs_R0.
      unfold Rdiv. rewrite Rmult_0_l. lra.
  Qed.

  (** near its last coefficient: [polynomial x (cs ++ [c])] differs from [c]
      by at most the integer bound [polydev], on the scale of 2^-60 *)
  Definition polydev (tn td : Z) (cs : list dec) (c : dec) : option Z :=
    match hbound tn td 0 cs with
    | Some b =>
        if hok tn td b c then
          let s := (b * tn / td + 1 + up (dec_up c))%Z in
          Some (b * tn / td + 1 + (s / 2 ^ 50 + 2) + (dec_up c / 2 ^ 50 + 2))%Z
        else None
    | None => None
    end.

  Lemma scale_err : forall s, (0 <= s)%Z ->
    bpow radix2 (-51) * (IZR s / IZR K60) + bpow radix2 (-70) <= IZR (s / 2 ^ 50 + 2) / IZR K60.
  Proof.
    intros s Hs. pose proof K60_pos as HK.
    assert (D : IZR s / IZR (2 ^ 50) <= IZR (s / 2 ^ 50 + 1)) by (apply IZR_div_up; reflexivity).
    assert (S0 : 0 <= IZR s) by (apply IZR_le; exact Hs).
    replace (s / 2 ^ 50 + 2)%Z with (s / 2 ^ 50 + 1 + 1)%Z by ring.
    rewrite plus_IZR, Rdiv_plus_distr.
    assert (T : bpow radix2 (-70) <= 1 / IZR K60).
    { unfold Rdiv. rewrite Rmult_1_l. change (/ IZR K60) with (/ IZR (2 ^ 60)).
      rewrite <- bpow2_nonneg_IZR, <- bpow_opp by lia. apply bpow_le. lia. }
    assert (I : 0 < / IZR K60) by (apply Rinv_0_lt_compat; exact HK).
    assert (U : bpow radix2 (-51) * (IZR s / IZR K60) <= IZR (s / 2 ^ 50 + 1) / IZR K60).
    { unfold Rdiv in *. apply Rle_trans with (IZR s * / IZR (2 ^ 50) * / IZR K60).
      - rewrite <- bpow2_nonneg_IZR, <- bpow_opp by lia.
        replace (IZR s * bpow radix2 (- (50)) * / IZR K60) with
          (bpow radix2 (-50) * (IZR s * / IZR K60)) by (change (- (50))%Z with (-50)%Z; ring).
        apply Rmult_le_compat_r; [apply Rmult_le_pos; lra|]. apply bpow_le. lia.
      - apply Rmult_le_compat_r; [lra|exact D]. }
    lra.
  Qed.

  (** the last step: [a * x + c] differs from [c] by at most this much *)
  Definition lastdev (tn td b : Z) (c : dec) : Z :=
    let s := (b * tn / td + 1 + up (dec_up c))%Z in
    (b * tn / td + 1 + (s / 2 ^ 50 + 2) + (dec_up c / 2 ^ 50 + 2))%Z.

  Lemma last_near : forall tn td x b c a, (0 <= tn)%Z -> (0 < td)%Z -> fin x ->
    Rabs (Binary.B2R x) <= IZR tn / IZR td -> (0 <= b)%Z -> fin a ->
    Rabs (Binary.B2R a) <= IZR b / IZR K60 -> hok tn td b c = true ->
    fin (madd a x (f64_lit c)) /\
    Rabs (Binary.B2R (madd a x (f64_lit c)) - R_of_dec c) <= IZR (lastdev tn td b c) / IZR K60.
  Proof.
    intros tn td x b c a Htn Htd Fx Hx Hb0 Fa Ba O. unfold lastdev. cbv zeta.
    apply andb_prop in O. destruct O as [O1 O2]. apply Z.leb_le in O1, O2.
    destruct (lit_bound c O1) as (Fc & Bc & Ec).
    pose proof K60_pos as HK. assert (TD : 0 < IZR td) by (apply IZR_lt; exact Htd).
    pose proof (up_nonneg _ (dec_up_nonneg c)) as UN. pose proof (dec_up_nonneg c) as DN.
    set (s := (b * tn / td + 1 + up (dec_up c))%Z) in *.
    assert (Hs : (0 <= s)%Z).
    { unfold s. pose proof (Z.div_pos (b * tn) td ltac:(nia) Htd). lia. }
    assert (HP : Rabs (Binary.B2R a * Binary.B2R x) <= IZR (b * tn / td + 1) / IZR K60).
    { rewrite Rabs_mult. apply Rle_trans with ((IZR b / IZR K60) * (IZR tn / IZR td)).
      - apply Rmult_le_compat; auto using Rabs_pos.
      - pose proof (IZR_div_up (b * tn) td Htd) as D. rewrite mult_IZR in D.
        replace (IZR b / IZR K60 * (IZR tn / IZR td)) with (IZR b * IZR tn / IZR td / IZR K60)
          by (field; lra).
        unfold Rdiv at 1 3. apply Rmult_le_compat_r; [|exact D].
        apply Rlt_le, Rinv_0_lt_compat, HK. }
    assert (HSum : Rabs (Binary.B2R a * Binary.B2R x) + Rabs (Binary.B2R (f64_lit c))
                   <= IZR s / IZR K60).
    { unfold s. rewrite plus_IZR, Rdiv_plus_distr. apply Rplus_le_compat; [exact HP|exact Bc]. }
    destruct (madd_err a x (f64_lit c) (IZR s / IZR K60) Fa Fx Fc HSum) as [Fm Em].
    { apply div_le; [exact HK|].
      rewrite bpow2_nonneg_IZR by lia. rewrite <- mult_IZR. apply IZR_le.
      eapply Z.le_trans; [exact O2|]. vm_compute. discriminate. }
    split; [exact Fm|].
    pose proof (scale_err s Hs) as S1. pose proof (scale_err (dec_up c) DN) as S2.
    set (y := Binary.B2R (madd a x (f64_lit c))) in *.
    set (p := Binary.B2R a * Binary.B2R x) in *. set (l := Binary.B2R (f64_lit c)) in *.
    replace (y - R_of_dec c) with ((y - (p + l)) + (p + (l - R_of_dec c))) by ring.
    eapply Rle_trans; [apply Rabs_triang|].
    eapply Rle_trans; [apply Rplus_le_compat_l, Rabs_triang|].
    rewrite (plus_IZR (b * tn / td + 1 + (s / 2 ^ 50 + 2))), (plus_IZR (b * tn / td + 1)).
    rewrite !Rdiv_plus_distr. change (Z.pow_pos 2 50) with (2 ^ 50)%Z. lra.
  Qed.

  Lemma polynomial_near_last : forall tn td x cs c d, (0 <= tn)%Z -> (0 < td)%Z -> fin x ->
    Rabs (Binary.B2R x) <= IZR tn / IZR td -> polydev tn td cs c = Some d ->
    fin (@polynomial (ieee P) x (cs ++ [c])) /\
    Rabs (Binary.B2R (@polynomial (ieee P) x (cs ++ [c])) - R_of_dec c) <= IZR d / IZR K60.
  Proof.
    intros tn td x cs c d Htn Htd Fx Hx H. unfold polydev in H.
    destruct (hbound tn td 0 cs) as [b|] eqn:Hb; [|discriminate].
    destruct (hok tn td b c) eqn:O; [|discriminate]. injection H as <-.
    rewrite polynomial_unfold, fold_left_app. cbn [fold_left].
    destruct (horner_bound tn td x Htn Htd Fx Hx cs 0 b (f64_lit 0.0)) as (Fa & Hb0 & Ba); auto.
    { lia. }
    { change (f64_lit 0.0) with f64_zero. change (Binary.B2R f64_zero) with 0. rewrite Rabs_R0.
      unfold Rdiv. rewrite Rmult_0_l. lra. }
    apply (last_near tn td x b c); assumption.
  Qed.

  Lemma polynomial_near : forall tn td x cs c n q, (0 <= tn)%Z -> (0 < td)%Z -> (0 < q)%Z -> fin x ->
    Rabs (Binary.B2R x) <= IZR tn / IZR td ->
    match polydev tn td cs c with Some d => (d * q <=? n * K60)%Z | None => false end = true ->
    fin (@polynomial (ieee P) x (cs ++ [c])) /\
    Rabs (Binary.B2R (@polynomial (ieee P) x (cs ++ [c])) - R_of_dec c) <= IZR n / IZR q.
  Proof.
    intros tn td x cs c n q Htn Htd Hq Fx Hx H.
    destruct (polydev tn td cs c) as [d|] eqn:E; [|discriminate]. apply Z.leb_le in H.
    destruct (polynomial_near_last tn td x cs c d Htn Htd Fx Hx E) as [F1 B1].
    split; [exact F1|]. eapply Rle_trans; [exact B1|].
    assert (Q : 0 < IZR q) by (apply IZR_lt; exact Hq). pose proof K60_pos as HK.
    apply div_le; [exact HK|]. replace (IZR n / IZR q * IZR K60) with (IZR n * IZR K60 / IZR q) by (field; lra).
    apply le_div; [exact Q|]. rewrite <- !mult_IZR. apply IZR_le. exact H.
  Qed.
End Poly.
