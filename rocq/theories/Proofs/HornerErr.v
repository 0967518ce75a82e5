(** * Rounding error of a Horner chain of literals *)

From Coq Require Import ZArith Reals Bool Lra Lia List.
From Flocq Require Import Core IEEE754.BinarySingleNaN IEEE754.Binary IEEE754.Bits.
From Verif.Model Require Import Base Arith Utils.
From Verif.Float Require Import Bits64 Ieee Exact.
From Verif.Spec Require Import F64Spec Outcome.
From Verif.Proofs Require Import F64 F64Ops Lits Ext Poly Horner PolyZ.
Import ListNotations.
Open Scope R_scope.

(** the same chain in real arithmetic *)
Definition rhor (x a : R) (cs : list dec) : R := fold_left (fun acc c => acc * x + R_of_dec c) cs a.

(** error after one step, in units of 2^-60 *)
Definition estep (tn td b e : Z) (c : dec) : Z :=
  let s := (b * tn / td + 1 + up (dec_up c))%Z in
  (e * tn / td + 1 + (s / 2 ^ 50 + 2) + (dec_up c / 2 ^ 50 + 2))%Z.

Fixpoint herr (tn td b e : Z) (cs : list dec) : option Z :=
  match cs with
  | [] => Some e
  | c :: cs' => if hok tn td b c then herr tn td (hstep tn td b c) (estep tn td b e c) cs' else None
  end.

Lemma estep_nonneg : forall tn td b e c, (0 <= tn)%Z -> (0 < td)%Z -> (0 <= b)%Z -> (0 <= e)%Z ->
  (0 <= estep tn td b e c)%Z.
Proof.
  intros tn td b e c Htn Htd Hb He. unfold estep. cbv zeta.
  assert (A1 : (0 <= e * tn / td)%Z) by (apply Z.div_pos; [apply Z.mul_nonneg_nonneg; lia|lia]).
  assert (A2 : (0 <= b * tn / td)%Z) by (apply Z.div_pos; [apply Z.mul_nonneg_nonneg; lia|lia]).
  pose proof (dec_up_nonneg c) as D. pose proof (up_nonneg _ D).
  assert (A3 : (0 <= (b * tn / td + 1 + up (dec_up c)) / 2 ^ 50)%Z) by (apply Z.div_pos; lia).
  assert (A4 : (0 <= dec_up c / 2 ^ 50)%Z) by (apply Z.div_pos; lia). lia.
Qed.

Section Err.
  Context (P : platform).

  Lemma estep_ok : forall tn td x b e c a ra, (0 <= tn)%Z -> (0 < td)%Z -> fin x ->
    Rabs (Binary.B2R x) <= IZR tn / IZR td -> (0 <= b)%Z -> (0 <= e)%Z -> fin a ->
    Rabs (Binary.B2R a) <= IZR b / IZR K60 -> Rabs (Binary.B2R a - ra) <= IZR e / IZR K60 ->
    hok tn td b c = true ->
    Rabs (Binary.B2R (madd P a x (f64_lit c)) - (ra * Binary.B2R x + R_of_dec c)) <= IZR (estep tn td b e c) / IZR K60.
  Proof.
    intros tn td x b e c a ra Htn Htd Fx Hx Hb He Fa Ba Ea O. unfold estep. cbv zeta.
    apply andb_prop in O. destruct O as [O1 O2]. apply Z.leb_le in O1, O2.
    destruct (lit_bound c O1) as (Fc & Bc & Ec).
    pose proof K60_pos as HK. assert (TD : 0 < IZR td) by (apply IZR_lt; exact Htd).
    pose proof (up_nonneg _ (dec_up_nonneg c)) as UN. pose proof (dec_up_nonneg c) as DN.
    set (s := (b * tn / td + 1 + up (dec_up c))%Z) in *.
    assert (Hs : (0 <= s)%Z).
    { unfold s. pose proof (Z.div_pos (b * tn) td ltac:(nia) Htd). lia. }
    assert (Scale : forall y z, (0 <= z)%Z -> Rabs y <= IZR z / IZR K60 -> Rabs (y * Binary.B2R x) <= IZR (z * tn / td + 1) / IZR K60).
    { intros y z Hz Hy. rewrite Rabs_mult. apply Rle_trans with ((IZR z / IZR K60) * (IZR tn / IZR td)).
      - apply Rmult_le_compat; auto using Rabs_pos.
      - pose proof (IZR_div_up (z * tn) td Htd) as D. rewrite mult_IZR in D.
        replace (IZR z / IZR K60 * (IZR tn / IZR td)) with (IZR z * IZR tn / IZR td / IZR K60) by (field; lra).
        unfold Rdiv at 1 3. apply Rmult_le_compat_r; [|exact D]. apply Rlt_le, Rinv_0_lt_compat, HK. }
    assert (HSum : Rabs (Binary.B2R a * Binary.B2R x) + Rabs (Binary.B2R (f64_lit c)) <= IZR s / IZR K60).
    { unfold s. rewrite plus_IZR, Rdiv_plus_distr. apply Rplus_le_compat; [|exact Bc]. apply Scale; assumption. }
    destruct (madd_err P a x (f64_lit c) (IZR s / IZR K60) Fa Fx Fc HSum) as [Fm Em].
    { apply div_le; [exact HK|].
      rewrite bpow2_nonneg_IZR by lia. rewrite <- mult_IZR. apply IZR_le.
      eapply Z.le_trans; [exact O2|]. vm_compute. discriminate. }
    pose proof (scale_err s Hs) as S1. pose proof (scale_err (dec_up c) DN) as S2.
    pose proof (Scale _ _ He Ea) as S3.
    set (y := Binary.B2R (madd P a x (f64_lit c))) in *.
    set (X := Binary.B2R x) in *. set (A := Binary.B2R a) in *. set (l := Binary.B2R (f64_lit c)) in *.
    replace (y - (ra * X + R_of_dec c)) with ((y - (A * X + l)) + ((A - ra) * X + (l - R_of_dec c))) by ring.
    eapply Rle_trans; [apply Rabs_triang|].
    eapply Rle_trans; [apply Rplus_le_compat_l, Rabs_triang|].
    rewrite (plus_IZR (e * tn / td + 1 + (s / 2 ^ 50 + 2))), (plus_IZR (e * tn / td + 1)).
    rewrite !Rdiv_plus_distr. change (Z.pow_pos 2 50) with (2 ^ 50)%Z. lra.
  Qed.

  Lemma herr_ok : forall tn td x, (0 <= tn)%Z -> (0 < td)%Z -> fin x ->
    Rabs (Binary.B2R x) <= IZR tn / IZR td ->
    forall cs b e e' a ra, (0 <= b)%Z -> (0 <= e)%Z -> herr tn td b e cs = Some e' -> fin a ->
    Rabs (Binary.B2R a) <= IZR b / IZR K60 -> Rabs (Binary.B2R a - ra) <= IZR e / IZR K60 ->
    let r := fold_left (fun acc c => madd P acc x (f64_lit c)) cs a in
    fin r /\ (0 <= e')%Z /\ Rabs (Binary.B2R r - rhor (Binary.B2R x) ra cs) <= IZR e' / IZR K60.
  Proof.
    intros tn td x Htn Htd Fx Hx. induction cs as [|c cs IH]; intros b e e' a ra Hb He H Fa Ba Ea.
    - cbn [herr] in H. injection H as <-. cbn [fold_left]. unfold rhor. cbn [fold_left]. auto.
    - cbn [herr] in H. destruct (hok tn td b c) eqn:O; [|discriminate].
      destruct (hstep_ok P tn td b c a x Htn Htd Hb O Fa Fx Ba Hx) as (F1 & B1 & H1).
      pose proof (estep_ok tn td x b e c a ra Htn Htd Fx Hx Hb He Fa Ba Ea O) as E1.
      cbn [fold_left]. unfold rhor. cbn [fold_left].
      apply (IH (hstep tn td b c) (estep tn td b e c)); try assumption. apply estep_nonneg; assumption.
  Qed.
End Err.

(** error of the whole chain, starting from a literal *)
Definition hor_e (tn td : Z) (c0 : dec) (cs : list dec) : option Z :=
  if (dec_up c0 <=? 2 ^ 200)%Z then herr tn td (up (dec_up c0)) (dec_up c0 / 2 ^ 50 + 2) cs else None.

Lemma hor_err : forall P tn td x c0 cs e, (0 <= tn)%Z -> (0 < td)%Z -> fin x ->
  Rabs (Binary.B2R x) <= IZR tn / IZR td -> hor_e tn td c0 cs = Some e ->
  fin (hor P x (f64_lit c0) cs) /\ (0 <= e)%Z /\
  Rabs (Binary.B2R (hor P x (f64_lit c0) cs) - rhor (Binary.B2R x) (R_of_dec c0) cs) <= IZR e / IZR K60.
Proof.
  intros P tn td x c0 cs e Htn Htd Fx Hx H. unfold hor_e in H.
  destruct (dec_up c0 <=? 2 ^ 200)%Z eqn:L; [|discriminate]. apply Z.leb_le in L.
  destruct (lit_bound c0 L) as (Fc & Bc & Ec). pose proof (dec_up_nonneg c0) as DN. pose proof (up_nonneg _ DN).
  assert (Q : (0 <= dec_up c0 / 2 ^ 50)%Z) by (apply Z.div_pos; lia).
  rewrite hor_madd. apply (herr_ok (nofma P) tn td x Htn Htd Fx Hx cs (up (dec_up c0)) (dec_up c0 / 2 ^ 50 + 2)); try assumption; try lia.
  eapply Rle_trans; [exact Ec|]. apply scale_err. exact DN.
Qed.

(** ** Decimal literals on a common denominator *)

Definition dz (s : Z) (c : dec) : Z := (dman c * 10 ^ (s + dexp c))%Z.
Definition dz_ok (s : Z) (c : dec) : bool := (0 <=? s + dexp c)%Z.

Lemma dz_eq : forall s c, (0 <= s)%Z -> dz_ok s c = true -> R_of_dec c = IZR (dz s c) / IZR (10 ^ s).
Proof.
  intros s c Hs H. apply Z.leb_le in H. unfold R_of_dec, dz. rewrite powerRZ_10, mult_IZR.
  assert (P1 : 0 < IZR (10 ^ Z.max 0 (- dexp c))) by (apply pow10_pos; lia).
  assert (P2 : 0 < IZR (10 ^ s)) by (apply pow10_pos; lia).
  apply Rmult_eq_reg_r with (IZR (10 ^ s) * IZR (10 ^ Z.max 0 (- dexp c))); [|apply Rgt_not_eq, Rmult_lt_0_compat; assumption].
  replace (IZR (dman c) * (IZR (10 ^ Z.max 0 (dexp c)) / IZR (10 ^ Z.max 0 (- dexp c))) *
    (IZR (10 ^ s) * IZR (10 ^ Z.max 0 (- dexp c)))) with (IZR (dman c) * (IZR (10 ^ Z.max 0 (dexp c)) * IZR (10 ^ s))) by (field; lra).
  replace (IZR (dman c) * IZR (10 ^ (s + dexp c)) / IZR (10 ^ s) * (IZR (10 ^ s) * IZR (10 ^ Z.max 0 (- dexp c)))) with
    (IZR (dman c) * (IZR (10 ^ (s + dexp c)) * IZR (10 ^ Z.max 0 (- dexp c)))) by (field; lra).
  f_equal. rewrite <- !mult_IZR. f_equal. rewrite <- !Z.pow_add_r by lia. f_equal. lia.
Qed.

Lemma rhor_peval : forall s x c0 cs, (0 <= s)%Z -> forallb (dz_ok s) (c0 :: cs) = true ->
  rhor x (R_of_dec c0) cs = peval (rev (map (dz s) (c0 :: cs))) x / IZR (10 ^ s).
Proof.
  intros s x c0 cs Hs H.
  assert (P2 : 0 < IZR (10 ^ s)) by (apply pow10_pos; lia).
  assert (G : forall cs a l, forallb (dz_ok s) cs = true -> a = peval l x / IZR (10 ^ s) ->
    rhor x a cs = peval (rev (map (dz s) cs) ++ l) x / IZR (10 ^ s)).
  { clear c0 cs H. induction cs as [|c cs IH]; intros a l H E; [exact E|].
    cbn [forallb] in H. apply andb_prop in H. destruct H as [H1 H2].
    unfold rhor. cbn [fold_left map rev]. fold (rhor x (a * x + R_of_dec c) cs).
    rewrite <- app_assoc. cbn [app]. apply IH; [exact H2|].
    rewrite peval_cons, (dz_eq s c Hs H1), E. field. lra. }
  cbn [forallb] in H. apply andb_prop in H. destruct H as [H1 H2].
  cbn [map rev]. apply G; [exact H2|]. rewrite peval_cons, (dz_eq s c0 Hs H1). change (peval [] x) with 0. field. lra.
Qed.

(** ** On [-1, 1], without division: the error is at most 2^-51 times a
    weighted sum of the coefficients *)

Fixpoint hweight (A W : Z) (zs : list Z) : Z :=
  match zs with
  | [] => W
  | c :: zs' => hweight (A + Z.abs c) (W + A + 2 * Z.abs c) zs'
  end.

Lemma hweight_ge : forall zs A W, (0 <= A)%Z -> (W <= hweight A W zs)%Z.
Proof.
  induction zs as [|c zs IH]; intros A W HA; cbn [hweight]; [lia|].
  specialize (IH (A + Z.abs c)%Z (W + A + 2 * Z.abs c)%Z ltac:(lia)). lia.
Qed.

Section Weight.
  Context (P : platform) (s : Z) (Hs : (0 <= s)%Z).
  Notation D := (IZR (10 ^ s)).

  Lemma lit_near : forall c, Rabs (R_of_dec c) <= 2 ^ 30 ->
    fin (f64_lit c) /\ Rabs (Binary.B2R (f64_lit c) - R_of_dec c) <= bpow radix2 (-51) * Rabs (R_of_dec c) + bpow radix2 (-70).
  Proof.
    intros c Hc. pose proof (lit_spec c) as R. pose proof (rnd_abs_err (R_of_dec c)) as E.
    pose proof tiny_1075 as Ht. pose proof (bpow_gt_0 radix2 (-1075)) as H0. pose proof bpow_53_small as Hu.
    pose proof bpow_53_51 as H51. pose proof (Rabs_pos (R_of_dec c)) as Pc. pose proof Om_big as OB.
    assert (T70 : bpow radix2 (-70) <= 1) by (change 1 with (bpow radix2 0); apply bpow_le; lia).
    assert (BO : 2 ^ 31 < Om). { replace (2 ^ 31) with (bpow radix2 31) by (simpl; lra). apply bpow_lt. lia. }
    assert (U : bpow radix2 (-53) * Rabs (R_of_dec c) <= / 1000000 * Rabs (R_of_dec c)) by (apply Rmult_le_compat_r; lra).
    destruct (rounds_small _ _ R) as [Ff Vf].
    { replace (rnd (R_of_dec c)) with (R_of_dec c + (rnd (R_of_dec c) - R_of_dec c)) by ring.
      eapply Rle_lt_trans; [apply Rabs_triang|]. lra. }
    split; [exact Ff|]. rewrite Vf, H51.
    assert (0 <= bpow radix2 (-53) * Rabs (R_of_dec c)) by (apply Rmult_le_pos; lra). lra.
  Qed.

  Lemma hweight_ok : forall x, fin x -> Rabs (Binary.B2R x) <= 1 ->
    forall cs A W (n : nat) a ra, forallb (dz_ok s) cs = true -> (0 <= A)%Z -> (0 <= W)%Z ->
    IZR (hweight A W (map (dz s) cs)) / D <= 2 ^ 25 -> (n + length cs <= 100)%nat ->
    fin a -> Rabs ra <= IZR A / D -> (A <= W)%Z ->
    Rabs (Binary.B2R a - ra) <= bpow radix2 (-51) * (IZR W / D) + INR n * bpow radix2 (-68) ->
    let r := fold_left (fun acc c => madd P acc x (f64_lit c)) cs a in
    fin r /\ Rabs (Binary.B2R r - rhor (Binary.B2R x) ra cs)
      <= bpow radix2 (-51) * (IZR (hweight A W (map (dz s) cs)) / D) + INR (n + length cs) * bpow radix2 (-68).
  Proof.
    intros x Fx Hx. assert (DP : 0 < D) by (apply pow10_pos; lia).
    induction cs as [|c cs IH]; intros A W n a ra Hd HA HW Hb Hn Fa Hra HAW Ea.
    - cbn [fold_left length map hweight]. unfold rhor. cbn [fold_left]. rewrite Nat.add_0_r. auto.
    - cbn [forallb] in Hd. apply andb_prop in Hd. destruct Hd as [Hd1 Hd2].
      cbn [map hweight] in Hb |- *. cbn [fold_left length] in *. unfold rhor. cbn [fold_left].
      set (A' := (A + Z.abs (dz s c))%Z) in *. set (W' := (W + A + 2 * Z.abs (dz s c))%Z) in *.
      assert (Rc : Rabs (R_of_dec c) = IZR (Z.abs (dz s c)) / D).
      { rewrite (dz_eq s c Hs Hd1). unfold Rdiv. rewrite Rabs_mult, <- abs_IZR, (Rabs_pos_eq (/ D)); [reflexivity|].
        apply Rlt_le, Rinv_0_lt_compat, DP. }
      assert (I : 0 < / D) by (apply Rinv_0_lt_compat, DP).
      assert (Mono : forall u v, (u <= v)%Z -> IZR u / D <= IZR v / D).
      { intros u v H. unfold Rdiv. apply Rmult_le_compat_r; [lra|apply IZR_le; exact H]. }
      assert (WB : IZR W' / D <= 2 ^ 25).
      { eapply Rle_trans; [|exact Hb]. apply Mono. apply hweight_ge. unfold A'. lia. }
      assert (W'e : IZR W' / D = IZR W / D + IZR A / D + 2 * Rabs (R_of_dec c)).
      { unfold W'. rewrite !plus_IZR, mult_IZR, Rc. field. lra. }
      assert (A0 : 0 <= IZR A / D) by (replace 0 with (IZR 0 / D) by (unfold Rdiv; ring); apply Mono; exact HA).
      assert (W0 : 0 <= IZR W / D) by (replace 0 with (IZR 0 / D) by (unfold Rdiv; ring); apply Mono; exact HW).
      pose proof (Rabs_pos (R_of_dec c)) as Pc.
      assert (B30 : Rabs (R_of_dec c) <= 2 ^ 30) by lra.
      destruct (lit_near c B30) as [Fc Ec].
      set (u := bpow radix2 (-51)) in *.
      assert (Hu : 0 < u) by apply bpow_gt_0.
      assert (H70 : bpow radix2 (-68) = 4 * bpow radix2 (-70)) by (change 4 with (bpow radix2 2); rewrite <- bpow_plus; reflexivity).
      set (v := bpow radix2 (-70)) in *. assert (Hv : 0 < v) by apply bpow_gt_0. rewrite H70 in *.
      assert (Uv : u * / 2 ^ 18 <= 2 * v).
      { apply Req_le. unfold u, v. replace (/ 2 ^ 18) with (bpow radix2 (-18)) by (simpl; lra).
        rewrite <- bpow_plus. change 2 with (bpow radix2 1). rewrite <- bpow_plus. reflexivity. }
      assert (V1 : v <= / 2 ^ 60).
      { unfold v. replace (/ 2 ^ 60) with (bpow radix2 (-60)) by (simpl; lra). apply bpow_le. lia. }
      assert (U1 : u <= / 2 ^ 50).
      { unfold u. replace (/ 2 ^ 50) with (bpow radix2 (-50)) by (simpl; lra). apply bpow_le. lia. }
      assert (Nn : 0 <= INR n <= 100).
      { split; [apply pos_INR|]. replace 100 with (INR 100) by (simpl; lra). apply le_INR. lia. }
      assert (E1 : u * (IZR W / D) + INR n * (4 * v) <= / 2 ^ 20).
      { assert (u * (IZR W / D) <= / 2 ^ 50 * 2 ^ 25) by (apply Rmult_le_compat; lra).
        assert (INR n * (4 * v) <= 100 * (4 * / 2 ^ 60)) by (apply Rmult_le_compat; lra). lra. }
      set (X := Binary.B2R x) in *. set (a' := Binary.B2R a) in *. set (l := Binary.B2R (f64_lit c)) in *.
      assert (Ea' : Rabs ((a' - ra) * X) <= u * (IZR W / D) + INR n * (4 * v)).
      { rewrite Rabs_mult, <- (Rmult_1_r (_ + _)). apply Rmult_le_compat; auto using Rabs_pos. }
      assert (Ra' : Rabs (ra * X) <= IZR A / D).
      { rewrite Rabs_mult, <- (Rmult_1_r (IZR A / D)). apply Rmult_le_compat; auto using Rabs_pos. }
      assert (HS : Rabs (a' * X) + Rabs l <= IZR A / D + Rabs (R_of_dec c) + / 2 ^ 18).
      { assert (Rabs (a' * X) <= IZR A / D + / 2 ^ 20).
        { replace (a' * X) with (ra * X + (a' - ra) * X) by ring. eapply Rle_trans; [apply Rabs_triang|]. lra. }
        assert (Rabs l <= Rabs (R_of_dec c) + / 2 ^ 19).
        { replace l with (R_of_dec c + (l - R_of_dec c)) by ring. eapply Rle_trans; [apply Rabs_triang|].
          assert (u * Rabs (R_of_dec c) <= / 2 ^ 50 * 2 ^ 25) by (apply Rmult_le_compat; lra). lra. }
        lra. }
      destruct (madd_err P a x (f64_lit c) _ Fa Fx Fc HS) as [Fm Em].
      { apply Rle_trans with (2 ^ 30); [lra|]. replace (2 ^ 30) with (bpow radix2 30) by (simpl; lra). apply bpow_le. lia. }
      fold u v X a' l in Em.
      assert (HA' : (0 <= A')%Z) by (unfold A'; lia). assert (HW' : (0 <= W')%Z) by (unfold W'; lia).
      assert (Hra' : Rabs (ra * X + R_of_dec c) <= IZR A' / D).
      { eapply Rle_trans; [apply Rabs_triang|]. unfold A'. rewrite plus_IZR, Rdiv_plus_distr, <- Rc. lra. }
      assert (Step : Rabs (Binary.B2R (madd P a x (f64_lit c)) - (ra * X + R_of_dec c))
                <= u * (IZR W' / D) + INR (S n) * (4 * v)).
      { replace (Binary.B2R (madd P a x (f64_lit c)) - (ra * X + R_of_dec c)) with
          ((Binary.B2R (madd P a x (f64_lit c)) - (a' * X + l)) + ((a' - ra) * X + (l - R_of_dec c))) by ring.
        eapply Rle_trans; [apply Rabs_triang|]. eapply Rle_trans; [apply Rplus_le_compat_l, Rabs_triang|].
        rewrite W'e, S_INR.
        replace (u * (IZR A / D + Rabs (R_of_dec c) + / 2 ^ 18)) with
          (u * (IZR A / D) + u * Rabs (R_of_dec c) + u * / 2 ^ 18) in Em by ring.
        replace (u * (IZR W / D + IZR A / D + 2 * Rabs (R_of_dec c)) + (INR n + 1) * (4 * v)) with
          (u * (IZR W / D) + u * (IZR A / D) + 2 * (u * Rabs (R_of_dec c)) + INR n * (4 * v) + 4 * v) by ring.
        lra. }
      replace (n + S (length cs))%nat with (S n + length cs)%nat by lia.
      apply (IH A' W' (S n) (madd P a x (f64_lit c)) (ra * X + R_of_dec c)); try assumption.
      + lia.
      + unfold A', W'. lia.
  Qed.
End Weight.

Definition hor_w (s : Z) (c0 : dec) (cs : list dec) : Z :=
  hweight (Z.abs (dz s c0)) (Z.abs (dz s c0)) (map (dz s) cs).

Lemma hor_werr : forall P s x c0 cs, (0 <= s)%Z -> fin x -> Rabs (Binary.B2R x) <= 1 ->
  forallb (dz_ok s) (c0 :: cs) = true -> (hor_w s c0 cs <= 2 ^ 25 * 10 ^ s)%Z -> (length cs < 100)%nat ->
  fin (hor P x (f64_lit c0) cs) /\
  Rabs (Binary.B2R (hor P x (f64_lit c0) cs) - rhor (Binary.B2R x) (R_of_dec c0) cs)
    <= bpow radix2 (-51) * (IZR (hor_w s c0 cs) / IZR (10 ^ s)) + bpow radix2 (-61).
Proof.
  intros P s x c0 cs Hs Fx Hx Hd Hb Hl.
  assert (DP : 0 < IZR (10 ^ s)) by (apply pow10_pos; lia).
  pose proof Hd as Hd'. cbn [forallb] in Hd'. apply andb_prop in Hd'. destruct Hd' as [Hd1 Hd2].
  assert (Rc : Rabs (R_of_dec c0) = IZR (Z.abs (dz s c0)) / IZR (10 ^ s)).
  { rewrite (dz_eq s c0 Hs Hd1). unfold Rdiv. rewrite Rabs_mult, <- abs_IZR, (Rabs_pos_eq (/ _)); [reflexivity|].
    apply Rlt_le, Rinv_0_lt_compat, DP. }
  assert (Hb' : IZR (hor_w s c0 cs) / IZR (10 ^ s) <= 2 ^ 25).
  { apply div_le; [exact DP|]. apply IZR_le in Hb. rewrite mult_IZR in Hb.
    replace (2 ^ 25) with (IZR (2 ^ 25)) by (change (2 ^ 25)%Z with 33554432%Z; simpl; lra). exact Hb. }
  assert (B30 : Rabs (R_of_dec c0) <= 2 ^ 30).
  { rewrite Rc. apply Rle_trans with (2 ^ 25); [|lra]. eapply Rle_trans; [|exact Hb'].
    unfold Rdiv. apply Rmult_le_compat_r; [apply Rlt_le, Rinv_0_lt_compat, DP|]. apply IZR_le. unfold hor_w. apply hweight_ge. lia. }
  destruct (lit_near c0 B30) as [Fc Ec]. rewrite hor_madd.
  assert (T : bpow radix2 (-68) = 4 * bpow radix2 (-70)) by (change 4 with (bpow radix2 2); rewrite <- bpow_plus; reflexivity).
  assert (T2 : bpow radix2 (-61) = 128 * bpow radix2 (-68)) by (change 128 with (bpow radix2 7); rewrite <- bpow_plus; reflexivity).
  pose proof (bpow_gt_0 radix2 (-70)) as T0.
  destruct (hweight_ok (nofma P) s Hs x Fx Hx cs (Z.abs (dz s c0)) (Z.abs (dz s c0)) 1 (f64_lit c0) (R_of_dec c0)) as [F1 E1];
    try assumption; try lia.
  - rewrite Rc. lra.
  - rewrite <- Rc. simpl (INR 1). lra.
  - split; [exact F1|]. eapply Rle_trans; [exact E1|]. unfold hor_w. apply Rplus_le_compat_l.
    rewrite T2. apply Rmult_le_compat_r; [lra|]. replace 128 with (INR 128) by (simpl; lra). apply le_INR. lia.
Qed.
