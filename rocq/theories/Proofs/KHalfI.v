(** * besselik at half-integer orders so large that the downward recurrence of I overflows *)

From Coq Require Import ZArith Reals Bool Lra Lia List String.
From Flocq Require Import Core IEEE754.BinarySingleNaN IEEE754.Binary IEEE754.Bits.
From Verif.Model Require Import Base Arith BesselTables Bessel.
From Verif.Float Require Import Bits64 Ieee Exact Platforms.
From Verif.Spec Require Import F64Spec Outcome LibmSpec KHalfSpec.
From Verif.Proofs Require Import F64 F64Ops Lits Ext ExpBounds FlErr GammaAcc GserAcc GcfLoop PosHorner KnAcc KPoly KLarge DawsonNeg DawsonLarge ErfcxAcc NuPanic KHalfRec KHalf KHalfThms KHalfOver.
Import ListNotations.
Open Scope R_scope.
Local Notation B := Binary.B2R.
Local Notation u := (/ 2 ^ 53).

Lemma for_break_ix : forall {S} (body : Z -> S -> S * bool) (inv : nat -> S -> Prop) (N : Z) l k s,
  (forall j i s, (Z.of_nat j < N)%Z -> inv j s -> inv (Datatypes.S j) (fst (body i s))) ->
  (Z.of_nat k + Z.of_nat (List.length l) <= N)%Z -> inv k s -> exists m, inv m (fst (for_break l body s)).
Proof.
  intros S body inv N l. induction l as [|i l IH]; intros k s H K I; [exists k; exact I|]. cbn [List.length] in K.
  cbn [for_break]. pose proof (H k i s ltac:(lia) I) as H'. destruct (body i s) as [s' []]; cbn [fst] in *; [eexists; exact H'|].
  apply (IH (Datatypes.S k)); [exact H|lia|exact H'].
Qed.

Section I.
  Context (P : platform).
  Local Notation add := (f64_add P). Local Notation mul := (f64_mul P). Local Notation sub := (f64_sub P). Local Notation div := (f64_div P).
  Local Notation nf := (fun z : f64 => Binary.is_finite z = false).

  Lemma nan_nf : forall z : f64, Binary.is_nan z = true -> nf z.
  Proof. intros [| | |] H; try discriminate; reflexivity. Qed.
  Lemma nf_cases : forall z : f64, nf z -> Binary.is_nan z = true \/ exists s, z = B754_infinity s.
  Proof. intros [| | |] H; try discriminate; [right; eexists; reflexivity|left; reflexivity]. Qed.
  Lemma mul_nf : forall a z, nf z -> nf (mul a z).
  Proof.
    intros a z H. destruct (nf_cases z H) as [N|[s ->]]; [apply nan_nf, mul_nan_r, N|].
    destruct a as [s'|s'|s' pl E|s' m e E]; try reflexivity; apply nan_nf, mul_nan_l; reflexivity.
  Qed.
  Lemma add_nf : forall a z, nf a -> nf z -> nf (add a z).
  Proof.
    intros a z Ha H. destruct (nf_cases z H) as [N|[s ->]]; [apply nan_nf, add_nan_r, N|].
    destruct (nf_cases a Ha) as [N|[s' ->]]; [apply nan_nf, add_nan_l, N|]. destruct s, s'; reflexivity.
  Qed.
  Lemma div_nf : forall a z, nf a -> nf z -> Binary.is_nan (div a z) = true.
  Proof.
    intros a z Ha H. destruct (nf_cases z H) as [N|[s ->]]; [apply div_nan_r, N|].
    destruct (nf_cases a Ha) as [N|[s' ->]]; [apply div_nan_l, N|]. destruct s, s'; reflexivity.
  Qed.

  Lemma mul_nonneg_fin : forall h d, nonneg h -> fin d -> 0 < val d -> nonneg (mul h d).
  Proof.
    intros h d [Nh Vh] Fd Vd. destruct (fin_or_inf h Nh) as [Fh|[s ->]].
    - destruct (mul_spec P h d Fh Fd) as [N V]. split; [exact N|]. rewrite V. apply rs_pos. rewrite <- !val_fin by assumption. apply Rmult_le_pos; lra.
    - apply inf_nonneg in Vh. subst s. rewrite inf_fin_mul by (try assumption; lra). rewrite (sign_pos d (fin_nonnan _ Fd) Vd). cbn [xorb].
      split; [reflexivity|]. rewrite val_inf_f. pose proof Om_pos. lra.
  Qed.

  (** the first continued fraction yields no negative number *)
  Lemma cf1_nonneg : forall nu xi xi2 h, fin nu -> 4000 <= val nu <= 2 ^ 33 -> fin xi -> 144 / 100000 <= val xi <= 51 / 100 ->
    fin xi2 -> 289 / 100000 <= val xi2 <= 11 / 10 -> @ik_cf1 (ieee P) nu xi xi2 = Ok h -> nonneg h.
  Proof.
    intros nu xi xi2 h Fu Vu Fxi Vxi Fx2 Vx2 E. unfold ik_cf1 in E.
    assert (LL : (Z.of_nat (List.length (range 0 MAXIT)) <= 10000)%Z) by (unfold range; rewrite count_len; unfold MAXIT; lia).
    set (l := range 0 MAXIT) in *. clearbody l. ieee_simpl_in E.
    assert (B5 : bpow radix2 (-1022) <= / 2 ^ 60) by (apply Rle_trans with (bpow radix2 (-60)); [apply bpow_le; lia|simpl; lra]).
    assert (B6 : 2 ^ 200 <= bpow radix2 1000) by (apply Rle_trans with (bpow radix2 200); [simpl; lra|apply bpow_le; lia]).
    pose proof (mul_spec P nu xi Fu Fxi) as R1. rewrite <- !val_fin in R1 by assumption.
    assert (L1 : 5 <= val nu * val xi <= 2 ^ 33). { split; [apply Rle_trans with (4000 * (144 / 100000)); [lra|apply Rmult_le_compat; lra]|apply Rle_trans with (2 ^ 33 * 1); [apply Rmult_le_compat; lra|lra]]. }
    destruct (fpos _ _ R1) as [F1 V1]; [lra|].
    destruct (fpmin_facts P) as [Fp Vp].
    assert (Vp1 : bpow radix2 (-970) <= 1) by (apply (bpow_le radix2 (-970) 0); lia).
    replace (f64_lt (mul nu xi) (@FPMIN (ieee P))) with false in E
      by (symmetry; apply lt_false; [apply fin_nonnan, F1|apply fin_nonnan, Fp|rewrite Vp, val_fin by exact F1; lra]).
    set (h0 := mul nu xi) in *. clearbody h0.
    pose proof (mul_spec P xi2 nu Fx2 Fu) as R2. rewrite <- !val_fin in R2 by assumption.
    assert (L2 : 11 <= val xi2 * val nu <= 2 ^ 34). { split; [apply Rle_trans with (289 / 100000 * 4000); [lra|apply Rmult_le_compat; lra]|apply Rle_trans with (11 / 10 * 2 ^ 33); [apply Rmult_le_compat; lra|lra]]. }
    destruct (fpos _ _ R2) as [F2 V2]; [lra|]. set (b0 := mul xi2 nu) in *. clearbody b0.
    set (inv := fun (j : nat) (st : f64 * f64 * f64 * f64) => let '(b, d, c, h) := st in
      fin b /\ 10 <= B b <= 2 ^ 34 * (1 + u) + 2 * INR j /\ fin d /\ 0 <= B d <= 1 /\ fin c /\ 4 <= B c <= 2 ^ 36 /\ nonneg h).
    destruct (for_break_ix (@ik_cf1_body (ieee P) xi2) inv 10000%Z l 0 (b0, f64_lit 0.0, h0, h0)) as [m Hm].
    - intros j i [[[b d] c] h'] Hj (Fb & Vb & Fd & Vd & Fc & Vc & Hh). unfold ik_cf1_body. ieee_simpl. cbn [fst].
      assert (J : 0 <= INR j <= 10000). { split; [apply pos_INR|]. rewrite INR_IZR_INZ. apply IZR_le. lia. }
      rewrite (val_fin _ Fx2) in Vx2.
      destruct (fpos _ _ (add_spec P b xi2 Fb Fx2)) as [F3 V3]; [lra|]. set (b' := add b xi2) in *. clearbody b'.
      assert (V3' : 10 <= B b' <= 2 ^ 34 * (1 + u) + 2 * INR (S j)) by (rewrite S_INR; split; lra).
      rewrite S_INR in V3'.
      destruct (fpos _ _ (add_spec P b' d F3 Fd)) as [F4 V4]; [lra|]. set (s := add b' d) in *. clearbody s.
      assert (I4 : / 2 ^ 40 <= / B s <= / 9) by (split; apply Rinv_le_contravar; lra).
      pose proof (div_spec P (f64_lit 1.0) s fin_1 F4 ltac:(lra)) as R5. rewrite <- (val_fin _ fin_1), val_1 in R5. unfold Rdiv in R5. rewrite Rmult_1_l in R5.
      destruct (fpos _ _ R5) as [F5 V5]; [lra|]. set (d' := div (f64_lit 1.0) s) in *. clearbody d'.
      assert (I6 : / 2 ^ 40 <= / B c <= / 4) by (split; apply Rinv_le_contravar; lra).
      pose proof (div_spec P (f64_lit 1.0) c fin_1 Fc ltac:(lra)) as R6. rewrite <- (val_fin _ fin_1), val_1 in R6. unfold Rdiv in R6. rewrite Rmult_1_l in R6.
      destruct (fpos _ _ R6) as [F6 V6]; [lra|]. set (ci := div (f64_lit 1.0) c) in *. clearbody ci.
      destruct (fpos _ _ (add_spec P b' ci F3 F6)) as [F7 V7]; [lra|]. set (c' := add b' ci) in *. clearbody c'.
      assert (L8 : / 2 ^ 40 <= B c' * B d' <= 2 ^ 37).
      { split; [apply Rle_trans with (4 * (/ 2 ^ 40 * (1 - u))); [lra|apply Rmult_le_compat; lra]|apply Rle_trans with (2 ^ 36 * 1); [apply Rmult_le_compat; lra|lra]]. }
      destruct (fpos _ _ (mul_spec P c' d' F7 F5)) as [F8 V8]; [lra|]. set (del := mul c' d') in *. clearbody del.
      unfold inv. rewrite S_INR. repeat (split; [first [assumption|lra]|]). apply mul_nonneg_fin; [exact Hh|exact F8|rewrite val_fin by exact F8; lra].
    - cbn [Z.of_nat]. lia.
    - unfold inv. assert (F0 : fin (f64_lit 0.0)) by reflexivity. rewrite <- (val_fin _ F0), val_0.
      repeat (split; [first [assumption|exact F0|simpl INR; lra]|]). split; [apply fin_nonnan, F1|]. rewrite val_fin by exact F1. lra.
    - destruct (for_break _ _ _) as [[[[b d] c] h'] ok]. cbn [fst] in Hm. destruct ok; [|discriminate]. injection E as <-. apply Hm.
  Qed.

  (** ** The downward recurrence *)
  Definition down_step (xi : f64) (s : f64 * f64 * f64) (_ : Z) : f64 * f64 * f64 :=
    let '(fact, ril, ripl) := s in
    let ritemp := add (mul fact ril) ripl in let fact := sub fact xi in (fact, ritemp, add (mul fact ritemp) ril).

  Lemma down_nf : forall xi l f r r', nf r -> nf r' -> let '(_, a, b) := fold_left (down_step xi) l (f, r, r') in nf a /\ nf b.
  Proof.
    intros xi l. induction l as [|i l IH]; intros f r r' H H'; [split; assumption|]. cbn [fold_left down_step].
    assert (T : nf (add (mul f r) r')) by (apply add_nf; [apply mul_nf, H|exact H']).
    apply IH; [exact T|]. apply add_nf; [apply mul_nf, T|exact H].
  Qed.

  Section Down.
    Variables (xi : f64) (N : R).
    Hypotheses (Fxi : fin xi) (Vxi : 144 / 100000 <= val xi <= 51 / 100) (HN : 4000 <= N <= 2 ^ 33).

    Definition dinv (j : nat) (s : f64 * f64 * f64) : Prop := let '(f, r, r') := s in
      fin f /\ Rabs (val f - (N - INR j) * val xi) <= (INR j + 1) / 2 ^ 19 /\ positive r /\ nonneg r'
      /\ bpow radix2 (Z.min 1024 (-970 + Z.of_nat j)) <= val r /\ ((0 < j)%nat -> bpow radix2 (Z.min 1024 (-970 + Z.of_nat j)) <= val r').

    Lemma dinv_fact : forall j f, (j <= 2000)%nat -> Rabs (val f - (N - INR j) * val xi) <= (INR j + 1) / 2 ^ 19 -> 2 <= val f <= 2 ^ 33 + 1 /\ 0 <= INR j <= 2000.
    Proof.
      intros j f Hj H. assert (J : 0 <= INR j <= 2000). { split; [apply pos_INR|]. rewrite INR_IZR_INZ. apply IZR_le. lia. }
      apply Rabs_le_inv in H. split; [|exact J].
      assert (2000 * (144 / 100000) <= (N - INR j) * val xi) by (apply Rmult_le_compat; lra).
      assert ((N - INR j) * val xi <= 2 ^ 33 * 1) by (apply Rmult_le_compat; lra). lra.
    Qed.

    Lemma dinv_step : forall j s i, (j < 2000)%nat -> dinv j s -> dinv (S j) (down_step xi s i).
    Proof.
      intros j [[f r] r'] i Hj (Ff & Vf & Pr & Pr' & Vr & _). unfold down_step, dinv.
      destruct (dinv_fact j f ltac:(lia) Vf) as [Rf J].
      destruct (mul_ge P f r (Z.min 1024 (-970 + Z.of_nat j)) Ff ltac:(lra) Pr ltac:(lia) Vr) as [[N1 M0] M1].
      replace (Z.min 1024 (Z.min 1024 (-970 + Z.of_nat j) + 1)) with (Z.min 1024 (-970 + Z.of_nat (S j))) in M1 by lia.
      destruct (add_nonneg P (mul f r) r') as ([Na _] & Va & _); [split; [exact N1|lra]|exact Pr'|].
      set (t := add (mul f r) r') in *. assert (Pt : positive t) by (split; [exact Na|lra]).
      assert (R : rounds (sub f xi) (val f - val xi)) by (rewrite (val_fin _ Ff), (val_fin _ Fxi); apply sub_spec; assumption).
      assert (B5 : bpow radix2 (-1022) <= 1) by (apply (bpow_le radix2 (-1022) 0); lia).
      assert (B6 : 2 ^ 40 <= bpow radix2 1000) by (apply Rle_trans with (bpow radix2 40); [simpl; lra|apply bpow_le; lia]).
      destruct (fpos _ _ R) as [F V]; [lra|]. set (f' := sub f xi) in *. clearbody f'.
      assert (Vf' : Rabs (val f' - (N - INR (S j)) * val xi) <= (INR (S j) + 1) / 2 ^ 19).
      { rewrite S_INR, val_fin by exact F. apply Rabs_le_inv in Vf. apply Rabs_le.
        replace ((N - (INR j + 1)) * val xi) with ((N - INR j) * val xi - val xi) by ring. lra. }
      destruct (dinv_fact (S j) f' ltac:(lia) Vf') as [Rf' _].
      destruct (mul_ge P f' t (Z.min 1024 (-970 + Z.of_nat (S j))) F ltac:(lra) Pt ltac:(lia) ltac:(lra)) as [[N2 M2] M3].
      destruct (add_nonneg P (mul f' t) r) as ([Nb Pb] & Vb & _); [split; [exact N2|lra]|destruct Pr; split; [assumption|lra]|].
      split; [exact F|]. split; [exact Vf'|]. split; [exact Pt|]. split; [split; assumption|]. split; [lra|]. intros _.
      eapply Rle_trans; [|exact Vb]. eapply Rle_trans; [|exact M3]. apply bpow_le. lia.
    Qed.

    Lemma dinv_run : forall m i j s, (j + m <= 2000)%nat -> dinv j s -> dinv (j + m) (fold_left (down_step xi) (count_from i m) s).
    Proof.
      induction m as [|m IH]; intros i j s Hj H; [rewrite Nat.add_0_r; exact H|].
      change (count_from i (S m)) with (i :: count_from (i + 1) m). cbn [fold_left]. replace (j + S m)%nat with (S j + m)%nat by lia.
      apply IH; [lia|]. apply dinv_step; [lia|exact H].
    Qed.
  End Down.

  Context (EX : accurate_exp (p_exp P)).

  Theorem besselik_half_I : forall (n : nat) (nu x : f64), (4000 <= Z.of_nat n)%Z -> (Z.of_nat n + 1 < 2 ^ 32)%Z -> number nu -> val nu = INR n + 1 / 2 ->
    number x -> 2 <= val x <= 690 ->
    @besselik (ieee P) nu x = Panic (PExplicit "x too large in besselik; try asymptotic expansion") \/
    exists i k i' k', @besselik (ieee P) nu x = Ok (i, k, i', k') /\ ~ number i.
  Proof.
    intros n nu x Hn0 Hn Nu Vu Nx Hx.
    assert (I1 : INR n <= 4294967296). { rewrite INR_IZR_INZ. apply (IZR_le _ 4294967296). lia. }
    assert (I0 : 4000 <= INR n). { rewrite INR_IZR_INZ. apply IZR_le. lia. }
    destruct (besselik_half_run P EX n nu x ltac:(lia) Nu Vu Nx Hx) as [Q|(i & i' & xi & xi2 & xmu & a & b & Q & Fu & Fxi & Mxi & Fxi2 & Mx2 & _ & _ & _ & _ & _ & _ & h & ril & ripl & q & EH & ED & EI)]; [left; exact Q|right].
    do 4 eexists. split; [exact Q|]. clear Q. subst i.
    assert (Y : / 690 <= / val x <= 1 / 2) by (split; [apply Rinv_le_contravar; lra|replace (1 / 2) with (/ 2) by lra; apply Rinv_le_contravar; lra]).
    apply mr_abs in Mxi; [|unfold vv; lra]. rewrite (Rabs_pos_eq (/ val x)) in Mxi by lra. apply Rabs_le_inv in Mxi.
    apply mr_abs in Mx2; [|unfold vv; lra]. rewrite (Rabs_pos_eq (2 * / val x)) in Mx2 by lra. apply Rabs_le_inv in Mx2.
    assert (Vxi : 144 / 100000 <= val xi <= 51 / 100) by (unfold vv in Mxi; lra).
    assert (Vx2 : 289 / 100000 <= val xi2 <= 11 / 10) by (unfold vv in Mx2; lra).
    assert (HN : 4000 <= val nu <= 2 ^ 33) by lra.
    pose proof (cf1_nonneg nu xi xi2 h Fu HN Fxi Vxi Fxi2 Vx2 EH) as Hh.
    destruct (fpmin_facts P) as [Fp Vp]. pose proof (bpow_gt_0 radix2 (-970)) as B0.
    assert (Pp : nonneg (mul h (@FPMIN (ieee P)))) by (apply mul_nonneg_fin; [exact Hh|exact Fp|lra]).
    set (r0 := mul h (@FPMIN (ieee P))) in *. clearbody r0. set (p := @FPMIN (ieee P)) in *. clearbody p.
    assert (R : rounds (mul nu xi) (val nu * val xi)) by (rewrite (val_fin _ Fu), (val_fin _ Fxi); apply mul_spec; assumption).
    assert (L : 1 <= val nu * val xi <= 2 ^ 33) by (split; [apply Rle_trans with (4000 * (144 / 100000)); [lra|apply Rmult_le_compat; lra]|apply Rle_trans with (2 ^ 33 * 1); [apply Rmult_le_compat; lra|lra]]).
    assert (B5 : bpow radix2 (-1022) <= 1) by (apply (bpow_le radix2 (-1022) 0); lia).
    assert (B6 : 2 ^ 40 <= bpow radix2 1000) by (apply Rle_trans with (bpow radix2 40); [simpl; lra|apply bpow_le; lia]).
    destruct (fpos _ _ R) as [F V]; [lra|].
    assert (NF : nf ril /\ nf ripl).
    { unfold ik_down in ED. ieee_simpl_in ED. unfold range in ED.
      assert (ED' : (let '(_, a, b) := fold_left (down_step xi) (count_from 0 (Z.to_nat (Z.of_nat n + 1 - 0))) (mul nu xi, p, r0) in (a, b)) = (ril, ripl)) by exact ED.
      clear ED. rename ED' into ED.
      replace (Z.to_nat (Z.of_nat n + 1 - 0)) with (2000 + (S n - 2000))%nat in ED by lia.
      rewrite count_from_app, fold_left_app in ED.
      assert (D0 : dinv xi (val nu) 0 (mul nu xi, p, r0)).
      { unfold dinv. split; [exact F|]. split; [rewrite val_fin by exact F; simpl INR; apply Rabs_le; lra|].
        split; [split; [apply fin_nonnan, Fp|lra]|]. split; [exact Pp|]. split; [cbn [Z.of_nat]; change (Z.min 1024 (-970 + 0)) with (-970)%Z; lra|]. intros A. lia. }
      pose proof (dinv_run xi (val nu) Fxi Vxi HN 2000 0%Z 0%nat _ ltac:(lia) D0) as D. change (0 + 2000)%nat with 2000%nat in D.
      destruct (fold_left (down_step xi) (count_from 0 2000) (mul nu xi, p, r0)) as [[f r] r'].
      destruct D as (_ & _ & Pr & Pr' & Vr & Vr'). specialize (Vr' ltac:(lia)).
      change (Z.min 1024 (-970 + Z.of_nat 2000)) with 1024%Z in Vr, Vr'. pose proof (bpow_gt_0 radix2 1024).
      assert (Pq : positive r') by (destruct Pr' as [A1 A2]; split; [exact A1|lra]).
      rewrite (top_inf r Pr Vr), (top_inf r' Pq Vr') in ED.
      pose proof (down_nf xi (count_from (0 + Z.of_nat 2000) (S n - 2000)) f (B754_infinity false) (B754_infinity false) eq_refl eq_refl) as W.
      destruct (fold_left (down_step xi) (count_from (0 + Z.of_nat 2000) (S n - 2000)) (f, B754_infinity false, B754_infinity false)) as [[f1 r1] r2].
      injection ED as <- <-. exact W. }
    destruct NF as [NF1 NF2].
    assert (G : Binary.is_nan (div (mul (div xi (sub (mul (div ripl ril) a) q)) p) ril) = true)
      by (apply div_nan_l, mul_nan_l, div_nan_r, sub_nan_l, mul_nan_l, div_nf; assumption).
    intros C. unfold number in C. rewrite G in C. discriminate.
  Qed.
End I.

Lemma ex_over_I : forall P : platform, number (f64_lit 4000.5) /\ val (f64_lit 4000.5) = INR 4000 + 1 / 2 /\ number (f64_lit 2.0) /\ 2 <= val (f64_lit 2.0) <= 690
  /\ exists r, @besselik (ieee P) (f64_lit 4000.5) (f64_lit 2.0) = Ok r.
Proof.
  intros P. lit_facts 4000.5%dec 8001%Z 1%Z F1 V1. split; [apply fin_nonnan, F1|].
  split; [rewrite V1, INR_IZR_INZ; change (Z.of_nat 4000) with 4000%Z; lra|].
  split; [apply fin_nonnan, fin_2|]. rewrite val_2. split; [lra|].
  assert (Q : match @besselik (ieee P) (f64_lit 4000.5) (f64_lit 2.0) with Ok _ => true | _ => false end = true) by (vm_compute; reflexivity).
  destruct (@besselik (ieee P) (f64_lit 4000.5) (f64_lit 2.0)); [eexists; reflexivity|discriminate|discriminate].
Qed.

Theorem besselik_nan : forall (P : platform), accurate_exp (p_exp P) -> forall (n : nat) (nu x : f64), (4000 <= Z.of_nat n)%Z -> (Z.of_nat n + 1 < 2 ^ 32)%Z ->
  number nu -> val nu = INR n + 1 / 2 -> number x -> 2 <= val x <= 690 ->
  @besselik (ieee P) nu x = Panic (PExplicit "x too large in besselik; try asymptotic expansion") \/
  exists i k i' k', @besselik (ieee P) nu x = Ok (i, k, i', k') /\ ~ number i /\ k = B754_infinity false /\ ~ number k'.
Proof.
  intros P EX n nu x Hn0 Hn Nu Vu Nx Hx.
  destruct (besselik_half_over P EX n nu x ltac:(lia) Hn Nu Vu Nx Hx) as [Q|(i & k & i' & k' & Q & K1 & K2)]; [left; exact Q|].
  destruct (besselik_half_I P EX n nu x Hn0 Hn Nu Vu Nx Hx) as [Q2|(j & l & j' & l' & Q2 & K3)]; [left; exact Q2|right].
  rewrite Q in Q2. injection Q2 as <- <- <- <-. exists i, k, i', k'. auto.
Qed.

Theorem Inu_Knu_nan : forall (P : platform), accurate_exp (p_exp P) -> forall (n : nat) (nu x i k : f64), (4000 <= Z.of_nat n)%Z -> (Z.of_nat n + 1 < 2 ^ 32)%Z ->
  number nu -> val nu = INR n + 1 / 2 -> number x -> 2 <= val x <= 690 -> @Inu_Knu (ieee P) nu x = Ok (i, k) -> ~ number i.
Proof.
  intros P EX n nu x i k Hn0 Hn Nu Vu Nx Hx E. unfold Inu_Knu in E.
  destruct (besselik_nan P EX n nu x Hn0 Hn Nu Vu Nx Hx) as [Q|(i0 & k0 & i' & k' & Q & A & _)]; rewrite Q in E; cbn [bind] in E; [discriminate|].
  injection E as <- _. exact A.
Qed.

Lemma Inu_Knu_nan_refuted : forall P : platform, accurate_exp (p_exp P) -> exists nu x : f64, positive nu /\ positive x /\ finite nu /\ finite x
  /\ exists i k, @Inu_Knu (ieee P) nu x = Ok (i, k) /\ ~ number i.
Proof.
  intros P EX. destruct (ex_over_I P) as (N1 & V1 & N2 & V2 & [[[i k] i'] k'] & E). exists (f64_lit 4000.5), (f64_lit 2.0).
  pose proof (pos_INR 4000). split; [split; [exact N1|lra]|]. split; [split; [exact N2|lra]|]. split; [reflexivity|]. split; [reflexivity|].
  assert (G : @Inu_Knu (ieee P) (f64_lit 4000.5) (f64_lit 2.0) = Ok (i, k)) by (unfold Inu_Knu; rewrite E; reflexivity).
  exists i, k. split; [exact G|]. apply (Inu_Knu_nan P EX 4000 _ _ i k ltac:(lia) ltac:(lia) N1 V1 N2 V2 G).
Qed.
