(** * The polynomials of gamma against the gamma function on [2.5, 3.5] *)

From Coq Require Import ZArith Reals Bool Lra Lia List.
From Flocq Require Import Core IEEE754.BinarySingleNaN IEEE754.Binary IEEE754.Bits.
From Flocq Require Import Sterbenz.
From Verif.Model Require Import Base Arith Utils Gamma.
From Verif.Float Require Import Bits64 Ieee Exact.
From Verif.Spec Require Import F64Spec Outcome GammaSpec.
From Verif.Proofs Require Import F64 F64Ops Lits Ext Poly HornerErr PolyZ PolyShift PolyTree ErfccPoly GammaFacts Stirling GammaPoly.
Import ListNotations.
Open Scope R_scope.

Definition SG : Z := 24.
Definition EG : Z := (10 ^ SG)%Z.
Definition hi_z : list Z := Eval vm_compute in rev (map (dz SG) GAMMA_HI).
Definition lo_z : list Z := Eval vm_compute in rev (map (dz SG) GAMMA_LO).
Lemma hi_z_eq : hi_z = rev (map (dz SG) GAMMA_HI).
Proof. vm_compute. reflexivity. Qed.
Lemma lo_z_eq : lo_z = rev (map (dz SG) GAMMA_LO).
Proof. vm_compute. reflexivity. Qed.

(** (PG (t + c / 4) - A t) at t = s / 4, scaled *)
Definition dif (c : Z) (zs : list Z) : list Z :=
  padd (pscale EG (pshift c (phom 4 gp))) (pscale (- (4 ^ 17 * TG)) (phom 4 zs)).
Definition SD : Z := (EG * 4 ^ 28 * TG)%Z.

Lemma dif_eq : forall c zs s, length zs = 12%nat ->
  peval (dif c zs) s = IZR SD * (PG (s / 4 + IZR c / 4) - peval zs (s / 4) / IZR EG).
Proof.
  intros c zs s L. unfold dif. rewrite peval_padd, !peval_pscale, peval_pshift.
  pose proof (peval_phom 4 gp (s + IZR c) ltac:(lia)) as A. pose proof (peval_phom 4 zs s ltac:(lia)) as B.
  change (length gp) with 29%nat in A. rewrite L in B.
  replace ((s + IZR c) / 4) with (s / 4 + IZR c / 4) in A by field.
  change (4 ^ Z.of_nat 29)%Z with (4 * 4 ^ 28)%Z in A. change (4 ^ Z.of_nat 12)%Z with (4 * 4 ^ 11)%Z in B.
  rewrite mult_IZR in A, B.
  unfold PG, SD. rewrite opp_IZR, !mult_IZR.
  set (x := peval (phom 4 gp) (s + IZR c)) in *. set (y := peval (phom 4 zs) s) in *.
  set (p := peval gp (s / 4 + IZR c / 4)) in *. set (q := peval zs (s / 4)) in *.
  assert (X : x = IZR (4 ^ 28) * p) by lra. assert (Y : y = IZR (4 ^ 11) * q) by lra. rewrite X, Y.
  replace (IZR (4 ^ 28)) with (IZR (4 ^ 17) * IZR (4 ^ 11)) by (rewrite <- mult_IZR; reflexivity).
  assert (E0 : IZR EG <> 0) by (apply IZR_neq; discriminate). assert (T0 : IZR TG <> 0) by (apply IZR_neq; discriminate).
  generalize (IZR (4 ^ 17)) (IZR (4 ^ 11)). revert E0 T0. generalize (IZR EG) (IZR TG). clearbody p q. clear.
  intros e t E0 T0 a b. field. auto.
Qed.

Fixpoint full (n : nat) : tree := match n with O => Leaf | S k => Node (full k) (full k) end.
Lemma hi_up : (tmax (full 5) (dif 1 hi_z) 0 * (10 ^ 16 / 6) <= SD)%Z.
Proof. apply Z.leb_le. vm_compute. reflexivity. Qed.
Lemma hi_dn : (tmax (full 5) (pscale (-1) (dif 1 hi_z)) 0 * (10 ^ 16 / 6) <= SD)%Z.
Proof. apply Z.leb_le. vm_compute. reflexivity. Qed.
Lemma lo_up : (tmax (full 5) (dif (-1) lo_z) 0 * (10 ^ 16 / 6) <= SD)%Z.
Proof. apply Z.leb_le. vm_compute. reflexivity. Qed.
Lemma lo_dn : (tmax (full 5) (pscale (-1) (dif (-1) lo_z)) 0 * (10 ^ 16 / 6) <= SD)%Z.
Proof. apply Z.leb_le. vm_compute. reflexivity. Qed.

Lemma dif_small : forall c zs, (tmax (full 5) (dif c zs) 0 * (10 ^ 16 / 6) <= SD)%Z ->
  (tmax (full 5) (pscale (-1) (dif c zs)) 0 * (10 ^ 16 / 6) <= SD)%Z -> length zs = 12%nat -> dif c zs <> [] -> pscale (-1) (dif c zs) <> [] ->
  forall t, Rabs t <= 1 / 4 -> Rabs (peval zs t / IZR EG - PG (t + IZR c / 4)) <= 61 / 10 ^ 17.
Proof.
  intros c zs U D L N1 N2 t Ht. apply Rabs_le_inv in Ht.
  pose proof (tmax_ok (full 5) (peval (dif c zs)) 0 1 _ 0 N1 (near_self _) ltac:(lra) (4 * t) ltac:(lra)) as A.
  pose proof (tmax_ok (full 5) (peval (pscale (-1) (dif c zs))) 0 1 _ 0 N2 (near_self _) ltac:(lra) (4 * t) ltac:(lra)) as B.
  rewrite peval_pscale in B. rewrite (dif_eq c zs _ L) in A, B. replace (4 * t / 4) with t in A, B by field.
  assert (SP : 0 < IZR SD) by (apply IZR_lt; reflexivity).
  apply IZR_le in U, D. rewrite mult_IZR in U, D. replace (IZR (10 ^ 16 / 6)) with 1666666666666666 in U, D by reflexivity.
  set (a := IZR (tmax _ _ _)) in U, A. set (b := IZR (tmax _ _ _)) in D, B.
  set (x := peval zs t / IZR EG) in *. set (y := PG (t + IZR c / 4)) in *. set (k := IZR SD) in *. clearbody a b x y k.
  assert (Rabs (y - x) * k <= k / 1666666666666666).
  { rewrite <- (Rabs_pos_eq k) at 1 by lra. rewrite <- Rabs_mult. apply Rabs_le. lra. }
  rewrite Rabs_minus_sym. apply Rmult_le_reg_r with k; [exact SP|]. eapply Rle_trans; [eassumption|].
  apply Rle_trans with (k * (61 / 10 ^ 17)); [|lra]. unfold Rdiv at 1. apply Rmult_le_compat_l; lra.
Qed.
Lemma hi_small : forall t, Rabs t <= 1 / 4 -> Rabs (peval hi_z t / IZR EG - PG (t + 1 / 4)) <= 61 / 10 ^ 17.
Proof. apply (dif_small 1 hi_z hi_up hi_dn); [reflexivity|discriminate|discriminate]. Qed.
Lemma lo_small : forall t, Rabs t <= 1 / 4 -> Rabs (peval lo_z t / IZR EG - PG (t + -1 / 4)) <= 61 / 10 ^ 17.
Proof. apply (dif_small (-1) lo_z lo_up lo_dn); [reflexivity|discriminate|discriminate]. Qed.

Lemma hi_e : herr 1 4 0 0 GAMMA_HI = Some 7750%Z.
Proof. vm_compute. reflexivity. Qed.
Lemma lo_e : herr 1 4 0 0 GAMMA_LO = Some 4573%Z.
Proof. vm_compute. reflexivity. Qed.
Lemma hi_ok : forallb (dz_ok SG) GAMMA_HI = true.
Proof. vm_compute. reflexivity. Qed.
Lemma lo_ok : forallb (dz_ok SG) GAMMA_LO = true.
Proof. vm_compute. reflexivity. Qed.

Lemma rhor_0 : forall x c0 cs, rhor x 0 (c0 :: cs) = rhor x (R_of_dec c0) cs.
Proof. intros. unfold rhor. cbn [fold_left]. f_equal. ring. Qed.

Section Core.
  Context (P : platform).
  Notation sub := (f64_sub P).

  Lemma poly_near : forall l e x, l <> [] -> herr 1 4 0 0 l = Some e -> forallb (dz_ok SG) l = true -> fin x -> Rabs (val x) <= 1 / 4 ->
    fin (@polynomial (ieee P) x l) /\ Rabs (val (@polynomial (ieee P) x l) - peval (rev (map (dz SG) l)) (val x) / IZR EG) <= IZR e / IZR K60.
  Proof.
    intros l e x NE He Ok Fx Hx. rewrite (val_fin x Fx) in *.
    destruct (herr_ok P 1 4 x ltac:(lia) ltac:(lia) Fx Hx l 0 0 e (f64_lit 0.0) 0 ltac:(lia) ltac:(lia) He) as (F1 & _ & E1).
    { reflexivity. }
    { change (f64_lit 0.0) with f64_zero. change (Binary.B2R f64_zero) with 0. rewrite Rabs_R0. unfold Rdiv. rewrite Rmult_0_l. lra. }
    { change (f64_lit 0.0) with f64_zero. change (Binary.B2R f64_zero) with 0. rewrite Rminus_0_r, Rabs_R0. unfold Rdiv. rewrite Rmult_0_l. lra. }
    rewrite polynomial_unfold. split; [exact F1|]. rewrite (val_fin _ F1).
    destruct l as [|c0 cs]; [congruence|]. rewrite rhor_0 in E1. rewrite (rhor_peval SG) in E1 by (assumption || (unfold SG; lia)). exact E1.
  Qed.

  (** subtracting the centre is exact *)
  Lemma centre_exact : forall z c, fin z -> fin c -> 2 <= val z <= 4 -> val c / 2 <= val z <= 2 * val c -> Rabs (val z - val c) <= 1 ->
    fin (sub z c) /\ val (sub z c) = val z - val c.
  Proof.
    intros z c Fz Fc Bz Bc Bd. pose proof (sub_spec P z c Fz Fc) as R. rewrite <- (val_fin z Fz), <- (val_fin _ Fc) in R.
    assert (E : rnd (val z - val c) = val z - val c).
    { apply rnd_fmt. apply sterbenz; [apply fexp64_valid|apply fexp64_mono|apply val_fmt|apply val_fmt|exact Bc]. }
    destruct (rounds_small _ _ R) as [F1 V1].
    - rewrite E. pose proof Om_1000. lra.
    - split; [exact F1|]. rewrite (val_fin _ F1), V1. exact E.
  Qed.

  Variable G : R -> R.
  Hypothesis HG : gamma_function G.

  Lemma near_G : forall l e c x, l <> [] -> herr 1 4 0 0 l = Some e -> forallb (dz_ok SG) l = true -> fin x -> Rabs (val x) <= 1 / 4 -> Rabs c <= 1 / 4 ->
    (forall t, Rabs t <= 1 / 4 -> Rabs (peval (rev (map (dz SG) l)) t / IZR EG - PG (t + c)) <= 61 / 10 ^ 17) ->
    forall m, 0 < m <= G (val x + c + 3) -> IZR e / IZR K60 + 61 / 10 ^ 17 <= m * (42 / 10 ^ 16) ->
    fin (@polynomial (ieee P) x l) /\ Rabs (val (@polynomial (ieee P) x l) - G (val x + c + 3)) <= 44 / 10 ^ 16 * G (val x + c + 3).
  Proof.
    intros l e c x NE He Ok Fx Hx Hc Hd m Hm Hb. destruct (poly_near l e x NE He Ok Fx Hx) as [F1 E1]. split; [exact F1|].
    specialize (Hd _ Hx). assert (Hv : Rabs (val x + c) <= 1 / 2) by (eapply Rle_trans; [apply Rabs_triang|lra]).
    pose proof (PG_gamma G HG (val x + c) Hv) as E3.
    set (r := val (@polynomial (ieee P) x l)) in *. set (a := peval _ _ / IZR EG) in *. set (p := PG (val x + c)) in *. set (g := G (val x + c + 3)) in *.
    replace (r - g) with ((r - a) + ((a - p) + (p - g))) by ring.
    eapply Rle_trans; [apply Rabs_triang|]. eapply Rle_trans; [apply Rplus_le_compat_l, Rabs_triang|].
    assert (m * (42 / 10 ^ 16) <= g * (42 / 10 ^ 16)) by (apply Rmult_le_compat_r; lra). lra.
  Qed.

  Lemma G_ge : forall v, Rabs v <= 1 / 2 -> 127 / 100 <= G (v + 3).
  Proof.
    intros v Hv. pose proof (PG_ge v Hv) as A. pose proof (PG_gamma G HG v Hv) as B. apply Rabs_le_inv in B. lra.
  Qed.
  (** increasing from 3 on *)
  Lemma G_ge_2 : forall v, 0 <= v <= 1 / 2 -> 2 <= G (v + 3).
  Proof.
    intros v Hv. pose proof (lG_diff G HG 3 v ltac:(lra) ltac:(lra)) as [D _]. rewrite (lG_3 G HG) in D.
    assert (L : Rpower.ln 2 <= lG G (v + 3)).
    { assert (0 <= v * Rpower.ln (3 - 1)). { apply Rmult_le_pos; [lra|]. replace (3 - 1) with 2 by ring. rewrite <- ln_1. apply ln_mono; lra. }
      rewrite Rplus_comm. lra. }
    pose proof (G_pos G HG (v + 3) ltac:(lra)) as GP. destruct (Rle_or_lt 2 (G (v + 3))) as [|H]; [assumption|].
    apply ln_increasing in H; [|exact GP]. unfold lG in L. lra.
  Qed.

  Lemma K60_v : IZR K60 = 1152921504606846976.
  Proof. reflexivity. Qed.

  Lemma core_accurate : forall z, fin z -> 5 / 2 <= val z <= 7 / 2 ->
    fin (@gamma_core (ieee P) z) /\ Rabs (val (@gamma_core (ieee P) z) - G (val z)) <= 44 / 10 ^ 16 * G (val z).
  Proof.
    intros z Fz Bz. unfold Gamma.gamma_core. ieee_simpl.
    destruct lit_3 as [F3 V3]. destruct lit_325 as [F325 V325]. destruct lit_275 as [F275 V275].
    rewrite !lt_val by (apply fin_nonnan; assumption). rewrite V3.
    case Rlt_bool_spec; intros H1; [|case Rlt_bool_spec; intros H2].
    - destruct (centre_exact z (f64_lit 3.25) Fz F325) as [Fs Vs]; try rewrite V325; try lra; [apply Rabs_le; lra|].
      rewrite V325 in Vs. replace (val z) with (val (sub z (f64_lit 3.25)) + 1 / 4 + 3) in * by (rewrite Vs; lra).
      apply (near_G GAMMA_HI 7750 (1 / 4) _ ltac:(discriminate) hi_e hi_ok Fs) with (m := 2).
      + apply Rabs_le. lra.
      + apply Rabs_le. lra.
      + rewrite <- hi_z_eq. exact hi_small.
      + split; [lra|]. apply G_ge_2. lra.
      + rewrite K60_v. lra.
    - destruct (centre_exact z (f64_lit 2.75) Fz F275) as [Fs Vs]; try rewrite V275; try lra; [apply Rabs_le; lra|].
      rewrite V275 in Vs. replace (val z) with (val (sub z (f64_lit 2.75)) + -1 / 4 + 3) in * by (rewrite Vs; lra).
      apply (near_G GAMMA_LO 4573 (-1 / 4) _ ltac:(discriminate) lo_e lo_ok Fs) with (m := 127 / 100).
      + apply Rabs_le. lra.
      + apply Rabs_le. lra.
      + rewrite <- lo_z_eq. exact lo_small.
      + split; [lra|]. apply G_ge. apply Rabs_le. lra.
      + rewrite K60_v. lra.
    - replace (val z) with 3 by lra. split; [apply fin_2|]. rewrite val_2.
      assert (E : G 3 = 2).
      { pose proof (G_step G HG 1 ltac:(lra)) as S1. pose proof (G_step G HG 2 ltac:(lra)) as S2. destruct HG as (_ & G1 & _).
        replace (1 + 1) with 2 in S1 by ring. replace (2 + 1) with 3 in S2 by ring. rewrite G1 in S1. rewrite S2, S1. ring. }
      rewrite E, Rminus_diag_eq, Rabs_R0 by reflexivity. lra.
  Qed.
End Core.
