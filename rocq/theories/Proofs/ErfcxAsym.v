(** * Accuracy of erfcx for x > 12 *)

From Coq Require Import ZArith Reals Bool Lra Lia List.
From Flocq Require Import Core IEEE754.BinarySingleNaN IEEE754.Binary IEEE754.Bits.
From Verif.Model Require Import Base Arith Utils Error.
From Verif.Float Require Import Bits64 Ieee Exact.
From Verif.Spec Require Import F64Spec Outcome ErfSpec.
From Verif.Proofs Require Import F64 F64Ops Lits Ext Poly PolyZ Horner HornerErr PiBounds ErfcODE ErfcxChain ErfcxPos.
Import ListNotations.
Open Scope R_scope.
Notation isp := (/ R_sqrt.sqrt Rtrigo1.PI).

(** coefficients of the asymptotic series, times 2^10 sqrt PI *)
Definition rz11 : list Z :=
  [1024; -512; 768; -1920; 6720; -30240; 166320; -1081080; 8108100; -68918850; 654729075]%Z.
Definition rz7 : list Z := [1024; -512; 768; -1920; 6720; -30240; 166320]%Z.
Definition rz4 : list Z := [1024; -512; 768; -1920]%Z.

Ltac inr :=
  replace (INR 0) with 0 by reflexivity; replace (INR 1) with 1 by reflexivity; replace (INR 2) with 2 by reflexivity;
  replace (INR 3) with 3 by (simpl; lra); replace (INR 4) with 4 by (simpl; lra);
  replace (INR 5) with 5 by (simpl; lra); replace (INR 6) with 6 by (simpl; lra);
  replace (INR 7) with 7 by (simpl; lra); replace (INR 8) with 8 by (simpl; lra);
  replace (INR 9) with 9 by (simpl; lra); replace (INR 10) with 10 by (simpl; lra).

Lemma asy_11 : forall x, asy 11 x = / x * (isp * peval rz11 (/ x * / x) / 1024).
Proof.
  intros x. cbn [asy ac peval rz11 fold_right]. inr. cbn [Nat.add Nat.mul pow].
  set (y := / x). set (i := isp). field.
Qed.
Lemma asy_7 : forall x, asy 7 x = / x * (isp * peval rz7 (/ x * / x) / 1024).
Proof.
  intros x. cbn [asy ac peval rz7 fold_right]. inr. cbn [Nat.add Nat.mul pow].
  set (y := / x). set (i := isp). field.
Qed.
Lemma asy_4 : forall x, asy 4 x = / x * (isp * peval rz4 (/ x * / x) / 1024).
Proof.
  intros x. cbn [asy ac peval rz4 fold_right]. inr. cbn [Nat.add Nat.mul pow].
  set (y := / x). set (i := isp). field.
Qed.

Lemma isp_range : 0.564 <= isp <= 0.565.
Proof.
  pose proof isp_bounds as [L U]. unfold isp70 in L, U. change (2 ^ 70)%Z with 1180591620717411303424%Z in L, U. lra.
Qed.

Lemma ac_abs : Rabs (ac 11) = isp * (13749310575 / 2048) /\ Rabs (ac 7) = isp * (135135 / 128) /\ Rabs (ac 4) = isp * (105 / 16) /\ Rabs (ac 1) = isp * (1 / 2).
Proof.
  pose proof isp_range as I. set (i := isp) in *.
  assert (A11 : ac 11 = - (i * (13749310575 / 2048))) by (cbn [ac]; fold i; inr; lra).
  assert (A7 : ac 7 = - (i * (135135 / 128))) by (cbn [ac]; fold i; inr; lra).
  assert (A4 : ac 4 = i * (105 / 16)) by (cbn [ac]; fold i; inr; lra).
  assert (A1 : ac 1 = - (i * (1 / 2))) by (cbn [ac]; fold i; inr; lra).
  rewrite A11, A7, A4, A1, !Rabs_Ropp, !Rabs_pos_eq by lra. auto.
Qed.

(** the decimal coefficients of the source against the exact ones *)
Definition asym_zs (c0 : dec) (cs : list dec) : list Z := rev (map (dz SC) (c0 :: cs)).
Definition asym_ok (c0 : dec) (cs : list dec) (rz : list Z) : bool :=
  let gz := asym_zs c0 cs in
  forallb (dz_ok SC) (c0 :: cs) &&
  (pbound 7 1000 (padd (pscale (2 ^ 80) gz) (pscale (- isp70 * DD) rz)) <=? DD * 2 ^ 26)%Z &&
  (pbound 7 1000 rz <=? 2048)%Z && (pbound 7 1000 (pder gz) <=? DD)%Z &&
  match hor_e 7 1000 c0 cs with Some e => (e <=? 1200)%Z | None => false end.

Lemma asym11_ok : asym_ok 3.607_337_150_008_376e5 (tail2 as11_cs) rz11 = true.
Proof. vm_compute. reflexivity. Qed.
Lemma asym7_ok : asym_ok 9.163_673_001_529_573e1 (tail2 as7_cs) rz7 = true.
Proof. vm_compute. reflexivity. Qed.
Lemma asym4_ok : asym_ok (-1.057_855_469_152_043) (tail2 as4_cs) rz4 = true.
Proof. vm_compute. reflexivity. Qed.

(** 1/x rounded, and its square *)
Lemma recip_near : forall P (x : f64), fin x -> 12 <= Binary.B2R x <= 2 ^ 30 ->
  let r := f64_div P (f64_lit 1.0) x in
  let y := / Binary.B2R x in
  fin r /\ Rabs (Binary.B2R r - y) <= bpow radix2 (-53) * y /\
  fin (f64_mul P r r) /\ Rabs (Binary.B2R (f64_mul P r r)) <= 7 / 1000 /\
  Rabs (Binary.B2R (f64_mul P r r) - y * y) <= / 2 ^ 57.
Proof.
  intros P x Fx Hx r y. destruct (recip_facts P x Fx Hx) as (Fr & Br & Fq & Bq). fold r in Fr, Br, Fq, Bq.
  assert (Y : 0 < y <= 1 / 12).
  { split; [apply Rinv_0_lt_compat; lra|]. unfold y. unfold Rdiv. rewrite Rmult_1_l. apply Rinv_le_contravar; lra. }
  assert (B53 : bpow radix2 (-53) = / 2 ^ 53) by (simpl; lra).
  assert (Br' : Rabs (Binary.B2R r - y) <= bpow radix2 (-53) * y).
  { unfold Rdiv in Br. fold y in Br. apply Rabs_le. lra. }
  split; [exact Fr|]. split; [exact Br'|]. split; [exact Fq|]. split; [rewrite Rabs_pos_eq; lra|].
  pose proof (mul_spec P r r Fr Fr) as M.
  set (rr := Binary.B2R r) in *.
  rewrite B53 in *. apply Rabs_le_inv in Br'.
  assert (R1 : Rabs (rr * rr - y * y) <= 3 * / 2 ^ 53 * (/ 144)).
  { replace (rr * rr - y * y) with ((rr - y) * (rr + y)) by ring. rewrite Rabs_mult.
    apply Rle_trans with ((/ 2 ^ 53 * (1 / 12)) * (2.5 / 12)); [|lra].
    apply Rmult_le_compat; try apply Rabs_pos.
    - apply Rabs_le. assert (/ 2 ^ 53 * y <= / 2 ^ 53 * (1 / 12)) by (apply Rmult_le_compat_l; lra). lra.
    - apply Rabs_le. assert (/ 2 ^ 53 * y <= / 2 ^ 53 * (1 / 12)) by (apply Rmult_le_compat_l; lra). lra. }
  assert (R2 : 0 <= rr * rr <= 0.007).
  { split; [apply Rle_0_sqr|]. apply Rabs_le_inv in R1. assert (y * y <= 1 / 12 * (1 / 12)) by (apply Rmult_le_compat; lra). lra. }
  pose proof (rnd_abs_err (rr * rr)) as Re. rewrite (Rabs_pos_eq (rr * rr)) in Re by lra. rewrite B53 in Re.
  assert (T : bpow radix2 (-1075) <= / 2 ^ 70).
  { replace (/ 2 ^ 70) with (bpow radix2 (-70)) by (simpl; lra). apply bpow_le. lia. }
  assert (Vq : Binary.B2R (f64_mul P r r) = rnd (rr * rr)).
  { destruct (rounds_small _ _ M) as [_ V]; [|exact V]. pose proof Om_big. fold rr.
    replace (rnd (rr * rr)) with (rr * rr + (rnd (rr * rr) - rr * rr)) by ring.
    eapply Rle_lt_trans; [apply Rabs_triang|]. rewrite (Rabs_pos_eq (rr * rr)) by lra.
    assert (/ 2 ^ 53 * (rr * rr) <= 1 * 0.007) by (apply Rmult_le_compat; lra). lra. }
  rewrite Vq. replace (rnd (rr * rr) - y * y) with ((rnd (rr * rr) - rr * rr) + (rr * rr - y * y)) by ring.
  eapply Rle_trans; [apply Rabs_triang|].
  assert (/ 2 ^ 53 * (rr * rr) <= / 2 ^ 53 * 0.007) by (apply Rmult_le_compat_l; lra). lra.
Qed.

(** the polynomial part, against sqrt-PI-scaled exact coefficients *)
Lemma asym_poly : forall P (x : f64) c0 cs rz, fin x -> 12 <= Binary.B2R x <= 2 ^ 30 -> asym_ok c0 cs rz = true ->
  let r := f64_div P (f64_lit 1.0) x in
  let y := / Binary.B2R x in
  let v := hor P (f64_mul P r r) (f64_lit c0) cs in
  fin v /\ Rabs (Binary.B2R v - isp * peval rz (y * y) / 1024) <= 1300 / 2 ^ 60.
Proof.
  intros P x c0 cs rz Fx Hx H r y v. destruct (recip_near P x Fx Hx) as (Fr & _ & Fq & Bq & Eq). fold r y in Fr, Fq, Bq, Eq.
  unfold asym_ok in H. cbv zeta in H.
  apply andb_prop in H. destruct H as [H H5]. apply andb_prop in H. destruct H as [H H4].
  apply andb_prop in H. destruct H as [H H3]. apply andb_prop in H. destruct H as [H1 H2].
  destruct (hor_e 7 1000 c0 cs) as [e|] eqn:He; [|discriminate H5]. apply Z.leb_le in H2, H3, H4, H5.
  destruct (hor_err P 7 1000 (f64_mul P r r) c0 cs e ltac:(lia) ltac:(lia) Fq Bq He) as (Fv & _ & Ev).
  split; [exact Fv|]. fold v in Ev.
  rewrite (rhor_peval SC _ _ _ ltac:(unfold SC; lia) H1) in Ev. fold (asym_zs c0 cs) in Ev. change (10 ^ SC)%Z with DD in Ev.
  set (gz := asym_zs c0 cs) in *. set (q := Binary.B2R (f64_mul P r r)) in *. set (V := Binary.B2R v) in *.
  pose proof DD_pos as DP.
  assert (Y : 0 < y <= 1 / 12).
  { split; [apply Rinv_0_lt_compat; lra|]. unfold y. unfold Rdiv. rewrite Rmult_1_l. apply Rinv_le_contravar; lra. }
  assert (Byy : Rabs (y * y) <= 7 / 1000).
  { rewrite Rabs_pos_eq by nra. apply Rle_trans with (1 / 12 * (1 / 12)); [apply Rmult_le_compat; lra|lra]. }
  pose proof (peval_lip 7 1000 gz q (y * y) ltac:(lia) ltac:(lia) Bq Byy) as Lp.
  pose proof (peval_bound 7 1000 _ (y * y) ltac:(lia) ltac:(lia) Byy : Rabs (peval (padd (pscale (2 ^ 80) gz) (pscale (- isp70 * DD) rz)) (y * y)) <= _) as Bd.
  pose proof (peval_bound 7 1000 rz (y * y) ltac:(lia) ltac:(lia) Byy) as Br.
  rewrite peval_padd, !peval_pscale in Bd.
  apply IZR_le in H2, H3, H4, H5. rewrite mult_IZR in H2.
  rewrite mult_IZR, opp_IZR in Bd.
  pose proof isp_bounds as [Li Ui]. set (i := isp) in *. clearbody i.
  set (D := IZR DD) in *. set (G := peval gz (y * y)) in *. set (Gq := peval gz q) in *. set (S := peval rz (y * y)) in *.
  assert (Sb : Rabs S <= 2048) by lra.
  change (IZR (2 ^ 26)) with 67108864 in H2. change (IZR (2 ^ 80)) with 1208925819614629174706176 in Bd.
  change (2 ^ 70)%Z with 1180591620717411303424%Z in Li, Ui. set (I70 := IZR isp70) in *.
  clearbody D G Gq S I70 V.
  change (IZR K60) with 1152921504606846976 in Ev.
  (* V near Gq/D *)
  assert (A1 : Rabs (V - Gq / D) <= 1200 / 1152921504606846976).
  { eapply Rle_trans; [exact Ev|]. apply Rmult_le_compat_r; lra. }
  assert (A2 : Rabs (Gq / D - G / D) <= / 2 ^ 57).
  { replace (Gq / D - G / D) with ((Gq - G) / D) by (field; lra). unfold Rdiv.
    rewrite Rabs_mult, (Rabs_pos_eq (/ D)) by (apply Rlt_le, Rinv_0_lt_compat, DP).
    apply div_le; [exact DP|]. eapply Rle_trans; [exact Lp|]. rewrite Rmult_comm. apply Rmult_le_compat; try apply Rabs_pos; try lra.
    eapply Rle_trans; [apply Rabs_pos|apply (peval_bound 7 1000 (pder gz) q); [lia|lia|exact Bq]]. }
  assert (A3 : Rabs (G / D - I70 / 1180591620717411303424 * S / 1024) <= / 2 ^ 54).
  { replace (G / D - I70 / 1180591620717411303424 * S / 1024) with
      ((1208925819614629174706176 * G + - I70 * D * S) / (1208925819614629174706176 * D)) by (field; lra).
    assert (DP2 : 0 < 1208925819614629174706176 * D) by lra.
    unfold Rdiv. rewrite Rabs_mult, (Rabs_pos_eq (/ (_ * D))) by (apply Rlt_le, Rinv_0_lt_compat, DP2).
    apply div_le; [exact DP2|]. eapply Rle_trans; [exact Bd|]. lra. }
  assert (A4 : Rabs (I70 / 1180591620717411303424 * S / 1024 - i * S / 1024) <= / 2 ^ 60).
  { replace (I70 / 1180591620717411303424 * S / 1024 - i * S / 1024) with ((I70 / 1180591620717411303424 - i) * (S / 1024)) by field.
    rewrite Rabs_mult. apply Rle_trans with (2 / 1180591620717411303424 * 2); [|lra].
    apply Rmult_le_compat; try apply Rabs_pos.
    - apply Rabs_le. lra.
    - unfold Rdiv. rewrite Rabs_mult, (Rabs_pos_eq (/ 1024)) by lra. lra. }
  replace (V - i * S / 1024) with ((V - Gq / D) + ((Gq / D - G / D) + ((G / D - I70 / 1180591620717411303424 * S / 1024)
     + (I70 / 1180591620717411303424 * S / 1024 - i * S / 1024)))) by ring.
  apply Rabs_le_inv in A1, A2, A3, A4. apply Rabs_le. lra.
Qed.

Section Asym.
  Context (E : R -> R) (HE : erfc_function E).
  Notation w := (scaled_erfc E).

  (** the last multiplication, for any of the expansions *)
  Lemma asym_acc : forall P (x : f64) k c0 cs rz z, fin x -> 12 <= Binary.B2R x <= 2 ^ 30 -> asym_ok c0 cs rz = true ->
    (forall x, asy k x = / x * (isp * peval rz (/ x * / x) / 1024)) ->
    Rabs (ac k) * (/ Binary.B2R x) ^ (2 * k) <= / 2 ^ 53 ->
    z ~= f64_mul P (hor P (f64_mul P (f64_div P (f64_lit 1.0) x) (f64_div P (f64_lit 1.0) x)) (f64_lit c0) cs)
           (f64_div P (f64_lit 1.0) x) ->
    fin z /\ Rabs (Binary.B2R z - w (Binary.B2R x)) <= / 2 ^ 48 * w (Binary.B2R x).
  Proof.
    intros P x k c0 cs rz z Fx Hx Ok As Tr Ez.
    destruct (recip_near P x Fx Hx) as (Fr & Er & _ & _ & _).
    destruct (asym_poly P x c0 cs rz Fx Hx Ok) as (Fv & Ev).
    pose proof (asy_error E HE k (Binary.B2R x) ltac:(lra)) as Ae. rewrite As in Ae.
    pose proof (asy_error E HE 1 (Binary.B2R x) ltac:(lra)) as A1. rewrite (proj2 (proj2 (proj2 ac_abs))) in A1.
    cbn [asy ac] in A1.
    set (X := Binary.B2R x) in *. set (y := / X) in *.
    set (r := f64_div P (f64_lit 1.0) x) in *. set (v := hor P (f64_mul P r r) (f64_lit c0) cs) in *.
    assert (Y : 0 < y <= 1 / 12).
    { split; [apply Rinv_0_lt_compat; lra|]. unfold y. unfold Rdiv. rewrite Rmult_1_l. apply Rinv_le_contravar; lra. }
    assert (Y2 : / 2 ^ 30 <= y) by (unfold y; apply Rinv_le_contravar; lra).
    pose proof isp_range as Is. set (i := isp) in *.
    set (W := w X) in *. set (T := W / y).
    assert (WT : W = T * y) by (unfold T; field; lra).
    (* T in [0.56, 0.57] *)
    assert (TB : 0.56 <= T <= 0.57).
    { replace (0 + i * y ^ (2 * 0 + 1)) with (i * y) in A1 by (simpl; ring).
      replace (i * (1 / 2) * y ^ (2 * 1 + 1)) with (i * (1 / 2) * (y * y) * y) in A1 by (simpl; ring).
      rewrite WT in A1. replace (T * y - i * y) with ((T - i) * y) in A1 by ring.
      rewrite Rabs_mult, (Rabs_pos_eq y) in A1 by lra. apply Rmult_le_reg_r in A1; [|lra].
      assert (y * y <= 1 / 12 * (1 / 12)) by (apply Rmult_le_compat; lra).
      assert (i * (1 / 2) * (y * y) <= 0.565 * (1 / 2) * (1 / 12 * (1 / 12))) by (apply Rmult_le_compat; try lra; nra).
      apply Rabs_le_inv in A1. lra. }
    (* v near T *)
    assert (VT : Rabs (Binary.B2R v - T) <= 1450 / 2 ^ 60).
    { assert (Q : Rabs (T - i * peval rz (y * y) / 1024) <= / 2 ^ 53).
      { replace (W - y * (i * peval rz (y * y) / 1024)) with (y * (T - i * peval rz (y * y) / 1024)) in Ae by (rewrite WT; ring).
        rewrite Rabs_mult, (Rabs_pos_eq y) in Ae by lra.
        replace (y ^ (2 * k + 1)) with (y * y ^ (2 * k)) in Ae by (rewrite Nat.add_1_r; reflexivity).
        replace (Rabs (ac k) * (y * y ^ (2 * k))) with (y * (Rabs (ac k) * y ^ (2 * k))) in Ae by ring.
        apply Rmult_le_reg_l in Ae; [|lra]. lra. }
      apply Rabs_le_inv in Q, Ev. apply Rabs_le. lra. }
    set (V := Binary.B2R v) in *. set (rr := Binary.B2R r) in *.
    assert (B53 : bpow radix2 (-53) = / 2 ^ 53) by (simpl; lra). rewrite B53 in Er.
    apply Rabs_le_inv in VT, Er.
    assert (VR : Rabs (V * rr - W) <= 1.6 / 2 ^ 50 * y).
    { rewrite WT. replace (V * rr - T * y) with (V * (rr - y) + (V - T) * y) by ring.
      eapply Rle_trans; [apply Rabs_triang|]. rewrite !Rabs_mult, (Rabs_pos_eq y) by lra.
      assert (Rabs V <= 0.6) by (apply Rabs_le; lra).
      assert (Rabs (rr - y) <= / 2 ^ 53 * y) by (apply Rabs_le; lra).
      assert (Rabs V * Rabs (rr - y) <= 0.6 * (/ 2 ^ 53 * y)) by (apply Rmult_le_compat; try apply Rabs_pos; assumption).
      assert (Rabs (V - T) <= 1450 / 2 ^ 60) by (apply Rabs_le; lra).
      assert (Rabs (V - T) * y <= 1450 / 2 ^ 60 * y) by (apply Rmult_le_compat_r; lra). lra. }
    assert (Wy : 0.56 * y <= W <= 0.57 * y) by (rewrite WT; split; apply Rmult_le_compat_r; lra).
    apply Rabs_le_inv in VR.
    assert (Vp : 0.5 * y <= V * rr <= 0.6 * y) by lra.
    pose proof (rnd_abs_err (V * rr)) as Rn. rewrite (Rabs_pos_eq (V * rr)), B53 in Rn by lra.
    assert (T1075 : bpow radix2 (-1075) <= / 2 ^ 55 * / 2 ^ 30).
    { replace (/ 2 ^ 55 * / 2 ^ 30) with (bpow radix2 (-85)) by (simpl; lra). apply bpow_le. lia. }
    destruct (rounds_small _ _ (mul_spec P v r Fv Fr)) as [Fm Vm].
    { fold V rr. apply Rabs_le_inv in Rn. pose proof Om_big. apply Rabs_lt. lra. }
    symmetry in Ez. apply eqn_nonnan in Ez; [|apply fin_nonnan; exact Fm]. subst z. split; [exact Fm|].
    rewrite Vm. fold V rr.
    apply Rabs_le_inv in Rn. apply Rabs_le. lra.
  Qed.

  Lemma pow_y : forall x k b, 0 < b -> b <= x -> (/ x) ^ k <= (/ b) ^ k.
  Proof.
    intros x k b Hb Hx. apply pow_incr. split; [left; apply Rinv_0_lt_compat; lra|apply Rinv_le_contravar; lra].
  Qed.

  Lemma asym11_acc : forall P (x : f64), fin x -> 12 <= Binary.B2R x <= 2 ^ 30 ->
    let z := @erfcx_asym11 (ieee P) (f64_div P (f64_lit 1.0) x) in
    fin z /\ Rabs (Binary.B2R z - w (Binary.B2R x)) <= / 2 ^ 48 * w (Binary.B2R x).
  Proof.
    intros P x Fx Hx. apply (asym_acc P x 11 _ _ rz11 _ Fx Hx asym11_ok asy_11); [|apply asym11_hor].
    pose proof (pow_y (Binary.B2R x) (2 * 11) 12 ltac:(lra) ltac:(lra)) as Y. rewrite (proj1 ac_abs).
    pose proof isp_range. apply Rle_trans with (0.565 * (13749310575 / 2048) * (/ 12) ^ (2 * 11)).
    - apply Rmult_le_compat; try lra. apply pow_le. left. apply Rinv_0_lt_compat. lra.
    - cbn [Nat.mul Nat.add pow]. lra.
  Qed.
  Lemma asym7_acc : forall P (x : f64), fin x -> 23 <= Binary.B2R x <= 2 ^ 30 ->
    let z := @erfcx_asym7 (ieee P) (f64_div P (f64_lit 1.0) x) in
    fin z /\ Rabs (Binary.B2R z - w (Binary.B2R x)) <= / 2 ^ 48 * w (Binary.B2R x).
  Proof.
    intros P x Fx Hx. apply (asym_acc P x 7 _ _ rz7 _ Fx ltac:(lra) asym7_ok asy_7); [|apply asym7_hor].
    pose proof (pow_y (Binary.B2R x) (2 * 7) 23 ltac:(lra) ltac:(lra)) as Y. rewrite (proj1 (proj2 ac_abs)).
    pose proof isp_range. apply Rle_trans with (0.565 * (135135 / 128) * (/ 23) ^ (2 * 7)).
    - apply Rmult_le_compat; try lra. apply pow_le. left. apply Rinv_0_lt_compat. lra.
    - cbn [Nat.mul Nat.add pow]. lra.
  Qed.
  Lemma asym4_acc : forall P (x : f64), fin x -> 150 <= Binary.B2R x <= 2 ^ 30 ->
    let z := @erfcx_asym4 (ieee P) (f64_div P (f64_lit 1.0) x) in
    fin z /\ Rabs (Binary.B2R z - w (Binary.B2R x)) <= / 2 ^ 48 * w (Binary.B2R x).
  Proof.
    intros P x Fx Hx. apply (asym_acc P x 4 _ _ rz4 _ Fx ltac:(lra) asym4_ok asy_4); [|apply asym4_hor].
    pose proof (pow_y (Binary.B2R x) (2 * 4) 150 ltac:(lra) ltac:(lra)) as Y. rewrite (proj1 (proj2 (proj2 ac_abs))).
    pose proof isp_range. apply Rle_trans with (0.565 * (105 / 16) * (/ 150) ^ (2 * 4)).
    - apply Rmult_le_compat; try lra. apply pow_le. left. apply Rinv_0_lt_compat. lra.
    - cbn [Nat.mul Nat.add pow]. lra.
  Qed.

  (** beyond the expansions: 1 / (sqrt PI x), possibly subnormal *)
  Lemma asym_last : forall P (x : f64), fin x -> 2 ^ 26 <= Binary.B2R x ->
    let z := f64_div P (f64_lit 0.564_189_583_547_756_3) x in
    fin z /\ Rabs (Binary.B2R z - w (Binary.B2R x)) <= / 2 ^ 48 * w (Binary.B2R x) + bpow radix2 (-1075).
  Proof.
    intros P x Fx Hx z.
    assert (K1 : R_of_dec 0.564_189_583_547_756_3 = 5641895835477563 / 10000000000000000).
    { unfold R_of_dec. cbn [dman dexp]. rewrite powerRZ_10. simpl. lra. }
    destruct (lit_near 0.564_189_583_547_756_3) as [Fc Ec]; [rewrite K1, Rabs_pos_eq; lra|].
    assert (B51 : bpow radix2 (-51) = / 2 ^ 51) by (simpl; lra). assert (B70 : bpow radix2 (-70) = / 2 ^ 70) by (simpl; lra).
    rewrite K1, (Rabs_pos_eq (5641895835477563 / _)), B51, B70 in Ec by lra.
    pose proof isp_bounds as [Li Ui]. unfold isp70 in Li, Ui. change (2 ^ 70)%Z with 1180591620717411303424%Z in Li, Ui.
    pose proof (asy_error E HE 1 (Binary.B2R x) ltac:(lra)) as A1. rewrite (proj2 (proj2 (proj2 ac_abs))) in A1. cbn [asy ac] in A1.
    set (X := Binary.B2R x) in *. set (y := / X) in *. set (W := w X) in *. set (i := isp) in *.
    assert (Y : 0 < y <= / 2 ^ 26).
    { split; [apply Rinv_0_lt_compat; lra|]. unfold y. apply Rinv_le_contravar; lra. }
    set (c := Binary.B2R (f64_lit 0.564_189_583_547_756_3)) in *.
    pose proof (div_spec P (f64_lit 0.564_189_583_547_756_3) x Fc Fx ltac:(fold X; lra)) as D. fold c X in D.
    change (c / X) with (c * y) in D.
    apply Rabs_le_inv in Ec.
    pose proof (rnd_abs_err (c * y)) as Rn.
    assert (B53 : bpow radix2 (-53) = / 2 ^ 53) by (simpl; lra). rewrite B53 in Rn.
    assert (Cy : 0.56 * y <= c * y <= 0.57 * y) by (split; apply Rmult_le_compat_r; lra).
    rewrite (Rabs_pos_eq (c * y)) in Rn by lra.
    assert (T1075 : bpow radix2 (-1075) <= 1) by (change 1 with (bpow radix2 0); apply bpow_le; lia).
    destruct (rounds_small _ _ D) as [Fz Vz].
    { apply Rabs_le_inv in Rn. pose proof Om_big. apply Rabs_lt. lra. }
    fold z in Fz, Vz. split; [exact Fz|].
    replace (0 + i * y ^ (2 * 0 + 1)) with (i * y) in A1 by (simpl; ring).
    replace (i * (1 / 2) * y ^ (2 * 1 + 1)) with (i * (1 / 2) * (y * y) * y) in A1 by (simpl; ring).
    assert (Yy : y * y <= / 2 ^ 52).
    { apply Rle_trans with (/ 2 ^ 26 * / 2 ^ 26); [apply Rmult_le_compat; lra|lra]. }
    assert (Z1 : i * (1 / 2) * (y * y) * y <= / 2 ^ 53 * y).
    { apply Rmult_le_compat_r; [lra|]. apply Rle_trans with (1 * (1 / 2) * / 2 ^ 52); [|lra]. apply Rmult_le_compat; try lra; nra. }
    assert (Z2 : Rabs (c * y - i * y) <= 1.2 / 2 ^ 51 * y).
    { replace (c * y - i * y) with ((c - i) * y) by ring. rewrite Rabs_mult, (Rabs_pos_eq y) by lra. apply Rmult_le_compat_r; [lra|].
      apply Rabs_le. lra. }
    assert (Iy : 0.56 * y <= i * y) by (apply Rmult_le_compat_r; lra).
    rewrite Vz. apply Rabs_le_inv in A1, Rn, Z2. apply Rabs_le. lra.
  Qed.
End Asym.
