(** * The Lanczos sum of ln_gamma against the gamma function

    With A (x) = N (x) / (x (x + 1) ... (x + 5)) the factors of the denominator
    are those of G (x + 6) = x (x + 1) ... (x + 5) G (x): the difference between
    the Lanczos formula and Stirling's series at x + 6 has a rational second
    derivative. *)

From Coq Require Import ZArith Reals Lra Lia List.
From Flocq Require Import Core.Raux.
From Verif.Spec Require Import GammaSpec.
From Verif.Proofs Require Import Poly PolyZ PolyShift ErfcODE Stirling GammaPoly StirlingConst.
Import ListNotations.
Open Scope R_scope.

Definition SC : Z := (10 ^ 20)%Z.
(** the coefficients over 10^20 *)
Definition lc : list Z :=
  [100000000018971200000; 7618009172948503000000; -8650532032927205000000; 2401409824118972000000; -123173957837522540000; 120865775265947480; -539702438713199]%Z.
Definition lcf (i : nat) : R := IZR (nth i lc 0%Z) / IZR SC.
(** the sum, as a function of the argument of gamma *)
Definition AL (x : R) : R :=
  lcf 0 + lcf 1 / x + lcf 2 / (x + 1) + lcf 3 / (x + 2) + lcf 4 / (x + 3) + lcf 5 / (x + 4) + lcf 6 / (x + 5).
Definition hL (x : R) : R := ln (2 * PI) / 2 + ln (AL x) - (x + 9 / 2) + ln (x + 9 / 2) * (x - 1 / 2).

Definition x6 (x : R) : R := x * (x + 1) * (x + 2) * (x + 3) * (x + 4) * (x + 5).
Definition NL : list Z := Eval vm_compute in
  let m := fold_right (fun k a => pmul [k; 1]%Z a) [1]%Z in
  fold_right padd [] [pscale (nth 0 lc 0%Z) (m [0; 1; 2; 3; 4; 5]%Z); pscale (nth 1 lc 0%Z) (m [1; 2; 3; 4; 5]%Z); pscale (nth 2 lc 0%Z) (m [0; 2; 3; 4; 5]%Z);
    pscale (nth 3 lc 0%Z) (m [0; 1; 3; 4; 5]%Z); pscale (nth 4 lc 0%Z) (m [0; 1; 2; 4; 5]%Z); pscale (nth 5 lc 0%Z) (m [0; 1; 2; 3; 5]%Z);
    pscale (nth 6 lc 0%Z) (m [0; 1; 2; 3; 4]%Z)].

Lemma NL_AL : forall x, 0 < x -> peval NL x = IZR SC * (x6 x * AL x).
Proof.
  intros x Hx. unfold AL, x6, lcf, SC, NL, peval. cbn [fold_right nth lc]. change (IZR (10 ^ 20)) with 100000000000000000000.
  field. repeat split; lra.
Qed.
Lemma NL_pos : forall x, 0 < x -> 0 < peval NL x.
Proof.
  intros x Hx. unfold NL. rewrite peval_cons.
  match goal with |- 0 < _ + x * peval ?l x => pose proof (peval_nonneg l x ltac:(lra) eq_refl) as H end.
  pose proof (Rmult_le_pos _ _ (Rlt_le _ _ Hx) H). lra.
Qed.

(** ** The difference *)

Definition NL1 : list Z := pder NL.
Definition NL2 : list Z := pder NL1.

Lemma derive_shiftc : forall c f g x, derivable_pt_lim f (x + c) g -> derivable_pt_lim (fun t => f (t + c)) x g.
Proof.
  intros c f g x H. replace g with (g * (1 + 0)) by ring. apply (derivable_pt_lim_comp (fun t => t + c) f); [|exact H].
  apply derivable_pt_lim_plus; [apply derivable_pt_lim_id|apply derivable_pt_lim_const].
Qed.
Lemma derive_inv2 : forall x, 0 < x -> derivable_pt_lim (fun t => / (t * t)) x (- 2 * / (x * x * x)).
Proof.
  intros x Hx. apply (derivable_pt_lim_ext (fun t => / t * / t)); [intros t; rewrite Rinv_mult; reflexivity|].
  replace (- 2 * / (x * x * x)) with (- / (x * x) * / x + / x * - / (x * x)) by (field; lra).
  apply (derivable_pt_lim_mult Rinv Rinv); apply derive_inv, Hx.
Qed.
Lemma derive_inv3 : forall x, 0 < x -> derivable_pt_lim (fun t => / (t * t * t)) x (- 3 * / (x * x * x * x)).
Proof.
  intros x Hx. apply (derivable_pt_lim_ext (fun t => / (t * t) * / t)); [intros t; rewrite (Rinv_mult (t * t)); reflexivity|].
  replace (- 3 * / (x * x * x * x)) with (- 2 * / (x * x * x) * / x + / (x * x) * - / (x * x)) by (field; lra).
  apply (derivable_pt_lim_mult (fun t => / (t * t)) Rinv); [apply derive_inv2, Hx|apply derive_inv, Hx].
Qed.

Lemma vanishes_over : forall f C B, 0 <= C -> (forall x, B <= x -> Rabs (f x) <= C / x) -> vanishes f.
Proof.
  intros f C B HC H eps He. exists (Rmax B (Rmax 1 (C / eps))). intros x Hx.
  assert (X0 : B <= x) by (eapply Rle_trans; [apply Rmax_l|exact Hx]).
  assert (X1 : 1 <= x) by (eapply Rle_trans; [|exact Hx]; eapply Rle_trans; [apply Rmax_l|apply Rmax_r]).
  assert (X2 : C / eps <= x) by (eapply Rle_trans; [|exact Hx]; eapply Rle_trans; [apply Rmax_r|apply Rmax_r]).
  eapply Rle_trans; [apply H, X0|]. apply Rmult_le_reg_r with (x / eps); [apply Rdiv_lt_0_compat; lra|].
  replace (C / x * (x / eps)) with (C / eps) by (field; lra). replace (eps * (x / eps)) with x by (field; lra). exact X2.
Qed.

Section Diff.
  Variables (s : list Z) (sg : Z) (k1 k2 a1 a2 : Z).
  Hypothesis (H0 : hd 0%Z s = 0%Z) (Ha1 : (0 <= a1)%Z) (Ha2 : (0 <= a2)%Z).

  Definition ee (x : R) : R := ln (peval NL x) - ln (IZR SC) + (x - 1 / 2) * ln (x + 9 / 2) - (x + 9 / 2) - ST s DS (x + 6).
  Definition ee1 (x : R) : R := peval NL1 x / peval NL x + (ln (x + 9 / 2) + (x - 1 / 2) * / (x + 9 / 2)) - 1 - ST1 s DS (x + 6).
  Definition ee2 (x : R) : R :=
    (peval NL2 x * peval NL x - peval NL1 x * peval NL1 x) / Rsqr (peval NL x) + (/ (x + 9 / 2) + 5 * / ((x + 9 / 2) * (x + 9 / 2))) - ST2 s DS (x + 6).
  Lemma derive_ee : forall x, 0 < x -> derivable_pt_lim ee x (ee1 x).
  Proof.
    intros x Hx. unfold ee, ee1. pose proof (NL_pos x Hx) as NP.
    apply derivable_pt_lim_minus; [|apply derive_shiftc, derive_ST; [reflexivity|lra]].
    replace 1 with (1 + 0) at 2 by ring.
    apply derivable_pt_lim_minus; [|apply derivable_pt_lim_plus; [apply derivable_pt_lim_id|apply derivable_pt_lim_const]].
    apply derivable_pt_lim_plus.
    - replace (peval NL1 x / peval NL x) with (peval NL1 x / peval NL x - 0) by ring. apply derivable_pt_lim_minus; [|apply derivable_pt_lim_const].
      unfold Rdiv. rewrite Rmult_comm. apply (derivable_pt_lim_comp (peval NL) ln); [apply derive_peval|apply derive_ln, NP].
    - replace (ln (x + 9 / 2)) with ((1 - 0) * ln (x + 9 / 2)) by ring. apply (derivable_pt_lim_mult (fun t => t - 1 / 2) (fun t => ln (t + 9 / 2))).
      + apply derivable_pt_lim_minus; [apply derivable_pt_lim_id|apply derivable_pt_lim_const].
      + apply derive_shiftc, derive_ln. lra.
  Qed.
  Lemma derive_ee1 : forall x, 0 < x -> derivable_pt_lim ee1 x (ee2 x).
  Proof.
    intros x Hx. unfold ee1, ee2. pose proof (NL_pos x Hx) as NP.
    apply derivable_pt_lim_minus; [|apply derive_shiftc, derive_ST1; [reflexivity|lra]].
    match goal with |- derivable_pt_lim _ _ ?r => replace r with (r - 0) by ring end.
    apply derivable_pt_lim_minus; [|apply derivable_pt_lim_const].
    apply derivable_pt_lim_plus.
    - apply (derivable_pt_lim_div (peval NL1) (peval NL)); [apply derive_peval|apply derive_peval|lra].
    - replace (/ (x + 9 / 2) + 5 * / ((x + 9 / 2) * (x + 9 / 2))) with (/ (x + 9 / 2) + ((1 - 0) * / (x + 9 / 2) + (x - 1 / 2) * - / ((x + 9 / 2) * (x + 9 / 2)))) by (field; lra).
      apply derivable_pt_lim_plus; [apply derive_shiftc, derive_ln; lra|].
      apply (derivable_pt_lim_mult (fun t => t - 1 / 2) (fun t => / (t + 9 / 2))).
      + apply derivable_pt_lim_minus; [apply derivable_pt_lim_id|apply derivable_pt_lim_const].
      + apply (derive_shiftc (9 / 2) Rinv), derive_inv. lra.
  Qed.

  Definition q1 (x : R) : R := x + IZR a1.
  Definition q2 (x : R) : R := x + IZR a2.
  Definition tt : R := 1000000000000.
  Definition ff (x : R) : R := IZR sg * (ee x - ln (lcf 0)) + (IZR k1 / tt * / q1 x + IZR k2 / tt * / (q2 x * q2 x)).
  Definition ff1 (x : R) : R := IZR sg * (ee1 x - 0) + (IZR k1 / tt * - / (q1 x * q1 x) + IZR k2 / tt * (- 2 * / (q2 x * q2 x * q2 x))).
  Definition ff2 (x : R) : R := IZR sg * (ee2 x - 0) + (IZR k1 / tt * - (- 2 * / (q1 x * q1 x * q1 x)) + IZR k2 / tt * (- 2 * (- 3 * / (q2 x * q2 x * q2 x * q2 x)))).
  Lemma q_pos : forall x, 0 < x -> 0 < q1 x /\ 0 < q2 x.
  Proof. intros x Hx. apply IZR_le in Ha1, Ha2. unfold q1, q2. lra. Qed.
  Lemma derive_ff : forall x, 0 < x -> derivable_pt_lim ff x (ff1 x).
  Proof.
    intros x Hx. destruct (q_pos x Hx) as [Q1 Q2]. unfold ff, ff1. apply derivable_pt_lim_plus.
    - apply (derivable_pt_lim_scal (fun t => ee t - ln (lcf 0))). apply derivable_pt_lim_minus; [apply derive_ee, Hx|apply derivable_pt_lim_const].
    - apply derivable_pt_lim_plus.
      + apply (derivable_pt_lim_scal (fun t => / q1 t)). apply (derive_shiftc (IZR a1) Rinv), derive_inv, Q1.
      + apply (derivable_pt_lim_scal (fun t => / (q2 t * q2 t))). apply (derive_shiftc (IZR a2) (fun t => / (t * t))), derive_inv2, Q2.
  Qed.
  Lemma derive_ff1 : forall x, 0 < x -> derivable_pt_lim ff1 x (ff2 x).
  Proof.
    intros x Hx. destruct (q_pos x Hx) as [Q1 Q2]. unfold ff1, ff2. apply derivable_pt_lim_plus.
    - apply (derivable_pt_lim_scal (fun t => ee1 t - 0)). apply derivable_pt_lim_minus; [apply derive_ee1, Hx|apply derivable_pt_lim_const].
    - apply derivable_pt_lim_plus.
      + apply (derivable_pt_lim_scal (fun t => - / (q1 t * q1 t))). apply (derivable_pt_lim_opp (fun t => / (q1 t * q1 t))).
        apply (derive_shiftc (IZR a1) (fun t => / (t * t))), derive_inv2, Q1.
      + apply (derivable_pt_lim_scal (fun t => - 2 * / (q2 t * q2 t * q2 t))). apply (derivable_pt_lim_scal (fun t => / (q2 t * q2 t * q2 t))).
        apply (derive_shiftc (IZR a2) (fun t => / (t * t * t))), derive_inv3, Q2.
  Qed.

  (** the numerator of the second derivative *)
  Definition r2s : list Z := rev (dinv (dinv s)).
  Definition mm : nat := length r2s.
  Definition py : list Z := ppow [6; 1]%Z mm.
  (** 2 DS y^mm ST2 (y) *)
  Definition pst : list Z :=
    padd (padd (pscale (2 * DS) (ppow [6; 1]%Z (mm - 1))) (pscale DS (ppow [6; 1]%Z (mm - 2)))) (pscale 2 (pmul [6; 1]%Z (pshift 6 r2s))).
  Definition pq : list Z := pmul (ppow [a1; 1]%Z 3) (ppow [a2; 1]%Z 4).
  Definition NN : list Z := pmul NL NL.
  Definition W2 : list Z := ppow [9; 2]%Z 2.
  Definition sgnp : list Z :=
    let b := pscale (2 * DS) py in
    padd (pscale (sg * 10 ^ 12) (pmul pq
        (padd (pmul (padd (pmul NL2 NL) (pscale (-1) (pmul NL1 NL1))) (pmul b W2))
              (pmul NN (padd (pmul b [38; 4]%Z) (pscale (-1) (pmul W2 pst)))))))
      (pmul NN (pmul (pmul b W2) (padd (pscale (2 * k1) (ppow [a2; 1]%Z 4)) (pscale (6 * k2) (ppow [a1; 1]%Z 3))))).

  Lemma pst_ok : forall x, 0 < x -> (2 <= mm)%nat -> peval pst x = 2 * IZR DS * (x + 6) ^ mm * ST2 s DS (x + 6).
  Proof.
    intros x Hx Hm. unfold pst. rewrite !peval_padd, !peval_pscale, peval_pmul, !peval_ppow, peval_pshift, !peval_cons, mult_IZR.
    change (peval [] x) with 0. replace (6 + x * (1 + x * 0)) with (x + 6) by ring.
    pose proof (peval_rev (dinv (dinv s)) (x + 6) ltac:(lra)) as R1. rewrite <- (rev_length (dinv (dinv s))) in R1.
    fold r2s in R1. fold mm in R1. fold (pinv (dinv (dinv s)) (x + 6)) in R1. unfold ST2.
    set (p := pinv (dinv (dinv s)) (x + 6)) in *. set (r := peval r2s (x + 6)) in *. set (y := x + 6) in *.
    assert (DP : 0 < IZR DS) by (apply IZR_lt; reflexivity). set (d := IZR DS) in *. clearbody p r d.
    remember (mm - 2)%nat as n eqn:En. assert (Lm : mm = S (S n)) by lia. rewrite Lm in *. replace (S (S n) - 1)%nat with (S n) by lia.
    transitivity (2 * d * y ^ S n + d * y ^ n + 2 * (y * r)); [ring|]. rewrite R1. cbn [pow]. field. unfold y; lra.
  Qed.
  Lemma sgnp_ok : forall x, 0 < x -> (2 <= mm)%nat ->
    peval sgnp x = ff2 x * (tt * (2 * IZR DS) * (x + 6) ^ mm * (peval NL x * peval NL x) * ((2 * x + 9) * (2 * x + 9)) * (q1 x ^ 3 * q2 x ^ 4)).
  Proof.
    intros x Hx Hm. destruct (q_pos x Hx) as [Q1 Q2]. pose proof (NL_pos x Hx) as NP. pose proof (pst_ok x Hx Hm) as PS.
    unfold sgnp, NN, W2, pq, py. cbv zeta.
    rewrite ?peval_padd, ?peval_pscale, ?peval_pmul, ?peval_padd, ?peval_pscale, ?peval_pmul, ?peval_padd, ?peval_pscale, ?peval_pmul, ?peval_pscale, ?peval_ppow, PS, ?peval_cons.
    change (peval [] x) with 0. rewrite ?mult_IZR. change (IZR (10 ^ 12)) with tt.
    replace (6 + x * (1 + x * 0)) with (x + 6) by ring. replace (IZR a1 + x * (1 + x * 0)) with (q1 x) by (unfold q1; ring). replace (IZR a2 + x * (1 + x * 0)) with (q2 x) by (unfold q2; ring).
    replace (9 + x * (2 + x * 0)) with (2 * x + 9) by ring. replace (38 + x * (4 + x * 0)) with (4 * x + 38) by ring.
    unfold ff2, ee2, Rsqr. assert (T0 : 0 < tt) by (unfold tt; lra). assert (DP : 0 < IZR DS) by (apply IZR_lt; reflexivity).
    set (n := peval NL x) in *. set (n1 := peval NL1 x) in *. set (n2 := peval NL2 x) in *. set (st := ST2 s DS (x + 6)) in *.
    set (ym := (x + 6) ^ mm) in *. set (u := q1 x) in *. set (v := q2 x) in *. set (t := tt) in *. set (d := IZR DS) in *. set (g := IZR sg) in *. set (l1 := IZR k1) in *. set (l2 := IZR k2) in *.
    clearbody n n1 n2 st ym u v t d g l1 l2. clear PS. cbn [pow]. field. repeat split; lra.
  Qed.

  Lemma ff_nonneg : (2 <=? mm)%nat = true -> forallb (fun c => (0 <=? c)%Z) sgnp = true -> vanishes ff -> forall x, 0 < x -> 0 <= ff x.
  Proof.
    intros Hm Hs V. apply Nat.leb_le in Hm. apply (convex_vanishing ff ff1 ff2 derive_ff derive_ff1); [|exact V].
    intros x Hx. pose proof (peval_nonneg sgnp x ltac:(lra) Hs) as H. rewrite sgnp_ok, Rmult_comm in H by assumption.
    destruct (q_pos x Hx) as [Q1 Q2]. pose proof (NL_pos x Hx) as NP.
    apply Rmult_le_reg_l with (2 := eq_rect_r (fun r => r <= _) H (Rmult_0_r _)).
    repeat apply Rmult_lt_0_compat; try (apply pow_lt); try lra; try (apply IZR_lt; reflexivity).
  Qed.
End Diff.

(** ** Behaviour at infinity *)

Definition ML : list Z := Eval vm_compute in pshift (-6) NL.
Definition RL : list Z := Eval vm_compute in tl (rev ML).
Definition m6 : Z := Eval vm_compute in nth 0 lc 0%Z.
Lemma NL_inf : forall x, 0 < x -> peval NL x = (x + 6) ^ 6 * (IZR m6 * (1 + / (x + 6) * (peval RL (/ (x + 6)) / IZR m6))).
Proof.
  intros x Hx. replace (peval NL x) with (peval ML (x + 6)).
  2: { change ML with (pshift (-6) NL). rewrite peval_pshift. f_equal. ring. }
  pose proof (peval_rev (rev ML) (x + 6) ltac:(lra)) as H. rewrite rev_involutive in H.
  change (rev ML) with (m6 :: RL) in H. rewrite peval_cons in H. change (length (m6 :: RL)) with 7%nat in H.
  assert (M : 0 < IZR m6) by (apply IZR_lt; reflexivity).
  set (y := x + 6) in *. set (p := peval ML y) in *. set (r := peval RL (/ y)) in *. set (m := IZR m6) in *. clearbody p r m.
  apply Rmult_eq_reg_l with y; [|unfold y; lra]. rewrite H. change (y ^ 7) with (y * y ^ 6). field. subst y; split; lra.
Qed.

Lemma RL_small : forall x, 1 <= x -> Rabs (/ (x + 6) * (peval RL (/ (x + 6)) / IZR m6)) <= 200 / x.
Proof.
  intros x Hx. assert (I : 0 < / (x + 6) <= / x) by (split; [apply Rinv_0_lt_compat; lra|apply Rinv_le_contravar; lra]).
  assert (I1 : / (x + 6) <= 1) by (rewrite <- Rinv_1; apply Rinv_le_contravar; lra).
  assert (M : 0 < IZR m6) by (apply IZR_lt; reflexivity).
  unfold Rdiv. rewrite !Rabs_mult, (Rabs_pos_eq (/ (x + 6))), (Rabs_pos_eq (/ IZR m6)), Rmult_comm by (try lra; left; apply Rinv_0_lt_compat, M).
  apply Rmult_le_compat; [|lra| |lra].
  - apply Rmult_le_pos; [apply Rabs_pos|left; apply Rinv_0_lt_compat, M].
  - apply div_le; [exact M|]. eapply Rle_trans; [apply (peval_norm RL); rewrite Rabs_pos_eq; lra|].
    rewrite <- mult_IZR. apply IZR_le. vm_compute. discriminate.
Qed.

Lemma ln_1_small : forall t b, Rabs t <= b -> b <= 1 / 2 -> Rabs (ln (1 + t)) <= 2 * b.
Proof.
  intros t b Ht Hb. assert (0 <= b) by (pose proof (Rabs_pos t); lra). apply Rabs_le_inv in Ht.
  replace (ln (1 + t)) with (ln (1 + t) - ln 1) by (rewrite ln_1; ring).
  apply ln_close; [lra|lra|lra| |]; apply Rabs_le.
  - assert (Q : b * 1 <= 2 * b * (1 + t)) by (rewrite (Rmult_comm 2), Rmult_assoc; apply Rmult_le_compat_l; lra). lra.
  - lra.
Qed.

Lemma ee_small : forall s, hd 0%Z s = 0%Z -> exists C, 0 <= C /\ forall x, 400 <= x -> Rabs (ee s x - ln (lcf 0)) <= C / x.
Proof.
  intros s H0. destruct (pinv_small s DS eq_refl H0) as (C & HC & BC).
  exists (400 + 10 + C). split; [lra|]. intros x Hx.
  pose proof (BC (x + 6) ltac:(lra)) as B. pose proof (RL_small x ltac:(lra)) as RS.
  assert (IX : 0 < / x) by (apply Rinv_0_lt_compat; lra).
  assert (B' : C / (x + 6) <= C * / x) by (apply Rmult_le_compat_l; [exact HC|apply Rinv_le_contravar; lra]).
  assert (IX2 : / x <= / 400) by (apply Rinv_le_contravar; lra).
  set (t := / (x + 6) * (peval RL (/ (x + 6)) / IZR m6)) in *.
  pose proof (ln_1_small t (200 / x) RS ltac:(unfold Rdiv; lra)) as L.
  assert (M : 0 < IZR m6) by (apply IZR_lt; reflexivity). assert (SP : 0 < IZR SC) by (apply IZR_lt; reflexivity).
  assert (T1 : 0 < 1 + t) by (apply Rabs_le_inv in RS; unfold Rdiv in RS; lra).
  assert (E : ee s x - ln (lcf 0) = ln (1 + t) + ((x - 1 / 2) * (ln (x + 9 / 2) - ln (x + 6)) + 3 / 2) - pinv s (x + 6) / IZR DS).
  { unfold ee, ST. rewrite (NL_inf x ltac:(lra)). fold t. change (lcf 0) with (IZR m6 / IZR SC).
    rewrite (ln_mult ((x + 6) ^ 6)), (ln_mult (IZR m6)), ln_pow, ln_div by (try assumption; try lra; try (apply pow_lt; lra); apply Rmult_lt_0_compat; assumption).
    rewrite INR_IZR_INZ. change (Z.of_nat 6) with 6%Z. set (p := pinv s (x + 6) / IZR DS). field. }
  rewrite E.
  assert (D : ln (x + 9 / 2) - ln (x + 6) = - ln (1 + 3 / 2 / (x + 9 / 2))).
  { replace (1 + 3 / 2 / (x + 9 / 2)) with ((x + 6) / (x + 9 / 2)) by (field; lra). rewrite ln_div by lra. ring. }
  assert (U0 : 0 <= 3 / 2 / (x + 9 / 2)) by (apply Rmult_le_pos; [lra|left; apply Rinv_0_lt_compat; lra]).
  pose proof (ln_1p_le _ U0) as U1. pose proof (ln_1p_ge _ U0) as U2. rewrite D. set (l := ln (1 + 3 / 2 / (x + 9 / 2))) in *.
  assert (V1 : (x - 1 / 2) * l <= (x - 1 / 2) * (3 / 2 / (x + 9 / 2))) by (apply Rmult_le_compat_l; lra).
  assert (V2 : (x - 1 / 2) * (3 / 2 / (x + 9 / 2) - 3 / 2 / (x + 9 / 2) * (3 / 2 / (x + 9 / 2)) / 2) <= (x - 1 / 2) * l) by (apply Rmult_le_compat_l; lra).
  set (z := / (x + 9 / 2)) in *. assert (Z1 : 0 < z <= / x) by (split; [apply Rinv_0_lt_compat; lra|apply Rinv_le_contravar; lra]).
  assert (W1 : (x - 1 / 2) * (3 / 2 / (x + 9 / 2)) = 3 / 2 - 15 / 2 * z) by (unfold z; field; lra).
  assert (W3 : (x - 1 / 2) * (3 / 2 / (x + 9 / 2) - 3 / 2 / (x + 9 / 2) * (3 / 2 / (x + 9 / 2)) / 2) = 3 / 2 - 15 / 2 * z - 9 / 8 * z + 45 / 8 * (z * z)) by (unfold z; field; lra).
  assert (ZZ : 0 <= z * z) by (apply Rmult_le_pos; lra).
  rewrite W1 in V1. rewrite W3 in V2. replace ((x - 1 / 2) * - l) with (- ((x - 1 / 2) * l)) by ring.
  set (w := (x - 1 / 2) * l) in *. set (p := pinv s (x + 6) / IZR DS) in *. unfold Rdiv in L.
  apply Rabs_le_inv in L, B. apply Rabs_le. unfold Rdiv in *. lra.
Qed.

Lemma ff_vanishes : forall s sg k1 k2 a1 a2, hd 0%Z s = 0%Z -> (0 <= a1)%Z -> (0 <= a2)%Z -> vanishes (ff s sg k1 k2 a1 a2).
Proof.
  intros s sg k1 k2 a1 a2 H0 Ha1 Ha2. destruct (ee_small s H0) as (C & HC & BC).
  apply (vanishes_over _ (Rabs (IZR sg) * C + Rabs (IZR k1 / tt) + Rabs (IZR k2 / tt)) 400).
  { pose proof (Rmult_le_pos _ _ (Rabs_pos (IZR sg)) HC). pose proof (Rabs_pos (IZR k1 / tt)). pose proof (Rabs_pos (IZR k2 / tt)). lra. }
  intros x Hx. specialize (BC x Hx). unfold ff. destruct (q_pos a1 a2 Ha1 Ha2 x ltac:(lra)) as [Q1 Q2].
  assert (IX : 0 < / x <= 1) by (split; [apply Rinv_0_lt_compat; lra|rewrite <- Rinv_1; apply Rinv_le_contravar; lra]).
  apply IZR_le in Ha1, Ha2.
  assert (I1 : 0 < / q1 a1 x <= / x) by (split; [apply Rinv_0_lt_compat, Q1|apply Rinv_le_contravar; unfold q1; lra]).
  assert (I2 : 0 < / q2 a2 x <= / x) by (split; [apply Rinv_0_lt_compat, Q2|apply Rinv_le_contravar; unfold q2; lra]).
  assert (I3 : 0 <= / (q2 a2 x * q2 a2 x) <= / x).
  { rewrite Rinv_mult. split; [apply Rmult_le_pos; lra|]. rewrite <- (Rmult_1_r (/ x)). apply Rmult_le_compat; lra. }
  replace ((Rabs (IZR sg) * C + Rabs (IZR k1 / tt) + Rabs (IZR k2 / tt)) / x) with (Rabs (IZR sg) * (C / x) + (Rabs (IZR k1 / tt) * / x + Rabs (IZR k2 / tt) * / x)) by (unfold Rdiv; ring).
  eapply Rle_trans; [apply Rabs_triang|]. apply Rplus_le_compat.
  - rewrite Rabs_mult. apply Rmult_le_compat_l; [apply Rabs_pos|exact BC].
  - eapply Rle_trans; [apply Rabs_triang|]. rewrite !Rabs_mult, (Rabs_pos_eq (/ q1 a1 x)), (Rabs_pos_eq (/ (_ * _))) by lra.
    apply Rplus_le_compat; apply Rmult_le_compat_l; try apply Rabs_pos; lra.
Qed.

(** ** The two brackets *)

Lemma lower : forall x, 0 < x -> 0 <= ff s9 1 12000 100 25 1 x.
Proof.
  apply ff_nonneg; try lia; [reflexivity|vm_compute; reflexivity|apply ff_vanishes; [reflexivity|lia|lia]].
Qed.
Lemma upper : forall x, 0 < x -> 0 <= ff s10 (-1) 1200 0 6 1 x.
Proof.
  apply ff_nonneg; try lia; [reflexivity|vm_compute; reflexivity|apply ff_vanishes; [reflexivity|lia|lia]].
Qed.

Section Against.
  Variable G : R -> R.
  Hypothesis HG : gamma_function G.

  Lemma AL_pos : forall x, 0 < x -> 0 < AL x.
  Proof.
    intros x Hx. pose proof (NL_pos x Hx) as N. rewrite (NL_AL x Hx) in N.
    assert (X : 0 < x6 x) by (unfold x6; repeat apply Rmult_lt_0_compat; lra). assert (S : 0 < IZR SC) by (apply IZR_lt; reflexivity).
    apply Rmult_lt_reg_l with (IZR SC * x6 x); [apply Rmult_lt_0_compat; assumption|]. lra.
  Qed.
  Lemma lG_x6 : forall x, 0 < x -> lG G (x + 6) = ln (x6 x) + lG G x.
  Proof.
    intros x Hx. unfold x6. rewrite !ln_mult by (repeat apply Rmult_lt_0_compat; lra).
    replace (x + 6) with (x + 1 + 1 + 1 + 1 + 1 + 1) by ring. rewrite !(lG_step G HG) by lra.
    replace (x + 1 + 1 + 1 + 1 + 1) with (x + 5) by ring. replace (x + 1 + 1 + 1 + 1) with (x + 4) by ring.
    replace (x + 1 + 1 + 1) with (x + 3) by ring. replace (x + 1 + 1) with (x + 2) by ring. ring.
  Qed.
  Lemma hL_ee : forall s x, 0 < x -> hL x - lG G x = ee s x + (ln (2 * PI) / 2 + ST s DS (x + 6) - lG G (x + 6)).
  Proof.
    intros s x Hx. rewrite (lG_x6 x Hx). unfold hL, ee. rewrite (NL_AL x Hx).
    assert (X : 0 < x6 x) by (unfold x6; repeat apply Rmult_lt_0_compat; lra). assert (S : 0 < IZR SC) by (apply IZR_lt; reflexivity).
    pose proof (AL_pos x Hx). rewrite (ln_mult (IZR SC)), (ln_mult (x6 x)) by (try assumption; apply Rmult_lt_0_compat; assumption). ring.
  Qed.
  Lemma lG_10' : lG G 10 = ln 362880.
  Proof.
    unfold lG. f_equal. destruct HG as (_ & E1 & _).
    replace 10 with (1 + 1 + 1 + 1 + 1 + 1 + 1 + 1 + 1 + 1) by ring. rewrite !(G_step G HG), E1 by lra. ring.
  Qed.

  Theorem lanczos : forall x, 0 < x -> Rabs (hL x - lG G x) <= 4 / 10 ^ 10.
  Proof.
    intros x Hx. pose proof stirling_const as K. apply Rabs_le_inv in K.
    pose proof (stirling G HG (x + 6) 10 ltac:(lra) ltac:(lra)) as S1. pose proof (stirling G HG 10 (x + 6) ltac:(lra) ltac:(lra)) as S2.
    pose proof (s10_s9 10) as T. pose proof (tail_small 10 ltac:(lra)) as TS. rewrite lG_10' in *.
    pose proof (lower x Hx) as L. pose proof (upper x Hx) as U. unfold ff, q1, q2, tt in L, U.
    assert (C1 : ln (lcf 0) <= 1897120 / 10 ^ 16).
    { replace (lcf 0) with (1 + 189712 / 10 ^ 15) by (unfold lcf; change (IZR SC) with 100000000000000000000; change (nth 0 lc 0%Z) with 100000000018971200000%Z; lra).
      eapply Rle_trans; [apply ln_1p_le; lra|lra]. }
    assert (C2 : 1897119 / 10 ^ 16 <= ln (lcf 0)).
    { replace (lcf 0) with (1 + 189712 / 10 ^ 15) by (unfold lcf; change (IZR SC) with 100000000000000000000; change (nth 0 lc 0%Z) with 100000000018971200000%Z; lra).
      eapply Rle_trans; [|apply ln_1p_ge; lra]. lra. }
    assert (I1 : 0 < / (x + 25) <= / 25) by (split; [apply Rinv_0_lt_compat; lra|apply Rinv_le_contravar; lra]).
    assert (I2 : 0 <= / ((x + 1) * (x + 1)) <= 1).
    { rewrite Rinv_mult. assert (0 < / (x + 1) <= 1) by (split; [apply Rinv_0_lt_compat; lra|rewrite <- Rinv_1; apply Rinv_le_contravar; lra]).
      split; [apply Rmult_le_pos; lra|]. apply Rle_trans with (1 * 1); [apply Rmult_le_compat; lra|lra]. }
    assert (I3 : 0 < / (x + 6) <= / 6) by (split; [apply Rinv_0_lt_compat; lra|apply Rinv_le_contravar; lra]).
    pose proof (hL_ee s9 x Hx) as E9. pose proof (hL_ee s10 x Hx) as E10.
    set (e9 := ee s9 x) in *. set (e10 := ee s10 x) in *. set (c := ln (lcf 0)) in *. set (g := hL x - lG G x) in *.
    apply Rabs_le. split; lra.
  Qed.
End Against.
