(** * The interpolation table of erfcx against exp (x^2) erfc x

    Each polynomial nearly solves the differential equation on its
    subinterval; the errors are carried from x = 12 down to x = 1/8. *)

From Coq Require Import ZArith Reals Bool Lra Lia List.
From Flocq Require Import Core.Raux Core.Defs Core.Zaux.
From Verif.Spec Require Import ErfSpec.
From Verif.Proofs Require Import Poly PolyZ PiBounds ErfcODE.
Import ListNotations.
Open Scope R_scope.

(** scale of the integer coefficients *)
Definition SC : Z := 50.
Definition DD : Z := (10 ^ SC)%Z.
Lemma DD_pos : 0 < IZR DD.
Proof. apply IZR_lt. reflexivity. Qed.

(** 2 / sqrt PI on this scale *)
Definition kz : Z := (2 * isp70 * DD / 2 ^ 70)%Z.
Definition kerr : Z := (4 * DD / 2 ^ 70 + 2)%Z.
Lemma kz_ok : Rabs (K * IZR DD - IZR kz) <= IZR kerr.
Proof.
  pose proof isp_bounds as [L U]. pose proof DD_pos as DP.
  assert (T : 0 < IZR (2 ^ 70)) by (apply IZR_lt; reflexivity).
  pose proof (IZR_div_up (2 * isp70 * DD) (2 ^ 70) eq_refl) as A1. pose proof (IZR_div_down (2 * isp70 * DD) (2 ^ 70) eq_refl) as A2.
  pose proof (IZR_div_up (4 * DD) (2 ^ 70) eq_refl) as B1.
  change (2 * isp70 * DD / 2 ^ 70)%Z with kz in A1, A2.
  unfold kerr. rewrite plus_IZR. rewrite plus_IZR in A1, B1. rewrite !mult_IZR in *.
  set (i := / sqrt PI) in *. replace K with (2 * i) by reflexivity. clearbody i.
  set (D := IZR DD) in *. set (T70 := IZR (2 ^ 70)) in *. set (q := IZR (4 * DD / 2 ^ 70)) in *. set (kz' := IZR kz) in *.
  set (s := IZR isp70) in *. clearbody D T70 q kz' s.
  assert (X : (2 * s - 2) * D / T70 <= 2 * i * D <= (2 * s + 4) * D / T70).
  { split.
    - apply div_le; [exact T|]. replace (2 * i * D * T70) with (2 * (i * T70) * D) by ring. apply Rmult_le_compat_r; lra.
    - apply le_div; [exact T|]. replace (2 * i * D * T70) with (2 * (i * T70) * D) by ring. apply Rmult_le_compat_r; lra. }
  replace ((2 * s - 2) * D / T70) with (2 * s * D / T70 - 1 / 2 * (4 * D / T70)) in X by (field; lra).
  replace ((2 * s + 4) * D / T70) with (2 * s * D / T70 + 4 * D / T70) in X by (field; lra).
  assert (0 <= 4 * D / T70) by (apply Rmult_le_pos; [lra|apply Rlt_le, Rinv_0_lt_compat, T]).
  apply Rabs_le. lra.
Qed.

(** the subintervals: row n covers x = 2^(e-10) (t + c), t in [-1, 1] *)
Definition row_e (n : Z) : Z := (n / 64)%Z.
Definition row_c (n : Z) : Z := (2 * (64 + n mod 64) + 1)%Z.
Definition row_h (n : Z) : R := bpow radix2 (row_e n - 10).
Definition row_x (n : Z) (t : R) : R := row_h n * (t + IZR (row_c n)).

Lemma row_h_pos : forall n, 0 < row_h n.
Proof. intros n. apply bpow_gt_0. Qed.

Lemma row_c_range : forall n, 129 <= IZR (row_c n) <= 255.
Proof.
  intros n. unfold row_c. pose proof (Z.mod_pos_bound n 64 eq_refl). split; apply IZR_le; lia.
Qed.

Lemma row_join : forall n, row_x n 1 = row_x (n + 1) (-1).
Proof.
  intros n. unfold row_x, row_h, row_c, row_e.
  pose proof (Z.mod_pos_bound n 64 eq_refl) as B. pose proof (Z.div_mod n 64 ltac:(lia)) as E.
  destruct (Z.eq_dec (n mod 64) 63) as [L|L].
  - replace ((n + 1) / 64)%Z with (n / 64 + 1)%Z by (apply (Z.div_unique_pos _ _ _ 0); lia).
    replace ((n + 1) mod 64)%Z with 0%Z by (apply (Z.mod_unique_pos _ _ (n / 64 + 1)); lia).
    rewrite L. replace (n / 64 + 1 - 10)%Z with (1 + (n / 64 - 10))%Z by lia. rewrite bpow_plus.
    change (bpow radix2 1) with 2. rewrite <- !plus_IZR. 
    change (IZR (1 + (2 * (64 + 63) + 1))) with 256. change (IZR (-1 + (2 * (64 + 0) + 1))) with 128. ring.
  - replace ((n + 1) / 64)%Z with (n / 64)%Z by (apply (Z.div_unique_pos _ _ _ (n mod 64 + 1)); lia).
    replace ((n + 1) mod 64)%Z with (n mod 64 + 1)%Z by (apply (Z.mod_unique_pos _ _ (n / 64)); lia).
    f_equal. rewrite <- !plus_IZR. f_equal. lia.
Qed.

(** residual of the differential equation, times 2^20 * h *)
Definition row_res (n : Z) (p : list Z) : list Z :=
  let q := (-2 * 4 ^ row_e n)%Z in
  padd (pscale (2 ^ 20) (pder p)) (padd (pscale q (0%Z :: p)) (padd (pscale (q * row_c n) p) [(kz * 2 ^ (10 + row_e n))%Z])).

Definition row_rb (n : Z) (p : list Z) : Z :=
  ((pnorm (row_res n p) + kerr * 2 ^ (10 + row_e n)) / 2 ^ 19 + 1)%Z.

Section Chain.
  Context (E : R -> R) (HE : erfc_function E).
  Notation w := (scaled_erfc E).

  Lemma row_ode : forall n p x, (0 <= n)%Z ->
    let f := fun x => peval p (x / row_h n - IZR (row_c n)) / IZR DD in
    let r := (peval (row_res n p) (x / row_h n - IZR (row_c n)) / (row_h n * 2 ^ 20) + (K * IZR DD - IZR kz)) / IZR DD in
    derivable_pt_lim f x (2 * x * f x - K + r).
  Proof.
    intros n p x Hn f r. pose proof (row_h_pos n) as Hp. pose proof DD_pos as DP. set (t := x / row_h n - IZR (row_c n)) in *.
    assert (D : derivable_pt_lim f x (peval (pder p) t * (1 / row_h n - 0) / IZR DD)).
    { unfold f. replace (peval (pder p) t * (1 / row_h n - 0) / IZR DD) with (/ IZR DD * (peval (pder p) t * (1 / row_h n - 0))) by (field; lra).
      eapply derivable_pt_lim_ext; [intros y; apply Rmult_comm|].
      apply (derivable_pt_lim_scal (fun x => peval p (x / row_h n - IZR (row_c n)))).
      apply (derivable_pt_lim_comp (fun x => x / row_h n - IZR (row_c n)) (peval p)); [|apply derive_peval].
      apply (derivable_pt_lim_minus (fun x => x / row_h n) (fun _ => IZR (row_c n))); [|apply derivable_pt_lim_const].
      eapply derivable_pt_lim_ext; [intros y; apply Rmult_comm|].
      replace (1 / row_h n) with (/ row_h n * 1) by (field; lra).
      apply (derivable_pt_lim_scal id). apply derivable_pt_lim_id. }
    eapply eq_rect; [exact D|]. cbn [fst].
    assert (He : (0 <= row_e n)%Z) by (apply Z.div_pos; lia).
    assert (Hh : row_h n = IZR (2 ^ row_e n) / 2 ^ 10).
    { unfold row_h. replace (row_e n - 10)%Z with (row_e n + -10)%Z by lia. rewrite bpow_plus.
      replace (IZR (2 ^ row_e n)) with (bpow radix2 (row_e n)) by (symmetry; apply (IZR_Zpower radix2); exact He).
      simpl (bpow radix2 (-10)). unfold Rdiv. f_equal. simpl. lra. }
    assert (H4 : IZR (4 ^ row_e n) = IZR (2 ^ row_e n) * IZR (2 ^ row_e n)).
    { rewrite <- mult_IZR. f_equal. change 4%Z with (2 * 2)%Z. apply Z.pow_mul_l. }
    assert (H10 : IZR (2 ^ (10 + row_e n)) = 2 ^ 10 * IZR (2 ^ row_e n)).
    { rewrite Z.pow_add_r by lia. rewrite mult_IZR. f_equal. change (2 ^ 10)%Z with 1024%Z. simpl. lra. }
    assert (Hx : x = row_h n * (t + IZR (row_c n))) by (unfold t; field; lra).
    unfold f. change (x / row_h n - IZR (row_c n)) with t. unfold r, row_res. cbv zeta.
    rewrite !peval_padd, !peval_pscale, !peval_cons. change (peval [] t) with 0.
    rewrite !mult_IZR, H4, H10, Hx, Hh.
    set (u := IZR (2 ^ row_e n)) in *.
    assert (U : 0 < u) by (unfold u; apply IZR_lt, Z.pow_pos_nonneg; lia).
    change (IZR (2 ^ 20)) with 1048576. pose proof sqrtPI_pos as SP. field. repeat split; lra.
  Qed.

  Lemma triple_inj : forall {A B C} (a a' : A) (b b' : B) (c c' : C),
    (a, b, c) = (a', b', c') -> a = a' /\ b = b' /\ c = c'.
  Proof. intros. injection H. auto. Qed.

  (** one row *)
  Lemma row_step : forall n p B t, (0 <= n)%Z -> -1 <= t <= 1 ->
    Rabs (peval p 1 / IZR DD - w (row_x n 1)) <= IZR B / IZR DD ->
    Rabs (peval p t / IZR DD - w (row_x n t)) <= IZR (B + row_rb n p) / IZR DD /\
    Rabs (peval p (-1) / IZR DD - w (row_x n (-1)))
      <= IZR (B * 2 ^ 20 / (2 ^ 20 + 4 * 4 ^ row_e n * row_c n) + 1 + row_rb n p) / IZR DD.
  Proof.
    intros n p B t Hn Ht H1. pose proof (row_h_pos n) as Hp. pose proof DD_pos as DP. pose proof (row_c_range n) as Rc.
    set (f := fun x => peval p (x / row_h n - IZR (row_c n)) / IZR DD).
    set (r := fun x => (peval (row_res n p) (x / row_h n - IZR (row_c n)) / (row_h n * 2 ^ 20) + (K * IZR DD - IZR kz)) / IZR DD).
    assert (Fx : forall t, f (row_x n t) = peval p t / IZR DD).
    { intros s. unfold f, row_x. do 2 f_equal. field. lra. }
    assert (He : (0 <= row_e n)%Z) by (apply Z.div_pos; lia).
    set (bd := IZR (pnorm (row_res n p) + kerr * 2 ^ (10 + row_e n))).
    assert (Rr : forall x, row_x n (-1) <= x <= row_x n 1 -> Rabs (r x) <= bd / (row_h n * 2 ^ 20) / IZR DD).
    { intros x Hx. unfold r. unfold Rdiv at 1. rewrite Rabs_mult, (Rabs_pos_eq (/ IZR DD)) by (apply Rlt_le, Rinv_0_lt_compat, DP).
      apply Rmult_le_compat_r; [apply Rlt_le, Rinv_0_lt_compat, DP|].
      eapply Rle_trans; [apply Rabs_triang|].
      assert (S : 0 < row_h n * 2 ^ 20) by (apply Rmult_lt_0_compat; lra).
      unfold Rdiv at 1. rewrite Rabs_mult, (Rabs_pos_eq (/ (_ * _))) by (apply Rlt_le, Rinv_0_lt_compat, S).
      apply le_div; [exact S|]. rewrite Rmult_plus_distr_r, Rmult_assoc, Rinv_l, Rmult_1_r by lra.
      unfold bd. rewrite plus_IZR. apply Rplus_le_compat.
      - apply peval_norm.
        unfold row_x in Hx. apply Rabs_le.
        assert (X : x = row_h n * (x / row_h n - IZR (row_c n) + IZR (row_c n))) by (field; lra).
        rewrite X in Hx at 1 2. destruct Hx as [X1 X2].
        apply Rmult_le_reg_l in X1, X2; lra.
      - rewrite mult_IZR. replace (IZR (2 ^ (10 + row_e n))) with (row_h n * 2 ^ 20).
        + apply Rmult_le_compat_r; [lra|apply kz_ok].
        + unfold row_h. replace (2 ^ 20) with (bpow radix2 20) by (simpl; lra). rewrite <- bpow_plus.
          replace (row_e n - 10 + 20)%Z with (10 + row_e n)%Z by lia. symmetry. apply (IZR_Zpower radix2). lia. }
    assert (W : forall s, -1 <= s <= 1 -> Rabs (peval p s / IZR DD - w (row_x n s)) <=
      IZR B / IZR DD / (1 + (row_x n 1 * row_x n 1 - row_x n s * row_x n s)) + IZR (row_rb n p) / IZR DD).
    { intros s Hs. rewrite <- (Fx s).
      assert (X0 : 0 <= row_x n s) by (unfold row_x; apply Rmult_le_pos; lra).
      assert (X1 : row_x n s <= row_x n 1) by (unfold row_x; apply Rmult_le_compat_l; lra).
      assert (X2 : row_x n (-1) <= row_x n s) by (unfold row_x; apply Rmult_le_compat_l; lra).
      assert (B0 : 0 <= bd).
      { unfold bd. apply IZR_le. pose proof (pnorm_nonneg (row_res n p)).
        assert (0 <= kerr * 2 ^ (10 + row_e n))%Z by (apply Z.mul_nonneg_nonneg; [vm_compute; discriminate|apply Z.pow_nonneg; lia]). lia. }
      assert (S : 0 < row_h n * 2 ^ 20) by (apply Rmult_lt_0_compat; lra).
      assert (R0 : 0 <= bd / (row_h n * 2 ^ 20) / IZR DD).
      { apply Rmult_le_pos; [apply Rmult_le_pos; [exact B0|]|]; apply Rlt_le, Rinv_0_lt_compat; assumption. }
      eapply Rle_trans.
      { apply (w_backward E HE f r (row_x n s) (row_x n 1) (bd / (row_h n * 2 ^ 20) / IZR DD) X0 X1 R0).
        - intros x Hx. apply (row_ode n p x Hn).
        - intros x Hx. apply Rr. lra. }
      apply Rplus_le_compat.
      - rewrite Fx. unfold Rdiv. apply Rmult_le_compat_r; [|exact H1].
        apply Rlt_le, Rinv_0_lt_compat. nra.
      - apply le_div; [exact DP|].
        apply Rle_trans with (bd / (row_h n * 2 ^ 20) * (2 * row_h n)).
        + replace (bd / (row_h n * 2 ^ 20) / IZR DD * (row_x n 1 - row_x n s) * IZR DD) with
            (bd / (row_h n * 2 ^ 20) * (row_x n 1 - row_x n s)) by (field; lra).
          apply Rmult_le_compat_l; [apply Rmult_le_pos; [exact B0|apply Rlt_le, Rinv_0_lt_compat, S]|].
          unfold row_x. nra.
        + replace (bd / (row_h n * 2 ^ 20) * (2 * row_h n)) with (bd / IZR (2 ^ 19)).
          * unfold bd, row_rb. apply IZR_div_up. reflexivity.
          * change (IZR (2 ^ 19)) with 524288. replace (2 ^ 20) with 1048576 by (simpl; lra). field. lra. }
    assert (B0 : 0 <= IZR B / IZR DD) by (eapply Rle_trans; [apply Rabs_pos|exact H1]).
    split.
    - eapply Rle_trans; [apply (W t Ht)|]. rewrite plus_IZR, Rdiv_plus_distr. apply Rplus_le_compat_r.
      assert (0 <= row_x n 1 * row_x n 1 - row_x n t * row_x n t).
      { assert (0 <= row_x n t) by (unfold row_x; apply Rmult_le_pos; lra).
        assert (row_x n t <= row_x n 1) by (unfold row_x; apply Rmult_le_compat_l; lra). nra. }
      apply div_le; [lra|]. rewrite <- (Rmult_1_r (IZR B / IZR DD)) at 1. apply Rmult_le_compat_l; lra.
    - eapply Rle_trans; [apply (W (-1)); lra|]. rewrite (plus_IZR _ (row_rb n p)), Rdiv_plus_distr. apply Rplus_le_compat_r.
      set (d := (2 ^ 20 + 4 * 4 ^ row_e n * row_c n)%Z).
      assert (Q : 1 + (row_x n 1 * row_x n 1 - row_x n (-1) * row_x n (-1)) = IZR d / 2 ^ 20).
      { unfold d. rewrite plus_IZR, !mult_IZR.
        replace (IZR (4 ^ row_e n)) with (row_h n * row_h n * 2 ^ 20).
        - unfold row_x. change (IZR (2 ^ 20)) with 1048576. field.
        - unfold row_h. replace (2 ^ 20) with (bpow radix2 20) by (simpl; lra). rewrite <- !bpow_plus.
          replace (row_e n - 10 + (row_e n - 10) + 20)%Z with (row_e n + row_e n)%Z by lia.
          rewrite bpow_plus. change 4%Z with (2 * 2)%Z. rewrite Z.pow_mul_l, mult_IZR.
          replace (IZR (2 ^ row_e n)) with (bpow radix2 (row_e n)) by (symmetry; apply (IZR_Zpower radix2); exact He). reflexivity. }
      assert (Dp : (0 < d)%Z).
      { unfold d. assert (0 <= 4 ^ row_e n * row_c n)%Z.
        { apply Z.mul_nonneg_nonneg; [apply Z.pow_nonneg; lia|]. apply le_IZR. lra. }
        lia. }
      assert (DpR : 0 < IZR d) by (apply IZR_lt; exact Dp).
      rewrite Q. apply le_div; [exact DP|].
      pose proof (IZR_div_up (B * 2 ^ 20) d Dp) as U. eapply Rle_trans; [|exact U]. rewrite mult_IZR.
      apply Req_le. change (IZR (2 ^ 20)) with 1048576. field. lra.
  Qed.

  (** the whole table, from right to left *)
  Fixpoint chain (n : Z) (rows : list (list Z)) (V0 M0 : Z) : Z * Z * list Z :=
    match rows with
    | [] => (V0, M0, [])
    | p :: rest =>
        let '(V, M, L) := chain (n + 1) rest V0 M0 in
        let B := (M + Z.abs (zeval 1 p - V))%Z in
        let rb := row_rb n p in
        (zeval (-1) p, B * 2 ^ 20 / (2 ^ 20 + 4 * 4 ^ row_e n * row_c n) + 1 + rb, (B + rb) :: L)%Z
    end.

  Lemma chain_ok : forall rows n V0 M0 V M L, (0 <= n)%Z ->
    Rabs (IZR V0 / IZR DD - w (row_x (n + Z.of_nat (length rows)) (-1))) <= IZR M0 / IZR DD ->
    chain n rows V0 M0 = (V, M, L) ->
    Rabs (IZR V / IZR DD - w (row_x n (-1))) <= IZR M / IZR DD /\
    (forall k p i, nth_error rows k = Some p -> nth_error L k = Some i ->
     forall t, -1 <= t <= 1 -> Rabs (peval p t / IZR DD - w (row_x (n + Z.of_nat k) t)) <= IZR i / IZR DD).
  Proof.
    pose proof DD_pos as DP.
    induction rows as [|p rows IH]; intros n V0 M0 V M I Hn H0 H.
    - cbn [chain] in H. injection H as <- <- <-. rewrite Z.add_0_r in H0. split; [exact H0|].
      intros k p i Hk. destruct k; discriminate Hk.
    - cbn [chain] in H. destruct (chain (n + 1) rows V0 M0) as [[V' M'] L'] eqn:C.
      apply triple_inj in H. destruct H as (<- & <- & <-).
      destruct (IH (n + 1)%Z V0 M0 V' M' L' ltac:(lia)) as [H1 H2]; [|exact C|].
      { replace (n + 1 + Z.of_nat (length rows))%Z with (n + Z.of_nat (length (p :: rows)))%Z by (cbn [length]; lia). exact H0. }
      assert (B : Rabs (peval p 1 / IZR DD - w (row_x n 1)) <= IZR (M' + Z.abs (zeval 1 p - V')) / IZR DD).
      { rewrite row_join. rewrite (peval_zeval p 1).
        replace (IZR (zeval 1 p) / IZR DD - w (row_x (n + 1) (-1))) with
          ((IZR V' / IZR DD - w (row_x (n + 1) (-1))) + IZR (zeval 1 p - V') / IZR DD) by (rewrite minus_IZR; field; lra).
        eapply Rle_trans; [apply Rabs_triang|]. rewrite plus_IZR, Rdiv_plus_distr. apply Rplus_le_compat; [exact H1|].
        unfold Rdiv. rewrite Rabs_mult, abs_IZR, (Rabs_pos_eq (/ _)) by (apply Rlt_le, Rinv_0_lt_compat, DP). lra. }
      split.
      + rewrite <- (peval_zeval p (-1)). apply (row_step n p _ 0 Hn ltac:(lra) B).
      + intros k q i Hk Hi t Ht. destruct k as [|k].
        * cbn [nth_error] in Hk, Hi. injection Hk as <-. injection Hi as <-. rewrite Z.add_0_r.
          apply (row_step n p _ t Hn Ht B).
        * cbn [nth_error] in Hk, Hi. replace (n + Z.of_nat (S k))%Z with (n + 1 + Z.of_nat k)%Z by lia.
          apply (H2 k q i Hk Hi t Ht).
  Qed.

  Lemma chain_len : forall rows n V0 M0, length (snd (chain n rows V0 M0)) = length rows.
  Proof.
    induction rows as [|p rows IH]; intros n V0 M0; [reflexivity|].
    cbn [chain length]. specialize (IH (n + 1)%Z V0 M0). destruct (chain (n + 1) rows V0 M0) as [[V M] L].
    cbn [snd length] in *. rewrite IH. reflexivity.
  Qed.
End Chain.
