(** * The inverse complementary error function is accurate: both halves of the domain, and the inverse error function *)

From Coq Require Import ZArith Reals Bool Lra Lia List.
From Flocq Require Import Core IEEE754.BinarySingleNaN IEEE754.Binary IEEE754.Bits.
From Flocq Require Import Sterbenz.
From Verif.Model Require Import Base Arith Utils Error.
From Verif.Float Require Import Bits64 Ieee Exact Platforms.
From Verif.Spec Require Import F64Spec Outcome ErfSpec LibmSpec.
From Verif.Proofs Require Import BetaExamples ErfcExists F64 F64Ops Lits Ext PolyZ PolyTree BesselRat RatODE ErfcODE ErfcxAsym ErfcxAcc ErfcAcc GaussInt InvGuess InvHalley InvThms PiBounds BetaiAcc EulerGamma Symmetry.
Import ListNotations.
Open Scope R_scope.
Local Notation exp := Rtrigo_def.exp. Local Notation sqrt := R_sqrt.sqrt. Local Notation ln := Rpower.ln. Local Notation PI := Rtrigo1.PI.


(** ** the function *)
Section Main.
  Variable E : R -> R.
  Hypothesis HE : erfc_function E.

  Definition inv_ok (z B : R) (o : res f64) : Prop := exists r, o = Ok r /\ fin r /\ Rabs (Binary.B2R r - z) <= B.
  Definition inv_bound (p : R) : R -> Prop := fun B => B = / 2 ^ 37 \/ (/ 2 ^ 100 <= p /\ B = / 2 ^ 39).

  Lemma two_ok : forall P pp z B, accurate_exp (p_exp P) -> accurate_ln (p_ln P) -> fin pp ->
    bpow radix2 (-930) <= Binary.B2R pp <= 1 -> E z = Binary.B2R pp -> inv_bound (Binary.B2R pp) B ->
    exists x1 x2, @inverfc_step (ieee P) pp (guess0 P pp) = Ok x1 /\ @inverfc_step (ieee P) pp x1 = Ok x2 /\ fin x2 /\ Rabs (Binary.B2R x2 - z) <= B.
  Proof.
    intros P pp z B HX HL Fp Hp Hz HB. destruct (tt0_facts _ Hp) as (_ & Ht & _ & T12). destruct HB as [-> | [H100 ->]].
    - apply (two_steps E HE P pp z (162 / 10 ^ 6) (2.95 / 10 ^ 5) 25.48); try assumption; try lra. apply cub36. lra.
    - specialize (T12 H100). apply (two_steps E HE P pp z (100 / 10 ^ 6) (1.82 / 10 ^ 5) 8.51); try assumption; try lra. apply cub12. lra.
  Qed.

  Lemma inverfc_low : forall P p z B, accurate_exp (p_exp P) -> accurate_ln (p_ln P) -> fin p ->
    bpow radix2 (-930) <= Binary.B2R p < 1 -> E z = Binary.B2R p -> inv_bound (Binary.B2R p) B -> inv_ok z B (@inverfc (ieee P) p).
  Proof.
    intros P p z B HX HL Fp Hp Hz HB. destruct (two_ok P p z B HX HL Fp ltac:(lra) Hz HB) as (x1 & x2 & S1 & S2 & F2 & B2).
    pose proof (bpow_gt_0 radix2 (-930)) as B0. pose proof (fin_nonnan _ Fp) as Np. pose proof (val_fin _ Fp) as Vp.
    unfold inv_ok, inverfc. ieee_simpl.
    rewrite (proj2 (le_false (f64_lit 2.0) p nn_2 Np)) by (rewrite val_2, Vp; lra).
    rewrite (proj2 (le_false p (f64_lit 0.0) Np nn_0)) by (rewrite val_0, Vp; lra).
    assert (C : f64_lt p (f64_lit 1.0) = true) by (apply lt_true; split; [exact Np|]; split; [exact nn_1|]; rewrite val_1, Vp; lra). rewrite C.
    unfold FRAC_1_SQRT_2. ieee_simpl. fold (guess0 P p). rewrite S1. cbn [bind]. rewrite S2. cbn [bind]. exists x2. auto.
  Qed.

  Lemma two_minus' : forall P p, fin p -> 1 <= Binary.B2R p < 2 ->
    fin (f64_sub P (f64_lit 2.0) p) /\ Binary.B2R (f64_sub P (f64_lit 2.0) p) = 2 - Binary.B2R p.
  Proof.
    intros P p Fp Hp. pose proof val_2 as V2. rewrite (val_fin _ fin_2) in V2.
    assert (FM : rnd (Binary.B2R (f64_lit 2.0) - Binary.B2R p) = 2 - Binary.B2R p).
    { rewrite V2. apply rnd_fmt. apply sterbenz; [apply fexp64_valid|apply fexp64_mono| | |lra].
      - rewrite <- V2, <- (val_fin _ fin_2). apply val_fmt.
      - rewrite <- (val_fin _ Fp). apply val_fmt. }
    destruct (rounds_small _ _ (sub_spec P (f64_lit 2.0) p fin_2 Fp)) as [F V].
    - rewrite FM. pose proof Om_big. apply Rabs_lt. lra.
    - split; [exact F|]. rewrite V. exact FM.
  Qed.

  Lemma gap2 : forall p : f64, fin p -> 1 <= Binary.B2R p < 2 -> / 2 ^ 52 <= 2 - Binary.B2R p.
  Proof.
    intros p Fp Hp. assert (Fm : fmt (Binary.B2R p)) by (rewrite <- (val_fin _ Fp); apply val_fmt).
    assert (F2 : fmt 2). { pose proof val_2 as V2. rewrite <- V2. apply val_fmt. }
    assert (S : succ radix2 fexp64 (Binary.B2R p) <= 2) by (apply succ_le_lt; [apply fexp64_valid|exact Fm|exact F2|lra]).
    rewrite succ_eq_pos in S by lra. rewrite ulp_neq_0 in S by lra. unfold Generic_fmt.cexp in S.
    rewrite (mag_unique_pos radix2 (Binary.B2R p) 1) in S by (simpl; lra).
    replace (bpow radix2 (fexp64 1)) with (/ 2 ^ 52) in S by (simpl; lra). lra.
  Qed.

  Lemma inverfc_high : forall P p z, accurate_exp (p_exp P) -> accurate_ln (p_ln P) -> fin p ->
    1 <= Binary.B2R p < 2 -> E z = Binary.B2R p -> inv_ok z (/ 2 ^ 39) (@inverfc (ieee P) p).
  Proof.
    intros P p z HX HL Fp Hp Hz. destruct (two_minus' P p Fp Hp) as [Fq Vq]. pose proof (gap2 p Fp Hp) as G.
    pose proof (E_reflect E HE z) as Er. rewrite (erfc_0 E HE), Hz in Er.
    destruct (two_ok P (f64_sub P (f64_lit 2.0) p) (- z) (/ 2 ^ 39) HX HL Fq) as (x1 & x2 & S1 & S2 & F2 & B2).
    { rewrite Vq. split; [|lra]. apply Rle_trans with (bpow radix2 (-52)); [apply bpow_le; lia|simpl; lra]. }
    { rewrite Vq, Er. ring. }
    { right. rewrite Vq. split; [lra|reflexivity]. }
    pose proof (fin_nonnan _ Fp) as Np. pose proof (val_fin _ Fp) as Vp.
    unfold inv_ok, inverfc. ieee_simpl.
    rewrite (proj2 (le_false (f64_lit 2.0) p nn_2 Np)) by (rewrite val_2, Vp; lra).
    rewrite (proj2 (le_false p (f64_lit 0.0) Np nn_0)) by (rewrite val_0, Vp; lra).
    assert (C : f64_lt p (f64_lit 1.0) = false) by (apply lt_false; [exact Np|exact nn_1|]; rewrite val_1, Vp; lra). rewrite C.
    set (q := f64_sub P (f64_lit 2.0) p) in *. unfold FRAC_1_SQRT_2. ieee_simpl. fold (guess0 P q). rewrite S1. cbn [bind]. rewrite S2. cbn [bind]. exists (f64_neg x2).
    split; [reflexivity|]. split; [rewrite fin_neg; exact F2|]. rewrite B2R_neg.
    replace (- Binary.B2R x2 - z) with (- (Binary.B2R x2 - - z)) by ring. rewrite Rabs_Ropp. exact B2.
  Qed.

  Theorem inverfc_acc : forall P p z, accurate_exp (p_exp P) -> accurate_ln (p_ln P) -> fin p ->
    bpow radix2 (-930) <= Binary.B2R p < 2 -> E z = Binary.B2R p -> inv_ok z (/ 2 ^ 37) (@inverfc (ieee P) p).
  Proof.
    intros P p z HX HL Fp Hp Hz. destruct (Rlt_or_le (Binary.B2R p) 1) as [L|L].
    - apply inverfc_low; auto; [lra|left; reflexivity].
    - destruct (inverfc_high P p z HX HL Fp ltac:(lra) Hz) as (r & Er & Fr & Br). exists r. repeat split; auto. lra.
  Qed.
  Theorem inverfc_acc39 : forall P p z, accurate_exp (p_exp P) -> accurate_ln (p_ln P) -> fin p ->
    / 2 ^ 100 <= Binary.B2R p < 2 -> E z = Binary.B2R p -> inv_ok z (/ 2 ^ 39) (@inverfc (ieee P) p).
  Proof.
    intros P p z HX HL Fp Hp Hz. destruct (Rlt_or_le (Binary.B2R p) 1) as [L|L].
    - apply inverfc_low; auto; [|right; split; [lra|reflexivity]]. split; [|exact L]. apply Rle_trans with (bpow radix2 (-100)); [apply bpow_le; lia|simpl; lra].
    - apply inverfc_high; auto. lra.
  Qed.

  (** *** the inverse of the error function *)
  Lemma E_at7 : E 7 <= / 2 ^ 60.
  Proof.
    pose proof (E_phi E HE 7 ltac:(lra)) as [_ U]. unfold phi in U. pose proof isp_range as IR.
    assert (X : exp (- (7 * 7)) <= bpow radix2 (-64)).
    { rewrite <- (exp_ln (bpow radix2 (-64))) by apply bpow_gt_0. rewrite ln_bpow_eq. pose proof ln2_up. left. apply exp_increasing. simpl. lra. }
    replace (bpow radix2 (-64)) with (/ 2 ^ 64) in X by (simpl; lra). pose proof (exp_pos (- (7 * 7))) as X0.
    assert (K * exp (- (7 * 7)) <= 1.13 * / 2 ^ 64) by (apply Rmult_le_compat; unfold Rdiv; lra). lra.
  Qed.
  Lemma E_cont : continuity E.
  Proof. intros x. apply derivable_continuous_pt. destruct HE as [D _]. eexists. apply D. Qed.
  Lemma E_solve : forall q, / 2 ^ 59 <= q <= 2 - / 2 ^ 59 -> exists z, -7 <= z <= 7 /\ E z = q.
  Proof.
    intros q Hq. pose proof E_at7 as E7. pose proof (E_reflect E HE 7) as Er. rewrite (erfc_0 E HE) in Er. replace (Ropp 7) with (-7) in Er by lra.
    destruct (IVT (fun z => q - E z) (-7) 7) as (z & Hz & Ez).
    - apply continuity_minus; [apply continuity_const; intros ? ?; reflexivity|apply E_cont].
    - lra.
    - lra.
    - lra.
    - exists z. split; [exact Hz|lra].
  Qed.

  (** how far apart two arguments can be *)
  Lemma E_lip : forall a b m, a <= b -> 0 < m -> (forall x, a <= x <= b -> m <= phi x) -> m * (b - a) <= E a - E b.
  Proof.
    intros a b m Hab Hm H. destruct HE as [D _]. destruct (Rle_lt_or_eq_dec a b Hab) as [L| ->]; [|lra].
    destruct (MVT_cor2 E (fun x => - K * exp (- (x * x))) a b L (fun c _ => D c)) as (c & Ec & Hc).
    assert (Q : E a - E b = phi c * (b - a)). { unfold phi. apply Ropp_eq_compat in Ec. rewrite Ropp_minus_distr in Ec. rewrite Ec. set (k := K). ring. }
    rewrite Q. apply Rmult_le_compat_r; [lra|]. apply H. lra.
  Qed.
  Lemma phi_ge : forall s x, s <= E x <= 2 - s -> s / 2 <= phi x.
  Proof.
    intros s x Hx. pose proof (phi_pos x). destruct (Rle_or_lt 0 x) as [N|N].
    - pose proof (E_phi E HE x ltac:(lra)) as [_ U]. lra.
    - pose proof (E_phi E HE (- x) ltac:(lra)) as [_ U]. rewrite (E_reflect E HE x), (erfc_0 E HE) in U.
      assert (phi (- x) = phi x) by (unfold phi; do 3 f_equal; ring). lra.
  Qed.
  Lemma E_close : forall s a b d, 0 < s -> s <= E a <= 2 - s -> s <= E b <= 2 - s -> Rabs (E a - E b) <= d -> Rabs (a - b) <= 2 / s * d.
  Proof.
    intros s. assert (W : forall a b d, 0 < s -> a <= b -> s <= E a <= 2 - s -> s <= E b <= 2 - s -> Rabs (E a - E b) <= d -> Rabs (a - b) <= 2 / s * d).
    { intros a b d Hs Hab Ha Hb Hd. pose proof (E_lip a b (s / 2) Hab ltac:(lra)) as Q. apply Rabs_le_inv in Hd.
      rewrite Rabs_left1 by lra. assert (Q' : s / 2 * (b - a) <= E a - E b).
      { apply Q. intros x Hx. apply phi_ge. pose proof (E_decr E HE a x (proj1 Hx)). pose proof (E_decr E HE x b (proj2 Hx)). lra. }
      apply Rmult_le_reg_l with (s / 2); [lra|]. replace (s / 2 * (2 / s * d)) with d by (field; lra). lra. }
    intros a b d Hs Ha Hb Hd. destruct (Rle_or_lt a b) as [L|L]; [apply W; assumption|].
    rewrite Rabs_minus_sym. rewrite Rabs_minus_sym in Hd. apply W; try assumption. lra.
  Qed.

  Theorem inverf_acc : forall P p z, accurate_exp (p_exp P) -> accurate_ln (p_ln P) -> fin p ->
    -1 + / 2 ^ 50 <= Binary.B2R p < 1 -> 1 - E z = Binary.B2R p -> inv_ok z (/ 2 ^ 39 + / 2 ^ 48 / (1 + Binary.B2R p)) (@inverf (ieee P) p).
  Proof.
    intros P p z HX HL Fp Hp Hz. unfold inverf. ieee_simpl. pose proof val_1 as V1. rewrite (val_fin _ fin_1) in V1.
    destruct (Rle_or_lt (1 / 2) (Binary.B2R p)) as [C|C].
    - assert (FM : rnd (Binary.B2R (f64_lit 1.0) - Binary.B2R p) = 1 - Binary.B2R p).
      { rewrite V1. apply rnd_fmt. apply sterbenz; [apply fexp64_valid|apply fexp64_mono| | |lra].
        - rewrite <- V1, <- (val_fin _ fin_1). apply val_fmt.
        - rewrite <- (val_fin _ Fp). apply val_fmt. }
      destruct (rounds_small _ _ (sub_spec P (f64_lit 1.0) p fin_1 Fp)) as [F V].
      { rewrite FM. pose proof Om_big. apply Rabs_lt. lra. }
      rewrite FM in V. assert (G : / 2 ^ 53 <= 1 - Binary.B2R p).
      { assert (Fm : fmt (Binary.B2R p)) by (rewrite <- (val_fin _ Fp); apply val_fmt).
        assert (F1 : fmt 1) by (rewrite <- val_1; apply val_fmt).
        assert (S : succ radix2 fexp64 (Binary.B2R p) <= 1) by (apply succ_le_lt; [apply fexp64_valid|exact Fm|exact F1|lra]).
        rewrite succ_eq_pos in S by lra. rewrite ulp_neq_0 in S by lra. unfold Generic_fmt.cexp in S.
        rewrite (mag_unique_pos radix2 (Binary.B2R p) 0) in S by (simpl; lra).
        replace (bpow radix2 (fexp64 0)) with (/ 2 ^ 53) in S by (simpl; lra). lra. }
      destruct (inverfc_acc39 P (f64_sub P (f64_lit 1.0) p) z HX HL F) as (r & Er & Fr & Br); [rewrite V; lra|rewrite V; lra|].
      exists r. repeat split; auto. assert (0 < / 2 ^ 48 / (1 + Binary.B2R p)) by (apply Rdiv_lt_0_compat; lra). lra.
    - destruct (flA _ _ (sub_spec P (f64_lit 1.0) p fin_1 Fp)) as [F B]; [rewrite V1; apply Rabs_le; lra|]. rewrite V1 in B.
      rewrite (Rabs_pos_eq (1 - Binary.B2R p)) in B by lra. set (q := f64_sub P (f64_lit 1.0) p) in *. pose proof B as B'. apply Rabs_le_inv in B'.
      destruct (E_solve (Binary.B2R q) ltac:(lra)) as (z' & _ & Ez').
      destruct (inverfc_acc39 P q z' HX HL F) as (r & Er & Fr & Br); [lra|exact Ez'|].
      exists r. split; [exact Er|]. split; [exact Fr|].
      set (s0 := 1 + Binary.B2R p) in *. assert (S0 : / 2 ^ 50 <= s0) by (unfold s0; lra). assert (SP : Binary.B2R p = s0 - 1) by (unfold s0; ring).
      assert (Q : Rabs (z' - z) <= 2 / (s0 / 4) * (/ 2 ^ 52 + / 2 ^ 100)).
      { apply E_close; [lra|rewrite Ez'; lra|lra|]. rewrite Ez'. replace (Binary.B2R q - E z) with (Binary.B2R q - (1 - Binary.B2R p)) by lra. apply Rabs_le. lra. }
      assert (Q2 : 2 / (s0 / 4) * (/ 2 ^ 52 + / 2 ^ 100) <= / 2 ^ 48 / s0).
      { replace (2 / (s0 / 4) * (/ 2 ^ 52 + / 2 ^ 100)) with (8 * (/ 2 ^ 52 + / 2 ^ 100) * / s0) by (field; lra).
        unfold Rdiv. apply Rmult_le_compat_r; [left; apply Rinv_0_lt_compat; lra|lra]. }
      replace (Binary.B2R r - z) with ((Binary.B2R r - z') + (z' - z)) by ring. eapply Rle_trans; [apply Rabs_triang|]. lra.
  Qed.

End Main.

(** near -1 the subtraction [1 - p] loses the argument *)
Definition wm1 : f64 := b64_of_bits 0xBFEFFFFFFFFFFFFF.
Lemma wm1_sub : forall P, f64_le (f64_lit 2.0) (f64_sub P (f64_lit 1.0) wm1) = true.
Proof. intros P. vm_compute. reflexivity. Qed.
Lemma wm1_val : fin wm1 /\ Binary.B2R wm1 = -1 + / 2 ^ 53.
Proof. split; [reflexivity|]. unfold wm1. cbv. lra. Qed.

Lemma inverf_wm1 : forall P, exists r, @inverf (ieee P) wm1 = Ok r /\ fin r /\ Binary.B2R r = -100.
Proof.
  intros P. unfold inverf, inverfc. ieee_simpl. rewrite wm1_sub. eexists. split; [reflexivity|].
  lit_facts 100.0%dec 100%Z 0%Z HF1 HV1. rewrite (val_fin _ HF1) in HV1.
  split; [rewrite fin_neg; exact HF1|]. rewrite B2R_neg, HV1. simpl. lra.
Qed.

(** *** as stated to the user *)
Lemma inverfc_acc_user : forall P (p : f64) E z, accurate_exp (p_exp P) -> accurate_ln (p_ln P) -> erfc_function E -> finite p ->
  bpow radix2 (-930) <= val p < 2 -> E z = val p ->
  exists r, @inverfc (ieee P) p = Ok r /\ finite r /\ Rabs (val r - z) <= / 2 ^ 37.
Proof.
  intros P p E z HX HL HE Fp Hp Hz. rewrite (val_fin _ Fp) in Hp, Hz. destruct (inverfc_acc E HE P p z HX HL Fp Hp Hz) as (r & Er & Fr & Br).
  exists r. rewrite (val_fin _ Fr). auto.
Qed.
Lemma inverfc_acc39_user : forall P (p : f64) E z, accurate_exp (p_exp P) -> accurate_ln (p_ln P) -> erfc_function E -> finite p ->
  / 2 ^ 100 <= val p < 2 -> E z = val p ->
  exists r, @inverfc (ieee P) p = Ok r /\ finite r /\ Rabs (val r - z) <= / 2 ^ 39.
Proof.
  intros P p E z HX HL HE Fp Hp Hz. rewrite (val_fin _ Fp) in Hp, Hz. destruct (inverfc_acc39 E HE P p z HX HL Fp Hp Hz) as (r & Er & Fr & Br).
  exists r. rewrite (val_fin _ Fr). auto.
Qed.
Lemma inverf_acc_user : forall P (p : f64) F z, accurate_exp (p_exp P) -> accurate_ln (p_ln P) -> erf_function F -> finite p ->
  -1 + / 2 ^ 50 <= val p < 1 -> F z = val p ->
  exists r, @inverf (ieee P) p = Ok r /\ finite r /\ Rabs (val r - z) <= / 2 ^ 39 + / 2 ^ 48 / (1 + val p).
Proof.
  intros P p F z HX HL HF Fp Hp Hz. rewrite (val_fin _ Fp) in *. destruct erfc_exists as [E HE].
  rewrite (erf_of_erfc F E HF HE), (erfc_0 E HE) in Hz.
  destruct (inverf_acc E HE P p z HX HL Fp Hp Hz) as (r & Er & Fr & Br). exists r. rewrite (val_fin _ Fr). auto.
Qed.

Lemma inverf_lost : exists p : f64, finite p /\ -1 < val p < 0 /\
  forall P F z, accurate_exp (p_exp P) -> accurate_ln (p_ln P) -> erf_function F -> F z = val p ->
  -7 <= z <= 0 /\ (exists r, @inverf (ieee P) p = Ok r /\ finite r /\ val r = -100)
  /\ (exists r, @inverf (ieee P) (f64_neg p) = Ok r /\ finite r /\ Rabs (val r - (- z)) <= / 2 ^ 38).
Proof.
  exists wm1. destruct wm1_val as [F V]. pose proof (val_fin _ F) as VF. split; [exact F|]. split; [rewrite VF, V; lra|].
  intros P G z HX HL HG Hz. destruct erfc_exists as [E HE]. pose proof (erf_of_erfc G E HG HE z) as Q. rewrite (erfc_0 E HE), Hz, VF, V in Q.
  split; [split|split].
  - apply (E_inv E HE). pose proof (E_at7 E HE) as E7. pose proof (E_reflect E HE 7) as Er. rewrite (erfc_0 E HE) in Er. replace (Ropp 7) with (-7) in Er by lra. lra.
  - apply (E_inv E HE). rewrite (erfc_0 E HE). lra.
  - destruct (inverf_wm1 P) as (r & Er & Fr & Vr). exists r. rewrite (val_fin _ Fr). auto.
  - destruct (inverf_acc_user P (f64_neg wm1) G (- z) HX HL HG) as (r & Er & Fr & Br).
    + unfold finite. rewrite fin_neg. exact F.
    + rewrite (val_fin (f64_neg wm1)) by (rewrite fin_neg; exact F). rewrite B2R_neg, V. lra.
    + rewrite (erf_odd G HG), Hz. rewrite !val_fin by (try (rewrite fin_neg); exact F). rewrite B2R_neg. reflexivity.
    + exists r. split; [exact Er|]. split; [exact Fr|]. eapply Rle_trans; [exact Br|].
      rewrite (val_fin (f64_neg wm1)) by (rewrite fin_neg; exact F). rewrite B2R_neg, V.
      assert (/ (1 + - (-1 + / 2 ^ 53)) <= 1). { apply Rmult_le_reg_r with (1 + - (-1 + / 2 ^ 53)); [lra|]. rewrite Rinv_l by lra. lra. }
      unfold Rdiv. assert (/ 2 ^ 48 * / (1 + - (-1 + / 2 ^ 53)) <= / 2 ^ 48 * 1) by (apply Rmult_le_compat_l; lra). lra.
Qed.

Lemma ex_inv : accurate_exp (p_exp (ideal true false)) /\ accurate_ln (p_ln (ideal true false))
  /\ (exists E z, erfc_function E /\ finite (f64_lit 0.25) /\ / 2 ^ 100 <= val (f64_lit 0.25) < 2 /\ bpow radix2 (-930) <= val (f64_lit 0.25) /\ E z = val (f64_lit 0.25))
  /\ (exists F z, erf_function F /\ finite (f64_lit (-0.75)) /\ -1 + / 2 ^ 50 <= val (f64_lit (-0.75)) < 1 /\ F z = val (f64_lit (-0.75))).
Proof.
  split; [apply ErfcxAcc.ideal_exp_accurate|]. split; [apply BetaExamples.ideal_ln_accurate|]. destruct erfc_exists as [E HE].
  lit_facts 0.25%dec 1%Z 2%Z HF1 HV1. lit_facts (-0.75)%dec (-3)%Z 2%Z HF2 HV2.
  assert (W1 : val (f64_lit 0.25) = 1 / 4) by (rewrite HV1; simpl (2 ^ 2)%Z; lra). assert (W2 : val (f64_lit (-0.75)) = -3 / 4) by (rewrite HV2; simpl (2 ^ 2)%Z; lra).
  split.
  - destruct (E_solve E HE (1 / 4) ltac:(lra)) as (z & _ & Ez). exists E, z. split; [exact HE|]. split; [exact HF1|]. rewrite W1.
    split; [lra|]. split; [|exact Ez]. apply Rle_trans with (bpow radix2 (-2)); [apply bpow_le; lia|simpl; lra].
  - destruct (E_solve E HE (7 / 4) ltac:(lra)) as (z & _ & Ez). destruct erf_exists as [F HF]. exists F, z. split; [exact HF|]. split; [exact HF2|]. rewrite W2.
    split; [lra|]. rewrite (erf_of_erfc F E HF HE), (erfc_0 E HE). lra.
Qed.
