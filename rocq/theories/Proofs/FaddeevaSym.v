(** * faddeeva: NaN, the axes, and the reflection in the imaginary axis *)

From Coq Require Import ZArith Reals Bool Lra Lia List Setoid Morphisms.
From Flocq Require Import Core IEEE754.BinarySingleNaN IEEE754.Binary IEEE754.Bits.
From Verif.Model Require Import Base Arith Utils Error Dawson FaddeevaTables Faddeeva.
From Verif.Float Require Import Bits64 Ieee Exact Platforms.
From Verif.Spec Require Import F64Spec Outcome.
From Verif.Proofs Require Import F64 F64Ops Lits Ext Poly Boundaries Symmetry ErfcxSafe DawsonBad DawsonNeg Eqz FaddeevaSafe.
Import ListNotations.
Open Scope R_scope.

Section Sym.
  Context (P : platform).
  Notation fad := (@faddeeva (ieee P)).

  (** ** NaN *)

  Lemma abs_nan' : forall x, Binary.is_nan x = true -> Binary.is_nan (f64_abs x) = true.
  Proof. intros x H. rewrite nan_abs. exact H. Qed.

  Theorem faddeeva_nan : forall x y, is_NaN x \/ is_NaN y ->
    exists a b, fad x y = Ok (a, b) /\ is_NaN a /\ is_NaN b.
  Proof.
    intros x y H. rewrite faddeeva_unfold_eq.
    assert (C1 : f64_lt (f64_abs y) (f64_mul P (f64_lit 1e-8) (f64_abs x)) = false).
    { destruct H as [H|H].
      - apply lt_nan_r. apply mul_nan_r. apply abs_nan'. exact H.
      - apply lt_nan_l. apply abs_nan'. exact H. }
    assert (C2 : f64_lt (f64_abs x) (f64_mul P (f64_lit 1e-8) (f64_abs y)) = false).
    { destruct H as [H|H].
      - apply lt_nan_l. apply abs_nan'. exact H.
      - apply lt_nan_r. apply mul_nan_r. apply abs_nan'. exact H. }
    assert (NZ : Binary.is_nan (zsq P x y) = true).
    { unfold zsq. destruct H as [H|H].
      - apply add_nan_l. apply mul_nan_l. apply abs_nan'. exact H.
      - apply add_nan_r. apply mul_nan_l. exact H. }
    rewrite C1, C2. rewrite (lt_nan_l _ _ NZ), (le_nan_r _ _ NZ).
    destruct (Binary.is_nan (f64_abs x)) eqn:Nx; [exists (f64_abs x), (f64_abs x); auto|].
    rewrite nan_abs in Nx. destruct H as [H|H]; [unfold is_NaN in H; congruence|].
    rewrite H. exists y, y; auto.
  Qed.

  (** ** The axes *)

  Lemma lit_1em8 : fin (f64_lit 1e-8) /\ bpow radix2 (-27) <= Binary.B2R (f64_lit 1e-8) <= 1.
  Proof.
    destruct (lit_spec 1e-8) as [N V].
    assert (B : R_of_dec 1e-8 = 1 / 100000000) by (unfold R_of_dec; cbn [dman dexp]; rewrite powerRZ_10; simpl; lra).
    assert (E : bpow radix2 (-27) = 1 / 134217728) by (simpl; lra).
    pose proof Om_big.
    assert (L : bpow radix2 (-27) <= val (f64_lit 1e-8) <= 1).
    { rewrite V, B. split; [apply rs_ge; [apply fmt_bpow; lia|lra|lra]|apply rs_le_fmt; [fq 1%Z 0%Z|lra|lra]]. }
    assert (F : fin (f64_lit 1e-8)) by (apply fin_iff_val; [exact N|rewrite Rabs_pos_eq; lra]).
    split; [exact F|]. rewrite <- (val_fin _ F). exact L.
  Qed.

  Lemma scaled_positive : forall x, number x -> bpow radix2 (-1000) <= Rabs (val x) ->
    number (f64_mul P (f64_lit 1e-8) (f64_abs x)) /\ 0 < val (f64_mul P (f64_lit 1e-8) (f64_abs x)).
  Proof.
    intros x Nx Hx. destruct lit_1em8 as [F8 V8].
    destruct (fin_or_inf x Nx) as [Fx|[s ->]].
    - assert (FA : fin (f64_abs x)) by (rewrite fin_abs; exact Fx).
      destruct (mul_spec P _ _ F8 FA) as [N V]. split; [exact N|].
      rewrite V, B2R_abs. rewrite (val_fin x Fx) in Hx.
      apply Rlt_le_trans with (bpow radix2 (-1027)); [apply bpow_gt_0|].
      apply rs_ge; [apply fmt_bpow; lia| |].
      + pose proof Om_big. assert (bpow radix2 (-1027) <= 1) by (change 1 with (bpow radix2 0); apply bpow_le; lia). lra.
      + change (-1027)%Z with (-27 + -1000)%Z. rewrite bpow_plus.
        apply Rmult_le_compat; try apply bpow_ge_0; tauto.
    - assert (E : f64_mul P (f64_lit 1e-8) (f64_abs (B754_infinity s)) = B754_infinity false).
      { assert (X : exists m e H, f64_lit 1e-8 = B754_finite false m e H).
        { destruct (f64_lit 1e-8) as [s0|s0| |s0 m e H]; try discriminate F8.
          - exfalso. simpl in V8. pose proof (bpow_gt_0 radix2 (-27)). lra.
          - exists m, e, H. destruct s0; [exfalso|reflexivity].
            pose proof (bpow_gt_0 radix2 (-27)) as B0. destruct V8 as [V8 _]. unfold Binary.B2R in V8.
            assert (F2R (beta := radix2) {| Fnum := SpecFloat.cond_Zopp true (Z.pos m); Fexp := e |} < 0) by (apply F2R_lt_0; reflexivity). lra. }
        destruct X as (m & e & H & ->). reflexivity. }
      rewrite E. split; [reflexivity|]. rewrite val_inf_f. apply Om_pos.
  Qed.

  Lemma zero_abs : forall y, finite y -> Binary.B2R y = 0 -> f64_abs y = f64_zero.
  Proof.
    intros [s|s|s pl H|s m e H] Fy Z; try discriminate Fy; [destruct s; reflexivity|exfalso].
    unfold Binary.B2R in Z. apply eq_0_F2R in Z. destruct s; discriminate Z.
  Qed.

  (** the axis of reals *)
  Theorem faddeeva_real_axis : forall x y, number x -> bpow radix2 (-1000) <= Rabs (val x) ->
    finite y -> Binary.B2R y = 0 ->
    fad x y = bind (@dawson (ieee P) x) (fun d =>
      Ok (if f64_lt (f64_lit 27.0) (f64_abs x) then f64_lit 0.0
          else libm P (p_exp P) (f64_mul P (f64_neg (f64_abs x)) (f64_abs x)),
          f64_mul P (f64_mul P (f64_lit 2.0) d) (@INV_SQRT_PI (ieee P)))).
  Proof.
    intros x y Nx Hx Fy Zy. rewrite faddeeva_unfold_eq.
    destruct (scaled_positive x Nx Hx) as [NS PS].
    assert (C : f64_lt (f64_abs y) (f64_mul P (f64_lit 1e-8) (f64_abs x)) = true).
    { apply lt_true. rewrite nan_abs. split; [apply fin_nonnan; exact Fy|]. split; [exact NS|].
      rewrite (zero_abs y Fy Zy). exact PS. }
    rewrite C. unfold faddeeva_near_real, im_w_of_x. ieee_simpl. rewrite (zero_abs y Fy Zy).
    assert (E0 : f64_eq f64_zero (f64_lit 0.0) = true) by (vm_compute; reflexivity).
    rewrite E0. destruct (@dawson (ieee P) x); reflexivity.
  Qed.

  (** the imaginary axis *)
  Theorem faddeeva_imaginary_axis : forall x y, number y -> bpow radix2 (-1000) <= Rabs (val y) ->
    finite x -> Binary.B2R x = 0 ->
    exists r, @erfcx (ieee P) y = Ok r /\ fad x y = Ok (r, f64_lit 0.0).
  Proof.
    intros x y Ny Hy Fx Zx. rewrite faddeeva_unfold_eq.
    destruct (scaled_positive y Ny Hy) as [NS PS].
    assert (C1 : f64_lt (f64_abs y) (f64_mul P (f64_lit 1e-8) (f64_abs x)) = false).
    { rewrite (zero_abs x Fx Zx). destruct lit_1em8 as [F8 _].
      destruct (mul_spec P (f64_lit 1e-8) f64_zero F8 eq_refl) as [NM VM].
      apply lt_false; [rewrite nan_abs; exact Ny|exact NM|].
      rewrite VM. change (Binary.B2R f64_zero) with 0. rewrite Rmult_0_r, rs_0.
      rewrite val_abs. apply Rabs_pos. }
    assert (C2 : f64_lt (f64_abs x) (f64_mul P (f64_lit 1e-8) (f64_abs y)) = true).
    { apply lt_true. rewrite nan_abs. split; [apply fin_nonnan; exact Fx|]. split; [exact NS|].
      rewrite (zero_abs x Fx Zx). exact PS. }
    rewrite C1, C2. unfold faddeeva_near_imag. destruct (erfcx_returns P y) as [r E]. exists r. split; [exact E|].
    rewrite E. ieee_simpl. rewrite (zero_abs x Fx Zx).
    assert (E0 : f64_eq f64_zero (f64_lit 0.0) = true) by (vm_compute; reflexivity).
    rewrite E0. reflexivity.
  Qed.

  (** ** The reflection *)

  Definition cj (a b : f64 * f64) : Prop := eqz (fst b) (fst a) /\ eqz (snd b) (f64_neg (snd a)).
  Definition nj (a b : f64 * f64) : Prop := eqz (fst b) (f64_neg (fst a)) /\ eqz (snd b) (snd a).

  Notation CM := (@cmul (ieee P)).
  Notation CA := (@cadd (ieee P)).

  Lemma neg_mul_neg : forall x y, eqz (f64_mul P (f64_neg x) (f64_neg y)) (f64_mul P x y).
  Proof. intros. rewrite neg_mul_l, neg_mul_r, neg_neg_z. reflexivity. Qed.

  Lemma cmul_cn : forall a a' b b', cj a a' -> nj b b' -> nj (CM a b) (CM a' b').
  Proof.
    intros a a' b b' [A1 A2] [B1 B2]. unfold nj, cmul. ieee_simpl. cbn [fst snd].
    rewrite A1, A2, B1, B2. split.
    - rewrite neg_mul_r, neg_mul_l, neg_sub. reflexivity.
    - rewrite neg_mul_neg. reflexivity.
  Qed.
  Lemma cmul_nn : forall a a' b b', nj a a' -> nj b b' -> cj (CM a b) (CM a' b').
  Proof.
    intros a a' b b' [A1 A2] [B1 B2]. unfold cj, cmul. ieee_simpl. cbn [fst snd].
    rewrite A1, A2, B1, B2. split.
    - rewrite neg_mul_neg. reflexivity.
    - rewrite neg_mul_l, neg_mul_r, neg_add. reflexivity.
  Qed.
  Lemma cadd_n : forall a a' b b', nj a a' -> nj b b' -> nj (CA a b) (CA a' b').
  Proof.
    intros a a' b b' [A1 A2] [B1 B2]. unfold nj, cadd. ieee_simpl. cbn [fst snd].
    rewrite A1, A2, B1, B2. split; [apply neg_add|reflexivity].
  Qed.
  Lemma cadd_c : forall a a' b b', cj a a' -> cj b b' -> cj (CA a b) (CA a' b').
  Proof.
    intros a a' b b' [A1 A2] [B1 B2]. unfold cj, cadd. ieee_simpl. cbn [fst snd].
    rewrite A1, A2, B1, B2. split; [reflexivity|apply neg_add].
  Qed.
  Lemma caddf_c : forall a a' r, cj a a' -> cj (@caddf (ieee P) a r) (@caddf (ieee P) a' r).
  Proof.
    intros a a' r [A1 A2]. unfold cj, caddf. ieee_simpl. cbn [fst snd].
    rewrite A1, A2. split; reflexivity.
  Qed.

  Lemma zero_neg_z : eqz (f64_lit 0.0) (f64_neg (f64_lit 0.0)).
  Proof. apply eqz_val; [reflexivity|reflexivity|]. rewrite val_neg, val_0. lra. Qed.
  Lemma re_only_c : forall d, cj (@re_only (ieee P) d) (@re_only (ieee P) d).
  Proof. intros d. split; [reflexivity|apply zero_neg_z]. Qed.
  Lemma im_n : forall v, nj (f64_lit 0.0, v) (f64_lit 0.0, v).
  Proof. intros v. split; [apply zero_neg_z|reflexivity]. Qed.

  (** coefficients alternately real and imaginary, the last imaginary *)
  Fixpoint alternate (re : bool) (cs : list (f64 * f64)) : Prop :=
    match cs with
    | [] => re = true
    | c :: cs => (if re then cj c c else nj c c) /\ alternate (negb re) cs
    end.

  Lemma chain_sym : forall z z', nj z z' -> forall (cs : list (f64 * f64)) acc acc' (re : bool),
    (if re then nj acc acc' else cj acc acc') -> alternate re cs ->
    nj (fold_left (fun acc c => CA (CM acc z) c) cs acc) (fold_left (fun acc c => CA (CM acc z') c) cs acc').
  Proof.
    intros z z' Hz cs. induction cs as [|c cs IH]; intros acc acc' re Ha Hc.
    - cbn in Hc. subst re. exact Ha.
    - cbn [fold_left]. cbn [alternate] in Hc. destruct Hc as [C Cs]. apply (IH _ _ (negb re)); [|exact Cs].
      destruct re; cbn [negb].
      + apply cadd_c; [apply cmul_nn; assumption|exact C].
      + apply cadd_n; [apply cmul_cn; assumption|exact C].
  Qed.

  Lemma maclaurin_sym : forall z z' c0 cs (re : bool), nj z z' -> (if re then nj c0 c0 else cj c0 c0) -> alternate re cs ->
    cj (@maclaurin (ieee P) z c0 cs) (@maclaurin (ieee P) z' c0 cs).
  Proof.
    intros z z' c0 cs re Hz H0 Hc. unfold maclaurin. apply caddf_c. apply cmul_nn; [|exact Hz].
    apply (chain_sym z z' Hz cs c0 c0 re); assumption.
  Qed.

  Ltac alt := cbn [alternate negb]; repeat (split; [first [apply re_only_c|apply im_n]|]); reflexivity.

  Lemma maclaurin4_sym : forall z z', nj z z' -> cj (@maclaurin4 (ieee P) z) (@maclaurin4 (ieee P) z').
  Proof. intros z z' H. apply (maclaurin_sym z z' _ _ false H); [apply re_only_c|alt]. Qed.
  Lemma maclaurin13_sym : forall z z', nj z z' -> cj (@maclaurin13 (ieee P) z) (@maclaurin13 (ieee P) z').
  Proof. intros z z' H. apply (maclaurin_sym z z' _ _ true H); [apply im_n|alt]. Qed.
  Lemma maclaurin19_sym : forall z z', nj z z' -> cj (@maclaurin19 (ieee P) z) (@maclaurin19 (ieee P) z').
  Proof. intros z z' H. apply (maclaurin_sym z z' _ _ true H); [apply im_n|alt]. Qed.

  Lemma small_sym : forall x y s, cj (@faddeeva_small (ieee P) x y s) (@faddeeva_small (ieee P) (f64_neg x) y s).
  Proof.
    intros x y s. unfold faddeeva_small.
    assert (H : nj (x, y) (f64_neg x, y)) by (split; reflexivity).
    destruct (@Arith.lt (ieee P) s _); [destruct (@Arith.lt (ieee P) s _)|].
    - apply maclaurin4_sym. exact H.
    - apply maclaurin13_sym. exact H.
    - apply maclaurin19_sym. exact H.
  Qed.

  Lemma near_imag_sym : forall x y,
    same_outcome cj (@faddeeva_near_imag (ieee P) x y) (@faddeeva_near_imag (ieee P) (f64_neg x) y).
  Proof.
    intros x y. unfold faddeeva_near_imag. ieee_simpl. rewrite abs_neg.
    destruct (erfcx_returns P y) as [r E]. rewrite E. cbn [bind].
    destruct (f64_eq (f64_abs x) (f64_lit 0.0)).
    - split; [reflexivity|apply zero_neg_z].
    - split; cbn [fst snd]; [reflexivity|apply neg_mul_l].
  Qed.

  Lemma near_real_sym : forall x y,
    same_outcome cj (@faddeeva_near_real (ieee P) x y) (@faddeeva_near_real (ieee P) (f64_neg x) y).
  Proof.
    intros x y. unfold faddeeva_near_real, im_w_of_x. ieee_simpl. rewrite abs_neg.
    pose proof (dawson_odd P x) as D.
    destruct (@dawson (ieee P) x) as [d|p|]; destruct (@dawson (ieee P) (f64_neg x)) as [d'|p'|];
      try contradiction; cbn [bind]; [|exact D].
    apply eqz_of_eqn in D.
    set (e2 := if f64_lt _ _ then _ else _).
    assert (W : eqz (f64_mul P (f64_mul P (f64_lit 2.0) d') (@INV_SQRT_PI (ieee P)))
                    (f64_neg (f64_mul P (f64_mul P (f64_lit 2.0) d) (@INV_SQRT_PI (ieee P))))).
    { rewrite D, neg_mul_r, neg_mul_l. reflexivity. }
    destruct (f64_eq (f64_abs y) (f64_lit 0.0)).
    - split; cbn [fst snd]; [reflexivity|exact W].
    - split; cbn [fst snd]; rewrite W.
      + rewrite neg_mul_neg. reflexivity.
      + rewrite neg_mul_r, neg_mul_l, neg_mul_l, neg_sub. reflexivity.
  Qed.

  (** conjugation of the platform's complex exponential *)
  Definition cexp_conj : Prop := forall a b a' b', eqz a' a -> eqz b' (f64_neg b) -> cj (p_cexp P (a, b)) (p_cexp P (a', b')).

  Lemma cscale_c : forall r a a', cj a a' -> cj (@cscale (ieee P) r a) (@cscale (ieee P) r a').
  Proof.
    intros r a a' [A1 A2]. unfold cj, cscale. ieee_simpl. cbn [fst snd]. rewrite A1, A2.
    split; [reflexivity|apply neg_mul_r].
  Qed.
  Lemma csub_c : forall a a' b b', cj a a' -> cj b b' -> cj (@csub (ieee P) a b) (@csub (ieee P) a' b').
  Proof.
    intros a a' b b' [A1 A2] [B1 B2]. unfold cj, csub. ieee_simpl. cbn [fst snd].
    rewrite A1, A2, B1, B2. split; [reflexivity|apply neg_sub].
  Qed.

  (** a sum of numbers of the same sign, the first nonzero *)
  Lemma sum_nonzero : forall u v, positive u -> is_NaN v \/ nonneg v ->
    number (f64_add P u v) -> val (f64_add P u v) <> 0.
  Proof.
    intros u v [Nu Pu] [V|V] N.
    - unfold number in N. rewrite (add_nan_r P u v V) in N. discriminate.
    - assert (U : nonneg u) by (split; [exact Nu|lra]).
      destruct (add_nonneg P u v U V) as (_ & G & _). lra.
  Qed.

  Lemma quot_sq : forall xs ya, positive xs -> nonneg ya ->
    is_NaN (f64_mul P (f64_div P ya xs) ya) \/ nonneg (f64_mul P (f64_div P ya xs) ya).
  Proof.
    intros xs ya Px Na. destruct (div_nonneg P ya xs Na Px) as [N|N].
    - left. apply mul_nan_l. exact N.
    - apply mul_nonneg; assumption.
  Qed.

  Definition den_x (xs ya : f64) := f64_add P xs (f64_mul P (f64_div P ya xs) ya).
  Definition den_y (xs ya : f64) := f64_add P (f64_mul P (f64_div P xs ya) xs) ya.

  Lemma den_x_neg : forall xs ya, eqz (den_x (f64_neg xs) ya) (f64_neg (den_x xs ya)).
  Proof. intros. unfold den_x. rewrite neg_div_r, neg_mul_l, neg_add. reflexivity. Qed.
  Lemma den_y_neg : forall xs ya, eqz (den_y (f64_neg xs) ya) (den_y xs ya).
  Proof. intros. unfold den_y. rewrite neg_div_l, neg_mul_neg. reflexivity. Qed.

  Lemma den_x_nz : forall xs ya, number xs -> val xs <> 0 -> nonneg ya -> number (den_x xs ya) -> val (den_x xs ya) <> 0.
  Proof.
    assert (Pos : forall xs ya, positive xs -> nonneg ya -> number (den_x xs ya) -> val (den_x xs ya) <> 0).
    { intros xs ya Px Na N. apply sum_nonzero; [exact Px|apply quot_sq; assumption|exact N]. }
    intros xs ya Nx Vx Na N. destruct (Rtotal_order (val xs) 0) as [L|[L|L]]; [|contradiction|].
    - pose proof (den_x_neg (f64_neg xs) ya) as E. rewrite neg_neg in E.
      destruct (eqz_cases _ _ E) as [->|[[A B]|(A & B & C & D)]].
      + rewrite val_neg. assert (V : val (den_x (f64_neg xs) ya) <> 0); [|lra].
        apply Pos; [split; [unfold number; rewrite nan_neg; exact Nx|rewrite val_neg; lra]|exact Na|].
        unfold number in *. rewrite (eqz_nan _ _ E), nan_neg in N. exact N.
      + unfold number in N. congruence.
      + exfalso.
        assert (V : val (den_x (f64_neg xs) ya) <> 0).
        { apply Pos; [split; [unfold number; rewrite nan_neg; exact Nx|rewrite val_neg; lra]|exact Na|].
          unfold number in *. rewrite (eqz_nan _ _ E), nan_neg in N. exact N. }
        apply V. rewrite <- (Ropp_involutive (val _)), <- val_neg, (val_fin _ B), D. lra.
    - apply Pos; [split; assumption|exact Na|exact N].
  Qed.

  Lemma den_y_nz : forall xs ya, number xs -> positive ya -> number (den_y xs ya) -> val (den_y xs ya) <> 0.
  Proof.
    assert (Pos : forall xs ya, nonneg xs -> positive ya -> number (den_y xs ya) -> 0 < val (den_y xs ya)).
    { intros xs ya Nx [Ny Py] N. unfold den_y in *.
      assert (Q : is_NaN (f64_mul P (f64_div P xs ya) xs) \/ nonneg (f64_mul P (f64_div P xs ya) xs)).
      { destruct (div_nonneg P xs ya Nx (conj Ny Py)) as [M|M]; [left; apply mul_nan_l; exact M|].
        apply mul_nonneg; assumption. }
      destruct Q as [Q|Q]; [unfold number in N; rewrite (add_nan_l P _ ya Q) in N; discriminate|].
      assert (Y : nonneg ya) by (split; [exact Ny|lra]).
      destruct (add_nonneg P _ ya Q Y) as (_ & _ & G). lra. }
    intros xs ya Nx Py N. destruct (Rle_or_lt 0 (val xs)) as [L|L].
    - specialize (Pos xs ya (conj Nx L) Py N). lra.
    - pose proof (den_y_neg xs ya) as E.
      assert (N' : number (den_y (f64_neg xs) ya)) by (unfold number; rewrite (eqz_nan _ _ E); exact N).
      assert (V : 0 < val (den_y (f64_neg xs) ya)).
      { apply Pos; [split; [unfold number; rewrite nan_neg; exact Nx|rewrite val_neg; lra]|exact Py|exact N']. }
      destruct E as [[A _]|(_ & _ & V')]; [unfold number, is_NaN in *; congruence|]. lra.
  Qed.

  Definition fold_x (x y : f64) : f64 := if f64_lt y (f64_lit 0.0) then f64_neg x else x.
  Lemma fold_x_neg : forall x y, fold_x (f64_neg x) y = f64_neg (fold_x x y).
  Proof. intros. unfold fold_x. destruct (f64_lt y _); reflexivity. Qed.
  Lemma fold_x_abs : forall x y, f64_abs (fold_x x y) = f64_abs x.
  Proof. intros. unfold fold_x. destruct (f64_lt y _); rewrite ?abs_neg; reflexivity. Qed.
  Lemma fold_x_nan : forall x y, Binary.is_nan (fold_x x y) = Binary.is_nan x.
  Proof. intros. unfold fold_x. destruct (f64_lt y _); rewrite ?nan_neg; reflexivity. Qed.
  Lemma fold_x_val : forall x y, Rabs (val (fold_x x y)) = Rabs (val x).
  Proof. intros. rewrite <- !val_abs, fold_x_abs. reflexivity. Qed.

  Definition far (s : f64) : Prop := f64_lt (f64_lit 4.8e15) s = true.

  Definition reflect_res (u v : f64 * f64 + f64 * f64) : Prop :=
    match u, v with inl a, inl b => cj a b | inr a, inr b => cj a b | _, _ => False end.

  Lemma large_res_far : forall x y, number x -> number y -> far (zsq P x y) ->
    reflect_res (@faddeeva_large_res (ieee P) x y (zsq P x y))
                (@faddeeva_large_res (ieee P) (f64_neg x) y (zsq P x y)).
  Proof.
    intros x y Nx Ny F. unfold far in F. unfold faddeeva_large_res. ieee_simpl.
    fold (fold_x x y). fold (fold_x (f64_neg x) y). rewrite fold_x_neg, abs_neg, F.
    pose proof (fold_x_nan x y) as NX. pose proof (fold_x_val x y) as VX. rewrite Nx in NX.
    set (xs := fold_x x y) in *. set (ya := f64_abs y).
    assert (Na : nonneg ya) by (split; [unfold ya, number; rewrite nan_abs; exact Ny|unfold ya; rewrite val_abs; apply Rabs_pos]).
    fold (den_x xs ya). fold (den_x (f64_neg xs) ya). fold (den_y xs ya). fold (den_y (f64_neg xs) ya).
    destruct (f64_lt ya (f64_abs x)) eqn:C.
    - cbn [reflect_res]. apply lt_true in C. destruct C as (_ & _ & C).
      assert (NZ : val xs <> 0).
      { intros Z. rewrite Z, Rabs_R0 in VX. rewrite val_abs, <- VX in C. destruct Na. lra. }
      assert (D : eqz (f64_div P (@INV_SQRT_PI (ieee P)) (den_x (f64_neg xs) ya))
                      (f64_neg (f64_div P (@INV_SQRT_PI (ieee P)) (den_x xs ya)))).
      { rewrite <- neg_div_r. apply div_eqz; [reflexivity|apply den_x_neg|].
        intros N. apply den_x_nz; [unfold number; rewrite nan_neg; exact NX|rewrite val_neg; lra|exact Na|exact N]. }
      split; cbn [fst snd]; rewrite D; [|reflexivity].
      rewrite neg_div_r, neg_mul_neg. reflexivity.
    - destruct (f64_is_infinite ya).
      + cbn [reflect_res]. destruct (_ || _).
        * split; apply eqz_nans; reflexivity.
        * split; [reflexivity|apply zero_neg_z].
      + cbn [reflect_res].
        assert (PY : positive ya).
        { split; [apply Na|]. destruct Na as [Na1 Na2]. destruct (Rle_lt_or_eq_dec _ _ Na2) as [G|G]; [exact G|exfalso].
          apply lt_false in C; [|exact Na1|rewrite nan_abs; exact Nx]. rewrite val_abs in C.
          assert (X0 : val x = 0).
          { pose proof (Rabs_pos (val x)). destruct (Req_dec (val x) 0) as [Z|Z]; [exact Z|apply Rabs_pos_lt in Z; lra]. }
          unfold ya in G. rewrite val_abs in G.
          assert (Y0 : val y = 0).
          { destruct (Req_dec (val y) 0) as [Z|Z]; [exact Z|apply Rabs_pos_lt in Z; lra]. }
          assert (Fx : fin x) by (apply fin_iff_val; [exact Nx|rewrite X0, Rabs_R0; apply Om_pos]).
          assert (Fy : fin y) by (apply fin_iff_val; [exact Ny|rewrite Y0, Rabs_R0; apply Om_pos]).
          assert (Z0 : val (zsq P x y) = 0).
          { assert (FA : fin (f64_abs x)) by (rewrite fin_abs; exact Fx).
            rewrite (val_fin x Fx) in X0. rewrite (val_fin y Fy) in Y0.
            destruct (mul_spec P _ _ FA FA) as [M1 M2]. rewrite B2R_abs, X0, Rabs_R0, Rmult_0_l, rs_0 in M2.
            destruct (mul_spec P _ _ Fy Fy) as [M3 M4]. rewrite Y0, Rmult_0_l, rs_0 in M4.
            assert (G1 : fin (f64_mul P (f64_abs x) (f64_abs x))) by (apply fin_iff_val; [exact M1|rewrite M2, Rabs_R0; apply Om_pos]).
            assert (G2 : fin (f64_mul P y y)) by (apply fin_iff_val; [exact M3|rewrite M4, Rabs_R0; apply Om_pos]).
            destruct (add_spec P _ _ G1 G2) as [_ V]. unfold zsq. rewrite V.
            rewrite <- (val_fin _ G1), <- (val_fin _ G2), M2, M4, Rplus_0_r. apply rs_0. }
          apply lt_true in F. destruct F as (_ & _ & F). rewrite Z0 in F.
          lit_facts 4.8e15%dec 4800000000000000%Z 0%Z HF HV. rewrite HV in F. lra. }
        assert (D : eqz (f64_div P (@INV_SQRT_PI (ieee P)) (den_y (f64_neg xs) ya))
                        (f64_div P (@INV_SQRT_PI (ieee P)) (den_y xs ya))).
        { apply div_eqz; [reflexivity|apply den_y_neg|].
          intros N. apply den_y_nz; [unfold number; rewrite nan_neg; exact NX|exact PY|exact N]. }
        split; cbn [fst snd]; rewrite D; [reflexivity|].
        rewrite neg_div_l, neg_mul_r. reflexivity.
  Qed.

  Lemma large_far : forall x y, number x -> number y -> far (zsq P x y) ->
    (f64_lt y (f64_lit 0.0) = true -> cexp_conj) ->
    cj (@faddeeva_large (ieee P) x y (zsq P x y)) (@faddeeva_large (ieee P) (f64_neg x) y (zsq P x y)).
  Proof.
    intros x y Nx Ny F CJ. pose proof (large_res_far x y Nx Ny F) as H.
    unfold faddeeva_large.
    destruct (@faddeeva_large_res (ieee P) x y (zsq P x y)) as [a|a];
      destruct (@faddeeva_large_res (ieee P) (f64_neg x) y (zsq P x y)) as [b|b]; try contradiction; [exact H|].
    cbn [reflect_res] in H. ieee_simpl. destruct (f64_lt y (f64_lit 0.0)); [|exact H].
    apply csub_c; [|exact H]. apply cscale_c. apply (CJ eq_refl).
    - rewrite !neg_neg. rewrite sub_neg_add. rewrite mul_comm_z.
      rewrite (add_comm_z P (f64_neg x)), add_neg_sub, (add_comm_z P x). reflexivity.
    - rewrite neg_neg. rewrite neg_mul_r, neg_mul_l, neg_neg_z. reflexivity.
  Qed.

  (** ** Taylor *)

  Lemma taylor_neg : forall x y, @faddeeva_taylor (ieee P) (f64_neg x) y = @faddeeva_taylor (ieee P) x y.
  Proof. intros. unfold faddeeva_taylor, tile_index. ieee_simpl. rewrite abs_neg. reflexivity. Qed.

  Lemma unfold_sym : forall x y r, number x -> val x <> 0 ->
    (f64_lt y (f64_lit 0.0) = true -> cexp_conj) ->
    cj (@faddeeva_unfold (ieee P) x y r) (@faddeeva_unfold (ieee P) (f64_neg x) y r).
  Proof.
    intros x y r Nx Vx CJ. unfold faddeeva_unfold. ieee_simpl.
    assert (S : f64_lt (f64_neg x) (f64_lit 0.0) = negb (f64_lt x (f64_lit 0.0))).
    { destruct (f64_lt x (f64_lit 0.0)) eqn:E; cbn [negb].
      - apply lt_true in E. destruct E as (_ & _ & E). rewrite val_0 in E.
        apply lt_false; [rewrite nan_neg; exact Nx|apply nn_0|]. rewrite val_0, val_neg. lra.
      - apply lt_false in E; [|exact Nx|apply nn_0]. rewrite val_0 in E.
        apply lt_true. rewrite nan_neg. split; [exact Nx|]. split; [apply nn_0|]. rewrite val_0, val_neg. lra. }
    rewrite S.
    assert (CR : cj r (fst r, f64_neg (snd r))) by (split; reflexivity).
    assert (CR' : cj (fst r, f64_neg (snd r)) r) by (split; cbn [fst snd]; [reflexivity|rewrite neg_neg; reflexivity]).
    destruct (f64_lt y (f64_lit 0.0)).
    - assert (E : cj (@cscale (ieee P) (f64_lit 2.0) (p_cexp P
          (f64_mul P (f64_sub P y x) (f64_add P x y), f64_mul P (f64_mul P (f64_neg (f64_lit 2.0)) x) y)))
        (@cscale (ieee P) (f64_lit 2.0) (p_cexp P
          (f64_mul P (f64_sub P y (f64_neg x)) (f64_add P (f64_neg x) y),
           f64_mul P (f64_mul P (f64_neg (f64_lit 2.0)) (f64_neg x)) y)))).
      { apply cscale_c. apply (CJ eq_refl).
        - rewrite sub_neg_add, mul_comm_z, (add_comm_z P (f64_neg x)), add_neg_sub, (add_comm_z P y). reflexivity.
        - rewrite neg_mul_r, neg_mul_l. reflexivity. }
      destruct (f64_lt x (f64_lit 0.0)); cbn [negb]; apply csub_c; assumption.
    - destruct (f64_lt x (f64_lit 0.0)); cbn [negb]; assumption.
  Qed.

  (** on the imaginary axis, away from the origin, the near-axis branch is taken *)
  Lemma axis_near_imag : forall x y, number x -> number y -> val x = 0 ->
    f64_lt (zsq P x y) (f64_lit 0.053) = false ->
    f64_lt (f64_abs x) (f64_mul P (f64_lit 1e-8) (f64_abs y)) = true.
  Proof.
    intros x y Nx Ny X0 H. destruct lit_053 as [F5 V5].
    apply lt_false in H; [|apply zsq_number; assumption|apply fin_nonnan; exact F5].
    assert (Fx : fin x) by (apply fin_iff_val; [exact Nx|rewrite X0, Rabs_R0; apply Om_pos]).
    rewrite (val_fin x Fx) in X0.
    assert (B : bpow radix2 (-1000) <= Rabs (val y)).
    { destruct (Rle_or_lt (bpow radix2 (-1000)) (Rabs (val y))) as [G|G]; [exact G|exfalso].
      assert (S : bpow radix2 (-1000) <= 1 / 8) by (change (1 / 8) with (1 * / 8); apply Rle_trans with (bpow radix2 (-3)); [apply bpow_le; lia|simpl; lra]).
      assert (Fy : fin y) by (apply fin_iff_val; [exact Ny|pose proof Om_big; lra]).
      assert (FA : fin (f64_abs x)) by (rewrite fin_abs; exact Fx).
      destruct (mul_spec P _ _ FA FA) as [M1 M2]. rewrite B2R_abs, X0, Rabs_R0, Rmult_0_l, rs_0 in M2.
      assert (G1 : fin (f64_mul P (f64_abs x) (f64_abs x))) by (apply fin_iff_val; [exact M1|rewrite M2, Rabs_R0; apply Om_pos]).
      destruct (mul_spec P _ _ Fy Fy) as [M3 M4]. rewrite (val_fin y Fy) in G.
      assert (Q : 0 <= Binary.B2R y * Binary.B2R y <= 1 / 64) by (apply Rabs_lt_inv in G; split; nra).
      pose proof Om_big.
      assert (Q' : 0 <= rs (Binary.B2R y * Binary.B2R y) <= 1 / 64).
      { split; [apply rs_pos; lra|apply rs_le_fmt; [fq 1%Z 6%Z|lra|lra]]. }
      assert (G2 : fin (f64_mul P y y)) by (apply fin_iff_val; [exact M3|rewrite M4, Rabs_pos_eq; lra]).
      destruct (add_spec P _ _ G1 G2) as [_ V]. rewrite <- (val_fin _ G1), <- (val_fin _ G2), M2, M4, Rplus_0_l in V.
      unfold zsq in H. rewrite V in H.
      assert (rs (rs (Binary.B2R y * Binary.B2R y)) <= 1 / 64) by (apply rs_le_fmt; [fq 1%Z 6%Z|lra|lra]).
      lra. }
    destruct (scaled_positive y Ny B) as [NS PS].
    apply lt_true. rewrite nan_abs, val_abs, (val_fin x Fx), X0, Rabs_R0. auto.
  Qed.

  (** C43 *)
  Theorem faddeeva_reflection : forall x y,
    (f64_le (f64_lit 49.0) (zsq P x y) = true -> f64_lt (f64_abs y) (f64_mul P (f64_lit 1e-8) (f64_abs x)) = true
       \/ f64_lt (f64_abs x) (f64_mul P (f64_lit 1e-8) (f64_abs y)) = true \/ far (zsq P x y)) ->
    (f64_lt y (f64_lit 0.0) = true -> cexp_conj) ->
    same_outcome cj (fad x y) (fad (f64_neg x) y).
  Proof.
    intros x y H CJ.
    destruct (Binary.is_nan x) eqn:Nx.
    { destruct (faddeeva_nan x y (or_introl Nx)) as (a & b & E & A & B).
      assert (Nx' : is_NaN (f64_neg x)) by (unfold is_NaN; rewrite nan_neg; exact Nx).
      destruct (faddeeva_nan (f64_neg x) y (or_introl Nx')) as (a' & b' & E' & A' & B').
      rewrite E, E'. split; apply eqz_nans; cbn [fst snd]; rewrite ?nan_neg; assumption. }
    destruct (Binary.is_nan y) eqn:Ny.
    { destruct (faddeeva_nan x y (or_intror Ny)) as (a & b & E & A & B).
      destruct (faddeeva_nan (f64_neg x) y (or_intror Ny)) as (a' & b' & E' & A' & B').
      rewrite E, E'. split; apply eqz_nans; cbn [fst snd]; rewrite ?nan_neg; assumption. }
    assert (ZS : zsq P (f64_neg x) y = zsq P x y) by (unfold zsq; rewrite abs_neg; reflexivity).
    rewrite !faddeeva_unfold_eq, ZS, abs_neg.
    destruct (f64_lt (f64_abs y) (f64_mul P (f64_lit 1e-8) (f64_abs x))) eqn:C1; [apply near_real_sym|].
    destruct (f64_lt (f64_abs x) (f64_mul P (f64_lit 1e-8) (f64_abs y))) eqn:C2; [apply near_imag_sym|].
    destruct (f64_lt (zsq P x y) (f64_lit 0.053)) eqn:C3; [apply small_sym|].
    destruct (f64_le (f64_lit 49.0) (zsq P x y)) eqn:C4.
    { destruct (H eq_refl) as [A|[A|A]]; [discriminate A|discriminate A|]. apply large_far; assumption. }
    rewrite nan_abs, Nx, Ny. rewrite taylor_neg.
    assert (L : f64_lt (zsq P x y) (f64_lit 49.0) = true).
    { pose proof (zsq_number P x y Nx Ny) as NZ. destruct lit_49 as [F49 _].
      apply le_false in C4; [|apply fin_nonnan; exact F49|exact NZ].
      apply lt_true. split; [exact NZ|]. split; [apply fin_nonnan; exact F49|exact C4]. }
    destruct (taylor_returns P x y Nx Ny C3 L) as [r E]. rewrite E. cbn [bind same_outcome].
    apply unfold_sym; [exact Nx| |exact CJ].
    intros X0. rewrite (axis_near_imag x y Nx Ny X0 C3) in C2. discriminate.
  Qed.
End Sym.

(** ** The reflection is not exact in the asymptotic branch *)

Definition refl_x : f64 := f64_lit 0.5.
Definition refl_y : f64 := f64_lit 18.5.

Definition differ (u v : res (f64 * f64)) : bool :=
  match u, v with
  | Ok (a, _), Ok (a', _) => Binary.is_finite a && Binary.is_finite a' && negb (f64_eq a a')
  | _, _ => false
  end.

Lemma reflection_differs : forall P, differ (@faddeeva (ieee P) refl_x refl_y) (@faddeeva (ieee P) (f64_neg refl_x) refl_y) = true.
Proof. intros P. vm_compute. reflexivity. Qed.

Lemma differ_spec : forall u v, differ u v = true -> exists a b a' b', u = Ok (a, b) /\ v = Ok (a', b')
  /\ finite a /\ finite a' /\ val a <> val a'.
Proof.
  intros u v H. unfold differ in H.
  destruct u as [[a b]|p|]; try discriminate H. destruct v as [[a' b']|p|]; try discriminate H.
  apply andb_prop in H. destruct H as [H1 H3]. apply andb_prop in H1. destruct H1 as [H1 H2].
  exists a, b, a', b'. repeat split; try assumption.
  intros V. apply negb_true_iff in H3.
  assert (E : f64_eq a a' = true) by (apply eq_true; split; [apply fin_nonnan; exact H1|split; [apply fin_nonnan; exact H2|exact V]]).
  congruence.
Qed.

Theorem faddeeva_reflection_refuted : exists x y : f64, finite x /\ finite y /\ forall P : platform,
  exists a b a' b', @faddeeva (ieee P) x y = Ok (a, b) /\ @faddeeva (ieee P) (f64_neg x) y = Ok (a', b')
  /\ finite a /\ finite a' /\ val a <> val a'.
Proof.
  exists refl_x, refl_y. split; [vm_compute; reflexivity|]. split; [vm_compute; reflexivity|].
  intros P. exact (differ_spec _ _ (reflection_differs P)).
Qed.

(** ** The origin *)

Definition is_one (u : res (f64 * f64)) : bool :=
  match u with Ok (a, b) => f64_eq a (f64_lit 1.0) && f64_eq b (f64_lit 0.0) | _ => false end.

Lemma is_one_spec : forall u, is_one u = true ->
  exists a b, u = Ok (a, b) /\ number a /\ number b /\ val a = 1 /\ val b = 0.
Proof.
  intros [[a b]|p|] H; try discriminate H. cbn [is_one] in H. apply andb_prop in H. destruct H as [H1 H2].
  apply eq_true in H1. apply eq_true in H2. rewrite val_1 in H1. rewrite val_0 in H2.
  exists a, b. tauto.
Qed.

Lemma origin_check : forall P s t, is_one (@faddeeva (ieee P) (B754_zero s) (B754_zero t)) = true.
Proof. intros P [] []; vm_compute; reflexivity. Qed.

Theorem faddeeva_origin : forall P (x y : f64), finite x -> Binary.B2R x = 0 -> finite y -> Binary.B2R y = 0 ->
  exists a b, @faddeeva (ieee P) x y = Ok (a, b) /\ number a /\ number b /\ val a = 1 /\ val b = 0.
Proof.
  assert (Z : forall x : f64, finite x -> Binary.B2R x = 0 -> exists s, x = B754_zero s).
  { intros [s|s|s pl H|s m e H] F V; try discriminate F; [eauto|exfalso].
    unfold Binary.B2R in V. apply eq_0_F2R in V. destruct s; discriminate V. }
  intros P x y Fx Zx Fy Zy. destruct (Z x Fx Zx) as [s ->]. destruct (Z y Fy Zy) as [t ->].
  apply is_one_spec. apply origin_check.
Qed.
