(** * I_0, I_1, K_0 and K_1 over the whole half-line: positivity, monotonicity
      of the scaled functions, and which approximations are close to them *)

From Coq Require Import ZArith Reals Bool Lra Lia List.
From Flocq Require Import Core.
From Verif.Spec Require Import BesselSpec Bessel2Spec.
From Verif.Proofs Require Import BesselSeries SecondSeries BesselReal EulerGamma ErfcODE BesselODE.
Open Scope R_scope.

(** ** calculus *)
Lemma derive_loc : forall f g x l, 0 < x -> (forall y, 0 < y -> f y = g y) -> derivable_pt_lim f x l -> derivable_pt_lim g x l.
Proof.
  intros f g x l Hx E D e He. destruct (D e He) as [d Hd]. assert (M0 : 0 < Rmin d x) by (apply Rmin_glb_lt; [apply cond_pos|lra]). exists (mkposreal _ M0). cbn [pos]. intros h Hh Hl. specialize (Hd h Hh).
  assert (L1 : Rabs h < d) by (eapply Rlt_le_trans; [exact Hl|apply Rmin_l]). assert (L2 : Rabs h < x) by (eapply Rlt_le_trans; [exact Hl|apply Rmin_r]). specialize (Hd L1). apply Rabs_lt_inv in L2.
  rewrite <- !E by lra. exact Hd.
Qed.
Lemma derive_unx : forall f x l, 0 < x -> derivable_pt_lim (fun x => x * f x) x l -> derivable_pt_lim f x ((l - f x) / x).
Proof.
  intros f x l Hx D. apply (derive_loc (fun y => y * f y / y)); [exact Hx|intros y Hy; field; lra|].
  replace ((l - f x) / x) with ((l * x - 1 * (x * f x)) / Rsqr x) by (unfold Rsqr; field; lra).
  apply (derivable_pt_lim_div (fun y => y * f y) id); [exact D|apply derivable_pt_lim_id|unfold id; lra].
Qed.
Lemma derive_se : forall c x, 0 < x -> derivable_pt_lim (fun x => sqrt x * exp (c * x)) x (sqrt x * exp (c * x) * (c + / (2 * x))).
Proof.
  intros c x Hx. pose proof (sqrt_lt_R0 x Hx) as S0. pose proof (sqrt_sqrt x ltac:(lra)) as SS.
  replace (sqrt x * exp (c * x) * (c + / (2 * x))) with (/ (2 * sqrt x) * exp (c * x) + sqrt x * (exp (c * x) * (c * 1))).
  - apply (derivable_pt_lim_mult sqrt (fun x => exp (c * x))); [apply derivable_pt_lim_sqrt, Hx|].
    apply (derivable_pt_lim_comp (fun x => c * x) exp); [apply derivable_pt_lim_scal, derivable_pt_lim_id|apply derivable_pt_lim_exp].
  - replace (/ (2 * x)) with (/ (2 * (sqrt x * sqrt x))) by (rewrite SS; reflexivity). field. lra.
Qed.
Lemma derive_scaled : forall c f l x, 0 < x -> derivable_pt_lim f x l ->
  derivable_pt_lim (fun x => sqrt x * exp (c * x) * f x) x (sqrt x * exp (c * x) * (l + (c + / (2 * x)) * f x)).
Proof.
  intros c f l x Hx D. replace (sqrt x * exp (c * x) * (l + (c + / (2 * x)) * f x)) with (sqrt x * exp (c * x) * (c + / (2 * x)) * f x + sqrt x * exp (c * x) * l) by ring.
  apply (derivable_pt_lim_mult (fun x => sqrt x * exp (c * x)) f); [apply derive_se, Hx|exact D].
Qed.
Lemma derive_ex : forall c f l x, derivable_pt_lim f x l -> derivable_pt_lim (fun x => exp (c * x) * f x) x (exp (c * x) * (l + c * f x)).
Proof.
  intros c f l x D. replace (exp (c * x) * (l + c * f x)) with (exp (c * x) * (c * 1) * f x + exp (c * x) * l) by ring.
  apply (derivable_pt_lim_mult (fun x => exp (c * x)) f); [|exact D].
  apply (derivable_pt_lim_comp (fun x => c * x) exp); [apply derivable_pt_lim_scal, derivable_pt_lim_id|apply derivable_pt_lim_exp].
Qed.
Lemma derive_inv : forall c x, 0 < x -> derivable_pt_lim (fun x => c / x) x (- c / (x * x)).
Proof.
  intros c x Hx. replace (- c / (x * x)) with ((0 * x - 1 * c) / Rsqr x) by (unfold Rsqr; field; lra).
  apply (derivable_pt_lim_div (fun _ => c) id); [apply derivable_pt_lim_const|apply derivable_pt_lim_id|unfold id; lra].
Qed.
Lemma derive_inv2 : forall c x, 0 < x -> derivable_pt_lim (fun x => c / (x * x)) x (- 2 * c / (x * x * x)).
Proof.
  intros c x Hx. replace (- 2 * c / (x * x * x)) with ((0 * (x * x) - (1 * x + x * 1) * c) / Rsqr (x * x)) by (unfold Rsqr; field; lra).
  apply (derivable_pt_lim_div (fun _ => c) (fun x => x * x)); [apply derivable_pt_lim_const|apply (derivable_pt_lim_mult id id); apply derivable_pt_lim_id|].
  apply Rmult_integral_contrapositive_currified; lra.
Qed.

(** a function with nonpositive derivative that tends to 0 is nonnegative *)
Definition fades (f : R -> R) : Prop := forall e, 0 < e -> exists X, forall x, X <= x -> Rabs (f x) <= e.
Lemma fade_pos : forall (f f' : R -> R) a, (forall x, a <= x -> derivable_pt_lim f x (f' x)) -> (forall x, a <= x -> f' x <= 0) -> fades f -> forall x, a <= x -> 0 <= f x.
Proof.
  intros f f' a D N F x Hx. destruct (Rle_or_lt 0 (f x)) as [H|H]; [exact H|exfalso].
  destruct (F (- f x / 2) ltac:(lra)) as [X HX]. set (y := Rmax x X). assert (Y1 : x <= y) by apply Rmax_l. assert (Y2 : X <= y) by apply Rmax_r.
  specialize (HX y Y2). apply Rabs_le_inv in HX.
  assert (- f x <= - f y).
  { apply (mono_on (fun t => - f t) (fun t => - f' t)); [exact Y1| |].
    - intros t Ht. apply derivable_pt_lim_opp, D. lra.
    - intros t Ht. pose proof (N t ltac:(lra)). lra. }
  lra.
Qed.
Lemma fade_neg : forall (f f' : R -> R) a, (forall x, a <= x -> derivable_pt_lim f x (f' x)) -> (forall x, a <= x -> 0 <= f' x) -> fades f -> forall x, a <= x -> f x <= 0.
Proof.
  intros f f' a D N F x Hx. enough (0 <= - f x) by lra. apply (fade_pos (fun t => - f t) (fun t => - f' t) a); [|intros t Ht; pose proof (N t Ht); lra| |exact Hx].
  - intros t Ht. apply derivable_pt_lim_opp, D, Ht.
  - intros e He. destruct (F e He) as [X HX]. exists X. intros t Ht. rewrite Rabs_Ropp. apply HX, Ht.
Qed.
Lemma fades_dom : forall f g C X0, 0 <= C -> fades g -> (forall x, X0 <= x -> Rabs (f x) <= C * Rabs (g x)) -> fades f.
Proof.
  intros f g C X0 HC G B e He. destruct (G (e / (C + 1)) ltac:(apply Rdiv_lt_0_compat; lra)) as [X HX]. exists (Rmax X0 X). intros x Hx.
  specialize (B x ltac:(eapply Rle_trans; [apply Rmax_l|exact Hx])). specialize (HX x ltac:(eapply Rle_trans; [apply Rmax_r|exact Hx])).
  eapply Rle_trans; [exact B|]. pose proof (Rabs_pos (g x)) as P. apply Rle_trans with ((C + 1) * Rabs (g x)); [apply Rmult_le_compat_r; lra|].
  apply Rle_trans with ((C + 1) * (e / (C + 1))); [apply Rmult_le_compat_l; lra|]. right. field. lra.
Qed.
Lemma fades_sum : forall f g h X0, fades g -> fades h -> (forall x, X0 <= x -> Rabs (f x) <= Rabs (g x) + Rabs (h x)) -> fades f.
Proof.
  intros f g h X0 G H B e He. destruct (G (e / 2) ltac:(lra)) as [X HX]. destruct (H (e / 2) ltac:(lra)) as [Y HY]. exists (Rmax X0 (Rmax X Y)). intros x Hx.
  assert (L1 : X0 <= x) by (eapply Rle_trans; [apply Rmax_l|exact Hx]). assert (L2 : Rmax X Y <= x) by (eapply Rle_trans; [apply Rmax_r|exact Hx]).
  assert (L3 : X <= x) by (eapply Rle_trans; [apply Rmax_l|exact L2]). assert (L4 : Y <= x) by (eapply Rle_trans; [apply Rmax_r|exact L2]).
  specialize (HX x L3). specialize (HY x L4). specialize (B x L1). lra.
Qed.
Lemma fades_inv : fades (fun x => / x).
Proof.
  intros e He. exists (/ e). intros x Hx. assert (0 < / e) by (apply Rinv_0_lt_compat, He). rewrite Rabs_pos_eq by (left; apply Rinv_0_lt_compat; lra).
  rewrite <- (Rinv_inv e). apply Rinv_le_contravar; lra.
Qed.

(** ** a quotient with small Wronskian hardly moves *)
Lemma quot_near : forall (f p R0 R1 : R -> R) a ep m, 0 < a -> 0 < m -> 0 <= ep ->
  (forall x, a <= x -> derivable_pt_lim f x (p x)) -> (forall x, a <= x -> derivable_pt_lim R0 x (R1 x)) -> (forall x, a <= x -> m <= R0 x) ->
  (forall x, a <= x -> Rabs (R1 x * f x - R0 x * p x) <= ep / (x * x)) ->
  forall x, a <= x -> Rabs (f x / R0 x - f a / R0 a) <= ep / (m * m) * (/ a - / x).
Proof.
  intros f p R0 R1 a ep m Ha Hm EP Df D0 HR WA. set (w := fun x => R1 x * f x - R0 x * p x).
  assert (DQ : forall x, a <= x -> derivable_pt_lim (fun x => f x / R0 x) x (- w x / Rsqr (R0 x))).
  { intros x Hx. pose proof (HR x Hx). replace (- w x / Rsqr (R0 x)) with ((p x * R0 x - R1 x * f x) / Rsqr (R0 x)) by (unfold w; f_equal; ring).
    apply (derivable_pt_lim_div f R0); [apply Df, Hx|apply D0, Hx|lra]. }
  assert (QB : forall x, a <= x -> Rabs (- w x / Rsqr (R0 x)) <= ep / (m * m) / (x * x)).
  { intros x Hx. pose proof (HR x Hx) as RM. pose proof (WA x Hx) as WX. unfold Rsqr. assert (R2' : m * m <= R0 x * R0 x) by (apply Rmult_le_compat; lra). assert (M2 : 0 < m * m) by (apply Rmult_lt_0_compat; lra).
    unfold Rdiv at 1. rewrite Rabs_mult, Rabs_Ropp, (Rabs_pos_eq (/ (R0 x * R0 x))) by (left; apply Rinv_0_lt_compat; lra).
    assert (/ (R0 x * R0 x) <= / (m * m)) by (apply Rinv_le_contravar; lra). assert (0 < / (R0 x * R0 x)) by (apply Rinv_0_lt_compat; lra).
    replace (ep / (m * m) / (x * x)) with (ep / (x * x) * / (m * m)) by (field; lra). apply Rmult_le_compat; [apply Rabs_pos|lra|exact WX|lra]. }
  intros x Hx. set (C := ep / (m * m)) in *.
  assert (G : forall sg, (sg = 1 \/ sg = -1) -> sg * (f a / R0 a) - C / a <= sg * (f x / R0 x) - C / x).
  { intros sg Hsg. apply (mono_on (fun x => sg * (f x / R0 x) - C / x) (fun x => sg * (- w x / Rsqr (R0 x)) - - C / (x * x))); [exact Hx| |].
    - intros t Ht. apply (derivable_pt_lim_minus (fun x => sg * (f x / R0 x)) (fun x => C / x)); [apply derivable_pt_lim_scal, DQ; lra|apply derive_inv; lra].
    - intros t Ht. pose proof (QB t ltac:(lra)) as B. apply Rabs_le_inv in B. unfold Rdiv in *. destruct Hsg as [->| ->]; lra. }
  pose proof (G 1 ltac:(lra)) as G1. pose proof (G (-1) ltac:(lra)) as G2. apply Rabs_le. unfold Rdiv in *. lra.
Qed.

(** ** stable case: f'' + 2 f' + c f / x^2 = 0 *)
Lemma stable : forall (f p R0 R1 R2 : R -> R) c a A k ep m, 2 <= a -> 0 <= k -> 0 < m ->
  (forall x, a <= x -> derivable_pt_lim f x (p x)) -> (forall x, a <= x -> derivable_pt_lim p x (- 2 * p x - c * f x / (x * x))) ->
  (forall x, a <= x -> derivable_pt_lim R0 x (R1 x)) -> (forall x, a <= x -> derivable_pt_lim R1 x (R2 x)) ->
  (forall x, a <= x -> 0 <= f x <= A) -> (forall x, a <= x -> m <= R0 x) ->
  (forall x, a <= x -> Rabs (R2 x + 2 * R1 x + c * R0 x / (x * x)) <= k / (x * x)) ->
  k * A <= 2 * ep * (1 - / a) -> Rabs (R1 a * f a - R0 a * p a) <= ep / (a * a) ->
  forall x, a <= x -> Rabs (f x / R0 x - f a / R0 a) <= ep / (m * m) * (/ a - / x).
Proof.
  intros f p R0 R1 R2 c a A k ep m Ha Hk Hm Df Dp D0 D1 HA HR HK HE HW.
  assert (EP : 0 <= ep).
  { pose proof (Rabs_pos (R1 a * f a - R0 a * p a)). apply Rnot_lt_le. intros L. assert (ep / (a * a) < 0); [|lra]. assert (0 < / (a * a)) by (apply Rinv_0_lt_compat, Rmult_lt_0_compat; lra).
    unfold Rdiv. replace 0 with (0 * / (a * a)) by ring. apply Rmult_lt_compat_r; lra. }
  set (w := fun x => R1 x * f x - R0 x * p x). set (r := fun x => R2 x + 2 * R1 x + c * R0 x / (x * x)).
  assert (DW : forall x, a <= x -> derivable_pt_lim w x (r x * f x - 2 * w x)).
  { intros x Hx. replace (r x * f x - 2 * w x) with ((R2 x * f x + R1 x * p x) - (R1 x * p x + R0 x * (- 2 * p x - c * f x / (x * x)))) by (unfold r, w; field; lra).
    apply (derivable_pt_lim_minus (fun x => R1 x * f x) (fun x => R0 x * p x)); [apply (derivable_pt_lim_mult R1 f)|apply (derivable_pt_lim_mult R0 p)]; auto. }
  assert (RB : forall x, a <= x -> Rabs (r x * f x) <= 2 * ep / (x * x) - 2 * ep / (x * x * x)).
  { intros x Hx. assert (X0 : 0 < x) by lra. rewrite Rabs_mult. specialize (HK x Hx). fold (r x) in HK. specialize (HA x Hx). rewrite (Rabs_pos_eq (f x)) by lra.
    assert (I1 : 0 < / (x * x)) by (apply Rinv_0_lt_compat, Rmult_lt_0_compat; lra).
    assert (I2 : / x <= / a) by (apply Rinv_le_contravar; lra).
    apply Rle_trans with (k / (x * x) * A). { apply Rmult_le_compat; [apply Rabs_pos|lra|exact HK|lra]. }
    replace (k / (x * x) * A) with (k * A * / (x * x)) by (field; lra). replace (2 * ep / (x * x) - 2 * ep / (x * x * x)) with (2 * ep * (1 - / x) * / (x * x)) by (field; lra).
    apply Rmult_le_compat_r; [lra|]. eapply Rle_trans; [exact HE|]. apply Rmult_le_compat_l; lra. }
  assert (WB : forall sg, (sg = 1 \/ sg = -1) -> forall x, a <= x -> 0 <= exp (2 * x) * (ep / (x * x) - sg * w x)).
  { intros sg Hsg x Hx. apply Rle_trans with (exp (2 * a) * (ep / (a * a) - sg * w a)).
    - apply Rmult_le_pos; [left; apply exp_pos|]. apply Rabs_le_inv in HW. fold (w a) in HW. destruct Hsg as [->| ->]; lra.
    - apply (mono_on (fun x => exp (2 * x) * (ep / (x * x) - sg * w x)) (fun x => exp (2 * x) * ((- 2 * ep / (x * x * x) - sg * (r x * f x - 2 * w x)) + 2 * (ep / (x * x) - sg * w x)))); [exact Hx| |].
      + intros t Ht. apply (derive_ex 2 (fun x => ep / (x * x) - sg * w x)). apply (derivable_pt_lim_minus (fun x => ep / (x * x)) (fun x => sg * w x)); [apply derive_inv2; lra|apply derivable_pt_lim_scal, DW; lra].
      + intros t Ht. apply Rmult_le_pos; [left; apply exp_pos|]. pose proof (RB t ltac:(lra)) as B. apply Rabs_le_inv in B. unfold Rdiv in *. destruct Hsg as [->| ->]; lra. }
  assert (WA : forall x, a <= x -> Rabs (w x) <= ep / (x * x)).
  { intros x Hx. pose proof (WB 1 ltac:(lra) x Hx) as W1. pose proof (WB (-1) ltac:(lra) x Hx) as W2. pose proof (exp_pos (2 * x)) as E.
    apply Rabs_le. split.
    - apply Rnot_lt_le. intros L. assert (exp (2 * x) * (ep / (x * x) - -1 * w x) < 0); [|lra]. replace 0 with (exp (2 * x) * 0) by ring. apply Rmult_lt_compat_l; lra.
    - apply Rnot_lt_le. intros L. assert (exp (2 * x) * (ep / (x * x) - 1 * w x) < 0); [|lra]. replace 0 with (exp (2 * x) * 0) by ring. apply Rmult_lt_compat_l; lra. }
  exact (quot_near f p R0 R1 a ep m ltac:(lra) Hm EP Df D0 HR WA).
Qed.

(** ** recessive case: f'' - 2 f' + c f / x^2 = 0 *)
Lemma recessive : forall (f p R0 R1 R2 : R -> R) c a A k ep m, 0 < a -> 0 <= k -> 0 < m -> 0 <= ep ->
  (forall x, a <= x -> derivable_pt_lim f x (p x)) -> (forall x, a <= x -> derivable_pt_lim p x (2 * p x - c * f x / (x * x))) ->
  (forall x, a <= x -> derivable_pt_lim R0 x (R1 x)) -> (forall x, a <= x -> derivable_pt_lim R1 x (R2 x)) ->
  (forall x, a <= x -> 0 <= f x <= A) -> (forall x, a <= x -> m <= R0 x) ->
  (forall x, a <= x -> Rabs (R2 x - 2 * R1 x + c * R0 x / (x * x)) <= k / (x * x)) ->
  k * A <= 2 * ep -> fades (fun x => exp (- 2 * x) * (R1 x * f x - R0 x * p x)) ->
  forall x, a <= x -> Rabs (f x / R0 x - f a / R0 a) <= ep / (m * m) * (/ a - / x).
Proof.
  intros f p R0 R1 R2 c a A k ep m Ha Hk Hm EP Df Dp D0 D1 HA HR HK HE HW.
  set (w := fun x => R1 x * f x - R0 x * p x). set (r := fun x => R2 x - 2 * R1 x + c * R0 x / (x * x)).
  assert (DW : forall x, a <= x -> derivable_pt_lim w x (r x * f x + 2 * w x)).
  { intros x Hx. replace (r x * f x + 2 * w x) with ((R2 x * f x + R1 x * p x) - (R1 x * p x + R0 x * (2 * p x - c * f x / (x * x)))) by (unfold r, w; field; lra).
    apply (derivable_pt_lim_minus (fun x => R1 x * f x) (fun x => R0 x * p x)); [apply (derivable_pt_lim_mult R1 f)|apply (derivable_pt_lim_mult R0 p)]; auto. }
  assert (RB : forall x, a <= x -> Rabs (r x * f x) <= 2 * ep / (x * x)).
  { intros x Hx. assert (X0 : 0 < x) by lra. rewrite Rabs_mult. specialize (HK x Hx). fold (r x) in HK. specialize (HA x Hx). rewrite (Rabs_pos_eq (f x)) by lra.
    assert (I1 : 0 < / (x * x)) by (apply Rinv_0_lt_compat, Rmult_lt_0_compat; lra).
    apply Rle_trans with (k / (x * x) * A). { apply Rmult_le_compat; [apply Rabs_pos|lra|exact HK|lra]. }
    replace (k / (x * x) * A) with (k * A * / (x * x)) by (field; lra). apply Rmult_le_compat_r; lra. }
  assert (WB : forall sg, (sg = 1 \/ sg = -1) -> forall x, a <= x -> 0 <= exp (- 2 * x) * (ep / (x * x) - sg * w x)).
  { intros sg Hsg x Hx.
    apply (fade_pos (fun x => exp (- 2 * x) * (ep / (x * x) - sg * w x)) (fun x => exp (- 2 * x) * ((- 2 * ep / (x * x * x) - sg * (r x * f x + 2 * w x)) + - 2 * (ep / (x * x) - sg * w x))) a); [| | |exact Hx].
    - intros t Ht. apply (derive_ex (- 2) (fun x => ep / (x * x) - sg * w x)). apply (derivable_pt_lim_minus (fun x => ep / (x * x)) (fun x => sg * w x)); [apply derive_inv2; lra|apply derivable_pt_lim_scal, DW; lra].
    - intros t Ht. pose proof (exp_pos (- 2 * t)) as E. pose proof (RB t ltac:(lra)) as B. apply Rabs_le_inv in B.
      assert (I3 : 0 <= 2 * ep / (t * t * t)). { apply Rmult_le_pos; [lra|]. left. apply Rinv_0_lt_compat. repeat apply Rmult_lt_0_compat; lra. }
      replace 0 with (exp (- 2 * t) * 0) by ring. apply Rmult_le_compat_l; [lra|]. unfold Rdiv in *. destruct Hsg as [->| ->]; lra.
    - apply (fades_sum _ (fun x => exp (- 2 * x) * w x) (fun x => ep * / x) (Rmax 1 a) HW).
      + apply (fades_dom _ (fun x => / x) ep a EP fades_inv). intros y Hy. rewrite Rabs_mult, (Rabs_pos_eq ep) by lra. lra.
      + intros y Hy. assert (Y1 : 1 <= y) by (eapply Rle_trans; [apply Rmax_l|exact Hy]). assert (I0 : 0 < / y) by (apply Rinv_0_lt_compat; lra). assert (I1 : / y <= 1) by (rewrite <- Rinv_1; apply Rinv_le_contravar; lra).
        assert (EY : exp (- 2 * y) <= 1) by (rewrite <- exp_0; apply exp_le; lra). pose proof (exp_pos (- 2 * y)) as E0.
        replace (exp (- 2 * y) * (ep / (y * y) - sg * w y)) with (exp (- 2 * y) * / y * (ep * / y) + - sg * (exp (- 2 * y) * w y)) by (field; lra).
        eapply Rle_trans; [apply Rabs_triang|]. rewrite Rplus_comm. apply Rplus_le_compat.
        * rewrite Rabs_mult. replace (Rabs (- sg)) with 1; [lra|]. rewrite Rabs_Ropp. destruct Hsg as [->| ->]; [rewrite Rabs_R1|rewrite abs_m1]; reflexivity.
        * rewrite Rabs_mult. assert (0 <= exp (- 2 * y) * / y) by (apply Rmult_le_pos; lra). rewrite (Rabs_pos_eq (exp (- 2 * y) * / y)) by lra. assert (exp (- 2 * y) * / y <= 1 * 1) by (apply Rmult_le_compat; lra).
          rewrite <- (Rmult_1_l (Rabs (ep * / y))) at 2. apply Rmult_le_compat_r; [apply Rabs_pos|lra]. }
  assert (WA : forall x, a <= x -> Rabs (w x) <= ep / (x * x)).
  { intros x Hx. pose proof (WB 1 ltac:(lra) x Hx) as W1. pose proof (WB (-1) ltac:(lra) x Hx) as W2. pose proof (exp_pos (- 2 * x)) as E.
    apply Rabs_le. split.
    - apply Rnot_lt_le. intros L. assert (exp (- 2 * x) * (ep / (x * x) - -1 * w x) < 0); [|lra]. replace 0 with (exp (- 2 * x) * 0) by ring. apply Rmult_lt_compat_l; lra.
    - apply Rnot_lt_le. intros L. assert (exp (- 2 * x) * (ep / (x * x) - 1 * w x) < 0); [|lra]. replace 0 with (exp (- 2 * x) * 0) by ring. apply Rmult_lt_compat_l; lra. }
  exact (quot_near f p R0 R1 a ep m Ha Hm EP Df D0 HR WA).
Qed.

(** ** the modified functions of the first kind *)
Lemma bterm_next : forall n x k, bterm 1 n x (S k) = bterm 1 n x k * (x / 2 * (x / 2) / (INR (S k) * (INR (S k) + INR n))).
Proof.
  intros n x k. unfold bterm. rewrite !pow1. replace (2 * S k + n)%nat with (S (S (2 * k + n))) by lia. replace (S k + n)%nat with (S (k + n)) by lia. rewrite !INR_fact_S, S_INR, plus_INR. cbn [pow].
  pose proof (pos_INR k). pose proof (pos_INR n). pose proof (INR_fact_pos k). pose proof (INR_fact_pos (k + n)). field. repeat split; lra.
Qed.
Lemma BI_mono : forall x n, 0 < x -> BI x (S n) <= BI x n.
Proof.
  intros x n Hx. pose proof (BI_is x n) as B0. pose proof (BI_is x (S n)) as B1.
  assert (SH : infinite_sum (fun k => bterm 1 n x (S k)) (BI x n - bterm 1 n x 0)).
  { pose proof (isum_drop _ _ O B0) as D. cbn [sum_f_R0] in D. revert D. apply isum_ext. intros k. f_equal. }
  pose proof (isum_plus _ _ _ _ B0 SH) as SS.
  assert (L : BI x (S n) <= / 2 * (BI x n + (BI x n - bterm 1 n x 0))).
  { eapply sum_cmp; [exact B1|exact SS|]. intros k. cbv beta. rewrite bterm_next, bterm_up. rewrite S_INR. set (t := x / 2). assert (T0 : 0 < t) by (unfold t; lra). pose proof (bterm_pos n x k Hx) as B. set (b := bterm 1 n x k) in *. clearbody b.
    pose proof (pos_INR k) as K0. pose proof (pos_INR n) as N0. set (d := INR k + 1 + INR n). set (e := INR k + 1). assert (E0 : 0 < e) by (unfold e; lra). assert (ED : e <= d) by (unfold d, e; lra).
    replace (INR k + INR n + 1) with d by (unfold d; ring). replace (INR k + 1 + INR n) with d by reflexivity. clearbody d e t.
    replace (/ 2 * (b + b * (t * t / (e * d)))) with (b * (/ 2 * (1 + t * t / (e * d)))) by (field; lra). apply Rmult_le_compat_l; [lra|].
    assert (t * t / (d * d) <= t * t / (e * d)). { unfold Rdiv. apply Rmult_le_compat_l; [apply Rmult_le_pos; lra|]. apply Rinv_le_contravar; [apply Rmult_lt_0_compat; lra|apply Rmult_le_compat_r; lra]. }
    pose proof (Rle_0_sqr (1 - t / d)) as Q. unfold Rsqr in Q. replace ((1 - t / d) * (1 - t / d)) with (1 + t * t / (d * d) - 2 * (t / d)) in Q by (field; lra). lra. }
  pose proof (bterm_pos n x 0 Hx). lra.
Qed.
Lemma BI0_ge1 : forall x, 0 < x -> 1 <= BI x 0.
Proof. intros x Hx. pose proof (BI_ge x 0 Hx) as B. simpl in B. lra. Qed.
Lemma BI01 : forall x, 1 <= x -> BI x 0 <= 3 * BI x 1.
Proof.
  intros x Hx. pose proof (BI_rec x 0 ltac:(lra)) as E. change (INR 1) with 1 in E. pose proof (BI_mono x 1 ltac:(lra)). pose proof (BI_pos x 1 ltac:(lra)).
  assert (/ x <= 1) by (rewrite <- Rinv_1; apply Rinv_le_contravar; lra). assert (/ x * BI x 1 <= 1 * BI x 1) by (apply Rmult_le_compat_r; lra). rewrite E. lra.
Qed.
Lemma derive_BI1 : forall x, 0 < x -> derivable_pt_lim (fun x => BI x 1) x (BI x 0 - BI x 1 / x).
Proof. intros x Hx. replace (BI x 0 - BI x 1 / x) with ((x * BI x 0 - BI x 1) / x) by (field; lra). apply derive_unx; [exact Hx|apply derive_xBI1]. Qed.
Lemma exp_BI0 : forall x, 1 <= x -> exp (-1 * x) * BI x 0 <= BI 1 0.
Proof.
  intros x Hx. assert (- (exp (-1 * 1) * BI 1 0) <= - (exp (-1 * x) * BI x 0)).
  { apply (mono_on (fun x => - (exp (-1 * x) * BI x 0)) (fun x => - (exp (-1 * x) * (BI x 1 + -1 * BI x 0)))); [exact Hx| |].
    - intros t Ht. apply derivable_pt_lim_opp. apply derive_ex, derive_BI0.
    - intros t Ht. pose proof (BI_mono t 0 ltac:(lra)). pose proof (exp_pos (-1 * t)). assert (0 <= exp (-1 * t) * (BI t 0 - BI t 1)) by (apply Rmult_le_pos; lra). lra. }
  assert (E1 : exp (-1 * 1) <= exp 0) by (apply exp_le; lra). rewrite exp_0 in E1. pose proof (BI0_ge1 1 ltac:(lra)). assert (exp (-1 * 1) * BI 1 0 <= 1 * BI 1 0) by (apply Rmult_le_compat_r; lra). lra.
Qed.

(** ** the modified functions of the second kind *)
Lemma ln_quot : forall a b, 0 < a -> 0 < b -> ln (a / b) = ln a - ln b.
Proof. intros a b Ha Hb. unfold Rdiv. rewrite ln_mult, ln_Rinv by (try apply Rinv_0_lt_compat; lra). ring. Qed.
Lemma ln_le_m1 : forall y, 0 < y -> ln y <= y - 1.
Proof. intros y Hy. pose proof (exp_ineq1_le (ln y)) as E. rewrite exp_ln in E by exact Hy. lra. Qed.
Lemma ln_ge_1m : forall y, 0 < y -> 1 - / y <= ln y.
Proof. intros y Hy. assert (I0 : 0 < / y) by (apply Rinv_0_lt_compat, Hy). pose proof (ln_le_m1 (/ y) I0) as L. rewrite ln_Rinv in L by exact Hy. lra. Qed.
Lemma harmonic_up : forall g k, is_euler g -> harmonic k <= g + ln (INR (S k)).
Proof.
  intros g k Hg.
  assert (F : Un_cv (fun m => - (harmonic m - ln (INR (S m)))) (- g)).
  { apply CV_opp. assert (E : Un_cv (fun m => harmonic (S m) - ln (INR (S m))) g). { intros e He. destruct (Hg e He) as [N HN]. exists N. intros m Hm. apply HN. lia. }
    assert (Z : Un_cv (fun m => / INR (S m)) 0).
    { intros e He. destruct (archimed_cor1 e He) as (N & HN & N0). exists N. intros m Hm. unfold R_dist. rewrite Rminus_0_r. assert (0 < INR (S m)) by (apply lt_0_INR; lia). rewrite Rabs_pos_eq by (left; apply Rinv_0_lt_compat; lra).
      eapply Rle_lt_trans; [|exact HN]. apply Rinv_le_contravar; [apply lt_0_INR; lia|apply le_INR; lia]. }
    pose proof (CV_minus _ _ _ _ E Z) as M. rewrite Rminus_0_r in M. revert M. apply Un_cv_ext. intros m. rewrite harmonic_S. ring. }
  assert (D : forall m, (k <= m)%nat -> - (harmonic (S m) - ln (INR (S (S m)))) <= - (harmonic m - ln (INR (S m)))).
  { intros m _. rewrite harmonic_S. assert (M0 : 0 < INR (S m)) by (apply lt_0_INR; lia). rewrite (S_INR (S m)). set (y := INR (S m)) in *. clearbody y. pose proof (ln_le_m1 ((y + 1) / y) ltac:(apply Rdiv_lt_0_compat; lra)) as L.
    rewrite ln_quot in L by lra. replace ((y + 1) / y - 1) with (/ y) in L by (field; lra). lra. }
  pose proof (mono_lim_up _ _ k D F). lra.
Qed.
Lemma harmonic_low : forall g k, is_euler g -> g + ln (INR (S k)) - / INR (S k) <= harmonic k.
Proof.
  intros g k Hg.
  assert (D : forall m, (S k <= m)%nat -> harmonic (S m) - ln (INR (S m)) <= harmonic m - ln (INR m)).
  { intros m Hm. rewrite harmonic_S. assert (M0 : 0 < INR m) by (apply lt_0_INR; lia). rewrite (S_INR m). set (y := INR m) in *. clearbody y. pose proof (ln_ge_1m ((y + 1) / y) ltac:(apply Rdiv_lt_0_compat; lra)) as L.
    rewrite ln_quot in L by lra. replace (1 - / ((y + 1) / y)) with (/ (y + 1)) in L by (field; lra). lra. }
  pose proof (mono_lim_up _ _ (S k) D Hg) as L. cbv beta in L. rewrite harmonic_S in L. lra.
Qed.

Section Kfun.
  Variable g : R.
  Hypothesis Hg : is_euler g.
  Definition K0 (x : R) : R := V0 1 g Rabs_R1 (fun x => BI x 0) x.
  Definition K1 (x : R) : R := V1 1 g Rabs_R1 (fun x => BI x 1) x.

  Lemma K0_is : forall x, is_K 0 x (K0 x).
  Proof.
    intros x. exists g, (BI x 0), (2 * W00 1 Rabs_R1 x). split; [exact Hg|]. split; [apply BI_is|]. split.
    - apply (isum_ext (fun k => 2 * (harmonic k * bterm 1 0 x k))); [intros k; unfold hterm; cbn [Nat.add]; ring|]. apply isum_scal, W00_is.
    - unfold K0, V0. cbn [sum_below pow]. lra.
  Qed.
  Lemma K1_is : forall x, 0 < x -> is_K 1 x (K1 x).
  Proof.
    intros x Hx. exists g, (BI x 1), (W01 1 Rabs_R1 x + W11 1 Rabs_R1 x). split; [exact Hg|]. split; [apply BI_is|]. split.
    - apply (isum_ext (fun k => harmonic k * bterm 1 1 x k + wh k * bterm 1 1 x k)); [intros k; unfold hterm, wh; cbn [Nat.add]; ring|]. apply isum_plus; [apply W01_is|apply W11_is].
    - unfold K1, V1. cbn [sum_below pow]. unfold fterm. simpl. field. lra.
  Qed.
  Lemma K0_of : forall x v, is_K 0 x v -> v = K0 x.
  Proof. intros x v H. exact (second_unique 1 0 x v _ H (K0_is x)). Qed.
  Lemma K1_of : forall x v, 0 < x -> is_K 1 x v -> v = K1 x.
  Proof. intros x v Hx H. exact (second_unique 1 1 x v _ H (K1_is x Hx)). Qed.
  Lemma derive_K0 : forall x, 0 < x -> derivable_pt_lim K0 x (- K1 x).
  Proof. intros x Hx. exact (derive_V0 1 g Rabs_R1 ltac:(ring) _ _ (fun x => BI_is x 0) (fun x => BI_is x 1) x Hx). Qed.
  Lemma derive_xK1 : forall x, 0 < x -> derivable_pt_lim (fun x => x * K1 x) x (- (x * K0 x)).
  Proof. intros x Hx. replace (- (x * K0 x)) with (- 1 * (x * K0 x)) by ring. exact (derive_xV1 1 g Rabs_R1 _ _ (fun x => BI_is x 0) (fun x => BI_is x 1) x Hx). Qed.
  Lemma derive_K1 : forall x, 0 < x -> derivable_pt_lim K1 x (- K0 x - K1 x / x).
  Proof. intros x Hx. replace (- K0 x - K1 x / x) with ((- (x * K0 x) - K1 x) / x) by (field; lra). apply derive_unx; [exact Hx|apply derive_xK1, Hx]. Qed.

  (** K_0 as one series *)
  Lemma K0_sum : forall x, infinite_sum (fun k => (harmonic k - g - ln (x / 2)) * bterm 1 0 x k) (K0 x).
  Proof.
    intros x. apply (isum_ext (fun k => harmonic k * bterm 1 0 x k + - (ln (x / 2) + g) * bterm 1 0 x k)); [intros k; ring|].
    replace (K0 x) with (W00 1 Rabs_R1 x + - (ln (x / 2) + g) * BI x 0) by (unfold K0, V0; ring). apply isum_plus; [apply W00_is|apply isum_scal, BI_is].
  Qed.
  Lemma sum_k_b0 : forall x, 0 < x -> infinite_sum (fun k => INR k * bterm 1 0 x k) (x / 2 * BI x 1).
  Proof.
    intros x Hx. replace (x / 2 * BI x 1) with (INR 0 * bterm 1 0 x 0 + x / 2 * BI x 1) by (simpl; ring). apply (isum_cons (fun k => INR k * bterm 1 0 x k)).
    apply (isum_ext (fun k => x / 2 * bterm 1 1 x k)); [|apply isum_scal, BI_is]. intros k. rewrite bterm_next, bterm_up. change (INR 0) with 0. rewrite S_INR. pose proof (pos_INR k). field. lra.
  Qed.
  Lemma sum_mono : forall f h a b, infinite_sum f a -> infinite_sum h b -> (forall k, f k <= h k) -> a <= b.
  Proof. intros f h a b F H L. pose proof (sum_cmp f h a b 1 F H) as S. rewrite Rmult_1_l in S. apply S. intros k. rewrite Rmult_1_l. apply L. Qed.
  Lemma K0_up : forall x, 0 < x -> K0 x <= 2 / x * BI x 0.
  Proof.
    intros x Hx. assert (L : K0 x <= 2 / x * (x / 2 * BI x 1) + (2 / x - 1) * BI x 0).
    { apply (sum_mono (fun k => (harmonic k - g - ln (x / 2)) * bterm 1 0 x k) (fun k => 2 / x * (INR k * bterm 1 0 x k) + (2 / x - 1) * bterm 1 0 x k)); [apply K0_sum|apply isum_plus; apply isum_scal; [apply sum_k_b0, Hx|apply BI_is]|].
      intros k. replace (2 / x * (INR k * bterm 1 0 x k) + (2 / x - 1) * bterm 1 0 x k) with (((INR k + 1) / (x / 2) - 1) * bterm 1 0 x k) by (field; lra). apply Rmult_le_compat_r; [left; apply bterm_pos, Hx|].
      pose proof (harmonic_up g k Hg) as U. rewrite S_INR in U. pose proof (pos_INR k) as KP. pose proof (ln_le_m1 ((INR k + 1) / (x / 2)) ltac:(apply Rdiv_lt_0_compat; lra)) as L.
      rewrite ln_quot in L by lra. lra. }
    pose proof (BI_mono x 0 Hx). replace (2 / x * (x / 2 * BI x 1)) with (BI x 1) in L by (field; lra). lra.
  Qed.
  Lemma K0_low : forall x, 0 < x -> - (2 / x * BI x 0) <= K0 x.
  Proof.
    intros x Hx. assert (L : BI x 0 + - (1 + 2 / x) * BI x 1 <= K0 x).
    { apply (sum_mono (fun k => bterm 1 0 x k + - (1 + 2 / x) * bterm 1 1 x k) (fun k => (harmonic k - g - ln (x / 2)) * bterm 1 0 x k)); [apply isum_plus; [apply BI_is|apply isum_scal, BI_is]|apply K0_sum|].
      intros k. rewrite bterm_up. change (INR 0) with 0. pose proof (pos_INR k) as KP. replace (bterm 1 0 x k + - (1 + 2 / x) * (bterm 1 0 x k * (x / 2 / (INR k + 0 + 1)))) with ((1 - (x / 2) / (INR k + 1) - / (INR k + 1)) * bterm 1 0 x k) by (field; lra). apply Rmult_le_compat_r; [left; apply bterm_pos, Hx|].
      pose proof (harmonic_low g k Hg) as U. rewrite S_INR in U. pose proof (ln_ge_1m ((INR k + 1) / (x / 2)) ltac:(apply Rdiv_lt_0_compat; lra)) as L.
      rewrite ln_quot in L by lra. replace (/ ((INR k + 1) / (x / 2))) with (x / 2 / (INR k + 1)) in L by (field; lra). lra. }
    pose proof (BI_mono x 0 Hx) as M. assert (I0 : 0 < 2 / x) by (apply Rdiv_lt_0_compat; lra). assert ((1 + 2 / x) * BI x 1 <= (1 + 2 / x) * BI x 0) by (apply Rmult_le_compat_l; lra). lra.
  Qed.
  Lemma K0_abs : forall x, 0 < x -> Rabs (K0 x) <= 2 / x * BI x 0.
  Proof. intros x Hx. pose proof (K0_up x Hx). pose proof (K0_low x Hx). apply Rabs_le. lra. Qed.
  Lemma K0_one : 0 < K0 1.
  Proof.
    apply Rlt_le_trans with ((ln 2 - g) * BI 1 0).
    - apply Rmult_lt_0_compat; [|apply BI_pos; lra]. pose proof (euler_bounds g Hg) as E. pose proof ln2_low. lra.
    - apply (sum_mono (fun k => (ln 2 - g) * bterm 1 0 1 k) (fun k => (harmonic k - g - ln (1 / 2)) * bterm 1 0 1 k)); [apply isum_scal, BI_is|apply K0_sum|].
      intros k. apply Rmult_le_compat_r; [left; apply bterm_pos; lra|]. replace (1 / 2) with (/ 2) by lra. rewrite ln_Rinv by lra. pose proof (harmonic_nonneg k). lra.
  Qed.

  (** the Wronskian *)
  Definition D (x : R) : R := BI x 0 * (x * K1 x) + x * BI x 1 * K0 x.
  Lemma D_const : forall x, 1 <= x -> D x = D 1.
  Proof.
    intros x Hx.
    assert (DD : forall t, 1 <= t -> derivable_pt_lim D t 0).
    { intros t Ht. replace 0 with ((BI t 1 * (t * K1 t) + BI t 0 * (- (t * K0 t))) + (t * BI t 0 * K0 t + t * BI t 1 * (- K1 t))) by ring.
      apply (derivable_pt_lim_plus (fun x => BI x 0 * (x * K1 x)) (fun x => x * BI x 1 * K0 x)).
      - apply (derivable_pt_lim_mult (fun x => BI x 0) (fun x => x * K1 x)); [apply derive_BI0|apply derive_xK1; lra].
      - apply (derivable_pt_lim_mult (fun x => x * BI x 1) K0); [apply derive_xBI1|apply derive_K0; lra]. }
    assert (A1 : D 1 <= D x) by (apply (mono_on D (fun _ => 0)); [exact Hx|intros t Ht; apply DD; lra|intros; lra]).
    assert (A2 : - D 1 <= - D x). { apply (mono_on (fun t => - D t) (fun _ => - 0)); [exact Hx|intros t Ht; apply derivable_pt_lim_opp, DD; lra|intros; lra]. }
    lra.
  Qed.
  Lemma derive_K0I0 : forall x, 1 <= x -> derivable_pt_lim (fun x => K0 x / BI x 0) x (- (D 1 / (x * Rsqr (BI x 0)))).
  Proof.
    intros x Hx. pose proof (BI_pos x 0 ltac:(lra)). rewrite <- (D_const x Hx).
    replace (- (D x / (x * Rsqr (BI x 0)))) with ((- K1 x * BI x 0 - BI x 1 * K0 x) / Rsqr (BI x 0)) by (unfold D, Rsqr; field; lra).
    apply (derivable_pt_lim_div K0 (fun x => BI x 0)); [apply derive_K0; lra|apply derive_BI0|lra].
  Qed.
  Lemma fades_2x : forall c, 0 <= c -> fades (fun x => c / x).
  Proof. intros c Hc. apply (fades_dom _ (fun x => / x) c 0 Hc fades_inv). intros x Hx. unfold Rdiv. rewrite Rabs_mult, (Rabs_pos_eq c) by exact Hc. lra. Qed.
  Lemma fades_K0I0 : fades (fun x => K0 x / BI x 0).
  Proof.
    apply (fades_dom _ (fun x => 2 / x) 1 1 ltac:(lra) (fades_2x 2 ltac:(lra))). intros x Hx. pose proof (BI_pos x 0 ltac:(lra)) as B. pose proof (K0_abs x ltac:(lra)) as K.
    assert (0 < 2 / x) by (apply Rdiv_lt_0_compat; lra). rewrite Rmult_1_l, (Rabs_pos_eq (2 / x)) by lra. unfold Rdiv at 1. rewrite Rabs_mult, (Rabs_pos_eq (/ BI x 0)) by (left; apply Rinv_0_lt_compat, B).
    apply Rle_trans with (2 / x * BI x 0 * / BI x 0); [apply Rmult_le_compat_r; [left; apply Rinv_0_lt_compat, B|exact K]|]. right. field. lra.
  Qed.
  Lemma D_pos : 0 <= D 1.
  Proof.
    apply Rnot_lt_le. intros L. assert (N : K0 1 / BI 1 0 <= 0).
    { apply (fade_neg (fun x => K0 x / BI x 0) (fun x => - (D 1 / (x * Rsqr (BI x 0)))) 1); [exact derive_K0I0| |exact fades_K0I0|lra].
      intros x Hx. pose proof (BI_pos x 0 ltac:(lra)). assert (0 < / (x * Rsqr (BI x 0))) by (apply Rinv_0_lt_compat; unfold Rsqr; repeat apply Rmult_lt_0_compat; lra). replace (- (D 1 / (x * Rsqr (BI x 0)))) with (- D 1 * / (x * Rsqr (BI x 0))) by (unfold Rdiv; ring). apply Rmult_le_pos; lra. }
    pose proof K0_one as K. pose proof (BI_pos 1 0 ltac:(lra)). assert (0 < K0 1 / BI 1 0) by (apply Rdiv_lt_0_compat; lra). lra.
  Qed.
  Lemma K0_nonneg : forall x, 1 <= x -> 0 <= K0 x.
  Proof.
    intros x Hx. pose proof (BI_pos x 0 ltac:(lra)) as B. assert (N : 0 <= K0 x / BI x 0).
    { apply (fade_pos (fun x => K0 x / BI x 0) (fun x => - (D 1 / (x * Rsqr (BI x 0)))) 1); [exact derive_K0I0| |exact fades_K0I0|exact Hx].
      intros t Ht. pose proof (BI_pos t 0 ltac:(lra)). assert (0 < / (t * Rsqr (BI t 0))) by (apply Rinv_0_lt_compat; unfold Rsqr; repeat apply Rmult_lt_0_compat; lra). pose proof D_pos. assert (0 <= D 1 / (t * Rsqr (BI t 0))) by (apply Rmult_le_pos; lra). lra. }
    replace (K0 x) with (K0 x / BI x 0 * BI x 0) by (field; lra). apply Rmult_le_pos; lra.
  Qed.
  Lemma K1_abs : forall x, 1 <= x -> Rabs (K1 x) <= (D 1 + 2) / x * BI x 0.
  Proof.
    intros x Hx. pose proof (BI0_ge1 x ltac:(lra)) as B. pose proof (BI_mono x 0 ltac:(lra)) as M. pose proof (BI_pos x 1 ltac:(lra)) as B1. pose proof (K0_abs x ltac:(lra)) as K. pose proof D_pos as DP. pose proof (D_const x Hx) as E. unfold D in E at 1.
    assert (E2 : K1 x = D 1 / x * / BI x 0 - K0 x * (BI x 1 / BI x 0)) by (rewrite <- E; field; lra). rewrite E2.
    assert (I0 : 0 < / x) by (apply Rinv_0_lt_compat; lra). assert (I1 : 0 < / BI x 0) by (apply Rinv_0_lt_compat; lra). assert (I2 : / BI x 0 <= 1) by (rewrite <- Rinv_1; apply Rinv_le_contravar; lra).
    assert (I3 : 0 <= BI x 1 / BI x 0) by (apply Rmult_le_pos; lra). assert (I4 : BI x 1 / BI x 0 <= 1) by (apply Rmult_le_reg_r with (BI x 0); [lra|]; unfold Rdiv; rewrite Rmult_assoc, Rinv_l by lra; lra).
    assert (DX : 0 <= D 1 / x) by (apply Rmult_le_pos; lra).
    unfold Rminus. eapply Rle_trans; [apply Rabs_triang|]. rewrite Rabs_Ropp, !Rabs_mult. rewrite (Rabs_pos_eq (D 1 / x)), (Rabs_pos_eq (/ BI x 0)), (Rabs_pos_eq (BI x 1 / BI x 0)) by lra.
    replace ((D 1 + 2) / x * BI x 0) with (D 1 / x * BI x 0 + 2 / x * BI x 0) by (field; lra). apply Rplus_le_compat.
    - apply Rmult_le_compat_l; lra.
    - rewrite <- (Rmult_1_r (2 / x * BI x 0)). apply Rmult_le_compat; [apply Rabs_pos|lra|exact K|lra].
  Qed.
  Lemma derive_K1I1 : forall x, 1 <= x -> derivable_pt_lim (fun x => K1 x / BI x 1) x (- (D 1 / (x * Rsqr (BI x 1)))).
  Proof.
    intros x Hx. pose proof (BI_pos x 1 ltac:(lra)). rewrite <- (D_const x Hx).
    replace (- (D x / (x * Rsqr (BI x 1)))) with (((- K0 x - K1 x / x) * BI x 1 - (BI x 0 - BI x 1 / x) * K1 x) / Rsqr (BI x 1)) by (unfold D, Rsqr; field; lra).
    apply (derivable_pt_lim_div K1 (fun x => BI x 1)); [apply derive_K1; lra|apply derive_BI1; lra|lra].
  Qed.
  Lemma K1_nonneg : forall x, 1 <= x -> 0 <= K1 x.
  Proof.
    intros x Hx. pose proof (BI_pos x 1 ltac:(lra)) as B. pose proof D_pos as DP. assert (N : 0 <= K1 x / BI x 1).
    { apply (fade_pos (fun x => K1 x / BI x 1) (fun x => - (D 1 / (x * Rsqr (BI x 1)))) 1); [exact derive_K1I1| | |exact Hx].
      - intros t Ht. pose proof (BI_pos t 1 ltac:(lra)). assert (0 < / (t * Rsqr (BI t 1))) by (apply Rinv_0_lt_compat; unfold Rsqr; repeat apply Rmult_lt_0_compat; lra). assert (0 <= D 1 / (t * Rsqr (BI t 1))) by (apply Rmult_le_pos; lra). lra.
      - apply (fades_dom _ (fun x => (D 1 + 2) / x) 3 1 ltac:(lra) (fades_2x (D 1 + 2) ltac:(lra))). intros t Ht. pose proof (K1_abs t Ht) as K. pose proof (BI_pos t 1 ltac:(lra)) as B1. pose proof (BI01 t Ht) as R01.
        assert (0 <= (D 1 + 2) / t) by (apply Rmult_le_pos; [lra|left; apply Rinv_0_lt_compat; lra]). rewrite (Rabs_pos_eq ((D 1 + 2) / t)) by lra.
        unfold Rdiv at 1. rewrite Rabs_mult, (Rabs_pos_eq (/ BI t 1)) by (left; apply Rinv_0_lt_compat, B1).
        apply Rle_trans with ((D 1 + 2) / t * (3 * BI t 1) * / BI t 1); [apply Rmult_le_compat_r; [left; apply Rinv_0_lt_compat, B1|]|right; field; lra].
        eapply Rle_trans; [exact K|]. apply Rmult_le_compat_l; lra. }
    replace (K1 x) with (K1 x / BI x 1 * BI x 1) by (field; lra). apply Rmult_le_pos; lra.
  Qed.

  (** ** scaled *)
  Definition CK : R := (D 1 + 2) * BI 1 0.
  Lemma CK_pos : 0 <= CK.
  Proof. unfold CK. pose proof D_pos. pose proof (BI0_ge1 1 ltac:(lra)). apply Rmult_le_pos; lra. Qed.
  Lemma exp_K : forall x v, 1 <= x -> Rabs v <= (D 1 + 2) / x * BI x 0 -> Rabs (exp (-1 * x) * v) <= CK / x.
  Proof.
    intros x v Hx K. pose proof (exp_BI0 x Hx) as E. pose proof (exp_pos (-1 * x)) as EP. pose proof D_pos as DP. rewrite Rabs_mult, (Rabs_pos_eq (exp (-1 * x))) by lra.
    assert (DX : 0 <= (D 1 + 2) / x) by (apply Rmult_le_pos; [lra|left; apply Rinv_0_lt_compat; lra]).
    apply Rle_trans with (exp (-1 * x) * ((D 1 + 2) / x * BI x 0)); [apply Rmult_le_compat_l; lra|].
    replace (exp (-1 * x) * ((D 1 + 2) / x * BI x 0)) with ((D 1 + 2) / x * (exp (-1 * x) * BI x 0)) by ring. replace (CK / x) with ((D 1 + 2) / x * BI 1 0) by (unfold CK; field; lra). apply Rmult_le_compat_l; lra.
  Qed.
  Lemma K0_abs2 : forall x, 1 <= x -> Rabs (K0 x) <= (D 1 + 2) / x * BI x 0.
  Proof.
    intros x Hx. eapply Rle_trans; [apply K0_abs; lra|]. pose proof D_pos. pose proof (BI0_ge1 x ltac:(lra)). apply Rmult_le_compat_r; [lra|]. apply Rmult_le_compat_r; [left; apply Rinv_0_lt_compat; lra|lra].
  Qed.
  Lemma K1_K0 : forall x, 1 <= x -> K0 x <= K1 x.
  Proof.
    intros x Hx. pose proof (exp_pos (-1 * x)) as EP. assert (N : 0 <= exp (-1 * x) * (K1 x - K0 x)).
    { apply (fade_pos (fun x => exp (-1 * x) * (K1 x - K0 x)) (fun x => exp (-1 * x) * ((- K0 x - K1 x / x - - K1 x) + -1 * (K1 x - K0 x))) 1); [| | |exact Hx].
      - intros t Ht. apply (derive_ex (-1) (fun x => K1 x - K0 x)). apply (derivable_pt_lim_minus K1 K0); [apply derive_K1; lra|apply derive_K0; lra].
      - intros t Ht. pose proof (exp_pos (-1 * t)). pose proof (K1_nonneg t Ht). assert (0 <= K1 t / t) by (apply Rmult_le_pos; [lra|left; apply Rinv_0_lt_compat; lra]).
        replace (exp (-1 * t) * (- K0 t - K1 t / t - - K1 t + -1 * (K1 t - K0 t))) with (- (exp (-1 * t) * (K1 t / t))) by ring. assert (0 <= exp (-1 * t) * (K1 t / t)) by (apply Rmult_le_pos; lra). lra.
      - apply (fades_sum _ (fun x => CK / x) (fun x => CK / x) 1); [apply fades_2x, CK_pos|apply fades_2x, CK_pos|]. intros t Ht. pose proof (exp_K t _ Ht (K1_abs t Ht)) as E1. pose proof (exp_K t _ Ht (K0_abs2 t Ht)) as E0.
        pose proof (Rle_abs (CK / t)). replace (exp (-1 * t) * (K1 t - K0 t)) with (exp (-1 * t) * K1 t + - (exp (-1 * t) * K0 t)) by ring. eapply Rle_trans; [apply Rabs_triang|]. rewrite Rabs_Ropp. lra. }
    assert (K0 x - K1 x <= 0); [|lra]. apply Rnot_lt_le. intros L. assert (0 < exp (-1 * x) * (K0 x - K1 x)) by (apply Rmult_lt_0_compat; lra). lra.
  Qed.
  Definition k0s (x : R) : R := sqrt x * exp (1 * x) * K0 x.
  Definition k1s (x : R) : R := sqrt x * exp (1 * x) * K1 x.
  Definition p0s (x : R) : R := k0s x * (1 + / (2 * x)) - k1s x.
  Definition p1s (x : R) : R := k1s x * (1 - / (2 * x)) - k0s x.
  Lemma derive_k0s : forall x, 0 < x -> derivable_pt_lim k0s x (p0s x).
  Proof.
    intros x Hx. replace (p0s x) with (sqrt x * exp (1 * x) * (- K1 x + (1 + / (2 * x)) * K0 x)) by (unfold p0s, k0s, k1s; ring). apply (derive_scaled 1 K0); [exact Hx|apply derive_K0, Hx].
  Qed.
  Lemma derive_k1s : forall x, 0 < x -> derivable_pt_lim k1s x (p1s x).
  Proof.
    intros x Hx. replace (p1s x) with (sqrt x * exp (1 * x) * ((- K0 x - K1 x / x) + (1 + / (2 * x)) * K1 x)) by (unfold p1s, k0s, k1s; field; lra). apply (derive_scaled 1 K1); [exact Hx|apply derive_K1, Hx].
  Qed.
  Lemma derive_lin : forall s x, 0 < x -> derivable_pt_lim (fun x => 1 + s * / (2 * x)) x (s * (- / (2 * (x * x)))).
  Proof.
    intros s x Hx. replace (s * (- / (2 * (x * x)))) with (0 + s * (- (/ 2) / (x * x))) by (field; lra). apply (derivable_pt_lim_plus (fun _ => 1) (fun x => s * / (2 * x))); [apply derivable_pt_lim_const|]. apply derivable_pt_lim_scal.
    apply (derive_loc (fun x => / 2 / x)); [exact Hx|intros y Hy; field; lra|]. apply derive_inv, Hx.
  Qed.
  Lemma derive_p0s : forall x, 0 < x -> derivable_pt_lim p0s x (2 * p0s x - / 4 * k0s x / (x * x)).
  Proof.
    intros x Hx. replace (2 * p0s x - / 4 * k0s x / (x * x)) with ((p0s x * (1 + 1 * / (2 * x)) + k0s x * (1 * (- / (2 * (x * x))))) - p1s x) by (unfold p0s, p1s; field; lra).
    apply (derive_loc (fun x => k0s x * (1 + 1 * / (2 * x)) - k1s x)); [exact Hx|intros y Hy; unfold p0s; ring|].
    apply (derivable_pt_lim_minus (fun x => k0s x * (1 + 1 * / (2 * x))) k1s); [|apply derive_k1s, Hx]. apply (derivable_pt_lim_mult k0s (fun x => 1 + 1 * / (2 * x))); [apply derive_k0s, Hx|apply derive_lin, Hx].
  Qed.
  Lemma derive_p1s : forall x, 0 < x -> derivable_pt_lim p1s x (2 * p1s x - - (3 / 4) * k1s x / (x * x)).
  Proof.
    intros x Hx. replace (2 * p1s x - - (3 / 4) * k1s x / (x * x)) with ((p1s x * (1 + -1 * / (2 * x)) + k1s x * (-1 * (- / (2 * (x * x))))) - p0s x) by (unfold p0s, p1s; field; lra).
    apply (derive_loc (fun x => k1s x * (1 + -1 * / (2 * x)) - k0s x)); [exact Hx|intros y Hy; unfold p1s; ring|].
    apply (derivable_pt_lim_minus (fun x => k1s x * (1 + -1 * / (2 * x))) k0s); [|apply derive_k0s, Hx]. apply (derivable_pt_lim_mult k1s (fun x => 1 + -1 * / (2 * x))); [apply derive_k1s, Hx|apply derive_lin, Hx].
  Qed.
  Lemma fades_sqrt : forall C, 0 <= C -> fades (fun x => C * / sqrt x).
  Proof.
    intros C HC. apply (fades_dom _ (fun x => / sqrt x) C 1 HC).
    - intros e He. exists (/ e * / e). intros x Hx. assert (I0 : 0 < / e) by (apply Rinv_0_lt_compat, He). assert (S0 : / e <= sqrt x) by (rewrite <- (sqrt_square (/ e)) by lra; apply sqrt_le_1_alt; lra).
      rewrite Rabs_pos_eq by (left; apply Rinv_0_lt_compat; lra). rewrite <- (Rinv_inv e). apply Rinv_le_contravar; lra.
    - intros x Hx. rewrite Rabs_mult, (Rabs_pos_eq C) by lra. lra.
  Qed.
  Lemma exp_ks : forall x v, 1 <= x -> Rabs v <= (D 1 + 2) / x * BI x 0 -> Rabs (exp (- 2 * x) * (sqrt x * exp (1 * x) * v)) <= CK * / sqrt x.
  Proof.
    intros x v Hx K. pose proof (exp_K x v Hx K) as E. pose proof (sqrt_lt_R0 x ltac:(lra)) as S0. pose proof (sqrt_sqrt x ltac:(lra)) as SS.
    replace (exp (- 2 * x) * (sqrt x * exp (1 * x) * v)) with (sqrt x * (exp (-1 * x) * v)). 2:{ replace (-1 * x) with (- 2 * x + 1 * x) by ring. rewrite exp_plus. ring. }
    rewrite Rabs_mult, (Rabs_pos_eq (sqrt x)) by lra. apply Rle_trans with (sqrt x * (CK / x)); [apply Rmult_le_compat_l; lra|]. right. replace (CK / x) with (CK / (sqrt x * sqrt x)) by (rewrite SS; reflexivity). field. lra.
  Qed.
  (** anything that is a bounded combination of the scaled functions fades against exp (2 x) *)
  Lemma fades_comb : forall (u v : R -> R) M, 0 <= M -> (forall x, 1 <= x -> Rabs (u x) <= M) -> (forall x, 1 <= x -> Rabs (v x) <= M) ->
    fades (fun x => exp (- 2 * x) * (u x * k0s x + v x * k1s x)).
  Proof.
    intros u v M HM U V. pose proof CK_pos as C0. assert (C1 : 0 <= M * CK) by (apply Rmult_le_pos; lra). apply (fades_sum _ (fun x => M * CK * / sqrt x) (fun x => M * CK * / sqrt x) 1); [apply fades_sqrt, C1|apply fades_sqrt, C1|].
    intros x Hx. specialize (U x Hx). specialize (V x Hx). pose proof (exp_ks x _ Hx (K0_abs2 x Hx)) as E0. pose proof (exp_ks x _ Hx (K1_abs x Hx)) as E1. fold (k0s x) in E0. fold (k1s x) in E1.
    pose proof (Rle_abs (M * CK * / sqrt x)) as RA. replace (exp (- 2 * x) * (u x * k0s x + v x * k1s x)) with (u x * (exp (- 2 * x) * k0s x) + v x * (exp (- 2 * x) * k1s x)) by ring.
    eapply Rle_trans; [apply Rabs_triang|]. rewrite (Rabs_mult (u x)), (Rabs_mult (v x)). apply Rplus_le_compat; (eapply Rle_trans; [|exact RA]); rewrite Rmult_assoc; (apply Rmult_le_compat; [apply Rabs_pos|apply Rabs_pos|assumption|assumption]).
  Qed.
  Lemma inv2x : forall x, 1 <= x -> 0 <= / (2 * x) <= 1.
  Proof. intros x Hx. split; [left; apply Rinv_0_lt_compat; lra|]. rewrite <- Rinv_1. apply Rinv_le_contravar; lra. Qed.
  Lemma k0s_nonneg : forall x, 1 <= x -> 0 <= k0s x.
  Proof. intros x Hx. unfold k0s. apply Rmult_le_pos; [apply Rmult_le_pos; [apply sqrt_pos|left; apply exp_pos]|apply K0_nonneg, Hx]. Qed.
  Lemma k01s : forall x, 1 <= x -> k0s x <= k1s x.
  Proof. intros x Hx. unfold k0s, k1s. apply Rmult_le_compat_l; [apply Rmult_le_pos; [apply sqrt_pos|left; apply exp_pos]|apply K1_K0, Hx]. Qed.
  Lemma p1s_neg : forall x, 1 <= x -> p1s x <= 0.
  Proof.
    intros x Hx. pose proof (exp_pos (- 2 * x)) as EP. assert (N : exp (- 2 * x) * p1s x <= 0).
    { apply (fade_neg (fun x => exp (- 2 * x) * p1s x) (fun x => exp (- 2 * x) * ((2 * p1s x - - (3 / 4) * k1s x / (x * x)) + - 2 * p1s x)) 1); [| | |exact Hx].
      - intros t Ht. apply derive_ex, derive_p1s. lra.
      - intros t Ht. pose proof (exp_pos (- 2 * t)). pose proof (k0s_nonneg t Ht). pose proof (k01s t Ht). assert (0 < / (t * t)) by (apply Rinv_0_lt_compat, Rmult_lt_0_compat; lra).
        replace (exp (- 2 * t) * (2 * p1s t - - (3 / 4) * k1s t / (t * t) + - 2 * p1s t)) with (exp (- 2 * t) * (3 / 4 * (k1s t * / (t * t)))) by (field; lra). assert (0 <= k1s t * / (t * t)) by (apply Rmult_le_pos; lra). apply Rmult_le_pos; lra.
      - intros e He. destruct (fades_comb (fun _ => -1) (fun x => 1 - / (2 * x)) 1 ltac:(lra)) with (e := e) as [X HX]; [intros; rewrite abs_m1; lra|intros y Hy; pose proof (inv2x y Hy); apply Rabs_le; lra|exact He|].
        exists X. intros y Hy. specialize (HX y Hy). replace (p1s y) with (-1 * k0s y + (1 - / (2 * y)) * k1s y) by (unfold p1s; ring). exact HX. }
    apply Rnot_lt_le. intros L. assert (0 < exp (- 2 * x) * p1s x) by (apply Rmult_lt_0_compat; lra). lra.
  Qed.
  Lemma k1s_le : forall x, 1 <= x -> k1s x <= k1s 1.
  Proof.
    intros x Hx. enough (- k1s 1 <= - k1s x) by lra. apply (mono_on (fun x => - k1s x) (fun x => - p1s x)); [exact Hx| |].
    - intros t Ht. apply derivable_pt_lim_opp, derive_k1s. lra.
    - intros t Ht. pose proof (p1s_neg t ltac:(lra)). lra.
  Qed.

  (** ** approximations to the scaled functions *)
  Theorem k0s_near : forall (R0 R1 R2 : R -> R) k ep m M, 0 <= k -> 0 < m -> 0 <= ep -> 0 <= M ->
    (forall x, 1 <= x -> derivable_pt_lim R0 x (R1 x)) -> (forall x, 1 <= x -> derivable_pt_lim R1 x (R2 x)) ->
    (forall x, 1 <= x -> m <= R0 x <= M) -> (forall x, 1 <= x -> Rabs (R1 x) <= M) ->
    (forall x, 1 <= x -> Rabs (R2 x - 2 * R1 x + / 4 * R0 x / (x * x)) <= k / (x * x)) -> k * k1s 1 <= 2 * ep ->
    forall x, 1 <= x -> Rabs (k0s x / R0 x - k0s 1 / R0 1) <= ep / (m * m) * (1 - / x).
  Proof.
    intros R0 R1 R2 k ep m M Hk Hm He HM D0 D1 B0 B1 HR HE x Hx. replace (1 - / x) with (/ 1 - / x) by (rewrite Rinv_1; reflexivity).
    apply (recessive k0s p0s R0 R1 R2 (/ 4) 1 (k1s 1) k ep m ltac:(lra) Hk Hm He); try assumption.
    - intros t Ht. apply derive_k0s. lra.
    - intros t Ht. apply derive_p0s. lra.
    - intros t Ht. pose proof (k0s_nonneg t Ht). pose proof (k01s t Ht). pose proof (k1s_le t Ht). lra.
    - intros t Ht. apply B0, Ht.
    - intros e E. destruct (fades_comb (fun x => R1 x - R0 x * (1 + / (2 * x))) R0 (3 * M) ltac:(lra)) with (e := e) as [X HX].
      + intros y Hy. pose proof (inv2x y Hy) as V. pose proof (B0 y Hy) as B. pose proof (B1 y Hy) as C. apply Rabs_le_inv in C. assert (0 <= R0 y * (1 + / (2 * y)) <= M * 2) by (split; [apply Rmult_le_pos; lra|apply Rmult_le_compat; lra]). apply Rabs_le. lra.
      + intros y Hy. pose proof (B0 y Hy). apply Rabs_le. lra.
      + exact E.
      + exists X. intros y Hy. specialize (HX y Hy). replace (R1 y * k0s y - R0 y * p0s y) with ((R1 y - R0 y * (1 + / (2 * y))) * k0s y + R0 y * k1s y) by (unfold p0s; ring). exact HX.
  Qed.
  Theorem k1s_near : forall (R0 R1 R2 : R -> R) k ep m M, 0 <= k -> 0 < m -> 0 <= ep -> 0 <= M ->
    (forall x, 1 <= x -> derivable_pt_lim R0 x (R1 x)) -> (forall x, 1 <= x -> derivable_pt_lim R1 x (R2 x)) ->
    (forall x, 1 <= x -> m <= R0 x <= M) -> (forall x, 1 <= x -> Rabs (R1 x) <= M) ->
    (forall x, 1 <= x -> Rabs (R2 x - 2 * R1 x + - (3 / 4) * R0 x / (x * x)) <= k / (x * x)) -> k * k1s 1 <= 2 * ep ->
    forall x, 1 <= x -> Rabs (k1s x / R0 x - k1s 1 / R0 1) <= ep / (m * m) * (1 - / x).
  Proof.
    intros R0 R1 R2 k ep m M Hk Hm He HM D0 D1 B0 B1 HR HE x Hx. replace (1 - / x) with (/ 1 - / x) by (rewrite Rinv_1; reflexivity).
    apply (recessive k1s p1s R0 R1 R2 (- (3 / 4)) 1 (k1s 1) k ep m ltac:(lra) Hk Hm He); try assumption.
    - intros t Ht. apply derive_k1s. lra.
    - intros t Ht. apply derive_p1s. lra.
    - intros t Ht. pose proof (k0s_nonneg t Ht). pose proof (k01s t Ht). pose proof (k1s_le t Ht). lra.
    - intros t Ht. apply B0, Ht.
    - intros e E. destruct (fades_comb R0 (fun x => R1 x - R0 x * (1 - / (2 * x))) (3 * M) ltac:(lra)) with (e := e) as [X HX].
      + intros y Hy. pose proof (B0 y Hy). apply Rabs_le. lra.
      + intros y Hy. pose proof (inv2x y Hy) as V. pose proof (B0 y Hy) as B. pose proof (B1 y Hy) as C. apply Rabs_le_inv in C. assert (0 <= R0 y * (1 - / (2 * y)) <= M * 2) by (split; [apply Rmult_le_pos; lra|apply Rmult_le_compat; lra]). apply Rabs_le. lra.
      + exact E.
      + exists X. intros y Hy. specialize (HX y Hy). replace (R1 y * k1s y - R0 y * p1s y) with (R0 y * k0s y + (R1 y - R0 y * (1 - / (2 * y))) * k1s y) by (unfold p1s; ring). exact HX.
  Qed.
End Kfun.
