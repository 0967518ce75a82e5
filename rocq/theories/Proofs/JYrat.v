(** * The asymptotic tables of j0, j1, y0 and y1 and the oscillating equation *)

From Coq Require Import ZArith Reals Bool Lra Lia List.
From Flocq Require Import Core.
From Verif.Model Require Import Base Arith BesselTables.
From Verif.Proofs Require Import PolyZ PolyTree PosHorner BesselRat RatODE BesselODE BesselLim JYode KRat.
Import ListNotations.
Open Scope R_scope.
Local Notation cos := Rtrigo_def.cos.
Local Notation sin := Rtrigo_def.sin.
Local Notation sqrt := R_sqrt.sqrt.
Local Notation PI := Rtrigo1.PI.

Ltac pv H := repeat first [rewrite peval_psub in H | rewrite peval_padd in H | rewrite peval_pscale in H | rewrite peval_pmul in H | rewrite peval_cons in H]; rewrite ?mult_IZR, ?plus_IZR, ?mult_IZR in H.

(** ** the residual of p + i q, with p = P/a and q = (8/x) Q/b at y = 64/x^2 *)
Section Cert.
  Variables P a Q b : list Z.
  Definition nRe (k4 : Z) : list Z :=
    padd (pmul (pmul b b) (padd (pmul [0; 0; 16]%Z (wM P a)) (padd (pmul [0; 24]%Z (pmul (wN P a) a)) (pscale k4 (pmul P (pmul a a))))))
         (pmul (pmul a (pmul a a)) (padd (pscale 64 (pmul Q b)) (pmul [0; 128]%Z (wN Q b)))).
  Definition nIm (k4 : Z) : list Z :=
    psub (pmul (pmul a a) (padd (pscale (64 + 8 * k4) (pmul Q (pmul b b))) (padd (pmul [0; 320]%Z (pmul (wN Q b) b)) (pmul [0; 0; 128]%Z (wM Q b)))))
         (pscale 1024 (pmul (wN P a) (pmul b (pmul b b)))).
  (** 4 (768 + 38400 y^8) *)
  Definition bnd (c : Z) : list Z := [c * 768; 0; 0; 0; 0; 0; 0; 0; c * 38400]%Z.
  (** 32 (768 + 38400 y^8) + 500000 (1 - y)^8 *)
  Definition bndi : list Z := [524576; -4000000; 14000000; -28000000; 35000000; -28000000; 14000000; -4000000; 1728800]%Z.
  Definition chk_re (sg k4 : Z) : list Z := psub (pscale (sg * 10 ^ 16) (nRe k4)) (pmul (bnd 4) (pmul (pmul b b) (pmul a (pmul a a)))).
  Definition chk_im (sg k4 : Z) : list Z := psub (pscale (sg * 10 ^ 16) (nIm k4)) (pmul bndi (pmul (pmul a a) (pmul b (pmul b b)))).

  Definition r0 (y : R) : R := peval P y / peval a y.
  Definition t0 (y : R) : R := peval Q y / peval b y.
  Definition yy (x : R) : R := 64 / (x * x).
  Definition pp (x : R) : R := r0 (yy x).
  Definition pp1 (x : R) : R := s1 P a (yy x) * (- 2 * 64 / (x * x * x)).
  Definition pp2 (x : R) : R := s2 P a (yy x) * (- 2 * 64 / (x * x * x)) * (- 2 * 64 / (x * x * x)) + s1 P a (yy x) * (- 3 * (- 2 * 64) / (x * x * x * x)).
  Definition qq (x : R) : R := 8 / x * t0 (yy x).
  Definition qq1 (x : R) : R := - 8 / (x * x) * t0 (yy x) + 8 / x * (s1 Q b (yy x) * (- 2 * 64 / (x * x * x))).
  Definition qq2 (x : R) : R :=
    - 2 * (- 8) / (x * x * x) * t0 (yy x) + - 8 / (x * x) * (s1 Q b (yy x) * (- 2 * 64 / (x * x * x)))
    + (- 8 / (x * x) * (s1 Q b (yy x) * (- 2 * 64 / (x * x * x)))
       + 8 / x * (s2 Q b (yy x) * (- 2 * 64 / (x * x * x)) * (- 2 * 64 / (x * x * x)) + s1 Q b (yy x) * (- 3 * (- 2 * 64) / (x * x * x * x)))).

  Hypothesis Ha : forall y, 0 <= y -> 0 < peval a y.
  Hypothesis Hb : forall y, 0 <= y -> 0 < peval b y.

  Lemma yy_pos : forall x, 0 < x -> 0 <= yy x.
  Proof. intros x Hx. unfold yy. left. apply Rdiv_lt_0_compat; [lra|apply Rmult_lt_0_compat; exact Hx]. Qed.
  Lemma yy_unit : forall x, 8 <= x -> 0 < yy x <= 1.
  Proof.
    intros x Hx. assert (X2 : 64 <= x * x) by (replace 64 with (8 * 8) by ring; apply Rmult_le_compat; lra). unfold yy. split; [apply Rdiv_lt_0_compat; lra|].
    apply Rmult_le_reg_r with (x * x); [lra|]. replace (64 / (x * x) * (x * x)) with 64 by (field; lra). lra.
  Qed.
  Lemma derive_yy : forall (f : R -> R) l x, 0 < x -> derivable_pt_lim f (yy x) l -> derivable_pt_lim (fun x => f (yy x)) x (l * (- 2 * 64 / (x * x * x))).
  Proof. intros f l x Hx D. apply (derivable_pt_lim_comp yy f); [unfold yy; apply derive_inv2, Hx|exact D]. Qed.
  Lemma derive_inv3 : forall c x, 0 < x -> derivable_pt_lim (fun x => c / (x * x * x)) x (- 3 * c / (x * x * x * x)).
  Proof.
    intros c x Hx. apply derive_loc with (fun x => c / (x * x) * (1 / x)); [exact Hx|intros z Hz; field; lra|].
    replace (- 3 * c / (x * x * x * x)) with (- 2 * c / (x * x * x) * (1 / x) + c / (x * x) * (- 1 / (x * x))) by (field; lra).
    apply (derivable_pt_lim_mult (fun x => c / (x * x)) (fun x => 1 / x)); [apply derive_inv2, Hx|apply derive_inv, Hx].
  Qed.
  Lemma derive_pp : forall x, 0 < x -> derivable_pt_lim pp x (pp1 x).
  Proof. intros x Hx. unfold pp, pp1. apply (derive_yy r0); [exact Hx|]. apply derive_rat0. pose proof (Ha (yy x) (yy_pos x Hx)). lra. Qed.
  Lemma derive_pp1 : forall x, 0 < x -> derivable_pt_lim pp1 x (pp2 x).
  Proof.
    intros x Hx. unfold pp1, pp2. apply (derivable_pt_lim_mult (fun x => s1 P a (yy x)) (fun x => - 2 * 64 / (x * x * x))); [|apply derive_inv3, Hx].
    apply (derive_yy (s1 P a)); [exact Hx|]. apply derive_rat1. pose proof (Ha (yy x) (yy_pos x Hx)). lra.
  Qed.
  Lemma derive_t : forall x, 0 < x -> derivable_pt_lim (fun x => t0 (yy x)) x (s1 Q b (yy x) * (- 2 * 64 / (x * x * x))).
  Proof. intros x Hx. apply (derive_yy t0); [exact Hx|]. apply derive_rat0. pose proof (Hb (yy x) (yy_pos x Hx)). lra. Qed.
  Lemma derive_qq : forall x, 0 < x -> derivable_pt_lim qq x (qq1 x).
  Proof. intros x Hx. unfold qq, qq1. apply (derivable_pt_lim_mult (fun x => 8 / x) (fun x => t0 (yy x))); [apply derive_inv, Hx|apply derive_t, Hx]. Qed.
  Lemma derive_qq1 : forall x, 0 < x -> derivable_pt_lim qq1 x (qq2 x).
  Proof.
    intros x Hx. unfold qq1, qq2.
    apply (derivable_pt_lim_plus (fun x => - 8 / (x * x) * t0 (yy x)) (fun x => 8 / x * (s1 Q b (yy x) * (- 2 * 64 / (x * x * x))))).
    - apply (derivable_pt_lim_mult (fun x => - 8 / (x * x)) (fun x => t0 (yy x))); [apply derive_inv2, Hx|apply derive_t, Hx].
    - apply (derivable_pt_lim_mult (fun x => 8 / x) (fun x => s1 Q b (yy x) * (- 2 * 64 / (x * x * x)))); [apply derive_inv, Hx|].
      apply (derivable_pt_lim_mult (fun x => s1 Q b (yy x)) (fun x => - 2 * 64 / (x * x * x))); [|apply derive_inv3, Hx].
      apply (derive_yy (s1 Q b)); [exact Hx|]. apply derive_rat1. pose proof (Hb (yy x) (yy_pos x Hx)). lra.
  Qed.

  Lemma re_ok : forall k4 t sh x, (0 <= sh)%Z -> 8 <= x ->
    neg_chk t sh 1 (chk_re 1 k4) = true -> neg_chk t sh 1 (chk_re (-1) k4) = true ->
    Rabs (pp2 x - 2 * qq1 x + IZR k4 / 4 / (x * x) * pp x) <= (768 + 38400 * yy x ^ 8) / 10 ^ 16 / (x * x).
  Proof.
    intros k4 t sh x Hsh Hx C1 C2. assert (Y : 0 < yy x <= 1) by (apply yy_unit, Hx). assert (EX : yy x * (x * x) = 64) by (unfold yy; field; lra).
    assert (Y' : 0 <= yy x <= IZR 1) by (simpl; lra).
    pose proof (neg_ok _ _ 1 _ _ Hsh ltac:(lia) C1 Y') as E1. pose proof (neg_ok _ _ 1 _ _ Hsh ltac:(lia) C2 Y') as E2.
    pose proof (Ha (yy x) ltac:(lra)) as A0. pose proof (Hb (yy x) ltac:(lra)) as B0.
    unfold chk_re, nRe, bnd in E1, E2. pv E1. pv E2. change (peval [] (yy x)) with 0 in *.
    replace (IZR (10 ^ 16)) with (10 ^ 16) in E1, E2 by (rewrite (pow_IZR 10 16); reflexivity).
    unfold pp2, qq1, pp, r0, t0, s1, s2. set (y := yy x) in *. set (wn := peval (wN P a) y) in *. set (wm := peval (wM P a) y) in *. set (vn := peval (wN Q b) y) in *. set (vm := peval (wM Q b) y) in *.
    set (A := peval a y) in *. set (B := peval b y) in *. set (p := peval P y) in *. set (q := peval Q y) in *. set (k := IZR k4) in *. clearbody y wn wm vn vm A B p q k.
    set (N := B * B * (16 * (y * y) * wm + (24 * y * (wn * A) + k * (p * (A * A)))) + A * (A * A) * (64 * (q * B) + 128 * y * vn)).
    set (D := B * B * (A * (A * A))). assert (D0 : 0 < D) by (unfold D; repeat apply Rmult_lt_0_compat; assumption).
    set (e := 768 + 38400 * y ^ 8). assert (F1 : 10 ^ 16 * N <= 4 * e * D) by (unfold N, D, e; clear - E1; lra). assert (F2 : - (10 ^ 16 * N) <= 4 * e * D) by (unfold N, D, e; clear - E2; lra).
    match goal with |- Rabs ?E <= ?bb => replace E with (N / (4 * D) / (x * x)) end.
    2: { assert (EY : y = 64 / (x * x)) by (rewrite <- EX; field; lra). unfold N, D. rewrite EY. field. lra. }
    clearbody N D e. unfold Rdiv at 1. rewrite Rabs_mult. assert (X2 : 0 < / (x * x)) by (apply Rinv_0_lt_compat, Rmult_lt_0_compat; lra).
    rewrite (Rabs_pos_eq (/ (x * x))) by lra. unfold Rdiv at 2. apply Rmult_le_compat_r; [lra|].
    apply Rabs_le. split; apply Rmult_le_reg_r with (10 ^ 16 * (4 * D)); try (apply Rmult_lt_0_compat; lra).
    - replace (N / (4 * D) * (10 ^ 16 * (4 * D))) with (10 ^ 16 * N) by (field; lra). replace (- (e / 10 ^ 16) * (10 ^ 16 * (4 * D))) with (- (4 * e * D)) by (field; lra). lra.
    - replace (N / (4 * D) * (10 ^ 16 * (4 * D))) with (10 ^ 16 * N) by (field; lra). replace (e / 10 ^ 16 * (10 ^ 16 * (4 * D))) with (4 * e * D) by (field; lra). lra.
  Qed.

  Lemma im_ok : forall k4 t sh x, (0 <= sh)%Z -> 8 <= x ->
    neg_chk t sh 1 (chk_im 1 k4) = true -> neg_chk t sh 1 (chk_im (-1) k4) = true ->
    Rabs (qq2 x + 2 * pp1 x + IZR k4 / 4 / (x * x) * qq x) <= (768 + 38400 * yy x ^ 8) / 10 ^ 16 / (x * x) + 125 / 10 ^ 13 * (1 - yy x) ^ 8 / (x * x * x).
  Proof.
    intros k4 t sh x Hsh Hx C1 C2. assert (Y : 0 < yy x <= 1) by (apply yy_unit, Hx). assert (EX : yy x * (x * x) = 64) by (unfold yy; field; lra).
    assert (Y' : 0 <= yy x <= IZR 1) by (simpl; lra).
    pose proof (neg_ok _ _ 1 _ _ Hsh ltac:(lia) C1 Y') as E1. pose proof (neg_ok _ _ 1 _ _ Hsh ltac:(lia) C2 Y') as E2.
    pose proof (Ha (yy x) ltac:(lra)) as A0. pose proof (Hb (yy x) ltac:(lra)) as B0.
    unfold chk_im, nIm, bndi in E1, E2. pv E1. pv E2. change (peval [] (yy x)) with 0 in *.
    replace (IZR (10 ^ 16)) with (10 ^ 16) in E1, E2 by (rewrite (pow_IZR 10 16); reflexivity).
    unfold qq2, pp1, qq, r0, t0, s1, s2. set (y := yy x) in *. set (wn := peval (wN P a) y) in *. set (wm := peval (wM P a) y) in *. set (vn := peval (wN Q b) y) in *. set (vm := peval (wM Q b) y) in *.
    set (A := peval a y) in *. set (B := peval b y) in *. set (p := peval P y) in *. set (q := peval Q y) in *. set (k := IZR k4) in *. clearbody y wn wm vn vm A B p q k.
    set (N := A * A * ((64 + 8 * k) * (q * (B * B)) + (320 * y * (vn * B) + 128 * (y * y) * vm)) - 1024 * (wn * (B * (B * B)))).
    set (D := A * A * (B * (B * B))). assert (D0 : 0 < D) by (unfold D; repeat apply Rmult_lt_0_compat; assumption).
    set (e := 768 + 38400 * y ^ 8). set (h := (1 - y) ^ 8).
    assert (F1 : 10 ^ 16 * N <= (32 * e + 500000 * h) * D) by (unfold N, D, e, h; clear - E1; lra). assert (F2 : - (10 ^ 16 * N) <= (32 * e + 500000 * h) * D) by (unfold N, D, e, h; clear - E2; lra).
    assert (e0 : 0 <= e) by (unfold e; assert (0 <= y ^ 8) by (apply pow_le; lra); lra).
    match goal with |- Rabs ?E <= ?bb => replace E with (N / (4 * D) / (x * x * x)) end.
    2: { assert (EY : y = 64 / (x * x)) by (rewrite <- EX; field; lra). unfold N, D. rewrite EY. field. lra. }
    clearbody N D e h. assert (X3 : 0 < x * x * x) by (repeat apply Rmult_lt_0_compat; lra). assert (X3' : 0 < / (x * x * x)) by (apply Rinv_0_lt_compat; lra).
    apply Rle_trans with ((8 * e / 10 ^ 16 + 125 / 10 ^ 13 * h) * / (x * x * x)).
    - unfold Rdiv at 1. rewrite Rabs_mult, (Rabs_pos_eq (/ (x * x * x))) by lra. apply Rmult_le_compat_r; [lra|].
      apply Rabs_le. split; apply Rmult_le_reg_r with (10 ^ 16 * (4 * D)); try (apply Rmult_lt_0_compat; lra).
      + replace (N / (4 * D) * (10 ^ 16 * (4 * D))) with (10 ^ 16 * N) by (field; lra). replace (- (8 * e / 10 ^ 16 + 125 / 10 ^ 13 * h) * (10 ^ 16 * (4 * D))) with (- ((32 * e + 500000 * h) * D)) by (field; lra). lra.
      + replace (N / (4 * D) * (10 ^ 16 * (4 * D))) with (10 ^ 16 * N) by (field; lra). replace ((8 * e / 10 ^ 16 + 125 / 10 ^ 13 * h) * (10 ^ 16 * (4 * D))) with ((32 * e + 500000 * h) * D) by (field; lra). lra.
    - apply Rle_trans with ((x * e / 10 ^ 16 + 125 / 10 ^ 13 * h) * / (x * x * x)); [|right; field; lra].
      apply Rmult_le_compat_r; [lra|]. assert (8 * e <= x * e) by (apply Rmult_le_compat_r; lra). lra.
  Qed.

  (** ** the oscillating approximant *)
  Variable phi : R.
  Definition aa (x : R) : R := pp x * cos (x - phi) - qq x * sin (x - phi).
  Definition aa1 (x : R) : R := (pp1 x - qq x) * cos (x - phi) - (pp x + qq1 x) * sin (x - phi).
  Lemma derive_sh : forall x, derivable_pt_lim (fun x => x - phi) x 1.
  Proof. intros x. replace 1 with (1 - 0) at 1 by ring. apply (derivable_pt_lim_minus (fun x => x) (fun _ => phi)); [apply derivable_pt_lim_id|apply derivable_pt_lim_const]. Qed.
  Lemma derive_cs : forall x, derivable_pt_lim (fun x => cos (x - phi)) x (- sin (x - phi) * 1).
  Proof. intros x. apply (derivable_pt_lim_comp (fun x => x - phi) cos); [apply derive_sh|apply derivable_pt_lim_cos]. Qed.
  Lemma derive_sn : forall x, derivable_pt_lim (fun x => sin (x - phi)) x (cos (x - phi) * 1).
  Proof. intros x. apply (derivable_pt_lim_comp (fun x => x - phi) sin); [apply derive_sh|apply derivable_pt_lim_sin]. Qed.
  Lemma derive_aa : forall x, 0 < x -> derivable_pt_lim aa x (aa1 x).
  Proof.
    intros x Hx. unfold aa, aa1.
    replace ((pp1 x - qq x) * cos (x - phi) - (pp x + qq1 x) * sin (x - phi)) with ((pp1 x * cos (x - phi) + pp x * (- sin (x - phi) * 1)) - (qq1 x * sin (x - phi) + qq x * (cos (x - phi) * 1))) by ring.
    apply (derivable_pt_lim_minus (fun x => pp x * cos (x - phi)) (fun x => qq x * sin (x - phi))).
    - apply (derivable_pt_lim_mult pp (fun x => cos (x - phi))); [apply derive_pp, Hx|apply derive_cs].
    - apply (derivable_pt_lim_mult qq (fun x => sin (x - phi))); [apply derive_qq, Hx|apply derive_sn].
  Qed.
  Lemma derive_aa1 : forall k x, 0 < x -> derivable_pt_lim aa1 x
    (((pp2 x - 2 * qq1 x + k / (x * x) * pp x) * cos (x - phi) - (qq2 x + 2 * pp1 x + k / (x * x) * qq x) * sin (x - phi)) - (1 + k / (x * x)) * aa x).
  Proof.
    intros k x Hx. unfold aa, aa1.
    match goal with |- derivable_pt_lim _ _ ?E => replace E with (((pp2 x - qq1 x) * cos (x - phi) + (pp1 x - qq x) * (- sin (x - phi) * 1)) - ((pp1 x + qq2 x) * sin (x - phi) + (pp x + qq1 x) * (cos (x - phi) * 1))) by ring end.
    apply (derivable_pt_lim_minus (fun x => (pp1 x - qq x) * cos (x - phi)) (fun x => (pp x + qq1 x) * sin (x - phi))).
    - apply (derivable_pt_lim_mult (fun x => pp1 x - qq x) (fun x => cos (x - phi))); [apply (derivable_pt_lim_minus pp1 qq); [apply derive_pp1, Hx|apply derive_qq, Hx]|apply derive_cs].
    - apply (derivable_pt_lim_mult (fun x => pp x + qq1 x) (fun x => sin (x - phi))); [apply (derivable_pt_lim_plus pp qq1); [apply derive_pp, Hx|apply derive_qq1, Hx]|apply derive_sn].
  Qed.

  (** the bound for the residual and its antiderivative *)
  Definition hh (x : R) : R := (768 + 38400 * yy x ^ 8) / 10 ^ 16 / (x * x) + 125 / 10 ^ 13 * (1 - yy x) ^ 8 / (x * x * x).
  Definition HH (x : R) : R := - (768 / 10 ^ 16) * (1 / x) - 38400 / 10 ^ 16 / (17 * 8) * (8 / x) ^ 17 + 125 / 10 ^ 13 / 1152 * (1 - yy x) ^ 9.
  Lemma derive_pow : forall (f : R -> R) l x n, derivable_pt_lim f x l -> derivable_pt_lim (fun x => f x ^ n) x (INR n * f x ^ Nat.pred n * l).
  Proof. intros f l x n D. apply (derivable_pt_lim_comp f (fun y => y ^ n)); [exact D|apply derivable_pt_lim_pow]. Qed.
  Lemma derive_HH : forall x, 0 < x -> derivable_pt_lim HH x (hh x).
  Proof.
    intros x Hx.
    assert (D1 : derivable_pt_lim (fun x => - (768 / 10 ^ 16) * (1 / x)) x (- (768 / 10 ^ 16) * (- 1 / (x * x)))) by (apply (derivable_pt_lim_scal (fun x => 1 / x)), derive_inv, Hx).
    assert (D2 : derivable_pt_lim (fun x => 38400 / 10 ^ 16 / (17 * 8) * (8 / x) ^ 17) x (38400 / 10 ^ 16 / (17 * 8) * (INR 17 * (8 / x) ^ 16 * (- 8 / (x * x))))) by (apply (derivable_pt_lim_scal (fun x => (8 / x) ^ 17)), (derive_pow (fun x => 8 / x)), derive_inv, Hx).
    assert (D3 : derivable_pt_lim (fun x => 125 / 10 ^ 13 / 1152 * (1 - yy x) ^ 9) x (125 / 10 ^ 13 / 1152 * (INR 9 * (1 - yy x) ^ 8 * (0 - - 2 * 64 / (x * x * x))))).
    { apply (derivable_pt_lim_scal (fun x => (1 - yy x) ^ 9)), (derive_pow (fun x => 1 - yy x)). apply (derivable_pt_lim_minus (fun _ => 1) yy); [apply derivable_pt_lim_const|unfold yy; apply derive_inv2, Hx]. }
    replace (hh x) with (- (768 / 10 ^ 16) * (- 1 / (x * x)) - 38400 / 10 ^ 16 / (17 * 8) * (INR 17 * (8 / x) ^ 16 * (- 8 / (x * x))) + 125 / 10 ^ 13 / 1152 * (INR 9 * (1 - yy x) ^ 8 * (0 - - 2 * 64 / (x * x * x)))).
    - exact (derivable_pt_lim_plus _ _ _ _ _ (derivable_pt_lim_minus _ _ _ _ _ D1 D2) D3).
    - unfold hh. replace (INR 17) with 17 by (simpl; ring). replace (INR 9) with 9 by (simpl; ring).
      replace ((8 / x) ^ 16) with (yy x ^ 8). 2: { replace 16%nat with (2 * 8)%nat by reflexivity. rewrite pow_mult. f_equal. unfold yy. field. lra. }
      set (w := (1 - yy x) ^ 8). set (v := yy x ^ 8). clearbody w v. field. lra.
  Qed.
  Lemma HH_le : forall x, 8 <= x -> HH x - HH 8 <= 487 / 10 ^ 16.
  Proof.
    intros x Hx. unfold HH. assert (Y : 0 < yy x <= 1) by (apply yy_unit, Hx). replace (yy 8) with 1 by (unfold yy; field). replace (1 - 1) with 0 by ring. rewrite (pow_ne_zero 9) by discriminate.
    assert ((1 - yy x) ^ 9 <= 1) by (rewrite <- (pow1 9); apply pow_incr; lra). assert (0 < 1 / x) by (apply Rdiv_lt_0_compat; lra). assert (0 < (8 / x) ^ 17) by (apply pow_lt, Rdiv_lt_0_compat; lra).
    replace (8 / 8) with 1 by field. rewrite pow1. lra.
  Qed.
  Lemma cs_sum : forall t, Rabs (cos t) + Rabs (sin t) <= 1415 / 1000.
  Proof.
    intros t. pose proof (sin2_cos2 t) as E. unfold Rsqr in E. assert (EC : cos t * cos t = Rabs (cos t) * Rabs (cos t)) by (rewrite <- Rabs_mult, Rabs_pos_eq; [reflexivity|apply Rle_0_sqr]).
    assert (ES : sin t * sin t = Rabs (sin t) * Rabs (sin t)) by (rewrite <- Rabs_mult, Rabs_pos_eq; [reflexivity|apply Rle_0_sqr]). rewrite EC, ES in E. pose proof (Rabs_pos (cos t)). pose proof (Rabs_pos (sin t)).
    set (u := Rabs (cos t)) in *. set (v := Rabs (sin t)) in *. clearbody u v. pose proof (Rle_0_sqr (u - v)) as Q1. unfold Rsqr in Q1.
    apply Rsqr_incr_0_var; [|lra]. unfold Rsqr. lra.
  Qed.

  Lemma drift : forall (u u' : R -> R) c k4 t1 t2 sh x, (0 <= sh)%Z -> 0 <= c <= 4 / 5 -> Rabs (IZR k4 / 4) <= 3 / 4 ->
    neg_chk t1 sh 1 (chk_re 1 k4) = true -> neg_chk t1 sh 1 (chk_re (-1) k4) = true ->
    neg_chk t2 sh 1 (chk_im 1 k4) = true -> neg_chk t2 sh 1 (chk_im (-1) k4) = true ->
    (forall x, 0 < x -> derivable_pt_lim u x (u' x)) -> (forall x, 0 < x -> derivable_pt_lim u' x (- (1 + IZR k4 / 4 / (x * x)) * u x)) ->
    Rabs (u 8 - c * aa 8) <= / 10 ^ 14 -> Rabs (u' 8 - c * aa1 8) <= / 10 ^ 14 -> 8 <= x -> Rabs (u x - c * aa x) <= 103 / 10 ^ 15.
  Proof.
    intros u u' c k4 t1 t2 sh x Hsh Hc Hk C1 C2 C3 C4 Du Du1 H0 H1 Hx. set (k := IZR k4 / 4) in *.
    set (RE := fun x => pp2 x - 2 * qq1 x + k / (x * x) * pp x). set (IM := fun x => qq2 x + 2 * pp1 x + k / (x * x) * qq x).
    set (lam := 1103 / 10 ^ 16). assert (L0 : 0 < lam) by (unfold lam; lra).
    pose proof (osc (fun x => u x - c * aa x) (fun x => u' x - c * aa1 x) (fun x => - (c * (RE x * cos (x - phi) - IM x * sin (x - phi)))) (fun x => 1132 / 1000 / lam * HH x) (fun x => 1132 / 1000 / lam * hh x) k lam L0 Hk) as O.
    assert (G : (u x - c * aa x) * (u x - c * aa x) + (u' x - c * aa1 x) * (u' x - c * aa1 x) + lam * lam <= 183 / 100 * ((u 8 - c * aa 8) * (u 8 - c * aa 8) + (u' 8 - c * aa1 8) * (u' 8 - c * aa1 8) + lam * lam)).
    { apply O; clear O; [| | | | |exact Hx].
      - intros z Hz. apply (derivable_pt_lim_minus u (fun x => c * aa x)); [apply Du; lra|]. apply (derivable_pt_lim_scal aa), derive_aa; lra.
      - intros z Hz. replace (- (c * (RE z * cos (z - phi) - IM z * sin (z - phi))) - (1 + k / (z * z)) * (u z - c * aa z))
          with (- (1 + k / (z * z)) * u z - c * ((RE z * cos (z - phi) - IM z * sin (z - phi)) - (1 + k / (z * z)) * aa z)) by ring.
        apply (derivable_pt_lim_minus u' (fun x => c * aa1 x)); [apply Du1; lra|]. apply (derivable_pt_lim_scal aa1), derive_aa1; lra.
      - intros z Hz. apply (derivable_pt_lim_scal HH), derive_HH; lra.
      - intros z Hz. replace (lam * (1132 / 1000 / lam * hh z)) with (4 / 5 * (hh z * (1415 / 1000))) by (field; lra).
        pose proof (re_ok k4 t1 sh z Hsh Hz C1 C2) as B1. pose proof (im_ok k4 t2 sh z Hsh Hz C3 C4) as B2. fold k in B1, B2. fold (RE z) in B1. fold (IM z) in B2. fold (hh z) in B2.
        assert (Y : 0 < yy z <= 1) by (apply yy_unit, Hz).
        assert (B3 : Rabs (RE z) <= hh z). { unfold hh. eapply Rle_trans; [exact B1|]. assert (0 <= 125 / 10 ^ 13 * (1 - yy z) ^ 8 / (z * z * z)); [|lra]. apply Rmult_le_pos; [apply Rmult_le_pos; [lra|apply pow_le; lra]|left; apply Rinv_0_lt_compat; repeat apply Rmult_lt_0_compat; lra]. }
        rewrite Rabs_Ropp, Rabs_mult, (Rabs_pos_eq c) by lra. apply Rmult_le_compat; [lra|apply Rabs_pos|lra|].
        apply Rle_trans with (hh z * (Rabs (cos (z - phi)) + Rabs (sin (z - phi)))); [|apply Rmult_le_compat_l; [pose proof (Rabs_pos (RE z)); lra|apply cs_sum]].
        unfold Rminus at 1. eapply Rle_trans; [apply Rabs_triang|]. rewrite Rabs_Ropp, !Rabs_mult, Rmult_plus_distr_l. apply Rplus_le_compat; (apply Rmult_le_compat_r; [apply Rabs_pos|assumption]).
      - intros z Hz. rewrite <- Rmult_minus_distr_l. pose proof (HH_le z Hz) as L. apply Rle_trans with (1132 / 1000 / lam * (487 / 10 ^ 16)); [apply Rmult_le_compat_l; [unfold lam; lra|exact L]|unfold lam; lra]. }
    clear O. set (v := u x - c * aa x) in *. set (w := u' x - c * aa1 x) in *. set (v0 := u 8 - c * aa 8) in *. set (w0 := u' 8 - c * aa1 8) in *. clearbody v w v0 w0.
    assert (S : forall z, Rabs z <= / 10 ^ 14 -> z * z <= / 10 ^ 28). { intros z Z. apply Rabs_le_inv in Z. assert (0 <= (/ 10 ^ 14 - z) * (/ 10 ^ 14 + z)) by (apply Rmult_le_pos; lra). lra. }
    pose proof (S _ H0) as S0. pose proof (S _ H1) as S1. pose proof (Rle_0_sqr w) as W. unfold Rsqr in W. unfold lam in G.
    assert (V : v * v <= (103 / 10 ^ 15) * (103 / 10 ^ 15)) by lra. rewrite <- (Rabs_pos_eq (103 / 10 ^ 15)) by lra. apply Rsqr_le_abs_0. exact V.
  Qed.
End Cert.
