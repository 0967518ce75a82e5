(** * Horner chains written with [+] and [-] of literals *)

From Coq Require Import ZArith Reals Bool Lra Lia List Morphisms Setoid.
From Flocq Require Import Core IEEE754.BinarySingleNaN IEEE754.Binary IEEE754.Bits.
From Verif.Model Require Import Base Arith Utils.
From Verif.Float Require Import Bits64 Ieee Exact.
From Verif.Spec Require Import F64Spec Outcome.
From Verif.Proofs Require Import F64 F64Ops Lits Ext Poly.
Import ListNotations.
Open Scope R_scope.

Definition dec_opp (c : dec) : dec := Dec (- dman c) (dexp c).

Lemma R_dec_opp : forall c, R_of_dec (dec_opp c) = - R_of_dec c.
Proof. intros c. unfold R_of_dec, dec_opp. cbn [dman dexp]. rewrite opp_IZR. ring. Qed.

(** a literal that does not underflow *)
Definition dec_nz (c : dec) : bool := negb (dman c =? 0)%Z && (-300 <=? dexp c)%Z && (dexp c <=? 300)%Z.

Lemma lit_nz : forall c, dec_nz c = true -> val (f64_lit c) <> 0.
Proof.
  intros c H. apply andb_prop in H. destruct H as [H H3]. apply andb_prop in H. destruct H as [H1 H2].
  apply Z.leb_le in H2, H3. apply negb_true_iff, Z.eqb_neq in H1.
  assert (L : bpow radix2 (-1000) <= Rabs (R_of_dec c)).
  { unfold R_of_dec. rewrite powerRZ_10, Rabs_mult, <- abs_IZR.
    assert (M : 1 <= IZR (Z.abs (dman c))) by (apply IZR_le; lia).
    assert (P1 : 1 <= IZR (10 ^ Z.max 0 (dexp c))).
    { apply IZR_le. pose proof (Z.pow_pos_nonneg 10 (Z.max 0 (dexp c)) ltac:(lia) ltac:(lia)). lia. }
    assert (P2 : IZR (10 ^ Z.max 0 (- dexp c)) <= bpow radix2 1000).
    { rewrite bpow2_nonneg_IZR by lia. apply IZR_le.
      apply Z.le_trans with (10 ^ 300)%Z; [apply Z.pow_le_mono_r; lia|]. vm_compute. discriminate. }
    assert (P3 : 0 < IZR (10 ^ Z.max 0 (- dexp c))) by (apply pow10_pos; lia).
    set (a := IZR (10 ^ Z.max 0 (dexp c))) in *. set (b := IZR (10 ^ Z.max 0 (- dexp c))) in *.
    assert (Q : bpow radix2 (-1000) <= a / b).
    { apply le_div; [exact P3|]. apply Rle_trans with (bpow radix2 (-1000) * bpow radix2 1000).
      - apply Rmult_le_compat_l; [apply bpow_ge_0|exact P2].
      - rewrite <- bpow_plus. simpl. lra. }
    rewrite (Rabs_pos_eq (a / b)) by (pose proof (bpow_ge_0 radix2 (-1000)); lra).
    rewrite <- (Rmult_1_l (bpow radix2 (-1000))). apply Rmult_le_compat; [lra|apply bpow_ge_0|exact M|exact Q]. }
  destruct (lit_spec c) as [N V]. rewrite V.
  assert (G : bpow radix2 (-1000) <= Rabs (rnd (R_of_dec c))).
  { rewrite <- rnd_abs. apply rnd_ge; [apply fmt_bpow; lia|exact L]. }
  intros Z. unfold rs in Z. pose proof (bpow_gt_0 radix2 (-1000)). pose proof Om_pos.
  unfold Rmax, Rmin in Z. revert Z. destruct (Rle_dec Om _); destruct (Rle_dec (- Om) _); intros Z; try lra.
  rewrite Z, Rabs_R0 in G. lra.
Qed.

Lemma lit_opp : forall c, dec_nz c = true -> f64_lit (dec_opp c) = f64_neg (f64_lit c).
Proof.
  intros c H. pose proof (lit_nz c H) as NZ.
  destruct (lit_spec c) as [N V]. destruct (lit_spec (dec_opp c)) as [N' V'].
  rewrite R_dec_opp, rs_opp, <- V in V'.
  apply f64_ext_nz; try assumption.
  - rewrite nan_neg. exact N.
  - rewrite val_neg. exact V'.
  - lra.
Qed.

(** the same platform without fused multiply-add *)
Definition nofma (P : platform) : platform := {|
  p_add_nan := p_add_nan P; p_sub_nan := p_sub_nan P; p_mul_nan := p_mul_nan P;
  p_div_nan := p_div_nan P; p_un_nan := p_un_nan P; p_fma_nan := p_fma_nan P;
  p_exp := p_exp P; p_ln := p_ln P; p_sin := p_sin P; p_cos := p_cos P; p_sinh := p_sinh P;
  p_cosh := p_cosh P; p_powf := p_powf P; p_cexp := p_cexp P; p_tie := p_tie P;
  p_fma := false; p_checks := p_checks P |}.

Section Hor.
  Context (P : platform).
  Notation add := (f64_add P).
  Notation sub := (f64_sub P).
  Notation mul := (f64_mul P).

  (** [(..(a * x + c1) * x + ..) * x + cn] *)
  Definition hor (x a : f64) (cs : list dec) : f64 :=
    fold_left (fun acc c => add (mul acc x) (f64_lit c)) cs a.

  Lemma hor_madd : forall x cs a,
    hor x a cs = fold_left (fun acc c => madd (nofma P) acc x (f64_lit c)) cs a.
  Proof. reflexivity. Qed.

  Lemma hor_snoc : forall x a cs c, hor x a (cs ++ [c]) = add (mul (hor x a cs) x) (f64_lit c).
  Proof. intros. unfold hor. rewrite fold_left_app. reflexivity. Qed.

  (** reading a chain of additions and subtractions, outermost first *)
  Lemma hor_add : forall x a cs c e, e ~= hor x a cs ->
    add (mul e x) (f64_lit c) ~= hor x a (cs ++ [c]).
  Proof. intros x a cs c e H. rewrite hor_snoc, H. reflexivity. Qed.
  Lemma hor_sub : forall x a cs c e, dec_nz c = true -> e ~= hor x a cs ->
    sub (mul e x) (f64_lit c) ~= hor x a (cs ++ [dec_opp c]).
  Proof.
    intros x a cs c e N H. rewrite hor_snoc, H, lit_opp by exact N. apply sub_add_neg.
  Qed.
  Lemma hor_nil : forall x c, f64_lit c ~= hor x (f64_lit c) [].
  Proof. reflexivity. Qed.

  (** bound, and distance to the last coefficient *)
  Definition hor_b (tn td : Z) (c0 : dec) (cs : list dec) : option Z :=
    if (dec_up c0 <=? 2 ^ 200)%Z then hbound tn td (up (dec_up c0)) cs else None.

  Lemma hor_bound : forall tn td x c0 cs b, (0 <= tn)%Z -> (0 < td)%Z -> fin x ->
    Rabs (Binary.B2R x) <= IZR tn / IZR td -> hor_b tn td c0 cs = Some b ->
    fin (hor x (f64_lit c0) cs) /\ (0 <= b)%Z /\
    Rabs (Binary.B2R (hor x (f64_lit c0) cs)) <= IZR b / IZR K60.
  Proof.
    intros tn td x c0 cs b Htn Htd Fx Hx H. unfold hor_b in H.
    destruct (dec_up c0 <=? 2 ^ 200)%Z eqn:L; [|discriminate]. apply Z.leb_le in L.
    destruct (lit_bound c0 L) as (Fc & Bc & _).
    rewrite hor_madd. apply (horner_bound (nofma P) tn td x Htn Htd Fx Hx cs (up (dec_up c0)) b); try assumption.
    pose proof (up_nonneg _ (dec_up_nonneg c0)). pose proof (dec_up_nonneg c0). lia.
  Qed.

  (** [n/q] bounds the distance of the chain from its last coefficient *)
  Definition hor_near_ok (tn td : Z) (c0 : dec) (cs : list dec) (c : dec) (n q : Z) : bool :=
    match hor_b tn td c0 cs with
    | Some b => hok tn td b c && (lastdev tn td b c * q <=? n * K60)%Z
    | None => false
    end.

  Lemma hor_near : forall tn td x c0 cs c n q, (0 <= tn)%Z -> (0 < td)%Z -> (0 < q)%Z -> fin x ->
    Rabs (Binary.B2R x) <= IZR tn / IZR td -> hor_near_ok tn td c0 cs c n q = true ->
    fin (hor x (f64_lit c0) (cs ++ [c])) /\
    Rabs (Binary.B2R (hor x (f64_lit c0) (cs ++ [c])) - R_of_dec c) <= IZR n / IZR q.
  Proof.
    intros tn td x c0 cs c n q Htn Htd Hq Fx Hx H. unfold hor_near_ok in H.
    destruct (hor_b tn td c0 cs) as [b|] eqn:Hb; [|discriminate].
    apply andb_prop in H. destruct H as [O L]. apply Z.leb_le in L.
    destruct (hor_bound tn td x c0 cs b Htn Htd Fx Hx Hb) as (Fa & B0 & Ba).
    rewrite hor_snoc.
    destruct (last_near (nofma P) tn td x b c _ Htn Htd Fx Hx B0 Fa Ba O) as [F1 B1].
    split; [exact F1|]. eapply Rle_trans; [exact B1|].
    assert (Q : 0 < IZR q) by (apply IZR_lt; exact Hq). pose proof K60_pos as HK.
    apply div_le; [exact HK|]. replace (IZR n / IZR q * IZR K60) with (IZR n * IZR K60 / IZR q) by (field; lra).
    apply le_div; [exact Q|]. rewrite <- !mult_IZR. apply IZR_le. exact L.
  Qed.
End Hor.
