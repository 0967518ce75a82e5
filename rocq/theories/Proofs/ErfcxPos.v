(** * Bounds on erfcx *)

From Coq Require Import ZArith Reals Bool Lra Lia List Setoid.
From Flocq Require Import Core IEEE754.BinarySingleNaN IEEE754.Binary IEEE754.Bits.
From Verif.Model Require Import Base Arith Utils ErrorTables Error.
From Verif.Float Require Import Bits64 Ieee Exact.
From Verif.Spec Require Import F64Spec Outcome.
From Verif.Proofs Require Import F64 F64Ops Lits Ext Boundaries UtilsSpec Poly Horner ErfcxSafe.
Import ListNotations.
Open Scope R_scope.

(** ** The tables by subinterval *)

Fixpoint chunks8 {A} (l : list A) : list (A * A * A * A * A * A * A * A) :=
  match l with
  | a :: b :: c :: d :: e :: f :: g :: h :: r => (a, b, c, d, e, f, g, h) :: chunks8 r
  | _ => []
  end.
Fixpoint chunks2 {A} (l : list A) : list (A * A) :=
  match l with
  | a :: b :: r => (a, b) :: chunks2 r
  | _ => []
  end.

Lemma nth_chunks8 : forall {A} k (l : list A) a b c d e f g h,
  nth_error (chunks8 l) k = Some (a, b, c, d, e, f, g, h) ->
  nth_error l (8 * k) = Some a /\ nth_error l (8 * k + 1) = Some b /\ nth_error l (8 * k + 2) = Some c /\
  nth_error l (8 * k + 3) = Some d /\ nth_error l (8 * k + 4) = Some e /\ nth_error l (8 * k + 5) = Some f /\
  nth_error l (8 * k + 6) = Some g /\ nth_error l (8 * k + 7) = Some h.
Proof.
  induction k as [|k IH]; intros l a b c d e f g h H;
    destruct l as [|x0 [|x1 [|x2 [|x3 [|x4 [|x5 [|x6 [|x7 l]]]]]]]]; try discriminate H.
  - cbn in H. injection H as <- <- <- <- <- <- <- <-. cbn. repeat split.
  - cbn [chunks8 nth_error] in H. specialize (IH l a b c d e f g h H).
    replace (8 * S k)%nat with (8 + 8 * k)%nat by lia. cbn [Nat.add nth_error]. exact IH.
Qed.
Lemma nth_chunks2 : forall {A} k (l : list A) a b,
  nth_error (chunks2 l) k = Some (a, b) ->
  nth_error l (2 * k) = Some a /\ nth_error l (2 * k + 1) = Some b.
Proof.
  induction k as [|k IH]; intros l a b H; destruct l as [|x0 [|x1 l]]; try discriminate H.
  - cbn in H. injection H as <- <-. split; reflexivity.
  - cbn [chunks2 nth_error] in H. specialize (IH l a b H).
    replace (2 * S k)%nat with (2 + 2 * k)%nat by lia. cbn [Nat.add nth_error]. exact IH.
Qed.

Definition entries := combine (chunks8 CHEBYSHEV_COEFFS_1) (chunks2 CHEBYSHEV_COEFFS_0).

Lemma nth_combine : forall {A B} (l : list A) (m : list B) k x y,
  nth_error (combine l m) k = Some (x, y) -> nth_error l k = Some x /\ nth_error m k = Some y.
Proof.
  induction l as [|a l IH]; intros m k x y H; [destruct k; discriminate|].
  destruct m as [|b m]; [destruct k; discriminate|].
  destruct k as [|k]; cbn in H |- *; [injection H as <- <-; auto|apply IH; exact H].
Qed.

(** the polynomial of a subinterval stays within 2% of its value in the
    middle, which is in (0, 0.9] *)
Definition entry_ok (e : dec * dec * dec * dec * dec * dec * dec * dec * (dec * dec)) : bool :=
  let '(c0, c1, c2, c3, c4, c5, c6, c7, (q0, q1)) := e in
  hor_near_ok 1 1 c7 [c6; c5; c4; c3; c2; c1; c0; q1] q0 (dman q0) (50 * 10 ^ (- dexp q0))
  && (1 <=? dman q0)%Z && (dexp q0 <=? 0)%Z && (dman q0 * 10 <=? 9 * 10 ^ (- dexp q0))%Z.

Lemma entries_ok : forallb entry_ok (firstn 417 entries) = true.
Proof. vm_compute. reflexivity. Qed.
Lemma entries_len : length entries = 448%nat.
Proof. vm_compute. reflexivity. Qed.

Lemma nth_firstn : forall {A} n (l : list A) k, (k < n)%nat -> nth_error (firstn n l) k = nth_error l k.
Proof.
  induction n as [|n IH]; intros l k H; [lia|]. destruct l as [|a l]; [destruct k; reflexivity|].
  destruct k as [|k]; [reflexivity|]. cbn. apply IH. lia.
Qed.

Lemma index_nth : forall {A} (l : list A) i a, (0 <= i)%Z -> nth_error l (Z.to_nat i) = Some a ->
  index l i = Ok a.
Proof.
  intros A l i a H E. unfold index. rewrite (proj2 (Z.ltb_ge i 0)) by lia. rewrite E. reflexivity.
Qed.

Section Pos.
  Context (P : platform).

  Lemma cheb_bounds : forall x : f64, fin x -> 1 / 8 <= Binary.B2R x <= 12 ->
    exists r, @cheb_interpolant (ieee P) x = Ok r /\ fin r /\ 0 < Binary.B2R r <= 0.95.
  Proof.
    intros x Fx Hx. destruct (cheb_reduce P x Fx Hx) as (n & t & Hn & Ft & Ht & ->).
    set (k := Z.to_nat n). assert (Hk : (k < 417)%nat) by (unfold k; lia).
    assert (En : n = Z.of_nat k) by (unfold k; lia).
    destruct (nth_error entries k) as [e|] eqn:E.
    2:{ apply nth_error_None in E. rewrite entries_len in E. lia. }
    assert (O : entry_ok e = true).
    { pose proof entries_ok as A. rewrite forallb_forall in A. apply A.
      apply nth_error_In with k. rewrite nth_firstn by exact Hk. exact E. }
    destruct e as [[[[[[[[c0 c1] c2] c3] c4] c5] c6] c7] [q0 q1]].
    apply nth_combine in E. destruct E as [E1 E2].
    apply nth_chunks8 in E1. apply nth_chunks2 in E2.
    destruct E1 as (N0 & N1 & N2 & N3 & N4 & N5 & N6 & N7). destruct E2 as (M0 & M1).
    unfold cheb_poly.
    rewrite (index_nth _ (n * 8 + 7) c7) by (lia || (rewrite <- N7; f_equal; lia)). cbn [bind].
    rewrite (index_nth _ (n * 8 + 6) c6) by (lia || (rewrite <- N6; f_equal; lia)). cbn [bind].
    rewrite (index_nth _ (n * 8 + 5) c5) by (lia || (rewrite <- N5; f_equal; lia)). cbn [bind].
    rewrite (index_nth _ (n * 8 + 4) c4) by (lia || (rewrite <- N4; f_equal; lia)). cbn [bind].
    rewrite (index_nth _ (n * 8 + 3) c3) by (lia || (rewrite <- N3; f_equal; lia)). cbn [bind].
    rewrite (index_nth _ (n * 8 + 2) c2) by (lia || (rewrite <- N2; f_equal; lia)). cbn [bind].
    rewrite (index_nth _ (n * 8 + 1) c1) by (lia || (rewrite <- N1; f_equal; lia)). cbn [bind].
    rewrite (index_nth _ (n * 8) c0) by (lia || (rewrite <- N0; f_equal; lia)). cbn [bind].
    rewrite (index_nth _ (n * 2 + 1) q1) by (lia || (rewrite <- M1; f_equal; lia)). cbn [bind].
    rewrite (index_nth _ (n * 2) q0) by (lia || (rewrite <- M0; f_equal; lia)). cbn [bind].
    unfold entry_ok in O. apply andb_prop in O. destruct O as [O O4]. apply andb_prop in O.
    destruct O as [O O3]. apply andb_prop in O. destruct O as [O1 O2].
    apply Z.leb_le in O2, O3, O4.
    assert (D : (0 < 10 ^ (- dexp q0))%Z) by (apply Z.pow_pos_nonneg; lia).
    destruct (hor_near P 1 1 t c7 [c6; c5; c4; c3; c2; c1; c0; q1] q0 (dman q0) (50 * 10 ^ (- dexp q0)) ltac:(lia) ltac:(lia) ltac:(lia) Ft) as [Fr Br].
    { unfold Rdiv. rewrite Rinv_1, Rmult_1_r. exact Ht. }
    { exact O1. }
    cbn [app] in Fr, Br. ieee_simpl.
    exists (hor P t (f64_lit c7) [c6; c5; c4; c3; c2; c1; c0; q1; q0]).
    split; [unfold hor; cbn [fold_left]; reflexivity|]. split; [exact Fr|].
    set (r := Binary.B2R _) in *.
    assert (Q : R_of_dec q0 = IZR (dman q0) / IZR (10 ^ (- dexp q0))).
    { unfold R_of_dec. rewrite powerRZ_10. replace (Z.max 0 (dexp q0)) with 0%Z by lia.
      replace (Z.max 0 (- dexp q0)) with (- dexp q0)%Z by lia. change (10 ^ 0)%Z with 1%Z. unfold Rdiv. ring. }
    rewrite Q, mult_IZR in Br.
    assert (DR : 0 < IZR (10 ^ (- dexp q0))) by (apply IZR_lt; exact D).
    replace (IZR (dman q0) / (50 * IZR (10 ^ (- dexp q0)))) with (IZR (dman q0) / IZR (10 ^ (- dexp q0)) / 50) in Br
      by (field; lra).
    set (v := IZR (dman q0) / IZR (10 ^ (- dexp q0))) in *.
    assert (V : 0 < v <= 9 / 10).
    { split; [apply Rdiv_lt_0_compat; [apply IZR_lt; lia|exact DR]|].
      unfold v. apply div_le; [exact DR|]. apply IZR_le in O4. rewrite !mult_IZR in O4. lra. }
    apply Rabs_le_inv in Br. lra.
  Qed.

  (** ** Adding a term of known sign *)

  Lemma last_sign : forall p x c : f64, fin p -> fin x -> fin c ->
    Rabs (Binary.B2R p) <= 100 -> Rabs (Binary.B2R x) <= 100 -> Rabs (Binary.B2R c) <= 100 ->
    let r := f64_add P (f64_mul P p x) c in
    fin r /\ (Binary.B2R p * Binary.B2R x <= 0 -> Binary.B2R r <= Binary.B2R c) /\
    (0 <= Binary.B2R p * Binary.B2R x -> Binary.B2R c <= Binary.B2R r).
  Proof.
    intros p x c Fp Fx Fc Bp Bx Bc. pose proof Om_big as OB.
    assert (A : Rabs (Binary.B2R p * Binary.B2R x) <= IZR 10000).
    { rewrite Rabs_mult. apply Rle_trans with (100 * 100); [|lra]. apply Rmult_le_compat; auto using Rabs_pos. }
    assert (A1 : Rabs (rnd (Binary.B2R p * Binary.B2R x)) <= IZR 10000).
    { rewrite <- rnd_abs. apply rnd_le_fmt; [apply fmt_IZR; lia|exact A]. }
    destruct (rounds_small _ _ (mul_spec P p x Fp Fx)) as [Fm Vm]; [lra|].
    assert (A2 : Rabs (Binary.B2R (f64_mul P p x) + Binary.B2R c) <= IZR 20000).
    { eapply Rle_trans; [apply Rabs_triang|]. rewrite Vm. lra. }
    assert (A3 : Rabs (rnd (Binary.B2R (f64_mul P p x) + Binary.B2R c)) <= IZR 20000).
    { rewrite <- rnd_abs. apply rnd_le_fmt; [apply fmt_IZR; lia|exact A2]. }
    destruct (rounds_small _ _ (add_spec P _ c Fm Fc)) as [Fr Vr]; [lra|].
    cbv zeta. rewrite Vr, Vm. split; [exact Fr|]. split; intros S.
    - apply rnd_le_fmt; [apply fmt_B2R|]. pose proof (rnd_neg _ S). lra.
    - apply rnd_ge; [apply fmt_B2R|]. pose proof (rnd_pos _ S). lra.
  Qed.

  (** ** Near zero *)

  Definition mac_cs : list dec :=
    [-5.344_009_079_373_427e-4; 1.388_888_888_888_889e-3; -3.473_605_901_592_727_4e-3;
     8.333_333_333_333_333e-3; -1.910_483_245_876e-2; 4.166_666_666_666_666_4e-2;
     -8.597_174_606_442e-2; 1.666_666_666_666_666_6e-1; -3.009_011_112_254_700_3e-1; 5e-1;
     -7.522_527_780_636_751e-1; 1.0]%dec.

  Lemma maclaurin_hor : forall x : f64, @erfcx_maclaurin (ieee P) x ~=
    hor P x (f64_lit 1.984_126_984_126_984e-4)
      ((mac_cs ++ [(-1.12837916709551257389615890312154517)%dec]) ++ [1.0%dec]).
  Proof.
    intros x. unfold erfcx_maclaurin, FRAC_2_SQRT_PI. ieee_simpl.
    match goal with |- ?e ~= hor P x ?a _ => eassert (H : e ~= hor P x a _) end.
    { do 7 (apply hor_add; apply hor_sub; [reflexivity|]). apply hor_nil. }
    exact H.
  Qed.

  Lemma maclaurin_bounds : forall x : f64, fin x -> Rabs (Binary.B2R x) <= 1 / 8 ->
    let r := @erfcx_maclaurin (ieee P) x in
    fin r /\ 0.8 <= Binary.B2R r <= 1.2 /\
    (0 <= Binary.B2R x -> Binary.B2R r <= 1) /\ (Binary.B2R x <= 0 -> 1 <= Binary.B2R r).
  Proof.
    intros x Fx Hx. pose proof (maclaurin_hor x) as E.
    destruct (hor_near P 1 8 x 1.984_126_984_126_984e-4
                (mac_cs ++ [(-1.12837916709551257389615890312154517)%dec]) 1.0 1 5
                ltac:(lia) ltac:(lia) ltac:(lia) Fx Hx) as [F1 B1]; [vm_compute; reflexivity|].
    destruct (hor_near P 1 8 x 1.984_126_984_126_984e-4 mac_cs
                (-1.12837916709551257389615890312154517) 1 5
                ltac:(lia) ltac:(lia) ltac:(lia) Fx Hx) as [F2 B2]; [vm_compute; reflexivity|].
    symmetry in E. apply eqn_nonnan in E; [|apply fin_nonnan; exact F1].
    cbv zeta. rewrite <- E. clear E. rewrite hor_snoc in F1, B1 |- *.
    assert (K1 : R_of_dec 1.0 = 1) by (unfold R_of_dec; cbn [dman dexp]; rewrite powerRZ_10; simpl; lra).
    assert (K2 : -1.13 <= R_of_dec (-1.12837916709551257389615890312154517) <= -1.12).
    { unfold R_of_dec. cbn [dman dexp]. rewrite powerRZ_10.
      change (Z.max 0 (-35)) with 0%Z. change (Z.max 0 (- -35)) with 35%Z.
      change (10 ^ 0)%Z with 1%Z. change (10 ^ 35)%Z with 100000000000000000000000000000000000%Z. lra. }
    rewrite K1 in B1. apply Rabs_le_inv in B1, B2.
    set (p := hor P x _ _) in *. set (c := f64_lit 1.0) in *.
    assert (Vc : Binary.B2R c = 1) by (rewrite <- (val_fin c fin_1); exact val_1).
    apply Rabs_le_inv in Hx.
    destruct (last_sign p x c F2 Fx fin_1) as (_ & S1 & S2).
    { apply Rabs_le. lra. } { apply Rabs_le. lra. } { rewrite Vc, Rabs_R1. lra. }
    rewrite Vc in S1, S2. split; [exact F1|]. split; [lra|]. split; intros Hs; [apply S1|apply S2]; nra.
  Qed.

  (** ** The asymptotic expansions *)

  Notation c_isp := (f64_lit 0.564_189_583_547_756_3).

  Lemma isp_facts : fin c_isp /\ 0.564 <= Binary.B2R c_isp <= 0.565.
  Proof.
    destruct (lit_bound 0.564_189_583_547_756_3) as (Fc & _ & E); [vm_compute; discriminate|].
    split; [exact Fc|].
    assert (K : R_of_dec 0.564_189_583_547_756_3 = 5641895835477563 / 10000000000000000).
    { unfold R_of_dec. cbn [dman dexp]. rewrite powerRZ_10. simpl. lra. }
    rewrite K in E.
    assert (S : bpow radix2 (-51) * (IZR (dec_up 0.564_189_583_547_756_3) / IZR K60) + bpow radix2 (-70) <= / 100000).
    { assert (U : IZR (dec_up 0.564_189_583_547_756_3) / IZR K60 <= 1).
      { apply div_le; [apply K60_pos|]. rewrite Rmult_1_l. apply IZR_le. vm_compute. discriminate. }
      assert (V : bpow radix2 (-70) <= bpow radix2 (-51)) by (apply bpow_le; lia).
      assert (W : bpow radix2 (-51) <= / 1000000).
      { rewrite bpow2_inv_IZR by lia. apply Rinv_le_contravar; [lra|]. apply IZR_le. vm_compute. discriminate. }
      pose proof (bpow_gt_0 radix2 (-51)).
      assert (bpow radix2 (-51) * (IZR (dec_up 0.564_189_583_547_756_3) / IZR K60) <= bpow radix2 (-51) * 1)
        by (apply Rmult_le_compat_l; lra).
      lra. }
    apply Rabs_le_inv in E. lra.
  Qed.

  (** a chain whose last two coefficients are -0.282.. and 0.564.. *)
  Lemma asym_chain : forall t c0 cs, fin t -> 0 <= Binary.B2R t <= 7 / 1000 ->
    hor_near_ok 7 1000 c0 cs (-2.820_947_917_738_781_4e-1) 1 100 = true ->
    hor_near_ok 7 1000 c0 (cs ++ [(-2.820_947_917_738_781_4e-1)%dec]) 5.641_895_835_477_563e-1 1 100 = true ->
    let v := hor P t (f64_lit c0) ((cs ++ [(-2.820_947_917_738_781_4e-1)%dec]) ++ [5.641_895_835_477_563e-1%dec]) in
    fin v /\ 0.5 <= Binary.B2R v <= Binary.B2R c_isp.
  Proof.
    intros t c0 cs Ft Ht O1 O2.
    assert (At : Rabs (Binary.B2R t) <= 7 / 1000) by (apply Rabs_le; lra).
    destruct (hor_near P 7 1000 t c0 _ _ 1 100 ltac:(lia) ltac:(lia) ltac:(lia) Ft At O1) as [F1 B1].
    destruct (hor_near P 7 1000 t c0 _ _ 1 100 ltac:(lia) ltac:(lia) ltac:(lia) Ft At O2) as [F2 B2].
    cbv zeta. split; [exact F2|].
    assert (K1 : R_of_dec (-2.820_947_917_738_781_4e-1) = -28209479177387814 / 100000000000000000).
    { unfold R_of_dec. cbn [dman dexp]. rewrite powerRZ_10. simpl. lra. }
    assert (K2 : R_of_dec 5.641_895_835_477_563e-1 = 5641895835477563 / 10000000000000000).
    { unfold R_of_dec. cbn [dman dexp]. rewrite powerRZ_10. simpl. lra. }
    rewrite K1 in B1. rewrite K2 in B2. apply Rabs_le_inv in B1, B2.
    split; [lra|]. rewrite hor_snoc. destruct isp_facts as [Fi Bi].
    set (p := hor P t _ _) in *.
    destruct (last_sign p t c_isp F1 Ft Fi) as (_ & S1 & _).
    { apply Rabs_le. lra. } { apply Rabs_le. lra. } { apply Rabs_le. lra. }
    apply S1. nra.
  Qed.

  Definition as4_cs := [4.231_421_876_608_172_4e-1]%dec.
  Definition as7_cs := [-1.666_122_363_914_467_6e1; 3.702_494_142_032_150_7; -1.057_855_469_152_043;
                        4.231_421_876_608_172_4e-1]%dec.
  Definition as11_cs := [-3.797_197_000_008_816_4e4; 4.467_290_588_245_667e3; -5.956_387_450_994_222e2;
                         9.163_673_001_529_573e1; -1.666_122_363_914_467_6e1; 3.702_494_142_032_150_7;
                         -1.057_855_469_152_043; 4.231_421_876_608_172_4e-1]%dec.
  Definition tail2 (cs : list dec) : list dec :=
    (cs ++ [(-2.820_947_917_738_781_4e-1)%dec]) ++ [5.641_895_835_477_563e-1%dec].

  Lemma asym11_hor : forall r : f64, @erfcx_asym11 (ieee P) r ~=
    f64_mul P (hor P (f64_mul P r r) (f64_lit 3.607_337_150_008_376e5) (tail2 as11_cs)) r.
  Proof.
    intros r. unfold erfcx_asym11. ieee_simpl.
    match goal with |- f64_mul P ?e r ~= f64_mul P (hor P ?x ?a _) r =>
      eassert (H : e ~= hor P x a _) end.
    { do 5 (apply hor_add; apply hor_sub; [reflexivity|]). apply hor_nil. }
    rewrite H. reflexivity.
  Qed.
  Lemma asym7_hor : forall r : f64, @erfcx_asym7 (ieee P) r ~=
    f64_mul P (hor P (f64_mul P r r) (f64_lit 9.163_673_001_529_573e1) (tail2 as7_cs)) r.
  Proof.
    intros r. unfold erfcx_asym7. ieee_simpl.
    match goal with |- f64_mul P ?e r ~= f64_mul P (hor P ?x ?a _) r =>
      eassert (H : e ~= hor P x a _) end.
    { do 3 (apply hor_add; apply hor_sub; [reflexivity|]). apply hor_nil. }
    rewrite H. reflexivity.
  Qed.
  Lemma asym4_hor : forall r : f64, @erfcx_asym4 (ieee P) r ~=
    f64_mul P (hor P (f64_mul P r r) (f64_lit (-1.057_855_469_152_043)) (tail2 as4_cs)) r.
  Proof.
    intros r. unfold erfcx_asym4. ieee_simpl.
    match goal with |- f64_mul P ?e r ~= f64_mul P (hor P ?x ?a _) r =>
      eassert (H : e ~= hor P x a _) end.
    { apply hor_add. apply hor_sub; [reflexivity|]. apply hor_add.
      rewrite <- (lit_opp 1.057_855_469_152_043) by reflexivity. apply hor_nil. }
    rewrite H. reflexivity.
  Qed.

  (** 1/x and its square *)
  Lemma recip_facts : forall x : f64, fin x -> 12 <= Binary.B2R x <= 2 ^ 30 ->
    let r := f64_div P (f64_lit 1.0) x in
    fin r /\ (1 - bpow radix2 (-53)) / Binary.B2R x <= Binary.B2R r <= (1 + bpow radix2 (-53)) / Binary.B2R x /\
    fin (f64_mul P r r) /\ 0 <= Binary.B2R (f64_mul P r r) <= 7 / 1000.
  Proof.
    intros x Fx Hx. pose proof Om_big as OB. pose proof u_small as US.
    set (X := Binary.B2R x) in *.
    assert (V1 : Binary.B2R (f64_lit 1.0) = 1) by (rewrite <- (val_fin _ fin_1); exact val_1).
    pose proof (div_spec P (f64_lit 1.0) x fin_1 Fx ltac:(fold X; lra)) as D. rewrite V1 in D. fold X in D.
    assert (I : / 2 ^ 30 <= 1 / X <= 1 / 12).
    { unfold Rdiv. rewrite !Rmult_1_l. split; apply Rinv_le_contravar; lra. }
    assert (Mn : bpow radix2 (-1022) <= 1 / X).
    { apply Rle_trans with (bpow radix2 (-30)); [apply bpow_le; lia|].
      rewrite bpow2_inv_IZR by lia. change (2 ^ (- -30))%Z with 1073741824%Z. lra. }
    pose proof (rnd_up (1 / X) Mn) as RU.
    destruct (rounds_small _ _ D) as [Fr Vr]; [rewrite Rabs_pos_eq by nra; nra|].
    cbv zeta. split; [exact Fr|].
    set (r := f64_div P (f64_lit 1.0) x) in *.
    split.
    { rewrite Vr. replace ((1 - bpow radix2 (-53)) / X) with (1 / X * (1 - bpow radix2 (-53))) by (field; lra).
      replace ((1 + bpow radix2 (-53)) / X) with (1 / X * (1 + bpow radix2 (-53))) by (field; lra). exact RU. }
    assert (Br : 0 <= Binary.B2R r <= 0.08334).
    { rewrite Vr. set (u := bpow radix2 (-53)) in *. set (y := 1 / X) in *.
      assert (0 <= y * (1 - u)) by (apply Rmult_le_pos; lra).
      assert (y * (1 + u) <= 1 / 12 * (1 + / 1000000)) by (apply Rmult_le_compat; lra). lra. }
    assert (Bq : 0 <= Binary.B2R r * Binary.B2R r <= 0.00695).
    { split; [apply Rmult_le_pos; lra|]. apply Rle_trans with (0.08334 * 0.08334); [|lra].
      apply Rmult_le_compat; lra. }
    assert (Bs : 0 <= rnd (Binary.B2R r * Binary.B2R r) <= 7 / 1000).
    { split; [apply rnd_pos; lra|].
      pose proof (rnd_abs_err (Binary.B2R r * Binary.B2R r)) as E.
      rewrite (Rabs_pos_eq (_ * _)) in E by lra. apply Rabs_le_inv in E.
      assert (bpow radix2 (-1075) <= bpow radix2 (-53)) by (apply bpow_le; lia).
      set (u := bpow radix2 (-53)) in *. set (q := Binary.B2R r * Binary.B2R r) in *.
      assert (u * q <= / 1000000 * 1) by (apply Rmult_le_compat; lra).
      lra. }
    destruct (rounds_small _ _ (mul_spec P r r Fr Fr)) as [Fq Vq]; [rewrite Rabs_pos_eq by lra; lra|].
    split; [exact Fq|]. rewrite Vq. exact Bs.
  Qed.

  (** the last multiplication, against the plain quotient *)
  Lemma asym_final : forall (x v : f64) z, fin x -> 12 <= Binary.B2R x <= 2 ^ 30 ->
    fin v -> 0.5 <= Binary.B2R v <= Binary.B2R c_isp ->
    z ~= f64_mul P v (f64_div P (f64_lit 1.0) x) ->
    fin z /\ 0 < Binary.B2R z /\
    Binary.B2R z <= val (f64_div P c_isp x) * (1 + bpow radix2 (-50)).
  Proof.
    intros x v z Fx Hx Fv Hv E. destruct isp_facts as [Fi Bi].
    destruct (recip_facts x Fx Hx) as (Fr & Br & _ & _).
    set (r := f64_div P (f64_lit 1.0) x) in *. set (X := Binary.B2R x) in *.
    pose proof Om_big as OB. pose proof u_small as US. set (u := bpow radix2 (-53)) in *.
    assert (I : / 2 ^ 30 <= 1 / X <= 1 / 12).
    { unfold Rdiv. rewrite !Rmult_1_l. split; apply Rinv_le_contravar; lra. }
    assert (Br' : 1 / X * (1 - u) <= Binary.B2R r <= 1 / X * (1 + u)).
    { replace (1 / X * (1 - u)) with ((1 - u) / X) by (field; lra).
      replace (1 / X * (1 + u)) with ((1 + u) / X) by (field; lra). exact Br. }
    clear Br. set (y := 1 / X) in *. set (C := Binary.B2R c_isp) in *.
    assert (Y0 : 0 < y) by lra.
    assert (L1 : 0.5 * (y * (1 - u)) <= Binary.B2R v * Binary.B2R r).
    { apply Rmult_le_compat; try lra. apply Rmult_le_pos; lra. }
    assert (L2 : Binary.B2R v * Binary.B2R r <= C * (y * (1 + u))).
    { apply Rmult_le_compat; try lra. apply Rle_trans with (y * (1 - u)); [apply Rmult_le_pos; lra|lra]. }
    assert (M : bpow radix2 (-1022) <= / 2 ^ 40).
    { replace (/ 2 ^ 40) with (bpow radix2 (-40)) by (rewrite bpow2_inv_IZR by lia; change (2 ^ (- -40))%Z with 1099511627776%Z; lra).
      apply bpow_le. lia. }
    assert (Y1 : / 2 ^ 40 <= 0.5 * (y * (1 - u))).
    { assert (/ 2 ^ 30 * 0.9 <= y * (1 - u)) by (apply Rmult_le_compat; lra). lra. }
    assert (Y2 : C * (y * (1 + u)) <= 1).
    { assert (0 <= y * (1 + u)) by (apply Rmult_le_pos; lra).
      assert (y * (1 + u) <= 1 / 12 * 2) by (apply Rmult_le_compat; lra).
      apply Rle_trans with (1 * 1); [|lra]. apply Rmult_le_compat; lra. }
    pose proof (rnd_up (Binary.B2R v * Binary.B2R r) ltac:(lra)) as RV. fold u in RV.
    set (w := Binary.B2R v * Binary.B2R r) in *.
    assert (W : 0 < w * (1 - u)) by (apply Rmult_lt_0_compat; lra).
    assert (W1 : w * (1 + u) <= 1 * 2) by (apply Rmult_le_compat; lra).
    destruct (rounds_small _ _ (mul_spec P v r Fv Fr)) as [Fm Vm]; [fold w; rewrite Rabs_pos_eq by lra; lra|].
    fold w in Vm. symmetry in E. apply eqn_nonnan in E; [|apply fin_nonnan; exact Fm]. subst z.
    split; [exact Fm|]. split; [rewrite Vm; lra|].
    assert (Dv : rounds (f64_div P c_isp x) (C * y)).
    { replace (C * y) with (Binary.B2R c_isp / X) by (unfold y; fold C; field; lra).
      apply div_spec; [exact Fi|exact Fx|fold X; lra]. }
    assert (CY : / 2 ^ 40 <= C * y <= 1).
    { split.
      - apply Rle_trans with (0.5 * / 2 ^ 30); [lra|]. apply Rmult_le_compat; lra.
      - apply Rle_trans with (1 * 1); [|lra]. apply Rmult_le_compat; lra. }
    pose proof (rnd_up (C * y) ltac:(lra)) as RD. fold u in RD.
    assert (RD0 : 0 <= C * y * (1 - u)) by (apply Rmult_le_pos; lra).
    assert (RD1 : C * y * (1 + u) <= 1 * 2) by (apply Rmult_le_compat; lra).
    destruct (rounds_small _ _ Dv) as [Fd Vd]; [rewrite Rabs_pos_eq by lra; lra|].
    rewrite (val_fin _ Fd), Vd, Vm.
    replace (bpow radix2 (-50)) with (8 * u) by (unfold u; change 8 with (bpow radix2 3); rewrite <- bpow_plus; reflexivity).
    set (q := C * y) in *.
    apply Rle_trans with (q * (1 + u) * (1 + u)).
    - apply Rle_trans with (w * (1 + u)); [lra|]. apply Rmult_le_compat_r; [lra|].
      replace (q * (1 + u)) with (C * (y * (1 + u))) by (unfold q; ring). exact L2.
    - apply Rle_trans with (q * (1 - u) * (1 + 8 * u)); [|apply Rmult_le_compat_r; lra].
      rewrite !Rmult_assoc. apply Rmult_le_compat_l; [lra|]. nra.
  Qed.
End Pos.
