(** * Horner chains with positive coefficients keep relative accuracy *)

From Coq Require Import ZArith Reals Bool Lra Lia List.
From Flocq Require Import Core IEEE754.BinarySingleNaN IEEE754.Binary IEEE754.Bits.
From Flocq Require Import Relative Plus_error.
From Verif.Model Require Import Base Arith.
From Verif.Float Require Import Bits64 Ieee Exact.
From Verif.Spec Require Import F64Spec Outcome.
From Verif.Proofs Require Import F64 F64Ops Lits Ext ExpBounds FlErr GammaAcc GserAcc HornerErr PolyZ BesselRat.
Import ListNotations.
Open Scope R_scope.
Local Notation exp := Rtrigo_def.exp.

(** ** Real facts *)

Lemma mr_0 : forall t b, mr t 0 b -> b = 0.
Proof. intros t b (d & _ & E). pose proof (exp_pos d). symmetry in E. apply Rmult_integral in E. destruct E; [assumption|lra]. Qed.
Lemma mr_pos : forall t a b, mr t a b -> 0 < b -> 0 < a.
Proof. intros t a b (d & _ & ->) Hb. apply Rmult_lt_0_compat; [exact Hb|apply exp_pos]. Qed.
Lemma mr_nonneg : forall t a b, mr t a b -> 0 <= b -> 0 <= a.
Proof. intros t a b (d & _ & ->) Hb. apply Rmult_le_pos; [exact Hb|left; apply exp_pos]. Qed.
Lemma mr_t0 : forall t a b, mr t a b -> 0 <= t.
Proof. intros t a b (d & H & _). pose proof (Rabs_pos d). lra. Qed.

(** sums of nonnegative numbers *)
Lemma mr_add0 : forall t a b a' b', 0 <= b -> 0 < b' -> mr t a b -> mr t a' b' -> mr t (a + a') (b + b').
Proof.
  intros t a b a' b' Hb Hb' M M'. destruct Hb as [Hb|<-].
  - apply mr_add; assumption.
  - destruct M as (d & _ & ->). rewrite Rmult_0_l, !Rplus_0_l. exact M'.
Qed.
Lemma mr_scale : forall t a b c, mr t a b -> mr t (a * c) (b * c).
Proof. intros t a b c (d & Hd & ->). exists d. split; [exact Hd|ring]. Qed.
Lemma mr_scale_l : forall t a b c, mr t a b -> mr t (c * a) (c * b).
Proof. intros t a b c (d & Hd & ->). exists d. split; [exact Hd|ring]. Qed.

Definition okd (c : dec) : bool := (dz_ok 60 c && (0 <? dz 60 c) && (dz 60 c <=? 10 ^ 60))%Z%bool.

Lemma okd_range : forall c, okd c = true -> / 2 ^ 200 <= R_of_dec c <= 1.
Proof.
  intros c H. unfold okd in H. apply andb_prop in H. destruct H as [H H3]. apply andb_prop in H. destruct H as [H1 H2].
  apply Z.ltb_lt in H2. apply Z.leb_le in H3. rewrite (dz_eq 60 c ltac:(lia) H1).
  assert (T : 0 < IZR (10 ^ 60)) by (apply IZR_lt; reflexivity).
  assert (L : (1 <= dz 60 c)%Z) by lia. apply IZR_le in L, H3. split.
  - apply Rle_trans with (1 / IZR (10 ^ 60)).
    + unfold Rdiv. rewrite Rmult_1_l. apply Rinv_le_contravar; [exact T|]. rewrite pow_IZR. apply IZR_le. vm_compute. discriminate.
    + unfold Rdiv. apply Rmult_le_compat_r; [left; apply Rinv_0_lt_compat, T|exact L].
  - apply Rmult_le_reg_r with (IZR (10 ^ 60)); [exact T|]. unfold Rdiv. rewrite Rmult_assoc, Rinv_l by lra. lra.
Qed.

Lemma tab_pos : forall l x, forallb okd l = true -> l <> [] -> 0 <= x -> 0 < tab l x.
Proof.
  intros l x H N Hx. induction l as [|c l IH]; [congruence|]. cbn [forallb] in H. apply andb_prop in H. destruct H as [H1 H2].
  change (tab (c :: l) x) with (R_of_dec c + x * tab l x). destruct (okd_range c H1) as [C1 _].
  assert (0 < / 2 ^ 200) by (apply Rinv_0_lt_compat, pow_lt; lra).
  destruct l as [|c' l]; [change (tab [] x) with 0; lra|]. specialize (IH H2 ltac:(discriminate)).
  assert (0 <= x * tab (c' :: l) x) by (apply Rmult_le_pos; lra). lra.
Qed.
Lemma tab_nonneg : forall l x, forallb okd l = true -> 0 <= x -> 0 <= tab l x.
Proof. intros [|c l] x H Hx; [change (0 <= 0); lra|]. left. apply tab_pos; [exact H|discriminate|exact Hx]. Qed.
Lemma tab_mono : forall l x y, forallb okd l = true -> 0 <= x <= y -> tab l x <= tab l y.
Proof.
  induction l as [|c l IH]; intros x y H Hx; [change (0 <= 0); lra|]. cbn [forallb] in H. apply andb_prop in H. destruct H as [_ H2].
  change (tab (c :: l) x) with (R_of_dec c + x * tab l x). change (tab (c :: l) y) with (R_of_dec c + y * tab l y).
  specialize (IH x y H2 Hx). pose proof (tab_nonneg l x H2 ltac:(lra)).
  assert (x * tab l x <= y * tab l y) by (apply Rmult_le_compat; lra). lra.
Qed.

(** the argument may be perturbed *)
Lemma tab_mr : forall l t a b, forallb okd l = true -> 0 <= b -> mr t a b -> mr (INR (length l) * t) (tab l a) (tab l b).
Proof.
  intros l t a b H Hb M. pose proof (mr_t0 _ _ _ M) as T0. pose proof (mr_nonneg _ _ _ M Hb) as Ha.
  induction l as [|c l IH].
  - change (tab [] a) with 0. change (tab [] b) with 0. apply mr_refl. simpl. lra.
  - cbn [forallb] in H. apply andb_prop in H. destruct H as [H1 H2]. specialize (IH H2).
    change (tab (c :: l) a) with (R_of_dec c + a * tab l a). change (tab (c :: l) b) with (R_of_dec c + b * tab l b).
    rewrite !(Rplus_comm (R_of_dec c)). destruct (okd_range c H1) as [C1 _].
    assert (0 < / 2 ^ 200) by (apply Rinv_0_lt_compat, pow_lt; lra).
    cbn [length]. rewrite S_INR. pose proof (pos_INR (length l)).
    assert (0 <= INR (length l) * t) by (apply Rmult_le_pos; lra).
    apply mr_add0; [apply Rmult_le_pos; [exact Hb|apply tab_nonneg; assumption]|lra| |].
    + replace ((INR (length l) + 1) * t) with (t + INR (length l) * t) by ring. apply mr_mul; assumption.
    + apply mr_refl. lra.
Qed.

Lemma tab_rev : forall l x, tab l x = fold_left (fun a c => R_of_dec c + x * a) (rev l) 0.
Proof. intros l x. unfold tab. rewrite <- (rev_involutive l) at 1. rewrite fold_left_rev_right. reflexivity. Qed.

(** ** One step *)

(** sums of finite numbers have a relative error without exception *)
Lemma plus_rel : forall a b, fmt a -> fmt b -> Rabs (rnd (a + b) - (a + b)) <= uu * Rabs (a + b).
Proof.
  intros a b Fa Fb.
  destruct (FLT_plus_error_N_ex radix2 (-1074) 53 (fun x => negb (Z.even x)) a b) as (e & He & E).
  - exact Fa.
  - exact Fb.
  - change (rnd (a + b)) with (round radix2 (FLT_exp (-1074) 53) ZnearestE (a + b)). rewrite E.
    replace ((a + b) * (1 + e) - (a + b)) with (e * (a + b)) by ring. rewrite Rabs_mult. apply Rmult_le_compat_r; [apply Rabs_pos|].
    eapply Rle_trans; [exact He|]. unfold u_ro. assert (U : 0 < / 2 * bpow radix2 (- (53) + 1)) by (apply Rmult_lt_0_compat; [lra|apply bpow_gt_0]).
    apply Rle_trans with (/ 2 * bpow radix2 (- (53) + 1)).
    + apply Rmult_le_reg_r with (1 + / 2 * bpow radix2 (- (53) + 1)); [lra|]. unfold Rdiv at 1. rewrite Rmult_assoc, Rinv_l by lra. nra.
    + unfold uu. simpl. lra.
Qed.

Section Fl.
  Context (P : platform).

  Lemma add_rel : forall x y, fin x -> fin y -> Rabs (val x + val y) <= bpow radix2 1000 ->
    fin (f64_add P x y) /\ mr vv (val (f64_add P x y)) (val x + val y).
  Proof.
    intros x y Fx Fy H. destruct (add_fl P x y Fx Fy H) as [F _]. split; [exact F|].
    pose proof (add_spec P x y Fx Fy) as R. rewrite <- (val_fin x Fx), <- (val_fin y Fy) in R.
    destruct (rounds_small _ _ R) as [_ V].
    { rewrite <- rnd_abs. apply Rle_lt_trans with (bpow radix2 1000); [apply rnd_le_fmt; [apply fmt_bpow; lia|exact H]|unfold Om; apply bpow_lt; lia]. }
    rewrite (val_fin _ F), V. apply mr_weak with (uu + 2 * (uu * uu)); [unfold vv, uu; lra|].
    apply mr_of_rel; [unfold uu; lra|]. apply plus_rel; rewrite val_fin by assumption; apply fmt_B2R.
  Qed.
  Lemma sub_rel : forall x y, fin x -> fin y -> Rabs (val x - val y) <= bpow radix2 1000 ->
    fin (f64_sub P x y) /\ mr vv (val (f64_sub P x y)) (val x - val y).
  Proof.
    intros x y Fx Fy H. destruct (sub_fl P x y Fx Fy H) as [F _]. split; [exact F|].
    pose proof (sub_spec P x y Fx Fy) as R. rewrite <- (val_fin x Fx), <- (val_fin y Fy) in R.
    destruct (rounds_small _ _ R) as [_ V].
    { rewrite <- rnd_abs. apply Rle_lt_trans with (bpow radix2 1000); [apply rnd_le_fmt; [apply fmt_bpow; lia|exact H]|unfold Om; apply bpow_lt; lia]. }
    rewrite (val_fin _ F), V. apply mr_weak with (uu + 2 * (uu * uu)); [unfold vv, uu; lra|].
    apply mr_of_rel; [unfold uu; lra|]. unfold Rminus at 1 3 4. apply plus_rel; [|apply fmt_opp]; rewrite val_fin by assumption; apply fmt_B2R.
  Qed.

  (** a product, and a sum with a number that is not tiny *)
  Lemma step_core : forall ax c m s, 0 <= ax <= bpow radix2 500 -> / 2 ^ 201 <= c <= 2 ->
    Rabs (m - ax) <= uu * ax + eta -> mr vv s (m + c) -> mr (3 * vv) s (ax + c).
  Proof.
    intros ax c m s Ha Hc Hm Hs. pose proof eta_small as ES. pose proof eta_pos as E0.
    assert (T : eta <= / 10 ^ 30 * / 2 ^ 201).
    { unfold eta. apply Rle_trans with (bpow radix2 (-400)); [apply bpow_le; lia|].
      change (-400)%Z with (Z.opp 400). rewrite bpow_opp. rewrite <- Rinv_mult. apply Rinv_le_contravar; [apply Rmult_lt_0_compat; apply pow_lt; lra|].
      rewrite !pow_IZR, <- mult_IZR, bpow2_nonneg_IZR by lia. apply IZR_le. vm_compute. discriminate. }
    assert (C0 : 0 < / 2 ^ 201) by (apply Rinv_0_lt_compat, pow_lt; lra).
    replace (3 * vv) with (vv + 2 * vv) by ring. eapply mr_trans; [exact Hs|].
    set (q := / 2 ^ 201) in *. clearbody q.
    apply mr_weak with (12 / 10 * uu + 2 * ((12 / 10 * uu) * (12 / 10 * uu))); [unfold vv, uu; lra|].
    apply mr_of_rel; [unfold uu; lra|]. rewrite (Rabs_pos_eq (ax + c)) by lra.
    replace (m + c - (ax + c)) with (m - ax) by ring. eapply Rle_trans; [exact Hm|].
    assert (eta <= uu * c) by (unfold uu; lra).
    assert (0 <= uu * ax) by (apply Rmult_le_pos; unfold uu; lra).
    replace (12 / 10 * uu * (ax + c)) with (12 / 10 * (uu * ax) + 12 / 10 * (uu * c)) by ring.
    assert (0 <= uu * c) by (apply Rmult_le_pos; unfold uu; lra). lra.
  Qed.

  Lemma lit_mr : forall c, okd c = true -> fin (f64_lit c) /\ mr vv (val (f64_lit c)) (R_of_dec c) /\ / 2 ^ 201 <= val (f64_lit c) <= 2.
  Proof.
    intros c H. destruct (okd_range c H) as [C1 C2].
    assert (C0 : 0 < / 2 ^ 200) by (apply Rinv_0_lt_compat, pow_lt; lra).
    destruct (rnd_mr (f64_lit c) (R_of_dec c) (lit_spec c)) as [F M].
    { rewrite Rabs_pos_eq by lra. split.
      - eapply Rle_trans; [|exact C1]. replace (/ 2 ^ 200) with (bpow radix2 (-200)); [apply bpow_le; lia|].
        change (-200)%Z with (Z.opp 200). rewrite bpow_opp. f_equal. rewrite pow_IZR, bpow2_nonneg_IZR by lia. reflexivity.
      - eapply Rle_trans; [exact C2|]. change 1 with (bpow radix2 0). apply bpow_le. lia. }
    split; [exact F|split; [exact M|]]. pose proof (mr_pos _ _ _ M ltac:(lra)) as L.
    apply mr_le in M; [|unfold vv; lra]. rewrite (Rabs_pos_eq (R_of_dec c)), (Rabs_pos_eq (val _)) in M by lra.
    replace (/ 2 ^ 201) with (/ 2 ^ 200 / 2); [lra|]. replace (2 ^ 201) with (2 ^ 200 * 2) by (rewrite <- (pow_1 2) at 2; rewrite <- pow_add; reflexivity).
    field.
  Qed.

  (** ** The chain: [comb] is either order of the operands *)
  Definition comb_ok (comb : f64 -> f64 -> f64 -> f64) : Prop :=
    (forall a x c, comb a x c = f64_add P (f64_mul P a x) c) \/ (forall a x c, comb a x c = f64_add P c (f64_mul P x a)).

  Lemma comb_step : forall comb, comb_ok comb -> forall a x c, fin a -> fin x -> okd c = true ->
    0 <= val x <= 256 -> 0 < val a <= bpow radix2 490 ->
    fin (comb a x (f64_lit c)) /\ mr (3 * vv) (val (comb a x (f64_lit c))) (val a * val x + val (f64_lit c)).
  Proof.
    intros comb Hc a x c Fa Fx Oc Hx Ha. destruct (lit_mr c Oc) as (Fl & Ml & Bl).
    assert (AX : 0 <= val a * val x <= bpow radix2 498).
    { split; [apply Rmult_le_pos; lra|]. replace (bpow radix2 498) with (bpow radix2 490 * 256) by (change 256 with (bpow radix2 8); rewrite <- bpow_plus; reflexivity).
      apply Rmult_le_compat; lra. }
    assert (B498 : bpow radix2 498 <= bpow radix2 500 / 4) by (apply Req_le; change 4 with (bpow radix2 2); replace (bpow radix2 500) with (bpow radix2 498 * bpow radix2 2) by (rewrite <- bpow_plus; reflexivity); field; apply Rgt_not_eq, bpow_gt_0).
    assert (B500 : bpow radix2 500 <= bpow radix2 1000) by (apply bpow_le; lia).
    assert (B5 : 16 <= bpow radix2 500) by (change 16 with (bpow radix2 4); apply bpow_le; lia).
    pose proof eta_small as ES. pose proof eta_pos as E0. pose proof B500 as B500'.
    assert (U1 : uu <= / 1000) by (unfold uu; lra). assert (U0 : 0 < uu) by (unfold uu; lra).
    assert (ES1 : eta <= 1) by lra. clear ES.
    assert (Gen : forall m, fin m -> Rabs (val m - val a * val x) <= uu * Rabs (val a * val x) + eta ->
       Rabs (val m + val (f64_lit c)) <= bpow radix2 1000 /\ Rabs (val m - val a * val x) <= uu * (val a * val x) + eta).
    { intros m _ Em. rewrite (Rabs_pos_eq (val a * val x)) in Em by lra. split; [|exact Em].
      assert (uu * (val a * val x) <= 1 * (val a * val x)) by (apply Rmult_le_compat_r; lra).
      apply Rabs_le_inv in Em. apply Rabs_le. lra. }
    destruct Hc as [Hc|Hc]; rewrite Hc.
    - destruct (mul_fl P a x Fa Fx) as [Fm Em]; [rewrite Rabs_pos_eq; lra|].
      destruct (Gen _ Fm Em) as [G1 G2]. destruct (add_rel _ _ Fm Fl G1) as [Fs Ms]. split; [exact Fs|].
      apply (step_core _ _ (val (f64_mul P a x))); [lra|lra|exact G2|exact Ms].
    - destruct (mul_fl P x a Fx Fa) as [Fm Em]; [rewrite Rmult_comm, Rabs_pos_eq; lra|]. rewrite (Rmult_comm (val x)) in Em.
      destruct (Gen _ Fm Em) as [G1 G2]. rewrite Rplus_comm in G1. destruct (add_rel _ _ Fl Fm G1) as [Fs Ms]. split; [exact Fs|].
      rewrite Rplus_comm in Ms. apply (step_core _ _ (val (f64_mul P x a))); [lra|lra|exact G2|exact Ms].
  Qed.

  Lemma comb_chain : forall comb, comb_ok comb -> forall x, fin x -> 0 <= val x <= 256 ->
    forall cs (n : nat) a ra, forallb okd cs = true -> (n + length cs <= 40)%nat -> fin a ->
    0 < ra <= bpow radix2 (9 * Z.of_nat n + 1) -> mr ((4 * INR n + 1) * vv) (val a) ra ->
    let r := fold_left (fun acc c => comb acc x (f64_lit c)) cs a in
    fin r /\ mr ((4 * INR (n + length cs) + 1) * vv) (val r) (fold_left (fun a c => R_of_dec c + val x * a) cs ra).
  Proof.
    intros comb Hc x Fx Hx. induction cs as [|c cs IH]; intros n a ra Ok Hn Fa Hra Ma.
    - cbn [fold_left length]. rewrite Nat.add_0_r. split; assumption.
    - cbn [forallb] in Ok. apply andb_prop in Ok. destruct Ok as [O1 O2]. cbn [length fold_left] in *.
      replace (n + S (length cs))%nat with (S n + length cs)%nat by lia.
      assert (N40 : 0 <= INR n <= 40).
      { split; [apply pos_INR|]. replace 40 with (INR 40) by (simpl; lra). apply le_INR. lia. }
      assert (V0 : 0 < vv) by (unfold vv; lra).
      assert (Vt : (4 * INR n + 1) * vv <= 1 / 1000) by (apply Rle_trans with (161 * vv); [apply Rmult_le_compat_r; lra|unfold vv; lra]).
      pose proof (mr_pos _ _ _ Ma ltac:(lra)) as Pa.
      destruct (mr_near _ _ _ Ma ltac:(split; [apply Rmult_le_pos; lra|exact Vt]) ltac:(lra)) as [_ Ua].
      assert (Ba : val a <= bpow radix2 490).
      { apply Rle_trans with (ra * 2); [eapply Rle_trans; [exact Ua|]; apply Rmult_le_compat_l; lra|].
        apply Rle_trans with (bpow radix2 (9 * Z.of_nat n + 1) * 2); [lra|]. change 2 with (bpow radix2 1). rewrite <- bpow_plus. apply bpow_le. lia. }
      destruct (comb_step comb Hc a x c Fa Fx O1 Hx ltac:(lra)) as [Fs Ms].
      destruct (lit_mr c O1) as (Fl & Ml & Bl). destruct (okd_range c O1) as [C1 C2].
      assert (C0 : 0 < / 2 ^ 200) by (apply Rinv_0_lt_compat, pow_lt; lra).
      apply IH; try assumption; try lia.
      + split; [apply Rplus_lt_le_0_compat; [lra|apply Rmult_le_pos; lra]|].
        assert (val x * ra <= 256 * bpow radix2 (9 * Z.of_nat n + 1)) by (apply Rmult_le_compat; lra).
        replace (9 * Z.of_nat (S n) + 1)%Z with (8 + (9 * Z.of_nat n + 1) + 1)%Z by lia. rewrite !bpow_plus.
        change (bpow radix2 8) with 256. change (bpow radix2 1) with 2.
        assert (1 <= bpow radix2 (9 * Z.of_nat n)) by (change 1 with (bpow radix2 0); apply bpow_le; lia).
        rewrite bpow_plus in H. change (bpow radix2 1) with 2 in H. lra.
      + rewrite S_INR. replace ((4 * (INR n + 1) + 1) * vv) with (3 * vv + (4 * INR n + 1 + 1) * vv) by ring.
        eapply mr_trans; [exact Ms|]. rewrite (Rplus_comm (R_of_dec c)), (Rmult_comm (val x)).
        apply mr_add0; [apply Rmult_le_pos; lra|lra| |].
        * apply mr_scale. apply mr_weak with ((4 * INR n + 1) * vv); [apply Rmult_le_compat_r; lra|exact Ma].
        * apply mr_weak with (1 * vv); [apply Rmult_le_compat_r; lra|]. rewrite Rmult_1_l. exact Ml.
  Qed.

  (** the whole evaluation, from the last coefficient down *)
  Lemma tab_fl : forall comb, comb_ok comb -> forall x, fin x -> 0 <= val x <= 256 ->
    forall l c cs, rev l = c :: cs -> forallb okd l = true -> (length l <= 40)%nat ->
    let r := fold_left (fun acc c => comb acc x (f64_lit c)) cs (f64_lit c) in
    fin r /\ mr (4 * INR (length l) * vv) (val r) (tab l (val x)).
  Proof.
    intros comb Hc x Fx Hx l c cs E Ok Hl.
    assert (Ok' : forallb okd (c :: cs) = true).
    { rewrite <- E. apply forallb_forall. intros d Hd. rewrite forallb_forall in Ok. apply Ok, in_rev, Hd. }
    cbn [forallb] in Ok'. apply andb_prop in Ok'. destruct Ok' as [O1 O2].
    assert (Len : length l = S (length cs)) by (rewrite <- (rev_length l), E; reflexivity).
    destruct (lit_mr c O1) as (Fl & Ml & Bl). destruct (okd_range c O1) as [C1 C2].
    assert (C0 : 0 < / 2 ^ 200) by (apply Rinv_0_lt_compat, pow_lt; lra).
    destruct (comb_chain comb Hc x Fx Hx cs 0%nat (f64_lit c) (R_of_dec c) O2 ltac:(lia) Fl) as [F M].
    { change (bpow radix2 (9 * Z.of_nat 0 + 1)) with 2. lra. }
    { simpl (INR 0). replace ((4 * 0 + 1) * vv) with vv by ring. exact Ml. }
    split; [exact F|]. rewrite tab_rev, E. cbn [fold_left]. rewrite Rmult_0_r, Rplus_0_r.
    eapply mr_weak; [|exact M]. rewrite Nat.add_0_l, Len, S_INR. assert (0 < vv) by (unfold vv; lra).
    apply Rmult_le_compat_r; [lra|]. lra.
  Qed.
End Fl.
