(** * Accuracy of erfcx on [1/8, 12] *)

From Coq Require Import ZArith Reals Bool Lra Lia List.
From Flocq Require Import Core IEEE754.BinarySingleNaN IEEE754.Binary IEEE754.Bits.
From Verif.Model Require Import Base Arith Utils ErrorTables Error.
From Verif.Float Require Import Bits64 Ieee Exact.
From Verif.Spec Require Import F64Spec Outcome ErfSpec.
From Verif.Proofs Require Import F64 F64Ops Lits Poly PolyZ Horner HornerErr PiBounds ErfcODE ErfcxChain ErfcxSafe ErfcxPos.
Import ListNotations.
Open Scope R_scope.

Notation entry := (dec * dec * dec * dec * dec * dec * dec * dec * (dec * dec))%type.

Definition row_decs (e : entry) : dec * list dec :=
  let '(c0, c1, c2, c3, c4, c5, c6, c7, (q0, q1)) := e in
  (c7, [c6; c5; c4; c3; c2; c1; c0; q1; q0]).
Definition row_zs (e : entry) : list Z := let (c, cs) := row_decs e in rev (map (dz SC) (c :: cs)).

Definition table_rows : list (list Z) := map row_zs (firstn 416 entries).

(** the value of the last row at x = 12, and a bound on its error *)
Definition V12 : Z := zeval (-1) (match nth_error entries 416 with Some e => row_zs e | None => [] end).
Definition M12 : Z := (10 ^ 33)%Z.

(** relative error 2^-46 for a row whose polynomial is within [i] of the function *)
Definition row_fine (e : entry) (i : Z) : bool :=
  let (c, cs) := row_decs e in
  let zs := row_zs e in
  let h := hor_w SC c cs in
  forallb (dz_ok SC) (c :: cs) && (h <=? 2 ^ 25 * DD)%Z && (0 <=? i)%Z &&
  (i * 2 ^ 51 + h + DD <=? 2 ^ 5 * (hd 0 zs - pnorm (tl zs) - i))%Z.

Definition V8 : Z := 87322184508215080351981338728159707257903428900000.
Definition M8 : Z := (716694 * 10 ^ 30)%Z.

Definition table_chk (c : Z * Z * list Z) : bool :=
  let '(V, M, L) := c in
  (V =? V8)%Z && (M <=? M8)%Z && forallb (fun x => row_fine (fst x) (snd x)) (combine entries (L ++ [M12])).

Lemma table_ok : table_chk (chain 0 table_rows V12 M12) = true.
Proof. vm_cast_no_check (eq_refl true). Qed.

Lemma table_chk_ok : forall c, table_chk c = true -> exists V M L, c = (V, M, L) /\ V = V8 /\ (M <= M8)%Z /\
  forallb (fun x => row_fine (fst x) (snd x)) (combine entries (L ++ [M12])) = true.
Proof.
  intros [[V M] L] H. unfold table_chk in H. apply andb_prop in H. destruct H as [H H3]. apply andb_prop in H. destruct H as [H1 H2].
  apply Z.eqb_eq in H1. apply Z.leb_le in H2. exists V, M, L. auto.
Qed.

Lemma asy11_12 : asy 11 12 = / R_sqrt.sqrt Rtrigo1.PI * (48299736663284444204899 / 581595589965365114830848).
Proof.
  cbn [asy ac]. set (i := / R_sqrt.sqrt Rtrigo1.PI).
  replace (INR 0) with 0 by reflexivity. replace (INR 1) with 1 by reflexivity. replace (INR 2) with 2 by reflexivity.
  replace (INR 3) with 3 by (simpl; lra). replace (INR 4) with 4 by (simpl; lra).
  replace (INR 5) with 5 by (simpl; lra). replace (INR 6) with 6 by (simpl; lra).
  replace (INR 7) with 7 by (simpl; lra). replace (INR 8) with 8 by (simpl; lra).
  replace (INR 9) with 9 by (simpl; lra).
  cbn [Nat.add Nat.mul pow]. lra.
Qed.

Lemma ac_11_12 : Rabs (ac 11) * (/ 12) ^ (2 * 11 + 1) = / R_sqrt.sqrt Rtrigo1.PI * (56581525 / 55833176636675051023761408).
Proof.
  assert (A : ac 11 = - (/ R_sqrt.sqrt Rtrigo1.PI * (13749310575 / 2048))).
  { cbn [ac]. set (i := / R_sqrt.sqrt Rtrigo1.PI).
    replace (INR 0) with 0 by reflexivity. replace (INR 1) with 1 by reflexivity. replace (INR 2) with 2 by reflexivity.
    replace (INR 3) with 3 by (simpl; lra). replace (INR 4) with 4 by (simpl; lra).
    replace (INR 5) with 5 by (simpl; lra). replace (INR 6) with 6 by (simpl; lra).
    replace (INR 7) with 7 by (simpl; lra). replace (INR 8) with 8 by (simpl; lra).
    replace (INR 9) with 9 by (simpl; lra). replace (INR 10) with 10 by (simpl; lra). lra. }
  assert (I : 0 < / R_sqrt.sqrt Rtrigo1.PI) by apply Rinv_0_lt_compat, sqrtPI_pos.
  rewrite A, Rabs_Ropp, Rabs_pos_eq by lra. cbn [Nat.add Nat.mul pow]. lra.
Qed.

Lemma V12_value : V12 = 4685422101489375658112306909004314087000000000000%Z.
Proof. vm_compute. reflexivity. Qed.

Lemma some_inj : forall {A} (a b : A), Some a = Some b -> a = b.
Proof. intros A a b H. injection H. auto. Qed.

Lemma row_final : forall r W p d I Hh zz zn, 0 < d ->
  Rabs (r - p / d) <= / 2 ^ 51 * (Hh / d) + / 2 ^ 61 -> Rabs (p / d - W) <= I / d -> zz - zn <= p ->
  I * 2251799813685248 + Hh + d <= 32 * (zz - zn - I) -> Rabs (r - W) <= / 2 ^ 46 * W.
Proof.
  intros r W p d I Hh zz zn DP Er Hi PL F4.
  assert (WL : (p - I) / d <= W).
  { apply Rabs_le_inv in Hi. unfold Rdiv in *. rewrite Rmult_minus_distr_r. lra. }
  apply Rle_trans with ((I * 2251799813685248 + Hh + d) / 2251799813685248 / d).
  - replace (r - W) with ((r - p / d) + (p / d - W)) by ring. eapply Rle_trans; [apply Rabs_triang|].
    replace ((I * 2251799813685248 + Hh + d) / 2251799813685248 / d) with
      (/ 2251799813685248 * (Hh / d) + / 2251799813685248 + I / d) by (field; lra).
    assert (/ 2 ^ 51 = / 2251799813685248) by (f_equal; simpl; lra).
    assert (/ 2 ^ 61 <= / 2251799813685248) by (simpl; lra). rewrite H in Er. lra.
  - apply Rle_trans with (/ 2 ^ 46 * ((p - I) / d)); [|apply Rmult_le_compat_l; [simpl; lra|exact WL]].
    replace (/ 2 ^ 46 * ((p - I) / d)) with ((32 * (p - I)) / 2251799813685248 / d) by (simpl; field; lra).
    unfold Rdiv. apply Rmult_le_compat_r; [apply Rlt_le, Rinv_0_lt_compat, DP|].
    apply Rmult_le_compat_r; lra.
Qed.


Section Table.
  Context (E : R -> R) (HE : erfc_function E).
  Notation w := (scaled_erfc E).

  Lemma V12_ok : Rabs (IZR V12 / IZR DD - w (row_x 416 (-1))) <= IZR M12 / IZR DD.
  Proof.
    assert (X : row_x 416 (-1) = 12).
    { unfold row_x, row_h, row_e, row_c. change (416 / 64 - 10)%Z with (-4)%Z.
      change (2 * (64 + 416 mod 64) + 1)%Z with 193%Z. simpl (bpow radix2 (-4)). lra. }
    rewrite X, V12_value. pose proof (asy_error E HE 11 12 ltac:(lra)) as A.
    rewrite asy11_12, ac_11_12 in A. pose proof isp_bounds as [L U]. unfold isp70 in L, U.
    set (i := / R_sqrt.sqrt Rtrigo1.PI) in *. clearbody i. set (W := w 12) in *. clearbody W.
    change (2 ^ 70)%Z with 1180591620717411303424%Z in L, U.
    change DD with 100000000000000000000000000000000000000000000000000%Z.
    change M12 with 1000000000000000000000000000000000%Z.
    apply Rabs_le_inv in A. apply Rabs_le. lra.
  Qed.

  (** what the check gives for each subinterval *)
  Lemma table_acc : exists V M L, chain 0 table_rows V12 M12 = (V, M, L) /\ V = V8 /\ (M <= M8)%Z /\
    forallb (fun x => row_fine (fst x) (snd x)) (combine entries (L ++ [M12])) = true.
  Proof.
    apply table_chk_ok. exact table_ok.
  Qed.

  Lemma w_8 : Rabs (IZR V8 / IZR DD - w (1 / 8)) <= IZR M8 / IZR DD.
  Proof.
    destruct table_acc as (V & M & L & C & -> & HM & _).
    destruct (chain_ok E HE table_rows 0 V12 M12 V8 M L ltac:(lia)) as [H _]; [|exact C|].
    - replace (0 + Z.of_nat (length table_rows))%Z with 416%Z by (unfold table_rows; vm_compute; reflexivity). exact V12_ok.
    - replace (1 / 8) with (row_x 0 (-1)).
      + eapply Rle_trans; [exact H|]. unfold Rdiv. apply Rmult_le_compat_r; [apply Rlt_le, Rinv_0_lt_compat, DD_pos|].
        apply IZR_le. exact HM.
      + unfold row_x, row_h, row_e, row_c. change (0 / 64 - 10)%Z with (-10)%Z.
        change (2 * (64 + 0 mod 64) + 1)%Z with 129%Z. simpl (bpow radix2 (-10)). lra.
  Qed.

  (** every row, as a real polynomial *)
  Lemma row_acc : forall k e, (k <= 416)%nat -> nth_error entries k = Some e -> exists i, row_fine e i = true /\
    forall t, -1 <= t <= 1 -> (k = 416%nat -> t = -1) ->
    Rabs (peval (row_zs e) t / IZR DD - w (row_x (Z.of_nat k) t)) <= IZR i / IZR DD.
  Proof.
    intros k e Hk He. destruct table_acc as (V & M & L & C & -> & HM & HF).
    assert (TL : length table_rows = 416%nat) by (vm_compute; reflexivity).
    assert (LL : length L = 416%nat).
    { rewrite <- TL. change L with (snd (V8, M, L)). rewrite <- C. apply chain_len. }
    rewrite forallb_forall in HF.
    assert (Hi : exists i, nth_error (L ++ [M12]) k = Some i).
    { destruct (nth_error (L ++ [M12]) k) as [i|] eqn:N; [exists i; reflexivity|].
      apply nth_error_None in N. rewrite app_length in N. cbn [length] in N. lia. }
    destruct Hi as [i Hi]. exists i. split.
    - apply (HF (e, i)). apply nth_error_In with k. clear - He Hi. revert k He Hi.
      generalize (L ++ [M12]). generalize entries. intros l. induction l as [|a l IH]; intros m k He Hi; [destruct k; discriminate He|].
      destruct m as [|b m]; [destruct k; discriminate Hi|]. destruct k as [|k].
      + cbn in He, Hi |- *. injection He as ->. injection Hi as ->. reflexivity.
      + cbn in He, Hi |- *. apply IH; assumption.
    - intros t Ht T. destruct (chain_ok E HE table_rows 0 V12 M12 V8 M L ltac:(lia)) as [_ H]; [|exact C|].
      { rewrite TL. exact V12_ok. }
      destruct (Nat.eq_dec k 416) as [->|Nk].
      + rewrite (T eq_refl). rewrite nth_error_app2 in Hi by lia. rewrite LL, Nat.sub_diag in Hi. cbn [nth_error] in Hi. apply some_inj in Hi. rewrite <- Hi.
        pose proof V12_ok as B. unfold V12 in B. rewrite He in B. rewrite <- peval_zeval in B. exact B.
      + rewrite nth_error_app1 in Hi by lia. apply (H k (row_zs e) i); try assumption.
        unfold table_rows. apply map_nth_error. rewrite nth_firstn by lia. exact He.
  Qed.

  Theorem table_erfcx : forall P (x : f64), fin x -> 1 / 8 <= Binary.B2R x <= 12 ->
    exists r, @cheb_interpolant (ieee P) x = Ok r /\ fin r /\
    Rabs (Binary.B2R r - w (Binary.B2R x)) <= / 2 ^ 46 * w (Binary.B2R x).
  Proof.
    intros P x Fx Hx. destruct (cheb_reduce_exact P x Fx Hx) as (ex & ip & t & He & Hip & Hn & Ft & Ht & Xt & ->).
    set (n := (ex * 64 + ip - -64)%Z) in *.
    set (k := Z.to_nat n). assert (Hk : (k <= 416)%nat) by (unfold k; lia).
    assert (En : n = Z.of_nat k) by (unfold k; lia).
    destruct (nth_error entries k) as [e|] eqn:Ek.
    2:{ apply nth_error_None in Ek. rewrite entries_len in Ek. lia. }
    assert (Xr : Binary.B2R x = row_x (Z.of_nat k) (Binary.B2R t)).
    { rewrite <- En. unfold row_x, row_h, row_e, row_c.
      replace (n / 64)%Z with (ex + 2)%Z by (apply (Z.div_unique_pos _ _ _ (ip - 64)); unfold n; lia).
      replace (n mod 64)%Z with (ip - 64)%Z by (apply (Z.mod_unique_pos _ _ (ex + 2)); unfold n; lia).
      replace (ex + 2 - 10)%Z with (ex - 8)%Z by lia. rewrite Xt. f_equal. f_equal.
      replace (2 * (64 + (ip - 64)) + 1)%Z with (1 + 2 * ip)%Z by lia. rewrite plus_IZR, mult_IZR. reflexivity. }
    apply Rabs_le_inv in Ht.
    destruct (row_acc k e Hk Ek) as (i & Fi & Hi).
    specialize (Hi (Binary.B2R t) Ht).
    assert (T1 : k = 416%nat -> Binary.B2R t = -1).
    { intros K4. rewrite K4 in Xr. unfold row_x, row_h, row_e, row_c in Xr. change (Z.of_nat 416) with 416%Z in Xr.
      change (416 / 64 - 10)%Z with (-4)%Z in Xr. change (2 * (64 + 416 mod 64) + 1)%Z with 193%Z in Xr.
      simpl (bpow radix2 (-4)) in Xr. lra. }
    specialize (Hi T1). rewrite <- Xr in Hi.
    destruct e as [[[[[[[[c0 c1] c2] c3] c4] c5] c6] c7] [q0 q1]].
    apply nth_combine in Ek. destruct Ek as [E1 E2].
    apply nth_chunks8 in E1. apply nth_chunks2 in E2.
    destruct E1 as (N0 & N1 & N2 & N3 & N4 & N5 & N6 & N7). destruct E2 as (M0 & M1).
    unfold cheb_poly.
    rewrite (index_nth _ (n * 8 + 7) c7) by (lia || (rewrite <- N7; f_equal; lia)). cbn [bind].
    rewrite (index_nth _ (n * 8 + 6) c6) by (lia || (rewrite <- N6; f_equal; lia)). cbn [bind].
    rewrite (index_nth _ (n * 8 + 5) c5) by (lia || (rewrite <- N5; f_equal; lia)). cbn [bind].
    rewrite (index_nth _ (n * 8 + 4) c4) by (lia || (rewrite <- N4; f_equal; lia)). cbn [bind].
    rewrite (index_nth _ (n * 8 + 3) c3) by (lia || (rewrite <- N3; f_equal; lia)). cbn [bind].
    rewrite (index_nth _ (n * 8 + 2) c2) by (lia || (rewrite <- N2; f_equal; lia)). cbn [bind].
    rewrite (index_nth _ (n * 8 + 1) c1) by (lia || (rewrite <- N1; f_equal; lia)). cbn [bind].
    rewrite (index_nth _ (n * 8) c0) by (lia || (rewrite <- N0; f_equal; lia)). cbn [bind].
    rewrite (index_nth _ (n * 2 + 1) q1) by (lia || (rewrite <- M1; f_equal; lia)). cbn [bind].
    rewrite (index_nth _ (n * 2) q0) by (lia || (rewrite <- M0; f_equal; lia)). cbn [bind].
    unfold row_fine, row_zs, row_decs in Fi. unfold row_zs, row_decs in Hi.
    apply andb_prop in Fi. destruct Fi as [Fi F4]. apply andb_prop in Fi. destruct Fi as [Fi F3].
    apply andb_prop in Fi. destruct Fi as [F1 F2]. apply Z.leb_le in F2, F3, F4.
    destruct (hor_werr P SC t c7 [c6; c5; c4; c3; c2; c1; c0; q1; q0] ltac:(unfold SC; lia) Ft) as [Fr Er].
    { apply Rabs_le. lra. } { exact F1. } { exact F2. } { cbn [length]. lia. }
    rewrite (rhor_peval SC _ _ _ ltac:(unfold SC; lia) F1) in Er.
    ieee_simpl.
    exists (hor P t (f64_lit c7) [c6; c5; c4; c3; c2; c1; c0; q1; q0]).
    split; [unfold hor; cbn [fold_left]; reflexivity|]. split; [exact Fr|].
    set (zs := rev (map (dz SC) [c7; c6; c5; c4; c3; c2; c1; c0; q1; q0])) in *.
    assert (Zs : exists z zt, zs = z :: zt) by (unfold zs; cbn [map rev app]; eauto).
    destruct Zs as (z & zt & Zs). rewrite Zs in *. cbn [hd tl] in F4.
    set (r := Binary.B2R (hor _ _ _ _)) in *. set (W := w (Binary.B2R x)) in *.
    set (h := hor_w SC c7 [c6; c5; c4; c3; c2; c1; c0; q1; q0]) in *. clearbody h r W.
    change (10 ^ SC)%Z with DD in Er. pose proof DD_pos as DP.
    assert (PL : IZR (z - pnorm zt) <= peval (z :: zt) (Binary.B2R t)).
    { rewrite peval_cons, minus_IZR. pose proof (peval_norm zt (Binary.B2R t) ltac:(apply Rabs_le; lra)) as B.
      assert (Rabs (Binary.B2R t * peval zt (Binary.B2R t)) <= IZR (pnorm zt)).
      { rewrite Rabs_mult, <- (Rmult_1_l (IZR (pnorm zt))). apply Rmult_le_compat; auto using Rabs_pos. apply Rabs_le. lra. }
      apply Rabs_le_inv in H. lra. }
    set (p := peval (z :: zt) (Binary.B2R t)) in *. clearbody p.
    assert (B51 : bpow radix2 (-51) = / 2 ^ 51) by (simpl; lra).
    assert (B61 : bpow radix2 (-61) = / 2 ^ 61) by (simpl; lra).
    rewrite B51, B61 in Er.
    apply IZR_le in F4. rewrite plus_IZR, plus_IZR, !mult_IZR, !minus_IZR in F4.
    rewrite minus_IZR in PL. change (IZR (2 ^ 51)) with 2251799813685248 in F4. change (IZR (2 ^ 5)) with 32 in F4.
    apply (row_final r W p (IZR DD) (IZR i) (IZR h) (IZR z) (IZR (pnorm zt))); assumption.
  Qed.
End Table.
