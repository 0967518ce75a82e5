(** * Rounding errors of the Clenshaw recurrence of erfccheb *)

From Coq Require Import ZArith Reals Bool Lra Lia List.
From Flocq Require Import Core IEEE754.BinarySingleNaN IEEE754.Binary IEEE754.Bits.
From Verif.Model Require Import Base Arith ErrorTables Error.
From Verif.Float Require Import Bits64 Ieee Exact.
From Verif.Spec Require Import F64Spec.
From Verif.Proofs Require Import F64 F64Ops Lits Ext Poly PolyZ HornerErr ErfccPoly.
Import ListNotations.
Open Scope R_scope.

(** errors and bounds are integers, in units of 2^-130 *)
Notation eps := (bpow radix2 (-130)).

Lemma eps_pos : 0 < eps.
Proof. apply bpow_gt_0. Qed.

Definition ulp53 (X : Z) : Z := (X / 2 ^ 53 + 2)%Z.

Lemma fl_unit : forall r a X, rounds r a -> Rabs a <= IZR X * eps -> (X <= 2 ^ 150)%Z ->
  fin r /\ Rabs (Binary.B2R r - a) <= IZR (ulp53 X) * eps.
Proof.
  intros r a X H Ha HX. pose proof eps_pos as EP. pose proof (rnd_abs_err a) as Re.
  assert (X0 : 0 <= IZR X).
  { pose proof (Rabs_pos a). apply (Rmult_le_reg_r eps); [exact EP|]. rewrite Rmult_0_l. lra. }
  assert (T : bpow radix2 (-1075) <= eps) by (apply bpow_le; lia).
  assert (Er : Rabs (rnd a - a) <= IZR (ulp53 X) * eps).
  { eapply Rle_trans; [exact Re|]. apply Rle_trans with (bpow radix2 (-53) * (IZR X * eps) + eps).
    - apply Rplus_le_compat; [|exact T]. apply Rmult_le_compat_l; [apply bpow_ge_0|exact Ha].
    - unfold ulp53. rewrite plus_IZR. 
      assert (Q : bpow radix2 (-53) * IZR X <= IZR (X / 2 ^ 53) + 1).
      { pose proof (Z.div_mod X (2 ^ 53) ltac:(lia)) as DM. pose proof (Z.mod_pos_bound X (2 ^ 53) ltac:(lia)) as MB.
        replace (bpow radix2 (-53)) with (/ IZR (2 ^ 53)) by reflexivity.
        assert (B : IZR X <= (IZR (X / 2 ^ 53) + 1) * IZR (2 ^ 53)).
        { rewrite <- (plus_IZR (X / 2 ^ 53) 1), <- mult_IZR. apply IZR_le. lia. }
        rewrite Rmult_comm. apply div_le; [apply IZR_lt; reflexivity|exact B]. }
      replace (bpow radix2 (-53) * (IZR X * eps) + eps) with ((bpow radix2 (-53) * IZR X + 1) * eps) by ring.
      apply Rmult_le_compat_r; [lra|]. lra. }
  destruct (rounds_small _ _ H) as [F V].
  - replace (rnd a) with (a + (rnd a - a)) by ring. eapply Rle_lt_trans; [apply Rabs_triang|].
    apply Rle_lt_trans with (2 * (bpow radix2 150 * 1)).
    + assert (XB : IZR X <= bpow radix2 150) by (apply IZR_le in HX; exact HX).
      assert (E1 : eps <= / 2 ^ 20) by (replace (/ 2 ^ 20) with (bpow radix2 (-20)) by (simpl; lra); apply bpow_le; lia).
      assert (IZR X * eps <= bpow radix2 150 * / 2 ^ 20) by (apply Rmult_le_compat; lra).
      assert (U0 : IZR (ulp53 X) <= IZR X + 2).
      { rewrite <- (plus_IZR X 2). apply IZR_le. unfold ulp53. apply le_IZR in X0.
        assert (X / 2 ^ 53 <= X)%Z by (apply Z.div_le_upper_bound; lia). lia. }
      assert (UP : 0 <= IZR (ulp53 X)).
      { apply IZR_le. unfold ulp53. apply le_IZR in X0. assert (0 <= X / 2 ^ 53)%Z by (apply Z.div_pos; lia). lia. }
      assert (B1 : 1 <= bpow radix2 150) by (change 1 with (bpow radix2 0); apply bpow_le; lia).
      assert (IZR (ulp53 X) * eps <= (bpow radix2 150 + 2) * / 2 ^ 20) by (apply Rmult_le_compat; lra).
      lra.
    + rewrite Rmult_1_r. change 2 with (bpow radix2 1) at 1. rewrite <- bpow_plus. unfold Om. apply bpow_lt. lia.
  - split; [exact F|]. rewrite V. exact Er.
Qed.

(** bound of a decimal constant *)
Definition cz (c : dec) : Z := (Z.abs (dz 20 c) * 2 ^ 130 / 10 ^ 20 + 1)%Z.
Lemma cz_ok : forall c, dz_ok 20 c = true -> Rabs (R_of_dec c) <= IZR (cz c) * eps.
Proof.
  intros c H. rewrite (dz_eq 20 c ltac:(lia) H). unfold Rdiv. rewrite Rabs_mult, <- abs_IZR.
  assert (TP : 0 < IZR (10 ^ 20)) by (apply IZR_lt; reflexivity).
  rewrite (Rabs_pos_eq (/ _)) by (left; apply Rinv_0_lt_compat, TP).
  apply div_le; [exact TP|]. replace eps with (/ IZR (2 ^ 130)) by reflexivity.
  assert (T2 : 0 < IZR (2 ^ 130)) by (apply IZR_lt; reflexivity).
  apply (Rmult_le_reg_r (IZR (2 ^ 130))); [exact T2|].
  replace (IZR (cz c) * / IZR (2 ^ 130) * IZR (10 ^ 20) * IZR (2 ^ 130)) with (IZR (cz c) * IZR (10 ^ 20)) by (field; lra).
  rewrite <- !mult_IZR. apply IZR_le. unfold cz. set (A := (Z.abs (dz 20 c) * 2 ^ 130)%Z).
  pose proof (Z.div_mod A (10 ^ 20) ltac:(lia)). pose proof (Z.mod_pos_bound A (10 ^ 20) ltac:(lia)). lia.
Qed.

(** (B1, e1) for d, (B0, e0) for dd *)
Definition cst := (Z * Z * Z * Z)%type.
Definition step (s : cst) (c : dec) : cst :=
  let '(B1, e1, B0, e0) := s in
  let m := (2 * e1 + ulp53 (2 * (B1 + e1)))%Z in
  let q := (m + e0 + ulp53 (2 * B1 + m + B0 + e0))%Z in
  let lc := ulp53 (cz c) in
  ((2 * B1 + B0 + cz c), (q + lc + ulp53 (2 * B1 + B0 + q + cz c + lc)), B1, e1)%Z.
Definition st_ok (s : cst) : bool :=
  let '(B1, e1, B0, e0) := s in ((B1 <=? 2 ^ 140) && (e1 <=? 2 ^ 140) && (B0 <=? 2 ^ 140) && (e0 <=? 2 ^ 140))%Z%bool.

Definition inv (s : cst) (d dd : f64) (D DD : R) : Prop :=
  let '(B1, e1, B0, e0) := s in
  fin d /\ fin dd /\ Rabs D <= IZR B1 * eps /\ Rabs (Binary.B2R d - D) <= IZR e1 * eps /\
  Rabs DD <= IZR B0 * eps /\ Rabs (Binary.B2R dd - DD) <= IZR e0 * eps.

Lemma units_plus : forall a b, (IZR a * eps + IZR b * eps = IZR (a + b) * eps)%R.
Proof. intros. rewrite plus_IZR. ring. Qed.
Lemma units_le : forall a b, (a <= b)%Z -> IZR a * eps <= IZR b * eps.
Proof. intros a b H. apply Rmult_le_compat_r; [left; apply eps_pos|apply IZR_le, H]. Qed.
Lemma units_sum : forall x y a b, Rabs x <= IZR a * eps -> Rabs y <= IZR b * eps -> Rabs (x + y) <= IZR (a + b) * eps.
Proof. intros. rewrite <- units_plus. eapply Rle_trans; [apply Rabs_triang|lra]. Qed.
Lemma units_diff : forall x y a b, Rabs x <= IZR a * eps -> Rabs y <= IZR b * eps -> Rabs (x - y) <= IZR (a + b) * eps.
Proof. intros. unfold Rminus. apply units_sum; [assumption|rewrite Rabs_Ropp; assumption]. Qed.
Lemma units_twice : forall t x a, Rabs t <= 2 -> Rabs x <= IZR a * eps -> Rabs (t * x) <= IZR (2 * a) * eps.
Proof.
  intros t x a Ht Hx. rewrite Rabs_mult, mult_IZR, Rmult_assoc. apply Rmult_le_compat; try apply Rabs_pos; assumption.
Qed.
Lemma units_pos : forall x a, Rabs x <= IZR a * eps -> (0 <= a)%Z.
Proof.
  intros x a H. apply le_IZR. apply (Rmult_le_reg_r eps); [apply eps_pos|]. pose proof (Rabs_pos x). lra.
Qed.
Lemma ulp53_le : forall X, (0 <= X <= 2 ^ 150)%Z -> (0 <= ulp53 X <= 2 ^ 97 + 2)%Z.
Proof.
  intros X H. unfold ulp53. assert (0 <= X / 2 ^ 53)%Z by (apply Z.div_pos; lia).
  assert (X / 2 ^ 53 <= 2 ^ 97)%Z by (apply Z.div_le_upper_bound; lia). lia.
Qed.

Section Clenshaw.
  Context (P : platform) (ty : f64) (Fty : fin ty) (Bty : Rabs (Binary.B2R ty) <= 2).
  Notation T := (Binary.B2R ty).

  (** ty * d *)
  Lemma mul_unit : forall d D B1 e1, fin d -> Rabs D <= IZR B1 * eps -> Rabs (Binary.B2R d - D) <= IZR e1 * eps ->
    (B1 <= 2 ^ 140)%Z -> (e1 <= 2 ^ 140)%Z ->
    let m := (2 * e1 + ulp53 (2 * (B1 + e1)))%Z in
    fin (f64_mul P ty d) /\ Rabs (Binary.B2R (f64_mul P ty d) - T * D) <= IZR m * eps /\ (0 <= m <= 2 ^ 142)%Z.
  Proof.
    intros d D B1 e1 Fd HD Hd H1 H2 m. pose proof (units_pos _ _ HD) as P1. pose proof (units_pos _ _ Hd) as P2.
    assert (Ad : Rabs (Binary.B2R d) <= IZR (B1 + e1) * eps).
    { replace (Binary.B2R d) with (D + (Binary.B2R d - D)) by ring. apply units_sum; assumption. }
    destruct (fl_unit _ _ (2 * (B1 + e1)) (mul_spec P ty d Fty Fd)) as [F E]; [apply units_twice; assumption|lia|].
    split; [exact F|]. split.
    - replace (Binary.B2R (f64_mul P ty d) - T * D) with (T * (Binary.B2R d - D) + (Binary.B2R (f64_mul P ty d) - T * Binary.B2R d)) by ring.
      apply units_sum; [apply units_twice; assumption|exact E].
    - unfold m. pose proof (ulp53_le (2 * (B1 + e1)) ltac:(lia)). lia.
  Qed.

  Lemma step_ok : forall s d dd D DD c, inv s d dd D DD -> st_ok s = true -> dz_ok 20 c = true -> (cz c <= 2 ^ 140)%Z ->
    inv (step s c) (f64_add P (f64_sub P (f64_mul P ty d) dd) (f64_lit c)) d (T * D - DD + R_of_dec c) D.
  Proof.
    intros [[[B1 e1] B0] e0] d dd D DD c (Fd & Fdd & HD & Hd & HDD & Hdd) Ok Oc Hc.
    unfold st_ok in Ok. apply andb_prop in Ok. destruct Ok as [Ok K4]. apply andb_prop in Ok. destruct Ok as [Ok K3].
    apply andb_prop in Ok. destruct Ok as [K1 K2]. apply Z.leb_le in K1, K2, K3, K4.
    unfold step. pose proof (units_pos _ _ HD) as P1. pose proof (units_pos _ _ Hd) as P2.
    pose proof (units_pos _ _ HDD) as P3. pose proof (units_pos _ _ Hdd) as P4.
    destruct (mul_unit d D B1 e1 Fd HD Hd K1 K2) as (Fm & Em & Bm).
    set (m := (2 * e1 + ulp53 (2 * (B1 + e1)))%Z) in *. set (mf := f64_mul P ty d) in *.
    assert (HTD : Rabs (T * D) <= IZR (2 * B1) * eps) by (apply units_twice; assumption).
    assert (Amd : Rabs (Binary.B2R mf - Binary.B2R dd) <= IZR (2 * B1 + m + B0 + e0) * eps).
    { replace (Binary.B2R mf - Binary.B2R dd) with (T * D + (Binary.B2R mf - T * D) - (DD + (Binary.B2R dd - DD))) by ring.
      replace (2 * B1 + m + B0 + e0)%Z with ((2 * B1 + m) + (B0 + e0))%Z by ring.
      apply units_diff; apply units_sum; assumption. }
    destruct (fl_unit _ _ _ (sub_spec P mf dd Fm Fdd) Amd ltac:(lia)) as [Fs Es].
    pose proof (ulp53_le (2 * B1 + m + B0 + e0) ltac:(lia)) as Us.
    set (sf := f64_sub P mf dd) in *. set (q := (m + e0 + ulp53 (2 * B1 + m + B0 + e0))%Z) in *.
    assert (Eq : Rabs (Binary.B2R sf - (T * D - DD)) <= IZR q * eps).
    { replace (Binary.B2R sf - (T * D - DD)) with
        (((Binary.B2R mf - T * D) - (Binary.B2R dd - DD)) + (Binary.B2R sf - (Binary.B2R mf - Binary.B2R dd))) by ring.
      unfold q. apply units_sum; [apply units_diff; assumption|exact Es]. }
    pose proof (cz_ok c Oc) as Ac. pose proof (units_pos _ _ Ac) as P5.
    destruct (fl_unit _ _ _ (lit_spec c) Ac ltac:(lia)) as [Fc Ec]. pose proof (ulp53_le (cz c) ltac:(lia)) as Uc.
    set (lc := ulp53 (cz c)) in *.
    assert (Aa : Rabs (Binary.B2R sf + Binary.B2R (f64_lit c)) <= IZR (2 * B1 + B0 + q + cz c + lc) * eps).
    { replace (Binary.B2R sf + Binary.B2R (f64_lit c)) with
        ((T * D - DD) + (Binary.B2R sf - (T * D - DD)) + R_of_dec c + (Binary.B2R (f64_lit c) - R_of_dec c)) by ring.
      do 3 (apply units_sum; [|assumption]). apply units_diff; assumption. }
    destruct (fl_unit _ _ _ (add_spec P sf (f64_lit c) Fs Fc) Aa ltac:(lia)) as [Fa Ea].
    split; [exact Fa|]. split; [exact Fd|]. split; [|split; [|split; assumption]].
    - apply units_sum; [apply units_diff; assumption|exact Ac].
    - set (af := f64_add P sf (f64_lit c)) in *.
      replace (Binary.B2R af - (T * D - DD + R_of_dec c)) with
        ((Binary.B2R sf - (T * D - DD)) + (Binary.B2R (f64_lit c) - R_of_dec c) + (Binary.B2R af - (Binary.B2R sf + Binary.B2R (f64_lit c)))) by ring.
      apply units_sum; [apply units_sum; assumption|exact Ea].
  Qed.

  Definition rclen (cs : list dec) (s : R * R) : R * R :=
    fold_left (fun (s : R * R) (c : dec) => (T * fst s - snd s + R_of_dec c, fst s)) cs s.

  Fixpoint run_ok (cs : list dec) (s : cst) : bool :=
    match cs with
    | [] => st_ok s
    | c :: cs' => (st_ok s && dz_ok 20 c && (cz c <=? 2 ^ 140)%Z && run_ok cs' (step s c))%bool
    end.
  Lemma run_inv : forall cs s d dd D DD, inv s d dd D DD -> run_ok cs s = true ->
    let f := fold_left (fun (s : f64 * f64) (c : dec) => (f64_add P (f64_sub P (f64_mul P ty (fst s)) (snd s)) (f64_lit c), fst s)) cs (d, dd) in
    let r := rclen cs (D, DD) in
    let s' := fold_left step cs s in
    inv s' (fst f) (snd f) (fst r) (snd r) /\ st_ok s' = true.
  Proof.
    induction cs as [|c cs IH]; intros s d dd D DD H Ok.
    - cbn [fold_left rclen fst snd]. auto.
    - cbn [run_ok] in Ok. apply andb_prop in Ok. destruct Ok as [Ok O4]. apply andb_prop in Ok. destruct Ok as [Ok O3].
      apply andb_prop in Ok. destruct Ok as [O1 O2]. apply Z.leb_le in O3.
      cbn [fold_left rclen fst snd]. apply IH; [|exact O4]. apply step_ok; assumption.
  Qed.
End Clenshaw.


(** the two results, against the polynomials in t = (T + 2) / 4 *)
Lemma rclen_poly : forall (T t : R) cs (a b : R) (la lb : list Z), T = 4 * t - 2 -> forallb (dz_ok 20) cs = true ->
  a = peval la t / IZR D20 -> b = peval lb t / IZR D20 ->
  let r := fold_left (fun (s : R * R) (c : dec) => (T * fst s - snd s + R_of_dec c, fst s)) cs (a, b) in
  let p := fold_left (fun (s : list Z * list Z) (c : dec) =>
    (padd (padd (pmul [-2; 4]%Z (fst s)) (pscale (-1) (snd s))) [dz 20 c], fst s)) cs (la, lb) in
  fst r = peval (fst p) t / IZR D20 /\ snd r = peval (snd p) t / IZR D20.
Proof.
  intros T t cs. induction cs as [|c cs IH]; intros a b la lb HT Ok Ha Hb.
  - cbn [fold_left fst snd]. auto.
  - cbn [forallb] in Ok. apply andb_prop in Ok. destruct Ok as [O1 O2]. cbn [fold_left fst snd]. apply IH; [exact HT|exact O2| |exact Ha].
    rewrite !peval_padd, peval_pmul, peval_pscale, !peval_cons, Ha, Hb, HT, (dz_eq 20 c ltac:(lia) O1).
    change (peval [] t) with 0. change (10 ^ 20)%Z with D20. pose proof D20_val as DV.
    assert (DN : IZR D20 <> 0) by (rewrite DV; lra). clear DV. clear -DN; revert DN; generalize (IZR D20); intros D20r DN; field; exact DN.
Qed.

Definition c0 : dec := hd (Dec 0 0) COF.
Definition clen_rl (l : list dec) (T : R) : R * R :=
  fold_left (fun (s : R * R) (c : dec) => (T * fst s - snd s + R_of_dec c, fst s)) l (0, 0).
Definition clen_r (T : R) : R * R := clen_rl cof_list T.

Lemma clen_rl_poly : forall l t, forallb (dz_ok 20) l = true ->
  fst (clen_rl l (4 * t - 2)) = peval (fst (cpl l)) t / IZR D20 /\ snd (clen_rl l (4 * t - 2)) = peval (snd (cpl l)) t / IZR D20.
Proof.
  intros l t Ok. unfold clen_rl, cpl.
  apply (rclen_poly (4 * t - 2) t l 0 0 [] [] eq_refl Ok); change (peval [] t) with 0; unfold Rdiv; ring.
Qed.

Lemma pz_eq : pz = padd (padd [dz 20 c0] (pmul [-2; 4]%Z (fst clen_poly))) (pscale (-2) (snd clen_poly)).
Proof. vm_compute. reflexivity. Qed.
Lemma cofs_ok : forallb (dz_ok 20) cof_list = true.
Proof. vm_compute. reflexivity. Qed.

Lemma peval_comb : forall a p q t,
  peval (padd (padd [a] (pmul [-2; 4]%Z p)) (pscale (-2) q)) t = IZR a + (4 * t - 2) * peval p t - 2 * peval q t.
Proof.
  intros a p q t. rewrite !peval_padd, peval_pmul, peval_pscale, !peval_cons. change (peval [] t) with 0. ring.
Qed.
Lemma PP_split : forall t, PP t = (IZR (dz 20 c0) + (4 * t - 2) * peval (fst clen_poly) t - 2 * peval (snd clen_poly) t) / (2 * IZR D20).
Proof. intros t. unfold PP. rewrite pz_eq, peval_comb. reflexivity. Qed.

Lemma comb_eq : forall (a u v d t D DD c : R), d <> 0 -> D = u / d -> DD = v / d -> c = a / d ->
  (a + (4 * t - 2) * u - 2 * v) / (2 * d) = (c + (4 * t - 2) * D) / 2 - DD.
Proof. intros a u v d t D DD c Hd -> -> ->. field. exact Hd. Qed.

Lemma c0_dz : R_of_dec c0 = IZR (dz 20 c0) / IZR D20.
Proof. apply (dz_eq 20 c0); [lia|vm_compute; reflexivity]. Qed.

Lemma clen_PP : forall t, let (D, DD) := clen_r (4 * t - 2) in PP t = (R_of_dec c0 + (4 * t - 2) * D) / 2 - DD.
Proof.
  intros t. destruct (clen_rl_poly cof_list t cofs_ok) as [H1 H2].
  unfold clen_r. destruct (clen_rl cof_list (4 * t - 2)) as [D DD]. cbn [fst snd] in H1, H2.
  rewrite PP_split. apply (comb_eq _ _ _ (IZR D20)); [rewrite D20_val; lra|exact H1|exact H2|exact c0_dz].
Qed.

Definition cend : cst := Eval vm_compute in fold_left step cof_list (0, 0, 0, 0)%Z.
Lemma cend_eq : fold_left step cof_list (0, 0, 0, 0)%Z = cend.
Proof. vm_compute. reflexivity. Qed.
Lemma run_all : run_ok cof_list (0, 0, 0, 0)%Z = true.
Proof. vm_compute. reflexivity. Qed.

(** the state after the loop *)
Definition clen_f (P : platform) (ty : f64) (l : list dec) : f64 * f64 :=
  fold_left (fun (s : f64 * f64) (c : dec) => (f64_add P (f64_sub P (f64_mul P ty (fst s)) (snd s)) (f64_lit c), fst s)) l
    (f64_lit 0.0, f64_lit 0.0).
Lemma clen_f_eq : forall P ty, @erfccheb_clenshaw (ieee P) ty = clen_f P ty cof_list.
Proof. intros P ty. unfold erfccheb_clenshaw, clen_f, cof_list. reflexivity. Qed.
Lemma clen_end_l : forall P ty l, fin ty -> Rabs (Binary.B2R ty) <= 2 -> run_ok l (0, 0, 0, 0)%Z = true ->
  inv (fold_left step l (0, 0, 0, 0)%Z) (fst (clen_f P ty l)) (snd (clen_f P ty l)) (fst (clen_rl l (Binary.B2R ty))) (snd (clen_rl l (Binary.B2R ty))).
Proof.
  intros P ty l F B Ok.
  assert (I0 : inv (0, 0, 0, 0)%Z (f64_lit 0.0) (f64_lit 0.0) 0 0).
  { assert (V0 : Binary.B2R (f64_lit 0.0) = 0) by reflexivity. assert (fin_0 : fin (f64_lit 0.0)) by reflexivity.
    repeat split; try exact fin_0; rewrite ?V0, ?Rminus_0_r, Rabs_R0, Rmult_0_l; lra. }
  exact (proj1 (run_inv P ty F B l _ _ _ _ _ I0 Ok)).
Qed.
Lemma clen_end : forall P ty, fin ty -> Rabs (Binary.B2R ty) <= 2 ->
  let (d, dd) := @erfccheb_clenshaw (ieee P) ty in
  let (D, DD) := clen_r (Binary.B2R ty) in
  inv cend d dd D DD.
Proof.
  intros P ty F B. pose proof (clen_end_l P ty cof_list F B run_all) as H. rewrite cend_eq in H.
  rewrite clen_f_eq. unfold clen_r. destruct (clen_f P ty cof_list) as [d dd].
  destruct (clen_rl cof_list (Binary.B2R ty)) as [D DD]. exact H.
Qed.

(** the exponent *)
Lemma exponent : forall P (ty zz : f64) t, fin ty -> Rabs (Binary.B2R ty) <= 2 -> fin zz -> 0 <= Binary.B2R zz <= 680 ->
  Binary.B2R ty = 4 * t - 2 ->
  let (d, dd) := @erfccheb_clenshaw (ieee P) ty in
  let a := f64_sub P (f64_add P (f64_neg zz) (f64_mul P (f64_lit 0.5) (f64_add P (f64_lit c0) (f64_mul P ty d)))) dd in
  fin a /\ Rabs (Binary.B2R a - (- Binary.B2R zz + PP t)) <= (2.01 * Binary.B2R zz + 20) * / 2 ^ 53.
Proof.
  intros P ty zz t Fy By Fz Bz Ht. pose proof (clen_end P ty Fy By) as I. pose proof (clen_PP t) as PT.
  rewrite <- Ht in PT.
  destruct (@erfccheb_clenshaw (ieee P) ty) as [d dd]. destruct (clen_r (Binary.B2R ty)) as [D DD].
  unfold cend in I. destruct I as (Fd & Fdd & HD & Hd & HDD & Hdd). intros a.
  destruct (mul_unit P ty Fy By d D _ _ Fd HD Hd ltac:(lia) ltac:(lia)) as (Fm & Em & _).
  set (mf := f64_mul P ty d) in *. cbv zeta in Em.
  match type of Em with _ <= IZR ?X * eps => let v := eval vm_compute in X in change X with v in Em end.
  assert (EV : eps = / 1361129467683753853853498429727072845824) by reflexivity. rewrite EV in *.
  assert (Kc : R_of_dec c0 = - (13026537197817094 / 10000000000000000)).
  { unfold c0, COF. cbn [hd]. unfold R_of_dec. cbn [dman dexp]. rewrite powerRZ_10. simpl. lra. }
  assert (U : forall r x, rounds r x -> Rabs x <= 1000 -> fin r /\ Rabs (Binary.B2R r - x) <= / 2 ^ 53 * Rabs x + / 2 ^ 100).
  { intros r x Hr Hx. pose proof (rnd_abs_err x) as Re.
    assert (B53 : bpow radix2 (-53) = / 2 ^ 53) by (simpl; lra). rewrite B53 in Re.
    assert (T : bpow radix2 (-1075) <= / 2 ^ 100).
    { replace (/ 2 ^ 100) with (bpow radix2 (-100)) by (simpl; lra). apply bpow_le. lia. }
    destruct (rounds_small _ _ Hr) as [F V].
    - replace (rnd x) with (x + (rnd x - x)) by ring. eapply Rle_lt_trans; [apply Rabs_triang|]. pose proof Om_big.
      assert (/ 2 ^ 53 * Rabs x <= 1 * 1000) by (apply Rmult_le_compat; try lra; apply Rabs_pos). lra.
    - split; [exact F|]. rewrite V. lra. }
  destruct (U _ _ (lit_spec c0)) as [Fc Ec]; [rewrite Kc; apply Rabs_le; lra|].
  rewrite Kc in Ec. rewrite (Rabs_left (- _)) in Ec by lra.
  assert (TDb : Rabs (Binary.B2R ty * D) <= 1.6).
  { rewrite Rabs_mult. apply Rle_trans with (2 * 0.8); [|lra]. apply Rmult_le_compat; try apply Rabs_pos; [exact By|]. lra. }
  apply Rabs_le_inv in Em, TDb, Ec.
  set (c0f := Binary.B2R (f64_lit c0)) in *. set (m := Binary.B2R mf) in *. set (TD := Binary.B2R ty * D) in *.
  rewrite Kc in PT. set (k := 13026537197817094 / 10000000000000000) in *. assert (Kk : 1.3 <= k <= 1.31) by (unfold k; lra). clearbody k.
  destruct (U _ _ (add_spec P (f64_lit c0) mf Fc Fm)) as [F1 E1]; [fold c0f m; apply Rabs_le; lra|]. fold c0f m in E1.
  assert (A1 : Rabs (c0f + m) <= 3) by (apply Rabs_le; lra).
  assert (M1 : / 2 ^ 53 * Rabs (c0f + m) <= / 2 ^ 53 * 3) by (apply Rmult_le_compat_l; lra).
  apply Rabs_le_inv in E1.
  set (s1 := f64_add P (f64_lit c0) mf) in *.
  assert (Vh : fin (f64_lit 0.5) /\ Binary.B2R (f64_lit 0.5) = 0.5).
  { lit_facts 0.5%dec 1%Z 1%Z HF HV. split; [exact HF|]. rewrite <- (val_fin _ HF). lra. }
  destruct Vh as [Fh Vh].
  destruct (U _ _ (mul_spec P (f64_lit 0.5) s1 Fh F1)) as [F2 E2]; [rewrite Vh; apply Rabs_le; lra|]. rewrite Vh in E2.
  assert (A2 : Rabs (0.5 * Binary.B2R s1) <= 2) by (apply Rabs_le; lra).
  assert (M2 : / 2 ^ 53 * Rabs (0.5 * Binary.B2R s1) <= / 2 ^ 53 * 2) by (apply Rmult_le_compat_l; lra).
  apply Rabs_le_inv in E2.
  set (h := f64_mul P (f64_lit 0.5) s1) in *.
  assert (Fnz : fin (f64_neg zz)) by (rewrite fin_neg; exact Fz).
  assert (A3 : Rabs (Binary.B2R (f64_neg zz) + Binary.B2R h) <= Binary.B2R zz + 2) by (rewrite B2R_neg; apply Rabs_le; lra).
  destruct (U _ _ (add_spec P (f64_neg zz) h Fnz F2)) as [F3 E3]; [lra|].
  assert (M3 : / 2 ^ 53 * Rabs (Binary.B2R (f64_neg zz) + Binary.B2R h) <= / 2 ^ 53 * (Binary.B2R zz + 2)) by (apply Rmult_le_compat_l; lra).
  set (s3 := f64_add P (f64_neg zz) h) in *. rewrite B2R_neg in *. apply Rabs_le_inv in E3.
  set (Z := Binary.B2R zz) in *.
  assert (Db : Rabs DD <= 0.1) by lra.
  apply Rabs_le_inv in Hdd, Db.
  assert (A4 : Rabs (Binary.B2R s3 - Binary.B2R dd) <= Z + 3) by (apply Rabs_le; lra).
  destruct (U _ _ (sub_spec P s3 dd F3 Fdd)) as [F4 E4]; [lra|].
  assert (M4 : / 2 ^ 53 * Rabs (Binary.B2R s3 - Binary.B2R dd) <= / 2 ^ 53 * (Z + 3)) by (apply Rmult_le_compat_l; lra).
  split; [exact F4|]. fold a in E4. apply Rabs_le_inv in E4. rewrite PT. apply Rabs_le. clear -E1 E2 E3 E4 M1 M2 M3 M4 Em Hdd Ec Bz Kk. lra.
Qed.
