(** * Lemmas about the caches *)

From Coq Require Import ZArith List Bool Lia.
From Flocq Require Import Core IEEE754.BinarySingleNaN IEEE754.Binary IEEE754.Bits.
From Verif.Model Require Import Base Cache.
From Verif.Float Require Import Bits64 Ieee Caches.
From Verif.Spec Require Import History.
Import ListNotations.

Lemma from_to_bits : forall x, from_bits (to_bits x) = x.
Proof. intros x. apply (binary_float_of_bits_of_binary_float 52 11). Qed.

Lemma to_bits_inj : forall x y, to_bits x = to_bits y -> x = y.
Proof.
  intros x y H. rewrite <- (from_to_bits x), <- (from_to_bits y). now rewrite H.
Qed.

Lemma key_eqb_spec : forall k1 k2, reflect (k1 = k2) (key_eqb k1 k2).
Proof.
  intros [a1 b1] [a2 b2]. unfold key_eqb; simpl.
  destruct (Z.eqb_spec a1 a2), (Z.eqb_spec b1 b2); simpl; constructor; congruence.
Qed.

Section Map.
  Context {V : Type}.
  Implicit Types (m : list (key * V)) (k : key) (v : V).

  Lemma get_insert : forall m k v k',
    hm_get (hm_insert m k v) k' = if key_eqb k' k then Some v else hm_get m k'.
  Proof.
    induction m as [|[k0 v0] m IH]; intros k v k'; simpl.
    - reflexivity.
    - destruct (key_eqb_spec k k0) as [->|N]; simpl.
      + destruct (key_eqb_spec k' k0); reflexivity.
      + rewrite IH. destruct (key_eqb_spec k' k0) as [->|].
        * destruct (key_eqb_spec k0 k); congruence.
        * reflexivity.
  Qed.

  Lemma keys_insert : forall m k v,
    map fst (hm_insert m k v)
    = match hm_get m k with Some _ => map fst m | None => map fst m ++ [k] end.
  Proof.
    induction m as [|[k0 v0] m IH]; intros k v; simpl; auto.
    destruct (key_eqb_spec k k0) as [->|N]; simpl; auto.
    rewrite IH. destruct (hm_get m k); reflexivity.
  Qed.

  Lemma get_in_keys : forall m k, In k (map fst m) <-> exists v, hm_get m k = Some v.
  Proof.
    induction m as [|[k0 v0] m IH]; intros k; simpl.
    - split; [tauto|intros [v H]; discriminate].
    - destruct (key_eqb_spec k k0) as [->|N].
      + split; eauto.
      + rewrite <- IH. split; [intros [H|H]; congruence || auto|auto].
  Qed.

  Lemma get_not_in : forall m k, hm_get m k = None -> ~ In k (map fst m).
  Proof. intros m k H I. apply get_in_keys in I as [v I]. congruence. Qed.

  Lemma get_in : forall m k v, NoDup (map fst m) -> (hm_get m k = Some v <-> In (k, v) m).
  Proof.
    induction m as [|[k0 v0] m IH]; intros k v ND; simpl.
    - split; [discriminate|tauto].
    - inversion ND as [|? ? N ND']; subst. destruct (key_eqb_spec k k0) as [->|D].
      + split; [intros [= ->]; auto|intros [[= <-]|I]; auto].
        exfalso; apply N. apply (in_map fst) in I; exact I.
      + rewrite IH by assumption. split; [auto|intros [[= ? ?]|I]; congruence].
  Qed.

  Lemma nodup_filter_keys : forall (p : key * V -> bool) m,
    NoDup (map fst m) -> NoDup (map fst (filter p m)).
  Proof.
    intros p m. induction m as [|[k0 v0] m IH]; simpl; auto.
    intros ND; inversion ND as [|? ? N ND']; subst.
    destruct (p (k0, v0)); simpl; auto. constructor; auto.
    intros I. apply N. apply in_map_iff in I as ((k, v) & E & I).
    simpl in E; subst k. apply filter_In in I as [I _].
    apply (in_map fst) in I; exact I.
  Qed.

  Lemma get_retain : forall p m k,
    NoDup (map fst m) ->
    hm_get (hm_retain p m) k
    = match hm_get m k with
      | Some v => if p k v then Some v else None
      | None => None
      end.
  Proof.
    intros p m k ND. pose proof (nodup_filter_keys (fun kv => p (fst kv) (snd kv)) m ND) as ND'.
    destruct (hm_get (hm_retain p m) k) as [v|] eqn:E.
    - apply get_in in E; [|exact ND']. apply filter_In in E as [I Hp]; simpl in Hp.
      apply get_in in I; [|exact ND]. now rewrite I, Hp.
    - destruct (hm_get m k) as [v|] eqn:E2; auto.
      destruct (p k v) eqn:Hp; auto. exfalso.
      apply get_in in E2; [|exact ND].
      assert (I : In (k, v) (hm_retain p m)) by (apply filter_In; auto).
      apply get_in in I; [congruence|exact ND'].
  Qed.
End Map.

Section Cache.
  Context {V : Type} (f : f64 -> f64 -> res V).
  Notation K := (key_of to_bits).
  Notation step := (cache_step to_bits from_bits f).

  Lemma key_of_inj : forall nu x nu' x', K nu x = K nu' x' -> nu = nu' /\ x = x'.
  Proof. intros ? ? ? ? [= H1 H2]. auto using to_bits_inj. Qed.

  (** What every reachable cache satisfies with respect to the history *)
  Definition refines (c : @cache V) (rh : list (op f64 V)) : Prop :=
    NoDup (map fst c)
    /\ (forall k v, hm_get c k = Some v -> exists nu x, k = K nu x)
    /\ (forall nu x v, hm_get c (K nu x) = Some v <-> stored f rh nu x /\ f nu x = Ok v).

  Lemma stored_ok : forall rh nu x, stored f rh nu x -> exists v, f nu x = Ok v.
  Proof.
    induction rh as [|o rh IH]; simpl; [tauto|].
    intros nu x. destruct o; eauto.
    - intros [(_ & _ & H)|H]; eauto.
    - tauto.
    - intros [H (v & Hv & _)]; eauto.
  Qed.

  Lemma refines_new : refines cache_new [].
  Proof.
    repeat split; simpl; try constructor; intros; try discriminate; tauto.
  Qed.

  Lemma refines_insert : forall c rh nu x v,
    refines c rh -> hm_get c (K nu x) = None -> f nu x = Ok v ->
    refines (hm_insert c (K nu x) v) (OpCall nu x :: rh).
  Proof.
    intros c rh nu x v (ND & KO & ST) N E. split; [|split].
    - rewrite keys_insert, N. apply NoDup_Add with (a := K nu x) (l := map fst c).
      + rewrite <- (app_nil_r (map fst c)) at 1. apply Add_app.
      + split; auto. now apply get_not_in.
    - intros k w. rewrite get_insert. destruct (key_eqb_spec k (K nu x)) as [->|]; eauto.
    - intros nu' x' w. rewrite get_insert. simpl.
      destruct (key_eqb_spec (K nu' x') (K nu x)) as [H|H].
      + apply key_of_inj in H as [-> ->]. split.
        * intros [= <-]. eauto 10.
        * intros [_ H]. congruence.
      + rewrite ST. split; [tauto|]. intros [[(-> & -> & _)|S] Hf]; tauto.
  Qed.

  Lemma refines_call_id : forall c rh nu x,
    refines c rh ->
    (exists v, hm_get c (K nu x) = Some v) \/ (forall v, f nu x <> Ok v) ->
    refines c (OpCall nu x :: rh).
  Proof.
    intros c rh nu x (ND & KO & ST) H. split; [|split]; auto.
    intros nu' x' w. rewrite ST. simpl. split; [tauto|].
    intros [[(-> & -> & v & Hv)|S] Hf]; auto.
    destruct H as [[w' Hw]|H]; [|exfalso; eapply H; eauto].
    apply ST in Hw as [S _]. auto.
  Qed.

  Lemma refines_step : forall c rh o, refines c rh -> refines (fst (step c o)) (o :: rh).
  Proof.
    intros c rh o R. destruct o as [nu x|nu x|nu x| | | | |n|p]; simpl;
      try (destruct R as (ND & KO & ST); split; [|split]; auto; fail).
    - unfold cache_call. destruct (hm_get c (K nu x)) as [v|] eqn:E.
      + apply refines_call_id; eauto.
      + destruct (f nu x) as [v|q|] eqn:Ef; simpl.
        * now apply refines_insert.
        * apply refines_call_id; auto. right; congruence.
        * apply refines_call_id; auto. right; congruence.
    - split; [|split]; simpl; try constructor; intros; try discriminate; tauto.
    - destruct R as (ND & KO & ST). split; [|split].
      + apply nodup_filter_keys; exact ND.
      + intros k v. unfold cache_retain. rewrite get_retain by assumption.
        destruct (hm_get c k) eqn:E; [|discriminate]. eauto.
      + intros nu x v. unfold cache_retain. rewrite get_retain by assumption. simpl.
        rewrite !from_to_bits.
        destruct (hm_get c (K nu x)) as [w|] eqn:E.
        * apply ST in E as [S Hf]. destruct (p nu x w) eqn:Hp.
          -- split; [intros [= <-]; eauto 10|]. intros [_ H]; congruence.
          -- split; [discriminate|]. intros [[_ (u & Hu & Hp')] H]. congruence.
        * split; [discriminate|]. intros [[S (u & Hu & _)] _].
          assert (X : hm_get c (K nu x) = Some u) by (apply ST; auto). congruence.
  Qed.

  Lemma refines_fold : forall ops c rh,
    refines c rh -> refines (fold_left (fun c o => fst (step c o)) ops c) (rev ops ++ rh).
  Proof.
    induction ops as [|o ops IH]; simpl; intros c rh R; auto.
    rewrite <- app_assoc. apply (IH _ (o :: rh)). now apply refines_step.
  Qed.

  Lemma refines_run : forall ops, refines (run f ops) (rev ops).
  Proof.
    intros ops. rewrite <- (app_nil_r (rev ops)). apply refines_fold, refines_new.
  Qed.

  Lemma get_spec : forall ops nu x v,
    get (run f ops) nu x = Some v <-> stored f (rev ops) nu x /\ f nu x = Ok v.
  Proof. intros ops nu x v. destruct (refines_run ops) as (_ & _ & H). apply H. Qed.

  Lemma contains_get : forall c nu x,
    contains c nu x = true <-> exists v : V, get c nu x = Some v.
  Proof.
    intros c nu x. unfold contains, cache_contains, get, cache_get.
    destruct (hm_get c (K nu x)) as [v|].
    - split; eauto.
    - split; [discriminate|]. intros [v H]; discriminate.
  Qed.

  Lemma contains_spec : forall ops nu x,
    contains (run f ops) nu x = true <-> stored f (rev ops) nu x.
  Proof.
    intros ops nu x. rewrite contains_get. split.
    - intros [v H]. now apply get_spec in H.
    - intros S. destruct (stored_ok _ _ _ S) as [v Hv]. exists v. now apply get_spec.
  Qed.

  Lemma call_value : forall ops nu x, snd (call f (run f ops) nu x) = f nu x.
  Proof.
    intros ops nu x. unfold call, cache_call.
    destruct (hm_get (run f ops) (K nu x)) as [v|] eqn:E; simpl.
    - apply get_spec in E as [_ E]. auto.
    - destruct (f nu x); reflexivity.
  Qed.

  Lemma call_panic : forall ops nu x,
    is_ok (f nu x) = false -> fst (call f (run f ops) nu x) = run f ops.
  Proof.
    intros ops nu x H. unfold call, cache_call.
    destruct (hm_get (run f ops) (K nu x)) as [v|] eqn:E; simpl; auto.
    destruct (f nu x); simpl in *; congruence.
  Qed.

  Lemma call_stores : forall ops nu x v,
    f nu x = Ok v -> get (fst (call f (run f ops) nu x)) nu x = Some v.
  Proof.
    intros ops nu x v H. unfold call, cache_call.
    destruct (hm_get (run f ops) (K nu x)) as [w|] eqn:E; simpl.
    - apply get_spec in E as E'. destruct E' as [_ E']. unfold get, cache_get. congruence.
    - rewrite H; simpl. unfold get, cache_get. rewrite get_insert.
      destruct (key_eqb_spec (K nu x) (K nu x)); congruence.
  Qed.

  Lemma len_spec : forall ops,
    exists l : list (f64 * f64),
      NoDup l
      /\ (forall nu x, In (nu, x) l <-> contains (run f ops) nu x = true)
      /\ cache_len (run f ops) = Z.of_nat (length l).
  Proof.
    intros ops. destruct (refines_run ops) as (ND & KO & ST).
    set (c := run f ops) in *.
    exists (map (fun k : key => (from_bits (fst k), from_bits (snd k))) (map fst c)).
    assert (KR : forall k, In k (map fst c) -> exists nu x, k = K nu x).
    { intros k I. apply get_in_keys in I as [v I]. eauto. }
    split; [|split].
    - clear ST. revert KR ND. generalize (map fst c). clear.
      induction l as [|k l IH]; simpl; intros KR ND; constructor.
      + inversion ND as [|? ? N ND']; subst. intros I. apply N.
        apply in_map_iff in I as (k' & E & I). destruct (KR k' (or_intror I)) as (nu' & x' & ->).
        destruct (KR k (or_introl eq_refl)) as (nu & x & ->).
        simpl in E. rewrite !from_to_bits in E. injection E as -> ->. exact I.
      + inversion ND; subst. apply IH; auto.
    - intros nu x. rewrite contains_get. unfold get, cache_get. rewrite <- get_in_keys. split.
      + intros I. apply in_map_iff in I as (k & E & I).
        destruct (KR k I) as (nu' & x' & ->). simpl in E. rewrite !from_to_bits in E.
        injection E as -> ->. exact I.
      + intros I. apply in_map_iff. exists (K nu x). split; auto. simpl.
        now rewrite !from_to_bits.
    - unfold cache_len. now rewrite !map_length.
  Qed.

  Lemma is_empty_spec : forall c : @cache V, cache_is_empty c = true <-> cache_len c = 0%Z.
  Proof. intros [|e c]; unfold cache_len; simpl; split; auto; discriminate || lia. Qed.

  Lemma agree : forall ops1 ops2 nu x v1 v2,
    get (run f ops1) nu x = Some v1 -> get (run f ops2) nu x = Some v2 -> v1 = v2.
  Proof.
    intros ops1 ops2 nu x v1 v2 H1 H2. apply get_spec in H1 as [_ H1].
    apply get_spec in H2 as [_ H2]. congruence.
  Qed.

  (** Equality of caches *)
  Lemma eq_spec : forall (veq : V -> V -> bool) ops1 ops2,
    hm_eq veq (run f ops1) (run f ops2) = true
    <-> (forall nu x, contains (run f ops1) nu x = contains (run f ops2) nu x)
        /\ (forall nu x v, get (run f ops1) nu x = Some v -> veq v v = true).
  Proof.
    intros veq ops1 ops2.
    destruct (refines_run ops1) as (ND1 & KO1 & ST1).
    destruct (refines_run ops2) as (ND2 & KO2 & ST2).
    set (c1 := run f ops1) in *. set (c2 := run f ops2) in *.
    unfold hm_eq. rewrite andb_true_iff, Nat.eqb_eq, forallb_forall. split.
    - intros [HL HF].
      assert (S : forall k v, hm_get c1 k = Some v -> hm_get c2 k = Some v /\ veq v v = true).
      { intros k v H. destruct (KO1 k v H) as (nu & x & ->).
        pose proof H as H'. apply get_in in H'; [|exact ND1].
        specialize (HF _ H'). simpl in HF.
        destruct (hm_get c2 (K nu x)) as [w|] eqn:E; [|discriminate].
        apply ST1 in H. apply ST2 in E. destruct H as [_ H], E as [_ E].
        assert (w = v) by congruence. subst w. auto. }
      split.
      + assert (I12 : incl (map fst c1) (map fst c2)).
        { intros k I. apply get_in_keys in I as [v I]. apply get_in_keys.
          exists v. now apply S. }
        assert (I21 : incl (map fst c2) (map fst c1)).
        { apply NoDup_length_incl; auto. rewrite !map_length. unfold key, cache in *. lia. }
        intros nu x.
        assert (Q : contains c1 nu x = true <-> contains c2 nu x = true).
        { rewrite !contains_get. unfold get, cache_get. rewrite <- !get_in_keys.
          split; [apply I12|apply I21]. }
        destruct (contains c1 nu x), (contains c2 nu x); intuition congruence.
      + intros nu x v H. now apply (S (K nu x) v).
    - intros [HC HV].
      assert (S : forall k, In k (map fst c1) <-> In k (map fst c2)).
      { intros k. rewrite !get_in_keys. split; intros [v H].
        - destruct (KO1 k v H) as (nu & x & ->).
          apply contains_get. rewrite <- HC. apply contains_get. eauto.
        - destruct (KO2 k v H) as (nu & x & ->).
          apply contains_get. rewrite HC. apply contains_get. eauto. }
      split.
      + rewrite <- (map_length fst c1), <- (map_length fst c2).
        apply Nat.le_antisymm; apply NoDup_incl_length; auto; intros k; apply S.
      + intros [k v] I. simpl. apply get_in in I; [|exact ND1].
        destruct (KO1 k v I) as (nu & x & ->).
        assert (I2 : exists w, hm_get c2 (K nu x) = Some w).
        { apply get_in_keys, S, get_in_keys. eauto. }
        destruct I2 as [w E]. rewrite E. pose proof I as I'.
        apply ST1 in I'. apply ST2 in E. destruct I' as [_ H], E as [_ E].
        assert (w = v) by congruence. subst w. now apply (HV nu x).
  Qed.
End Cache.
