(** * The cache lemmas for the four caches, and a concrete history *)

From Coq Require Import ZArith List Bool.
From Flocq Require Import Core IEEE754.BinarySingleNaN IEEE754.Binary IEEE754.Bits.
From Verif.Model Require Import Base Arith Bessel Cache.
From Verif.Float Require Import Bits64 Ieee Caches Platforms.
From Verif.Spec Require Import History.
From Verif.Proofs Require Import CacheFacts.
Import ListNotations.

Lemma for_all_caches : forall Q : forall V : Type, (f64 -> f64 -> res V) -> Prop,
  (forall V f, Q V f) -> forall P, every_cache P Q.
Proof. intros Q H P. repeat split; apply H. Qed.

Lemma cached_value : forall P, every_cache P (fun V f => forall ops nu x,
  snd (call f (run f ops) nu x) = f nu x).
Proof. apply for_all_caches. intros V f. exact (call_value f). Qed.

(** every operation of every later history has the same outcome *)
Lemma cached_panic : forall P, every_cache P (fun V f => forall ops nu x later,
  is_ok (f nu x) = false ->
  trace f (run f (ops ++ [OpCall nu x])) later = trace f (run f ops) later
  /\ snd (call f (run f ops) nu x) = f nu x).
Proof.
  apply for_all_caches. intros V f ops nu x later H. split; [|apply call_value].
  f_equal. unfold run, cache_run. rewrite fold_left_app. simpl.
  pose proof (call_panic f ops nu x H) as E. unfold call in E.
  destruct (cache_call to_bits f _ nu x) as [c' r] eqn:E' in |- *.
  fold (cache_run to_bits from_bits f ops) in E'. fold (run f ops) in E'. rewrite E' in E. exact E.
Qed.

Lemma cached_contains : forall P, every_cache P (fun V f => forall ops nu x,
  (contains (run f ops) nu x = true <-> stored f (rev ops) nu x)
  /\ (contains (run f ops) nu x = true <-> exists v, get (run f ops) nu x = Some v)
  /\ (forall v, get (run f ops) nu x = Some v <-> stored f (rev ops) nu x /\ f nu x = Ok v)).
Proof.
  apply for_all_caches. intros V f ops nu x. split; [apply contains_spec|].
  split; [apply contains_get|apply get_spec].
Qed.

Lemma cached_len : forall P, every_cache P (fun V f => forall ops,
  (exists l : list (f64 * f64), NoDup l
     /\ (forall nu x, List.In (nu, x) l <-> contains (run f ops) nu x = true)
     /\ cache_len (run f ops) = Z.of_nat (length l))
  /\ (cache_is_empty (run f ops) = true <-> cache_len (run f ops) = 0%Z)).
Proof.
  apply for_all_caches. intros V f ops. split; [apply len_spec|apply is_empty_spec].
Qed.

Lemma cached_read_only : forall P, every_cache P (fun V f => forall ops o later,
  read_only o -> trace f (run f (ops ++ [o])) later = trace f (run f ops) later).
Proof.
  apply for_all_caches. intros V f ops o later H. f_equal.
  unfold run, cache_run. rewrite fold_left_app. destruct o; simpl in *; tauto || reflexivity.
Qed.

Lemma cached_agree : forall P, every_cache P (fun V f => forall ops1 ops2 nu x v1 v2,
  get (run f ops1) nu x = Some v1 -> get (run f ops2) nu x = Some v2 -> v1 = v2).
Proof. apply for_all_caches. intros V f. exact (agree f). Qed.

Lemma f64_eq_refl : forall x : f64, f64_eq x x = negb (Binary.is_nan x).
Proof.
  intros x. unfold f64_eq. destruct x as [s|s|s pl H|s m e H].
  - reflexivity.
  - destruct s; reflexivity.
  - reflexivity.
  - assert (E : Binary.Bcompare (B754_finite s m e H) (B754_finite s m e H) = Some Eq).
    { rewrite Binary.Bcompare_correct by reflexivity. f_equal. apply Raux.Rcompare_Eq. reflexivity. }
    rewrite E. reflexivity.
Qed.

Lemma f64_eq2_refl : forall v, f64_eq2 v v = negb (has_nan2 v).
Proof. intros [a b]. unfold f64_eq2, has_nan2; simpl. rewrite !f64_eq_refl. now rewrite negb_orb. Qed.
Lemma f64_eq4_refl : forall v, f64_eq4 v v = negb (has_nan4 v).
Proof.
  intros [[[a b] c] d]. unfold f64_eq4, has_nan4. rewrite !f64_eq_refl. now rewrite !negb_orb.
Qed.

Lemma cached_eq : forall {V} (f : f64 -> f64 -> res V) veq has_nan,
  (forall v, veq v v = negb (has_nan v)) ->
  forall ops1 ops2,
  hm_eq veq (run f ops1) (run f ops2) = true
  <-> (forall nu x, contains (run f ops1) nu x = contains (run f ops2) nu x)
      /\ (forall nu x v, get (run f ops1) nu x = Some v -> has_nan v = false).
Proof.
  intros V f veq has_nan H ops1 ops2. rewrite (eq_spec f veq). split; intros [H1 H2]; split; auto;
    intros nu x v E; specialize (H2 nu x v E); rewrite H in *; destruct (has_nan v); auto.
Qed.

Lemma cached_eq4 : forall P f, f = @besseljy (ieee P) \/ f = @besselik (ieee P) ->
  forall ops1 ops2,
  hm_eq f64_eq4 (run f ops1) (run f ops2) = true
  <-> (forall nu x, contains (run f ops1) nu x = contains (run f ops2) nu x)
      /\ (forall nu x v, get (run f ops1) nu x = Some v -> has_nan4 v = false).
Proof. intros P f _. apply cached_eq, f64_eq4_refl. Qed.

Lemma cached_eq2 : forall P f, f = @Jnu_Ynu (ieee P) \/ f = @Inu_Knu (ieee P) ->
  forall ops1 ops2,
  hm_eq f64_eq2 (run f ops1) (run f ops2) = true
  <-> (forall nu x, contains (run f ops1) nu x = contains (run f ops2) nu x)
      /\ (forall nu x v, get (run f ops1) nu x = Some v -> has_nan2 v = false).
Proof. intros P f _. apply cached_eq, f64_eq2_refl. Qed.

(** A concrete history on a computable platform *)
Notation jy := (@besseljy (ieee (plain true false))).

Lemma ex_cache_hit :
  contains (run jy [OpCall (f64_lit 0.5) (f64_lit 3.0); OpLen]) (f64_lit 0.5) (f64_lit 3.0) = true
  /\ contains (run jy [OpCall (f64_lit 0.5) (f64_lit 3.0); OpLen]) (f64_lit 0.5) (f64_lit 4.0) = false
  /\ contains (run jy [OpCall (f64_lit 0.5) (f64_lit 3.0); OpClear]) (f64_lit 0.5) (f64_lit 3.0) = false.
Proof. vm_compute. auto. Qed.

Lemma ex_cache_panic : is_ok (jy (f64_lit (-1.0)) (f64_lit 3.0)) = false.
Proof. vm_compute. reflexivity. Qed.
