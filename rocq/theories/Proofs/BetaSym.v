(** * betai: swapping the parameters, exact arithmetic *)

From Coq Require Import ZArith Reals Bool Lra Lia.
From Flocq Require Import Core.
From Verif.Model Require Import Base Arith Gamma Beta.
From Verif.Float Require Import Exact.
Open Scope R_scope.

Ltac exact_simpl := cbn [exact F lit of_int to_int add sub mul div neg abs sqrt floor trunc lt le eq
  is_nan is_infinite is_sign_positive nan infinity epsilon min_positive copysign fmax fmin exp ln
  sin cos sinh cosh powf cexp fused_mul_add has_fma checks frexp ldexp].
Ltac exact_simpl_in H := cbn [exact F lit of_int to_int add sub mul div neg abs sqrt floor trunc lt le eq
  is_nan is_infinite is_sign_positive nan infinity epsilon min_positive copysign fmax fmin exp ln
  sin cos sinh cosh powf cexp fused_mul_add has_fma checks frexp ldexp] in H.

Lemma R_lit : forall d n, dexp d = (-1)%Z -> dman d = (10 * n)%Z -> R_of_dec d = IZR n.
Proof.
  intros d n E M. unfold R_of_dec. rewrite E, M. change (powerRZ 10 (-1)) with (/ (10 * 1)).
  rewrite mult_IZR. field.
Qed.

Section Swap.
  Context (fma chk : bool).
  Notation A := (exact fma chk).

  Definition front (a b x : R) : R :=
    Rtrigo_def.exp (@ln_gamma A (a + b)%R - @ln_gamma A a - @ln_gamma A b
                    + a * Rpower.ln x + b * Rpower.ln (1 - x)).

  Lemma front_swap : forall a b x, front b a (1 - x) = front a b x.
  Proof.
    intros a b x. unfold front. f_equal. rewrite (Rplus_comm b a).
    replace (1 - (1 - x)) with x by ring. ring.
  Qed.

  Lemma betai_cf : forall a b x, 0 < a -> 0 < b -> ~ (3000 < a /\ 3000 < b) -> 0 < x < 1 ->
    @betai A a b x = Ok (if Rlt_bool x ((a + 1) / (a + 2 * b))
                         then front a b x * @betacf A a b x / a
                         else 1 - front a b x * @betacf A b a (1 - x)%R / b).
  Proof.
    intros a b x Ha Hb N Hx. unfold betai.
    exact_simpl.
    rewrite (R_lit 0.0 0), (R_lit 1.0 1), (R_lit 2.0 2) by reflexivity.
    rewrite !Rlt_bool_true by lra. rewrite !Rle_bool_true by lra.
    rewrite !Req_bool_false by lra. cbn [andb orb].
    replace (Rlt_bool 3000 a && Rlt_bool 3000 b)%bool with false.
    2:{ symmetry. destruct (Rlt_bool_spec 3000 a); [|reflexivity].
        rewrite Rlt_bool_false; [reflexivity|]. apply Rnot_lt_le. intros H'. apply N. split; assumption. }
    rewrite (Rmult_comm b 2). unfold front. destruct (Rlt_bool x _); reflexivity.
  Qed.

  Theorem betai_swap : forall a b x, 0 < a -> 0 < b -> ~ (3000 < a /\ 3000 < b) -> 0 < x < 1 ->
    (x < (a + 1) / (a + 2 * b) <-> (b + 1) / (b + 2 * a) <= 1 - x) ->
    exists u v : R, @betai A a b x = Ok u /\ @betai A b a (1 - x)%R = Ok v /\ u + v = 1.
  Proof.
    intros a b x Ha Hb N Hx S.
    rewrite (betai_cf a b x) by assumption.
    rewrite (betai_cf b a (1 - x)) by (tauto || lra).
    replace (1 - (1 - x)) with x by ring. rewrite front_swap.
    do 2 eexists. split; [reflexivity|]. split; [reflexivity|].
    destruct (Rlt_bool_spec x ((a + 1) / (a + 2 * b))) as [L|L].
    - rewrite Rlt_bool_false by (apply S, L). ring.
    - rewrite Rlt_bool_true; [ring|]. apply Rnot_le_lt. intros H. apply S in H. lra.
  Qed.

  (** the switch points of the two calls, when they are consistent *)
  Lemma ex_switch : 1 / 4 < (2 + 1) / (2 + 2 * 3) /\ (3 + 1) / (3 + 2 * 2) <= 1 - 1 / 4.
  Proof. lra. Qed.
End Swap.
