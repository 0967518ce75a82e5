(** * faddeeva over the real numbers: exact reflection in the imaginary axis *)

From Coq Require Import ZArith Reals Bool Lra Lia List.
From Flocq Require Import Core.
From Verif.Model Require Import Base Arith Utils Error Dawson FaddeevaTables Faddeeva.
From Verif.Float Require Import Bits64 Ieee Exact.
From Verif.Spec Require Import Outcome.
From Verif.Proofs Require Import F64 F64Ops Lits.
Import ListNotations.
Open Scope R_scope.

Section Ex.
  Context (fma chk : bool).
  Notation A := (exact fma chk).

  Definition cje (a b : R * R) : Prop := fst b = fst a /\ snd b = - snd a.
  Definition nje (a b : R * R) : Prop := fst b = - fst a /\ snd b = snd a.

  Lemma cmul_cn : forall a a' b b', cje a a' -> nje b b' -> nje (@cmul A a b) (@cmul A a' b').
  Proof.
    intros [a1 a2] [a1' a2'] [b1 b2] [b1' b2'] [A1 A2] [B1 B2]. cbn [fst snd] in *. subst.
    split; cbn; ring.
  Qed.
  Lemma cmul_cc : forall a a' b b', cje a a' -> cje b b' -> cje (@cmul A a b) (@cmul A a' b').
  Proof.
    intros [a1 a2] [a1' a2'] [b1 b2] [b1' b2'] [A1 A2] [B1 B2]. cbn [fst snd] in *. subst.
    split; cbn; ring.
  Qed.
  Lemma cmul_nn : forall a a' b b', nje a a' -> nje b b' -> cje (@cmul A a b) (@cmul A a' b').
  Proof.
    intros [a1 a2] [a1' a2'] [b1 b2] [b1' b2'] [A1 A2] [B1 B2]. cbn [fst snd] in *. subst.
    split; cbn; ring.
  Qed.
  Lemma cadd_n : forall a a' b b', nje a a' -> nje b b' -> nje (@cadd A a b) (@cadd A a' b').
  Proof.
    intros [a1 a2] [a1' a2'] [b1 b2] [b1' b2'] [A1 A2] [B1 B2]. cbn [fst snd] in *. subst.
    split; cbn; ring.
  Qed.
  Lemma cadd_c : forall a a' b b', cje a a' -> cje b b' -> cje (@cadd A a b) (@cadd A a' b').
  Proof.
    intros [a1 a2] [a1' a2'] [b1 b2] [b1' b2'] [A1 A2] [B1 B2]. cbn [fst snd] in *. subst.
    split; cbn; ring.
  Qed.
  Lemma csub_c : forall a a' b b', cje a a' -> cje b b' -> cje (@csub A a b) (@csub A a' b').
  Proof.
    intros [a1 a2] [a1' a2'] [b1 b2] [b1' b2'] [A1 A2] [B1 B2]. cbn [fst snd] in *. subst.
    split; cbn; ring.
  Qed.
  Lemma caddf_c : forall a a' r, cje a a' -> cje (@caddf A a r) (@caddf A a' r).
  Proof.
    intros [a1 a2] [a1' a2'] r [A1 A2]. cbn [fst snd] in *. subst. split; reflexivity.
  Qed.
  Lemma cscale_c : forall r a a', cje a a' -> cje (@cscale A r a) (@cscale A r a').
  Proof.
    intros r [a1 a2] [a1' a2'] [A1 A2]. cbn [fst snd] in *. subst. split; cbn; [reflexivity|].
    change (r * - a2 = - (r * a2)). ring.
  Qed.

  Lemma lit0 : R_of_dec 0.0 = 0.
  Proof. unfold R_of_dec. cbn [dman dexp]. apply Rmult_0_l. Qed.
  Lemma re_only_c : forall d, cje (@re_only A d) (@re_only A d).
  Proof. intros d. split; [reflexivity|]. change (R_of_dec 0.0 = - R_of_dec 0.0). rewrite lit0. lra. Qed.
  Lemma im_n : forall v : R, nje (R_of_dec 0.0, v) (R_of_dec 0.0, v).
  Proof. intros v. split; [|reflexivity]. cbn [fst]. rewrite lit0. lra. Qed.

  Fixpoint alternate (re : bool) (cs : list (R * R)) : Prop :=
    match cs with
    | [] => re = true
    | c :: cs => (if re then cje c c else nje c c) /\ alternate (negb re) cs
    end.

  Lemma chain_sym : forall z z', nje z z' -> forall (cs : list (R * R)) acc acc' (re : bool),
    (if re then nje acc acc' else cje acc acc') -> alternate re cs ->
    nje (fold_left (fun acc c => @cadd A (@cmul A acc z) c) cs acc)
        (fold_left (fun acc c => @cadd A (@cmul A acc z') c) cs acc').
  Proof.
    intros z z' Hz cs. induction cs as [|c cs IH]; intros acc acc' re Ha Hc.
    - cbn in Hc. subst re. exact Ha.
    - cbn [fold_left]. cbn [alternate] in Hc. destruct Hc as [C Cs]. apply (IH _ _ (negb re)); [|exact Cs].
      destruct re; cbn [negb].
      + apply cadd_c; [apply cmul_nn; assumption|exact C].
      + apply cadd_n; [apply cmul_cn; assumption|exact C].
  Qed.

  Lemma maclaurin_sym : forall z z' c0 cs (re : bool), nje z z' -> (if re then nje c0 c0 else cje c0 c0) ->
    alternate re cs -> cje (@maclaurin A z c0 cs) (@maclaurin A z' c0 cs).
  Proof.
    intros z z' c0 cs re Hz H0 Hc. unfold maclaurin. apply caddf_c. apply cmul_nn; [|exact Hz].
    apply (chain_sym z z' Hz cs c0 c0 re); assumption.
  Qed.

  Ltac alt := cbn [alternate negb]; repeat (split; [first [apply re_only_c|apply im_n]|]); reflexivity.

  Lemma small_sym : forall x y s, cje (@faddeeva_small A x y s) (@faddeeva_small A (- x)%R y s).
  Proof.
    intros x y s. unfold faddeeva_small.
    assert (H : nje (x, y) (- x, y)) by (split; reflexivity).
    destruct (@Arith.lt A s _); [destruct (@Arith.lt A s _)|].
    - apply (maclaurin_sym _ _ _ _ false H); [apply re_only_c|alt].
    - apply (maclaurin_sym _ _ _ _ true H); [apply im_n|alt].
    - apply (maclaurin_sym _ _ _ _ true H); [apply im_n|alt].
  Qed.

  Lemma asym_fold : forall r2 r2' (cs : list dec), cje r2 r2' -> forall u v, cje u v ->
    cje (fold_left (fun acc d => @caddf A (@cmul A acc r2) (@lit A d)) cs u)
        (fold_left (fun acc d => @caddf A (@cmul A acc r2') (@lit A d)) cs v).
  Proof.
    intros r2 r2' cs H2. induction cs as [|d cs IH]; intros u v H; [exact H|]. cbn [fold_left]. apply IH.
    apply caddf_c. apply cmul_cc; assumption.
  Qed.

  Lemma asymptotic_sym : forall r2 r2' r r' cn cs, cje r2 r2' -> cje r r' ->
    cje (@asymptotic A r2 r cn cs) (@asymptotic A r2' r' cn cs).
  Proof.
    intros r2 r2' r r' cn cs H2 H. destruct cs as [|c cs]; [apply cscale_c; exact H|].
    unfold asymptotic. apply cmul_cc; [|exact H].
    apply asym_fold; [exact H2|]. apply caddf_c. apply cscale_c. exact H2.
  Qed.

  (** [m'] returns the conjugate of what [m] returns *)
  Definition conj_of (m m' : res (R * R)) : Prop := forall r, m = Ok r -> exists r', m' = Ok r' /\ cje r r'.

  Lemma conj_ok : forall r r', cje r r' -> conj_of (Ok r) (Ok r').
  Proof. intros r r' H s E. injection E as <-. exists r'. auto. Qed.

  Lemma near_imag_sym : forall x y,
    conj_of (@faddeeva_near_imag A x y) (@faddeeva_near_imag A (- x)%R y).
  Proof.
    intros x y. unfold faddeeva_near_imag.
    change (@abs A (- x)%R) with (Rabs (- x)). rewrite Rabs_Ropp. change (Rabs x) with (@abs A x).
    destruct (@erfcx A y) as [w|p|]; cbn [bind]; try (intros r H; discriminate H).
    destruct (@Arith.eq A (@abs A x) _).
    - apply conj_ok. split; [reflexivity|]. change (R_of_dec 0.0 = - R_of_dec 0.0). rewrite lit0. lra.
    - apply conj_ok. split; [reflexivity|]. cbn [snd].
      match goal with |- @mul A (- x)%R ?k = - (@mul A x ?k) => generalize k end. intros k.
      change (- x * k = - (x * k)). ring.
  Qed.

  Lemma dawson_neg : forall (x d : R), @dawson A x = Ok d -> @dawson A (- x)%R = Ok (- d)%R.
  Proof.
    intros x d. unfold dawson.
    change (@abs A (- x)%R) with (Rabs (- x)). rewrite Rabs_Ropp. change (Rabs x) with (@abs A x).
    destruct (@Arith.lt A (@abs A x) (@lit A 0.2)) eqn:C.
    - intros E. injection E as <-. f_equal. unfold dawson_series. cbn -[R_of_dec]. unfold Rdiv. ring.
    - destruct (arith_u _ _ _) as [n0|p|]; cbn [bind]; intros E; try discriminate E. injection E as <-. f_equal.
      assert (NZ : x <> 0).
      { intros ->. cbn -[R_of_dec] in C. rewrite Rabs_R0 in C.
        revert C. case Rlt_bool_spec; [discriminate|]. intros L _.
        assert (R_of_dec 0.2 = 0.2) by (unfold R_of_dec; cbn [dman dexp]; rewrite powerRZ_10; simpl; lra). lra. }
      unfold dawson_sampled.
      change (@abs A (- x)%R) with (Rabs (- x)). rewrite Rabs_Ropp. change (Rabs x) with (@abs A x).
      destruct (fold_left _ _ _) as [[[d1 d2] e1] sum].
      match goal with |- @mul A (@mul A ?c (@sign A ?e _)) _ = _ => generalize c, e end. intros c e.
      assert (S : @sign A e (- x)%R = - (@sign A e x)).
      { unfold sign. cbn -[R_of_dec]. 
        repeat match goal with |- context [Rle_bool ?a ?b] => destruct (Rle_bool_spec a b) end; lra. }
      rewrite S. change (c * - (@sign A e x) * sum = - (c * (@sign A e x) * sum)).
      generalize (@sign A e x). intros t. change R in t. ring.
  Qed.

  Lemma near_real_sym : forall x y,
    conj_of (@faddeeva_near_real A x y) (@faddeeva_near_real A (- x)%R y).
  Proof.
    intros x y. unfold faddeeva_near_real, im_w_of_x.
    change (@abs A (- x)%R) with (Rabs (- x)). rewrite Rabs_Ropp. change (Rabs x) with (@abs A x).
    destruct (@dawson A x) as [d|p|] eqn:D; cbn [bind]; try (intros r H; discriminate H).
    rewrite (dawson_neg x d D). cbn [bind].
    match goal with |- context [Ok (?e, _)] => generalize e end. intros e.
    generalize (@INV_SQRT_PI A). intros k. generalize (@lit A 2.0). intros two.
    destruct (@Arith.eq A (@abs A y) _); apply conj_ok; split; cbn [fst snd]; try reflexivity.
    - change (two * - d * k = - (two * d * k)). change R in d, k, two. ring.
    - change (e + y * two * (- x * (two * - d * k) - k) = e + y * two * (x * (two * d * k) - k)).
      change R in d, k, two, e. ring.
    - change (two * - d * k - two * - x * y * e = - (two * d * k - two * x * y * e)).
      change R in d, k, two, e. ring.
  Qed.

  Lemma cexp_conj : forall a b : R, cje (@cexp A (a, b)) (@cexp A (a, - b)).
  Proof.
    intros a b. split; cbn [fst snd cexp exact]; [rewrite cos_neg; reflexivity|rewrite sin_neg; ring].
  Qed.

  Definition foldx (x y : R) : R := if @Arith.lt A y (@lit A 0.0) then - x else x.

  Lemma large_res_sym : forall x y s,
    match @faddeeva_large_res A x y s, @faddeeva_large_res A (- x)%R y s with
    | inl a, inl b => cje a b | inr a, inr b => cje a b | _, _ => False end.
  Proof.
    intros x y s. unfold faddeeva_large_res.
    change (@abs A (- x)%R) with (Rabs (- x)). rewrite Rabs_Ropp. change (Rabs x) with (@abs A x).
    assert (E : (if @Arith.lt A y (@lit A 0.0) then @neg A (- x)%R else - x)
              = @neg A (if @Arith.lt A y (@lit A 0.0) then @neg A x else x)).
    { destruct (@Arith.lt A y _); reflexivity. }
    rewrite E. clear E. generalize (if @Arith.lt A y (@lit A 0.0) then @neg A x else x). intros xs. change R in xs.
    generalize (@abs A y). intros ya. change R in ya. generalize (@INV_SQRT_PI A). intros k. change R in k.
    destruct (@Arith.lt A (@lit A 4.8e15) s).
    - destruct (@Arith.lt A ya (@abs A x)).
      + assert (D : k / (- xs + ya / - xs * ya) = - (k / (xs + ya / xs * ya))).
        { unfold Rdiv. rewrite Rinv_opp. rewrite <- Ropp_mult_distr_r, <- Ropp_mult_distr_l, <- Ropp_plus_distr, Rinv_opp. ring. }
        split; cbn [fst snd].
        * change (k / (- xs + ya / - xs * ya) * (ya / - xs) = k / (xs + ya / xs * ya) * (ya / xs)).
          rewrite D. unfold Rdiv. rewrite Rinv_opp. ring.
        * exact D.
      + change (@is_infinite A ya) with false. cbv iota.
        assert (D : k / (- xs / ya * - xs + ya) = k / (xs / ya * xs + ya)).
        { f_equal. unfold Rdiv. ring. }
        split; cbn [fst snd].
        * exact D.
        * change (k / (- xs / ya * - xs + ya) * (- xs / ya) = - (k / (xs / ya * xs + ya) * (xs / ya))).
          rewrite D. unfold Rdiv. ring.
    - generalize (@div A (@lit A 1.0) s). intros z. change R in z.
      generalize (@neg A (@lit A 2.0)). intros m. change R in m.
      assert (HR : cje (@mul A ya z, @mul A xs z) (@mul A ya z, @mul A (- xs)%R z)).
      { split; cbn [fst snd]; [reflexivity|]. change (- xs * z = - (xs * z)). ring. }
      assert (H2 : cje (@mul A (@mul A (@mul A z z) (@add A xs ya)) (@sub A xs ya), @mul A (@mul A (@mul A m (@mul A z z)) xs) ya)
                       (@mul A (@mul A (@mul A z z) (@add A (- xs)%R ya)) (@sub A (- xs)%R ya), @mul A (@mul A (@mul A m (@mul A z z)) (- xs)%R) ya)).
      { split; cbn [fst snd].
        - change (z * z * (- xs + ya) * (- xs - ya) = z * z * (xs + ya) * (xs - ya)). ring.
        - change (m * (z * z) * - xs * ya = - (m * (z * z) * xs * ya)). ring. }
      destruct (@Arith.lt A _ s); [destruct (@Arith.lt A _ s)|]; apply asymptotic_sym; assumption.
  Qed.

  Lemma large_sym : forall x y s, cje (@faddeeva_large A x y s) (@faddeeva_large A (- x)%R y s).
  Proof.
    intros x y s. pose proof (large_res_sym x y s) as H. unfold faddeeva_large.
    destruct (@faddeeva_large_res A x y s) as [a|a]; destruct (@faddeeva_large_res A (- x)%R y s) as [b|b];
      try contradiction; [exact H|].
    destruct (@Arith.lt A y _); [|exact H].
    apply csub_c; [|exact H]. apply cscale_c.
    generalize (@abs A y), (@lit A 2.0). intros ya two. change R in ya, two.
    match goal with |- cje (cexp (?a, ?b)) (cexp (?a', ?b')) =>
      replace a' with a; [replace b' with (- b); [apply cexp_conj|]|] end.
    - change (- (two * - x * y) = two * - - x * y). ring.
    - change ((ya - - x) * (- x + ya) = (ya - - - x) * (- - x + ya)). ring.
  Qed.

  Lemma taylor_neg : forall x y : R, @faddeeva_taylor A (- x)%R y = @faddeeva_taylor A x y.
  Proof.
    intros x y. unfold faddeeva_taylor, tile_index.
    change (@abs A (- x)%R) with (Rabs (- x)). rewrite Rabs_Ropp. reflexivity.
  Qed.

  Lemma unfold_sym : forall x y r, x <> 0 ->
    cje (@faddeeva_unfold A x y r) (@faddeeva_unfold A (- x)%R y r).
  Proof.
    intros x y r NZ. unfold faddeeva_unfold.
    assert (S : @Arith.lt A (- x)%R (@lit A 0.0) = negb (@Arith.lt A x (@lit A 0.0))).
    { change (Rlt_bool (- x) (R_of_dec 0.0) = negb (Rlt_bool x (R_of_dec 0.0))). rewrite lit0.
      case Rlt_bool_spec; case Rlt_bool_spec; cbn [negb]; intros; try reflexivity; exfalso; lra. }
    rewrite S.
    assert (CR : cje r (fst r, @neg A (snd r))) by (split; reflexivity).
    assert (CR' : cje (fst r, @neg A (snd r)) r).
    { split; cbn [fst snd]; [reflexivity|]. change (snd r = - - snd r). rewrite Ropp_involutive. reflexivity. }
    destruct (@Arith.lt A y _).
    - match goal with |- context [@cscale A ?two (cexp (@mul A (@sub A y x) _, _))] =>
        assert (E : cje (@cscale A two (@cexp A (@mul A (@sub A y x) (@add A x y), @mul A (@mul A (@neg A two) x) y)))
                        (@cscale A two (@cexp A (@mul A (@sub A y (- x)%R) (@add A (- x)%R y), @mul A (@mul A (@neg A two) (- x)%R) y)))) end.
      { apply cscale_c. generalize (@lit A 2.0). intros two. change R in two.
        match goal with |- cje (cexp (?a, ?b)) (cexp (?a', ?b')) =>
          replace a' with a; [replace b' with (- b); [apply cexp_conj|]|] end.
        - change (- (- two * x * y) = - two * - x * y). ring.
        - change ((y - x) * (x + y) = (y - - x) * (- x + y)). ring. }
      destruct (@Arith.lt A x _); cbn [negb]; apply csub_c; assumption.
    - destruct (@Arith.lt A x _); cbn [negb]; assumption.
  Qed.

  (** C43, over the real numbers *)
  Theorem faddeeva_reflection_exact : forall (x y a b : R),
    @faddeeva A x y = Ok (a, b) -> @faddeeva A (- x)%R y = Ok (a, (- b)%R).
  Proof.
    assert (G : forall x y, conj_of (@faddeeva A x y) (@faddeeva A (- x)%R y)).
    { intros x y. unfold faddeeva.
      change (@abs A (- x)%R) with (Rabs (- x)). rewrite Rabs_Ropp. change (Rabs x) with (@abs A x).
      destruct (@Arith.lt A (@abs A y) _); [apply near_real_sym|].
      destruct (@Arith.lt A (@abs A x) _) eqn:C2; [apply near_imag_sym|].
      destruct (@Arith.lt A _ (@lit A 0.053)) eqn:C3; [apply conj_ok; apply small_sym|].
      destruct (@Arith.le A _ _); [apply conj_ok; apply large_sym|].
      change (@is_nan A (@abs A x)) with false. change (@is_nan A y) with false. cbv iota.
      rewrite taylor_neg. destruct (@faddeeva_taylor A x y) as [r|p|]; cbn [bind]; try (intros u H; discriminate H).
      apply conj_ok. apply unfold_sym. intros ->.
      (* x = 0 and y <> 0 take the near-axis branch *)
      change (Rlt_bool (Rabs 0) (R_of_dec 1e-8 * Rabs y) = false) in C2.
      change (Rlt_bool (Rabs 0 * Rabs 0 + y * y) (R_of_dec 0.053) = false) in C3.
      assert (E1 : R_of_dec 1e-8 = 1 / 100000000) by (unfold R_of_dec; cbn [dman dexp]; rewrite powerRZ_10; simpl; lra).
      assert (E2 : R_of_dec 0.053 = 0.053) by (unfold R_of_dec; cbn [dman dexp]; rewrite powerRZ_10; simpl; lra).
      rewrite E1, Rabs_R0 in C2. rewrite E2, Rabs_R0 in C3.
      revert C2 C3. case Rlt_bool_spec; [discriminate|]. case Rlt_bool_spec; [discriminate|]. intros L3 L2 _ _.
      assert (Y0 : y = 0). { destruct (Req_dec y 0) as [Z|Z]; [exact Z|]. apply Rabs_pos_lt in Z. lra. }
      subst y. lra. }
    intros x y a b H. destruct (G x y (a, b) H) as ([a' b'] & E & C & D). cbn [fst snd] in C, D. subst. exact E.
  Qed.
End Ex.
