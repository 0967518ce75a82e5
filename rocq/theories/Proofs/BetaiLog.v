(** * The factor in front of the continued fraction of betai *)

From Coq Require Import ZArith Reals Bool Lra Lia List.
From Flocq Require Import Core IEEE754.BinarySingleNaN IEEE754.Binary IEEE754.Bits.
From Verif.Model Require Import Base Arith Utils Gamma Beta.
From Verif.Float Require Import Bits64 Ieee Exact Platforms.
From Verif.Spec Require Import F64Spec Outcome GammaSpec LibmSpec.
From Verif.Proofs Require Import F64 F64Ops Lits Ext ExpBounds Stirling FlErr GammaAcc LnGammaAcc LnGammaFl LnGammaThms BetaAcc GserAcc.
Import ListNotations.
Open Scope R_scope.
Local Notation exp := Rtrigo_def.exp.
Local Notation ln := Rpower.ln.

Section B.
  Variable G : R -> R.
  Hypothesis HG : gamma_function G.
  Context (P : platform) (LN : accurate_ln (p_ln P)).
  Local Notation add := (f64_add P). Local Notation sub := (f64_sub P). Local Notation mul := (f64_mul P). Local Notation div := (f64_div P).
  Local Notation lnF := (libm P (p_ln P)).

  Lemma lG_near : forall t m, / 2 ^ 15 <= m <= 2000 -> Rabs (t - m) <= m / 10 ^ 15 -> Rabs (lG G t - lG G m) <= 5 / 10 ^ 11.
  Proof.
    intros t s Hs D. apply Rabs_le_inv in D.
    assert (K : forall m M, / 2 ^ 16 <= m -> m <= M -> M <= 2001 -> M - m <= m * (2 / 10 ^ 15) -> Rabs (lG G M - lG G m) <= 5 / 10 ^ 11).
    { intros m M Hm HM HM' Hd. eapply Rle_trans; [apply (lG_move G HG m M); lra|].
      assert (L11 : 0 <= ln (M + 2) <= 11).
      { split; [rewrite <- ln_1; apply ln_mono; lra|]. apply Rle_trans with (ln (bpow radix2 11)); [|apply ln_bpow; lia]. apply ln_mono; [lra|]. change (bpow radix2 11) with 2048. lra. }
      assert (IM : 0 <= 2 / m) by (apply Rmult_le_pos; [lra|left; apply Rinv_0_lt_compat; lra]).
      apply Rle_trans with (m * (2 / 10 ^ 15) * (11 + 2 / m)); [apply Rmult_le_compat; lra|]. replace (m * (2 / 10 ^ 15) * (11 + 2 / m)) with (2 / 10 ^ 15 * (11 * m + 2)) by (field; lra). lra. }
    destruct (Rle_or_lt s t) as [H|H]; [apply K; lra|rewrite Rabs_minus_sym; apply K; lra].
  Qed.

  Lemma ln_60 : forall y, / 2 ^ 60 <= y <= 1 -> -42 <= ln y <= 0.
  Proof.
    intros y Hy. split.
    - replace y with (/ / y) by (apply Rinv_inv). rewrite ln_Rinv by (apply Rinv_0_lt_compat; lra).
      assert (K : ln (/ y) <= 42); [|lra]. apply Rle_trans with (ln (2 ^ 60)). { apply ln_mono; [apply Rinv_0_lt_compat; lra|]. rewrite <- (Rinv_inv (2 ^ 60)). apply Rinv_le_contravar; lra. }
      rewrite ln_pow by lra. replace (INR 60) with 60 by (simpl; lra). pose proof ln2_up. lra.
    - rewrite <- ln_1. apply ln_mono; lra.
  Qed.

  Definition bt_exp (a b x : f64) : f64 :=
    add (add (sub (sub (@ln_gamma (ieee P) (add a b)) (@ln_gamma (ieee P) a)) (@ln_gamma (ieee P) b)) (mul a (lnF x))) (mul b (lnF (sub (f64_lit 1.0) x))).

  Lemma near_bound : forall v t e B, Rabs (v - t) <= e -> Rabs t <= B -> Rabs v <= B + e.
  Proof. intros v t e B H1 H2. replace v with ((v - t) + t) by ring. eapply Rle_trans; [apply Rabs_triang|lra]. Qed.

  Lemma bt_log : forall a b x, fin a -> fin b -> fin x -> / 2 ^ 16 <= val a <= 1000 -> / 2 ^ 16 <= val b <= 1000 -> / 2 ^ 60 <= val x <= 1 - / 2 ^ 53 ->
    fin (bt_exp a b x) /\ Rabs (val (bt_exp a b x) - (lG G (val a + val b) - lG G (val a) - lG G (val b) + val a * ln (val x) + val b * ln (1 - val x))) <= 25 / 10 ^ 10.
  Proof.
    intros a b x Fa Fb Fx Ha Hb Hx. unfold bt_exp.
    pose proof eta_small as ES. pose proof tiny_20 as T20. pose proof eta_pos as EP.
    assert (UB : forall t c, Rabs t <= c -> c <= 10 ^ 6 -> Rabs t <= bpow radix2 1000) by (intros t c Ht Hc; apply (bpow_le_1000 _ 20); [lia|change (bpow radix2 20) with 1048576; lra]).
    destruct (add_fl P a b Fa Fb) as [F3 E3]; [apply (UB _ 2000); [rewrite Rabs_pos_eq|]; lra|]. rewrite (Rabs_pos_eq (val a + val b)) in E3 by lra. unfold uu in E3.
    assert (D3 : Rabs (val (add a b) - (val a + val b)) <= (val a + val b) / 10 ^ 15) by lra.
    assert (Ht : / 2 ^ 16 <= val (add a b) <= 2001) by (apply Rabs_le_inv in D3; lra).
    pose proof (lng_1000 G HG P LN a Fa ltac:(lra)) as (F1 & E1 & B1). pose proof (lng_1000 G HG P LN b Fb ltac:(lra)) as (F2 & E2 & B2). pose proof (lng_1000 G HG P LN _ F3 Ht) as (F4 & E4 & B4).
    pose proof (lG_near _ (val a + val b) ltac:(lra) D3) as MV.
    set (ga := @ln_gamma (ieee P) a) in *. set (gb := @ln_gamma (ieee P) b) in *. set (gs := @ln_gamma (ieee P) (add a b)) in *. clearbody ga gb gs. clear E3.
    set (LA := lG G (val a)) in *. set (LB := lG G (val b)) in *. set (LS := lG G (val a + val b)) in *. set (LT := lG G (val (add a b))) in *. clearbody LA LB LS LT.
    destruct (sub_fl P gs ga F4 F1) as [F5 E5]. { apply (UB _ 46002); [unfold Rminus; eapply Rle_trans; [apply Rabs_triang|]; rewrite Rabs_Ropp; lra|lra]. }
    assert (S5 : Rabs (val gs - val ga) <= 46002) by (unfold Rminus; eapply Rle_trans; [apply Rabs_triang|]; rewrite Rabs_Ropp; lra).
    set (s5 := sub gs ga) in *. clearbody s5. assert (E5' : Rabs (val s5 - (val gs - val ga)) <= 6 / 10 ^ 12) by (unfold uu in E5; lra). clear E5. pose proof (near_bound _ _ _ _ E5' S5) as B5.
    assert (S6 : Rabs (val s5 - val gb) <= 69004) by (unfold Rminus; eapply Rle_trans; [apply Rabs_triang|]; rewrite Rabs_Ropp; lra).
    destruct (sub_fl P s5 gb F5 F2) as [F6 E6]; [apply (UB _ _ S6); lra|]. set (s6 := sub s5 gb) in *. clearbody s6.
    assert (E6' : Rabs (val s6 - (val s5 - val gb)) <= 9 / 10 ^ 12) by (unfold uu in E6; lra). clear E6. pose proof (near_bound _ _ _ _ E6' S6) as B6.
    pose proof (ln_60 (val x) ltac:(lra)) as LX. pose proof (ln_60 (1 - val x) ltac:(lra)) as LY.
    (* a ln x *)
    destruct (ln_fl P LN x Fx ltac:(lra) ltac:(rewrite Rabs_left1; lra)) as [Fl El]. rewrite (Rabs_left1 (ln (val x))) in El by lra. set (l := lnF x) in *. clearbody l.
    assert (El' : Rabs (val l - ln (val x)) <= 4 / 10 ^ 14) by (unfold uu in El; lra). clear El.
    assert (AL : Rabs (ln (val x)) <= 42) by (rewrite Rabs_left1; lra). pose proof (near_bound _ _ _ _ El' AL) as Bl.
    assert (Sa : Rabs (val a * val l) <= 1000 * 43) by (rewrite Rabs_mult, (Rabs_pos_eq (val a)) by lra; apply Rmult_le_compat; try apply Rabs_pos; lra).
    destruct (mul_fl P a l Fa Fl) as [Fm Em]; [apply (UB _ _ Sa); lra|]. set (m := mul a l) in *. clearbody m.
    assert (Em' : Rabs (val m - val a * val l) <= 6 / 10 ^ 12) by (unfold uu in Em; lra). clear Em. pose proof (near_bound _ _ _ _ Em' Sa) as Bm.
    assert (Dm : Rabs (val a * (val l - ln (val x))) <= 1000 * (4 / 10 ^ 14)) by (rewrite Rabs_mult, (Rabs_pos_eq (val a)) by lra; apply Rmult_le_compat; try apply Rabs_pos; lra).
    (* b ln (1 - x) *)
    destruct (sub_fl P (f64_lit 1.0) x fin_1 Fx) as [Fo Eo]; [rewrite val_1; apply (UB _ 1); [rewrite Rabs_pos_eq|]; lra|]. rewrite val_1, (Rabs_pos_eq (1 - val x)) in Eo by lra. set (o := sub (f64_lit 1.0) x) in *. clearbody o.
    assert (Eo' : Rabs (val o - (1 - val x)) <= 2 / 10 ^ 16 * (1 - val x)).
    { eapply Rle_trans; [exact Eo|]. unfold uu. assert (/ 10 ^ 100 <= / 10 ^ 20 * / 10 ^ 20) by (rewrite <- Rinv_mult, <- pow_add; apply Rinv_le_contravar; [apply pow_lt; lra|apply Rle_pow; [lra|lia]]). lra. }
    destruct (ln_approx P LN o (1 - val x) (2 / 10 ^ 16) Fo ltac:(lra) ltac:(lra) Eo' ltac:(rewrite Rabs_left1; lra)) as [Fk Ek]. rewrite (Rabs_left1 (ln (1 - val x))) in Ek by lra. set (k := lnF o) in *. clearbody k.
    assert (Ek' : Rabs (val k - ln (1 - val x)) <= 5 / 10 ^ 14) by (unfold uu in Ek; lra). clear Ek.
    assert (AK : Rabs (ln (1 - val x)) <= 42) by (rewrite Rabs_left1; lra). pose proof (near_bound _ _ _ _ Ek' AK) as Bk.
    assert (Sb : Rabs (val b * val k) <= 1000 * 43) by (rewrite Rabs_mult, (Rabs_pos_eq (val b)) by lra; apply Rmult_le_compat; try apply Rabs_pos; lra).
    destruct (mul_fl P b k Fb Fk) as [Fn En]; [apply (UB _ _ Sb); lra|]. set (n := mul b k) in *. clearbody n.
    assert (En' : Rabs (val n - val b * val k) <= 6 / 10 ^ 12) by (unfold uu in En; lra). clear En. pose proof (near_bound _ _ _ _ En' Sb) as Bn.
    assert (Dn : Rabs (val b * (val k - ln (1 - val x))) <= 1000 * (5 / 10 ^ 14)) by (rewrite Rabs_mult, (Rabs_pos_eq (val b)) by lra; apply Rmult_le_compat; try apply Rabs_pos; lra).
    (* sums *)
    assert (S7 : Rabs (val s6 + val m) <= 112010) by (eapply Rle_trans; [apply Rabs_triang|lra]).
    destruct (add_fl P s6 m F6 Fm) as [F7 E7]; [apply (UB _ _ S7); lra|]. set (s7 := add s6 m) in *. clearbody s7.
    assert (E7' : Rabs (val s7 - (val s6 + val m)) <= 14 / 10 ^ 12) by (unfold uu in E7; lra). clear E7. pose proof (near_bound _ _ _ _ E7' S7) as B7.
    assert (S8 : Rabs (val s7 + val n) <= 155020) by (eapply Rle_trans; [apply Rabs_triang|lra]).
    destruct (add_fl P s7 n F7 Fn) as [F8 E8]; [apply (UB _ _ S8); lra|]. set (s8 := add s7 n) in *. clearbody s8.
    assert (E8' : Rabs (val s8 - (val s7 + val n)) <= 18 / 10 ^ 12) by (unfold uu in E8; lra). clear E8.
    split; [exact F8|]. clear - E1 E2 E4 MV E5' E6' Em' Dm En' Dn E7' E8'.
    apply Rabs_le_inv in E1, E2, E4, MV, E5', E6', Em', Dm, En', Dn, E7', E8'. apply Rabs_le.
    assert (Q1 : val a * (val l - ln (val x)) = val a * val l - val a * ln (val x)) by ring. assert (Q2 : val b * (val k - ln (1 - val x)) = val b * val k - val b * ln (1 - val x)) by ring.
    rewrite Q1 in Dm. rewrite Q2 in Dn. lra.
  Qed.
End B.
