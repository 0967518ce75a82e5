(** * Large arguments of besseljy and besselik: the first continued fraction never converges *)

From Coq Require Import ZArith Reals Bool Lra Lia List String.
From Flocq Require Import Core IEEE754.BinarySingleNaN IEEE754.Binary IEEE754.Bits.
From Verif.Model Require Import Base Arith BesselTables Bessel.
From Verif.Float Require Import Bits64 Ieee Exact Platforms.
From Verif.Spec Require Import F64Spec Outcome.
From Verif.Proofs Require Import F64 F64Ops Lits Ext Boundaries Domains Symmetry BesselInt BesselRec BesselPanics
  ErfcAcc GserAcc GcfLoop.
Import ListNotations.
Open Scope R_scope.

Local Notation u := (/ 2 ^ 53).
Local Notation beta := (/ 2 ^ 16).
Local Notation B := Binary.B2R.

(** ** A loop whose numbered invariant excludes the stop *)
Lemma for_break_count : forall {S} (body : Z -> S -> S * bool) (inv : nat -> S -> Prop) (N : Z) l k s,
  (forall j i s, (Z.of_nat j < N)%Z -> inv j s -> inv (Datatypes.S j) (fst (body i s)) /\ snd (body i s) = false) ->
  (Z.of_nat k + Z.of_nat (List.length l) <= N)%Z -> inv k s -> snd (for_break l body s) = false.
Proof.
  intros S body inv N l. induction l as [|i l IH]; intros k s H K I; [reflexivity|].
  cbn [List.length] in K. destruct (H k i s) as [I' E]; [lia|exact I|].
  cbn [for_break]. destruct (body i s) as [s' b]. cbn in I', E. subst b.
  apply (IH (Datatypes.S k)); [exact H|lia|exact I'].
Qed.

(** ** Rounding *)
Lemma fpos : forall r x, rounds r x -> bpow radix2 (-1022) <= x <= bpow radix2 1000 ->
  fin r /\ x * (1 - u) <= B r <= x * (1 + u).
Proof.
  intros r x H [H1 H2]. assert (0 < x) by (pose proof (bpow_gt_0 radix2 (-1022)); lra).
  destruct (rel_fl r x H) as [F E]; [rewrite Rabs_pos_eq by lra; lra|].
  split; [exact F|]. rewrite (Rabs_pos_eq x) in E by lra. apply Rabs_le_inv in E. lra.
Qed.

Lemma fneg : forall r x, rounds r x -> bpow radix2 (-1022) <= - x <= bpow radix2 1000 ->
  fin r /\ - x * (1 - u) <= - B r <= - x * (1 + u).
Proof.
  intros r x H [H1 H2]. assert (x < 0) by (pose proof (bpow_gt_0 radix2 (-1022)); lra).
  destruct (rel_fl r x H) as [F E]; [rewrite Rabs_left by lra; lra|].
  split; [exact F|]. rewrite (Rabs_left x) in E by lra. apply Rabs_le_inv in E. lra.
Qed.

Lemma bp : forall a b, (a <= b)%Z -> bpow radix2 a <= bpow radix2 b.
Proof. intros. apply bpow_le. lia. Qed.

Lemma bp1 : bpow radix2 0 = 1. Proof. reflexivity. Qed.

Lemma half_bp : forall k, bpow radix2 (k - 1) = bpow radix2 k / 2.
Proof. intros. replace k with ((k - 1) + 1)%Z at 2 by lia. rewrite bpow_plus. change (bpow radix2 1) with 2. lra. Qed.

(** dividing one by a number of known size *)
Lemma inv_pos : forall P c m n, fin c -> bpow radix2 m <= B c <= bpow radix2 n -> (-1000 <= m)%Z -> (n <= 1000)%Z ->
  fin (f64_div P (f64_lit 1.0) c) /\ / B c * (1 - u) <= B (f64_div P (f64_lit 1.0) c) <= / B c * (1 + u)
  /\ bpow radix2 (- n) <= / B c <= bpow radix2 (- m).
Proof.
  intros P c m n F [H1 H2] M N. pose proof (bpow_gt_0 radix2 m) as P0.
  pose proof fin_1 as F1. pose proof val_1 as V1. rewrite val_fin in V1 by exact F1.
  assert (Q : bpow radix2 (- n) <= / B c <= bpow radix2 (- m)).
  { rewrite !bpow_opp. split; apply Rinv_le_contravar; lra. }
  assert (R : rounds (f64_div P (f64_lit 1.0) c) (/ B c)).
  { replace (/ B c) with (B (f64_lit 1.0) / B c) by (rewrite V1; unfold Rdiv; lra). apply div_spec; [exact F1|exact F|lra]. }
  pose proof (bp (-1022) (- n) ltac:(lia)). pose proof (bp (- m) 1000 ltac:(lia)).
  destruct (fpos _ _ R) as [G I]; [lra|]. split; [exact G|split; [exact I|exact Q]].
Qed.

Lemma inv_neg : forall P c m n, fin c -> bpow radix2 m <= - B c <= bpow radix2 n -> (-1000 <= m)%Z -> (n <= 1000)%Z ->
  fin (f64_div P (f64_lit 1.0) c) /\ / (- B c) * (1 - u) <= - B (f64_div P (f64_lit 1.0) c) <= / (- B c) * (1 + u)
  /\ bpow radix2 (- n) <= / (- B c) <= bpow radix2 (- m).
Proof.
  intros P c m n F [H1 H2] M N. pose proof (bpow_gt_0 radix2 m) as P0.
  pose proof fin_1 as F1. pose proof val_1 as V1. rewrite val_fin in V1 by exact F1.
  assert (Q : bpow radix2 (- n) <= / (- B c) <= bpow radix2 (- m)).
  { rewrite !bpow_opp. split; apply Rinv_le_contravar; lra. }
  assert (E : / (- B c) = - (/ B c)) by (field; lra).
  assert (R : rounds (f64_div P (f64_lit 1.0) c) (/ B c)).
  { replace (/ B c) with (B (f64_lit 1.0) / B c) by (rewrite V1; unfold Rdiv; lra). apply div_spec; [exact F1|exact F|lra]. }
  pose proof (bp (-1022) (- n) ltac:(lia)). pose proof (bp (- m) 1000 ltac:(lia)).
  destruct (fneg _ _ R) as [G I]; [lra|]. split; [exact G|split; [rewrite E; exact I|exact Q]].
Qed.

(** ** Real inequalities of one step *)
Lemma grow_d : forall e S D, beta <= e <= 1 / 2 -> 0 < S -> S <= (e + beta) * (1 + u) -> / S * (1 - u) <= D ->
  1 <= D * (e + 2 * beta).
Proof.
  intros e S D He HS H1 H2. pose proof (Rinv_0_lt_compat S HS) as Q. pose proof (Rinv_r S ltac:(lra)) as I.
  assert (X : S <= (1 - u) * (e + 2 * beta)) by lra.
  assert (Y : / S * S <= / S * ((1 - u) * (e + 2 * beta))) by (apply Rmult_le_compat_l; lra).
  assert (Z : (/ S * (1 - u)) * (e + 2 * beta) <= D * (e + 2 * beta)) by (apply Rmult_le_compat_r; lra). lra.
Qed.

(** [1/e - beta], with roundings, is still above [1/(e + 2 beta)] *)
Lemma grow_c : forall e q C, beta <= e <= 52 / 100 -> / e <= q -> (q * (1 - u) - beta) * (1 - u) <= C ->
  1 + u <= C * (e + 2 * beta) * (1 - u).
Proof.
  intros e q C He Hq HC. assert (E : / e * e = 1) by (field; lra).
  assert (P : 19 / 10 <= / e). { replace (19 / 10) with (/ (10 / 19)) by lra. apply Rinv_le_contravar; lra. }
  assert (X : (/ e * (1 - u) - beta) * (1 - u) <= C).
  { eapply Rle_trans; [|exact HC]. apply Rmult_le_compat_r; [lra|]. apply Rplus_le_compat_r. apply Rmult_le_compat_r; lra. }
  assert (Y : (/ e * (1 - u) - beta) * (1 - u) * (e + 2 * beta) <= C * (e + 2 * beta)) by (apply Rmult_le_compat_r; lra).
  assert (Z : (/ e * (1 - u) - beta) * (1 - u) * (e + 2 * beta)
              = (1 - u) * ((1 - u) * (/ e * e) + 2 * beta * (1 - u) * / e - beta * (e + 2 * beta))) by ring.
  rewrite E in Z. lra.
Qed.

Lemma shrink : forall g S D, 0 < S -> 1 + u <= S * g -> D <= / S * (1 + u) -> D <= g.
Proof.
  intros g S D HS H1 H2. pose proof (Rinv_0_lt_compat S HS) as Q. pose proof (Rinv_r S ltac:(lra)) as I.
  assert (Y : / S * (1 + u) <= / S * (S * g)) by (apply Rmult_le_compat_l; lra).
  replace (/ S * (S * g)) with (S * / S * g) in Y by ring. rewrite I in Y. lra.
Qed.

Lemma inv_of_prod : forall C g, 0 < g -> 0 < C -> 1 <= C * g -> / C <= g /\ / g <= C.
Proof.
  intros C g Hg HC H. pose proof (Rinv_0_lt_compat C HC). pose proof (Rinv_0_lt_compat g Hg).
  pose proof (Rinv_r C ltac:(lra)) as I. pose proof (Rinv_r g ltac:(lra)) as J. split.
  - assert (/ C * 1 <= / C * (C * g)) by (apply Rmult_le_compat_l; lra).
    replace (/ C * (C * g)) with (C * / C * g) in * by ring. rewrite I in *. lra.
  - assert (1 * / g <= C * g * / g) by (apply Rmult_le_compat_r; lra).
    replace (C * g * / g) with (C * (g * / g)) in * by ring. rewrite J in *. lra.
Qed.

(** ** The stopping test *)
Lemma nostop : forall P z r, rounds z r -> r <= 1 / 2 \/ 2 <= r ->
  f64_le (f64_abs (f64_sub P z (f64_lit 1.0))) (@EPS (ieee P)) = false.
Proof.
  intros P z r R H. destruct (Binary.is_finite z) eqn:F.
  - pose proof fin_1 as F1. pose proof val_1 as V1. rewrite val_fin in V1 by exact F1.
    assert (V : B z = rs r) by (rewrite <- val_fin by exact F; apply R).
    assert (O4 : bpow radix2 4 <= Om) by (apply bp; lia). change (bpow radix2 4) with 16 in O4.
    assert (V' : B z <= 1 / 2 \/ 2 <= B z).
    { rewrite V. destruct H as [H|H].
      - left. apply rs_le_fmt; [|lra|exact H].
        replace (1 / 2) with (bpow radix2 (-1)) by (simpl; lra). apply fmt_bpow. lia.
      - right. apply rs_ge; [|lra|exact H]. change 2 with (bpow radix2 1). apply fmt_bpow. lia. }
    destruct (sub_spec P z _ F F1) as [N W]. rewrite V1 in W.
    destruct eps_facts as [FE VE]. change (@epsilon (ieee (ideal true false))) with (@EPS (ieee P)) in *.
    apply le_false; [rewrite nan_abs; exact N|apply fin_nonnan, FE|]. rewrite val_abs, VE, W.
    assert (X : rs (B z - 1) <= - (1 / 2) \/ 1 <= rs (B z - 1)).
    { destruct V' as [V'|V'].
      - left. apply rs_le_fmt; [|lra|lra]. replace (- (1 / 2)) with (- bpow radix2 (-1)) by (simpl; lra).
        apply fmt_opp, fmt_bpow. lia.
      - right. apply rs_ge; [|lra|lra]. change 1 with (bpow radix2 0). apply fmt_bpow. lia. }
    destruct X as [X|X]; [rewrite Rabs_left by lra|rewrite Rabs_pos_eq by lra]; lra.
  - destruct R as [N _]. destruct z as [s|s|s pl Hp|s m e Hb]; try discriminate.
    destruct s; vm_compute; reflexivity.
Qed.

Lemma clip_id : forall P z m, fin z -> bpow radix2 m <= Rabs (B z) -> (-970 <= m)%Z -> @clip_fpmin (ieee P) z = z.
Proof.
  intros P z m F H M. unfold clip_fpmin. ieee_simpl. destruct (fpmin_facts P) as [FF VF].
  replace (f64_lt (f64_abs z) (@FPMIN (ieee P))) with false; [reflexivity|]. symmetry.
  apply lt_false; [rewrite nan_abs; apply fin_nonnan, F|apply fin_nonnan, FF|].
  rewrite VF, val_abs, val_fin by exact F. pose proof (bp (-970) m M). lra.
Qed.

(** ** besseljy: [d] and [c] keep opposite signs and alternate between small and large *)
Definition even (e : R) (d c : f64) : Prop := fin d /\ fin c /\ 0 <= - B d <= e /\ bpow radix2 (-975) <= B c <= e.
Definition odd (g : R) (d c : f64) : Prop :=
  fin d /\ fin c /\ (1 <= B d * g /\ B d <= bpow radix2 910) /\ (1 <= - B c * g /\ - B c <= bpow radix2 980).
Definition bok (b : f64) : Prop := fin b /\ bpow radix2 (-900) <= B b <= beta.

Lemma bpm1 : forall k, (k <= 0)%Z -> bpow radix2 k <= 1.
Proof. intros k H. exact (bp k 0 H). Qed.
Lemma bpp1 : forall k, (0 <= k)%Z -> 1 <= bpow radix2 k.
Proof. intros k H. exact (bp 0 k H). Qed.

Lemma dbl_bp : forall k, bpow radix2 (k + 1) = 2 * bpow radix2 k.
Proof. intros. rewrite bpow_plus. change (bpow radix2 1) with 2. lra. Qed.

Section Steps.
  Context (P : platform).

  Lemma jy_even_odd : forall e b d c, beta <= e <= 1 / 2 -> bok b -> even e d c ->
    odd (e + 2 * beta) (f64_div P (f64_lit 1.0) (@clip_fpmin (ieee P) (f64_sub P b d)))
                       (@clip_fpmin (ieee P) (f64_sub P b (f64_div P (f64_lit 1.0) c))).
  Proof.
    intros e b d c He (Fb & Hb) (Fd & Fc & Hd & Hc).
    pose proof (bpow_gt_0 radix2 (-900)) as L0. pose proof (bpow_gt_0 radix2 (-975)) as L1.
    pose proof (bp (-1022) (-900) ltac:(lia)) as L2. pose proof (bpp1 1000 ltac:(lia)) as L3.
    pose proof (half_bp (-900)) as L4. change (-900 - 1)%Z with (-901)%Z in L4.
    (* d *)
    destruct (fpos _ _ (sub_spec P b d Fb Fd)) as [FS HS]; [lra|]. set (S := f64_sub P b d) in *.
    assert (S1 : bpow radix2 (-901) <= B S <= 1) by lra.
    assert (CS : @clip_fpmin (ieee P) S = S) by (apply (clip_id P S (-901)); [exact FS|rewrite Rabs_pos_eq by lra; lra|lia]).
    rewrite CS. destruct (inv_pos P S (-901) 0 FS S1 ltac:(lia) ltac:(lia)) as (FD & HD & QD).
    change (- -901)%Z with 901%Z in QD. set (D := f64_div P (f64_lit 1.0) S) in *.
    (* c *)
    destruct (inv_pos P c (-975) 0 Fc ltac:(rewrite bp1; lra) ltac:(lia) ltac:(lia)) as (FI & HI & QI).
    change (- -975)%Z with 975%Z in QI. set (I := f64_div P (f64_lit 1.0) c) in *.
    assert (QE : / e <= / B c) by (apply Rinv_le_contravar; lra).
    assert (E2 : 2 <= / e). { replace 2 with (/ (1 / 2)) at 1 by lra. apply Rinv_le_contravar; lra. }
    pose proof (bp 975 979 ltac:(lia)) as L5. pose proof (dbl_bp 979) as L6. change (979 + 1)%Z with 980%Z in L6.
    pose proof (bp 980 1000 ltac:(lia)) as L7. pose proof (bpm1 (-1022) ltac:(lia)) as L8.
    pose proof (bp 901 909 ltac:(lia)) as L9. pose proof (dbl_bp 909) as L10. change (909 + 1)%Z with 910%Z in L10.
    pose proof (bpow_gt_0 radix2 901) as L11. pose proof (bpow_gt_0 radix2 975) as L12.
    destruct (fneg _ _ (sub_spec P b I Fb FI)) as [FT HT]; [lra|]. set (T := f64_sub P b I) in *.
    assert (CT : @clip_fpmin (ieee P) T = T).
    { apply (clip_id P T (-970)); [exact FT| |lia]. pose proof (bpm1 (-970) ltac:(lia)). rewrite Rabs_left by lra. lra. }
    rewrite CT. split; [exact FD|split; [exact FT|split; split]].
    - apply (grow_d e (B S)); try lra.
    - lra.
    - assert (G : 1 + u <= (- B T) * (e + 2 * beta) * (1 - u)).
      { apply (grow_c e (/ B c)); [lra|exact QE|]. assert ((/ B c * (1 - u) - beta) * (1 - u) <= - (B b - B I) * (1 - u)) by (apply Rmult_le_compat_r; lra). lra. }
      assert (0 <= (- B T) * (e + 2 * beta)) by (apply Rmult_le_pos; lra). lra.
    - lra.
  Qed.

  Lemma jy_odd_even : forall e b d c, beta <= e <= 1 / 2 -> bok b -> odd (e + 2 * beta) d c ->
    even (e + 4 * beta) (f64_div P (f64_lit 1.0) (@clip_fpmin (ieee P) (f64_sub P b d)))
                        (@clip_fpmin (ieee P) (f64_sub P b (f64_div P (f64_lit 1.0) c))).
  Proof.
    intros e b d c He (Fb & Hb) (Fd & Fc & [Hd1 Hd2] & [Hc1 Hc2]). set (g := e + 2 * beta) in *.
    assert (Hg : beta <= g <= 52 / 100) by (unfold g; lra).
    pose proof (bpow_gt_0 radix2 (-900)) as L0.
    pose proof (bp (-1022) (-900) ltac:(lia)) as L2. pose proof (bpp1 1000 ltac:(lia)) as L3.
    pose proof (half_bp (-900)) as L4. change (-900 - 1)%Z with (-901)%Z in L4.
    pose proof (bpm1 (-970) ltac:(lia)) as L5. pose proof (bpm1 (-1022) ltac:(lia)) as L6.
    pose proof (bp 910 1000 ltac:(lia)) as L7. pose proof (dbl_bp 910) as L8. change (910 + 1)%Z with 911%Z in L8.
    assert (Pd : 0 < B d). { destruct (Rle_or_lt (B d) 0) as [X|X]; [|exact X]. assert (0 <= (- B d) * g) by (apply Rmult_le_pos; lra). lra. }
    assert (Pc : 0 < - B c). { destruct (Rle_or_lt (- B c) 0) as [X|X]; [|exact X]. assert (0 <= (B c) * g) by (apply Rmult_le_pos; lra). lra. }
    destruct (inv_of_prod (B d) g ltac:(lra) Pd Hd1) as [D1 D2].
    destruct (inv_of_prod (- B c) g ltac:(lra) Pc Hc1) as [C1 C2].
    assert (G2 : 19 / 10 <= / g). { replace (19 / 10) with (/ (10 / 19)) by lra. apply Rinv_le_contravar; lra. }
    (* d *)
    destruct (fneg _ _ (sub_spec P b d Fb Fd)) as [FS HS]; [lra|]. set (S := f64_sub P b d) in *.
    assert (S1 : bpow radix2 0 <= - B S <= bpow radix2 911) by (rewrite bp1; lra).
    assert (CS : @clip_fpmin (ieee P) S = S).
    { rewrite bp1 in S1. apply (clip_id P S (-970)); [exact FS|rewrite Rabs_left by lra; lra|lia]. }
    rewrite CS. destruct (inv_neg P S 0 911 FS S1 ltac:(lia) ltac:(lia)) as (FD & HD & QD).
    set (D := f64_div P (f64_lit 1.0) S) in *. rewrite bp1 in S1.
    (* c *)
    destruct (inv_neg P c 0 980 Fc ltac:(rewrite bp1; lra) ltac:(lia) ltac:(lia)) as (FI & HI & QI).
    set (I := f64_div P (f64_lit 1.0) c) in *. pose proof (bpow_gt_0 radix2 (- 980)) as L9. pose proof (bpow_gt_0 radix2 (- 911)) as L10.
    assert (IP : 0 <= - B I) by lra.
    destruct (fpos _ _ (sub_spec P b I Fb FI)) as [FT HT]; [lra|]. set (T := f64_sub P b I) in *.
    pose proof (bp (-975) (-901) ltac:(lia)) as L11.
    assert (CT : @clip_fpmin (ieee P) T = T).
    { apply (clip_id P T (-901)); [exact FT| |lia]. rewrite Rabs_pos_eq by lra. lra. }
    rewrite CT. replace (e + 4 * beta) with (g + 2 * beta) by (unfold g; lra). clearbody g.
    split; [exact FD|split; [exact FT|split; split]].
    - lra.
    - apply (shrink _ (- B S)); [lra| |lra].
      assert (G : 1 + u <= (- B S) * (g + 2 * beta) * (1 - u)).
      { apply (grow_c g (B d / (1 - u))); [lra|unfold Rdiv; lra|].
        replace (B d / (1 - u) * (1 - u)) with (B d) by (field; lra). lra. }
      assert (0 <= (- B S) * (g + 2 * beta)) by (apply Rmult_le_pos; lra). lra.
    - lra.
    - lra.
  Qed.
End Steps.

(** ** besselik: [d] and [c] stay positive and alternate between small and large *)
Definition evenI (e : R) (d c : f64) : Prop := fin d /\ fin c /\ 0 <= B d <= e /\ bpow radix2 (-975) <= B c <= e.
Definition oddI (g : R) (d c : f64) : Prop :=
  fin d /\ fin c /\ (1 <= B d * g /\ B d <= bpow radix2 910) /\ (1 <= B c * g /\ B c <= bpow radix2 980).

Section StepsI.
  Context (P : platform).

  Lemma ik_even_odd : forall e b d c, beta <= e <= 1 / 2 -> bok b -> evenI e d c ->
    oddI (e + 2 * beta) (f64_div P (f64_lit 1.0) (f64_add P b d)) (f64_add P b (f64_div P (f64_lit 1.0) c)).
  Proof.
    intros e b d c He (Fb & Hb) (Fd & Fc & Hd & Hc).
    pose proof (bpow_gt_0 radix2 (-900)) as L0. pose proof (bpow_gt_0 radix2 (-975)) as L1.
    pose proof (bp (-1022) (-900) ltac:(lia)) as L2. pose proof (bpp1 1000 ltac:(lia)) as L3.
    pose proof (half_bp (-900)) as L4. change (-900 - 1)%Z with (-901)%Z in L4.
    (* d *)
    destruct (fpos _ _ (add_spec P b d Fb Fd)) as [FS HS]; [lra|]. set (S := f64_add P b d) in *.
    assert (S1 : bpow radix2 (-901) <= B S <= 1) by lra.
    destruct (inv_pos P S (-901) 0 FS S1 ltac:(lia) ltac:(lia)) as (FD & HD & QD).
    change (- -901)%Z with 901%Z in QD. set (D := f64_div P (f64_lit 1.0) S) in *.
    (* c *)
    destruct (inv_pos P c (-975) 0 Fc ltac:(rewrite bp1; lra) ltac:(lia) ltac:(lia)) as (FI & HI & QI).
    change (- -975)%Z with 975%Z in QI. set (I := f64_div P (f64_lit 1.0) c) in *.
    assert (QE : / e <= / B c) by (apply Rinv_le_contravar; lra).
    assert (E2 : 2 <= / e). { replace 2 with (/ (1 / 2)) at 1 by lra. apply Rinv_le_contravar; lra. }
    pose proof (bp 975 979 ltac:(lia)) as L5. pose proof (dbl_bp 979) as L6. change (979 + 1)%Z with 980%Z in L6.
    pose proof (bp 980 1000 ltac:(lia)) as L7. pose proof (bpm1 (-1022) ltac:(lia)) as L8.
    pose proof (bp 901 909 ltac:(lia)) as L9. pose proof (dbl_bp 909) as L10. change (909 + 1)%Z with 910%Z in L10.
    pose proof (bpow_gt_0 radix2 901) as L11. pose proof (bpp1 975 ltac:(lia)) as L12.
    destruct (fpos _ _ (add_spec P b I Fb FI)) as [FT HT]; [lra|]. set (T := f64_add P b I) in *.
    split; [exact FD|split; [exact FT|split; split]].
    - apply (grow_d e (B S)); try lra.
    - lra.
    - assert (G : 1 + u <= B T * (e + 2 * beta) * (1 - u)).
      { apply (grow_c e (/ B c)); [lra|exact QE|]. assert ((/ B c * (1 - u) - beta) * (1 - u) <= (B b + B I) * (1 - u)) by (apply Rmult_le_compat_r; lra). lra. }
      assert (0 <= B T * (e + 2 * beta)) by (apply Rmult_le_pos; lra). lra.
    - lra.
  Qed.

  Lemma ik_odd_even : forall e b d c, beta <= e <= 1 / 2 -> bok b -> oddI (e + 2 * beta) d c ->
    evenI (e + 4 * beta) (f64_div P (f64_lit 1.0) (f64_add P b d)) (f64_add P b (f64_div P (f64_lit 1.0) c)).
  Proof.
    intros e b d c He (Fb & Hb) (Fd & Fc & [Hd1 Hd2] & [Hc1 Hc2]). set (g := e + 2 * beta) in *.
    assert (Hg : beta <= g <= 52 / 100) by (unfold g; lra).
    pose proof (bpow_gt_0 radix2 (-900)) as L0.
    pose proof (bp (-1022) (-900) ltac:(lia)) as L2. pose proof (bpp1 1000 ltac:(lia)) as L3.
    pose proof (half_bp (-900)) as L4. change (-900 - 1)%Z with (-901)%Z in L4.
    pose proof (bpm1 (-970) ltac:(lia)) as L5. pose proof (bpm1 (-1022) ltac:(lia)) as L6.
    pose proof (bp 911 1000 ltac:(lia)) as L7. pose proof (dbl_bp 910) as L8. change (910 + 1)%Z with 911%Z in L8.
    pose proof (dbl_bp 911) as L8'. change (911 + 1)%Z with 912%Z in L8'. pose proof (bpp1 910 ltac:(lia)) as L8''.
    assert (Pd : 0 < B d). { destruct (Rle_or_lt (B d) 0) as [X|X]; [|exact X]. assert (0 <= (- B d) * g) by (apply Rmult_le_pos; lra). lra. }
    assert (Pc : 0 < B c). { destruct (Rle_or_lt (B c) 0) as [X|X]; [|exact X]. assert (0 <= (- B c) * g) by (apply Rmult_le_pos; lra). lra. }
    destruct (inv_of_prod (B d) g ltac:(lra) Pd Hd1) as [D1 D2].
    destruct (inv_of_prod (B c) g ltac:(lra) Pc Hc1) as [C1 C2].
    assert (G2 : 19 / 10 <= / g). { replace (19 / 10) with (/ (10 / 19)) by lra. apply Rinv_le_contravar; lra. }
    (* d *)
    destruct (fpos _ _ (add_spec P b d Fb Fd)) as [FS HS]; [lra|]. set (S := f64_add P b d) in *.
    assert (S1 : bpow radix2 0 <= B S <= bpow radix2 912) by (rewrite bp1; lra).
    destruct (inv_pos P S 0 912 FS S1 ltac:(lia) ltac:(lia)) as (FD & HD & QD).
    set (D := f64_div P (f64_lit 1.0) S) in *. rewrite bp1 in S1.
    (* c *)
    destruct (inv_pos P c 0 980 Fc ltac:(rewrite bp1; lra) ltac:(lia) ltac:(lia)) as (FI & HI & QI).
    set (I := f64_div P (f64_lit 1.0) c) in *. pose proof (bpow_gt_0 radix2 (- 980)) as L9. pose proof (bpow_gt_0 radix2 (- 912)) as L10.
    assert (IP : 0 <= B I) by lra.
    destruct (fpos _ _ (add_spec P b I Fb FI)) as [FT HT]; [lra|]. set (T := f64_add P b I) in *.
    pose proof (bp (-975) (-901) ltac:(lia)) as L11.
    replace (e + 4 * beta) with (g + 2 * beta) by (unfold g; lra). clearbody g.
    split; [exact FD|split; [exact FT|split; split]].
    - lra.
    - apply (shrink _ (B S)); [lra| |lra].
      assert (G : 1 + u <= B S * (g + 2 * beta) * (1 - u)).
      { apply (grow_c g (B d / (1 - u))); [lra|unfold Rdiv; lra|].
        replace (B d / (1 - u) * (1 - u)) with (B d) by (field; lra). lra. }
      assert (0 <= B S * (g + 2 * beta)) by (apply Rmult_le_pos; lra). lra.
    - lra.
    - lra.
  Qed.
End StepsI.

(** ** The loops *)
Definition E (k : nat) : R := beta * (1 + 2 * INR k).
Definition binv (k : nat) (b : f64) : Prop := fin b /\ 0 <= B b <= (1001 + INR k) / 2 ^ 30.

Lemma E_S : forall k, E (Datatypes.S k) = E k + 2 * beta.
Proof. intros. unfold E. rewrite S_INR. lra. Qed.
Lemma E_range : forall k, (Z.of_nat k <= 10000)%Z -> beta <= E k <= 1 / 2.
Proof.
  intros k H. apply IZR_le in H. rewrite <- INR_IZR_INZ in H. pose proof (pos_INR k).
  unfold E. lra.
Qed.

Section Loops.
  Context (P : platform) (xi2 : f64).
  Hypothesis (Fx : fin xi2) (Hx : bpow radix2 (-801) <= B xi2 <= (1 + / 1000) / 2 ^ 31).

  Lemma b_step : forall k b, (Z.of_nat k < 10000)%Z -> binv k b ->
    binv (Datatypes.S k) (f64_add P b xi2) /\ bok (f64_add P b xi2).
  Proof.
    intros k b Hk (Fb & Hb). apply IZR_lt in Hk. rewrite <- INR_IZR_INZ in Hk.
    pose proof (pos_INR k) as K0. pose proof (bp (-1022) (-801) ltac:(lia)) as L0. pose proof (bpp1 1000 ltac:(lia)) as L1.
    pose proof (bpow_gt_0 radix2 (-801)) as L2.
    pose proof (bp (-900) (-802) ltac:(lia)) as L3. pose proof (half_bp (-801)) as L4. change (-801 - 1)%Z with (-802)%Z in L4.
    destruct (fpos _ _ (add_spec P b xi2 Fb Fx)) as [F H]; [lra|].
    split; split; try exact F; rewrite ?S_INR; lra.
  Qed.

  Definition jinv (k : nat) (st : f64 * f64 * f64 * f64 * Z) : Prop :=
    let '(b, d, c, _, _) := st in binv k b /\ (if Nat.even k then even (E k) d c else odd (E k) d c).
  Definition iinv (k : nat) (st : f64 * f64 * f64 * f64) : Prop :=
    let '(b, d, c, _) := st in binv k b /\ (if Nat.even k then evenI (E k) d c else oddI (E k) d c).

  Lemma even_S : forall k, Nat.even (Datatypes.S k) = negb (Nat.even k).
  Proof. intros k. rewrite Nat.even_succ, <- Nat.negb_even. reflexivity. Qed.

  Lemma jy_body : forall k i st, (Z.of_nat k < 10000)%Z -> jinv k st ->
    jinv (Datatypes.S k) (fst (@jy_cf1_body (ieee P) xi2 i st)) /\ snd (@jy_cf1_body (ieee P) xi2 i st) = false.
  Proof.
    intros k i [[[[b d] c] h] s] Hk [Ib I]. destruct (b_step k b Hk Ib) as [Ib' OKb].
    unfold jy_cf1_body. ieee_simpl. set (b1 := f64_add P b xi2) in *. clearbody b1.
    assert (N : forall d1 c1, (if Nat.even (Datatypes.S k) then even (E (Datatypes.S k)) d1 c1 else odd (E (Datatypes.S k)) d1 c1) ->
      f64_le (f64_abs (f64_sub P (f64_mul P c1 d1) (f64_lit 1.0))) (@EPS (ieee P)) = false).
    { intros d1 c1 J. pose proof (E_range (Datatypes.S k) ltac:(lia)) as HE. pose proof (bpow_gt_0 radix2 (-975)).
      destruct (Nat.even (Datatypes.S k)); destruct J as (F1 & F2 & [J1 J2] & [J3 J4]);
        apply (nostop P _ _ (mul_spec P c1 d1 F2 F1)); left.
      - assert (0 <= B c1 * (- B d1)) by (apply Rmult_le_pos; lra). lra.
      - assert (X : 0 <= B d1).
        { destruct (Rle_or_lt 0 (B d1)) as [X|X]; [exact X|]. assert (0 <= (- B d1) * E (Datatypes.S k)) by (apply Rmult_le_pos; lra). lra. }
        assert (Y : 0 <= - B c1).
        { destruct (Rle_or_lt 0 (- B c1)) as [Y|Y]; [exact Y|]. assert (0 <= B c1 * E (Datatypes.S k)) by (apply Rmult_le_pos; lra). lra. }
        assert (0 <= (- B c1) * B d1) by (apply Rmult_le_pos; lra). lra. }
    assert (J : if Nat.even (Datatypes.S k)
      then even (E (Datatypes.S k)) (f64_div P (f64_lit 1.0) (@clip_fpmin (ieee P) (f64_sub P b1 d))) (@clip_fpmin (ieee P) (f64_sub P b1 (f64_div P (f64_lit 1.0) c)))
      else odd (E (Datatypes.S k)) (f64_div P (f64_lit 1.0) (@clip_fpmin (ieee P) (f64_sub P b1 d))) (@clip_fpmin (ieee P) (f64_sub P b1 (f64_div P (f64_lit 1.0) c)))).
    { rewrite even_S. destruct (Nat.even k) eqn:Ev; cbn [negb].
      - rewrite E_S. apply jy_even_odd; [apply E_range; lia|exact OKb|exact I].
      - destruct k as [|k]; [discriminate|]. rewrite !E_S. rewrite E_S in I.
        replace (E k + 2 * beta + 2 * beta) with (E k + 4 * beta) by lra. apply jy_odd_even; [apply E_range; lia|exact OKb|exact I]. }
    cbn [fst snd]. split; [split; [exact Ib'|exact J]|]. apply N. exact J.
  Qed.

  Lemma ik_body : forall k i st, (Z.of_nat k < 10000)%Z -> iinv k st ->
    iinv (Datatypes.S k) (fst (@ik_cf1_body (ieee P) xi2 i st)) /\ snd (@ik_cf1_body (ieee P) xi2 i st) = false.
  Proof.
    intros k i [[[b d] c] h] Hk [Ib I]. destruct (b_step k b Hk Ib) as [Ib' OKb].
    unfold ik_cf1_body. ieee_simpl. set (b1 := f64_add P b xi2) in *. clearbody b1.
    assert (N : forall d1 c1, (if Nat.even (Datatypes.S k) then evenI (E (Datatypes.S k)) d1 c1 else oddI (E (Datatypes.S k)) d1 c1) ->
      f64_le (f64_abs (f64_sub P (f64_mul P c1 d1) (f64_lit 1.0))) (@EPS (ieee P)) = false).
    { intros d1 c1 J. pose proof (E_range (Datatypes.S k) ltac:(lia)) as HE. pose proof (bpow_gt_0 radix2 (-975)).
      destruct (Nat.even (Datatypes.S k)); destruct J as (F1 & F2 & [J1 J2] & [J3 J4]);
        apply (nostop P _ _ (mul_spec P c1 d1 F2 F1)).
      - left. assert (B c1 * B d1 <= 1 / 2 * (1 / 2)) by (apply Rmult_le_compat; lra). lra.
      - right. assert (X : 2 <= B d1).
        { destruct (Rle_or_lt 2 (B d1)) as [X|X]; [exact X|]. assert (B d1 * E (Datatypes.S k) < 2 * E (Datatypes.S k)) by (apply Rmult_lt_compat_r; lra). lra. }
        assert (Y : 2 <= B c1).
        { destruct (Rle_or_lt 2 (B c1)) as [Y|Y]; [exact Y|]. assert (B c1 * E (Datatypes.S k) < 2 * E (Datatypes.S k)) by (apply Rmult_lt_compat_r; lra). lra. }
        assert (2 * 2 <= B c1 * B d1) by (apply Rmult_le_compat; lra). lra. }
    assert (J : if Nat.even (Datatypes.S k)
      then evenI (E (Datatypes.S k)) (f64_div P (f64_lit 1.0) (f64_add P b1 d)) (f64_add P b1 (f64_div P (f64_lit 1.0) c))
      else oddI (E (Datatypes.S k)) (f64_div P (f64_lit 1.0) (f64_add P b1 d)) (f64_add P b1 (f64_div P (f64_lit 1.0) c))).
    { rewrite even_S. destruct (Nat.even k) eqn:Ev; cbn [negb].
      - rewrite E_S. apply ik_even_odd; [apply E_range; lia|exact OKb|exact I].
      - destruct k as [|k]; [discriminate|]. rewrite !E_S. rewrite E_S in I.
        replace (E k + 2 * beta + 2 * beta) with (E k + 4 * beta) by lra. apply ik_odd_even; [apply E_range; lia|exact OKb|exact I]. }
    cbn [fst snd]. split; [split; [exact Ib'|exact J]|]. apply N. exact J.
  Qed.
End Loops.

Lemma count_len : forall n a, List.length (count_from a n) = n.
Proof. induction n as [|n IH]; intros a; [reflexivity|]. cbn [count_from List.length]. rewrite IH. reflexivity. Qed.

Lemma len_MAXIT : (Z.of_nat 0 + Z.of_nat (List.length (range 0 MAXIT)) <= 10000)%Z.
Proof. unfold range. rewrite count_len. unfold MAXIT. rewrite Z2Nat.id; lia. Qed.

(** ** Initial values *)
Section Start.
  Context (P : platform) (nu x : f64).
  Hypothesis (Nnu : number nu) (Hnu : 0 <= val nu <= 1000) (Nx : number x) (Hx : 2 ^ 32 <= val x <= bpow radix2 800).

  Let xi := f64_div P (f64_lit 1.0) x.
  Let xi2 := f64_mul P (f64_lit 2.0) xi.

  Lemma fin_nu : fin nu.
  Proof. apply fin_iff_val; [exact Nnu|]. pose proof (bp 10 1024 ltac:(lia)). change (bpow radix2 10) with 1024 in *. unfold Om. rewrite Rabs_pos_eq; lra. Qed.
  Lemma fin_x : fin x.
  Proof. apply fin_iff_val; [exact Nx|]. assert (bpow radix2 800 < Om) by (apply bpow_lt; lia). rewrite Rabs_pos_eq; lra. Qed.

  Lemma xi_facts : fin xi /\ bpow radix2 (-801) <= B xi <= (1 + / 4000) / 2 ^ 32.
  Proof.
    pose proof fin_x as F. pose proof Hx as H. rewrite val_fin in H by exact F.
    destruct (inv_pos P x 0 800 F) as (G & I & Q); try lia; [rewrite bp1; lra|].
    fold xi in G, I. split; [exact G|]. pose proof (half_bp (-800)) as L4. change (-800 - 1)%Z with (-801)%Z in L4. change (Z.opp 800) with (-800)%Z in Q.
    assert (R : / B x <= / 2 ^ 32) by (apply Rinv_le_contravar; lra). pose proof (bpow_gt_0 radix2 (-800)). lra.
  Qed.

  Lemma xi2_facts : fin xi2 /\ bpow radix2 (-801) <= B xi2 <= (1 + / 1000) / 2 ^ 31.
  Proof.
    destruct xi_facts as [F H]. lit_facts 2.0%dec 2%Z 0%Z F2 V2. rewrite val_fin in V2 by exact F2.
    pose proof (mul_spec P _ _ F2 F) as R. rewrite V2 in R. pose proof (bp (-1022) (-801) ltac:(lia)). pose proof (bpp1 1000 ltac:(lia)).
    pose proof (bpow_gt_0 radix2 (-801)).
    destruct (fpos _ _ R) as [G I]; [lra|]. fold xi2 in G, I. split; [exact G|]. lra.
  Qed.

  Lemma b_start : binv 0 (f64_mul P xi2 nu).
  Proof.
    destruct xi2_facts as [F H]. pose proof fin_nu as Fn. pose proof Hnu as Hn. rewrite val_fin in Hn by exact Fn.
    pose proof (bpow_gt_0 radix2 (-801)). pose proof (mul_spec P _ _ F Fn) as R.
    assert (U : B xi2 * B nu <= (1 + / 1000) / 2 ^ 31 * 1000) by (apply Rmult_le_compat; lra).
    assert (L : 0 <= B xi2 * B nu) by (apply Rmult_le_pos; lra).
    destruct (abs_fl _ _ R) as [G I]; [rewrite Rabs_pos_eq; lra|]. rewrite (Rabs_pos_eq (B xi2 * B nu)) in I by lra.
    split; [exact G|]. split.
    - rewrite <- val_fin by exact G. destruct R as [_ R]. rewrite R. apply rs_pos. exact L.
    - apply Rabs_le_inv in I. simpl INR. lra.
  Qed.

  Lemma h_start : let h := f64_mul P nu xi in let h := if f64_lt h (@FPMIN (ieee P)) then @FPMIN (ieee P) else h in
    fin h /\ bpow radix2 (-975) <= B h <= beta.
  Proof.
    destruct xi_facts as [F H]. pose proof fin_nu as Fn. pose proof Hnu as Hn. rewrite val_fin in Hn by exact Fn.
    pose proof (bpow_gt_0 radix2 (-801)). pose proof (mul_spec P _ _ Fn F) as R.
    assert (U : B nu * B xi <= 1000 * ((1 + / 4000) / 2 ^ 32)) by (apply Rmult_le_compat; lra).
    assert (L : 0 <= B nu * B xi) by (apply Rmult_le_pos; lra).
    destruct (abs_fl _ _ R) as [G I]; [rewrite Rabs_pos_eq; lra|]. rewrite (Rabs_pos_eq (B nu * B xi)) in I by lra.
    destruct (fpmin_facts P) as [FF VF]. pose proof (bp (-975) (-970) ltac:(lia)).
    cbv zeta. destruct (f64_lt (f64_mul P nu xi) (@FPMIN (ieee P))) eqn:Q.
    - split; [exact FF|]. rewrite <- val_fin by exact FF. rewrite VF. pose proof (bp (-970) (-16) ltac:(lia)) as Z.
      replace (bpow radix2 (-16)) with beta in Z by (simpl; lra). lra.
    - split; [exact G|]. apply lt_false in Q; [|apply fin_nonnan, G|apply fin_nonnan, FF]. rewrite VF, val_fin in Q by exact G.
      apply Rabs_le_inv in I. lra.
  Qed.
End Start.

(** ** Results *)
Lemma jy_panic : forall P nu x, number nu -> 0 <= val nu <= 1000 -> number x -> 2 ^ 32 <= val x <= bpow radix2 800 ->
  @besseljy (ieee P) nu x = Panic (PExplicit "x too large in besseljy; try asymptotic expansion").
Proof.
  intros P nu x Nn Hn Nx Hx. unfold besseljy. ieee_simpl. rewrite (bad_false nu x) by (intros [_ H]; lra). cbn [negb].
  enough (Q : @jy_cf1 (ieee P) nu (f64_div P (f64_lit 1.0) x) (f64_mul P (f64_lit 2.0) (f64_div P (f64_lit 1.0) x))
              = Panic (PExplicit "x too large in besseljy; try asymptotic expansion")) by (rewrite Q; reflexivity).
  destruct (xi2_facts P x Nx Hx) as [F H]. pose proof (b_start P nu x Nn Hn Nx Hx) as SB. pose proof (h_start P nu x Nn Hn Nx Hx) as SH.
  cbv zeta in SH. set (xi := f64_div P (f64_lit 1.0) x) in *. set (xi2 := f64_mul P (f64_lit 2.0) xi) in *. clearbody xi2 xi.
  unfold jy_cf1. destruct SH as [FH HH].
  match goal with |- context [for_break ?l ?b ?s] =>
    assert (Q : snd (for_break l b s) = false);
    [apply (for_break_count b jinv 10000 l 0 s)|destruct (for_break l b s) as [[[[[r v] w] z] y] ok]] end.
  - intros j i s Hj I. apply (jy_body P xi2 F H j i s Hj I).
  - exact len_MAXIT.
  - split; [exact SB|]. cbn [Nat.even]. unfold even, E. assert (F0 : fin (f64_lit 0.0)) by reflexivity. pose proof val_0 as V0. rewrite val_fin in V0 by exact F0.
    split; [exact F0|split; [exact FH|]]. simpl INR. replace (beta * (1 + 2 * 0)) with beta by lra. split; [|exact HH]. change (0 <= - B (f64_lit 0.0) <= beta) || change (0 <= B (f64_lit 0.0) <= beta). rewrite V0. lra.
  - cbn [snd] in Q. subst ok. reflexivity.
Qed.

Lemma ik_panic : forall P nu x, number nu -> 0 <= val nu <= 1000 -> number x -> 2 ^ 32 <= val x <= bpow radix2 800 ->
  @besselik (ieee P) nu x = Panic (PExplicit "x too large in besselik; try asymptotic expansion").
Proof.
  intros P nu x Nn Hn Nx Hx. unfold besselik. ieee_simpl. rewrite (bad_false nu x) by (intros [_ H]; lra). cbn [negb].
  enough (Q : @ik_cf1 (ieee P) nu (f64_div P (f64_lit 1.0) x) (f64_mul P (f64_lit 2.0) (f64_div P (f64_lit 1.0) x))
              = Panic (PExplicit "x too large in besselik; try asymptotic expansion")) by (rewrite Q; reflexivity).
  destruct (xi2_facts P x Nx Hx) as [F H]. pose proof (b_start P nu x Nn Hn Nx Hx) as SB. pose proof (h_start P nu x Nn Hn Nx Hx) as SH.
  cbv zeta in SH. set (xi := f64_div P (f64_lit 1.0) x) in *. set (xi2 := f64_mul P (f64_lit 2.0) xi) in *. clearbody xi2 xi.
  unfold ik_cf1. destruct SH as [FH HH].
  match goal with |- context [for_break ?l ?b ?s] =>
    assert (Q : snd (for_break l b s) = false);
    [apply (for_break_count b iinv 10000 l 0 s)|destruct (for_break l b s) as [[[[r v] w] z] ok]] end.
  - intros j i s Hj I. apply (ik_body P xi2 F H j i s Hj I).
  - exact len_MAXIT.
  - split; [exact SB|]. cbn [Nat.even]. unfold evenI, E. assert (F0 : fin (f64_lit 0.0)) by reflexivity. pose proof val_0 as V0. rewrite val_fin in V0 by exact F0.
    split; [exact F0|split; [exact FH|]]. simpl INR. replace (beta * (1 + 2 * 0)) with beta by lra. split; [|exact HH]. change (0 <= - B (f64_lit 0.0) <= beta) || change (0 <= B (f64_lit 0.0) <= beta). rewrite V0. lra.
  - cbn [snd] in Q. subst ok. reflexivity.
Qed.

Lemma jnu_panic : forall P nu x, number nu -> 0 <= val nu <= 1000 -> number x -> 2 ^ 32 <= val x <= bpow radix2 800 ->
  panics (@Jnu_Ynu (ieee P) nu x).
Proof. intros P nu x H1 H2 H3 H4. unfold Jnu_Ynu. rewrite jy_panic by assumption. eexists. reflexivity. Qed.
Lemma inu_panic : forall P nu x, number nu -> 0 <= val nu <= 1000 -> number x -> 2 ^ 32 <= val x <= bpow radix2 800 ->
  panics (@Inu_Knu (ieee P) nu x).
Proof. intros P nu x H1 H2 H3 H4. unfold Inu_Knu. rewrite ik_panic by assumption. eexists. reflexivity. Qed.

Lemma ex_nu : number (f64_lit 0.5) /\ 0 <= val (f64_lit 0.5) <= 1000.
Proof. lit_facts 0.5%dec 1%Z 1%Z HF HV. split; [apply fin_nonnan, HF|rewrite HV; lra]. Qed.
Lemma ex_x : number (f64_lit 10000000000.0) /\ val (f64_lit 10000000000.0) = 10000000000.
Proof. lit_facts 10000000000.0%dec 10000000000%Z 0%Z HF HV. split; [apply fin_nonnan, HF|rewrite HV; lra]. Qed.
Lemma ex_x_range : 2 ^ 32 <= val (f64_lit 10000000000.0) <= bpow radix2 800.
Proof.
  destruct ex_x as [_ V]. rewrite V. pose proof (bp 40 800 ltac:(lia)) as H. change (bpow radix2 40) with 1099511627776 in H. lra.
Qed.

Lemma nu_refuted : forall P, exists nu x, number nu /\ 0 <= val nu <= 1000 /\ number x /\ 0 < val x <= 10000000000 /\
  panics (@besseljy (ieee P) nu x) /\ panics (@besselik (ieee P) nu x).
Proof.
  intros P. destruct ex_nu as [N1 V1]. destruct ex_x as [N2 V2]. pose proof ex_x_range as V3.
  exists (f64_lit 0.5), (f64_lit 10000000000.0).
  split; [exact N1|split; [exact V1|split; [exact N2|split; [rewrite V2; lra|]]]].
  rewrite (jy_panic P) by assumption. rewrite (ik_panic P) by assumption. split; eexists; reflexivity.
Qed.
