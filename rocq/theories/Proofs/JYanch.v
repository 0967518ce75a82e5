(** * Numerical values at 8: cos, sin, J0, J1, Y0, Y1 *)

From Coq Require Import ZArith Reals Bool Lra Lia List.
From Flocq Require Import Core.
From Verif.Spec Require Import BesselSpec Bessel2Spec.
From Verif.Proofs Require Import PolyZ PiBounds BesselReal BesselODE BesselSeries SecondSeries SecondRat EulerGamma YAcc.
Import ListNotations.
Open Scope R_scope.

Local Notation cos := Rtrigo_def.cos.
Local Notation sin := Rtrigo_def.sin.
Local Notation sqrt := R_sqrt.sqrt.
Local Notation ln := Rpower.ln.
Local Notation PI := Rtrigo1.PI.

(** ** cos 8 and sin 8 *)
Fixpoint fz (n : nat) : Z := match n with O => 1%Z | S k => (Z.of_nat n * fz k)%Z end.
Lemma fz_eq : forall n, INR (fact n) = IZR (fz n).
Proof. induction n as [|n IH]; [reflexivity|]. change (fact (S n)) with (S n * fact n)%nat. rewrite mult_INR, IH. cbn [fz]. rewrite mult_IZR, INR_IZR_INZ. reflexivity. Qed.

Definition cu (i : nat) : Z := ((-1) ^ Z.of_nat i * 2 ^ Z.of_nat (2 * i))%Z.
Definition cv (i : nat) : Z := fz (2 * i).
Definition su (i : nat) : Z := ((-1) ^ Z.of_nat i * 2 ^ Z.of_nat (2 * i + 1))%Z.
Definition sv (i : nat) : Z := fz (2 * i + 1).
Lemma cos_sum : forall n, cos_approx 2 n = sum_f_R0 (fun i => IZR (cu i) / IZR (cv i)) n.
Proof.
  intros n. unfold cos_approx. apply sum_eq. intros i _. unfold cos_term, cu, cv. rewrite fz_eq, mult_IZR, <- !pow_IZR. unfold Rdiv. ring.
Qed.
Lemma sin_sum : forall n, sin_approx 2 n = sum_f_R0 (fun i => IZR (su i) / IZR (sv i)) n.
Proof.
  intros n. unfold sin_approx. apply sum_eq. intros i _. unfold sin_term, su, sv. rewrite fz_eq, mult_IZR, <- !pow_IZR. unfold Rdiv. ring.
Qed.
(** partial sums with one common denominator *)
Fixpoint sz (u v : nat -> Z) (n : nat) : Z * Z := match n with O => (u O, v O) | S k => let '(a, b) := sz u v k in (a * v (S k) + u (S k) * b, b * v (S k))%Z end.
Lemma sz_eq : forall u v n, (forall i, (0 < v i)%Z) -> (0 < snd (sz u v n))%Z /\ sum_f_R0 (fun i => IZR (u i) / IZR (v i)) n = IZR (fst (sz u v n)) / IZR (snd (sz u v n)).
Proof.
  intros u v n V. induction n as [|n [IH1 IH2]]; [split; [apply V|reflexivity]|]. cbn [sum_f_R0 sz]. destruct (sz u v n) as [a b]. cbn [fst snd] in *. pose proof (V (S n)) as VS.
  split; [apply Z.mul_pos_pos; assumption|]. rewrite IH2, plus_IZR, !mult_IZR. apply IZR_lt in IH1, VS. field. lra.
Qed.
Lemma fz_pos : forall n, (0 < fz n)%Z.
Proof. induction n as [|n IH]; [reflexivity|]. cbn [fz]. apply Z.mul_pos_pos; [lia|exact IH]. Qed.
Lemma q_div : forall z d e a, (0 < d)%Z -> (0 < e)%Z -> (e * z / d = a)%Z -> IZR a / IZR e <= IZR z / IZR d <= (IZR a + 1) / IZR e.
Proof.
  intros z d e a D0 E0 E. pose proof (Z.div_mod (e * z) d ltac:(lia)) as DM. pose proof (Z.mod_pos_bound (e * z) d D0) as MB. rewrite E in DM.
  assert (B1 : (d * a <= e * z)%Z) by lia. assert (B2 : (e * z <= d * (a + 1))%Z) by lia. apply IZR_le in B1, B2. rewrite !mult_IZR in B1, B2. rewrite plus_IZR in B2. apply IZR_lt in D0, E0.
  split; apply Rmult_le_reg_r with (IZR e * IZR d); try (apply Rmult_lt_0_compat; assumption).
  - replace (IZR a / IZR e * (IZR e * IZR d)) with (IZR d * IZR a) by (field; lra). replace (IZR z / IZR d * (IZR e * IZR d)) with (IZR e * IZR z) by (field; lra). exact B1.
  - replace ((IZR a + 1) / IZR e * (IZR e * IZR d)) with (IZR d * (IZR a + 1)) by (field; lra). replace (IZR z / IZR d * (IZR e * IZR d)) with (IZR e * IZR z) by (field; lra). exact B2.
Qed.
Definition E22 : Z := (10 ^ 22)%Z.
Lemma near_2 : forall u v m n x a, (forall i, (0 < v i)%Z) -> sum_f_R0 (fun i => IZR (u i) / IZR (v i)) m <= x <= sum_f_R0 (fun i => IZR (u i) / IZR (v i)) n ->
  (E22 * fst (sz u v m) / snd (sz u v m) = a)%Z -> (E22 * fst (sz u v n) / snd (sz u v n) = a)%Z -> IZR a / IZR E22 <= x <= (IZR a + 1) / IZR E22.
Proof.
  intros u v m n x a V [L U] E1 E2. destruct (sz_eq u v m V) as [P1 S1]. destruct (sz_eq u v n V) as [P2 S2]. rewrite S1 in L. rewrite S2 in U.
  pose proof (q_div _ _ E22 a P1 eq_refl E1) as [B1 _]. pose proof (q_div _ _ E22 a P2 eq_refl E2) as [_ B2]. split; [exact (Rle_trans _ _ _ B1 L)|exact (Rle_trans _ _ _ U B2)].
Qed.
Lemma cos_2 : IZR (-4161468365471423869976) / IZR E22 <= cos 2 <= (IZR (-4161468365471423869976) + 1) / IZR E22.
Proof.
  pose proof (pre_cos_bound 2 7 ltac:(lra) ltac:(lra)) as B. rewrite !cos_sum in B.
  apply (near_2 cu cv _ _ _ _ (fun i => fz_pos _) B); vm_compute; reflexivity.
Qed.
Lemma sin_2 : IZR 9092974268256816953960 / IZR E22 <= sin 2 <= (IZR 9092974268256816953960 + 1) / IZR E22.
Proof.
  pose proof (pre_sin_bound 2 7 ltac:(lra) ltac:(lra)) as B. rewrite !sin_sum in B.
  apply (near_2 su sv _ _ _ _ (fun i => fz_pos _) B); vm_compute; reflexivity.
Qed.

Lemma E22_eq : IZR E22 = 10 ^ 22.
Proof. unfold E22. rewrite (pow_IZR 10 22). reflexivity. Qed.
(** products of values known to e *)
Lemma prod_near : forall a A b B e, Rabs (a - A) <= e -> Rabs (b - B) <= e -> 0 <= e <= 1 -> Rabs A <= 1 -> Rabs B <= 1 -> Rabs (a * b - A * B) <= 3 * e.
Proof.
  intros a A b B e Ha Hb He HA HB. replace (a * b - A * B) with ((a - A) * b + A * (b - B)) by ring. eapply Rle_trans; [apply Rabs_triang|]. rewrite !Rabs_mult.
  assert (Rabs b <= 2) by (apply Rabs_le_inv in Hb, HB; apply Rabs_le; lra).
  assert (Rabs (a - A) * Rabs b <= e * 2) by (apply Rmult_le_compat; try apply Rabs_pos; lra). assert (Rabs A * Rabs (b - B) <= 1 * e) by (apply Rmult_le_compat; try apply Rabs_pos; lra). lra.
Qed.
Lemma prod_near2 : forall a A b B e f MA MB, Rabs (a - A) <= e -> Rabs (b - B) <= f -> Rabs A <= MA -> Rabs B <= MB -> Rabs (a * b - A * B) <= e * (MB + f) + MA * f.
Proof.
  intros a A b B e f MA MB Ha Hb HA HB. replace (a * b - A * B) with ((a - A) * b + A * (b - B)) by ring. eapply Rle_trans; [apply Rabs_triang|]. rewrite !Rabs_mult.
  assert (Rabs b <= MB + f) by (replace b with (B + (b - B)) by ring; eapply Rle_trans; [apply Rabs_triang|lra]).
  apply Rplus_le_compat; apply Rmult_le_compat; try apply Rabs_pos; assumption.
Qed.
Ltac nums := repeat first [apply Rabs_le; split; lra | lra].

Lemma cs_4 : Rabs (cos 4 - -6536436208636119146392 / 10 ^ 22) <= 1 / 10 ^ 21 /\ Rabs (sin 4 - -7568024953079282513726 / 10 ^ 22) <= 1 / 10 ^ 21.
Proof.
  pose proof cos_2 as C. pose proof sin_2 as S. rewrite E22_eq in C, S.
  assert (C' : Rabs (cos 2 - -4161468365471423869976 / 10 ^ 22) <= 1 / 10 ^ 22) by nums. assert (S' : Rabs (sin 2 - 9092974268256816953960 / 10 ^ 22) <= 1 / 10 ^ 22) by nums.
  replace 4 with (2 * 2) by ring. rewrite cos_2a_cos, sin_2a.
  pose proof (prod_near _ _ _ _ _ C' C' ltac:(lra) ltac:(nums) ltac:(nums)) as P1. pose proof (prod_near _ _ _ _ _ S' C' ltac:(lra) ltac:(nums) ltac:(nums)) as P2.
  set (c := cos 2) in *. set (s := sin 2) in *. clearbody c s. apply Rabs_le_inv in P1, P2. split; apply Rabs_le; lra.
Qed.
Lemma cs_8 : Rabs (cos 8 - -1455000338086135258688 / 10 ^ 22) <= 1 / 10 ^ 20 /\ Rabs (sin 8 - 9893582466233817778081 / 10 ^ 22) <= 1 / 10 ^ 20.
Proof.
  destruct cs_4 as [C S]. replace 8 with (2 * 4) by ring. rewrite cos_2a_cos, sin_2a.
  pose proof (prod_near _ _ _ _ _ C C ltac:(lra) ltac:(nums) ltac:(nums)) as P1. pose proof (prod_near _ _ _ _ _ S C ltac:(lra) ltac:(nums) ltac:(nums)) as P2.
  set (c := cos 4) in *. set (s := sin 4) in *. clearbody c s. apply Rabs_le_inv in P1, P2. split; apply Rabs_le; lra.
Qed.
(** (cos 8 + sin 8) / sqrt pi and (sin 8 - cos 8) / sqrt pi *)
Definition c8 : R := / sqrt PI * (cos 8 + sin 8).
Definition d8 : R := / sqrt PI * (sin 8 - cos 8).
Lemma cd_8 : Rabs (c8 - 4760960136613179976653 / 10 ^ 22) <= 1 / 10 ^ 19 /\ Rabs (d8 - 6402752206226502481412 / 10 ^ 22) <= 1 / 10 ^ 19.
Proof.
  destruct cs_8 as [C S]. pose proof isp_bounds as B. unfold c8, d8. set (i := / sqrt PI) in *. clearbody i. replace (IZR (2 ^ 70)) with 1180591620717411303424 in B by reflexivity. unfold isp70 in B.
  assert (I' : Rabs (i - 5641895835477562869480 / 10 ^ 22) <= 1 / 10 ^ 20) by nums.
  pose proof (prod_near _ _ _ _ _ I' C ltac:(lra) ltac:(nums) ltac:(nums)) as P1. pose proof (prod_near _ _ _ _ _ I' S ltac:(lra) ltac:(nums) ltac:(nums)) as P2.
  set (c := cos 8) in *. set (s := sin 8) in *. clearbody c s. apply Rabs_le_inv in P1, P2. split; apply Rabs_le; lra.
Qed.
Lemma sqrt_8 : Rabs (sqrt 8 - 28284271247461900976034 / 10 ^ 22) <= 1 / 10 ^ 22.
Proof.
  assert (S : 0 <= sqrt 8) by apply sqrt_pos. pose proof (sqrt_sqrt 8 ltac:(lra)) as E. set (s := sqrt 8) in *. clearbody s.
  apply Rabs_le. split; apply Rnot_lt_le; intros N.
  - assert (s * s <= (28284271247461900976033 / 10 ^ 22) * (28284271247461900976033 / 10 ^ 22)) by (apply Rmult_le_compat; lra). lra.
  - assert ((28284271247461900976035 / 10 ^ 22) * (28284271247461900976035 / 10 ^ 22) <= s * s) by (apply Rmult_le_compat; lra). lra.
Qed.

(** ** J0, J1, Y0, Y1 *)
Lemma pr_8 : forall n a, (E22 * zeval 64 (fst (plz (-1) n 0 26)) / snd (plz (-1) n 0 26) = a)%Z -> IZR a / 10 ^ 22 <= pr (-1) n 0 26 64 <= (IZR a + 1) / 10 ^ 22.
Proof.
  intros n a E. pose proof (plz_eq (-1) n 26 0 (IZR 64)) as Q. rewrite peval_zeval in Q. pose proof (plz_pos (-1) n 26 0) as P. pose proof (q_div _ _ E22 a P eq_refl E) as B. rewrite E22_eq in B.
  apply IZR_lt in P. replace (pr (-1) n 0 26 64) with (IZR (zeval 64 (fst (plz (-1) n 0 26))) / IZR (snd (plz (-1) n 0 26))); [exact B|]. rewrite Q. field. lra.
Qed.
Lemma tgt_8 : forall n a, hz_ok MY (n + 26) = true -> (E22 * zeval 64 (tgt_l MY (-1) n 26) / tgt_n MY (-1) n 26 = a)%Z -> IZR a / 10 ^ 22 <= tgt (-1) n 26 64 <= (IZR a + 1) / 10 ^ 22.
Proof.
  intros n a O E. pose proof (tgt_eq MY (-1) n 26 (IZR 64) eq_refl O) as Q. rewrite peval_zeval in Q. pose proof (tgt_n_pos MY (-1) n 26 eq_refl) as P. pose proof (q_div _ _ E22 a P eq_refl E) as B. rewrite E22_eq in B.
  apply IZR_lt in P. replace (tgt (-1) n 26 64) with (IZR (zeval 64 (tgt_l MY (-1) n 26)) / IZR (tgt_n MY (-1) n 26)); [exact B|]. rewrite Q. field. lra.
Qed.
Lemma J0_8 : forall v, is_J 0 8 v -> Rabs (v - 1716508071375539060908 / 10 ^ 22) <= 2 / 10 ^ 17.
Proof.
  intros v Hv. pose proof (series_near 64 0 (-1) 8 v 26 (10 ^ 17) ltac:(lia) abs_m1 ltac:(lra) ltac:(lia) Hv ltac:(vm_compute; reflexivity) ltac:(vm_compute; reflexivity)) as N.
  rewrite bterm_0 in N. cbn [pow fact] in N. simpl (INR 1) in N. replace (1 / 1) with 1 in N by field. rewrite Rabs_R1, Rmult_1_l in N. replace (8 * 8) with 64 in N by ring. replace (IZR (10 ^ 17)) with (10 ^ 17) in N by (rewrite (pow_IZR 10 17); reflexivity).
  pose proof (pr_8 0 1716508071375539060908 ltac:(vm_compute; reflexivity)) as B. apply Rabs_le_inv in N. apply Rabs_le. lra.
Qed.
Lemma J1_8 : forall v, is_J 1 8 v -> Rabs (v - 4 * (586590867134786560953 / 10 ^ 22)) <= 5 / 10 ^ 17.
Proof.
  intros v Hv. pose proof (series_near 64 1 (-1) 8 v 26 (10 ^ 17) ltac:(lia) abs_m1 ltac:(lra) ltac:(lia) Hv ltac:(vm_compute; reflexivity) ltac:(vm_compute; reflexivity)) as N.
  rewrite bterm_0 in N. rewrite pow_1 in N. change (INR (fact 1)) with 1 in N. replace (8 / 2 / 1) with 4 in N by field. rewrite (Rabs_pos_eq 4) in N by lra. replace (8 * 8) with 64 in N by ring. replace (IZR (10 ^ 17)) with (10 ^ 17) in N by (rewrite (pow_IZR 10 17); reflexivity).
  pose proof (pr_8 1 586590867134786560953 ltac:(vm_compute; reflexivity)) as B. apply Rabs_le_inv in N. apply Rabs_le. lra.
Qed.
Lemma ln_8 : Rabs (ln 8 / 3 - 693147180559945309 / 10 ^ 18) <= 1 / 10 ^ 18.
Proof.
  replace 8 with (2 * (2 * 2)) by ring. rewrite !ln_mult by lra. pose proof ln2_low. pose proof ln2_up. apply Rabs_le. lra.
Qed.
Lemma Y0_8 : forall v, is_Y 0 8 v -> Rabs (v - 2235214893875662205273 / 10 ^ 22) <= 2 / 10 ^ 16.
Proof.
  intros v Hv. destruct (y0_ser 8 v ltac:(lra) Hv) as (b & Hb & _ & N). pose proof (J0_8 b Hb) as B. pose proof ln_8 as L. destruct pi_near as [P _]. unfold pn, pd in *. replace (8 * 8) with 64 in N by ring.
  pose proof (tgt_8 0 58310845349897937644 eq_refl ltac:(vm_compute; reflexivity)) as T. set (t := tgt (-1) 0 26 64) in *. clearbody t. set (l := ln 8) in *. clearbody l. set (p := 2 / PI) in *. clearbody p.
  pose proof (prod_near2 _ _ _ _ _ _ 1 (1 / 4) L B ltac:(nums) ltac:(nums)) as P1.
  pose proof (prod_near2 _ _ _ _ _ _ 1 (1 / 4) P P1 ltac:(nums) ltac:(nums)) as P2. replace (p * (l * b)) with (3 * (p * (l / 3 * b))) in N by field.
  set (w := p * (l / 3 * b)) in *. clearbody w. apply Rabs_le_inv in P2, N. apply Rabs_le. lra.
Qed.
Lemma Y1_8 : forall v, is_Y 1 8 v -> Rabs (v - -1580604617312474942556 / 10 ^ 22) <= 5 / 10 ^ 16.
Proof.
  intros v Hv. destruct (y1_ser 8 v ltac:(lra) Hv) as (b & Hb & _ & N). pose proof (J1_8 b Hb) as B. pose proof ln_8 as L. destruct pi_near as [P _]. unfold pn, pd in *. replace (8 * 8) with 64 in N by ring.
  pose proof (tgt_8 1 763991699418722296441 eq_refl ltac:(vm_compute; reflexivity)) as T. set (t := tgt (-1) 1 26 64) in *. clearbody t. set (l := ln 8) in *. clearbody l. set (p := 2 / PI) in *. clearbody p.
  pose proof (prod_near2 _ _ _ _ _ _ 1 (1 / 4) L B ltac:(nums) ltac:(nums)) as P1.
  pose proof (prod_near2 _ _ _ _ _ _ 1 (1 / 4) P P1 ltac:(nums) ltac:(nums)) as P2. replace (p * (l * b - / 8)) with (3 * (p * (l / 3 * b)) - p / 8) in N by field.
  set (w := p * (l / 3 * b)) in *. clearbody w. apply Rabs_le_inv in P2, N, P. apply Rabs_le. lra.
Qed.
