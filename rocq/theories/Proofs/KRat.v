(** * K_0 and K_1 beyond 1: the tables are accurate on the whole half-line *)

From Coq Require Import ZArith Reals Bool Lra Lia List.
From Flocq Require Import Core.
From Verif.Model Require Import Base Arith Bessel BesselTables.
From Verif.Spec Require Import BesselSpec Bessel2Spec.
From Verif.Proofs Require Import PolyZ PolyTree HornerErr BesselRat BesselSeries SecondSeries BesselReal EulerGamma SecondRat KAcc ErfcODE StirlingConst BesselODE BesselLim RatODE.
Import ListNotations.
Open Scope R_scope.

Local Notation exp := Rtrigo_def.exp. Local Notation ln := Rpower.ln. Local Notation sqrt := R_sqrt.sqrt.

(** ** the tables with 21 digits *)
Definition z21 (l : list dec) : list Z := zk 21 l.
Lemma tab_eq21 : forall l x, forallb (dz_ok 21) l = true -> tab l x = peval (z21 l) x / IZR (10 ^ 21).
Proof. intros l x H. apply tab_eqk; [lia|exact H]. Qed.
Lemma tab_quot21 : forall p q y, forallb (dz_ok 21) p = true -> forallb (dz_ok 21) q = true -> 0 < peval (z21 q) y -> tab p y / tab q y = peval (z21 p) y / peval (z21 q) y.
Proof.
  intros p q y Hp Hq Q0. rewrite (tab_eq21 p y Hp), (tab_eq21 q y Hq). assert (T : 0 < IZR (10 ^ 21)) by (apply IZR_lt; reflexivity). set (D := IZR (10 ^ 21)) in *. clearbody D. field. lra.
Qed.

(** ** e *)
Lemma e_low : 271828182845904523536028 / 10 ^ 23 <= exp 1.
Proof.
  eapply Rle_trans; [|apply (tay_low 27); lra]. pose proof (ztay_ok 27 1 1 eq_refl) as H. simpl (IZR 1) in H. rewrite pow1, Rmult_1_r in H. replace (1 / 1) with 1 in H by field.
  assert (Fa : INR (fact 27) = 10888869450418352160768000000) by (rewrite fact_zfa; f_equal; vm_compute; reflexivity). rewrite Fa in H.
  assert (Z : IZR (ztay 27 1 1) = 29599015959535037315994925480) by (f_equal; vm_compute; reflexivity). rewrite Z in H. lra.
Qed.
Lemma e_up : exp 1 <= 271828182845904523536029 / 10 ^ 23.
Proof.
  eapply Rle_trans; [apply (tay_up 27); lra|]. pose proof (ztay_ok 27 1 1 eq_refl) as H. simpl (IZR 1) in H. rewrite pow1, Rmult_1_r in H. replace (1 / 1) with 1 in H by field.
  assert (Fa : INR (fact 27) = 10888869450418352160768000000) by (rewrite fact_zfa; f_equal; vm_compute; reflexivity). rewrite Fa in H.
  assert (Fb : INR (fact 28) = 304888344611713860501504000000) by (rewrite fact_zfa; f_equal; vm_compute; reflexivity). rewrite Fb, pow1.
  assert (Z : IZR (ztay 27 1 1) = 29599015959535037315994925480) by (f_equal; vm_compute; reflexivity). rewrite Z in H. lra.
Qed.

(** ** rational functions close to the scaled functions, found numerically *)
Definition k0_P : list Z := [12533141373155002512078826; 346174355749745457320585458; 3827315688590429417016696772; 22079436308239590776160534918; 72722432052847165300986741666; 140840882439055445209948973171; 159577314640277779074445581353; 102174409322912476156983749126; 34431071823448686697888773222; 5351972389352522834482841825; 293349531726608444427170960; 2606736460254432569162180]%Z.
Definition k0_Q : list Z := [10000000000000000000000000; 277457173798600521651745807; 3087735118969716033199453768; 17984031945788085154094198959; 60074203426023614976582823398; 118816844959996178027602671240; 138980595390717226959336410115; 93484349850372375869400301723; 34085663639196215335447524519; 6052261231665383072000216013; 426540342584310098325604751; 7317600218148886547557216]%Z.

Definition k1_P : list Z := [12533141373155002512078826; 342145796291463583196847324; 3749890657957436294275776230; 21561863243503321698109579223; 71451011799471753840288263420; 141396354378593246848723833528; 167833975781592936011330863631; 117097911511326821811744620065; 45737558283238062090275617371; 9102444246260465255219735237; 765512779347596614428819204; 17300548579962810294626565]%Z.
Definition k1_Q : list Z := [10000000000000000000000000; 269242848404561059337394995; 2892185667531426456745432609; 16149834664482218277491015615; 51266233223581049953863549772; 95225175254398700488486149891; 102903540908750943042612917216; 62432360766884130370769889399; 19774340468246928972877919070; 2854882055962162736306352711; 141832467019485322152410081; 1019724724391179546964994]%Z.

Local Notation L := Leaf. Local Notation N := Node.
Definition tk0 : tree := N (N (N (N (N (N L L) (N L L)) (N (N L L) (N L L))) (N (N (N L L) (N L L)) (N L L))) (N (N (N L L) (N L L)) (N (N L L) (N L L)))) (N (N (N (N L L) (N L L)) (N (N L L) L)) (N (N L L) (N L (N L L)))).
Definition tk1 : tree := N (N (N (N (N (N L L) (N L L)) (N (N L L) (N L L))) (N (N (N L L) L) (N L L))) (N (N (N L L) (N L L)) (N (N L L) (N L L)))) (N (N (N (N L L) (N L L)) (N (N L L) L)) (N (N L L) (N L (N L (N L L))))).
Definition tc0 : tree := N (N (N (N (N (N (N (N L L) L) (N L L)) (N L L)) (N (N L L) L)) (N (N (N L L) L) (N (N L L) L))) (N (N (N L L) (N L L)) (N (N L L) (N L L)))) (N (N (N (N L L) (N L L)) (N (N L L) (N L L))) (N (N L (N L L)) (N (N L L) (N L (N L (N L L)))))).
Definition tc1 : tree := N (N (N (N (N (N (N (N (N L L) L) L) (N L L)) (N L L)) (N (N L (N L L)) L)) (N (N (N L L) L) (N (N L L) L))) (N (N (N L L) (N L L)) (N (N L L) (N L L)))) (N (N (N (N L L) (N L L)) (N (N L L) (N L L))) (N (N L (N L L)) (N (N L L) (N L (N L (N L L)))))).

Lemma k0_t : neg2 tk0 230 1 (10 ^ 17) (wT k0_P k0_Q 1 1) (pscale (-1) (pscale (4 * 4) (pmul k0_Q (pmul k0_Q k0_Q)))) = true.
Proof. vm_compute. reflexivity. Qed.
Lemma k1_t : neg2 tk1 230 1 (10 ^ 17) (wT k1_P k1_Q 1 (-3)) (pscale (-1) (pscale (4 * 9) (pmul k1_Q (pmul k1_Q k1_Q)))) = true.
Proof. vm_compute. reflexivity. Qed.
Lemma k0_c : neg2 tc0 110 1 (8 * 10 ^ 14) (psub (pmul (z21 K0PP) k0_Q) (pmul k0_P (z21 K0QQ))) (pscale (-1) (pmul k0_P (z21 K0QQ))) = true.
Proof. vm_compute. reflexivity. Qed.
Lemma k1_c : neg2 tc1 110 1 (5 * 10 ^ 14) (psub (pmul (z21 K1PP) k1_Q) (pmul k1_P (z21 K1QQ))) (pscale (-1) (pmul k1_P (z21 K1QQ))) = true.
Proof. vm_compute. reflexivity. Qed.
Fixpoint comb (k d : nat) : tree := match k with O => full d | S k => Node (comb k d) (full d) end.
Lemma k0_m : (neg_chk (comb 5 3) 50 1 (chk_m k0_P k0_Q 1 114 100) && neg_chk (comb 5 3) 50 1 (chk_m k0_P k0_Q (-1) 126 100))%bool = true.
Proof. vm_compute. reflexivity. Qed.
Lemma k1_m : (neg_chk (comb 5 3) 50 1 (chk_m k1_P k1_Q 1 125 100) && neg_chk (comb 5 3) 50 1 (chk_m k1_P k1_Q (-1) 164 100))%bool = true.
Proof. vm_compute. reflexivity. Qed.
Lemma k0_d : neg2 (comb 4 3) 120 1 1 (wN k0_P k0_Q) (pscale (-1) (pscale 2 (pmul k0_Q k0_Q))) = true.
Proof. vm_compute. reflexivity. Qed.
Lemma k1_d : neg2 (comb 4 3) 120 1 1 (wN k1_P k1_Q) (pscale (-1) (pscale 2 (pmul k1_Q k1_Q))) = true.
Proof. vm_compute. reflexivity. Qed.

Lemma posq : forall l y, match l with [] => false | c :: _ => true end = true -> posl l = true -> 0 <= y -> 0 < peval l y.
Proof.
  intros l y H P Y. destruct l as [|c l]; [discriminate|]. pose proof (peval_ge_hd c l y Y P). cbn [posl forallb] in P. apply andb_prop in P. destruct P as [P _]. apply Z.ltb_lt, IZR_lt in P. lra.
Qed.
Lemma y_unit : forall x, 1 <= x -> 0 <= 1 / x <= 1.
Proof. intros x Hx. unfold Rdiv. rewrite Rmult_1_l. split; [left; apply Rinv_0_lt_compat; lra|]. rewrite <- Rinv_1. apply Rinv_le_contravar; lra. Qed.

(** ** at 1 *)
Lemma tgt_val : forall n a, tgt_n MK 1 n 10 <> 0%Z -> hz_ok MK (n + 10) = true -> (10 ^ 22 * zeval 1 (tgt_l MK 1 n 10) / tgt_n MK 1 n 10 = a)%Z -> (0 < tgt_n MK 1 n 10)%Z ->
  IZR a / 10 ^ 22 <= tgt 1 n 10 1 <= (IZR a + 1) / 10 ^ 22.
Proof.
  intros n a N0 Ok E NP. pose proof (tgt_eq MK 1 n 10 1 eq_refl Ok) as T. rewrite (peval_zeval _ 1) in T. simpl (IZR 1) in T.
  pose proof (Z.div_mod (10 ^ 22 * zeval 1 (tgt_l MK 1 n 10)) (tgt_n MK 1 n 10) N0) as DM. pose proof (Z.mod_pos_bound (10 ^ 22 * zeval 1 (tgt_l MK 1 n 10)) (tgt_n MK 1 n 10) NP) as MB. rewrite E in DM.
  set (m := ((10 ^ 22 * zeval 1 (tgt_l MK 1 n 10)) mod tgt_n MK 1 n 10)%Z) in *. clearbody m. set (z := zeval 1 (tgt_l MK 1 n 10)) in *. set (d := tgt_n MK 1 n 10) in *. clearbody z d.
  assert (B1 : (d * a <= 10 ^ 22 * z)%Z) by lia. assert (B2 : (10 ^ 22 * z <= d * (a + 1))%Z) by lia. apply IZR_le in B1, B2. rewrite !mult_IZR in B1, B2. rewrite plus_IZR in B2. rewrite T in B1, B2. apply IZR_lt in NP.
  change (IZR (10 ^ 22)) with (10 ^ 22) in B1, B2 || replace (IZR (10 ^ 22)) with (10 ^ 22) in B1, B2 by (rewrite (pow_IZR 10 22); reflexivity).
  set (t := tgt 1 n 10 1) in *. clearbody t. assert (T22 : 0 < 10 ^ 22) by (apply pow_lt; lra). set (D := 10 ^ 22) in *. clearbody D.
  split; apply Rmult_le_reg_r with (D * IZR d); try (apply Rmult_lt_0_compat; assumption).
  - replace (IZR a / D * (D * IZR d)) with (IZR d * IZR a) by (field; lra). lra.
  - replace ((IZR a + 1) / D * (D * IZR d)) with (IZR d * (IZR a + 1)) by (field; lra). lra.
Qed.
Lemma tgt0_1 : 4210244382407083335747 / 10 ^ 22 <= tgt 1 0 10 1 <= 4210244382407083335748 / 10 ^ 22.
Proof. pose proof (tgt_val 0 4210244382407083335747 ltac:(discriminate) eq_refl ltac:(vm_compute; reflexivity) eq_refl) as H. lra. Qed.
Lemma tgt1_1 : 3980927698027654253694 / 10 ^ 22 <= tgt 1 1 10 1 <= 3980927698027654253695 / 10 ^ 22.
Proof. pose proof (tgt_val 1 3980927698027654253694 ltac:(discriminate) eq_refl ltac:(vm_compute; reflexivity) eq_refl) as H. lra. Qed.

Section G.
  Variable g : R.
  Hypothesis Hg : is_euler g.
  Lemma se_1 : sqrt 1 * exp (1 * 1) = exp 1.
  Proof. rewrite sqrt_1, !Rmult_1_l. reflexivity. Qed.
  Lemma K0_1 : Rabs (K0 g 1 - 4210244382407083335747 / 10 ^ 22) <= 22 / 10 ^ 17.
  Proof.
    pose proof (k0_ser 1 (K0 g 1) ltac:(lra) (K0_is g Hg 1)) as H. cbv zeta in H. rewrite ln_1, Rmult_1_r in H. replace (pr 1 0 0 10 1 * - 0) with 0 in H by ring. rewrite Rplus_0_r in H. pose proof tgt0_1 as T.
    set (t := tgt 1 0 10 1) in *. clearbody t. set (v := K0 g 1) in *. clearbody v. apply Rabs_le_inv in H. apply Rabs_le. lra.
  Qed.
  Lemma K1_1 : Rabs (K1 g 1 - 6019072301972345746306 / 10 ^ 22) <= 22 / 10 ^ 17.
  Proof.
    pose proof (k1_ser 1 (K1 g 1) ltac:(lra) (K1_is g Hg 1 ltac:(lra))) as H. cbv zeta in H. rewrite ln_1, Rinv_1, !Rmult_1_l in H. replace (pr 1 1 0 10 1 / 2 * - 0) with 0 in H by field. rewrite Rplus_0_r in H. pose proof tgt1_1 as T.
    set (t := tgt 1 1 10 1) in *. clearbody t. set (v := K1 g 1) in *. clearbody v. apply Rabs_le_inv in H. apply Rabs_le. lra.
  Qed.
  Lemma k0s_1 : Rabs (k0s g 1 - 1144463079806895014699 / 10 ^ 21) <= 61 / 10 ^ 17.
  Proof.
    unfold k0s. rewrite se_1. pose proof K0_1 as K. pose proof e_low as E1. pose proof e_up as E2. set (e := exp 1) in *. clearbody e. set (v := K0 g 1) in *. clearbody v. apply Rabs_le_inv in K. apply Rabs_le.
    assert (271828182845904523536028 / 10 ^ 23 * (4210244382407083335747 / 10 ^ 22 - 22 / 10 ^ 17) <= e * v) by (apply Rmult_le_compat; lra).
    assert (e * v <= 271828182845904523536029 / 10 ^ 23 * (4210244382407083335747 / 10 ^ 22 + 22 / 10 ^ 17)) by (apply Rmult_le_compat; lra). lra.
  Qed.
  Lemma k1s_1 : Rabs (k1s g 1 - 1636153486263258246513 / 10 ^ 21) <= 65 / 10 ^ 17.
  Proof.
    unfold k1s. rewrite se_1. pose proof K1_1 as K. pose proof e_low as E1. pose proof e_up as E2. set (e := exp 1) in *. clearbody e. set (v := K1 g 1) in *. clearbody v. apply Rabs_le_inv in K. apply Rabs_le.
    assert (271828182845904523536028 / 10 ^ 23 * (6019072301972345746306 / 10 ^ 22 - 22 / 10 ^ 17) <= e * v) by (apply Rmult_le_compat; lra).
    assert (e * v <= 271828182845904523536029 / 10 ^ 23 * (6019072301972345746306 / 10 ^ 22 + 22 / 10 ^ 17)) by (apply Rmult_le_compat; lra). lra.
  Qed.
  Lemma q_1 : forall P Q a, (0 < zeval 1 Q)%Z -> (10 ^ 20 * zeval 1 P / zeval 1 Q = a)%Z -> IZR a / 10 ^ 20 <= q0 P Q 1 1 <= (IZR a + 1) / 10 ^ 20.
  Proof.
    intros P Q a Q0 E. unfold q0. replace (1 / 1) with (IZR 1) by (simpl; field). rewrite !peval_zeval. pose proof (Z.div_mod (10 ^ 20 * zeval 1 P) (zeval 1 Q) ltac:(lia)) as DM. pose proof (Z.mod_pos_bound (10 ^ 20 * zeval 1 P) (zeval 1 Q) Q0) as MB. rewrite E in DM.
    set (p := zeval 1 P) in *. set (q := zeval 1 Q) in *. clearbody p q. assert (B1 : (q * a <= 10 ^ 20 * p)%Z) by lia. assert (B2 : (10 ^ 20 * p <= q * (a + 1))%Z) by lia. apply IZR_le in B1, B2. rewrite !mult_IZR in B1, B2. rewrite plus_IZR in B2. apply IZR_lt in Q0.
    replace (IZR (10 ^ 20)) with (10 ^ 20) in B1, B2 by (rewrite (pow_IZR 10 20); reflexivity). assert (T22 : 0 < 10 ^ 20) by (apply pow_lt; lra). set (D := 10 ^ 20) in *. clearbody D.
    split; apply Rmult_le_reg_r with (D * IZR q); try (apply Rmult_lt_0_compat; assumption).
    - replace (IZR a / D * (D * IZR q)) with (IZR q * IZR a) by (field; lra). replace (IZR p / IZR q * (D * IZR q)) with (D * IZR p) by (field; lra). lra.
    - replace ((IZR a + 1) / D * (D * IZR q)) with (IZR q * (IZR a + 1)) by (field; lra). replace (IZR p / IZR q * (D * IZR q)) with (D * IZR p) by (field; lra). lra.
  Qed.
  Lemma quot_1 : forall k q K e, 1 <= K -> Rabs (k - K) <= e -> K - / 10 ^ 18 <= q <= K + / 10 ^ 18 -> 0 <= e <= 1 / 2 -> Rabs (k / q - 1) <= e + 2 / 10 ^ 18.
  Proof.
    intros k q K e HK Hk Hq He. apply Rabs_le_inv in Hk. assert (Q0 : 1 - / 10 ^ 18 <= q) by lra. apply Rabs_le. split; apply Rmult_le_reg_r with q; try lra.
    - replace ((k / q - 1) * q) with (k - q) by (field; lra). assert ((1 - / 10 ^ 18) * (e + 2 / 10 ^ 18) <= q * (e + 2 / 10 ^ 18)) by (apply Rmult_le_compat_r; lra). lra.
    - replace ((k / q - 1) * q) with (k - q) by (field; lra). assert ((1 - / 10 ^ 18) * (e + 2 / 10 ^ 18) <= q * (e + 2 / 10 ^ 18)) by (apply Rmult_le_compat_r; lra). lra.
  Qed.

  (** ** the half-line *)
  Lemma rel_core : forall S q k a b, 0 < q -> 0 <= a -> 0 <= b <= 1 / 100 -> Rabs (S - q) <= q * a -> Rabs (k / q - 1) <= b -> 0 < k /\ Rabs (S - k) <= (a + b) * (1 + 2 * b) * k.
  Proof.
    intros S q k a b Hq Ha Hb HS Hk. set (r := k / q) in *. assert (E : k = r * q) by (unfold r; field; lra). clearbody r. subst k. apply Rabs_le_inv in HS, Hk.
    assert (R0 : 99 / 100 <= r) by lra. split; [apply Rmult_lt_0_compat; lra|].
    assert (B1 : Rabs (S - r * q) <= (a + b) * q).
    { assert (- b * q <= (r - 1) * q <= b * q) by (split; apply Rmult_le_compat_r; lra). apply Rabs_le. lra. }
    eapply Rle_trans; [exact B1|]. replace ((a + b) * (1 + 2 * b) * (r * q)) with ((a + b) * q * ((1 + 2 * b) * r)) by ring. rewrite <- (Rmult_1_r ((a + b) * q)) at 1.
    apply Rmult_le_compat_l; [apply Rmult_le_pos; lra|]. assert ((1 + 2 * b) * (1 - b) <= (1 + 2 * b) * r) by (apply Rmult_le_compat_l; lra). assert (0 <= b * (1 - 2 * b)) by (apply Rmult_le_pos; lra). lra.
  Qed.
  Theorem k0_rat : forall x, 1 <= x -> 0 < k0s g x /\ Rabs (tab K0PP (1 / x) / tab K0QQ (1 / x) - k0s g x) <= 2 / 10 ^ 15 * k0s g x.
  Proof.
    destruct (neg2_t _ _ _ _ _ _ _ _ k0_t) as [T1 T2]. destruct (neg2_c _ _ _ _ _ _ _ k0_c) as [C1 C2]. pose proof k0_m as CM. apply andb_prop in CM. destruct CM as [M1 M2]. destruct (neg2_d _ _ _ _ _ k0_d) as [D1 D2].
    assert (QP : forall x, 1 <= x -> 0 < peval k0_Q (1 / x)) by (intros x Hx; apply posq; [reflexivity|vm_compute; reflexivity|apply y_unit, Hx]).
    pose proof k1s_1 as K1v. apply Rabs_le_inv in K1v.
    pose proof (k0s_near g Hg (q0 k0_P k0_Q 1) (q1 k0_P k0_Q 1) (q2 k0_P k0_Q 1) (4 / 10 ^ 17) (33 / 10 ^ 18) (114 / 100) 2 ltac:(lra) ltac:(lra) ltac:(lra) ltac:(lra)) as NR.
    intros x Hx. specialize (NR ltac:(intros t Ht; apply derive_q0; [lra|pose proof (QP t Ht); lra]) ltac:(intros t Ht; apply derive_q1; [lra|pose proof (QP t Ht); lra])).
    assert (B0 : forall t, 1 <= t -> 114 / 100 <= q0 k0_P k0_Q 1 t <= 126 / 100).
    { intros t Ht. split; [exact (low_ok k0_P k0_Q 114 100 _ 50 (1 / t) ltac:(lia) ltac:(lia) (y_unit t Ht) (QP t Ht) M1)|exact (up_ok k0_P k0_Q 126 100 _ 50 (1 / t) ltac:(lia) ltac:(lia) (y_unit t Ht) (QP t Ht) M2)]. }
    specialize (NR ltac:(intros t Ht; pose proof (B0 t Ht); lra)).
    assert (B1 : forall t, 1 <= t -> Rabs (q1 k0_P k0_Q 1 t) <= 2).
    { intros t Ht. pose proof (der_ok k0_P k0_Q 2 _ 120 (1 / t) ltac:(lia) (y_unit t Ht) (QP t Ht) D1 D2) as DO. unfold q1. rewrite Rabs_mult. assert (I0 : 0 < / (t * t)) by (apply Rinv_0_lt_compat, Rmult_lt_0_compat; lra). assert (I1 : / (t * t) <= 1) by (rewrite <- Rinv_1; apply Rinv_le_contravar; [lra|]; rewrite <- (Rmult_1_r 1) at 1; apply Rmult_le_compat; lra).
      replace (- (1) / (t * t)) with (- / (t * t)) by (field; lra). rewrite Rabs_Ropp, (Rabs_pos_eq (/ (t * t))) by lra. replace 2 with (1 * 2) by ring. apply Rmult_le_compat; [lra|apply Rabs_pos|exact I1|exact DO]. }
    specialize (NR B1).
    assert (RS : forall t, 1 <= t -> Rabs (q2 k0_P k0_Q 1 t - 2 * q1 k0_P k0_Q 1 t + / 4 * q0 k0_P k0_Q 1 t / (t * t)) <= 4 / 10 ^ 17 / (t * t)).
    { intros t Ht. pose proof (res_ok k0_P k0_Q 1 ltac:(lra) 1 1 4 (10 ^ 17) _ 230 t ltac:(lia) ltac:(reflexivity) Ht (QP t Ht) T1 T2) as RO. replace (IZR (10 ^ 17)) with (10 ^ 17) in RO by (rewrite (pow_IZR 10 17); reflexivity).
      replace (2 * (1 / 1)) with 2 in RO by field. replace (1 / 4) with (/ 4) in RO by field. exact RO. }
    specialize (NR RS ltac:(lra) x Hx).
    assert (A1 : Rabs (k0s g 1 / q0 k0_P k0_Q 1 1 - 1) <= 61 / 10 ^ 17 + 2 / 10 ^ 18).
    { apply (quot_1 _ _ (1144463079806895014699 / 10 ^ 21)); [lra|exact k0s_1| |lra]. pose proof (q_1 k0_P k0_Q 114446307980689501469 ltac:(vm_compute; reflexivity) ltac:(vm_compute; reflexivity)). lra. }
    pose proof (B0 x Hx) as BX. pose proof (y_unit x Hx) as YX. pose proof (QP x Hx) as QX.
    assert (I0 : 0 < / x) by (apply Rinv_0_lt_compat; lra).
    assert (A2 : Rabs (k0s g x / q0 k0_P k0_Q 1 x - 1) <= 7 / 10 ^ 16).
    { assert (33 / 10 ^ 18 / (114 / 100 * (114 / 100)) * (1 - / x) <= 33 / 10 ^ 18 / (114 / 100 * (114 / 100)) * 1) by (apply Rmult_le_compat_l; lra). apply Rabs_le_inv in NR, A1. apply Rabs_le. lra. }
    assert (qP : 0 < peval (z21 K0QQ) (1 / x)) by (apply posq; [reflexivity|vm_compute; reflexivity|lra]).
    pose proof (close_ok (8 * 10 ^ 14) k0_P k0_Q (z21 K0PP) (z21 K0QQ) _ 110 (1 / x) ltac:(lia) ltac:(reflexivity) YX QX qP C1 C2) as CL. fold (q0 k0_P k0_Q 1 x) in CL. rewrite <- (tab_quot21 K0PP K0QQ (1 / x) eq_refl eq_refl qP) in CL.
    replace (IZR (8 * 10 ^ 14)) with (8 * 10 ^ 14) in CL by (rewrite mult_IZR, (pow_IZR 10 14); reflexivity).
    destruct (rel_core (tab K0PP (1 / x) / tab K0QQ (1 / x)) (q0 k0_P k0_Q 1 x) (k0s g x) (/ (8 * 10 ^ 14)) (7 / 10 ^ 16) ltac:(lra) ltac:(lra) ltac:(lra) CL A2) as [KP KE].
    split; [exact KP|]. eapply Rle_trans; [exact KE|]. apply Rmult_le_compat_r; lra.
  Qed.
  Theorem k1_rat : forall x, 1 <= x -> 0 < k1s g x /\ Rabs (tab K1PP (1 / x) / tab K1QQ (1 / x) - k1s g x) <= 3 / 10 ^ 15 * k1s g x.
  Proof.
    destruct (neg2_t _ _ _ _ _ _ _ _ k1_t) as [T1 T2]. destruct (neg2_c _ _ _ _ _ _ _ k1_c) as [C1 C2]. pose proof k1_m as CM. apply andb_prop in CM. destruct CM as [M1 M2]. destruct (neg2_d _ _ _ _ _ k1_d) as [D1 D2].
    assert (QP : forall x, 1 <= x -> 0 < peval k1_Q (1 / x)) by (intros x Hx; apply posq; [reflexivity|vm_compute; reflexivity|apply y_unit, Hx]).
    pose proof k1s_1 as K1v. apply Rabs_le_inv in K1v.
    pose proof (k1s_near g Hg (q0 k1_P k1_Q 1) (q1 k1_P k1_Q 1) (q2 k1_P k1_Q 1) (9 / 10 ^ 17) (75 / 10 ^ 18) (125 / 100) 2 ltac:(lra) ltac:(lra) ltac:(lra) ltac:(lra)) as NR.
    intros x Hx. specialize (NR ltac:(intros t Ht; apply derive_q0; [lra|pose proof (QP t Ht); lra]) ltac:(intros t Ht; apply derive_q1; [lra|pose proof (QP t Ht); lra])).
    assert (B0 : forall t, 1 <= t -> 125 / 100 <= q0 k1_P k1_Q 1 t <= 164 / 100).
    { intros t Ht. split; [exact (low_ok k1_P k1_Q 125 100 _ 50 (1 / t) ltac:(lia) ltac:(lia) (y_unit t Ht) (QP t Ht) M1)|exact (up_ok k1_P k1_Q 164 100 _ 50 (1 / t) ltac:(lia) ltac:(lia) (y_unit t Ht) (QP t Ht) M2)]. }
    specialize (NR ltac:(intros t Ht; pose proof (B0 t Ht); lra)).
    assert (B1 : forall t, 1 <= t -> Rabs (q1 k1_P k1_Q 1 t) <= 2).
    { intros t Ht. pose proof (der_ok k1_P k1_Q 2 _ 120 (1 / t) ltac:(lia) (y_unit t Ht) (QP t Ht) D1 D2) as DO. unfold q1. rewrite Rabs_mult. assert (I0 : 0 < / (t * t)) by (apply Rinv_0_lt_compat, Rmult_lt_0_compat; lra). assert (I1 : / (t * t) <= 1) by (rewrite <- Rinv_1; apply Rinv_le_contravar; [lra|]; rewrite <- (Rmult_1_r 1) at 1; apply Rmult_le_compat; lra).
      replace (- (1) / (t * t)) with (- / (t * t)) by (field; lra). rewrite Rabs_Ropp, (Rabs_pos_eq (/ (t * t))) by lra. replace 2 with (1 * 2) by ring. apply Rmult_le_compat; [lra|apply Rabs_pos|exact I1|exact DO]. }
    specialize (NR B1).
    assert (RS : forall t, 1 <= t -> Rabs (q2 k1_P k1_Q 1 t - 2 * q1 k1_P k1_Q 1 t + - (3 / 4) * q0 k1_P k1_Q 1 t / (t * t)) <= 9 / 10 ^ 17 / (t * t)).
    { intros t Ht. pose proof (res_ok k1_P k1_Q 1 ltac:(lra) 1 (-3) 9 (10 ^ 17) _ 230 t ltac:(lia) ltac:(reflexivity) Ht (QP t Ht) T1 T2) as RO. replace (IZR (10 ^ 17)) with (10 ^ 17) in RO by (rewrite (pow_IZR 10 17); reflexivity).
      replace (2 * (1 / 1)) with 2 in RO by field. replace (-3 / 4) with (- (3 / 4)) in RO by field. exact RO. }
    specialize (NR RS ltac:(lra) x Hx).
    assert (A1 : Rabs (k1s g 1 / q0 k1_P k1_Q 1 1 - 1) <= 65 / 10 ^ 17 + 2 / 10 ^ 18).
    { apply (quot_1 _ _ (1636153486263258246513 / 10 ^ 21)); [lra|exact k1s_1| |lra]. pose proof (q_1 k1_P k1_Q 163615348626325824651 ltac:(vm_compute; reflexivity) ltac:(vm_compute; reflexivity)). lra. }
    pose proof (B0 x Hx) as BX. pose proof (y_unit x Hx) as YX. pose proof (QP x Hx) as QX.
    assert (I0 : 0 < / x) by (apply Rinv_0_lt_compat; lra).
    assert (A2 : Rabs (k1s g x / q0 k1_P k1_Q 1 x - 1) <= 8 / 10 ^ 16).
    { assert (75 / 10 ^ 18 / (125 / 100 * (125 / 100)) * (1 - / x) <= 75 / 10 ^ 18 / (125 / 100 * (125 / 100)) * 1) by (apply Rmult_le_compat_l; lra). apply Rabs_le_inv in NR, A1. apply Rabs_le. lra. }
    assert (qP : 0 < peval (z21 K1QQ) (1 / x)) by (apply posq; [reflexivity|vm_compute; reflexivity|lra]).
    pose proof (close_ok (5 * 10 ^ 14) k1_P k1_Q (z21 K1PP) (z21 K1QQ) _ 110 (1 / x) ltac:(lia) ltac:(reflexivity) YX QX qP C1 C2) as CL. fold (q0 k1_P k1_Q 1 x) in CL. rewrite <- (tab_quot21 K1PP K1QQ (1 / x) eq_refl eq_refl qP) in CL.
    replace (IZR (5 * 10 ^ 14)) with (5 * 10 ^ 14) in CL by (rewrite mult_IZR, (pow_IZR 10 14); reflexivity).
    destruct (rel_core (tab K1PP (1 / x) / tab K1QQ (1 / x)) (q0 k1_P k1_Q 1 x) (k1s g x) (/ (5 * 10 ^ 14)) (8 / 10 ^ 16) ltac:(lra) ltac:(lra) ltac:(lra) CL A2) as [KP KE].
    split; [exact KP|]. eapply Rle_trans; [exact KE|]. apply Rmult_le_compat_r; lra.
  Qed.
End G.
