(** * I_0 and I_1 beyond 15: the tables are accurate on the whole half-line *)

From Coq Require Import ZArith Reals Bool Lra Lia List.
From Flocq Require Import Core.
From Verif.Model Require Import Base Arith Bessel BesselTables.
From Verif.Spec Require Import BesselSpec Bessel2Spec.
From Verif.Proofs Require Import PolyZ PolyTree HornerErr BesselRat BesselSeries BesselReal ErfcODE ExpBounds StirlingConst BesselODE BesselLim RatODE KRat.
Import ListNotations.
Open Scope R_scope.

Local Notation exp := Rtrigo_def.exp. Local Notation ln := Rpower.ln. Local Notation sqrt := R_sqrt.sqrt.

(** ** rational functions of 15 / x close to the scaled functions, found numerically *)
Definition i0_P : list Z := [3989422804014326779399464; (-16294163557897197438535840); 27966224686589388324912271; (-25779347983964750323496254); 13627385537905975677243919; (-4106392523027711315776351); 665687622764730724063758; (-51415630795173161539029); 1468921109255061721515; (-7319127679724990600)]%Z.
Definition i0_Q : list Z := [10000000000000000000000000; (-40926744419020509809599345); 70438860737580288812542087; (-65193660470562170664954269); 34680924272248997291930988; (-10563275233090701574632382); 1747091405755193532260787; (-140765253308129572046985); 4477871707331809459487; (-33902782801854009035)]%Z.

Definition i1_P : list Z := [3989422804014326779399456; (-16138711065600554013856891); 27375323985168661302022115; (-24893211652243630619471766); 12970066201743901776318345; (-3862791972560766873175635); 627064124683211300970276; (-50602377868136115655838); 1728623572270519232825; (-17542557495025811137)]%Z.
Definition i1_Q : list Z := [10000000000000000000000000; (-40203749473134552271942082); 67619875724912935794205604; (-60728166914171092218070390); 31026956192536251840826699; (-8936595360223681456747512); 1362895114543696995865278; (-96631317344592766318552); 2425314357082005054251; (-9293154978551629344)]%Z.

Local Notation L := Leaf. Local Notation N := Node.
Definition ti0 : tree := N (N (N (N L L) (N L L)) (N (N L L) (N L L))) (N (N (N L L) (N L L)) (N (N L L) (N L (N L L)))).
Definition ti1 : tree := N (N (N (N L L) (N L L)) (N (N L L) (N L L))) (N (N (N L L) (N L L)) (N (N L L) (N L (N L L)))).
Definition tj0 : tree := N (N (N (N L L) L) (N L L)) (N (N L (N L L)) (N L (N L L))).
Definition tj1 : tree := N (N (N (N L L) L) (N L L)) (N (N L (N L L)) (N (N L L) (N L L))).
Lemma i0_t : neg2 ti0 110 1 (10 ^ 15) (wT i0_P i0_Q (-15) 1) (pscale (-1) (pscale (4 * 3) (pmul i0_Q (pmul i0_Q i0_Q)))) = true.
Proof. vm_compute. reflexivity. Qed.
Lemma i1_t : neg2 ti1 110 1 (10 ^ 15) (wT i1_P i1_Q (-15) (-3)) (pscale (-1) (pscale (4 * 4) (pmul i1_Q (pmul i1_Q i1_Q)))) = true.
Proof. vm_compute. reflexivity. Qed.
Lemma i0_c : neg2 tj0 70 1 (10 ^ 15) (psub (pmul (prefl 1 (z21 I0PP)) i0_Q) (pmul i0_P (prefl 1 (z21 I0QQ)))) (pscale (-1) (pmul i0_P (prefl 1 (z21 I0QQ)))) = true.
Proof. vm_compute. reflexivity. Qed.
Lemma i1_c : neg2 tj1 70 1 (10 ^ 15) (psub (pmul (prefl 1 (z21 I1PP)) i1_Q) (pmul i1_P (prefl 1 (z21 I1QQ)))) (pscale (-1) (pmul i1_P (prefl 1 (z21 I1QQ)))) = true.
Proof. vm_compute. reflexivity. Qed.
Lemma i0_q : (neg_chk (full 4) 50 1 (chk_q i0_Q 1) && neg_chk (full 4) 10 1 (chk_q (prefl 1 (z21 I0QQ)) 1))%bool = true.
Proof. vm_compute. reflexivity. Qed.
Lemma i1_q : (neg_chk (full 4) 50 1 (chk_q i1_Q 1) && neg_chk (full 4) 10 1 (chk_q (prefl 1 (z21 I1QQ)) 1))%bool = true.
Proof. vm_compute. reflexivity. Qed.
Lemma i0_m : (neg_chk (full 5) 50 1 (chk_m i0_P i0_Q 1 39 100))%bool = true.
Proof. vm_compute. reflexivity. Qed.
Lemma i1_m : (neg_chk (full 5) 50 1 (chk_m i1_P i1_Q 1 38 100))%bool = true.
Proof. vm_compute. reflexivity. Qed.

(** ** the scaled functions *)
Definition i0s (x : R) : R := sqrt x * exp (-1 * x) * BI x 0.
Definition i1s (x : R) : R := sqrt x * exp (-1 * x) * BI x 1.
Definition u0s (x : R) : R := i1s x - i0s x * (1 + -1 * / (2 * x)).
Definition u1s (x : R) : R := i0s x - i1s x * (1 + 1 * / (2 * x)).
Lemma i0s_pos : forall x, 0 < x -> 0 < i0s x.
Proof. intros x Hx. unfold i0s. apply Rmult_lt_0_compat; [apply Rmult_lt_0_compat; [apply sqrt_lt_R0, Hx|apply exp_pos]|apply BI_pos, Hx]. Qed.
Lemma i1s_pos : forall x, 0 < x -> 0 < i1s x.
Proof. intros x Hx. unfold i1s. apply Rmult_lt_0_compat; [apply Rmult_lt_0_compat; [apply sqrt_lt_R0, Hx|apply exp_pos]|apply BI_pos, Hx]. Qed.
Lemma i10s : forall x, 0 < x -> i1s x <= i0s x.
Proof. intros x Hx. unfold i0s, i1s. apply Rmult_le_compat_l; [apply Rmult_le_pos; [apply sqrt_pos|left; apply exp_pos]|apply BI_mono, Hx]. Qed.
Lemma derive_i0s : forall x, 0 < x -> derivable_pt_lim i0s x (u0s x).
Proof.
  intros x Hx. replace (u0s x) with (sqrt x * exp (-1 * x) * (BI x 1 + (-1 + / (2 * x)) * BI x 0)) by (unfold u0s, i0s, i1s; ring). apply (derive_scaled (-1) (fun x => BI x 0)); [exact Hx|apply derive_BI0].
Qed.
Lemma derive_i1s : forall x, 0 < x -> derivable_pt_lim i1s x (u1s x).
Proof.
  intros x Hx. replace (u1s x) with (sqrt x * exp (-1 * x) * ((BI x 0 - BI x 1 / x) + (-1 + / (2 * x)) * BI x 1)) by (unfold u1s, i0s, i1s; field; lra). apply (derive_scaled (-1) (fun x => BI x 1)); [exact Hx|apply derive_BI1, Hx].
Qed.
Lemma derive_u0s : forall x, 0 < x -> derivable_pt_lim u0s x (- 2 * u0s x - / 4 * i0s x / (x * x)).
Proof.
  intros x Hx. replace (- 2 * u0s x - / 4 * i0s x / (x * x)) with (u1s x - (u0s x * (1 + -1 * / (2 * x)) + i0s x * (-1 * (- / (2 * (x * x)))))) by (unfold u0s, u1s; field; lra).
  apply (derivable_pt_lim_minus i1s (fun x => i0s x * (1 + -1 * / (2 * x)))); [apply derive_i1s, Hx|]. apply (derivable_pt_lim_mult i0s (fun x => 1 + -1 * / (2 * x))); [apply derive_i0s, Hx|apply derive_lin, Hx].
Qed.
Lemma derive_u1s : forall x, 0 < x -> derivable_pt_lim u1s x (- 2 * u1s x - - (3 / 4) * i1s x / (x * x)).
Proof.
  intros x Hx. replace (- 2 * u1s x - - (3 / 4) * i1s x / (x * x)) with (u0s x - (u1s x * (1 + 1 * / (2 * x)) + i1s x * (1 * (- / (2 * (x * x)))))) by (unfold u0s, u1s; field; lra).
  apply (derivable_pt_lim_minus i0s (fun x => i1s x * (1 + 1 * / (2 * x)))); [apply derive_i0s, Hx|]. apply (derivable_pt_lim_mult i1s (fun x => 1 + 1 * / (2 * x))); [apply derive_i1s, Hx|apply derive_lin, Hx].
Qed.

(** ** at 15 *)
Lemma pr_15 : forall n a, (0 < snd (plz 1 n 0 38))%Z -> (10 ^ 20 * zeval 225 (fst (plz 1 n 0 38)) / snd (plz 1 n 0 38) = a)%Z -> IZR a / 10 ^ 20 <= pr 1 n 0 38 225 <= (IZR a + 1) / 10 ^ 20.
Proof.
  intros n a D0 E. pose proof (plz_eq 1 n 38 0 225) as H. rewrite (peval_zeval _ 225) in H. simpl (IZR 1) in H.
  pose proof (Z.div_mod (10 ^ 20 * zeval 225 (fst (plz 1 n 0 38))) (snd (plz 1 n 0 38)) ltac:(lia)) as DM. pose proof (Z.mod_pos_bound (10 ^ 20 * zeval 225 (fst (plz 1 n 0 38))) (snd (plz 1 n 0 38)) D0) as MB. rewrite E in DM.
  set (p := zeval 225 (fst (plz 1 n 0 38))) in *. set (q := snd (plz 1 n 0 38)) in *. set (v := pr 1 n 0 38 225) in *. clearbody p q v. assert (B1 : (q * a <= 10 ^ 20 * p)%Z) by lia. assert (B2 : (10 ^ 20 * p <= q * (a + 1))%Z) by lia. apply IZR_le in B1, B2. rewrite !mult_IZR in B1, B2. rewrite plus_IZR in B2. rewrite H in B1, B2. apply IZR_lt in D0.
  replace (IZR (10 ^ 20)) with (10 ^ 20) in B1, B2 by (rewrite (pow_IZR 10 20); reflexivity). assert (T22 : 0 < 10 ^ 20) by (apply pow_lt; lra). set (D := 10 ^ 20) in *. clearbody D.
  split; apply Rmult_le_reg_r with (D * IZR q); try (apply Rmult_lt_0_compat; assumption).
  - replace (IZR a / D * (D * IZR q)) with (IZR q * IZR a) by (field; lra). lra.
  - replace ((IZR a + 1) / D * (D * IZR q)) with (IZR q * (IZR a + 1)) by (field; lra). lra.
Qed.
Lemma I0_15 : 33964937329791387952170161 / 10 ^ 20 <= BI 15 0 <= 33964937329791387952170164 / 10 ^ 20.
Proof.
  pose proof (pr_15 0 33964937329791387952170162 ltac:(vm_compute; reflexivity) ltac:(vm_compute; reflexivity)) as E.
  pose proof (series_near 225 0 1 15 (BI 15 0) 38 (10 ^ 21) ltac:(lia) Rabs_R1 ltac:(lra) ltac:(reflexivity) (BI_is 15 0) ltac:(vm_compute; reflexivity) ltac:(vm_compute; reflexivity)) as S.
  replace (15 * 15) with 225 in S by ring. assert (B0 : bterm 1 0 15 0 = 1) by (unfold bterm; simpl; field). rewrite B0, Rmult_1_l, Rabs_R1 in S. replace (IZR (10 ^ 21)) with (10 ^ 21) in S by (rewrite (pow_IZR 10 21); reflexivity).
  set (p := pr 1 0 0 38 225) in *. clearbody p. apply Rabs_le_inv in S. lra.
Qed.
Lemma I1_15 : 32812492197020639673369800 / 10 ^ 20 <= BI 15 1 <= 32812492197020639673369830 / 10 ^ 20.
Proof.
  pose proof (pr_15 1 4374998959602751956449308 ltac:(vm_compute; reflexivity) ltac:(vm_compute; reflexivity)) as E.
  pose proof (series_near 225 1 1 15 (BI 15 1) 38 (10 ^ 21) ltac:(lia) Rabs_R1 ltac:(lra) ltac:(reflexivity) (BI_is 15 1) ltac:(vm_compute; reflexivity) ltac:(vm_compute; reflexivity)) as S.
  replace (15 * 15) with 225 in S by ring. assert (B0 : bterm 1 1 15 0 = 15 / 2) by (unfold bterm; simpl; field). rewrite B0, (Rabs_pos_eq (15 / 2)) in S by lra. replace (IZR (10 ^ 21)) with (10 ^ 21) in S by (rewrite (pow_IZR 10 21); reflexivity).
  set (p := pr 1 1 0 38 225) in *. clearbody p. apply Rabs_le_inv in S. lra.
Qed.
Definition al : R := sqrt 15 * exp (-1 * 15).
Lemma e15 : exp 15 = exp 1 ^ 15.
Proof. cbn [pow]. rewrite Rmult_1_r, <- !exp_plus. f_equal. ring. Qed.
Lemma al_val : 118475459286977494744 / 10 ^ 26 <= al <= 118475459286977494745 / 10 ^ 26.
Proof.
  unfold al. replace (-1 * 15) with (- (15)) by ring. rewrite exp_Ropp. pose proof e_low as E1. pose proof e_up as E2.
  assert (P1 : (271828182845904523536028 / 10 ^ 23) ^ 15 <= exp 15) by (rewrite e15; apply pow_incr; split; [|exact E1]; lra).
  assert (P2 : exp 15 <= (271828182845904523536029 / 10 ^ 23) ^ 15) by (rewrite e15; apply pow_incr; split; [left; apply exp_pos|exact E2]).
  assert (Q1 : 32690173724721106393015 / 10 ^ 16 <= (271828182845904523536028 / 10 ^ 23) ^ 15) by (cbn [pow]; lra).
  assert (Q2 : (271828182845904523536029 / 10 ^ 23) ^ 15 <= 32690173724721106393022 / 10 ^ 16) by (cbn [pow]; lra).
  assert (X1 : 32690173724721106393015 / 10 ^ 16 <= exp 15) by lra. assert (X2 : exp 15 <= 32690173724721106393022 / 10 ^ 16) by lra. clear P1 P2 Q1 Q2 E1 E2.
  assert (S1 : 387298334620741688517926 / 10 ^ 23 <= sqrt 15) by (rewrite <- (sqrt_square (387298334620741688517926 / 10 ^ 23)) by lra; apply sqrt_le_1_alt; lra).
  assert (S2 : sqrt 15 <= 387298334620741688517927 / 10 ^ 23) by (rewrite <- (sqrt_square (387298334620741688517927 / 10 ^ 23)) by lra; apply sqrt_le_1_alt; lra).
  set (w := exp 15) in *. set (s := sqrt 15) in *. clearbody w s.
  split; apply Rmult_le_reg_r with w; try lra; rewrite Rmult_assoc, Rinv_l by lra; lra.
Qed.
Lemma i0s_15 : 4024011549800441685 / 10 ^ 19 <= i0s 15 <= 4024011549800441687 / 10 ^ 19.
Proof.
  change (i0s 15) with (al * BI 15 0). pose proof al_val as A. pose proof I0_15 as B. set (a := al) in *. set (b := BI 15 0) in *. clearbody a b. split.
  - apply Rle_trans with (118475459286977494744 / 10 ^ 26 * (33964937329791387952170161 / 10 ^ 20)); [lra|]. apply Rmult_le_compat; lra.
  - apply Rle_trans with (118475459286977494745 / 10 ^ 26 * (33964937329791387952170164 / 10 ^ 20)); [|lra]. apply Rmult_le_compat; lra.
Qed.
Lemma i1s_15 : 3887475083392385524 / 10 ^ 19 <= i1s 15 <= 3887475083392385526 / 10 ^ 19.
Proof.
  change (i1s 15) with (al * BI 15 1). pose proof al_val as A. pose proof I1_15 as B. set (a := al) in *. set (b := BI 15 1) in *. clearbody a b. split.
  - apply Rle_trans with (118475459286977494744 / 10 ^ 26 * (32812492197020639673369800 / 10 ^ 20)); [lra|]. apply Rmult_le_compat; lra.
  - apply Rle_trans with (118475459286977494745 / 10 ^ 26 * (32812492197020639673369830 / 10 ^ 20)); [|lra]. apply Rmult_le_compat; lra.
Qed.
Lemma one_z : 15 / 15 = IZR 1.
Proof. simpl. field. Qed.
Lemma q_15 : forall P Q p q n, zeval 1 P = p -> zeval 1 Q = q -> zeval 1 (wN P Q) = n -> q0 P Q 15 15 = IZR p / IZR q /\ q1 P Q 15 15 = - (15) / (15 * 15) * (IZR n / (IZR q * IZR q)).
Proof. intros P Q p q n <- <- <-. unfold q0, q1, s1. rewrite one_z, !peval_zeval. split; reflexivity. Qed.
Lemma q0_15 : q0 i0_P i0_Q 15 15 = 18862557571164603002853 / 46875008527497970951333 /\ q1 i0_P i0_Q 15 15 = - (15) / (15 * 15) * (7919216528435476546999414726717616939192742 / (46875008527497970951333 * 46875008527497970951333)).
Proof. apply q_15; vm_compute; reflexivity. Qed.
Lemma q1_15 : q0 i1_P i1_Q 15 15 = 18271128351789029971750 / 46999988321069371243952 /\ q1 i1_P i1_Q 15 15 = - (15) / (15 * 15) * (-23041947031111407088171963537998372269616344 / (46999988321069371243952 * 46999988321069371243952)).
Proof. apply q_15; vm_compute; reflexivity. Qed.
Lemma al_abs : forall W e, Rabs W <= e -> Rabs (al * W) <= 2 / 10 ^ 6 * e.
Proof. intros W e H. pose proof al_val. rewrite Rabs_mult, (Rabs_pos_eq al) by lra. apply Rmult_le_compat; [lra|apply Rabs_pos|lra|exact H]. Qed.
Lemma w0_15 : Rabs (q1 i0_P i0_Q 15 15 * i0s 15 - q0 i0_P i0_Q 15 15 * u0s 15) <= 66 / 10 ^ 17 / (15 * 15).
Proof.
  destruct q0_15 as [-> ->]. change (i0s 15) with (al * BI 15 0). unfold u0s. change (i0s 15) with (al * BI 15 0). change (i1s 15) with (al * BI 15 1). pose proof I0_15 as A. pose proof I1_15 as B. set (a := BI 15 0) in *. set (b := BI 15 1) in *. clearbody a b.
  match goal with |- Rabs (?r1 * (al * a) - ?r0 * _) <= _ => replace (r1 * (al * a) - r0 * (al * b - al * a * (1 + -1 * / (2 * 15)))) with (al * (r1 * a - r0 * (b - a * (29 / 30)))) by field end.
  eapply Rle_trans; [apply (al_abs _ (1 / 10 ^ 12)); apply Rabs_le; lra|lra].
Qed.
Lemma w1_15 : Rabs (q1 i1_P i1_Q 15 15 * i1s 15 - q0 i1_P i1_Q 15 15 * u1s 15) <= 87 / 10 ^ 17 / (15 * 15).
Proof.
  destruct q1_15 as [-> ->]. unfold u1s. change (i0s 15) with (al * BI 15 0). change (i1s 15) with (al * BI 15 1). pose proof I0_15 as A. pose proof I1_15 as B. set (a := BI 15 0) in *. set (b := BI 15 1) in *. clearbody a b.
  match goal with |- Rabs (?r1 * (al * b) - ?r0 * _) <= _ => replace (r1 * (al * b) - r0 * (al * a - al * b * (1 + 1 * / (2 * 15)))) with (al * (r1 * b - r0 * (a - b * (31 / 30)))) by field end.
  eapply Rle_trans; [apply (al_abs _ (1 / 10 ^ 12)); apply Rabs_le; lra|lra].
Qed.
Lemma u0_15 : u0s 15 <= 0.
Proof. unfold u0s. pose proof i0s_15. pose proof i1s_15. lra. Qed.

(** ** bounds beyond 15 *)
Lemma u0s_neg : forall x, 15 <= x -> u0s x <= 0.
Proof.
  intros x Hx. assert (E : - (exp (2 * 15) * u0s 15) <= - (exp (2 * x) * u0s x)).
  { apply (mono_on (fun x => - (exp (2 * x) * u0s x)) (fun x => - (exp (2 * x) * ((- 2 * u0s x - / 4 * i0s x / (x * x)) + 2 * u0s x)))); [exact Hx| |].
    - intros t Ht. apply derivable_pt_lim_opp. apply derive_ex, derive_u0s. lra.
    - intros t Ht. pose proof (exp_pos (2 * t)). pose proof (i0s_pos t ltac:(lra)). assert (0 < / (t * t)) by (apply Rinv_0_lt_compat, Rmult_lt_0_compat; lra). assert (0 <= i0s t * / (t * t)) by (apply Rmult_le_pos; lra).
      replace (- (exp (2 * t) * (- 2 * u0s t - / 4 * i0s t / (t * t) + 2 * u0s t))) with (exp (2 * t) * (/ 4 * (i0s t * / (t * t)))) by (field; lra). apply Rmult_le_pos; lra. }
  pose proof (exp_pos (2 * 15)) as P1. pose proof (exp_pos (2 * x)) as P2. pose proof u0_15 as U. assert (0 <= exp (2 * 15) * - u0s 15) by (apply Rmult_le_pos; lra).
  apply Rnot_lt_le. intros Lt. assert (0 < exp (2 * x) * u0s x) by (apply Rmult_lt_0_compat; lra). lra.
Qed.
Lemma i0s_le : forall x, 15 <= x -> i0s x <= 40241 / 10 ^ 5.
Proof.
  intros x Hx. assert (- i0s 15 <= - i0s x).
  { apply (mono_on (fun x => - i0s x) (fun x => - u0s x)); [exact Hx| |].
    - intros t Ht. apply derivable_pt_lim_opp, derive_i0s. lra.
    - intros t Ht. pose proof (u0s_neg t ltac:(lra)). lra. }
  pose proof i0s_15. lra.
Qed.
Lemma z_unit : forall x, 15 <= x -> 0 <= 15 / x <= 1.
Proof.
  intros x Hx. split; [apply Rlt_le, Rdiv_lt_0_compat; lra|]. apply Rmult_le_reg_r with x; [lra|]. unfold Rdiv. rewrite Rmult_assoc, Rinv_l by lra. lra.
Qed.

Lemma rat_core : forall (f p : R -> R) PP QQ P Q c c4 k ep m,
  (forall x, 15 <= x -> derivable_pt_lim f x (p x)) -> (forall x, 15 <= x -> derivable_pt_lim p x (- 2 * p x - c * f x / (x * x))) -> c = IZR c4 / 4 ->
  (forall x, 15 <= x -> 0 <= f x <= 40241 / 10 ^ 5) -> 0 <= k <= 1 / 10 ^ 10 -> 38 / 100 <= m -> 0 <= ep <= 1 / 10 ^ 15 -> k * (40241 / 10 ^ 5) <= 2 * ep * (1 - / 15) ->
  (forall y, 0 <= y <= 1 -> 0 < peval Q y) -> (forall y, 0 <= y <= 1 -> m <= peval P y / peval Q y) ->
  (forall x, 15 <= x -> Rabs (q2 P Q 15 x + 2 * q1 P Q 15 x + c * q0 P Q 15 x / (x * x)) <= k / (x * x)) ->
  Rabs (q1 P Q 15 15 * f 15 - q0 P Q 15 15 * p 15) <= ep / (15 * 15) -> Rabs (f 15 / q0 P Q 15 15 - 1) <= 1 / 10 ^ 17 ->
  forallb (dz_ok 21) PP = true -> forallb (dz_ok 21) QQ = true -> (forall y, 0 <= y <= 1 -> 0 < peval (prefl 1 (z21 QQ)) y) ->
  (forall y, 0 <= y <= 1 -> Rabs (peval (prefl 1 (z21 PP)) y / peval (prefl 1 (z21 QQ)) y - peval P y / peval Q y) <= peval P y / peval Q y / 10 ^ 15) ->
  forall x, 15 <= x -> 0 < f x /\ Rabs (tab PP (1 - 15 / x) / tab QQ (1 - 15 / x) - f x) <= 2 / 10 ^ 15 * f x.
Proof.
  intros f p PP QQ P Q c c4 k ep m Df Dp Ec HA Hk Hm He KE QP QM RS W A1 OP OQ QQP CL x Hx.
  pose proof (stable f p (q0 P Q 15) (q1 P Q 15) (q2 P Q 15) c 15 (40241 / 10 ^ 5) k ep m ltac:(lra) ltac:(lra) ltac:(lra) Df Dp) as ST.
  specialize (ST ltac:(intros t Ht; apply derive_q0; [lra|pose proof (QP (15 / t) (z_unit t Ht)); lra]) ltac:(intros t Ht; apply derive_q1; [lra|pose proof (QP (15 / t) (z_unit t Ht)); lra])).
  specialize (ST HA ltac:(intros t Ht; apply (QM (15 / t) (z_unit t Ht))) RS KE W x Hx).
  pose proof (z_unit x Hx) as Y. pose proof (QM _ Y) as MX. fold (q0 P Q 15 x) in MX. pose proof (CL _ Y) as CX. fold (q0 P Q 15 x) in CX.
  assert (EQ : peval (prefl 1 (z21 PP)) (15 / x) / peval (prefl 1 (z21 QQ)) (15 / x) = tab PP (1 - 15 / x) / tab QQ (1 - 15 / x)).
  { pose proof (QQP _ Y) as q. rewrite !peval_prefl in *. simpl (IZR 1) in *. symmetry. apply tab_quot21; assumption. }
  rewrite EQ in CX. assert (I0 : 0 < / x <= / 15) by (split; [apply Rinv_0_lt_compat; lra|apply Rinv_le_contravar; lra]).
  assert (A2 : Rabs (f x / q0 P Q 15 x - 1) <= 6 / 10 ^ 16).
  { assert (MM : 1444 / 10 ^ 4 <= m * m) by (replace (1444 / 10 ^ 4) with (38 / 100 * (38 / 100)) by lra; apply Rmult_le_compat; lra).
    assert (E1 : ep / (m * m) <= 1 / 10 ^ 15 / (1444 / 10 ^ 4)). { unfold Rdiv at 1 3. apply Rmult_le_compat; [lra|left; apply Rinv_0_lt_compat; lra|lra|apply Rinv_le_contravar; lra]. }
    assert (E0 : 0 <= ep / (m * m)). { unfold Rdiv. apply Rmult_le_pos; [lra|left; apply Rinv_0_lt_compat; lra]. }
    assert (E2 : ep / (m * m) * (/ 15 - / x) <= 1 / 10 ^ 15 / (1444 / 10 ^ 4) * / 15) by (apply Rmult_le_compat; lra).
    apply Rabs_le_inv in ST, A1. apply Rabs_le. lra. }
  destruct (rel_core (tab PP (1 - 15 / x) / tab QQ (1 - 15 / x)) (q0 P Q 15 x) (f x) (/ 10 ^ 15) (6 / 10 ^ 16) ltac:(lra) ltac:(lra) ltac:(lra) CX A2) as [KP KR].
  split; [exact KP|]. eapply Rle_trans; [exact KR|]. apply Rmult_le_compat_r; lra.
Qed.

Theorem i0_rat : forall x, 15 <= x -> 0 < i0s x /\ Rabs (tab I0PP (1 - 15 / x) / tab I0QQ (1 - 15 / x) - i0s x) <= 2 / 10 ^ 15 * i0s x.
Proof.
  destruct (neg2_t _ _ _ _ _ _ _ _ i0_t) as [T1 T2]. destruct (neg2_c _ _ _ _ _ _ _ i0_c) as [C1 C2]. pose proof i0_q as CQ. apply andb_prop in CQ. destruct CQ as [Q1 Q2].
  assert (QP : forall y, 0 <= y <= 1 -> 0 < peval i0_Q y) by (intros y Hy; exact (Q_ok i0_Q 1 _ 50 y ltac:(lia) ltac:(lia) Hy Q1)).
  assert (QQP : forall y, 0 <= y <= 1 -> 0 < peval (prefl 1 (z21 I0QQ)) y) by (intros y Hy; exact (Q_ok _ 1 _ 10 y ltac:(lia) ltac:(lia) Hy Q2)).
  apply (rat_core i0s u0s I0PP I0QQ i0_P i0_Q (/ 4) 1 (3 / 10 ^ 15) (66 / 10 ^ 17) (39 / 100)); try exact QP; try exact QQP; try reflexivity; try lra.
  - intros t Ht. apply derive_i0s. lra.
  - intros t Ht. apply derive_u0s. lra.
  - intros t Ht. pose proof (i0s_pos t ltac:(lra)). pose proof (i0s_le t Ht). lra.
  - intros y Hy. exact (low_ok i0_P i0_Q 39 100 _ 50 y ltac:(lia) ltac:(lia) Hy (QP y Hy) i0_m).
  - intros t Ht. pose proof (res_ok i0_P i0_Q 15 ltac:(lra) (-15) 1 3 (10 ^ 15) _ 110 t ltac:(lia) ltac:(reflexivity) Ht (QP _ (z_unit t Ht)) T1 T2) as RO. replace (IZR (10 ^ 15)) with (10 ^ 15) in RO by (rewrite (pow_IZR 10 15); reflexivity).
    replace (q2 i0_P i0_Q 15 t + 2 * q1 i0_P i0_Q 15 t) with (q2 i0_P i0_Q 15 t - 2 * (-15 / 15) * q1 i0_P i0_Q 15 t) by field. replace (/ 4) with (1 / 4) by field. exact RO.
  - exact w0_15.
  - destruct q0_15 as [-> _]. pose proof i0s_15 as V. set (v := i0s 15) in *. clearbody v. apply Rabs_le. lra.
  - intros y Hy. pose proof (close_ok (10 ^ 15) i0_P i0_Q _ _ _ 70 y ltac:(lia) ltac:(reflexivity) Hy (QP y Hy) (QQP y Hy) C1 C2) as CL. replace (IZR (10 ^ 15)) with (10 ^ 15) in CL by (rewrite (pow_IZR 10 15); reflexivity). exact CL.
Qed.
Theorem i1_rat : forall x, 15 <= x -> 0 < i1s x /\ Rabs (tab I1PP (1 - 15 / x) / tab I1QQ (1 - 15 / x) - i1s x) <= 2 / 10 ^ 15 * i1s x.
Proof.
  destruct (neg2_t _ _ _ _ _ _ _ _ i1_t) as [T1 T2]. destruct (neg2_c _ _ _ _ _ _ _ i1_c) as [C1 C2]. pose proof i1_q as CQ. apply andb_prop in CQ. destruct CQ as [Q1 Q2].
  assert (QP : forall y, 0 <= y <= 1 -> 0 < peval i1_Q y) by (intros y Hy; exact (Q_ok i1_Q 1 _ 50 y ltac:(lia) ltac:(lia) Hy Q1)).
  assert (QQP : forall y, 0 <= y <= 1 -> 0 < peval (prefl 1 (z21 I1QQ)) y) by (intros y Hy; exact (Q_ok _ 1 _ 10 y ltac:(lia) ltac:(lia) Hy Q2)).
  apply (rat_core i1s u1s I1PP I1QQ i1_P i1_Q (- (3 / 4)) (-3) (4 / 10 ^ 15) (87 / 10 ^ 17) (38 / 100)); try exact QP; try exact QQP; try reflexivity; try lra.
  - intros t Ht. apply derive_i1s. lra.
  - intros t Ht. apply derive_u1s. lra.
  - intros t Ht. pose proof (i1s_pos t ltac:(lra)). pose proof (i0s_le t Ht). pose proof (i10s t ltac:(lra)). lra.
  - intros y Hy. exact (low_ok i1_P i1_Q 38 100 _ 50 y ltac:(lia) ltac:(lia) Hy (QP y Hy) i1_m).
  - intros t Ht. pose proof (res_ok i1_P i1_Q 15 ltac:(lra) (-15) (-3) 4 (10 ^ 15) _ 110 t ltac:(lia) ltac:(reflexivity) Ht (QP _ (z_unit t Ht)) T1 T2) as RO. replace (IZR (10 ^ 15)) with (10 ^ 15) in RO by (rewrite (pow_IZR 10 15); reflexivity).
    replace (q2 i1_P i1_Q 15 t + 2 * q1 i1_P i1_Q 15 t) with (q2 i1_P i1_Q 15 t - 2 * (-15 / 15) * q1 i1_P i1_Q 15 t) by field. replace (- (3 / 4)) with (-3 / 4) by field. exact RO.
  - exact w1_15.
  - destruct q1_15 as [-> _]. pose proof i1s_15 as V. set (v := i1s 15) in *. clearbody v. apply Rabs_le. lra.
  - intros y Hy. pose proof (close_ok (10 ^ 15) i1_P i1_Q _ _ _ 70 y ltac:(lia) ltac:(reflexivity) Hy (QP y Hy) (QQP y Hy) C1 C2) as CL. replace (IZR (10 ^ 15)) with (10 ^ 15) in CL by (rewrite (pow_IZR 10 15); reflexivity). exact CL.
Qed.
