(** * Concrete cases for the factorial and gamma properties *)

From Coq Require Import ZArith Reals Bool Lra Lia.
From Flocq Require Import Core IEEE754.BinarySingleNaN IEEE754.Binary IEEE754.Bits.
From Verif.Model Require Import Base Arith Utils Gamma.
From Verif.Float Require Import Bits64 Ieee Platforms.
From Verif.Spec Require Import F64Spec Outcome.
From Verif.Proofs Require Import F64 F64Ops Lits Ext Factorial GammaFacts GammaSign GammaEqn Boundaries GammaPQ.
Open Scope R_scope.

Lemma ex_factorial_range : (0 <= 12345678901234567890 <= 2 ^ 64 - 16)%Z /\
  (171 <= 12345678901234567890 <= 2 ^ 64 - 16)%Z.
Proof. lia. Qed.

Lemma ex_factorial_100 : exists r, @factorial (ieee (plain true false)) 100 100 = Ok r.
Proof.
  destruct (factorial_returns (plain true false) 100 ltac:(lia)) as (r & E & _).
  exists r. apply E. lia.
Qed.

Lemma ex_factorial_over : (2 ^ 64 - 16 < 2 ^ 64 - 9 < 2 ^ 64)%Z /\ p_checks (plain true false) = true.
Proof. split; [lia|reflexivity]. Qed.

Lemma ex_m25 : finite (f64_lit (-2.5)) /\ Binary.B2R (f64_lit (-2.5)) = -5 / 2.
Proof. lit_facts (-2.5)%dec (-5)%Z 1%Z HF HV. rewrite (val_fin _ HF) in HV. split; [exact HF|lra]. Qed.

Lemma ex_gamma_m25 : - IZR 3 < Binary.B2R (f64_lit (-2.5)) < - IZR 3 + 1.
Proof. rewrite (proj2 ex_m25). lra. Qed.

Lemma ex_gamma_m3 : finite (f64_lit (-3.0)) /\ Binary.B2R (f64_lit (-3.0)) = IZR (-3).
Proof. lit_facts (-3.0)%dec (-3)%Z 0%Z HF HV. rewrite (val_fin _ HF) in HV. split; [exact HF|lra]. Qed.

Lemma ex_gamma_200 : number (f64_lit 200.0) /\
  val (f64_lit 171.624_376_956_302_7) < val (f64_lit 200.0).
Proof.
  lit_facts 200.0%dec 200%Z 0%Z HF HV. split; [apply fin_nonnan; exact HF|].
  destruct max_input as [_ [_ U]]. lra.
Qed.

Lemma ex_gamma_step : let z := f64_lit 4.25 in let z1 := f64_lit 5.25 in
  finite z /\ finite z1 /\ 7 / 2 < Binary.B2R z /\ Binary.B2R z1 = Binary.B2R z + 1 /\
  (forall k : Z, Binary.B2R z <> IZR k) /\ Binary.B2R z1 <= val (f64_lit 171.624_376_956_302_7) /\
  exists g1, @gamma (ieee (plain true false)) 280 z1 = Ok g1 /\ finite g1.
Proof.
  cbv zeta.
  assert (H0 : finite (f64_lit 4.25) /\ Binary.B2R (f64_lit 4.25) = 17 / 4).
  { lit_facts 4.25%dec 17%Z 2%Z HF HV. rewrite (val_fin _ HF) in HV. split; [exact HF|lra]. }
  assert (H1 : finite (f64_lit 5.25) /\ Binary.B2R (f64_lit 5.25) = 21 / 4).
  { lit_facts 5.25%dec 21%Z 2%Z HF HV. rewrite (val_fin _ HF) in HV. split; [exact HF|lra]. }
  destruct H0 as [F0 V0]. destruct H1 as [F1 V1]. rewrite V0, V1. destruct max_input as [_ [Bm _]].
  split; [exact F0|]. split; [exact F1|]. split; [lra|]. split; [lra|]. split; [|split; [lra|]].
  - intros k E. assert (E' : IZR 17 = IZR (4 * k)) by (rewrite mult_IZR; lra). apply eq_IZR in E'. lia.
  - destruct (gamma_terminates (plain true false) (f64_lit 5.25)) as (g & E).
    exists g. split; [apply E; lia|].
    assert (H : match @gamma (ieee (plain true false)) 280 (f64_lit 5.25) with
                | Ok g => Binary.is_finite (g : f64) | _ => false end = true) by (vm_compute; reflexivity).
    rewrite E in H by lia. exact H.
Qed.

Lemma ex_nonint : forall k : Z, -2.5 <> IZR k.
Proof. intros k E. assert (E' : IZR (-5) = IZR (2 * k)) by (rewrite mult_IZR; lra). apply eq_IZR in E'. lia. Qed.

Lemma both_in_unit : forall rp rq : res f64,
  match rp, rq with
  | Ok p, Ok q => (f64_lt (f64_lit 0.0) p && f64_lt p (f64_lit 1.0)
                  && f64_lt (f64_lit 0.0) q && f64_lt q (f64_lit 1.0))%bool
  | _, _ => false end = true ->
  exists p q, rp = Ok p /\ rq = Ok q /\ between 0 1 p /\ between 0 1 q /\ 0 < val p < 1.
Proof.
  intros [p| |] [q| |] C; try discriminate C.
  exists p, q. apply andb_prop in C. destruct C as [C C4]. apply andb_prop in C. destruct C as [C C3].
  apply andb_prop in C. destruct C as [C1 C2].
  apply lt_true in C1, C2, C3, C4. rewrite val_0 in *. rewrite val_1 in *.
  destruct C1 as (_ & N1 & L1), C2 as (_ & _ & L2), C3 as (_ & N3 & L3), C4 as (_ & _ & L4).
  split; [reflexivity|]. split; [reflexivity|].
  split; [split; [exact N1|lra]|]. split; [split; [exact N3|lra]|]. lra.
Qed.

Lemma ex_gammp_gammq : exists p q, @gammp (ieee (plain true false)) (f64_lit 2.5) (f64_lit 0.25) = Ok p /\
  @gammq (ieee (plain true false)) (f64_lit 2.5) (f64_lit 0.25) = Ok q /\
  between 0 1 p /\ between 0 1 q /\ 0 < val p < 1.
Proof. apply both_in_unit. vm_compute. reflexivity. Qed.
