(** * Arguments meeting the hypotheses of the erfcx theorems *)

From Coq Require Import ZArith Reals Bool Lra Lia.
From Flocq Require Import Core IEEE754.BinarySingleNaN IEEE754.Binary IEEE754.Bits.
From Verif.Model Require Import Base Arith Error.
From Verif.Float Require Import Bits64 Ieee Platforms Exact.
From Verif.Spec Require Import F64Spec Outcome.
From Verif.Proofs Require Import F64 F64Ops Lits Ext Ideal ErfcxThms Examples.
Open Scope R_scope.

Lemma ex_27 : number (f64_lit 27.0) /\ 12 < val (f64_lit 27.0).
Proof. lit_facts 27.0%dec 27%Z 0%Z HF HV. split; [apply fin_nonnan; exact HF|lra]. Qed.

Lemma ex_erfcx_args :
  (nonneg (f64_lit 2.5) /\ finite (f64_lit 2.5))
  /\ (at_least_1 (p_exp (ideal true false)) /\ number (f64_lit (-2.5)) /\ val (f64_lit (-2.5)) <= 0)
  /\ (number (f64_lit (-0.0625)) /\ - (1 / 8) < val (f64_lit (-0.0625)) <= 0)
  /\ (number (f64_lit (-27.0)) /\ val (f64_lit (-27.0)) < - val (f64_lit 26.7))
  /\ is_NaN f64_NAN.
Proof.
  split; [|split; [|split; [|split; [|reflexivity]]]].
  - destruct pos_2_5 as [N V]. split; [split; [exact N|lra]|vm_compute; reflexivity].
  - lit_facts (-2.5)%dec (-5)%Z 1%Z HF HV. split; [apply ideal_exp_ge_1|].
    split; [apply fin_nonnan; exact HF|]. lra.
  - lit_facts (-0.0625)%dec (-1)%Z 4%Z HF HV.
    split; [apply fin_nonnan; exact HF|]. lra.
  - lit_facts (-27.0)%dec (-27)%Z 0%Z HF HV.
    split; [apply fin_nonnan; exact HF|]. rewrite HV.
    destruct (lit_spec 26.7) as [_ V]. rewrite V.
    assert (rs (R_of_dec 26.7) <= 26.75).
    { apply rs_le_fmt.
      - replace 26.75 with (107 * / 4) by lra. change (/ 4) with (bpow radix2 (-2)).
        apply (fmt_F2R 107 (-2)); lia.
      - pose proof Om_pos. lra.
      - unfold R_of_dec; cbn [dman dexp]; rewrite powerRZ_10; simpl; lra. }
    lra.
Qed.
