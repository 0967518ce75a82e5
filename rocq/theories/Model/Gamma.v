(** * Model of src/gamma.rs (and the quadrature tables of src/lib.rs) *)

From Coq Require Import ZArith List String.
From Verif.Model Require Import Base Arith Utils.
Import ListNotations.
Open Scope bool_scope.
Open Scope f64_scope.
Open Scope res_scope.

(** src/gamma.rs:503-511 [LG5N7] *)
Definition LG5N7 : list dec := [
    1.000000000189712;
    76.18009172948503;
    -86.50532032927205;
    24.01409824118972;
    -1.2317395783752254;
    0.0012086577526594748;
    -0.00000539702438713199
  ]%dec.

(** src/gamma.rs:128-141, polynomial around 3.25 *)
Definition GAMMA_HI : list dec := [
                0.000_016_738_398_919_923_317;
                0.000_095_940_184_093_793_52;
                0.000_455_766_746_785_133_16;
                0.002_149_849_572_114_427;
                0.008_882_603_286_354_344;
                0.034_350_198_197_417_38;
                0.115_260_482_799_219_55;
                0.346_268_553_360_568_7;
                0.858_853_822_880_646_4;
                1.776_919_804_709_978_3;
                2.592_571_165_129_980_8;
                2.549_256_966_718_529
  ]%dec.

(** src/gamma.rs:146-159, polynomial around 2.75 *)
Definition GAMMA_LO : list dec := [
                7.377_657_774_398_435e-7;
                0.000_048_420_884_483_658_204;
                0.000_132_763_577_755_739_43;
                0.000_914_252_863_201_387_9;
                0.003_228_437_222_320_849;
                0.014_576_803_693_379_53;
                0.046_735_160_424_814_17;
                0.155_955_856_853_634_36;
                0.384_779_120_148_185_27;
                0.891_167_948_026_476_6;
                1.317_087_179_192_858_7;
                1.608_359_421_985_545_5
  ]%dec.

(** src/lib.rs:40-59 [Y] *)
Definition Y : list dec := [
    0.0021695375159141994;
    0.011413521097787704;
    0.027972308950302116;
    0.051_727_015_600_492_42;
    0.082_502_225_484_340_94;
    0.12007019910960293;
    0.164_152_833_007_524_7;
    0.21442376986779355;
    0.27051082840644336;
    0.33199876341447887;
    0.39843234186401943;
    0.46931971407375483;
    0.544_136_055_566_579_7;
    0.622_327_452_880_310_8;
    0.703_315_004_655_971_7;
    0.786_499_107_683_134_5;
    0.871_263_896_190_615_2;
    0.956_981_801_526_291_4
  ]%dec.

(** src/lib.rs:60-79 [W] *)
Definition W : list dec := [
    0.005_565_719_664_244_557;
    0.012_915_947_284_065_42;
    0.020181515297735382;
    0.027298621498568734;
    0.034_213_810_770_299_54;
    0.040_875_750_923_643_26;
    0.047_235_083_490_265_58;
    0.053_244_713_977_759_69;
    0.058_860_144_245_324_8;
    0.064_039_797_355_015_48;
    0.068_745_323_835_736_41;
    0.072_941_885_005_653_09;
    0.076_598_410_645_870_64;
    0.079_687_828_912_071_67;
    0.082_187_266_704_339_7;
    0.084_078_218_979_661_95;
    0.085_346_685_739_338_72;
    0.085_983_275_670_394_82
  ]%dec.

(** src/gamma.rs:361-366 [IncGamma] *)
Inductive IncGamma : Type := IncGammaP | IncGammaQ.

Section Gamma.
  Context {A : arith}.

  (** src/gamma.rs:37-39: the loop over [LG5N7] without its head *)
  Definition lanczos_sum (z : F A) : F A :=
    fold_left (fun s (ic : Z * dec) => s + lit (snd ic) / (z + of_int (fst ic)))
      (combine (range 1 7) (tl LG5N7)) $0.0.

  (** src/gamma.rs:33-42 [ln_gamma]; [G] = 5 (line 15) *)
  Definition ln_gamma (z : F A) : F A :=
    let z := z - $1.0 in
    let base := z + $5.0 + $0.5 in
    let s := lanczos_sum z in
    let s := s + lit (hd (Dec 0 0) LG5N7) in
    ln (sqrt ($2.0 * PI)) + ln s - base + ln base * (z + $0.5).

  (** src/gamma.rs:99-102: [while z >= 3.5 { z -= 1.0; f *= z; }] *)
  Fixpoint gamma_down (fuel : nat) (z f : F A) : res (F A * F A) :=
    if z >= $3.5 then
      match fuel with
      | O => Diverge
      | S fuel' =>
          let z := z - $1.0 in
          let f := f * z in
          gamma_down fuel' z f
      end
    else Ok (z, f).

  (** src/gamma.rs:107-119: [while z <= 2.5 { f *= z; if f.is_infinite()
      { return 0.0; } z += 1.0; }]; [None] is the early [return 0.0] *)
  Fixpoint gamma_up (fuel : nat) (z f : F A) : res (option (F A * F A)) :=
    if z <= $2.5 then
      match fuel with
      | O => Diverge
      | S fuel' =>
          let f := f * z in
          if is_infinite f then Ok None
          else
            let z := z + $1.0 in
            gamma_up fuel' z f
      end
    else Ok (Some (z, f)).

  (** src/gamma.rs:125-163: the approximation of Gamma on [2.5, 3.5] *)
  Definition gamma_core (z : F A) : F A :=
    if z > $3.0 then polynomial (z - $3.25) GAMMA_HI
    else if z < $3.0 then polynomial (z - $2.75) GAMMA_LO
    else $2.0.

  (** src/gamma.rs:61 [MAX_INPUT] *)
  Definition MAX_INPUT : F A := $171.624_376_956_302_7.

  (** src/gamma.rs:58-166 [gamma].  [z as usize - 1] on line 87 is reached
      only for a positive integer, so the subtraction is written directly on
      [Z] with the overflow check kept. *)
  Definition gamma (fuel : nat) (z : F A) : res (F A) :=
    if z > MAX_INPUT then Ok infinity
    else if z == $0.0 then Ok (copysign infinity z)
    else if fract z == $0.0 then
      if z < $0.0 then Ok nan
      else
        do n <- arith_u (checks (a := A)) 64 (as_usize z - 1);
        factorial fuel n
    else if z == - infinity then Ok nan
    else if is_nan z then Ok nan
    else
      if z > $3.5 then
        do zf <- gamma_down fuel z $1.0;
        let (z, f) := zf in
        Ok (gamma_core z * f)
      else if z < $2.5 then
        do o <- gamma_up fuel z $1.0;
        match o with
        | None => Ok $0.0
        | Some (z, f) => Ok (gamma_core z * recip f)
        end
      else Ok (gamma_core z * $1.0).

  (** src/gamma.rs:291-308: body of the series loop; the state is
      [(ap, del, sum)] *)
  Definition gser_body (x : F A) (_ : Z) (st : F A * F A * F A) : F A * F A * F A * bool :=
    let '(ap, del, sum) := st in
    let ap := ap + $1.0 in
    let del := del * (x / ap) in
    let sum := sum + del in
    ((ap, del, sum), abs del < abs sum * EPS).

  (** src/gamma.rs:296-306 and 310-317: the same scaling is applied whether
      or not the series converged *)
  Definition gser_scale (a x gln sum : F A) : F A :=
    let log_result := - x + a * ln x - gln in
    if log_result > $700.0 then sum * infinity
    else if log_result < - $700.0 then $0.0
    else sum * exp log_result.

  (** src/gamma.rs:285-318 [gser] *)
  Definition gser (a x : F A) : F A :=
    let gln := ln_gamma a in
    let '((_, _, sum), _) :=
      for_break (range 0 10000) (gser_body x) (a, $1.0 / a, $1.0 / a) in
    gser_scale a x gln sum.

  (** src/gamma.rs:329-346: body of the continued-fraction loop; the state is
      [(b, c, d, h)] *)
  Definition gcf_body (a : F A) (i : Z) (st : F A * F A * F A * F A)
    : F A * F A * F A * F A * bool :=
    let '(b, c, d, h) := st in
    let an := - of_int i * (of_int i - a) in
    let b := b + $2.0 in
    let d := an * d + b in
    let d := if abs d < FPMIN then FPMIN else d in
    let c := b + an / c in
    let c := if abs c < FPMIN then FPMIN else c in
    let d := $1.0 / d in
    let del := d * c in
    let h := h * del in
    ((b, c, d, h), abs (del - $1.0) < EPS).

  (** src/gamma.rs:321-359 [gcf] *)
  Definition gcf (a x : F A) : F A :=
    let gln := ln_gamma a in
    let b := x + $1.0 - a in
    let c := $1.0 / FPMIN in
    let d := $1.0 / b in
    let '((_, _, _, h), _) := for_break (range 1 10001) (gcf_body a) (b, c, d, d) in
    let log_result := - x + a * ln x - gln in
    if log_result > $700.0 then h * infinity
    else if log_result < - $700.0 then $0.0
    else exp log_result * h.

  (** src/gamma.rs:383-387: the quadrature terms *)
  Definition gammp_log_terms (a1 lna1 x xu : F A) : list (F A) :=
    map (fun yw : dec * dec =>
           let t := x + (xu - x) * lit (fst yw) in
           ln (lit (snd yw)) + (- (t - a1) + a1 * (ln t - lna1)))
        (combine Y W).

  (** src/gamma.rs:369-420 [gammpapprox].  Line 390 folds [f64::max] from
      [f64::NEG_INFINITY]. *)
  Definition gammpapprox (a x : F A) (psig : IncGamma) : F A :=
    let a1 := a - $1.0 in
    let lna1 := ln a1 in
    let sqrta1 := sqrt a1 in
    let gln := ln_gamma a in
    let xu :=
      if x > a1 then fmax (a1 + $11.5 * sqrta1) (x + $6.0 * sqrta1)
      else fmax $0.0 (fmin (a1 - $7.5 * sqrta1) (x - $5.0 * sqrta1)) in
    let log_values := gammp_log_terms a1 lna1 x xu in
    let log_max := fold_left fmax log_values (- infinity) in
    let sum :=
      fold_left (fun sum log_val =>
                   if log_val - log_max > - $700.0
                   then sum + exp (log_val - log_max) else sum)
        log_values $0.0 in
    let log_scale := a1 * (lna1 - $1.0) - gln in
    let log_ans := log_max + ln sum + ln (xu - x) + log_scale in
    let ans :=
      if log_ans > $700.0 then infinity
      else if log_ans < - $700.0 then $0.0
      else exp log_ans in
    match psig with
    | IncGammaP => clamp $0.0 $1.0 ($1.0 - ans)
    | IncGammaQ => clamp $0.0 $1.0 ans
    end.

  (** src/gamma.rs:189-224 [gammp]; [ASWITCH] = 100 (line 13) *)
  Definition gammp (a x : F A) : res (F A) :=
    require (x >= $0.0) && (a > $0.0) else PAssert "Bad args in gammp";
    if x == $0.0 then Ok $0.0
    else if x < a * EPS then Ok $0.0
    else if x > a + $20.0 * (sqrt a + $1.0) then Ok $1.0
    else if (100 <=? as_usize a)%Z then
      if x < $0.2 * a then Ok (gser a x) else Ok (gammpapprox a x IncGammaP)
    else if x < a + $1.0 then Ok (gser a x)
    else Ok (clamp $0.0 $1.0 ($1.0 - gcf a x)).

  (** src/gamma.rs:246-282 [gammq] *)
  Definition gammq (a x : F A) : res (F A) :=
    require (x >= $0.0) && (a > $0.0) else PAssert "Bad args in gammq";
    if x == $0.0 then Ok $1.0
    else if x < a * EPS then Ok $1.0
    else if x > a + $20.0 * (sqrt a + $1.0) then Ok $0.0
    else if (100 <=? as_usize a)%Z then
      if x < $0.2 * a then Ok (clamp $0.0 $1.0 ($1.0 - gser a x))
      else Ok (gammpapprox a x IncGammaQ)
    else if x < a + $1.0 then Ok (clamp $0.0 $1.0 ($1.0 - gser a x))
    else Ok (gcf a x).

  (** src/gamma.rs:456-472: initial guess of [invgammp], with the [afac] it
      leaves behind *)
  Definition invgammp_guess (p a gln a1 lna1 : F A) : F A * F A :=
    if a > $1.0 then
      let afac := exp (a1 * (lna1 - $1.0) - gln) in
      let pp := if p < $0.5 then p else $1.0 - p in
      let t := sqrt (- $2.0 * ln pp) in
      let x := ($2.30753 + t * $0.27061) / ($1.0 + t * ($0.99229 + t * $0.04481)) - t in
      let x := if p < $0.5 then - x else x in
      (fmax $1e-3 (a * powi3 ($1.0 - $1.0 / ($9.0 * a) - x / ($3.0 * sqrt a))), afac)
    else
      let t := $1.0 - a * ($0.253 + a * $0.12) in
      (if p < t then powf (p / t) ($1.0 / a)
       else $1.0 - ln ($1.0 - (p - t) / ($1.0 - t)), $0.0).

  (** src/gamma.rs:474-495: one Halley iteration *)
  Definition invgammp_body (p a gln a1 lna1 afac : F A) (_ : Z) (x : F A)
    : res (step (F A) (F A)) :=
    if x <= $0.0 then Ok (Return $0.0)
    else
      do g <- gammp a x;
      let err := g - p in
      let t :=
        if a > $1.0 then afac * exp (- (x - a1) + a1 * (ln x - lna1))
        else exp (- x + a1 * ln x - gln) in
      let u := err / t in
      let t := u / ($1.0 - $0.5 * fmin $1.0 (u * (a1 / x - $1.0))) in
      let x := x - t in
      let x := if x <= $0.0 then $0.5 * (x + t) else x in
      if abs t < fmax (x * EPS) EPS then Ok (Break x) else Ok (Next x).

  (** src/gamma.rs:440-497 [invgammp] *)
  Definition invgammp (p a : F A) : res (F A) :=
    let gln := ln_gamma a in
    let a1 := a - $1.0 in
    let lna1 := ln a1 in
    require a > $0.0 else PAssert "a must be positive in invgammp";
    if p >= $1.0 then Ok (fmax $100.0 (a + $100.0 * sqrt a))
    else if p <= $0.0 then Ok $0.0
    else
      let (x, afac) := invgammp_guess p a gln a1 lna1 in
      do e <- for_loop (range 0 12) (invgammp_body p a gln a1 lna1 afac) x;
      match e with
      | Exhausted x => Ok x
      | Broke x => Ok x
      | Returned r => Ok r
      end.
End Gamma.
