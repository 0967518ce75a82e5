(** * Model of src/faddeeva.rs *)

From Coq Require Import ZArith List String.
From Verif.Model Require Import Base Arith Error Dawson FaddeevaTables.
Import ListNotations.
Open Scope bool_scope.
Open Scope f64_scope.
Open Scope res_scope.

Section Faddeeva.
  Context {A : arith}.

  (** num_complex 0.4.6 [Complex64]: a pair (re, im), with the operators used
      by the crate.  These are the textbook formulas the library implements;
      [exp] is the oracle [cexp]. *)
  Definition c64 : Type := (F A * F A)%type.
  Definition cmul (a b : c64) : c64 :=
    (fst a * fst b - snd a * snd b, fst a * snd b + snd a * fst b).
  Definition cadd (a b : c64) : c64 := (fst a + fst b, snd a + snd b).
  Definition csub (a b : c64) : c64 := (fst a - fst b, snd a - snd b).
  (** [c64 + f64] *)
  Definition caddf (a : c64) (r : F A) : c64 := (fst a + r, snd a).
  (** [f64 * c64] *)
  Definition cscale (r : F A) (a : c64) : c64 := (r * fst a, r * snd a).

  (** A chain [((c_n * z + c_{n-1}) * z + ... ) * z + 1.] with the complex
      coefficients of the source listed from the innermost outwards *)
  Definition maclaurin (z : c64) (c0 : c64) (cs : list c64) : c64 :=
    caddf (cmul (fold_left (fun acc c => cadd (cmul acc z) c) cs c0) z) $1.0.

  (** [c64::new(r, 0.)] and [c64::new(0., i)] *)
  Definition re_only (d : dec) : c64 := (lit d, $0.0).
  Definition im_only (d : dec) : c64 := ($0.0, lit d).

  (** src/faddeeva.rs:85-90: |z|^2 < 4e-7 *)
  Definition maclaurin4 (z : c64) : c64 :=
    maclaurin z (re_only 5e-1)
      [im_only (-7.522_527_780_636_751e-1); re_only (-1.0); ($0.0, FRAC_2_SQRT_PI)].

  (** src/faddeeva.rs:95-109: |z|^2 < 0.00689 *)
  Definition maclaurin13 (z : c64) : c64 :=
    maclaurin z (im_only 5.344_009_079_373_427e-4)
      [re_only 1.388_888_888_888_889e-3;
       im_only (-3.473_605_901_592_727_4e-3);
       re_only (-8.333_333_333_333_333e-3);
       im_only 1.910_483_245_876e-2;
       re_only 4.166_666_666_666_666_4e-2;
       im_only (-8.597_174_606_442e-2);
       re_only (-1.666_666_666_666_666_6e-1);
       im_only 3.009_011_112_254_700_3e-1;
       re_only 5e-1;
       im_only (-7.522_527_780_636_751e-1);
       re_only (-1.0);
       ($0.0, FRAC_2_SQRT_PI)].

  (** src/faddeeva.rs:114-134: |z|^2 < 0.053 *)
  Definition maclaurin19 (z : c64) : c64 :=
    maclaurin z (im_only (-8.823_957_200_203_801e-7))
      [re_only (-2.755_731_922_398_589_3e-6);
       im_only 8.382_759_340_193_61e-6;
       re_only 2.480_158_730_158_73e-5;
       im_only (-7.125_345_439_164_569e-5);
       re_only (-1.984_126_984_126_984e-4);
       im_only 5.344_009_079_373_427e-4;
       re_only 1.388_888_888_888_889e-3;
       im_only (-3.473_605_901_592_727_4e-3);
       re_only (-8.333_333_333_333_333e-3);
       im_only 1.910_483_245_876e-2;
       re_only 4.166_666_666_666_666_4e-2;
       im_only (-8.597_174_606_442e-2);
       re_only (-1.666_666_666_666_666_6e-1);
       im_only 3.009_011_112_254_700_3e-1;
       re_only 5e-1;
       im_only (-7.522_527_780_636_751e-1);
       re_only (-1.0);
       ($0.0, FRAC_2_SQRT_PI)].

  (** A chain [(((c_n * r2 + c_{n-1}) * r2 + ...) + c_0) * r]: the first
      product is [f64 * c64], the additions are [c64 + f64] *)
  Definition asymptotic (r2 r : c64) (cn : dec) (cs : list dec) : c64 :=
    match cs with
    | [] => cscale (lit cn) r
    | c :: cs' =>
        cmul (fold_left (fun acc d => caddf (cmul acc r2) (lit d)) cs'
                (caddf (cscale (lit cn) r2) (lit c))) r
    end.

  (** src/faddeeva.rs:172-176: |z|^2 > 22500 *)
  Definition asymptotic3 (r2 r : c64) : c64 :=
    asymptotic r2 r 1.057_855_469_152_043
      [4.231_421_876_608_172_4e-1;
       2.820_947_917_738_781_4e-1;
       5.641_895_835_477_563e-1]%dec.

  (** src/faddeeva.rs:178-190: 540 < |z|^2 <= 22500 *)
  Definition asymptotic11 (r2 r : c64) : c64 :=
    asymptotic r2 r 3.787_704_007_508_795e6
      [3.607_337_150_008_376e5;
       3.797_197_000_008_816_4e4;
       4.467_290_588_245_667e3;
       5.956_387_450_994_222e2;
       9.163_673_001_529_573e1;
       1.666_122_363_914_467_6e1;
       3.702_494_142_032_150_7;
       1.057_855_469_152_043;
       4.231_421_876_608_172_4e-1;
       2.820_947_917_738_781_4e-1;
       5.641_895_835_477_563e-1]%dec.

  (** src/faddeeva.rs:193-213: 49 <= |z|^2 <= 540 *)
  Definition asymptotic19 (r2 r : c64) : c64 :=
    asymptotic r2 r 8.824_926_094_302_537e15
      [4.770_230_321_244_615e14;
       2.725_845_897_854_065_6e13;
       1.652_027_816_881_252e12;
       1.065_824_397_987_904_4e11;
       7.350_513_089_571_754e9;
       5.444_824_510_793_892e8;
       4.355_859_608_635_114e7;
       3.787_704_007_508_795e6;
       3.607_337_150_008_376e5;
       3.797_197_000_008_816_4e4;
       4.467_290_588_245_667e3;
       5.956_387_450_994_222e2;
       9.163_673_001_529_573e1;
       1.666_122_363_914_467_6e1;
       3.702_494_142_032_150_7;
       1.057_855_469_152_043;
       4.231_421_876_608_172_4e-1;
       2.820_947_917_738_781_4e-1;
       5.641_895_835_477_563e-1]%dec.

  (** src/faddeeva.rs:279-281 [im_w_of_x] *)
  Definition im_w_of_x (x : F A) : res (F A) :=
    do d <- dawson x; Ok ($2.0 * d * INV_SQRT_PI).

  (** src/faddeeva.rs:51-62: |im| < 1e-8 |re| *)
  Definition faddeeva_near_real (x y : F A) : res c64 :=
    let xabs := abs x in
    let yabs := abs y in
    do wi <- im_w_of_x x;
    let e2 := if xabs > $27.0 then $0.0 else exp (- xabs * xabs) in
    if yabs == $0.0 then Ok (e2, wi)
    else Ok (e2 + y * $2.0 * (x * wi - INV_SQRT_PI), wi - $2.0 * x * y * e2).

  (** src/faddeeva.rs:70-76: |re| < 1e-8 |im| *)
  Definition faddeeva_near_imag (x y : F A) : res c64 :=
    let xabs := abs x in
    do wr <- erfcx y;
    if xabs == $0.0 then Ok (wr, $0.0)
    else Ok (wr, x * ($2.0 * (INV_SQRT_PI - y * wr))).

  (** src/faddeeva.rs:82-137: |z|^2 < 0.053 *)
  Definition faddeeva_small (x y zsq : F A) : c64 :=
    let z := (x, y) in
    if zsq < $0.00689 then
      if zsq < $4e-7 then maclaurin4 z else maclaurin13 z
    else maclaurin19 z.

  (** src/faddeeva.rs:143-215: |z|^2 >= 49.  [inl] is the early return of
      lines 152-158. *)
  Definition faddeeva_large_res (x y zsq : F A) : c64 + c64 :=
    let xabs := abs x in
    let yabs := abs y in
    let xs := if y < $0.0 then - x else x in
    if zsq > $4.8e15 then
      if xabs > yabs then
        let yax := yabs / xs in
        let denom := INV_SQRT_PI / (xs + yax * yabs) in
        inr (denom * yax, denom)
      else if is_infinite yabs then
        inl (if is_nan xabs || (y < $0.0) then (nan, nan) else ($0.0, $0.0))
      else
        let xya := xs / yabs in
        let denom := INV_SQRT_PI / (xya * xs + yabs) in
        inr (denom, denom * xya)
    else
      let zm2 := $1.0 / zsq in
      let r := (yabs * zm2, xs * zm2) in
      let zm4 := zm2 * zm2 in
      let r2 := (zm4 * (xs + yabs) * (xs - yabs), - $2.0 * zm4 * xs * yabs) in
      inr (if zsq > $540.0 then
             if zsq > $22500.0 then asymptotic3 r2 r else asymptotic11 r2 r
           else asymptotic19 r2 r).

  (** src/faddeeva.rs:143-224: the same with the reflection for im < 0 *)
  Definition faddeeva_large (x y zsq : F A) : c64 :=
    match faddeeva_large_res x y zsq with
    | inl r => r
    | inr res =>
        if y < $0.0 then
          let xs := - x in
          let yabs := abs y in
          csub (cscale $2.0 (cexp ((yabs - xs) * (xs + yabs), $2.0 * xs * y))) res
        else res
    end.

  (** src/faddeeva.rs:237-238: tile number; [INV_A] = 7 (line 311),
      [N_X_COVER] = 50 (line 312).  The [isize]/[usize] arithmetic is written
      on [Z]: the branch is entered only with |x|, |y| below 7.1, so no
      intermediate value exceeds 2^13 ([Proofs.FaddeevaSafe.tile_range]). *)
  Definition tile_index (x y : F A) : Z :=
    (2 * (as_isize ($7.0 * abs x) * 50 + as_isize ($7.0 * abs y)))%Z.

  (** src/faddeeva.rs:248-251, 255-258: coefficient k of the tile at [idx] *)
  Definition taylor_coeff (idx k : Z) : res c64 :=
    do re <- index TAYLOR_COEFFS (idx + 2 * k);
    do im <- index TAYLOR_COEFFS (idx + 2 * k + 1);
    Ok (lit re, lit im).

  (** src/faddeeva.rs:253-259: Horner loop over [(1..nk).rev()] *)
  Fixpoint taylor_loop (idx : Z) (dz : c64) (ks : list Z) (acc : c64) : res c64 :=
    match ks with
    | [] => Ok acc
    | k :: ks' =>
        do c <- taylor_coeff idx k;
        taylor_loop idx dz ks' (cadd (cmul acc dz) c)
    end.

  (** src/faddeeva.rs:237-259: Taylor expansion of the tile; [NTAY] = 23 *)
  Definition faddeeva_taylor (x y : F A) : res c64 :=
    let i_tile := tile_index x y in
    do kp <- index TILES i_tile;
    require (0 <=? kp)%Z else PAssert "kP is always >= 0 in the libcerf code.";
    let idx := (2 * (23 + 1) * kp)%Z in
    do t <- index TAYLOR_COEFFS idx;
    do t_next <- index TAYLOR_COEFFS (idx + 1);
    let dz := (abs x - lit t, abs y - lit t_next) in
    do nk <- index TILES (i_tile + 1);
    do c <- taylor_coeff idx nk;
    taylor_loop idx dz (rev (range 1 nk)) c.

  (** src/faddeeva.rs:261-272: undo the reflections *)
  Definition faddeeva_unfold (x y : F A) (res : c64) : c64 :=
    if y < $0.0 then
      let e := cscale $2.0 (cexp ((y - x) * (x + y), - $2.0 * x * y)) in
      if x < $0.0 then csub e res
      else csub e (fst res, - snd res)
    else if x < $0.0 then (fst res, - snd res)
    else res.

  (** src/faddeeva.rs:34-273 [faddeeva] *)
  Definition faddeeva (x y : F A) : res c64 :=
    let xabs := abs x in
    let yabs := abs y in
    let zsq := xabs * xabs + y * y in
    if yabs < $1e-8 * xabs then faddeeva_near_real x y
    else if xabs < $1e-8 * yabs then faddeeva_near_imag x y
    else if zsq < $0.053 then Ok (faddeeva_small x y zsq)
    else if zsq >= $49.0 then Ok (faddeeva_large x y zsq)
    else if is_nan xabs then Ok (xabs, xabs)
    else if is_nan y then Ok (y, y)
    else
      do r <- faddeeva_taylor x y;
      Ok (faddeeva_unfold x y r).
End Faddeeva.
