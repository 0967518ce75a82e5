(** * Model of src/error.rs *)

From Coq Require Import ZArith List String.
From Verif.Model Require Import Base Arith ErrorTables.
Import ListNotations.
Open Scope bool_scope.
Open Scope f64_scope.
Open Scope res_scope.

Section Error.
  Context {A : arith}.

  (** src/error.rs:326-330: the Clenshaw recurrence over
      [(1..NCOEF - 1).rev()], that is j = 26 down to 1; the state is
      [(d, dd)] *)
  Definition erfccheb_clenshaw (ty : F A) : F A * F A :=
    fold_left (fun (s : F A * F A) (c : dec) => (ty * fst s - snd s + lit c, fst s))
      (rev (firstn 26 (tl COF))) ($0.0, $0.0).

  (** src/error.rs:319-332 [erfccheb] *)
  Definition erfccheb (z : F A) : res (F A) :=
    require z >= $0.0 else PAssert "erfccheb requires nonnegative argument";
    let t := $2.0 / ($2.0 + z) in
    let ty := $4.0 * t - $2.0 in
    let (d, dd) := erfccheb_clenshaw ty in
    Ok (t * exp (- powi2 z + $0.5 * (lit (hd (Dec 0 0) COF) + ty * d) - dd)).

  (** src/error.rs:26-32 [erf] *)
  Definition erf (x : F A) : res (F A) :=
    if x >= $0.0 then do e <- erfccheb x; Ok ($1.0 - e)
    else do e <- erfccheb (- x); Ok (e - $1.0).

  (** src/error.rs:47-53 [erfc] *)
  Definition erfc (x : F A) : res (F A) :=
    if x >= $0.0 then erfccheb x
    else do e <- erfccheb (- x); Ok ($2.0 - e).

  (** src/error.rs:81-84: one Halley step *)
  Definition inverfc_step (pp x : F A) : res (F A) :=
    do e <- erfc x;
    let err := e - pp in
    Ok (x + err / (FRAC_2_SQRT_PI * exp (- powi2 x) - x * err)).

  (** src/error.rs:69-90 [inverfc] *)
  Definition inverfc (p : F A) : res (F A) :=
    if p >= $2.0 then Ok (- $100.0)
    else if p <= $0.0 then Ok $100.0
    else
      let pp := if p < $1.0 then p else $2.0 - p in
      let t := sqrt (- $2.0 * ln (pp / $2.0)) in
      let x := - FRAC_1_SQRT_2
               * (($2.30753 + t * $0.27061) / ($1.0 + t * ($0.99229 + t * $0.04481)) - t) in
      do x <- inverfc_step pp x;
      do x <- inverfc_step pp x;
      if p < $1.0 then Ok x else Ok (- x).

  (** src/error.rs:107-109 [inverf] *)
  Definition inverf (p : F A) : res (F A) := inverfc ($1.0 - p).

  (** src/error.rs:136-155: degree-9 polynomial of one subinterval, indices
      into the two tables as in the source *)
  Definition cheb_poly (p_idx q_idx : Z) (t : F A) : res (F A) :=
    do c7 <- index CHEBYSHEV_COEFFS_1 (p_idx + 7);
    do c6 <- index CHEBYSHEV_COEFFS_1 (p_idx + 6);
    do c5 <- index CHEBYSHEV_COEFFS_1 (p_idx + 5);
    do c4 <- index CHEBYSHEV_COEFFS_1 (p_idx + 4);
    do c3 <- index CHEBYSHEV_COEFFS_1 (p_idx + 3);
    do c2 <- index CHEBYSHEV_COEFFS_1 (p_idx + 2);
    do c1 <- index CHEBYSHEV_COEFFS_1 (p_idx + 1);
    do c0 <- index CHEBYSHEV_COEFFS_1 p_idx;
    do q1 <- index CHEBYSHEV_COEFFS_0 (q_idx + 1);
    do q0 <- index CHEBYSHEV_COEFFS_0 q_idx;
    Ok (((((((((lit c7 * t + lit c6) * t + lit c5) * t + lit c4) * t + lit c3) * t
            + lit c2) * t + lit c1) * t + lit c0) * t + lit q1) * t + lit q0).

  (** src/error.rs:112-156 [cheb_interpolant], with [M] = 6, [j0] = -2,
      [l0] = 0, hence [loff] = (j0 + 1) * 64 = -64.  The [i32] arithmetic is
      written on [Z]: [frexp] returns |xm| < 1 and |je| <= 1025, so no
      intermediate value exceeds 2^20 in magnitude
      ([Proofs.UtilsSpec.frexp_range]). *)
  Definition cheb_interpolant (x : F A) : res (F A) :=
    let loff := (-64)%Z in
    let (xm, je) := frexp x in
    let ip := as_i32 (of_int 128 * xm) in
    let lij := (je * 64 + ip - loff)%Z in
    let t := of_int 256 * xm - of_int (1 + 2 * ip) in
    let p_idx := (lij * 8)%Z in
    let q_idx := (lij * 2)%Z in
    require (0 <=? p_idx)%Z && (0 <=? q_idx)%Z
      else PAssert "Negative indices not permitted in Rust.";
    cheb_poly p_idx q_idx t.

  (** src/error.rs:182-208: Maclaurin series for [|x| < 0.125] *)
  Definition erfcx_maclaurin (x : F A) : F A :=
    (((((((((((((($1.984_126_984_126_984e-4 * x - $5.344_009_079_373_427e-4)
            * x
            + $1.388_888_888_888_889e-3)
            * x
            - $3.473_605_901_592_727_4e-3)
            * x
            + $8.333_333_333_333_333e-3)
            * x
            - $1.910_483_245_876e-2)
            * x
            + $4.166_666_666_666_666_4e-2)
            * x
            - $8.597_174_606_442e-2)
            * x
            + $1.666_666_666_666_666_6e-1)
            * x
            - $3.009_011_112_254_700_3e-1)
            * x
            + $5e-1)
            * x
            - $7.522_527_780_636_751e-1)
            * x
            + $1.0)
            * x
            - FRAC_2_SQRT_PI)
            * x
            + $1.0).

  (** src/error.rs:234-254: 11-term asymptotic expansion, [12 < x < 23.2] *)
  Definition erfcx_asym11 (r : F A) : F A :=
    (((((((((($3.607_337_150_008_376e5 * (r * r)
                - $3.797_197_000_008_816_4e4)
                * (r * r)
                + $4.467_290_588_245_667e3)
                * (r * r)
                - $5.956_387_450_994_222e2)
                * (r * r)
                + $9.163_673_001_529_573e1)
                * (r * r)
                - $1.666_122_363_914_467_6e1)
                * (r * r)
                + $3.702_494_142_032_150_7)
                * (r * r)
                - $1.057_855_469_152_043)
                * (r * r)
                + $4.231_421_876_608_172_4e-1)
                * (r * r)
                - $2.820_947_917_738_781_4e-1)
                * (r * r)
                + $5.641_895_835_477_563e-1)
                * r.

  (** src/error.rs:256-266: 7-term expansion, [23.2 <= x < 150] *)
  Definition erfcx_asym7 (r : F A) : F A :=
    (((((($9.163_673_001_529_573e1 * (r * r) - $1.666_122_363_914_467_6e1) * (r * r)
            + $3.702_494_142_032_150_7)
            * (r * r)
            - $1.057_855_469_152_043)
            * (r * r)
            + $4.231_421_876_608_172_4e-1)
            * (r * r)
            - $2.820_947_917_738_781_4e-1)
            * (r * r)
            + $5.641_895_835_477_563e-1)
            * r.

  (** src/error.rs:269-273: 4-term expansion, [150 <= x < 6.9e7] *)
  Definition erfcx_asym4 (r : F A) : F A :=
    (((- $1.057_855_469_152_043 * (r * r) + $4.231_421_876_608_172_4e-1) * (r * r)
            - $2.820_947_917_738_781_4e-1)
            * (r * r)
            + $5.641_895_835_477_563e-1)
            * r.

  (** src/error.rs:175-277 [erfcx] *)
  Definition erfcx (x : F A) : res (F A) :=
    let ax := abs x in
    if ax < $0.125 then Ok (erfcx_maclaurin x)
    else if x < $0.0 then
      if x < - $26.7 then Ok infinity
      else if x < - $6.1 then Ok ($2.0 * exp (x * x))
      else do c <- cheb_interpolant (- x); Ok ($2.0 * exp (x * x) - c)
    else if x <= $12.0 then cheb_interpolant x
    else
      let r := $1.0 / x in
      if x < $150.0 then
        if x < $23.2 then Ok (erfcx_asym11 r) else Ok (erfcx_asym7 r)
      else if x < $6.9e7 then Ok (erfcx_asym4 r)
      else Ok (INV_SQRT_PI / x).
End Error.
