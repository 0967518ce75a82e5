(** * Model of src/bessel.rs, without the caches *)

From Coq Require Import ZArith List String.
From Verif.Model Require Import Base Arith BesselTables.
Import ListNotations.
Open Scope bool_scope.
Open Scope f64_scope.
Open Scope res_scope.

Section Bessel.
  Context {A : arith}.

  (** src/bessel.rs:1075-1080 *)
  Definition XJ00 : F A := $5.783185962946785.
  Definition XJ10 : F A := $3.047126234366209e1.
  Definition XJ01 : F A := $1.468197064212389e1.
  Definition XJ11 : F A := $4.921_845_632_169_46e1.
  Definition TWOOPI : F A := FRAC_2_PI.
  Definition PIO4 : F A := FRAC_PI_4.

  (** The Horner loops of [rat], [asp] (src/bessel.rs:893-898, 914-923):
      start from the last coefficient, [acc = c + x * acc] downwards.
      [rev cs] puts the last coefficient first. *)
  Definition horner_add_first (x : F A) (cs : list dec) : F A :=
    match rev cs with
    | [] => $0.0
    | c :: cs' => fold_left (fun acc d => lit d + x * acc) cs' (lit c)
    end.

  (** src/bessel.rs:890-900 [rat]; every call passes [n] = length - 1 *)
  Definition rat (x : F A) (r s : list dec) : F A * F A * F A :=
    let y := powi2 x in
    let z := $64.0 - y in
    (y, horner_add_first z r, horner_add_first y s).

  (** src/bessel.rs:903-925 [asp]; all tables have 5 entries *)
  Definition asp (ax : F A) (pn pd qn qd : list dec) (fac : F A)
    : F A * F A * F A * F A * F A * F A :=
    let z := $8.0 / ax in
    let y := powi2 z in
    let xx := ax - fac * PIO4 in
    (z, xx, horner_add_first y pn, horner_add_first y pd,
     horner_add_first y qn, horner_add_first y qd).

  (** src/bessel.rs:928-937 [j0] *)
  Definition j0 (x : F A) : F A :=
    let ax := abs x in
    if ax < $8.0 then
      let '(y, nump, denp) := rat x J0R J0S in
      nump * (y - XJ00) * (y - XJ10) / denp
    else
      let '(z, xx, nump, denp, numq, denq) := asp ax J0PN J0PD J0QN J0QD $1.0 in
      sqrt (TWOOPI / ax) * (cos xx * nump / denp - z * sin xx * numq / denq).

  (** src/bessel.rs:940-954 [j1] *)
  Definition j1 (x : F A) : F A :=
    let ax := abs x in
    if ax < $8.0 then
      let '(y, nump, denp) := rat x J1R J1S in
      x * nump * (y - XJ01) * (y - XJ11) / denp
    else
      let '(z, xx, nump, denp, numq, denq) := asp ax J1PN J1PD J1QN J1QD $3.0 in
      let ans := sqrt (TWOOPI / ax) * (cos xx * nump / denp - z * sin xx * numq / denq) in
      if x < $0.0 then - ans else ans.

  (** src/bessel.rs:957-967 [y0] *)
  Definition y0 (x : F A) : F A :=
    if x < $8.0 then
      let j0x := j0 x in
      let '(_, nump, denp) := rat x Y0R Y0S in
      nump / denp + TWOOPI * j0x * ln x
    else
      let ax := x in
      let '(z, xx, nump, denp, numq, denq) := asp ax Y0PN Y0PD Y0QN Y0QD $1.0 in
      sqrt (TWOOPI / ax) * (sin xx * nump / denp + z * cos xx * numq / denq).

  (** src/bessel.rs:970-980 [y1] *)
  Definition y1 (x : F A) : F A :=
    if x < $8.0 then
      let j1x := j1 x in
      let '(_, nump, denp) := rat x Y1R Y1S in
      x * nump / denp + TWOOPI * (j1x * ln x - $1.0 / x)
    else
      let ax := x in
      let '(z, xx, nump, denp, numq, denq) := asp ax Y1PN Y1PD Y1QN Y1QD $3.0 in
      sqrt (TWOOPI / ax) * (sin xx * nump / denp + z * cos xx * numq / denq).

  (** src/bessel.rs:982-988 [poly]; every call passes [n] = length - 1 *)
  Definition poly (x : F A) (coef : list dec) : F A :=
    match rev coef with
    | [] => $0.0
    | c :: cs' => fold_left (fun ans d => ans * x + lit d) cs' (lit c)
    end.

  (** src/bessel.rs:991-1000 [i0] *)
  Definition i0 (x : F A) : F A :=
    let ax := abs x in
    if ax < $15.0 then
      let y := powi2 x in
      poly y I0P / poly ($225.0 - y) I0Q
    else
      let z := $1.0 - $15.0 / ax in
      exp ax * poly z I0PP / (sqrt ax * poly z I0QQ).

  (** src/bessel.rs:1003-1017 [i1].  Line 1010 takes [x.exp()], not
      [ax.exp()]. *)
  Definition i1 (x : F A) : F A :=
    let ax := abs x in
    if ax < $15.0 then
      let y := powi2 x in
      x * poly y I1P / poly ($225.0 - y) I1Q
    else
      let z := $1.0 - $15.0 / ax in
      let ans := exp x * poly z I1PP / (sqrt ax * poly z I1QQ) in
      if x < $0.0 then - ans else ans.

  (** src/bessel.rs:1020-1029 [k0] *)
  Definition k0 (x : F A) : F A :=
    if x <= $1.0 then
      let z := powi2 x in
      let term := poly z K0PI * ln x / poly ($1.0 - z) K0QI in
      poly z K0P / poly ($1.0 - z) K0Q - term
    else
      let z := $1.0 / x in
      exp (- x) * poly z K0PP / (sqrt x * poly z K0QQ).

  (** src/bessel.rs:1032-1041 [k1] *)
  Definition k1 (x : F A) : F A :=
    if x <= $1.0 then
      let z := powi2 x in
      let term := poly z K1PI * ln x / poly ($1.0 - z) K1QI in
      x * (poly z K1P / poly ($1.0 - z) K1Q + term) + $1.0 / x
    else
      let z := $1.0 / x in
      exp (- x) * poly z K1PP / (sqrt x * poly z K1QQ).

  (** src/bessel.rs:1043-1052 [chebev]; every call passes [m] = length *)
  Definition chebev (x : F A) (c : list dec) : F A :=
    let '(d, dd) :=
      fold_left (fun (s : F A * F A) (cj : dec) =>
                   ($2.0 * x * fst s - snd s + lit cj, fst s))
        (rev (tl c)) ($0.0, $0.0) in
    x * d - dd + $0.5 * lit (hd (Dec 0 0) c).

  (** src/bessel.rs:47-51, 116-120, 206-210: the upward three-term recurrence
      over [1..n]; [comb] is [-] (J, Y) or [+] (K); the state is
      [(previous, current)] *)
  Definition upward (comb : F A -> F A -> F A) (tox : F A) (n : Z) (prev cur : F A)
    : F A * F A :=
    fold_left (fun (s : F A * F A) (j : Z) =>
                 (snd s, comb (of_int j * tox * snd s) (fst s)))
      (range 1 n) (prev, cur).

  (** src/bessel.rs:32, 144: [f64::MAX_EXP / 2] *)
  Definition IEXP : Z := 512.

  (** src/bessel.rs:61-77: one step of the downward recurrence of [Jn]; the
      state is [(bjp, bj, ans, sum, jsum)] *)
  Definition jn_down_body (tox : F A) (n : Z) (j : Z) (st : F A * F A * F A * F A * bool)
    : res (step (F A * F A * F A * F A * bool) Empty_set) :=
    let '(bjp, bj, ans, sum, jsum) := st in
    let bjm := of_int j * tox * bj - bjp in
    let bjp := bj in
    let bj := bjm in
    let (_, k) := frexp bj in
    do s <- (if (k >? IEXP)%Z then
               do bj <- ldexp bj (- IEXP);
               do bjp <- ldexp bjp (- IEXP);
               do ans <- ldexp ans (- IEXP);
               do sum <- ldexp sum (- IEXP);
               Ok (bj, bjp, ans, sum)
             else Ok (bj, bjp, ans, sum));
    let '(bj, bjp, ans, sum) := s in
    let sum := if jsum then sum + bj else sum in
    let jsum := negb jsum in
    let ans := if (j =? n)%Z then bjp else ans in
    Ok (Next (bjp, bj, ans, sum, jsum)).

  (** src/bessel.rs:54-80: Miller's downward recurrence.  Line 55 is [u32]
      arithmetic. *)
  Definition jn_down (n : Z) (ax : F A) : res (F A) :=
    let tox := $2.0 / ax in
    do ns <- arith_u (checks (a := A)) 32 (n + as_u32 (A := A) (sqrt ($160.0 * of_int n)));
    let m := (2 * (ns / 2))%Z in
    do e <- for_loop (rev (range 1 (m + 1))) (jn_down_body tox n)
              ($0.0, $1.0, $0.0, $0.0, false);
    match e with
    | Exhausted (bjp, bj, ans, sum, jsum) | Broke (bjp, bj, ans, sum, jsum) =>
        let sum := $2.0 * sum - bj in
        Ok (ans / sum)
    | Returned r => match r with end
    end.

  (** src/bessel.rs:29-88 [Jn] *)
  Definition Jn (n : Z) (x : F A) : res (F A) :=
    if (n =? 0)%Z then Ok (j0 x)
    else if (n =? 1)%Z then Ok (j1 x)
    else if powi2 x <= $8.0 * min_positive then Ok $0.0
    else
      let ax := abs x in
      do ans <- (if ax > of_int n then
                   let tox := $2.0 / ax in
                   Ok (snd (upward sub tox n (j0 ax) (j1 ax)))
                 else jn_down n ax);
      if (x < $0.0) && (n mod 2 =? 1)%Z then Ok (- ans) else Ok ans.

  (** src/bessel.rs:107-123 [Yn] *)
  Definition Yn (n : Z) (x : F A) : F A :=
    if (n =? 0)%Z then y0 x
    else if (n =? 1)%Z then y1 x
    else
      let tox := $2.0 / x in
      snd (upward sub tox n (y0 x) (y1 x)).

  (** src/bessel.rs:158-169: one step of the downward recurrence of [In]; the
      state is [(bip, bi, ans)] *)
  Definition in_down_body (tox : F A) (n : Z) (j : Z) (st : F A * F A * F A)
    : res (step (F A * F A * F A) Empty_set) :=
    let '(bip, bi, ans) := st in
    let bim := of_int j * tox * bi + bip in
    let bip := bi in
    let bi := bim in
    let (_, k) := frexp bi in
    do s <- (if (k >? IEXP)%Z then
               do bi <- ldexp bi (- IEXP);
               do bip <- ldexp bip (- IEXP);
               do ans <- ldexp ans (- IEXP);
               Ok (bi, bip, ans)
             else Ok (bi, bip, ans));
    let '(bi, bip, ans) := s in
    let ans := if (j =? n)%Z then bip else ans in
    Ok (Next (bip, bi, ans)).

  (** src/bessel.rs:142-178 [In].  Line 157 is [u32] arithmetic. *)
  Definition In (n : Z) (x : F A) : res (F A) :=
    if (n =? 0)%Z then Ok (i0 x)
    else if (n =? 1)%Z then Ok (i1 x)
    else if powi2 x <= $8.0 * min_positive then Ok $0.0
    else
      let tox := $2.0 / abs x in
      do ns <- arith_u (checks (a := A)) 32 (n + as_u32 (A := A) (sqrt ($200.0 * of_int n)));
      do m <- arith_u (checks (a := A)) 32 (2 * ns);
      do e <- for_loop (rev (range 1 m)) (in_down_body tox n) ($0.0, $1.0, $0.0);
      match e with
      | Exhausted (bip, bi, ans) | Broke (bip, bi, ans) =>
          let ans := ans * (i0 x / bi) in
          if (x < $0.0) && (n mod 2 =? 1)%Z then Ok (- ans) else Ok ans
      | Returned r => match r with end
      end.

  (** src/bessel.rs:197-213 [Kn] *)
  Definition Kn (n : Z) (x : F A) : F A :=
    if (n =? 0)%Z then k0 x
    else if (n =? 1)%Z then k1 x
    else
      let tox := $2.0 / x in
      snd (upward add tox n (k0 x) (k1 x)).

  (** src/bessel.rs:234, 579: [MAXIT] *)
  Definition MAXIT : Z := 10000.

  (** ** besseljy *)

  (** src/bessel.rs:265-271: replace a vanishing denominator *)
  Definition clip_fpmin (d : F A) : F A := if abs d < FPMIN then FPMIN else d.

  (** src/bessel.rs:262-282: first continued fraction; the state is
      [(b, d, c, h, isign)] *)
  Definition jy_cf1_body (xi2 : F A) (_ : Z) (st : F A * F A * F A * F A * Z)
    : F A * F A * F A * F A * Z * bool :=
    let '(b, d, c, h, isign) := st in
    let b := b + xi2 in
    let d := clip_fpmin (b - d) in
    let c := clip_fpmin (b - $1.0 / c) in
    let d := $1.0 / d in
    let del := c * d in
    let h := h * del in
    let isign := if d < $0.0 then (- isign)%Z else isign in
    ((b, d, c, h, isign), abs (del - $1.0) <= EPS).

  (** src/bessel.rs:254-285: first continued fraction with its panic; the
      result is [(h, isign)] *)
  Definition jy_cf1 (nu xi xi2 : F A) : res (F A * Z) :=
    let h := nu * xi in
    let h := if h < FPMIN then FPMIN else h in
    let b := xi2 * nu in
    let d := $0.0 in
    let c := h in
    let '((_, _, _, h, isign), ok) :=
      for_break (range 0 MAXIT) (jy_cf1_body xi2) (b, d, c, h, 1%Z) in
    require ok else PExplicit "x too large in besseljy; try asymptotic expansion";
    Ok (h, isign).

  (** src/bessel.rs:296-302: downward recurrence of J and J'; the state is
      [(fact, rjl, rjpl)] *)
  Definition jy_down (nl : Z) (nu xi rjl rjpl : F A) : F A * F A :=
    let '(_, rjl, rjpl) :=
      fold_left (fun (s : F A * F A * F A) (_ : Z) =>
                   let '(fact, rjl, rjpl) := s in
                   let rjtemp := fact * rjl + rjpl in
                   let fact := fact - xi in
                   let rjpl := fact * rjtemp - rjl in
                   (fact, rjtemp, rjpl))
        (range 0 nl) (nu * xi, rjl, rjpl) in
    (rjl, rjpl).

  (** src/bessel.rs:339-353: Temme series for Y; the state is
      [(ff, c, p, q, sum, sum1)] *)
  Definition jy_series_body (xmu xmu2 d r : F A) (i : Z) (st : F A * F A * F A * F A * F A * F A)
    : F A * F A * F A * F A * F A * F A * bool :=
    let '(ff, c, p, q, sum, sum1) := st in
    let i := of_int i in
    let ff := (i * ff + p + q) / (i * i - xmu2) in
    let c := c * (d / i) in
    let p := p / (i - xmu) in
    let q := q / (i + xmu) in
    let del := c * (ff + r * q) in
    let sum := sum + del in
    let del1 := c * p - i * del in
    let sum1 := sum1 + del1 in
    ((ff, c, p, q, sum, sum1), abs del < ($1.0 + abs sum) * EPS).

  (** src/bessel.rs:308-359: x < 2; the result is [(rymu, ry1, rymup)] *)
  Definition jy_series (x xmu xmu2 xi xi2 : F A) : res (F A * F A * F A) :=
    let x2 := $0.5 * x in
    let pimu := PI * xmu in
    let fact := if abs pimu < EPS then $1.0 else pimu / sin pimu in
    let d := - ln x2 in
    let e := xmu * d in
    let fact2 := if abs e < EPS then $1.0 else sinh e / e in
    let xx := $8.0 * powi2 xmu - $1.0 in
    let gam1 := chebev xx C1 in
    let gam2 := chebev xx C2 in
    let gampl := gam2 - xmu * gam1 in
    let gammi := gam2 + xmu * gam1 in
    let ff := TWOOPI * fact * (gam1 * cosh e + gam2 * fact2 * d) in
    let e := exp e in
    let p := e / (gampl * PI) in
    let q := $1.0 / (e * PI * gammi) in
    let pimu2 := $0.5 * pimu in
    let fact3 := if abs pimu2 < EPS then $1.0 else sin pimu2 / pimu2 in
    let r := PI * pimu2 * fact3 * fact3 in
    let c := $1.0 in
    let d := - powi2 x2 in
    let sum := ff + r * q in
    let sum1 := p in
    let '((_, _, _, _, sum, sum1), ok) :=
      for_break (range 1 (MAXIT + 1)) (jy_series_body xmu xmu2 d r)
        (ff, c, p, q, sum, sum1) in
    require ok else PExplicit "besseljy: failure to converge in cf1";
    let rymu := - sum in
    let ry1 := - sum1 * xi2 in
    let rymup := xmu * xi * rymu - ry1 in
    Ok (rymu, ry1, rymup).

  (** src/bessel.rs:379-406: second continued fraction; the state is
      [(a, bi, dr, di, cr, ci, p, q)] *)
  Definition jy_cf2_body (br : F A) (i : Z)
      (st : F A * F A * F A * F A * F A * F A * F A * F A)
    : F A * F A * F A * F A * F A * F A * F A * F A * bool :=
    let '(a, bi, dr, di, cr, ci, p, q) := st in
    let i := of_int i in
    let a := a + $2.0 * i in
    let bi := bi + $2.0 in
    let dr := a * dr + br in
    let di := a * di + bi in
    let dr := if abs dr + abs di < FPMIN then FPMIN else dr in
    let fact := a / (cr * cr + ci * ci) in
    let cr := br + cr * fact in
    let ci := bi - ci * fact in
    let cr := if abs cr + abs ci < FPMIN then FPMIN else cr in
    let den := dr * dr + di * di in
    let dr := dr / den in
    let di := di / - den in
    let dlr := cr * dr - ci * di in
    let dli := cr * di + ci * dr in
    let temp := p * dlr - q * dli in
    let q := p * dli + q * dlr in
    let p := temp in
    ((a, bi, dr, di, cr, ci, p, q), abs (dlr - $1.0) + abs dli < EPS).

  (** src/bessel.rs:362-409: x >= 2; the result is [(p, q)] *)
  Definition jy_cf2 (x xmu2 xi : F A) : res (F A * F A) :=
    let a := $0.25 - xmu2 in
    let p := - $0.5 * xi in
    let q := $1.0 in
    let br := $2.0 * x in
    let bi := $2.0 in
    let fact := a * xi / (p * p + q * q) in
    let cr := br + q * fact in
    let ci := bi + p * fact in
    let den := br * br + bi * bi in
    let dr := br / den in
    let di := - bi / den in
    let dlr := cr * dr - ci * di in
    let dli := cr * di + ci * dr in
    let temp := p * dlr - q * dli in
    let q := p * dli + q * dlr in
    let p := temp in
    let '((_, _, _, _, _, _, p, q), ok) :=
      for_break (range 1 MAXIT) (jy_cf2_body br) (a, bi, dr, di, cr, ci, p, q) in
    require ok else PExplicit "besseljy: failure to converge in cf2";
    Ok (p, q).

  (** src/bessel.rs:362-415: x >= 2; the result is [(rjmu, rymu, ry1)] *)
  Definition jy_large (x xmu xmu2 xi w f rjl : F A) : res (F A * F A * F A) :=
    do pq <- jy_cf2 x xmu2 xi;
    let (p, q) := pq in
    let gam := (p - f) / q in
    let rjmu_temp := sqrt (w / ((p - f) * gam + q)) in
    let rjmu := if rjl < $0.0 then - rjmu_temp else rjmu_temp in
    let rymu := gam * rjmu in
    let rymup := rymu * (p + q / gam) in
    let ry1 := xmu * xi * rymu - rymup in
    Ok (rjmu, rymu, ry1).

  (** src/bessel.rs:420-424, 718-723: upward recurrence of Y or K over
      [1..=nl]; the state is [(current, next)] *)
  Definition nu_up (comb : F A -> F A -> F A) (nl : Z) (xmu xi2 cur next : F A) : F A * F A :=
    fold_left (fun (s : F A * F A) (i : Z) =>
                 (snd s, comb ((xmu + of_int i) * xi2 * snd s) (fst s)))
      (range 1 (nl + 1)) (cur, next).

  (** src/bessel.rs:243-247: number of recurrence steps *)
  Definition jy_steps (nu x : F A) : Z :=
    if x < $2.0 then as_usize (nu + $0.5)
    else Z.max 0 (as_usize (nu - x + $1.5)).

  (** src/bessel.rs:233-429 [besseljy] *)
  Definition besseljy (nu x : F A) : res (F A * F A * F A * F A) :=
    require negb ((x <= $0.0) || (nu < $0.0)) else PExplicit "bad arguments in besseljy";
    let nl := jy_steps nu x in
    let xmu := nu - of_int nl in
    let xmu2 := powi2 xmu in
    let xi := $1.0 / x in
    let xi2 := $2.0 * xi in
    let w := xi2 / PI in
    do hs <- jy_cf1 nu xi xi2;
    let (h, isign) := hs in
    let rjl := of_int isign * FPMIN in
    let rjpl := h * rjl in
    let rjl1 := rjl in
    let rjp1 := rjpl in
    let (rjl, rjpl) := jy_down nl nu xi rjl rjpl in
    let rjl := if rjl == $0.0 then EPS else rjl in
    let f := rjpl / rjl in
    do r <- (if x < $2.0 then
               do y <- jy_series x xmu xmu2 xi xi2;
               let '(rymu, ry1, rymup) := y in
               let rjmu := w / (rymup - f * rymu) in
               Ok (rjmu, rymu, ry1)
             else jy_large x xmu xmu2 xi w f rjl);
    let '(rjmu, rymu, ry1) := r in
    let fact := rjmu / rjl in
    let jo := rjl1 * fact in
    let jpo := rjp1 * fact in
    let (rymu, ry1) := nu_up sub nl xmu xi2 rymu ry1 in
    let yo := rymu in
    let ypo := nu * xi * rymu - ry1 in
    Ok (jo, yo, jpo, ypo).

  (** ** besselik *)

  (** src/bessel.rs:601-611: first continued fraction; the state is
      [(b, d, c, h)] *)
  Definition ik_cf1_body (xi2 : F A) (_ : Z) (st : F A * F A * F A * F A)
    : F A * F A * F A * F A * bool :=
    let '(b, d, c, h) := st in
    let b := b + xi2 in
    let d := $1.0 / (b + d) in
    let c := b + $1.0 / c in
    let del := c * d in
    let h := h * del in
    ((b, d, c, h), abs (del - $1.0) <= EPS).

  (** src/bessel.rs:593-614: with its panic *)
  Definition ik_cf1 (nu xi xi2 : F A) : res (F A) :=
    let h := nu * xi in
    let h := if h < FPMIN then FPMIN else h in
    let b := xi2 * nu in
    let d := $0.0 in
    let c := h in
    let '((_, _, _, h), ok) := for_break (range 0 MAXIT) (ik_cf1_body xi2) (b, d, c, h) in
    require ok else PExplicit "x too large in besselik; try asymptotic expansion";
    Ok h.

  (** src/bessel.rs:619-625: downward recurrence of I and I' *)
  Definition ik_down (nl : Z) (nu xi ril ripl : F A) : F A * F A :=
    let '(_, ril, ripl) :=
      fold_left (fun (s : F A * F A * F A) (_ : Z) =>
                   let '(fact, ril, ripl) := s in
                   let ritemp := fact * ril + ripl in
                   let fact := fact - xi in
                   let ripl := fact * ritemp + ril in
                   (fact, ritemp, ripl))
        (range 0 nl) (nu * xi, ril, ripl) in
    (ril, ripl).

  (** src/bessel.rs:655-669: Temme series for K; the state is
      [(ff, c, p, q, sum, sum1)] *)
  Definition ik_series_body (xmu xmu2 d : F A) (i : Z) (st : F A * F A * F A * F A * F A * F A)
    : F A * F A * F A * F A * F A * F A * bool :=
    let '(ff, c, p, q, sum, sum1) := st in
    let i := of_int i in
    let ff := (i * ff + p + q) / (i * i - xmu2) in
    let c := c * (d / i) in
    let p := p / (i - xmu) in
    let q := q / (i + xmu) in
    let del := c * ff in
    let sum := sum + del in
    let del1 := c * (p - i * ff) in
    let sum1 := sum1 + del1 in
    ((ff, c, p, q, sum, sum1), abs del < abs sum * EPS).

  (** src/bessel.rs:631-674: x < 2; the result is [(rkmu, rk1)] *)
  Definition ik_series (x xmu xmu2 xi2 : F A) : res (F A * F A) :=
    let x2 := $0.5 * x in
    let pimu := PI * xmu in
    let fact := if abs pimu < EPS then $1.0 else pimu / sin pimu in
    let d := - ln x2 in
    let e := xmu * d in
    let fact2 := if abs e < EPS then $1.0 else sinh e / e in
    let xx := $8.0 * powi2 xmu - $1.0 in
    let gam1 := chebev xx C1 in
    let gam2 := chebev xx C2 in
    let gampl := gam2 - xmu * gam1 in
    let gammi := gam2 + xmu * gam1 in
    let ff := fact * (gam1 * cosh e + gam2 * fact2 * d) in
    let sum := ff in
    let e := exp e in
    let p := $0.5 * e / gampl in
    let q := $0.5 / (e * gammi) in
    let c := $1.0 in
    let d := powi2 x2 in
    let sum1 := p in
    let '((_, _, _, _, sum, sum1), ok) :=
      for_break (range 1 (MAXIT + 1)) (ik_series_body xmu xmu2 d) (ff, c, p, q, sum, sum1) in
    require ok else PExplicit "besselik: failure to converge in cf1";
    Ok (sum, sum1 * xi2).

  (** src/bessel.rs:688-706: second continued fraction; the state is
      [(a, b, c, d, delh, h, q, q1, q2, s)] *)
  Definition ik_cf2_body (i : Z)
      (st : F A * F A * F A * F A * F A * F A * F A * F A * F A * F A)
    : F A * F A * F A * F A * F A * F A * F A * F A * F A * F A * bool :=
    let '(a, b, c, d, delh, h, q, q1, q2, s) := st in
    let i := of_int i in
    let a := a - $2.0 * i in
    let c := - a * c / (i + $1.0) in
    let q_new := (q1 - b * q2) / a in
    let q1 := q2 in
    let q2 := q_new in
    let q := q + c * q_new in
    let b := b + $2.0 in
    let d := $1.0 / (b + a * d) in
    let delh := delh * (b * d - $1.0) in
    let h := h + delh in
    let dels := q * delh in
    let s := s + dels in
    ((a, b, c, d, delh, h, q, q1, q2, s), abs (dels / s) <= EPS).

  (** src/bessel.rs:676-712: x >= 2; the result is [(rkmu, rk1)] *)
  Definition ik_large (x xmu xmu2 xi : F A) : res (F A * F A) :=
    let b := $2.0 * ($1.0 + x) in
    let d := $1.0 / b in
    let h := d in
    let delh := d in
    let q1 := $0.0 in
    let q2 := $1.0 in
    let a1 := $0.25 - xmu2 in
    let q := a1 in
    let c := a1 in
    let a := - a1 in
    let s := $1.0 + q * delh in
    let '((_, _, _, _, _, h, _, _, _, s), ok) :=
      for_break (range 1 MAXIT) ik_cf2_body (a, b, c, d, delh, h, q, q1, q2, s) in
    require ok else PExplicit "besselik: failure to converge in cf2";
    let h := h * a1 in
    let rkmu := sqrt (PI / ($2.0 * x)) * exp (- x) / s in
    let rk1 := rkmu * (xmu + x + $0.5 - h) * xi in
    Ok (rkmu, rk1).

  (** src/bessel.rs:578-728 [besselik] *)
  Definition besselik (nu x : F A) : res (F A * F A * F A * F A) :=
    require negb ((x <= $0.0) || (nu < $0.0)) else PExplicit "bad arguments in besselik";
    let nl := as_usize (nu + $0.5) in
    let xmu := nu - of_int nl in
    let xmu2 := powi2 xmu in
    let xi := $1.0 / x in
    let xi2 := $2.0 * xi in
    do h <- ik_cf1 nu xi xi2;
    let ril := FPMIN in
    let ripl := h * ril in
    let ril1 := ril in
    let rip1 := ripl in
    let (ril, ripl) := ik_down nl nu xi ril ripl in
    let f := ripl / ril in
    do k <- (if x < $2.0 then ik_series x xmu xmu2 xi2 else ik_large x xmu xmu2 xi);
    let (rkmu, rk1) := k in
    let rkmup := xmu * xi * rkmu - rk1 in
    let rimu := xi / (f * rkmu - rkmup) in
    let io := rimu * ril1 / ril in
    let ipo := rimu * rip1 / ril in
    let (rkmu, rk1) := nu_up add nl xmu xi2 rkmu rk1 in
    let ko := rkmu in
    let kpo := nu * xi * rkmu - rk1 in
    Ok (io, ko, ipo, kpo).

  (** src/bessel.rs:784-787 [Jnu_Ynu] *)
  Definition Jnu_Ynu (nu x : F A) : res (F A * F A) :=
    do r <- besseljy nu x;
    let '(jo, yo, _, _) := r in Ok (jo, yo).

  (** src/bessel.rs:840-843 [Inu_Knu] *)
  Definition Inu_Knu (nu x : F A) : res (F A * F A) :=
    do r <- besselik nu x;
    let '(io, ko, _, _) := r in Ok (io, ko).
End Bessel.
