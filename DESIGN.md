# A machine-checked model of puruspe

`puruspe` is a library of special functions over `f64`. The model is a
function-by-function transcription of `/repo/src` into Rocq (Coq 8.16.1).
The properties are in `properties.jsonl`, the theorems in
`rocq/theories/Props`, the table property -> theorem in `MANIFEST.json`.

## Layout

| directory | contents |
|---|---|
| `theories/Model` | the code, one file per source file, each definition citing its lines |
| `theories/Float` | two readings of the arithmetic: IEEE-754 (`Ieee.v`, `Bits64.v`) and exact reals (`Exact.v`) |
| `theories/Spec`  | small vocabulary used in theorem statements, independent of the model |
| `theories/Proofs`| lemmas |
| `theories/Props` | the property theorems only, each `exact lemma` with `Print Assumptions` |

## How the code is modelled

Every function is written once over a record of operations, `arith`
(`Model/Arith.v`): literals, `+ - * /`, comparisons, `sqrt`, casts, libm
calls, and so on. A Rust call is a term of type `res A`: `Ok`, `Panic` with
the kind and message of the panic, or `Diverge` when the fuel of a loop with
no iteration cap is exhausted (only `factorial` and `gamma` have such loops;
the theorems about them show which fuel suffices). Decimal literals are kept
as the decimals of the source and converted by the reading.

* **IEEE reading** `ieee P`: Flocq's `binary_float 53 1024`, round to nearest
  even, signed zeros, infinities, NaN with payload. `P : platform` collects
  everything Rust leaves to the target, and theorems quantify over it: NaN
  payloads, libm functions (`exp ln sin cos sinh cosh powf`, complex `exp`),
  the choice of `min`/`max` between 0.0 and -0.0, whether the crate is compiled
  with the `fma` target feature, and whether overflow checks are on. The only
  assumption built in is that `exp ln sin cos sinh cosh` map NaN to NaN. A
  theorem that needs more from libm says so in a hypothesis, and its companion
  example exhibits a platform that satisfies it.
* **Exact reading** `exact fma checks`: the same code over Coq's reals. Used
  for claims about the algorithm (functional equations, Wronskians).

### What is modelled

All of `utils.rs`, `gamma.rs`, `beta.rs`, `dawson.rs`, `error.rs`,
`faddeeva.rs`, `bessel.rs` (including the four caches) and the constants and
quadrature tables of `lib.rs`.

### What is not modelled

* `lambert_w` functions: re-exports of another crate.
* `num_complex`: only the operators the crate uses, by their textbook formulas;
  `Complex64::exp` is a platform function.
* `HashMap`: an association list without duplicates. Hashing, capacity and
  iteration order are not represented.
* Time, memory, allocation failure. The `len + additional` overflow panic of
  `reserve` is not represented.
* `powi(2)` and `powi(3)` are products (`x*x`, `x*(x*x)`), the expansion LLVM
  uses.
* `usize` is 64 bits.
* `i32`/`isize` arithmetic on table indices in `cheb_interpolant` and in the
  Taylor branch of `faddeeva` is written on unbounded integers; the ranges that
  justify this are theorems.

### Trusted base

Coq's kernel (and `coqchk`); the definitions in `Model`, `Float` and `Spec`;
the axioms printed by `Print Assumptions` under each theorem. Those come from
the standard library: `ClassicalDedekindReals.sig_forall_dec`,
`sig_not_dec`, `FunctionalExtensionality.functional_extensionality_dep`, and
`Classical_Prop.classic` (used by Flocq and the reals). No axiom is added.

Some theorems assume something about the platform's libm. Each assumption is a
definition in `Spec` and appears as an explicit hypothesis of the theorem:
`accurate_exp` (relative error at most 2^-50 away from overflow and underflow),
`accurate_ln`, `plausible_ln`, `exp_underflows`, `ln_of_negative_is_NaN`,
`accurate_cos` and `accurate_sin` (absolute error at most 2^-50). The
platform `ideal` (`Float/Platforms.v`), whose libm is correctly rounded, is
shown to satisfy them, so no theorem holds vacuously.

The mathematical functions the results are compared with are specified by
characterisations that do not mention the code: erfc by its derivative and its
limit (`ErfSpec`), Dawson's integral by its differential equation
(`DawsonSpec`), Gamma by the Bohr-Mollerup conditions (`GammaSpec`). In each
case a function with these properties is constructed (`erfc_exists`,
`gamma_exists`, ...).

## How each property is treated

"IEEE" and "exact" name the reading. Statuses are in `MANIFEST.json`; a
property that is false of the code has a theorem `..._refuted` with a witness.

| id | modelled in | method |
|---|---|---|
| C01 | Bits64.frexp_bits | IEEE; bit fields by Flocq's split_bits, exact product by +-1 |
| C02 | Bits64.frexp_bits | refuted on every subnormal: result is off by a factor; theorem for all subnormals |
| C03 | Bits64.ldexp_bits | IEEE; bit fields |
| C04 | Bits64.ldexp_bits | refuted for every normal x and every exponent that underflows: result is infinite |
| C05 | both | IEEE; bit identity |
| C06 | Utils.sign | IEEE; case analysis |
| C07 | Utils.factorial | IEEE; loop invariant k <= fuel, product >= 1; every factor >= 1 |
| C08 | Utils.factorial | IEEE; exactness by evaluation of the model for n <= 22, error induction for n <= 170, overflow by monotone lower bound for n >= 171 |
| C09 | Utils.factorial | IEEE; finite part (n <= 171) by evaluation, tail by C08 |
| C10 | Gamma.gamma | IEEE; case analysis and positivity of the core |
| C11 | Gamma.gamma, Utils.factorial | IEEE; cast of an integer-valued float |
| C12 | Gamma.gamma | IEEE; decreasing measure upward, growth of the product downward |
| C13 | Gamma.gamma | IEEE; bounds of Horner evaluation, sign of loop product |
| C14 | Gamma.gamma | exact: loop unrolling; IEEE: relative error induction |
| C15 | Gamma.gammp, gammq | IEEE; all loops are bounded by construction, no indexing |
| C16 | same | IEEE; case analysis |
| C17 | same | IEEE; both functions evaluate the same subterm; error of 1 - v |
| C18 | same | refuted: NaN for 100 <= a <= 2^100, 0.201a <= x <= a - 1 if ln of a negative is NaN; clamped ranges and sign proved |
| C19 | Gamma.invgammp | IEEE; case analysis |
| C20 | same | refuted: panics for a in [100, 2^80], p in [0.01, 0.3] |
| C21 | same | IEEE; NaN propagation |
| C22, C23 | Beta.beta | IEEE; commutativity of addition up to NaN payload |
| C24 | Beta.betai | IEEE |
| C25 | Beta.betai | exact; the two calls evaluate the same prefactor and continued fraction |
| C26 | Beta.betaiapprox | refuted: zero or NaN for all a, b in (3000, 2^40], x in [2^-30, 1 - 2^-30] |
| C27 | Beta.invbetai | IEEE |
| C28-C31 | Error.erf, erfc | IEEE; symmetry of subtraction; sign of products |
| C32, C33 | Error.inverfc | IEEE |
| C34 | Error.erfcx | IEEE; range of frexp, monotonicity of rounding, table length |
| C35, C36 | Error.erfcx | IEEE; interval bounds of Horner evaluation over all table rows |
| C37 | Dawson.dawson | IEEE; symmetry |
| C38 | Dawson.dawson_series | Taylor bound for any solution of the differential equation, plus rounding |
| C39 | Dawson.dawson | refuted in the IEEE reading on all of [0.41, 0.79]; holds on (0, 0.2) |
| C40 | Dawson.dawson | refuted with overflow checks for |x| > 7.4e18; holds without them |
| C41 | Faddeeva.faddeeva | IEEE; region of the Taylor branch, sweep over the 2500 tiles |
| C42, C44 | Faddeeva.faddeeva | IEEE; case analysis |
| C43 | Faddeeva.faddeeva | exact over the reals; IEEE outside 49 <= |z|^2 <= 4.8e15 by symmetry of rounding; refuted inside by evaluation |
| C45, C46 | Bessel.Jn, In | IEEE; symmetry; C46 refuted at n = 1 |
| C47, C50 | Bessel.Yn, Kn, Jn | any reading; induction on the range |
| C48 | Bessel.Kn | IEEE; induction |
| C49 | Bessel.Jn, In | IEEE |
| C51 | Bessel.besseljy, besselik | IEEE; NaN is absorbing in the continued fraction |
| C52, C53 | same | exact; invariant of the two recurrences |
| C54 | Jnu_Ynu, Inu_Knu | any reading |
| C55 | Jn, In | IEEE; bound on the rounded square root |
| C56-C60 | Cache | induction on histories: refinement to a finite map |
| C61 | Cache | finite-map equality |
| C62-C64 | Bits64.ldexp_bits | bit fields; C63 and C64 refuted |
| C65, C66 | Bessel.Jn, In | refuted by evaluation of the model on every platform (no libm call is involved for J) |
| C67, C68 | Yn, Kn, In, Jn | NaN propagation; C68 refuted at n = 2 |
| C69 | Utils.factorial | integer overflow of the block counter, exact boundary |
| C70 | Error.erfcx | IEEE; every table row is compared with a Taylor polynomial of the solution of y' = 2xy - 2/sqrt pi (checked integer arithmetic on all rows), asymptotic branches by alternating bounds, rounding by a Horner error recurrence |
| C71, C72 | Error.erfc, erf | IEEE; the Chebyshev sum is turned into a polynomial and compared with erfcx on 128 subintervals of the transformed variable; rounding by the Clenshaw recurrence |
| C73 | Error.erf | refuted: relative error at least 1 for all 0 < x <= 2^-55 |
| C74 | Gamma.gamma | IEEE; Bohr-Mollerup characterisation, Stirling bracket proved from it, polynomial enclosure of Gamma on [2.5, 3.5], multiplicative error calculus through the shift loops |
| C75 | Gamma.ln_gamma, lanczos_sum | IEEE; Stirling bracket plus the proved value of its constant, rational enclosure of the Lanczos sum on (0, inf), backward view of x - 1, absolute error of each operation |
| C76 | Gamma.ln_gamma | IEEE; x - 1 rounds to -1 for 0 < x <= 2^-54 |
| C77 | Beta.beta | IEEE; C75 through the cancellation, convexity bounds on the beta function |
| C78 | Beta.beta | IEEE; C76 |
| C79 | Gamma.gammp, gser, gcf | IEEE; partial sums enclose P(a, x) by comparing derivatives, loop invariants in relative error; the convergents of the continued fraction by the determinant identity and a derivative comparison at infinity, convergence from positivity of the denominators, early exit from the size of the last factor |
| C80 | Gamma.gammq, gser, gcf | IEEE; C79 and P <= 1 (by Hoelder and the Bohr-Mollerup properties) |
| C81, C82 | Bessel.In, i0, i1, poly | IEEE; partial sum of the series by a geometric tail bound, rational approximation against it by integer polynomial arithmetic with interval subdivision, multiplicative error of Horner schemes with positive coefficients |
| C83, C84 | Bessel.Jn, j0, j1, rat | IEEE; as C81, absolute error through the factors that vanish at the zeros |
| C85 | Gamma.invgammp | refuted: IEEE, one iteration followed operation by operation |
| C86 | Bessel.Kn, k0, k1, upward | IEEE; series with Euler's constant, tables checked on all of [0, 1], induction over the order |
| C87, C88 | Bessel.Yn, y0, y1, rat | IEEE; as C86 on (0, 8), Horner chains with coefficients of both signs |
| C89 | Bessel.Yn | IEEE; induction over the order with the growth of Y_n: the amplification factors have a telescoping product |
| C90 | Beta.betai, betacf | refuted: IEEE; the state of the continued fraction after each iteration in closed form, by induction over the iterations |
| C91, C92 | Beta.betai, betacf | refuted: IEEE; the continued fraction of one call evaluated in the kernel for an arbitrary platform, the factor in front of it bounded through the accuracy of ln_gamma |
| C93 | Bessel.Yn | refuted: IEEE; induction over the order through finite, infinite and NaN states |
| C94 | Bessel.In | IEEE, every platform; Miller convergence for every order over the reals, exact rescaling, rounding-error induction over the recurrence |
| C95 | Jn (downward recurrence, abs x <= 1) | IEEE, every platform; Miller convergence, the Neumann normalisation sum and a weighted rounding-error induction |
| C96 | Beta.betai, betacf (b <= 1/2, x <= 9/10) | IEEE, platforms with accurate ln and exp; convergents of the continued fraction and their truncation error over the reals, an invariant for the rounding errors of the Lentz recurrences, the stopping test as a truncation bound |
| C97 | Bessel.Kn, k0, k1 (x > 1) | IEEE, platforms with accurate exp; a stability theorem for the differential equation of the scaled functions on the half-line, certified rational approximations, polynomial positivity, induction over the order |
| C98 | Bessel.In, i0, i1 (x >= 15) | IEEE, platforms with accurate exp; differential equation of the scaled functions, residual of the tables bounded by polynomial positivity on the half-line, rounding errors |
| C99 | Bessel.In (n >= 2, x >= 15) | refuted: the loop evaluated at n = 3, x = 700 on every platform, combined with C98 |
| C100, C101 | Bessel.Jn, Yn, j0, j1, y0, y1, asp (x >= 8) | IEEE, platforms with accurate cos and sin; oscillator equation of sqrt x times the function, residual of the tables bounded by polynomial positivity on the half-line, energy estimate, values at 8 from the series, rounding errors |
| C102 | Bessel.Jn, Yn (x >= 8) | refuted from 2^56 on for every argument, on every platform with accurate cos and sin; proved on [8, 2^51] |
| C103, C104 | Bessel.Jn, Yn (2 <= n < x) | IEEE, platforms with accurate cos and sin (x >= 8) or ln (Yn, x < 8); a quadratic form that the three-term recurrence never increases, rounding-error induction over the order |
| C105 | Error.inverfc | IEEE, platforms with accurate exp and ln; Wallis integrals, rational bounds of the Mills ratio, polynomial positivity, Halley step over the reals, rounding errors |
| C106 | Error.inverf | refuted at the f64 next to -1; proved from -1 + 2^-50 on, from C105 and the rounding of 1 - p |
| C107 | Error.erfc, Error.inverfc | proved, from C105, C71 and the logarithmic slope of erfc |
| C108 | Error.erfc, Error.inverfc | proved on [-2, 25], from C71, C105 and lower bounds of the slope |
| C109 | Error.erf, Error.inverf | proved from -1 + 2^-51 on, from C105, C72 and the rounding of 1 - p |
| C110 | Faddeeva.faddeeva, Dawson.dawson | refuted on all of [0.41, 0.79] and on [0.8k + 0.3, 0.8k + 0.39] for 200 <= k <= 2^30; proved below 1/5 |
| C111 | Faddeeva.faddeeva, Error.erfcx | proved on both axes, from C42 and C70 |
| C112 | Bessel.besseljy, Bessel.besselik, Jnu_Ynu, Inu_Knu | refuted for every x in [2^32, 2^800] and order up to 1000: panic; induction over the 10000 iterations |
| C113 | Bessel.besseljy, Bessel.besselik | refuted for every x in (0, 2^-1024]: panic "x too large" |
| C114 | Dawson.dawson | refuted on a stretch of every period 0.8 from 160 to 8.6e8: at least ten percent too large |
| C115 | Bessel.besselik, Bessel.Inu_Knu | partial: x in [2, 690], every half-integer order, provided the first continued fraction converges; against the closed form (Spec/KHalfSpec.v) |
| C116 | Bessel.besselik | partial: as C115, for the derivative of K |
| C117 | Bessel.besselik, Bessel.Inu_Knu | refuted at every order from 4000 to 2^32, x in [2, 690]: I for all real orders, K for half-integer ones |
| C118 | Bessel.besseljy, Bessel.Jnu_Ynu | refuted at every order from 4000 to 2^32, x in [2, 690] |

## Mutation log

`seeded/LOG.jsonl` has one line per attempt, made in a scratch copy. `theorems_failed` lists the theorems that depend on a
proof which no longer compiles after the edit, found by admitting the broken proofs one by one and reading
`Print Assumptions`. This shows less than that the theorem is false of the edited model: a proof can also break because its
script follows the shape of the definition, or run into the limit of 240 s per command, and the log does not tell these
apart. So a theorem whose claim survives an edit can be listed (for instance `C35_erfcx_nan` under the exchange of a
division for a multiplication). The conclusive entries are the attempts with an empty list. Attempts that did not run to
completion (a prover message the script could not read, or a timeout) are kept with a note; most were repeated, and the
repetition is a line of its own. No attempt is recorded as having led to a tightened theorem.

## Findings: where the code and the properties disagree

Each item was found by tracing the model and is the content of a `_refuted`
theorem or is recorded here because the theorem is still to be written.

- `utils::frexp` treats subnormals, infinities and NaN as normal numbers
  (C02). `utils::ldexp` turns underflow into an infinity (C04), overflow by
  less than a binade into NaN (C63), and an infinity into a finite number
  (C64).
- `Jn` and `In` rescale with `ldexp(_, -512)`; quantities that should underflow
  become infinite. `Jn(163, 1.0)` and `In(163, 1.0)` are `inf`; `Jn(5, 1e-100)`
  is 5.6e145 (C65, C66). `Jn(2, NaN)` is a finite number (C68).
- `factorial` advances its counter by whole blocks, so for n > 2^64 - 16 the
  counter overflows: a panic with overflow checks; without them, for
  n >= 2^64 - 3 the loop never ends (C69).
- `i1` (bessel.rs:1010) uses `x.exp()` where `ax.exp()` is needed: `In(1, x)`
  for x <= -15 is too small by a factor exp(2|x|) (C46).
- `dawson` updates its loop variables before using them (dawson.rs:42-47): the
  result is negative on [0.41, 0.79], where the integral exceeds 0.2 (C39). Its
  `u64` product overflows for |x| >= 7378697629483821056 (C40), and `faddeeva`
  inherits the panic near the real axis (C41).
- `faddeeva` is not exactly symmetric in its asymptotic branch:
  `zm4 * (xs + yabs) * (xs - yabs)` (faddeeva.rs:168) rounds differently for
  x and -x; (0.5, 18.5) and (-0.5, 18.5) differ in the last bits (C43).
- `gammpapprox` takes `ln` of a negative number when x lies well below a
  (gamma.rs, the branch for a >= 100): `gammp` and `gammq` are NaN for
  100 <= a <= 2^100 and 0.201 a <= x <= a - 1 (C18), and `invgammp` then panics
  for a in [100, 2^80], p in [0.01, 0.3] (C20).
- `betaiapprox` has a misplaced parenthesis (beta.rs:147): every quadrature
  term underflows and `betai(a, b, x)` is a zero or NaN for
  a, b in (3000, 2^40] (C26).
- `erf` is computed as 1 - erfccheb(x); for 0 < x <= 2^-55 the result has
  relative error at least 1 (C73).
- `ln_gamma` subtracts 1 from its argument; for 0 < x <= 2^-54 the difference
  is exactly -1, the first Lanczos term divides by zero and the result is
  infinite, although ln(gamma(x)) is about -ln x (C76). For larger small x the
  lost bits cost about 2^-53/x in absolute terms (the second term of C75).
  `beta(z, w)` is NaN when both arguments are at most 2^-55 (C78).
- `gammp(a, x)` is 0 (and `gammq` 1) whenever x < a EPSILON, but for small a
  the true P(a, x), at least x^a exp(-x), is close to 1: `gammp(2^-10, 1e-21)`
  is 0 instead of more than 0.9 (C79).
- `invgammp` inherits this: for a = 1 and p <= 2^-54 its first guess 1.595 p is
  below EPSILON, `gammp` answers 0, the step adds p, the absolute stopping
  test (|t| < EPSILON) holds and 2.595 p is returned, although the quantile is
  p: `invgammp(1e-17, 1.0)` is 2.6e-17 (C85).
- `betai` compares x with (a+1)/(a+2b) (src/beta.rs:73) where the symmetry of
  the continued fraction asks for (a+1)/(a+b+2). For b <= 1/2 the bound is at
  least 1 and the reflection is never used. Near x = 1 the fraction then stops
  at its iteration limit: `betai(1.0, 0.5, 1.0 - 1e-12)` is 0.02, the value is
  0.999999 (C90).
- The same threshold lets the reflected fraction run at 1 - x far above its
  range of stability when both parameters are in the hundreds. The recurrence
  of the modified Lentz method then amplifies rounding errors by ten orders of
  magnitude: `betai(200.0, 200.0, 0.36)` is 2.72 instead of a number below 1e-8
  (C91, C92).
- `Yn` is NaN instead of minus infinity for large orders: two orders after the
  overflow the recurrence computes -inf - (-inf). For every normal x in (0, 1]
  this holds for all orders from 256 on (C93).
- `In(n, x)` for n >= 2 starts its downward recurrence at an order that does not
  depend on x. At x = 700 the start is far too low: In(3, 700) is 2.5 percent
  above I_3(700) and even above I_0(700) (C99).
- `asp` forms the phase `ax - fac * PIO4` in floating point: from 2^56 on the
  shift disappears, so J_0 is computed from cos x instead of cos(x - pi/4) and
  Y_0 from sin x. For every such x one of the two is off by more than half the
  amplitude, however good the platform's cos and sin are (C102).
- `inverf` passes 1 - p to `inverfc`. For p = -1 + 2^-53 the difference rounds
  to 2 and the result is -100, although erf^-1(p) is about -5.9; for other p
  near -1 the lost bits cost about 2^-48 / (1 + p). At -p the same function is
  right (C106).
- `faddeeva(x, 0)` has a negative imaginary part for every x in [0.41, 0.79]; the true one exceeds 1/5. The
  real-axis branch calls `dawson`, whose sampled branch is wrong there (C39, C110).
  At x in [0.8 k + 0.3, 0.8 k + 0.39], k between 200 and 2^30, it is at least nine percent too large.
- `besseljy` and `besselik` (hence `Jnu_Ynu` and `Inu_Knu`) panic for every x in [2^32, 2^800] and every order up to
  1000, although J and Y are ordinary numbers there: the first continued fraction meets its stopping test in none of
  its 10000 iterations (bessel.rs:262-285, 601-614; C112). The text of the panic suggests an asymptotic expansion.
- `besseljy` and `besselik` panic with "x too large" for every x in (0, 2^-1024], because 1/x overflows (C113).
- `dawson` is at least ten percent too large whenever x lies in [0.8 k + 0.3, 0.8 k + 0.39], 200 <= k <= 2^30: the loop
  updates d1, d2 and e1 before their first use (dawson.rs:42-47), which is also the cause of C39 (C114).
- `besselik` and `Inu_Knu` return NaN for I at every order from 4000 to 2^32 and every x in [2, 690] (unless they
  panic): the downward recurrence of bessel.rs:619-625 overflows from its start value 2^-970, and line 626 takes the
  ratio of two infinities. At half-integer orders K is infinity
  and its derivative, infinity minus infinity in line 725, NaN (C117). Witness:
  order 4000.5, argument 2.
- `besseljy` and `Jnu_Ynu` return NaN for both J and Y at every order from 4000 to 2^32 and every x in [2, 690] whenever they
  return: the downward recurrence of bessel.rs:297-302 overflows from 2^-970, the ratio f of two non-finite values is NaN,
  and f enters both results (C118). Witness: order 4000, argument 2.
- `erfccheb` never reads the last of its 28 coefficients (error.rs); the effect
  is below the proved bound of C71.
- `inverfc` and `inverf` panic on NaN (C33), `invgammp` panics when p is NaN (C21).
