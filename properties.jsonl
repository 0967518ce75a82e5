{"id": "C01", "title": "frexp decomposes every normal number exactly", "statement": "For every normal f64 x (finite, nonzero, not subnormal), utils::frexp(x) = (m, e) with 0.5 <= |m| < 1 and m * 2^e equal to x exactly as real numbers; frexp(+0.0) and frexp(-0.0) are (0.0, 0).", "quantifier": "every f64 bit pattern that encodes a normal number or a zero", "why_tests_cant": "About 2^64 inputs; the claim is an exact equality of reals that depends on bit masks, so one wrong mask bit breaks only a sparse set of inputs.", "anchors": ["src/utils.rs: frexp"]}
{"id": "C02", "title": "frexp decomposes every finite number, subnormals included", "statement": "For every finite nonzero f64 x, utils::frexp(x) = (m, e) satisfies m * 2^e = x with 0.5 <= |m| < 1.", "quantifier": "every finite nonzero f64, subnormals included", "why_tests_cant": "The subnormals are 2^53 of the 2^64 patterns; random tests of f64 values almost never draw one.", "anchors": ["src/utils.rs: frexp"]}
{"id": "C03", "title": "ldexp is exact whenever the result is a normal number", "statement": "For every normal x and every i32 e such that x * 2^e is again a normal number, utils::ldexp(x, e) returns exactly x * 2^e, with the sign of x, and does not panic. ldexp(x, 0) = x and ldexp(0, e) = 0 bit for bit.", "quantifier": "every f64 x and every i32 e", "why_tests_cant": "The pair space is 2^96; correctness at the exponent boundaries (first and last normal binade) is a bit-level claim.", "anchors": ["src/utils.rs: ldexp"]}
{"id": "C04", "title": "ldexp with a large negative exponent underflows to zero", "statement": "If |x * 2^e| is below half of the smallest subnormal number, utils::ldexp(x, e) returns a zero with the sign of x (its comment: \"If the exponent is out of range, return infinity or zero\").", "quantifier": "every nonzero finite x and every i32 e that underflows", "why_tests_cant": "It concerns the whole underflow region of a two-argument function.", "anchors": ["src/utils.rs: ldexp"]}
{"id": "C05", "title": "ldexp undoes frexp on every bit pattern", "statement": "For every f64 x other than -0.0 (including subnormals, infinities and every NaN), with (m, e) = frexp(x): ldexp(m, e) returns a value with the same bits as x (for a NaN x: a NaN with the same payload bits). For -0.0 the result is +0.0.", "quantifier": "every f64 bit pattern", "why_tests_cant": "The round trip must hold on all 2^64 patterns, NaN payloads and subnormals included.", "anchors": ["src/utils.rs: frexp", "src/utils.rs: ldexp"]}
{"id": "C06", "title": "sign combines magnitude and sign bit exactly", "statement": "utils::sign(a, b) has the exponent and fraction bits of a and the sign bit of b, for all a and b including zeros, infinities and NaN.", "quantifier": "every pair of f64 bit patterns", "why_tests_cant": "2^128 pairs, and the interesting ones are signed zeros and NaN.", "anchors": ["src/utils.rs: sign"]}
{"id": "C07", "title": "factorial terminates and is never NaN, negative or below 1", "statement": "For every n that fits in usize with n <= 2^64 - 16, factorial(n) returns after at most n iterations of its outer loop, does not panic, and the result is >= 1 (finite or +infinity).", "quantifier": "every usize n up to 2^64 - 16, both build profiles", "why_tests_cant": "Termination for all n, including values whose loop would take centuries to run, cannot be tested.", "anchors": ["src/utils.rs: factorial", "src/utils.rs: rising_factorial"]}
{"id": "C08", "title": "factorial is exact as long as n! is representable by its partial products", "statement": "For every n <= 22, factorial(n) is exactly n!; for every n <= 170 it is finite and within relative error 2^-45 of n!; for every 171 <= n <= 2^64 - 16 it is +infinity.", "quantifier": "every n", "why_tests_cant": "The infinite tail n >= 171 is unbounded; the error bound compares a float with an exact integer.", "anchors": ["src/utils.rs: factorial"]}
{"id": "C09", "title": "factorial is monotone", "statement": "m <= n implies factorial(m) <= factorial(n).", "quantifier": "every pair of usize m <= n (up to 2^64 - 16)", "why_tests_cant": "Block splitting changes the association of the product with n, so monotonicity of the rounded result is not evident and ranges over unboundedly many pairs.", "anchors": ["src/utils.rs: factorial"]}
{"id": "C10", "title": "gamma: poles, infinities and NaN", "statement": "gamma(z) is NaN exactly when z is NaN, -infinity, or a negative integer; gamma(+0.0) = +inf, gamma(-0.0) = -inf; gamma(z) = +inf for every z above 171.6243769563027, including +infinity.", "quantifier": "every f64 z", "why_tests_cant": "The negative integers in f64 run down to -1.8e308 and must all be recognised; \"exactly when\" quantifies over all other inputs too.", "anchors": ["src/gamma.rs: gamma"]}
{"id": "C11", "title": "gamma at positive integers is the factorial", "statement": "For every integer 1 <= n <= 171, gamma(n as f64) = factorial(n - 1) bit for bit, hence exactly (n-1)! for n <= 23.", "quantifier": "all integers in range, both build profiles", "why_tests_cant": "Ties two public functions together for every argument in range.", "anchors": ["src/gamma.rs: gamma", "src/utils.rs: factorial"]}
{"id": "C12", "title": "gamma terminates on every input", "statement": "For every f64 z each loop of gamma runs at most 280 times, and gamma never panics.", "quantifier": "every f64 z, both build profiles", "why_tests_cant": "The loops have no iteration cap; a very large negative argument could spin forever. Only an argument over all inputs shows it cannot.", "anchors": ["src/gamma.rs: gamma"]}
{"id": "C13", "title": "gamma has the right sign", "statement": "For every z > 0 gamma(z) is positive (never zero, never NaN). For every negative non-integer z, gamma(z) is either zero (underflow) or has sign (-1)^k where k is the number of integers in (z, 0], the sign of the true Gamma function.", "quantifier": "every f64 z that is not a pole", "why_tests_cant": "Requires a bound on a rounded degree-11 polynomial over an interval and parity of the loop count for all inputs.", "anchors": ["src/gamma.rs: gamma"]}
{"id": "C14", "title": "gamma satisfies the functional equation up to rounding", "statement": "As an algorithm over the reals, gamma(z + 1) = z * gamma(z) for every non-integer z with z + 1 <= 171.6243769563027 other than 1.5, 2.5 and 3.5 (where the two sides use different polynomials). In f64, for every non-integer z > 3.5 with z + 1 <= 171.6243769563027 and z + 1 exactly representable, if gamma(z + 1) is finite then so is gamma(z), and gamma(z + 1) and z * gamma(z) agree to relative error 2^-43.", "quantifier": "every z in the range", "why_tests_cant": "An identity between two evaluations over a continuum of inputs.", "anchors": ["src/gamma.rs: gamma"]}
{"id": "C15", "title": "gammp and gammq accept exactly a > 0, x >= 0", "statement": "gammp(a, x) panics if and only if not (x >= 0 and a > 0); the same for gammq. In particular NaN in either argument panics, and no other input panics or fails to terminate.", "quantifier": "every pair of f64 (a, x)", "why_tests_cant": "Needs all inputs, including infinities, to be free of any other panic and the iterations to terminate.", "anchors": ["src/gamma.rs: gammp", "src/gamma.rs: gammq", "src/gamma.rs: gser", "src/gamma.rs: gcf", "src/gamma.rs: gammpapprox"]}
{"id": "C16", "title": "gammp and gammq saturate correctly at both ends", "statement": "For a > 0: gammp(a, 0) = 0 and gammq(a, 0) = 1; for 0 <= x < a * EPSILON the same; for x above the rounded value of a + 20 (sqrt(a) + 1), gammp = 1 and gammq = 0.", "quantifier": "every a > 0 and x in the stated ranges", "why_tests_cant": "Unbounded ranges of both parameters.", "anchors": ["src/gamma.rs: gammp", "src/gamma.rs: gammq"]}
{"id": "C17", "title": "gammp and gammq are complementary", "statement": "Whenever gammp(a, x) and gammq(a, x) both return numbers in [0, 1], |gammp(a, x) + gammq(a, x) - 1| <= 2^-54 as real numbers.", "quantifier": "every a > 0, x >= 0", "why_tests_cant": "The two functions take different code paths; the claim quantifies over a two-dimensional continuum and any libm.", "anchors": ["src/gamma.rs: gammp", "src/gamma.rs: gammq"]}
{"id": "C18", "title": "gammp never returns NaN for finite valid arguments", "statement": "For every finite a > 0 and finite x >= 0, gammp(a, x) and gammq(a, x) are not NaN and lie in [0, 1].", "quantifier": "every finite a > 0, x >= 0", "why_tests_cant": "The NaN region is a wedge of the parameter plane (a >= 101, 0.2 a <= x <= a - 1) that the test-suite (a <= 5) never enters.", "anchors": ["src/gamma.rs: gammp", "src/gamma.rs: gammq", "src/gamma.rs: gammpapprox"]}
{"id": "C19", "title": "invgammp at the ends of the probability range", "statement": "For a > 0: invgammp(p, a) = 0 for every p <= 0 and max(100, a + 100 sqrt(a)) for every p >= 1 (NaN excluded); for a <= 0 or a NaN it panics whatever p is.", "quantifier": "every pair of f64 (p, a)", "why_tests_cant": "Unbounded ranges.", "anchors": ["src/gamma.rs: invgammp"]}
{"id": "C20", "title": "invgammp never panics for valid arguments", "statement": "For every a > 0 and 0 < p < 1, invgammp(p, a) returns normally (its documentation only lists a <= 0).", "quantifier": "every a > 0 and p in (0, 1)", "why_tests_cant": "The failing region needs a > 100 and p below one half; the iteration feeds a NaN back into gammp.", "anchors": ["src/gamma.rs: invgammp", "src/gamma.rs: gammp"]}
{"id": "C21", "title": "invgammp of NaN panics for every shape parameter", "statement": "For every a > 0, invgammp(NaN, a) panics rather than returning NaN.", "quantifier": "every a > 0 (and every NaN payload)", "why_tests_cant": "Quantifies over all a and all libm behaviours.", "anchors": ["src/gamma.rs: invgammp"]}
{"id": "C22", "title": "beta: domain and symmetry", "statement": "beta(z, w) panics if and only if not (z > 0 and w > 0). When it returns, beta(z, w) and beta(w, z) have identical bits or are both NaN.", "quantifier": "every pair of f64", "why_tests_cant": "A bit-exact symmetry over 2^128 pairs, for any libm.", "anchors": ["src/beta.rs: beta", "src/gamma.rs: ln_gamma"]}
{"id": "C23", "title": "beta is never negative", "statement": "If the platform exp never returns a negative number, beta(z, w) >= 0 or NaN for all z, w > 0.", "quantifier": "every pair of positive f64", "why_tests_cant": "All inputs.", "anchors": ["src/beta.rs: beta"]}
{"id": "C24", "title": "betai: domain and end points", "statement": "betai(a, b, x) panics if and only if not (a > 0, b > 0 and 0 <= x <= 1); betai(a, b, 0) = 0 and betai(a, b, 1) = 1, with the bits of x (so -0.0 is returned for -0.0).", "quantifier": "every triple of f64", "why_tests_cant": "2^192 triples; absence of other panics and termination for all of them.", "anchors": ["src/beta.rs: betai", "src/beta.rs: betacf", "src/beta.rs: betaiapprox"]}
{"id": "C25", "title": "betai is symmetric under swapping parameters", "statement": "In exact arithmetic, when both calls take the continued-fraction path (not both parameters above 3000) and x lies below the switch point (a+1)/(a+2b) if and only if 1 - x lies above the switch point (b+1)/(b+2a), betai(a, b, x) and betai(b, a, 1 - x) both return and sum to 1. (In f64 the two prefactors are associated differently, so this is not bit-exact.)", "quantifier": "every real a, b > 0 not both above 3000, and x in (0,1) as stated", "why_tests_cant": "A relation between two evaluations over a three-dimensional continuum.", "anchors": ["src/beta.rs: betai"]}
{"id": "C26", "title": "betai is a cumulative distribution for large parameters", "statement": "For a, b > 3000, betai(a, b, x) is close to the regularised incomplete beta function; in particular betai(a, a, x) is near 1 for x well above 1/2.", "quantifier": "every a, b > 3000 and x in (0, 1)", "why_tests_cant": "The quadrature branch is only entered above 3000, beyond every test; its error is total (the result is zero).", "anchors": ["src/beta.rs: betaiapprox", "src/beta.rs: betai"]}
{"id": "C27", "title": "invbetai at the ends of the probability range", "statement": "For every a, b (valid or not): invbetai(p, a, b) = 0 for p <= 0 and 1 for p >= 1.", "quantifier": "every f64 triple with p <= 0 or p >= 1", "why_tests_cant": "Unbounded ranges.", "anchors": ["src/beta.rs: invbetai"]}
{"id": "C28", "title": "erf and erfc panic exactly on NaN", "statement": "erf(x) and erfc(x) return normally for every x that is not NaN (infinities included) and panic for every NaN (their documentation lists no panic).", "quantifier": "every f64 x", "why_tests_cant": "All inputs; the NaN panic is an undocumented behaviour that ordinary tests do not look for.", "anchors": ["src/error.rs: erf", "src/error.rs: erfc", "src/error.rs: erfccheb"]}
{"id": "C29", "title": "erf is an odd function, exactly", "statement": "erf(-x) = -erf(x) bit for bit for every nonzero x whose result is not NaN and not a zero; if the result is a zero both are +0.0.", "quantifier": "every f64 x, any libm", "why_tests_cant": "Bit-exact symmetry over all inputs and platforms.", "anchors": ["src/error.rs: erf"]}
{"id": "C30", "title": "erfc reflection and complement", "statement": "For every x > 0: erfc(-x) = fl(2 - erfc(x)); erf(x) = fl(1 - erfc(x)); erf(-x) = fl(erfc(x) - 1).", "quantifier": "every f64 x > 0, any libm", "why_tests_cant": "All inputs and platforms.", "anchors": ["src/error.rs: erf", "src/error.rs: erfc"]}
{"id": "C31", "title": "erfc is nonnegative on the positive axis and erf is at most 1", "statement": "If the platform exp never returns a negative number then for every x that is not NaN: erfc(x) >= 0 for x >= 0, erfc(x) <= 2 for x < 0, erf(x) <= 1 for x >= 0 and erf(x) >= -1 for x < 0 (or the result is NaN).", "quantifier": "every f64 x", "why_tests_cant": "All inputs.", "anchors": ["src/error.rs: erf", "src/error.rs: erfc"]}
{"id": "C32", "title": "inverfc saturates and is antisymmetric", "statement": "inverfc(p) = -100 for p >= 2, 100 for p <= 0. For every p in (1, 2) such that 2 - p is below 1: inverfc(p) is the negation, bit for bit, of inverfc(2 - p) (or both are NaN, or both panic). inverf(p) = inverfc(fl(1 - p)).", "quantifier": "every f64 p, any libm", "why_tests_cant": "Bit-exact antisymmetry over a continuum.", "anchors": ["src/error.rs: inverfc", "src/error.rs: inverf"]}
{"id": "C33", "title": "inverfc of NaN panics", "statement": "inverfc(NaN) and inverf(NaN) panic for every NaN.", "quantifier": "every NaN bit pattern", "why_tests_cant": "All payloads and libms.", "anchors": ["src/error.rs: inverfc", "src/error.rs: inverf"]}
{"id": "C34", "title": "erfcx never panics", "statement": "erfcx(x) returns normally for every f64 x: the table index computed from the exponent and mantissa of x is in bounds on the whole interval [1/8, 12].", "quantifier": "every f64 x", "why_tests_cant": "An out-of-bounds index at one boundary value of about 10^17 inputs would be a crash; tests sample a few.", "anchors": ["src/error.rs: erfcx", "src/error.rs: cheb_interpolant"]}
{"id": "C35", "title": "erfcx is positive, at most 1 on the right, at least 1 on the left", "statement": "0 < erfcx(x) <= 1 for every finite x >= 0, and erfcx(x) >= 1 for every x in (-0.125, 0], on any platform; if the platform's exp is at least 1 on nonnegative arguments, erfcx(x) >= 1 for every x <= 0; erfcx(x) is +infinity for every x below -26.7; erfcx(NaN) is NaN.", "quantifier": "every f64 x in the stated ranges", "why_tests_cant": "A lower bound on 448 rounded polynomials over a continuum.", "anchors": ["src/error.rs: erfcx", "src/error.rs: cheb_interpolant"]}
{"id": "C36", "title": "erfcx is bounded by its asymptote", "statement": "For every x > 12, erfcx(x) is nonnegative, positive if x is finite, and at most fl(INV_SQRT_PI / x) (1 + 2^-50).", "quantifier": "every f64 x > 12, including +infinity", "why_tests_cant": "Continuum of inputs up to 1.8e308.", "anchors": ["src/error.rs: erfcx"]}
{"id": "C37", "title": "dawson is an odd function, exactly", "statement": "dawson(-x) = -dawson(x) bit for bit for every x for which the result is not NaN, and one panics if and only if the other does.", "quantifier": "every f64 x, any libm", "why_tests_cant": "Bit-exact symmetry over all inputs.", "anchors": ["src/dawson.rs: dawson"]}
{"id": "C38", "title": "dawson is accurate for |x| < 0.2", "statement": "For every |x| < 0.2, dawson(x) differs from Dawson's integral D(x) (the solution of D' = 1 - 2 x D, D(0) = 0) by at most 5e-8 |x| + 2^-1075 (the documented accuracy is 2e-7).", "quantifier": "every f64 x with |x| < 0.2", "why_tests_cant": "A comparison with a transcendental function over a continuum, including rounding errors.", "anchors": ["src/dawson.rs: dawson"]}
{"id": "C39", "title": "dawson is positive for positive arguments", "statement": "For every x > 0, Dawson's integral is positive; so should dawson(x) be.", "quantifier": "every x > 0", "why_tests_cant": "The only test is dawson(0.14); the branch |x| >= 0.2 advances its terms before using them and is wrong (negative on [0.41, 1]).", "anchors": ["src/dawson.rs: dawson"]}
{"id": "C40", "title": "dawson never panics", "statement": "dawson(x) returns normally for every finite x in every build profile.", "quantifier": "every finite f64 x", "why_tests_cant": "Fails only for |x| above 7.3e18 in builds with overflow checks.", "anchors": ["src/dawson.rs: dawson"]}
{"id": "C41", "title": "faddeeva never panics without overflow checks", "statement": "In a build without overflow checks faddeeva(re, im) returns normally for all re and im: every tile reached by the Taylor branch is valid and every coefficient index is in bounds. With overflow checks it panics only when dawson does.", "quantifier": "every pair of f64", "why_tests_cant": "2^128 inputs select one of 2500 tiles, 1000 of which hold an invalid marker; only a proof about the region shows they are unreachable.", "anchors": ["src/faddeeva.rs: faddeeva", "src/faddeeva.rs: TILES", "src/faddeeva.rs: TAYLOR_COEFFS"]}
{"id": "C42", "title": "faddeeva on the axes", "statement": "For |x| >= 2^-1000: faddeeva(x, 0) = (exp(-x^2) (0 when |x| > 27), 2 dawson(x) * INV_SQRT_PI), bit for bit; for |y| >= 2^-1000: faddeeva(0, y) = (erfcx(y), 0), bit for bit; faddeeva(0, 0) = (1, 0). Both signs of zero and infinite arguments are included.", "quantifier": "every f64 on either axis", "why_tests_cant": "All inputs of two lines; ties four public functions together.", "anchors": ["src/faddeeva.rs: faddeeva"]}
{"id": "C43", "title": "faddeeva has the reflection symmetry w(-conj z) = conj w(z)", "statement": "faddeeva(-x, y) = (re, -im) where (re, im) = faddeeva(x, y), bit for bit, whenever the results are not NaN, for every y >= 0 (for y < 0, provided the platform complex exp commutes with conjugation).", "quantifier": "every pair of f64 with the stated restriction", "why_tests_cant": "Bit-exact symmetry across six code branches.", "anchors": ["src/faddeeva.rs: faddeeva"]}
{"id": "C44", "title": "faddeeva propagates NaN", "statement": "If re or im is NaN, faddeeva(re, im) returns normally and both components are NaN.", "quantifier": "every pair of f64 with a NaN", "why_tests_cant": "All payloads and all values of the other coordinate.", "anchors": ["src/faddeeva.rs: faddeeva"]}
{"id": "C45", "title": "Jn has the parity of its order, exactly", "statement": "Jn(n, -x) = (-1)^n Jn(n, x) bit for bit up to NaN and the sign of zero, for every n and every x that is not NaN; a panic (integer overflow, enormous n) is the same for both.", "quantifier": "every u32 n and every f64 x other than NaN, any libm", "why_tests_cant": "Unbounded order, bit-exact relation.", "anchors": ["src/bessel.rs: Jn", "src/bessel.rs: j0", "src/bessel.rs: j1"]}
{"id": "C46", "title": "In has the parity of its order", "statement": "In(n, -x) = (-1)^n In(n, x), for every n and x.", "quantifier": "every u32 n and f64 x", "why_tests_cant": "It fails only for n = 1 and x <= -15 where the code takes exp(x) instead of exp(|x|).", "anchors": ["src/bessel.rs: In", "src/bessel.rs: i1"]}
{"id": "C47", "title": "Yn and Kn satisfy their three-term recurrences bit for bit", "statement": "For every n >= 1 and every x: Yn(n+1, x) = fl(fl(fl(n * fl(2/x)) * Yn(n, x)) - Yn(n-1, x)), and Kn likewise with +.", "quantifier": "every u32 n >= 1, every f64 x, any libm", "why_tests_cant": "Unbounded order n; exact equality of floats.", "anchors": ["src/bessel.rs: Yn", "src/bessel.rs: Kn"]}
{"id": "C48", "title": "Kn is positive and increasing in the order", "statement": "For finite x > 0: if Kn(0, x) > 0 and Kn(1, x) > 0, then for all n, Kn(n, x) > 0, Kn(n, x) is not NaN, and Kn(n+2, x) >= Kn(n, x). For x >= 2^-900 the same with >= in place of > (starting values that underflowed).", "quantifier": "every u32 n, every finite x > 0", "why_tests_cant": "Unbounded order; overflow must not produce NaN.", "anchors": ["src/bessel.rs: Kn"]}
{"id": "C49", "title": "Jn and In vanish at zero for orders above one", "statement": "For every n >= 2, Jn(n, x) = In(n, x) = 0 for every x whose rounded square is at most 8 * MIN_POSITIVE, in particular for x = +-0.0.", "quantifier": "every u32 n >= 2", "why_tests_cant": "Unbounded order.", "anchors": ["src/bessel.rs: Jn", "src/bessel.rs: In"]}
{"id": "C50", "title": "Jn satisfies the upward recurrence beyond its order", "statement": "For every n >= 1 and x with |x| > n + 1: Jn(n+1, x) = fl(fl(fl(n * fl(2/|x|)) * Jn(n, |x|)) - Jn(n-1, |x|)) with the sign of the order's parity.", "quantifier": "every u32 n and x with |x| > n + 1", "why_tests_cant": "Unbounded order, exact equality.", "anchors": ["src/bessel.rs: Jn"]}
{"id": "C51", "title": "besseljy and besselik reject bad arguments and never accept NaN", "statement": "besseljy(nu, x) and besselik(nu, x) panic whenever x <= 0, nu < 0, or either is NaN; the panic message distinguishes bad arguments from non-convergence.", "quantifier": "every pair of f64", "why_tests_cant": "NaN is not caught by the argument test; it is caught only because the continued fraction fails to converge in 10000 steps, on every libm.", "anchors": ["src/bessel.rs: besseljy", "src/bessel.rs: besselik"]}
{"id": "C52", "title": "besseljy returns a Wronskian pair", "statement": "In exact arithmetic, whenever besseljy returns (J, Y, J', Y') with Y and Y' not both zero and the value of J carried down to the base order nonzero, J Y' - J' Y = 2 / (pi x), pi being the decimal constant f64::consts::PI is written with.", "quantifier": "every real order and argument for which the call returns", "why_tests_cant": "An identity over a continuum and an unbounded number of recurrence steps.", "anchors": ["src/bessel.rs: besseljy"]}
{"id": "C53", "title": "besselik returns a Wronskian pair", "statement": "In exact arithmetic, whenever besselik returns (I, K, I', K') with I nonzero, I K' - I' K = -1 / x.", "quantifier": "every real order and argument for which the call returns", "why_tests_cant": "An identity over a continuum and an unbounded number of recurrence steps.", "anchors": ["src/bessel.rs: besselik"]}
{"id": "C54", "title": "Jnu_Ynu and Inu_Knu are the value parts of besseljy and besselik", "statement": "Jnu_Ynu(nu, x) returns the first two components of besseljy(nu, x), panics exactly when it panics, with the same message; Inu_Knu likewise for besselik.", "quantifier": "every pair of f64", "why_tests_cant": "All inputs including the panicking ones.", "anchors": ["src/bessel.rs: Jnu_Ynu", "src/bessel.rs: Inu_Knu"]}
{"id": "C55", "title": "Jn and In panic or misbehave only for astronomically large orders", "statement": "With overflow checks, Jn(n, x) does not panic for any n <= 2^31 and any x; In(n, x) does not panic for any n <= 2^30.", "quantifier": "every n in the stated range, every x", "why_tests_cant": "The arithmetic that can overflow depends on a rounded square root of n.", "anchors": ["src/bessel.rs: Jn", "src/bessel.rs: In"]}
{"id": "C56", "title": "A cached call always returns what the uncached function returns", "statement": "After any history of operations on any of the four caches, calling the cached function with (nu, x) gives exactly the outcome of the uncached function on (nu, x): the same value bits, or the same panic.", "quantifier": "every finite history of public cache operations and every (nu, x)", "why_tests_cant": "Histories are unbounded; a stale or mis-keyed entry would appear only after a particular sequence.", "anchors": ["src/bessel.rs: CachedBesselJY", "src/bessel.rs: CachedBesselIK", "src/bessel.rs: CachedJnuYnu", "src/bessel.rs: CachedInuKnu"]}
{"id": "C57", "title": "A panicking cached call leaves the cache unchanged", "statement": "If the uncached function panics on (nu, x) and (nu, x) is not stored, the cached call panics with the same message and the cache behaves afterwards as if the call had not been made.", "quantifier": "every history and every panicking argument pair", "why_tests_cant": "Panic safety concerns every point of every history.", "anchors": ["src/bessel.rs: CachedBesselJY::besseljy", "src/bessel.rs: CachedBesselIK::besselik", "src/bessel.rs: CachedJnuYnu::Jnu_Ynu", "src/bessel.rs: CachedInuKnu::Inu_Knu"]}
{"id": "C58", "title": "contains and get answer for the exact bits of the arguments", "statement": "contains(nu, x) is true iff get(nu, x) is Some, iff the last operation relevant to exactly these two bit patterns was a successful call (not a clear or a retain that dropped it). 0.0 and -0.0 are different keys; a NaN key is found again.", "quantifier": "every history and every (nu, x)", "why_tests_cant": "Refinement of an arbitrary operation sequence to a map.", "anchors": ["src/bessel.rs: contains", "src/bessel.rs: get", "src/bessel.rs: clear", "src/bessel.rs: retain"]}
{"id": "C59", "title": "len counts distinct stored argument pairs", "statement": "len() equals the number of distinct (nu, x) bit-pattern pairs p for which contains(p) is true; is_empty() iff len() = 0; read-only operations, shrink_to_fit and reserve change nothing observable.", "quantifier": "every history", "why_tests_cant": "Unbounded histories.", "anchors": ["src/bessel.rs: len", "src/bessel.rs: is_empty", "src/bessel.rs: shrink_to_fit", "src/bessel.rs: reserve"]}
{"id": "C60", "title": "Cached values do not depend on the history of other keys", "statement": "Two caches with arbitrary different histories agree on every pair both contain.", "quantifier": "every two histories", "why_tests_cant": "Pairs of unbounded histories.", "anchors": ["src/bessel.rs: CachedBesselJY", "src/bessel.rs: CachedBesselIK", "src/bessel.rs: CachedJnuYnu", "src/bessel.rs: CachedInuKnu"]}
{"id": "C61", "title": "Cache equality compares the stored keys and is false when a stored value has a NaN", "statement": "Two caches of the same type compare equal with == if and only if they contain exactly the same argument pairs and no stored value of either has a NaN component.", "quantifier": "every two histories", "why_tests_cant": "Pairs of unbounded histories.", "anchors": ["src/bessel.rs: derive(PartialEq) on CachedBesselJY, CachedBesselIK, CachedJnuYnu, CachedInuKnu"]}
{"id": "C62", "title": "The only panic of ldexp is the overflow of its exponent sum", "statement": "utils::ldexp(x, e) panics if and only if overflow checks are on, x is not a zero, and the biased exponent of x plus e exceeds i32::MAX.", "quantifier": "every f64 x (infinities and NaN included) and every i32 e", "why_tests_cant": "2^96 argument pairs; the panic needs an extreme exponent and a debug build.", "anchors": ["src/utils.rs: ldexp"]}
{"id": "C63", "title": "ldexp overflows to infinity", "statement": "For every normal x and i32 e with |x * 2^e| >= 2^1024, utils::ldexp(x, e) is the infinity with the sign of x.", "quantifier": "every normal f64 and i32 pair that overflows (exponent sum within i32)", "why_tests_cant": "The failing inputs are one binade, reached by one exponent for each x.", "anchors": ["src/utils.rs: ldexp"]}
{"id": "C64", "title": "ldexp keeps infinities", "statement": "utils::ldexp(+-inf, e) = +-inf for every i32 e.", "quantifier": "every i32 exponent", "why_tests_cant": "A claim about every exponent.", "anchors": ["src/utils.rs: ldexp"]}
{"id": "C65", "title": "Jn is bounded by one", "statement": "|Jn(n, x)| <= 1 for every n and every finite x (as |J_n(x)| <= 1).", "quantifier": "every u32 n, every finite f64 x", "why_tests_cant": "The failing inputs need an order for which the recurrence rescales twice; the crate tests only small orders.", "anchors": ["src/bessel.rs: Jn", "src/utils.rs: ldexp"]}
{"id": "C66", "title": "In is bounded by I_0", "statement": "|In(n, x)| <= In(0, x) for every n and every finite x (as |I_n(x)| <= I_0(x)).", "quantifier": "every u32 n, every finite f64 x", "why_tests_cant": "The failing inputs need an order for which the recurrence rescales twice.", "anchors": ["src/bessel.rs: In", "src/utils.rs: ldexp"]}
{"id": "C67", "title": "Yn, Kn and In of NaN are NaN", "statement": "For every n and every NaN x, Yn(n, x) and Kn(n, x) are NaN, and In(n, x) is NaN if it does not panic (integer overflow, enormous n).", "quantifier": "every u32 n, every NaN bit pattern", "why_tests_cant": "Unbounded order.", "anchors": ["src/bessel.rs: Yn", "src/bessel.rs: Kn", "src/bessel.rs: In"]}
{"id": "C68", "title": "Jn of NaN is NaN", "statement": "For every n and every NaN x, Jn(n, x) is NaN.", "quantifier": "every u32 n, every NaN bit pattern", "why_tests_cant": "Unbounded order; NaN is turned into a number by a bit-level rescaling.", "anchors": ["src/bessel.rs: Jn", "src/utils.rs: frexp", "src/utils.rs: ldexp"]}
{"id": "C69", "title": "factorial near usize::MAX", "statement": "For 2^64 - 16 < n < 2^64 a build with overflow checks panics with an integer overflow; a build without overflow checks does not terminate for n >= 2^64 - 3 (the loop counter wraps past n).", "quantifier": "every usize n above 2^64 - 16, both build profiles", "why_tests_cant": "A run needs about 3e17 iterations before the failure shows.", "anchors": ["src/utils.rs: factorial", "src/utils.rs: rising_factorial"]}
{"id": "C70", "title": "erfcx is accurate", "statement": "For every finite x > -1/8, erfcx(x) is within relative error 2^-46 of exp(x^2) erfc(x) (plus half the least subnormal, which only matters for astronomically large x). For -26.6 <= x <= -1/8 the relative error is at most 2^-43, provided the platform's exp has relative error at most 2^-50. Here erfc is any function with derivative -(2/sqrt pi) exp(-x^2) and limit 0 at +infinity.", "quantifier": "every finite f64 x >= -26.6, both readings of mul_add", "why_tests_cant": "Accuracy over a continuum: a table of 4,170 coefficients, three asymptotic expansions and a Maclaurin series, of which tests sample a few dozen points.", "anchors": ["src/error.rs: erfcx", "src/error.rs: cheb_interpolant"]}
{"id": "C71", "title": "erfc is accurate", "statement": "For -26 <= x <= 26, erfc(x) is within relative error 2^-41 + x^2 2^-51 of the complementary error function, provided the platform's exp has relative error at most 2^-50. The tail is not cut off: the bound is relative, down to erfc(26) = 6e-296.", "quantifier": "every f64 x in [-26, 26]; every platform with such an exp", "why_tests_cant": "The documented accuracy is over a continuum; the Chebyshev expansion has 28 coefficients in a transformed variable and a wrong digit in one of them, or a lost term, shows only between sample points.", "anchors": ["src/error.rs: erfc", "src/error.rs: erfccheb"]}
{"id": "C72", "title": "erf is accurate in absolute terms", "statement": "For -26 <= x <= 26, erf(x) is within absolute error 2^-41 of the error function (the function with derivative (2/sqrt pi) exp(-x^2) that vanishes at 0), under the same assumption on exp.", "quantifier": "every f64 x in [-26, 26]; every platform with such an exp", "why_tests_cant": "A continuum of inputs, compared with a function that has no closed form.", "anchors": ["src/error.rs: erf", "src/error.rs: erfccheb"]}
{"id": "C73", "title": "erf is accurate in relative terms near zero", "statement": "For small nonzero x, erf(x) is close to 2x/sqrt pi relative to its size.", "quantifier": "every f64 x with 0 < |x| <= 2^-55", "why_tests_cant": "Absolute tolerances in tests hide it: 1 - erfccheb(x) cancels, so erf(x) is either 0 or at least 2^-53 whatever x is.", "anchors": ["src/error.rs: erf"]}
{"id": "C74", "title": "gamma is accurate", "statement": "For every f64 z in [-165, 171] that is not zero or a negative integer (and is at least 2^-1000 in size), gamma(z) returns within relative error 2^-45 of the gamma function, on either side of every pole. The gamma function is specified by Bohr and Mollerup: positive and log-convex on the positive axis, 1 at 1, and G(z+1) = z G(z) everywhere off the poles; such a function is shown to exist.", "quantifier": "every f64 z in [-165, 171] off the poles, every platform, both readings of mul_add", "why_tests_cant": "Tests compare a few dozen points with tabulated values; a wrong digit in one of 25 coefficients, a wrong centre or a step too many in the shift loops can hide between them, and next to the poles relative accuracy depends on the shifts being exact.", "anchors": ["src/gamma.rs: gamma", "src/utils.rs: polynomial", "src/utils.rs: factorial"]}
{"id": "C75", "title": "ln_gamma is accurate against the logarithm of the gamma function", "statement": "For every finite f64 x between 2^-40 and 2^900, ln_gamma(x) is finite and differs from ln of the Bohr-Mollerup gamma function at x by at most 5e-10 + 2^-51/x + 2^-48 (x+5) ln(x+5), whatever the platform's ln does within a relative error of 2^-50.", "quantifier": "all finite f64 x in [2^-40, 2^900], all platforms whose ln has relative error at most 2^-50", "why_tests_cant": "the claim compares the result with a real-valued function on every double; the Lanczos approximation error and every rounding have to be bounded uniformly, including for arguments whose sum cancels", "anchors": ["src/gamma.rs: ln_gamma", "src/lib.rs"]}
{"id": "C76", "title": "ln_gamma returns a finite number for every positive argument", "statement": "For every positive finite f64 x, ln_gamma(x) is a finite number close to ln of gamma at x (which is at most -ln x <= 745 for x <= 1).", "quantifier": "all positive finite f64 x", "why_tests_cant": "the failing inputs are the positive doubles up to 2^-54; a test grid over ordinary magnitudes never meets them, and a proof has to handle the rounding of x - 1 for every such x", "anchors": ["src/gamma.rs: ln_gamma"]}
{"id": "C77", "title": "beta is accurate against the quotient of gamma functions", "statement": "For all finite f64 z and w between 2^-16 and 1000 whose beta function value B = gamma(z) gamma(w) / gamma(z+w) is at least exp(-690), beta(z, w) is finite and within a relative error of 2e-9 of B. For z, w <= 100 the condition on B holds by itself.", "quantifier": "all pairs of finite f64 in [2^-16, 1000], all platforms whose ln and exp have relative error at most 2^-50", "why_tests_cant": "a relative error bound on every pair of doubles against a real function; the three logarithms cancel, so the bound has to be carried through the cancellation", "anchors": ["src/beta.rs: beta", "src/gamma.rs: ln_gamma"]}
{"id": "C78", "title": "beta of positive arguments is never NaN", "statement": "For all positive finite f64 z and w, beta(z, w) is a number (the true value is at most 1/z + 1/w).", "quantifier": "all pairs of positive finite f64", "why_tests_cant": "the failing pairs have both arguments below 2^-55; the documentation and the assertion promise every positive pair", "anchors": ["src/beta.rs: beta", "src/gamma.rs: ln_gamma"]}
{"id": "C79", "title": "gammp is accurate against the regularized lower incomplete gamma function", "statement": "For all positive finite f64 a and x, gammp(a, x) is within 3e-9 of P(a, x), the function with derivative x^(a-1) exp(-x) / gamma(a) in x and limit 0 at x = 0.", "quantifier": "all positive finite f64 a and x, all platforms whose ln and exp have relative error at most 2^-50", "why_tests_cant": "a bound on every pair of doubles against a real function, through a loop whose number of steps depends on the arguments; the pairs where it fails have x < a 2^-52, far from any test grid", "anchors": ["src/gamma.rs: gammp, gser, gcf, ln_gamma"]}
{"id": "C80", "title": "gammq is accurate against the regularized upper incomplete gamma function", "statement": "For all positive finite f64 a and x, gammq(a, x) is within 3e-9 of Q(a, x) = 1 - P(a, x).", "quantifier": "all positive finite f64 a and x, all platforms whose ln and exp have relative error at most 2^-50", "why_tests_cant": "a bound on every pair of doubles against a real function, through a loop whose number of steps depends on the arguments", "anchors": ["src/gamma.rs: gammq, gser, gcf, ln_gamma"]}
{"id": "C81", "title": "I_0 is accurate below 15", "statement": "For every finite f64 x with |x| < 15, In(0, x) returns a finite number within a relative error of 3e-14 of the modified Bessel function I_0(x), the sum of its power series.", "quantifier": "all finite f64 x with |x| < 15, all platforms", "why_tests_cant": "an error bound against an infinite series on every double of the interval; the approximation error of the two tables has to be bounded between any two sample points", "anchors": ["src/bessel.rs: In, i0, poly"]}
{"id": "C82", "title": "I_1 is accurate below 15", "statement": "For every finite f64 x with |x| < 15, In(1, x) returns a finite number within a relative error of 3e-14 (plus 2^-996, for products that underflow) of the modified Bessel function I_1(x).", "quantifier": "all finite f64 x with |x| < 15, all platforms", "why_tests_cant": "an error bound against an infinite series on every double of the interval, down to subnormal arguments", "anchors": ["src/bessel.rs: In, i1, poly"]}
{"id": "C83", "title": "J_0 is accurate below 8", "statement": "For every finite f64 x with |x| < 8, Jn(0, x) returns a finite number within 3e-14 of the Bessel function J_0(x), the sum of its power series.", "quantifier": "all finite f64 x with |x| < 8, all platforms", "why_tests_cant": "an error bound against an alternating infinite series on every double of the interval; near the two zeros the factored form cancels and only a bound on every step settles the error", "anchors": ["src/bessel.rs: Jn, j0, rat"]}
{"id": "C84", "title": "J_1 is accurate below 8", "statement": "For every finite f64 x with |x| < 8, Jn(1, x) returns a finite number within 1e-14 |x| (plus 2^-987, for products that underflow) of the Bessel function J_1(x).", "quantifier": "all finite f64 x with |x| < 8, all platforms", "why_tests_cant": "an error bound proportional to x against an alternating infinite series on every double of the interval, down to subnormal arguments", "anchors": ["src/bessel.rs: Jn, j1, rat"]}
{"id": "C85", "title": "invgammp inverts the regularized incomplete gamma function", "statement": "For every 0 < p < 1 and a > 0 for which the answer is a normal f64, P(a, invgammp(p, a)) is within 1e-6 p of p.", "quantifier": "all f64 p in (0, 1) and a > 0, all platforms with an accurate ln, exp and powf", "why_tests_cant": "an inverse is judged against the function over the whole range of probabilities; tests try moderate ones, where the absolute stopping rule and the shortcut of gammp for tiny x do no harm", "anchors": ["src/gamma.rs: invgammp, gammp"]}
{"id": "C86", "title": "K_n is accurate on (0, 1], for every order", "statement": "For every finite f64 x with 0 < x <= 1 and every order n below 2^32 for which K_n(x) <= 2^1020, Kn(n, x) returns a finite number within a relative error of (42 + n) 1e-15 of the modified Bessel function K_n(x), defined by its ascending series; for n = 0 within 1.2e-14.", "quantifier": "all finite f64 x in (0, 1], all orders n below 2^32, all platforms whose ln has relative error at most 2^-50", "why_tests_cant": "an error bound for every order against an infinite series with a logarithm and Euler's constant: the recurrence makes as many steps as the order, and no table of reference values reaches them all", "anchors": ["src/bessel.rs: Kn, k0, k1, poly"]}
{"id": "C87", "title": "Y_0 is accurate below 8", "statement": "For every finite f64 x with 0 < x < 8, Yn(0, x) returns a finite number within 1e-13 + 3e-14 |ln x| of the Bessel function Y_0(x), defined by its ascending series.", "quantifier": "all finite f64 x in (0, 8), down to subnormal x, all platforms whose ln has relative error at most 2^-50", "why_tests_cant": "an error bound against a series with a logarithm on every double of the interval; the polynomial in the numerator has coefficients of both signs and cancels", "anchors": ["src/bessel.rs: Yn, y0, j0, rat"]}
{"id": "C88", "title": "Y_1 is accurate below 8", "statement": "For every finite f64 x with 2^-1022 <= x < 8, Yn(1, x) returns a finite number within 2e-14 x (1 + |ln x|) + 1e-15 / x of the Bessel function Y_1(x), defined by its ascending series.", "quantifier": "all normal f64 x below 8, all platforms whose ln has relative error at most 2^-50", "why_tests_cant": "an error bound across 300 orders of magnitude against a series with a logarithm and a pole at the origin", "anchors": ["src/bessel.rs: Yn, y1, j1, rat"]}
{"id": "C89", "title": "Y_n is accurate on (0, 1], for every order", "statement": "For every finite f64 x with 0 < x <= 1 and every order 1 <= n < 2^32 for which |Y_n(x)| <= 2^1020, Yn(n, x) returns a finite number within a relative error of 1e-12 + 2 n 1e-15 of the Bessel function Y_n(x), defined by its ascending series.", "quantifier": "all finite f64 x in (0, 1], all orders 1 <= n < 2^32, all platforms whose ln has relative error at most 2^-50", "why_tests_cant": "an error bound for every order: the recurrence subtracts at each of its n steps, and only an induction shows that the subtractions do not amplify the error", "anchors": ["src/bessel.rs: Yn, y0, y1, j0, j1"]}
{"id": "C90", "title": "betai is accurate for moderate parameters", "statement": "For all finite f64 a and b in [2^-16, 1000] and every finite f64 x in (0, 1), betai(a, b, x) returns a number within 1e-6 of the regularized incomplete beta function I_x(a, b), the normalized integral of t^(a-1) (1-t)^(b-1) from 0 to x.", "quantifier": "all finite f64 a and b in [2^-16, 1000], all f64 x strictly between 0 and 1, all platforms whose exp and ln have relative error at most 2^-50", "why_tests_cant": "three real parameters; the continued fraction may stop at its iteration limit on a thin set of arguments which no grid visits", "anchors": ["src/beta.rs: betai, betacf"]}
{"id": "C91", "title": "betai returns a probability", "statement": "For all a, b > 0 and 0 <= x <= 1, the result of betai(a, b, x) is not above 1 and not below 0, up to the rounding error of a few units in the last place.", "quantifier": "all positive f64 a and b, all f64 x in [0, 1]", "why_tests_cant": "all inputs; the failing arguments form scattered sets inside the ranges of a, b and x", "anchors": ["src/beta.rs: betai, betacf"]}
{"id": "C92", "title": "betai is non-decreasing in x", "statement": "For all a, b > 0 and 0 <= x <= y <= 1, betai(a, b, x) is at most betai(a, b, y), up to the rounding error.", "quantifier": "all positive f64 a and b, all pairs x <= y in [0, 1]", "why_tests_cant": "quantifies over pairs of arguments", "anchors": ["src/beta.rs: betai, betacf"]}
{"id": "C93", "title": "Yn is a number for every positive argument", "statement": "For every order n and every finite positive f64 x, Yn(n, x) is not NaN: Y_n is finite and real there, and where it exceeds the range of f64 the result is minus infinity.", "quantifier": "all orders 0 <= n < 2^32, all finite positive f64 x", "why_tests_cant": "all orders and all arguments; the recurrence passes through infinities for large orders", "anchors": ["src/bessel.rs: Yn, y0, y1"]}
{"id": "C94", "title": "In is accurate for every order below 15", "statement": "For every order n >= 2 and every f64 x with 2^-400 <= |x| < 15 whose I_n(x) is at least 2^-900 in magnitude, In(n, x) returns a finite number that differs from I_n(x) by at most a relative (3e-13 + 3e-15 n).", "quantifier": "all orders n >= 2, all f64 x with 2^-400 <= |x| < 15", "why_tests_cant": "all orders; the downward recurrence starts from arbitrary values and its length grows with the order, so neither its truncation nor its rounding error can be sampled", "anchors": ["src/bessel.rs: In, i0", "src/utils.rs: frexp, ldexp"]}
{"id": "C95", "title": "Jn is accurate for every order on [-1, 1]", "statement": "For every order n >= 2 and every f64 x with 2^-400 <= |x| <= 1 whose J_n(x) is at least 2^-900 in magnitude, Jn(n, x) returns a finite number that differs from J_n(x) by at most a relative (5e-13 + 1e-14 n).", "quantifier": "all orders n >= 2, all f64 x with 2^-400 <= |x| <= 1", "why_tests_cant": "all orders; the downward recurrence subtracts, starts from arbitrary values and is normalised by a sum over half of the terms, so cancellation, truncation and rounding cannot be sampled", "anchors": ["src/bessel.rs: Jn", "src/utils.rs: frexp, ldexp"]}
{"id": "C96", "title": "betai is accurate for b <= 1/2 away from x = 1", "statement": "For all f64 a in [1/2, 1000], b in [2^-16, 1/2] and x in [2^-60, 9/10] whose I_x(a, b) is at least 2^-990, betai(a, b, x) returns a finite number that differs from I_x(a, b) by at most a relative 5e-9. With b = 1/2 these are the tail probabilities of Student's t distribution.", "quantifier": "all f64 triples a in [1/2, 1000], b in [2^-16, 1/2], x in [2^-60, 9/10]", "why_tests_cant": "a continuum of three parameters; the number of iterations of the continued fraction depends on them, so neither its truncation nor the growth of its rounding errors can be sampled", "anchors": ["src/beta.rs: betai, betacf", "src/gamma.rs: ln_gamma"]}
{"id": "C97", "title": "Kn is accurate for every order beyond 1", "statement": "For every order n < 2^32 and every f64 x in (1, 690] whose K_n(x) is at most 2^1010, Kn(n, x) returns a finite number that differs from K_n(x) by at most a relative (1.5e-14 + 1e-15 n).", "quantifier": "all orders 0 <= n < 2^32, all f64 x in (1, 690]", "why_tests_cant": "all orders and a continuum of arguments over which K_n falls by three hundred orders of magnitude; the code uses a fitted rational function whose error can only be sampled by a test", "anchors": ["src/bessel.rs: Kn, k0, k1, K0PP, K0QQ, K1PP, K1QQ"]}
{"id": "C98", "title": "In is accurate at orders 0 and 1 beyond 15", "statement": "For every f64 x with 15 <= |x| <= 709, In(0, x) returns a finite number within a relative 4e-14 of I_0(x); for every f64 x in [15, 709], In(1, x) returns a finite number within a relative 6e-14 of I_1(x).", "quantifier": "all f64 x with 15 <= |x| <= 709 (order 0), all f64 x in [15, 709] (order 1)", "why_tests_cant": "a continuum of arguments over which I_0 grows by three hundred orders of magnitude; the code uses a fitted rational function whose error can only be sampled by a test", "anchors": ["src/bessel.rs: In, i0, i1, I0PP, I0QQ, I1PP, I1QQ"]}
{"id": "C99", "title": "In is accurate at every order beyond 15", "statement": "For every order n >= 2 and every f64 x in [15, 709], In(n, x) is within one percent of I_n(x); in particular it does not exceed I_0(x).", "quantifier": "all orders 2 <= n, all f64 x in [15, 709]", "why_tests_cant": "the start of the downward recurrence depends on the order only, so whether it is high enough must be settled for every argument; tests sample small arguments", "anchors": ["src/bessel.rs: In"]}
{"id": "C100", "title": "Jn is accurate at orders 0 and 1 from 8 on", "statement": "For n = 0, 1 and every f64 x with 8 <= |x| <= 2^990, Jn(n, x) returns a finite number that differs from J_n(x) by at most (1.4e-13 + |x| / 2^53) / sqrt |x|; the amplitude of the oscillation is 0.798 / sqrt |x|, and the second term is the rounding of the argument itself.", "quantifier": "orders 0 and 1, all f64 x with 8 <= |x| <= 2^990", "why_tests_cant": "infinitely many oscillations, each with a zero near which the sign and size of the result depend on the phase; fitted tables whose error can only be sampled by a test", "anchors": ["src/bessel.rs: Jn, j0, j1, asp, J0PN, J0PD, J0QN, J0QD, J1PN, J1PD, J1QN, J1QD"]}
{"id": "C101", "title": "Yn is accurate at orders 0 and 1 from 8 on", "statement": "For n = 0, 1 and every f64 x in [8, 2^990], Yn(n, x) returns a finite number that differs from Y_n(x) by at most (1.4e-13 + x / 2^53) / sqrt x.", "quantifier": "orders 0 and 1, all f64 x in [8, 2^990]", "why_tests_cant": "infinitely many oscillations; fitted tables, shared in value with those of J, whose error can only be sampled by a test", "anchors": ["src/bessel.rs: Yn, y0, y1, asp, Y0PN, Y0PD, Y0QN, Y0QD, Y1PN, Y1PD, Y1QN, Y1QD"]}
{"id": "C102", "title": "Jn and Yn keep the phase of large arguments", "statement": "For n = 0, 1 and every f64 x in [8, 2^990], the errors of Jn(n, x) and of Yn(n, x) stay within half of the amplitude sqrt(2 / (pi x)); a relative accuracy of the sine and cosine is enough for this.", "quantifier": "orders 0 and 1, all f64 x in [8, 2^990]", "why_tests_cant": "the phase x - pi/4 is formed in floating point, and no finite set of arguments shows where the shift disappears; near a zero of the error a test would even pass", "anchors": ["src/bessel.rs: Jn, Yn, asp"]}
{"id": "C103", "title": "Jn is accurate at every order below the argument", "statement": "For every order n >= 2 below 2^32 and every f64 x with n < |x|, Jn(n, x) returns a finite number. For 8 <= |x| <= 2^45 it differs from J_n(x) by at most (2.1e-13 + (1.5 |x| + 44 n) / 2^53) / sqrt(|x| - n + 1), for |x| < 8 by at most 6e-13: the upward recurrence does not amplify errors.", "quantifier": "all orders 2 <= n < 2^32, all f64 x with n < |x| <= 2^45", "why_tests_cant": "up to 2^32 steps of a recurrence in an oscillating regime that degenerates at the turning point n = x; whether errors grow cannot be sampled", "anchors": ["src/bessel.rs: Jn, j0, j1"]}
{"id": "C104", "title": "Yn is accurate at every order below the argument", "statement": "For every order n >= 2 below 2^32 and every f64 x > n, Yn(n, x) is finite. For 8 <= x <= 2^45 it differs from Y_n(x) by at most (2.1e-13 + (1.5 x + 44 n) / 2^53) / sqrt(x - n + 1), for x < 8 by at most 2.4e-12.", "quantifier": "all orders 2 <= n < 2^32, all f64 x with n < x <= 2^45", "why_tests_cant": "up to 2^32 steps of a recurrence in an oscillating regime that degenerates at the turning point n = x; whether errors grow cannot be sampled", "anchors": ["src/bessel.rs: Yn, y0, y1"]}
{"id": "C105", "title": "inverfc inverts erfc", "statement": "For every f64 p with 2^-930 <= p < 2, inverfc(p) returns a finite number that differs from the z with erfc(z) = p by at most 2^-37; for p >= 2^-100 by at most 2^-39.", "quantifier": "all f64 p in [2^-930, 2)", "why_tests_cant": "the result comes from a rational first guess and two correction steps that use the library's own erfc; whether both steps suffice over 930 binades of p, with the errors of erfc divided by its vanishing slope, cannot be sampled", "anchors": ["src/error.rs: inverfc, erfc, erfccheb"]}
{"id": "C106", "title": "inverf inverts erf", "statement": "For every f64 p in (-1, 1), inverf(p) returns a finite number close to the z with erf(z) = p, within 2^-37, as its mirror image inverf(-p) does.", "quantifier": "all f64 p in (-1, 1)", "why_tests_cant": "the argument is turned into 1 - p before inversion, and what that subtraction loses depends on the side and the distance to the end point", "anchors": ["src/error.rs: inverf, inverfc"]}
{"id": "C107", "title": "erfc undoes inverfc", "statement": "For every f64 p with 2^-930 <= p < 2, erfc(inverfc(p)) is finite and differs from p by at most 2^-31 p; for p >= 2^-100 by at most 2^-34 p.", "quantifier": "all f64 p in [2^-930, 2)", "why_tests_cant": "a small error in inverfc(p) is magnified by the logarithmic slope of erfc, about 2x; a round trip over 930 binades cannot be sampled", "anchors": ["src/error.rs: erfc, inverfc, erfccheb"]}
{"id": "C108", "title": "inverfc undoes erfc", "statement": "For every f64 x in [-2, 25], inverfc(erfc(x)) is finite and differs from x by at most 2^-30; for x >= 0 by at most 2^-36, for 0 <= x <= 8 by at most 2^-38.", "quantifier": "all f64 x in [-2, 25]", "why_tests_cant": "erfc(x) runs down to 2^-908 and is flat for negative x; whether its error is recoverable there is a statement about every x", "anchors": ["src/error.rs: erfc, inverfc, erfccheb"]}
{"id": "C109", "title": "erf undoes inverf", "statement": "For every f64 p with -1 + 2^-51 <= p < 1, erf(inverf(p)) is finite and differs from p by at most 2^-38.", "quantifier": "all f64 p in [-1 + 2^-51, 1)", "why_tests_cant": "next to -1 inverf itself is inaccurate, and only the flatness of erf there saves the round trip", "anchors": ["src/error.rs: erf, inverf, inverfc"]}
{"id": "C110", "title": "faddeeva has a positive imaginary part on the positive real axis", "statement": "On the real axis the imaginary part of w(x) is 2/sqrt(pi) times Dawson's integral, which is positive for x > 0; so should the second component of faddeeva(x, 0) be, and it should be close to that value.", "quantifier": "all f64 x on the positive real axis", "why_tests_cant": "the fault is inherited from dawson's sampled branch; no test of faddeeva evaluates it on the real axis at moderate x", "anchors": ["src/faddeeva.rs: faddeeva, im_w_of_x", "src/dawson.rs: dawson"]}
{"id": "C111", "title": "faddeeva is accurate on the imaginary axis, and its real part on the real axis", "statement": "For every f64 y >= -26.6 with |y| >= 2^-1000, faddeeva(0, y) is (a, 0) with a within 2^-43 (2^-46 for y > -1/8) relative of exp(y^2) erfc(y). For 2^-1000 <= |x| <= 26 the real part of faddeeva(x, 0) is within 2^-43 relative of exp(-x^2).", "quantifier": "all f64 on the imaginary axis from -26.6 on and on the real axis up to 26", "why_tests_cant": "two lines of the plane, over 2000 binades each, routed through two other public functions", "anchors": ["src/faddeeva.rs: faddeeva", "src/error.rs: erfcx"]}
{"id": "C112", "title": "besseljy and besselik return for every order and every positive argument", "statement": "J, Y, I and K of real order nu >= 0 are defined for every x > 0 (only I overflows), so besseljy(nu, x), besselik(nu, x) and the wrappers Jnu_Ynu and Inu_Knu should return for every finite x > 0, or at least for every x whose results are representable.", "quantifier": "all f64 orders in [0, 1000] and all f64 arguments from 2^32 to 2^800", "why_tests_cant": "the loop gives up only after 10000 iterations of a continued fraction; that no step of it can meet the stopping test is a statement about every step and every large argument", "anchors": ["src/bessel.rs: besseljy, besselik, Jnu_Ynu, Inu_Knu"]}
{"id": "C113", "title": "besseljy and besselik return next to zero", "statement": "For every subnormal x > 0 J, Y, I and K are defined (J_0 is 1 to within rounding and Y_0 a number of a few hundred there), so besseljy and besselik should return; a panic with the text 'x too large' is in any case wrong.", "quantifier": "all f64 orders nu >= 0, infinity included, and all f64 x in (0, 2^-1024]", "why_tests_cant": "tests stay away from subnormal arguments; the panic comes from the overflow of 1/x and holds for every order", "anchors": ["src/bessel.rs: besseljy, besselik"]}
{"id": "C114", "title": "dawson is accurate at large arguments", "statement": "For large x Dawson's integral is close to 1/(2x); dawson(x) should agree with it up to a relative error of about 1e-7, the error of the sampling formula with step 0.4.", "quantifier": "all f64 x from 160 to about 8.6e8", "why_tests_cant": "the error depends on the distance of x from the nearest multiple of 0.8: it is small at the multiples, where a test is likely to look, and large towards the middle between them", "anchors": ["src/dawson.rs: dawson"]}
{"id": "C115", "title": "K of half-integer order equals its closed form", "statement": "For a half-integer order n + 1/2 and x from 2 on, the K returned by besselik and Inu_Knu agrees with sqrt(pi/(2x)) exp(-x) times the polynomial in 1/x with coefficients (n+k)!/(2^k k! (n-k)!), up to a relative error of about (4 + n) 1e-15.", "quantifier": "all n below 2^32 and all f64 x in [2, 690] for which the value does not overflow", "why_tests_cant": "a test samples a few orders; the statement bounds the error of the upward recurrence at every order and argument", "anchors": ["src/bessel.rs: besselik, Inu_Knu"]}
{"id": "C116", "title": "besselik returns the derivative of K at half-integer orders", "statement": "For a half-integer order n + 1/2 and x from 2 on, the fourth component of besselik is the derivative of the closed form of K, up to a relative error of about (12 + 2n) 1e-15; the derivative is negative.", "quantifier": "all n below 2^32 - 1 and all f64 x in [2, 690] for which K of the next order does not overflow", "why_tests_cant": "the derivative is a difference of two terms; that no cancellation spoils it is a statement about every order and argument", "anchors": ["src/bessel.rs: besselik"]}
{"id": "C117", "title": "besselik and Inu_Knu return no NaN for accepted arguments", "statement": "For nu >= 0 and x > 0 the functions I and K are positive; where a result leaves the range of f64 the call should give 0 or infinity, not NaN.", "quantifier": "all orders from 4000 to 2^32 (half-integer orders for K) and all f64 x in [2, 690]", "why_tests_cant": "a test at one large order shows one NaN; the statement is that every large order gives one, unless the call panics", "anchors": ["src/bessel.rs: besselik, Inu_Knu"]}
{"id": "C118", "title": "besseljy and Jnu_Ynu return no NaN for accepted arguments", "statement": "For nu >= 0 and x > 0 the functions J and Y are real; where a result leaves the range of f64 the call should give 0 or minus infinity, not NaN.", "quantifier": "all f64 orders from 4000 to 2^32 and all f64 x in [2, 690]", "why_tests_cant": "a test at one large order shows one NaN; the statement is that every large order gives two, unless the call panics", "anchors": ["src/bessel.rs: besseljy, Jnu_Ynu"]}
