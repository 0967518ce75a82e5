{
 "claims": [
  {
   "property": "C01",
   "status": "proved",
   "theorems": [
    "C01_frexp_normal",
    "C01_frexp_zero"
   ],
   "note": "IEEE reading, every platform."
  },
  {
   "property": "C02",
   "status": "partial",
   "theorems": [
    "C02_frexp_subnormal_too_large",
    "C02_frexp_subnormal_value",
    "C02_refuted"
   ],
   "note": "REFUTED for every subnormal (C02_frexp_subnormal_too_large, C02_refuted): the result stands for |x|/2 + 2^-1023. True on normal numbers by C01."
  },
  {
   "property": "C03",
   "status": "proved",
   "theorems": [
    "C03_ldexp_exact",
    "C03_ldexp_trivial"
   ],
   "note": "IEEE reading."
  },
  {
   "property": "C04",
   "status": "partial",
   "theorems": [
    "C04_ldexp_underflow_infinite",
    "C04_refuted"
   ],
   "note": "REFUTED: for every normal x and every exponent that underflows the result is an infinity."
  },
  {
   "property": "C05",
   "status": "proved",
   "theorems": [
    "C05_ldexp_frexp",
    "C05_minus_zero"
   ],
   "note": "Bit identity for every x but -0.0, NaN payloads included; -0.0 separately."
  },
  {
   "property": "C06",
   "status": "proved",
   "theorems": [
    "C06_sign_bits"
   ],
   "note": "Bit by bit."
  },
  {
   "property": "C07",
   "status": "proved",
   "theorems": [
    "C07_factorial_returns"
   ],
   "note": "The range is exact: see C69 for the arguments above 2^64 - 16."
  },
  {
   "property": "C08",
   "status": "proved",
   "theorems": [
    "C08_factorial_exact",
    "C08_factorial_error",
    "C08_factorial_infinite"
   ],
   "note": ""
  },
  {
   "property": "C09",
   "status": "proved",
   "theorems": [
    "C09_factorial_monotone"
   ],
   "note": ""
  },
  {
   "property": "C10",
   "status": "proved",
   "theorems": [
    "C10_gamma_nan",
    "C10_gamma_zero",
    "C10_gamma_large"
   ],
   "note": ""
  },
  {
   "property": "C11",
   "status": "proved",
   "theorems": [
    "C11_gamma_factorial"
   ],
   "note": "With C08_factorial_exact: exactly (n-1)! for n <= 23."
  },
  {
   "property": "C12",
   "status": "proved",
   "theorems": [
    "C12_gamma_terminates"
   ],
   "note": "280 iterations of each loop suffice; the result does not depend on the bound."
  },
  {
   "property": "C13",
   "status": "proved",
   "theorems": [
    "C13_gamma_positive",
    "C13_gamma_negative"
   ],
   "note": ""
  },
  {
   "property": "C14",
   "status": "proved",
   "theorems": [
    "C14_gamma_step_exact",
    "C14_gamma_step_ieee"
   ],
   "note": "Both readings: exact over the reals, and with rounding above 3.5."
  },
  {
   "property": "C15",
   "status": "proved",
   "theorems": [
    "C15_gammp_domain",
    "C15_gammq_domain"
   ],
   "note": "Both functions, exact domain, no divergence."
  },
  {
   "property": "C16",
   "status": "proved",
   "theorems": [
    "C16_gamm_low",
    "C16_gamm_high"
   ],
   "note": "The upper threshold is stated over the reals with a 2^-50 relative margin for the rounding of the threshold itself."
  },
  {
   "property": "C17",
   "status": "proved",
   "theorems": [
    "C17_gammp_gammq"
   ],
   "note": "Any platform; both results in [0,1]. The bound is 2^-54."
  },
  {
   "property": "C18",
   "status": "partial",
   "theorems": [
    "C18_gamm_nan",
    "C18_refuted",
    "C18_gammp_range_partial",
    "C18_gammq_range_partial",
    "C18_gammp_nonneg_partial"
   ],
   "note": "REFUTED: for 100 <= a <= 2^100 and 0.201 a <= x <= a - 1 both gammp and gammq return NaN (gammpapprox takes ln of the negative length of the integration interval). Proved instead: NaN or in [0,1] wherever the code clamps, and gammp never negative."
  },
  {
   "property": "C19",
   "status": "proved",
   "theorems": [
    "C19_invgammp_zero",
    "C19_invgammp_one",
    "C19_invgammp_bad_a"
   ],
   "note": "The value at p >= 1 is within 2^-50 relative of max(100, a + 100 sqrt a), for a <= 2^1023."
  },
  {
   "property": "C20",
   "status": "partial",
   "theorems": [
    "C20_invgammp_panics",
    "C20_refuted"
   ],
   "note": "REFUTED: panics for every a in [100, 2^80] and p in [0.01, 0.3]: the starting point lies in the NaN wedge of gammp and the second iteration passes NaN to gammp."
  },
  {
   "property": "C21",
   "status": "proved",
   "theorems": [
    "C21_invgammp_nan"
   ],
   "note": ""
  },
  {
   "property": "C22",
   "status": "proved",
   "theorems": [
    "C22_beta_domain",
    "C22_beta_symmetric"
   ],
   "note": ""
  },
  {
   "property": "C23",
   "status": "proved",
   "theorems": [
    "C23_beta_nonneg"
   ],
   "note": "Hypothesis: the platform exp never returns a negative number."
  },
  {
   "property": "C24",
   "status": "proved",
   "theorems": [
    "C24_betai_domain",
    "C24_betai_ends"
   ],
   "note": ""
  },
  {
   "property": "C25",
   "status": "proved",
   "theorems": [
    "C25_betai_swap"
   ],
   "note": "Exact-arithmetic reading, continued-fraction path; the switch-point condition is a hypothesis because the code uses (a+1)/(a+2b)."
  },
  {
   "property": "C26",
   "status": "partial",
   "theorems": [
    "C26_betai_zero",
    "C26_refuted"
   ],
   "note": "REFUTED: for a, b in (3000, 2^40] and x in [2^-30, 1 - 2^-30] the result is a zero or NaN (misplaced parenthesis at beta.rs:147 makes every quadrature term underflow)."
  },
  {
   "property": "C27",
   "status": "proved",
   "theorems": [
    "C27_invbetai_ends"
   ],
   "note": ""
  },
  {
   "property": "C28",
   "status": "proved",
   "theorems": [
    "C28_erf_domain",
    "C28_erfc_domain"
   ],
   "note": "The panic on NaN is not documented in the crate."
  },
  {
   "property": "C29",
   "status": "proved",
   "theorems": [
    "C29_erf_odd"
   ],
   "note": ""
  },
  {
   "property": "C30",
   "status": "proved",
   "theorems": [
    "C30_erf_erfc"
   ],
   "note": ""
  },
  {
   "property": "C31",
   "status": "proved",
   "theorems": [
    "C31_erf_bounds"
   ],
   "note": "Hypothesis: the platform exp never returns a negative number."
  },
  {
   "property": "C32",
   "status": "proved",
   "theorems": [
    "C32_inverfc_ends",
    "C32_two_minus_exact",
    "C32_inverfc_antisymmetric",
    "C32_inverf"
   ],
   "note": "The subtraction 2 - p is shown exact on (1, 2)."
  },
  {
   "property": "C33",
   "status": "proved",
   "theorems": [
    "C33_inverfc_nan",
    "C33_inverf_nan"
   ],
   "note": ""
  },
  {
   "property": "C34",
   "status": "proved",
   "theorems": [
    "C34_erfcx_returns"
   ],
   "note": ""
  },
  {
   "property": "C35",
   "status": "proved",
   "theorems": [
    "C35_erfcx_nonneg",
    "C35_erfcx_small_neg",
    "C35_erfcx_neg",
    "C35_erfcx_overflow",
    "C35_erfcx_nan"
   ],
   "note": "The part for x <= -0.125 assumes the platform exp is at least 1 on nonnegative arguments; the rest holds on any platform."
  },
  {
   "property": "C36",
   "status": "proved",
   "theorems": [
    "C36_erfcx_large"
   ],
   "note": ""
  },
  {
   "property": "C37",
   "status": "proved",
   "theorems": [
    "C37_dawson_odd"
   ],
   "note": "Equal panics included (u64 overflow with overflow checks)."
  },
  {
   "property": "C38",
   "status": "proved",
   "theorems": [
    "C38_dawson_accurate"
   ],
   "note": "Relative bound 5e-8 |x| plus half the smallest subnormal; sharper than the documented 2e-7."
  },
  {
   "property": "C39",
   "status": "partial",
   "theorems": [
    "C39_dawson_wrong_sign",
    "C39_refuted",
    "C39_dawson_positive_partial"
   ],
   "note": "REFUTED: for every x in [0.41, 0.79] the result is negative although the integral exceeds 0.2 (any platform with a plausible exp). Positive for 0 < x < 0.2."
  },
  {
   "property": "C40",
   "status": "partial",
   "theorems": [
    "C40_dawson_panics_iff",
    "C40_refuted",
    "C40_dawson_returns_partial"
   ],
   "note": "REFUTED with overflow checks: panics exactly for |x| >= 7378697629483821056. Without checks it returns for every f64."
  },
  {
   "property": "C41",
   "status": "proved",
   "theorems": [
    "C41_faddeeva_returns",
    "C41_faddeeva_panics_iff",
    "C41_faddeeva_returns_off_axis"
   ],
   "note": "Returns for every pair without overflow checks; with them the panics are characterised exactly."
  },
  {
   "property": "C42",
   "status": "proved",
   "theorems": [
    "C42_faddeeva_real_axis",
    "C42_faddeeva_imaginary_axis",
    "C42_faddeeva_origin"
   ],
   "note": ""
  },
  {
   "property": "C43",
   "status": "partial",
   "theorems": [
    "C43_faddeeva_reflection_exact",
    "C43_faddeeva_reflection_partial",
    "C43_refuted"
   ],
   "note": "REFUTED bit for bit: faddeeva(0.5, 18.5) and faddeeva(-0.5, 18.5) differ in the real part (the products zm4*(x+y)*(x-y) are associated differently). Exact over the real numbers; bit for bit (zeros identified) outside 49 <= |z|^2 <= 4.8e15, near the axes and beyond."
  },
  {
   "property": "C44",
   "status": "proved",
   "theorems": [
    "C44_faddeeva_nan"
   ],
   "note": ""
  },
  {
   "property": "C45",
   "status": "proved",
   "theorems": [
    "C45_Jn_parity"
   ],
   "note": ""
  },
  {
   "property": "C46",
   "status": "partial",
   "theorems": [
    "C46_refuted",
    "C46_i1_too_small",
    "C46_In_parity_partial"
   ],
   "note": "REFUTED at n = 1, x = -16 for every platform whose exp is remotely right there (C46_refuted); true for every n other than 1 and for |x| < 15 (C46_In_parity_partial)."
  },
  {
   "property": "C47",
   "status": "proved",
   "theorems": [
    "C47_Yn_recurrence",
    "C47_Kn_recurrence"
   ],
   "note": "Bit for bit, any libm."
  },
  {
   "property": "C48",
   "status": "proved",
   "theorems": [
    "C48_Kn_positive",
    "C48_Kn_nonneg"
   ],
   "note": ""
  },
  {
   "property": "C49",
   "status": "proved",
   "theorems": [
    "C49_Jn_In_small"
   ],
   "note": ""
  },
  {
   "property": "C50",
   "status": "proved",
   "theorems": [
    "C50_Jn_recurrence"
   ],
   "note": ""
  },
  {
   "property": "C51",
   "status": "proved",
   "theorems": [
    "C51_besseljy_bad",
    "C51_besselik_bad",
    "C51_besseljy_nan",
    "C51_besselik_nan"
   ],
   "note": "Exact panic messages; \"bad arguments\" if and only if x <= 0 or nu < 0."
  },
  {
   "property": "C52",
   "status": "proved",
   "theorems": [
    "C52_besseljy_wronskian"
   ],
   "note": "Exact-arithmetic reading; hypotheses state which intermediate values are nonzero in terms of the results; pi is the decimal constant."
  },
  {
   "property": "C53",
   "status": "proved",
   "theorems": [
    "C53_besselik_wronskian"
   ],
   "note": "Exact-arithmetic reading; hypothesis I <> 0."
  },
  {
   "property": "C54",
   "status": "proved",
   "theorems": [
    "C54_Jnu_Ynu",
    "C54_Inu_Knu"
   ],
   "note": ""
  },
  {
   "property": "C55",
   "status": "proved",
   "theorems": [
    "C55_Jn_returns",
    "C55_In_returns",
    "C55_largest_order_panics"
   ],
   "note": "Also: the largest order does panic with overflow checks."
  },
  {
   "property": "C56",
   "status": "proved",
   "theorems": [
    "C56_cached_call"
   ],
   "note": "All four caches, any history."
  },
  {
   "property": "C57",
   "status": "proved",
   "theorems": [
    "C57_panicking_call"
   ],
   "note": "All four caches, any history, any later operations."
  },
  {
   "property": "C58",
   "status": "proved",
   "theorems": [
    "C58_contains_get"
   ],
   "note": "Against Spec.History.stored, which does not mention keys or maps."
  },
  {
   "property": "C59",
   "status": "proved",
   "theorems": [
    "C59_len",
    "C59_read_only"
   ],
   "note": ""
  },
  {
   "property": "C60",
   "status": "proved",
   "theorems": [
    "C60_agreement"
   ],
   "note": ""
  },
  {
   "property": "C61",
   "status": "proved",
   "theorems": [
    "C61_equality_besseljy_besselik",
    "C61_equality_Jnu_Inu"
   ],
   "note": ""
  },
  {
   "property": "C62",
   "status": "proved",
   "theorems": [
    "C62_ldexp_panics"
   ],
   "note": ""
  },
  {
   "property": "C63",
   "status": "partial",
   "theorems": [
    "C63_ldexp_overflow_nan",
    "C63_refuted",
    "C63_ldexp_overflow_partial"
   ],
   "note": "REFUTED in the first binade of overflow (NaN); true for |x 2^e| = 2^1024 and >= 2^1025 (C63_ldexp_overflow_partial)."
  },
  {
   "property": "C64",
   "status": "partial",
   "theorems": [
    "C64_ldexp_infinity_finite",
    "C64_refuted"
   ],
   "note": "REFUTED: for every exponent in -2046..-1 the result is finite."
  },
  {
   "property": "C65",
   "status": "partial",
   "theorems": [
    "C65_Jn_infinite",
    "C65_refuted"
   ],
   "note": "REFUTED: Jn(163, 1.0) is infinite, Jn(5, 1e-100) = 5.6e145, on every platform."
  },
  {
   "property": "C66",
   "status": "partial",
   "theorems": [
    "C66_In_infinite",
    "C66_refuted"
   ],
   "note": "REFUTED: In(163, 1.0) is infinite on every platform."
  },
  {
   "property": "C67",
   "status": "proved",
   "theorems": [
    "C67_Yn_nan",
    "C67_Kn_nan",
    "C67_In_nan"
   ],
   "note": ""
  },
  {
   "property": "C68",
   "status": "partial",
   "theorems": [
    "C68_refuted",
    "C68_J0_J1_nan_partial"
   ],
   "note": "REFUTED at n = 2 (C68_refuted); true for n = 0, 1 (C68_J0_J1_nan_partial)."
  },
  {
   "property": "C69",
   "status": "proved",
   "theorems": [
    "C69_factorial_overflow"
   ],
   "note": "Finding: factorial(usize::MAX - 2) and above never returns in release builds."
  },
  {
   "property": "C70",
   "status": "proved",
   "theorems": [
    "C70_erfcx_accurate",
    "C70_erfcx_accurate_neg"
   ],
   "note": ""
  },
  {
   "property": "C71",
   "status": "proved",
   "theorems": [
    "C71_erfc_accurate"
   ],
   "note": "The Chebyshev approximation itself is within 2e-13 (the loop never reads the last of the 28 coefficients); the rest is rounding."
  },
  {
   "property": "C72",
   "status": "proved",
   "theorems": [
    "C72_erf_accurate"
   ],
   "note": ""
  },
  {
   "property": "C73",
   "status": "partial",
   "theorems": [
    "C73_erf_relative_error",
    "C73_refuted"
   ],
   "note": "REFUTED: for every f64 x with 0 < x <= 2^-55 and any platform the relative error is at least 1 (erf computes 1 - erfccheb(x), which is 0 or at least 2^-53 in size). The absolute error is small: C72."
  },
  {
   "property": "C74",
   "status": "proved",
   "theorems": [
    "C74_gamma_accurate"
   ],
   "note": "The gamma function is characterised by the Bohr-Mollerup theorem; the proof encloses it by a Stirling bracket."
  },
  {
   "property": "C75",
   "status": "proved",
   "theorems": [
    "C75_ln_gamma_accurate"
   ],
   "note": "against any function with the Bohr-Mollerup properties; ln of the platform assumed accurate to 2^-50"
  },
  {
   "property": "C76",
   "status": "partial",
   "theorems": [
    "C76_ln_gamma_infinite",
    "C76_refuted"
   ],
   "note": "REFUTED: for 0 < x <= 2^-54 the subtraction x - 1 rounds to -1, the first Lanczos quotient divides by zero and ln_gamma is +infinity, while ln gamma(x) <= -ln x; finiteness for 2^-40 <= x <= 2^900 is C75"
  },
  {
   "property": "C77",
   "status": "proved",
   "theorems": [
    "C77_beta_accurate",
    "C77_beta_accurate_100"
   ],
   "note": "against any function with the Bohr-Mollerup properties; ln and exp of the platform assumed accurate to 2^-50"
  },
  {
   "property": "C78",
   "status": "partial",
   "theorems": [
    "C78_beta_nan",
    "C78_refuted"
   ],
   "note": "REFUTED: for 0 < z, w <= 2^-55 the three ln_gamma values are +infinity and their combination is NaN, e.g. beta(1e-20, 1e-20); the true value is about 2e20"
  },
  {
   "property": "C79",
   "status": "partial",
   "theorems": [
    "C79_gammp_accurate_partial",
    "C79_gammp_relative",
    "C79_gammp_tiny",
    "C79_refuted"
   ],
   "note": "REFUTED: for 2^-900 <= a <= 1 and 0 < x < a 2^-52 gammp returns 0 while P(a, x) >= exp(a ln x - x), e.g. gammp(2^-10, 1e-21) = 0 with P >= 0.9. Proved with absolute error 3e-9 for 2^-16 <= a < 100 and every finite x >= a 2^-52 (series, continued fraction, saturation), and for 100 <= a <= 1000 with x <= 0.1999 a; relative error 1e-9 (plus exp(-680)) on the series; missing: quadrature region (a >= 100), a > 1000, a < 2^-16"
  },
  {
   "property": "C80",
   "status": "partial",
   "theorems": [
    "C80_gammq_accurate_partial",
    "C80_gammq_relative"
   ],
   "note": "REFUTED with C79: gammq(2^-10, 1e-21) = 1 while Q <= 0.1. Proved with absolute error 3e-9 on the arguments of C79_gammp_accurate_partial, and with relative error 22e-10 (plus exp(-680)) on the continued fraction; missing: quadrature region (a >= 100), a > 1000, a < 2^-16"
  },
  {
   "property": "C81",
   "status": "proved",
   "theorems": [
    "C81_I0_accurate"
   ],
   "note": "the rational approximation is compared with the partial sum of the series by exact integer polynomial arithmetic"
  },
  {
   "property": "C82",
   "status": "proved",
   "theorems": [
    "C82_I1_accurate"
   ],
   "note": ""
  },
  {
   "property": "C83",
   "status": "proved",
   "theorems": [
    "C83_J0_accurate"
   ],
   "note": ""
  },
  {
   "property": "C84",
   "status": "proved",
   "theorems": [
    "C84_J1_accurate"
   ],
   "note": ""
  },
  {
   "property": "C85",
   "status": "partial",
   "theorems": [
    "C85_invgammp_too_large",
    "C85_refuted"
   ],
   "note": "REFUTED: at a = 1 and every p in [2^-900, 2^-54] the result lies between 2.5 p and 2.7 p (the quantile is p up to rounding) because gammp answers 0 below EPSILON and the loop then stops on its absolute tolerance. Nothing is claimed for the other arguments"
  },
  {
   "property": "C86",
   "status": "proved",
   "theorems": [
    "C86_Kn_accurate",
    "C86_K0_accurate"
   ],
   "note": ""
  },
  {
   "property": "C87",
   "status": "proved",
   "theorems": [
    "C87_Y0_accurate"
   ],
   "note": ""
  },
  {
   "property": "C88",
   "status": "proved",
   "theorems": [
    "C88_Y1_accurate"
   ],
   "note": ""
  },
  {
   "property": "C89",
   "status": "proved",
   "theorems": [
    "C89_Yn_accurate"
   ],
   "note": ""
  },
  {
   "property": "C90",
   "status": "partial",
   "theorems": [
    "C90_betai_near_one",
    "C90_refuted"
   ],
   "note": "REFUTED: betai chooses the branch with x < (a+1)/(a+2b) instead of (a+1)/(a+b+2), so that for b <= 1/2 every x below 1 goes to the direct continued fraction. Next to 1 the fraction is far from converged after its 9999 iterations. For a = 1, b = 1/2 and every f64 x in [1 - 2^-40, 1) the result is at most 0.02, where the value is 1 - sqrt(1 - x), above 0.999999 (C90_betai_near_one, with accurate exp and ln). C90_refuted gives the witness."
  },
  {
   "property": "C91",
   "status": "partial",
   "theorems": [
    "C91_betai_above_one",
    "C91_refuted"
   ],
   "note": "REFUTED: the wrong branch threshold (a+1)/(a+2b) also sends x below the mean to the reflected continued fraction, where its evaluation amplifies rounding errors without bound. betai(200, 200, 0.36) is above 2 (the value is below 1e-8) on every platform with accurate exp and ln (C91_betai_above_one); with correctly rounded exp and ln the result is 2.72. C91_refuted gives the witness."
  },
  {
   "property": "C92",
   "status": "partial",
   "theorems": [
    "C92_refuted"
   ],
   "note": "REFUTED by the same call: betai(200, 200, 0.36) exceeds betai(200, 200, 1) = 1 by more than 1."
  },
  {
   "property": "C93",
   "status": "partial",
   "theorems": [
    "C93_Yn_nan",
    "C93_refuted",
    "C93_Yn_number_partial"
   ],
   "note": "REFUTED: the recurrence of Yn subtracts the value of two orders before. Once Y_n has overflowed to minus infinity twice in a row the next step is -inf - (-inf). Yn(n, x) is NaN for every order 256 <= n < 2^32 and every normal x in (0, 1] (C93_Yn_nan, by induction over the order); C93_refuted gives the witness Yn(256, 1.0). C93_Yn_number_partial: finite for x in (0, 1] as long as |Y_n(x)| <= 2^1020; missing: x above 1 and subnormal x."
  },
  {
   "property": "C94",
   "status": "proved",
   "theorems": [
    "C94_In_accurate"
   ],
   "note": "C94_In_accurate, on every platform (no libm function is involved). Miller convergence of the downward recurrence is proved for every order (the start values are forgotten by a factor 4 per two steps), the rescaling by 2^-512 is exact, and the rounding errors are bounded by induction over the recurrence. The order needs no bound: I_n(x) >= 2^-900 with x < 15 implies n < 1020."
  },
  {
   "property": "C95",
   "status": "proved",
   "theorems": [
    "C95_Jn_accurate"
   ],
   "note": "C95_Jn_accurate, on every platform (no libm function is involved). Miller convergence and the Neumann normalisation J_0 + 2 J_2 + 2 J_4 + ... = 1 are proved over the reals; the rounding-error induction weighs the cancellation of each subtraction by the ratio of neighbouring terms; the rescaling by 2^-512 is exact for all four running values. The order needs no bound: J_n(x) >= 2^-900 with x <= 1 implies n <= 900."
  },
  {
   "property": "C96",
   "status": "proved",
   "theorems": [
    "C96_betai_accurate"
   ],
   "note": "C96_betai_accurate, on every platform whose ln and exp are accurate (relative 2^-50). The convergents, their derivatives, their bounds and the truncation error are proved over the reals for b <= 1/2 (the chain-sequence form of the continued fraction); the rounding errors of the modified Lentz recurrences are bounded by an invariant over the iterations, and the stopping test is turned into a bound on the truncation error. The value must be at least 2^-990 because the factor in front of the fraction underflows below. For b > 1/2 or x > 9/10 nothing is claimed: C90 to C92 are refutations there."
  },
  {
   "property": "C97",
   "status": "proved",
   "theorems": [
    "C97_Kn_accurate"
   ],
   "note": "C97_Kn_accurate, on every platform whose exp is accurate (relative 2^-50). sqrt(x) e^x K_0(x) and sqrt(x) e^x K_1(x) satisfy f'' = 2 f' + c f / x^2; two rational functions with a residual below 4e-17/x^2 are certified by polynomial positivity on [0, 1] and tied to K_0 and K_1, as defined by their series, through the Wronskian and the value at 1; the tables of the code are compared with them. The order is by induction on the recurrence, rounding errors included."
  },
  {
   "property": "C98",
   "status": "proved",
   "theorems": [
    "C98_I0_accurate",
    "C98_I1_accurate"
   ],
   "note": "C98_I0_accurate and C98_I1_accurate, on every platform whose exp is accurate (relative 2^-50). sqrt(x) e^-x I_0(x) and sqrt(x) e^-x I_1(x) satisfy a linear differential equation; the tables of the code, as rational functions of 1 - 15/x, have a residual that polynomial positivity bounds on the whole half-line, and their values at 15 are compared with the series. Negative arguments of order 1 are excluded because i1 calls exp(x) instead of exp(|x|) there (recorded elsewhere)."
  },
  {
   "property": "C99",
   "status": "partial",
   "theorems": [
    "C99_In_too_large",
    "C99_refuted"
   ],
   "note": "REFUTED: C99_In_too_large, C99_refuted. On every platform whose exp is accurate, In(3, 700) is more than 2.5 percent above I_3(700), and above I_0(700): the downward recurrence starts at order 2 (n + floor(sqrt(200 n))) = 54 whatever x is, far too low for x = 700. C94 gives the accuracy below 15, C98 that of orders 0 and 1 above; orders from 2 on between 15 and about 50 are not covered."
  },
  {
   "property": "C100",
   "status": "proved",
   "theorems": [
    "C100_J01_accurate"
   ],
   "note": "C100_J01_accurate, on every platform whose cos and sin are accurate (absolute 2^-50). sqrt(x) J_n(x) solves u'' = -(1 + c / x^2) u; the combination p cos - q sin of the tables of the code, as rational functions of 64 / x^2, has a residual that polynomial positivity bounds on the whole half-line; an energy argument for the oscillator turns the residual and the values at 8, taken from the series, into an error bound of 1.03e-13 for every x >= 8. The rounding errors, including that of the phase, are bounded on top."
  },
  {
   "property": "C101",
   "status": "proved",
   "theorems": [
    "C101_Y01_accurate"
   ],
   "note": "C101_Y01_accurate: the same argument as C100 for the second solutions, whose values at 8 come from their logarithmic series with Euler's constant."
  },
  {
   "property": "C102",
   "status": "partial",
   "theorems": [
    "C102_phase_lost",
    "C102_refuted",
    "C102_phase_kept_partial"
   ],
   "note": "REFUTED: C102_phase_lost, C102_refuted. From 2^56 on the subtraction x - pi/4 (or x - 3 pi/4) returns x itself, so Jn is computed from cos x instead of cos(x - pi/4) and Yn from sin x instead of sin(x - pi/4); whatever x is, one of the two results is off by more than half the amplitude (order 1: more than the whole amplitude). C102_phase_kept_partial proves the property on [8, 2^51]."
  },
  {
   "property": "C103",
   "status": "proved",
   "theorems": [
    "C103_Jn_accurate",
    "C103_Jn_accurate_below_8"
   ],
   "note": "C103_Jn_accurate (|x| >= 8, platforms with accurate cos and sin), C103_Jn_accurate_below_8 (every platform). For f(k+1) = c f(k) - f(k-1) with c = 2k/x <= 2 the form (f(k)^2 - c f(k) f(k-1) + f(k-1)^2) / (2 + c) never increases; it bounds the solution itself, the propagation of the starting errors and that of the rounding error of every step."
  },
  {
   "property": "C104",
   "status": "proved",
   "theorems": [
    "C104_Yn_accurate",
    "C104_Yn_accurate_below_8"
   ],
   "note": "C104_Yn_accurate (x >= 8), C104_Yn_accurate_below_8 (x < 8, platforms with accurate ln): the argument of C103 for Y."
  },
  {
   "property": "C105",
   "status": "proved",
   "theorems": [
    "C105_inverfc_accurate",
    "C105_inverfc_accurate_above"
   ],
   "note": "C105_inverfc_accurate, C105_inverfc_accurate_above, on every platform whose exp and ln are accurate. erfc(0) = 1 from the Wallis integrals; the first guess is within 4e-3 by two rational bounds of the Mills ratio and polynomial positivity; the correction step (Halley) leaves the cube of the error; the error of the library erfc, relative to the slope of erfc, and the roundings of the step are added."
  },
  {
   "property": "C106",
   "status": "partial",
   "theorems": [
    "C106_inverf_accurate_partial",
    "C106_refuted"
   ],
   "note": "REFUTED: C106_refuted. At p = -1 + 2^-53 the difference 1 - p rounds to 2, inverfc answers its end value and inverf returns -100 although the true value lies in [-7, 0]; at -p the answer is right. C106_inverf_accurate_partial proves, for -1 + 2^-50 <= p < 1, an error of at most 2^-39 + 2^-48 / (1 + p)."
  },
  {
   "property": "C107",
   "status": "proved",
   "theorems": [
    "C107_erfc_inverfc",
    "C107_erfc_inverfc_above"
   ],
   "note": "Relative round trip for every p in [2^-930, 2), from C105, C71 and a bound 2.1 x + 3 on the logarithmic slope of erfc proved from the rational bounds of the Mills ratio. Requires exp and ln within 2^-50."
  },
  {
   "property": "C108",
   "status": "proved",
   "theorems": [
    "C108_inverfc_erfc"
   ],
   "note": "Absolute round trip on [-2, 25], with the sharper bounds on [0, 25] and [0, 8]. Requires exp and ln within 2^-50."
  },
  {
   "property": "C109",
   "status": "proved",
   "theorems": [
    "C109_erf_inverf"
   ],
   "note": "Absolute round trip from -1 + 2^-51 on; it holds although inverf alone is inaccurate next to -1 (C106). Requires exp and ln within 2^-50."
  },
  {
   "property": "C110",
   "status": "partial",
   "theorems": [
    "C110_faddeeva_imaginary_part",
    "C110_refuted",
    "C110_faddeeva_imaginary_part_partial",
    "C110_faddeeva_imaginary_part_large"
   ],
   "note": "REFUTED: C110_refuted. For every x in [0.41, 0.79] faddeeva(x, 0) has a negative imaginary part where the true one exceeds 1/5 (inherited from dawson, C39); C110_faddeeva_imaginary_part_large: at x in [0.8k + 0.3, 0.8k + 0.39], 200 <= k <= 2^30, it is at least nine percent too large. C110_faddeeva_imaginary_part_partial proves the accuracy for 2^-1000 <= |x| < 1/5."
  },
  {
   "property": "C111",
   "status": "proved",
   "theorems": [
    "C111_faddeeva_real_part",
    "C111_faddeeva_imaginary_axis",
    "C111_faddeeva_imaginary_axis_neg"
   ],
   "note": "Both axes, from C42 and C70 and the rounding of x^2; below -26.6 exp overflows, beyond 26 the real part is subnormal or zero."
  },
  {
   "property": "C112",
   "status": "partial",
   "theorems": [
    "C112_besseljy_large_argument",
    "C112_besselik_large_argument",
    "C112_Jnu_Ynu_large_argument",
    "C112_Inu_Knu_large_argument",
    "C112_refuted"
   ],
   "note": "REFUTED: C112_besseljy_large_argument, C112_besselik_large_argument (and the wrappers), C112_refuted. For every order up to 1000 and every x in [2^32, 2^800] the first continued fraction meets its stopping test in none of its 10000 iterations, and the call panics. Proved by induction over the iterations: the two Lentz variables alternate between small and large, with opposite signs (J) or a product far from one (I). Nothing is claimed for smaller arguments."
  },
  {
   "property": "C113",
   "status": "partial",
   "theorems": [
    "C113_besseljy_tiny_argument",
    "C113_besselik_tiny_argument",
    "C113_refuted"
   ],
   "note": "REFUTED: C113_besseljy_tiny_argument, C113_besselik_tiny_argument, C113_refuted. For 0 < x <= 2^-1024 the reciprocal 1/x is infinite, every step of the continued fraction is NaN and both functions panic with the text x too large."
  },
  {
   "property": "C114",
   "status": "partial",
   "theorems": [
    "C114_dawson_too_large",
    "C114_refuted"
   ],
   "note": "REFUTED: C114_dawson_too_large, C114_refuted. For every integer k in [200, 2^30] and every x in [0.8 k + 0.3, 0.8 k + 0.39] the result is at least ten percent above the true value (exp within 2^-50): the loop multiplies the running exponential before its first use, so that every term of the sum carries the exponential of the next one. Near 0: C38, C39."
  },
  {
   "property": "C115",
   "status": "partial",
   "theorems": [
    "C115_besselik_half_integer_partial",
    "C115_Inu_Knu_half_integer_partial"
   ],
   "note": "C115_besselik_half_integer_partial, C115_Inu_Knu_half_integer_partial: for 2 <= x <= 690 (exp within 2^-50) the call either panics in its first continued fraction or returns a K within (4 + n) 1e-15 of the closed form. Missing: that the first continued fraction converges (it cannot at large arguments, C112), x < 2 (Temme series). The derivative is C116."
  },
  {
   "property": "C116",
   "status": "partial",
   "theorems": [
    "C116_besselik_half_integer_derivative_partial"
   ],
   "note": "C116_besselik_half_integer_derivative_partial: for 2 <= x <= 690 (exp within 2^-50) the call either panics in its first continued fraction or returns as fourth component the derivative of the closed form, within (12 + 2n) 1e-15. Missing: as for C115."
  },
  {
   "property": "C117",
   "status": "partial",
   "theorems": [
    "C117_besselik_I_nan",
    "C117_Inu_Knu_I_nan",
    "C117_besselik_nan",
    "C117_Inu_Knu_nan",
    "C117_refuted"
   ],
   "note": "REFUTED: C117_refuted. For every half-integer order from 4000 on and x in [2, 690], besselik either panics or returns NaN for I, infinity for K and NaN for the derivative of K (C117_besselik_nan); Inu_Knu returns NaN for I (C117_Inu_Knu_nan). The downward recurrence of I overflows from its tiny start value and the ratio of two infinities is taken. C117_besselik_I_nan and C117_Inu_Knu_I_nan give the NaN for I at every real order from 4000 to 2^32, with no assumption on exp, whenever the call returns. That I is in truth below the smallest f64 there is not formalised."
  },
  {
   "property": "C118",
   "status": "partial",
   "theorems": [
    "C118_besseljy_nan",
    "C118_Jnu_Ynu_nan",
    "C118_refuted"
   ],
   "note": "REFUTED: C118_refuted. For every f64 order from 4000 to 2^32 and x in [2, 690], whenever besseljy or Jnu_Ynu returns, both J and Y are NaN (C118_besseljy_nan, C118_Jnu_Ynu_nan). The downward recurrence of J overflows from its tiny start value and the ratio of two non-finite values is taken; it also enters Y. That the call returns at every such order is not proved (it is at the witness)."
  }
 ]
}