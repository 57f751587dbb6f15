NOTES={
'C01':('proved','All configurations, all full-precision non-zero operands of equal sign whose exponents leave room for renormalisation (exp_safe).'),
'C02':('proved','All configurations and operands within exp_safe; subtraction included.'),
'C03':('proved',''),
'C04':('partial','False of the code: refuted for 16-bit limbs from 43 limbs on (C04_schoolbook_overflow_refuted). The true part is C03_accumulator_fits: 8-bit and 32-bit limbs always, 16-bit limbs up to 42 limbs.'),
'C05':('proved',''),
'C06':('proved',''),
'C07':('proved','Configurations below the FFT threshold whose schoolbook accumulators fit (mul_ok). Factors one and 0.99..9 are covered by the relative-error and times-one theorems; overflow and underflow saturate.'),
'C08':('proved',''),
'C09':('proved','Statements: copy, negate, fabs, ++/--, integer construction, += -= *= between variables (aliasing included), += -= *= with signed 64-bit integers, /= with integers below the limb base. The minimum 64-bit integer is excluded for -= (undefined behaviour, see C36).'),
'C10':('proved','Round trip for configurations with at least 16 digits; at fewer digits it is refuted (C10_round_trip_small_config_refuted).'),
'C11':('partial','Truncation of the value rounded to digits10+4 digits, saturation; refuted literally: 2.99..9 -> 3, negative to unsigned wraps, small configurations overflow, zeros with huge exponents read out of bounds.'),
'C15':('proved',''),
'C16':('partial','Truncation is refuted (one limb is duplicated by the left shift); what holds is relative error below 10^-digits10. All non-zero 64-bit divisors are covered by the relative-error theorems.'),
'C17':('partial','Refuted at the ends of the exponent range (0*max() = max()); proved for exponents inside the range.'),
'C18':('partial','Refuted for the aliased x -= x (doubles x); proved for distinct objects.'),
'C19':('partial','Refuted: carry at reduced precision is stored in the wrong place.'),
'C20':('partial','Proved for |x| <= 10^(digits10-1)-2 up to the internal rounding at digits10+4 digits (exact for values with no more digits); refuted outside.'),
'C21':('proved',''),
'C28':('partial','Values proved; refuted: normal form of epsilon() when digits10 mod limb digits = 1, lowest(), infinity(), max() not largest.'),
'C34':('partial','Addition proved for all; multiplication proved except for the all-nines value 0.99..9, for which it is refuted.'),
'C35':('proved',''),
'C37':('proved',''),
'C38':('proved','Exact for all non-zero values and zeros with non-negative exponent; refuted for zeros with negative exponent (C38_isint_zero_refuted).'),
'C40':('proved','x*1 and 1*x are C07_times_one_exact.'),
'C22':('proved',''),
'C23':('partial','False of the code: the requested size is ignored (C23_size_refuted). Proved for requests within the slot width.'),
'C24':('proved','All operations except swap with an rvalue array, for which the claim is refuted (double free).'),
'C25':('partial','Equality proved; ordering proved for equal lengths, characterised on prefixes, and refuted in general.'),
'C29':('proved',''),
'C41':('partial','Proved when the target still owns its limbs; refuted after the target was moved from.'),
'C30':('partial','Proved for configurations where two limbs always lie below the rounding position; otherwise one stale limb survives (refuted), bounded by one unit.'),
'C12':('proved','Every literal whose exponent fits (lit_fits), every configuration. Outside, the exponent wraps (C12_exponent_wraps_refuted). strtoll/strtoul are modelled from the C standard.'),
'C13':('proved','All formats without padding, all non-zero values whose exponent and precision fit (print_fits).'),
'C14':('proved','Digit extraction and the whole output routine, all formats; zeros with exponent 0 included.'),
'C31':('partial','Sign, width, fill, justification, layout in scientific notation and in fixed notation from one up proved; differences from built-in types and a throwing flag combination are refuted in C31_flags_refuted.'),
'C39':('partial','Accuracy of the reciprocal proved end to end (estimate, Newton iteration, truncation at working precision) for float/double estimates with every limb type and long double with 8-bit limbs, below the FFT size; refuted: result not in normal form for powers of the base, out-of-bounds estimate for short 8-bit-limb numbers, long double with wider limbs inaccurate.'),
'C42':('proved','Same ranges as C39.'),
'C27':('partial','Conventions proved; inconsistencies refuted (0/0 = 1 or 0 depending on the exponent carried by the zero; 0.99..9/1 = 1).'),
'C33':('proved','All exponents except the minimum 64-bit integer (undefined, C36), powers inside the exponent range; error bounds grow linearly with the exponent, exact for integers that fit.'),
'C36':('partial','Refuted for the minimum 64-bit integer in -= and pow; all other operands proved defined.'),
'C44':('partial','Proved end to end (floating-point start, coupled Newton iteration, truncation at working precision) except for radicands within 10^-(digits10 of the built-in type - 2) relative of an even power of the limb base or a quarter of one; the built-in sqrt is a parameter assumed right to two units in the last bit, which the correctly rounded one is proved to satisfy. Refuted: roots of perfect squares are not always exact.'),
'C43':('proved','Operation by operation, and for whole programs against the integer interpreter of Spec_Hist.v.'),
'C32':('partial','The transform itself is a parameter, assumed within a quarter unit of the exact convolution. Rounding, carry release and the operator are proved accurate; refuted: 2*2 reads past the end of the limb array, and exact products lose their last limb because the columns below are dropped.'),
'C26':('partial','False of the code for zero, negative arguments and the number just below one (log, pow), and for roots of zero. Proved to return elsewhere (log), with the bounded branch for arguments above one as a parameter (that branch is modelled and proved to return, up to 51 digits, in C52); roots: C58 proves that they return for positive numbers (cbrt: both signs) and indices up to 37 under its hypotheses.'),
'C45':('partial','Accuracy, exactness (value and power of two within the kept digits) and round trip proved for normal numbers; refuted: decwide_t<16>(1.0) is 0.99..9 and converts to the integer 0, subnormal numbers become zero. Infinities and NaN not modelled.'),
'C46':('partial','Error bound, sign, range and near-exactness proved for values whose text fits its buffer, strtold being a parameter assumed correctly rounded (one is constructed); refuted: the text is unterminated when both leading limb and exponent are full, and the result is not always the nearest double.'),
'C47':('partial','Values, results and powers inside the exponent range, every exponent except the minimum int (undefined behaviour, refuted).'),
'C48':('partial','Integer-valued operands with a positive divisor, at least four guard digits; refuted for negative divisors, zero by a negative divisor, and 8-bit limbs. Arbitrary non-zero operands of either sign: a whole multiple of the divisor away from the dividend and below the divisor, up to rounding (C48_remainder_partial).'),
'C49':('partial','Range, sign, termination and error bound proved for exponents with room; exactness is refuted (2^107 gives 0.99..9), as is definedness with the 8-bit exponent type.'),
'C50':('partial','Proved for at most 51 digits, where the constants are tables, against PI and ln of the standard library Reals; beyond 51 digits they are computed by AGM iterations, which are not modelled.'),
'C51':('partial','Relative error (22000+|x|)10^-digits10 proved for 16 to 2000 digits and 10^-W <= |x| <= 10^9, given ln_two() to digits10+2 digits, which C50 proves up to 51 digits. Refuted: the last five digits can be wrong (exp(0.352)), and exp(1500000000) is below one because the binary exponent is cut to 32 bits. More than 2000 digits (Newton on log) not modelled.'),
'C52':('partial','Proved for 16 to 51 digits: all x > 1, x = 1, and x < 1 except powers of the limb base (their reciprocal is not normal) and the numbers within eight units of the working precision below one (where C26 shows log need not return). Refuted: the relative error near one, log(1+99e-13) has 44 right digits of 50. More than 51 digits (AGM) not modelled.'),
'C53':('partial','Proved for both signs, 16 to 2000 digits, |x| up to 10^9 and within the exponent range, except x for which exp(x) comes out as an exact power of the limb base (reciprocal not well-formed, C39) and, for negative x, for which it is not well-formed; x = 0 in C53_hyperbolic_of_zero. Refuted: sinh has no relative accuracy near zero (sinh(1e-96) = 0 with 50 digits).'),
'C54':('partial','Proved for 16 to 51 digits, for x = 1 and the x of C52 with |ln x| at least 20 10^-digits10, |a| at most 10^(digits10-8), |a ln x| at most 9 10^8. Missing: x nearer to one, the x < 1 excluded in C52, more than 51 digits; x <= 0 does not return (C26).'),
'C55':('proved','Exact real arithmetic (the templates instantiated with the real numbers and exact sines, see C57 for the literals); rounding of the floating-point type is not part of the claim.'),
'C56':('partial','Exact convolution and transform size proved for all arrays. Missing: a bound for the rounding errors of the floating-point run, which enters as the hypothesis that it ends within a quarter unit of the exact run.'),
'C57':('proved','Literals as written; their conversion to the floating-point type is not modelled.'),
'C58':('partial','Proved for indices 3 to 37 (and their negatives), positive x (both signs for cbrt) with room in the exponent, away (to the precision of the built-in type) from the p-th powers of powers of the limb base, built-in pow as a parameter. Refuted: cbrt(1) is not in normal form and compares below 1, cbrt(27) is not 3, rootn(x, INT32_MIN) is undefined. Missing: indices above 37, the excluded neighbourhoods, digit counts failing enough_doublings for p > 3.'),
'C59':('proved','Exponent-range hypotheses as for C01, C02, C07; across the overflow threshold the order is lost (refuted example).'),
'C60':('partial','False of the code when a dividend equals the divisor (special-cased to exactly one): x > v but x/v < 1 (refuted example). Proved for all other dividends and divisors that are not powers of the limb base (their reciprocal is not in normal form).'),
'C61':('proved','Unconditional in operands and configuration; memories of equal sizes (those of the allocations). The products of FFT size (1793 limbs and more) are outside this model of operator*=; C62 covers their pools.'),
'C62':('proved','Parametric in the arithmetic (any type, any operations), so it covers the rounded floating-point run too.'),
  'C63': ('partial', 'Both directions proved for 16 to 51 digits: exp(log x) for the x of C52 at least 20 units of the last digit from one in the logarithm (and x = 1), log(exp x) for x from 30000 units of the last digit to 9 10^8. Missing: log(exp x) for negative x and x nearer to zero, more than 51 digits.'),
  'C64': ('partial', 'Proved for indices 3 to 37 under the hypotheses of C58. Refuted for index 1, where the code returns the argument itself and not its reciprocal. Missing: index 2, indices above 37, the excluded neighbourhoods.'),
}
