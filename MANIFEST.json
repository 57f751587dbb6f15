{
 "claims": [
  {
   "property": "C01",
   "status": "proved",
   "theorems": [
    "C01_add_same_sign",
    "C01_add_same_exponent_exact"
   ],
   "note": "All configurations, all full-precision non-zero operands of equal sign whose exponents leave room for renormalisation (exp_safe)."
  },
  {
   "property": "C02",
   "status": "proved",
   "theorems": [
    "C02_add_opposite_sign",
    "C02_zero_iff_cancels",
    "C02_subtraction"
   ],
   "note": "All configurations and operands within exp_safe; subtraction included."
  },
  {
   "property": "C03",
   "status": "proved",
   "theorems": [
    "C03_schoolbook_exact",
    "C03_accumulator_fits"
   ],
   "note": ""
  },
  {
   "property": "C04",
   "status": "partial",
   "theorems": [
    "C04_schoolbook_overflow_refuted"
   ],
   "note": "False of the code: refuted for 16-bit limbs from 43 limbs on (C04_schoolbook_overflow_refuted). The true part is C03_accumulator_fits: 8-bit and 32-bit limbs always, 16-bit limbs up to 42 limbs."
  },
  {
   "property": "C05",
   "status": "proved",
   "theorems": [
    "C05_karatsuba_exact"
   ],
   "note": ""
  },
  {
   "property": "C06",
   "status": "proved",
   "theorems": [
    "C06_padded_size_adequate"
   ],
   "note": ""
  },
  {
   "property": "C07",
   "status": "proved",
   "theorems": [
    "C07_multiplication",
    "C07_multiplication_relative",
    "C07_saturation",
    "C07_times_one_exact"
   ],
   "note": "Configurations below the FFT threshold whose schoolbook accumulators fit (mul_ok). Factors one and 0.99..9 are covered by the relative-error and times-one theorems; overflow and underflow saturate."
  },
  {
   "property": "C08",
   "status": "proved",
   "theorems": [
    "C08_cmp_is_numeric_order",
    "C08_operators",
    "C08_normal_form_unique"
   ],
   "note": ""
  },
  {
   "property": "C09",
   "status": "proved",
   "theorems": [
    "C09_histories_keep_normal_form"
   ],
   "note": "Statements: copy, negate, fabs, ++/--, integer construction, += -= *= between variables (aliasing included), += -= *= with signed 64-bit integers, /= with integers below the limb base. The minimum 64-bit integer is excluded for -= (undefined behaviour, see C36)."
  },
  {
   "property": "C10",
   "status": "proved",
   "theorems": [
    "C10_from_unsigned_exact",
    "C10_from_signed_exact",
    "C10_from_limb_sized_exact",
    "C10_signed_round_trip",
    "C10_unsigned_round_trip",
    "C10_round_trip_small_config_refuted"
   ],
   "note": "Round trip for configurations with at least 16 digits; at fewer digits it is refuted (C10_round_trip_small_config_refuted)."
  },
  {
   "property": "C11",
   "status": "partial",
   "theorems": [
    "C11_to_signed_partial",
    "C11_to_unsigned_partial",
    "C11_negative_to_unsigned_wraps",
    "C11_zero_partial",
    "C11_conversion_refuted"
   ],
   "note": "Truncation of the value rounded to digits10+4 digits, saturation; refuted literally: 2.99..9 -> 3, negative to unsigned wraps, small configurations overflow, zeros with huge exponents read out of bounds."
  },
  {
   "property": "C12",
   "status": "proved",
   "theorems": [
    "C12_parse_truncates",
    "C12_parse_exact",
    "C12_exponent_wraps_refuted",
    "C12_accepts_non_literals"
   ],
   "note": "Every literal whose exponent fits (lit_fits), every configuration. Outside, the exponent wraps (C12_exponent_wraps_refuted). strtoll/strtoul are modelled from the C standard."
  },
  {
   "property": "C13",
   "status": "proved",
   "theorems": [
    "C13_print_parse"
   ],
   "note": "All formats without padding, all non-zero values whose exponent and precision fit (print_fits)."
  },
  {
   "property": "C14",
   "status": "proved",
   "theorems": [
    "C14_digits_half_up",
    "C14_print_half_up",
    "C14_print_zero"
   ],
   "note": "Digit extraction and the whole output routine, all formats; zeros with exponent 0 included."
  },
  {
   "property": "C15",
   "status": "proved",
   "theorems": [
    "C15_mul_unsigned",
    "C15_mul_signed",
    "C15_order_is_digit_count"
   ],
   "note": ""
  },
  {
   "property": "C16",
   "status": "partial",
   "theorems": [
    "C16_div_unsigned_partial",
    "C16_div_unsigned_relative_partial",
    "C16_truncation_refuted",
    "C16_div_any_unsigned_partial",
    "C16_div_any_signed_partial"
   ],
   "note": "Truncation is refuted (one limb is duplicated by the left shift); what holds is relative error below 10^-digits10. All non-zero 64-bit divisors are covered by the relative-error theorems."
  },
  {
   "property": "C17",
   "status": "partial",
   "theorems": [
    "C17_zero_annihilates_partial",
    "C17_zero_annihilates_refuted"
   ],
   "note": "Refuted at the ends of the exponent range (0*max() = max()); proved for exponents inside the range."
  },
  {
   "property": "C18",
   "status": "partial",
   "theorems": [
    "C18_distinct_objects_partial",
    "C18_self_subtraction_doubles",
    "C18_self_subtraction_refuted"
   ],
   "note": "Refuted for the aliased x -= x (doubles x); proved for distinct objects."
  },
  {
   "property": "C19",
   "status": "partial",
   "theorems": [
    "C19_reduced_precision_refuted"
   ],
   "note": "Refuted: carry at reduced precision is stored in the wrong place."
  },
  {
   "property": "C20",
   "status": "partial",
   "theorems": [
    "C20_floor_ceil_partial",
    "C20_floor_ceil_zero_partial",
    "C20_floor_ceil_refuted"
   ],
   "note": "Proved for |x| <= 10^(digits10-1)-2 up to the internal rounding at digits10+4 digits (exact for values with no more digits); refuted outside."
  },
  {
   "property": "C21",
   "status": "proved",
   "theorems": [
    "C21_make",
    "C21_add",
    "C21_sub"
   ],
   "note": ""
  },
  {
   "property": "C22",
   "status": "proved",
   "theorems": [
    "C22_live_slots_disjoint",
    "C22_allocation_fails_only_when_full"
   ],
   "note": ""
  },
  {
   "property": "C23",
   "status": "partial",
   "theorems": [
    "C23_size_within_slot_partial",
    "C23_size_refuted"
   ],
   "note": "False of the code: the requested size is ignored (C23_size_refuted). Proved for requests within the slot width."
  },
  {
   "property": "C24",
   "status": "proved",
   "theorems": [
    "C24_unique_ownership",
    "C24_rvalue_swap_refuted"
   ],
   "note": "All operations except swap with an rvalue array, for which the claim is refuted (double free)."
  },
  {
   "property": "C25",
   "status": "partial",
   "theorems": [
    "C25_equality",
    "C25_order_equal_length_partial",
    "C25_order_prefix_partial",
    "C25_order_refuted"
   ],
   "note": "Equality proved; ordering proved for equal lengths, characterised on prefixes, and refuted in general."
  },
  {
   "property": "C26",
   "status": "partial",
   "theorems": [
    "C26_log_returns_partial",
    "C26_log_nonpositive_refuted",
    "C26_log_recursion_refuted",
    "C26_pow_nonpositive_refuted",
    "C26_root_of_zero_refuted",
    "C26_root_index_refuted"
   ],
   "note": "False of the code for zero, negative arguments and the number just below one (log, pow), and for roots of zero. Proved to return elsewhere (log), with the bounded branch for arguments above one as a parameter (that branch is modelled and proved to return, up to 51 digits, in C52); roots: C58 proves that they return for positive numbers (cbrt: both signs) and indices up to 37 under its hypotheses."
  },
  {
   "property": "C27",
   "status": "partial",
   "theorems": [
    "C27_equal_operands",
    "C27_divide_by_one_partial",
    "C27_divide_by_zero_partial",
    "C27_integer_zero_divisor",
    "C27_zero_dividend",
    "C27_conventions_refuted"
   ],
   "note": "Conventions proved; inconsistencies refuted (0/0 = 1 or 0 depending on the exponent carried by the zero; 0.99..9/1 = 1)."
  },
  {
   "property": "C28",
   "status": "partial",
   "theorems": [
    "C28_constants",
    "C28_epsilon_partial",
    "C28_epsilon_refuted",
    "C28_limits_refuted"
   ],
   "note": "Values proved; refuted: normal form of epsilon() when digits10 mod limb digits = 1, lowest(), infinity(), max() not largest."
  },
  {
   "property": "C29",
   "status": "proved",
   "theorems": [
    "C29_decimal_text",
    "C29_hexadecimal_text"
   ],
   "note": ""
  },
  {
   "property": "C30",
   "status": "partial",
   "theorems": [
    "C30_half_up",
    "C30_half_up_all_partial",
    "C30_half_up_refuted"
   ],
   "note": "Proved for configurations where two limbs always lie below the rounding position; otherwise one stale limb survives (refuted), bounded by one unit."
  },
  {
   "property": "C31",
   "status": "partial",
   "theorems": [
    "C31_layout_partial",
    "C31_flags_refuted"
   ],
   "note": "Sign, width, fill, justification, layout in scientific notation and in fixed notation from one up proved; differences from built-in types and a throwing flag combination are refuted in C31_flags_refuted."
  },
  {
   "property": "C32",
   "status": "partial",
   "theorems": [
    "C32_carry_release_partial",
    "C32_product_accurate_partial",
    "C32_no_overread_refuted",
    "C32_exact_product_refuted"
   ],
   "note": "The transform itself is a parameter, assumed within a quarter unit of the exact convolution. Rounding, carry release and the operator are proved accurate; refuted: 2*2 reads past the end of the limb array, and exact products lose their last limb because the columns below are dropped."
  },
  {
   "property": "C33",
   "status": "proved",
   "theorems": [
    "C33_positive_power",
    "C33_negative_power",
    "C33_integer_power_exact",
    "C33_special_powers"
   ],
   "note": "All exponents except the minimum 64-bit integer (undefined, C36), powers inside the exponent range; error bounds grow linearly with the exponent, exact for integers that fit."
  },
  {
   "property": "C34",
   "status": "partial",
   "theorems": [
    "C34_addition_commutes",
    "C34_multiplication_commutes_partial",
    "C34_multiplication_refuted"
   ],
   "note": "Addition proved for all; multiplication proved except for the all-nines value 0.99..9, for which it is refuted."
  },
  {
   "property": "C35",
   "status": "proved",
   "theorems": [
    "C35_precision_clamped",
    "C35_precision_monotone"
   ],
   "note": ""
  },
  {
   "property": "C36",
   "status": "partial",
   "theorems": [
    "C36_defined_partial",
    "C36_division_defined_partial",
    "C36_power_defined_partial",
    "C36_minimum_refuted"
   ],
   "note": "Refuted for the minimum 64-bit integer in -= and pow; all other operands proved defined."
  },
  {
   "property": "C37",
   "status": "proved",
   "theorems": [
    "C37_ilogb"
   ],
   "note": ""
  },
  {
   "property": "C38",
   "status": "proved",
   "theorems": [
    "C38_isint_exact",
    "C38_isint_zero_refuted"
   ],
   "note": "Exact for all non-zero values and zeros with non-negative exponent; refuted for zeros with negative exponent (C38_isint_zero_refuted)."
  },
  {
   "property": "C39",
   "status": "partial",
   "theorems": [
    "C39_reciprocal_accurate_partial",
    "C39_normal_form_refuted",
    "C39_out_of_bounds_refuted",
    "C39_long_double_refuted"
   ],
   "note": "Accuracy of the reciprocal proved end to end (estimate, Newton iteration, truncation at working precision) for float/double estimates with every limb type and long double with 8-bit limbs, below the FFT size; refuted: result not in normal form for powers of the base, out-of-bounds estimate for short 8-bit-limb numbers, long double with wider limbs inaccurate."
  },
  {
   "property": "C40",
   "status": "proved",
   "theorems": [
    "C40_additive_identities",
    "C40_fabs"
   ],
   "note": "x*1 and 1*x are C07_times_one_exact."
  },
  {
   "property": "C41",
   "status": "partial",
   "theorems": [
    "C41_assignment_copies_partial",
    "C41_assign_after_move_refuted"
   ],
   "note": "Proved when the target still owns its limbs; refuted after the target was moved from."
  },
  {
   "property": "C42",
   "status": "proved",
   "theorems": [
    "C42_division_accurate"
   ],
   "note": "Same ranges as C39."
  },
  {
   "property": "C43",
   "status": "proved",
   "theorems": [
    "C43_sum_exact",
    "C43_difference_exact",
    "C43_product_exact",
    "C43_add_builtin_exact",
    "C43_histories_exact"
   ],
   "note": "Operation by operation, and for whole programs against the integer interpreter of Spec_Hist.v."
  },
  {
   "property": "C44",
   "status": "partial",
   "theorems": [
    "C44_sqrt_accurate_partial",
    "C44_sqrt_brackets_root_partial",
    "C44_ieee_sqrt_suffices",
    "C44_sqrt_special",
    "C44_perfect_square_refuted"
   ],
   "note": "Proved end to end (floating-point start, coupled Newton iteration, truncation at working precision) except for radicands within 10^-(digits10 of the built-in type - 2) relative of an even power of the limb base or a quarter of one; the built-in sqrt is a parameter assumed right to two units in the last bit, which the correctly rounded one is proved to satisfy. Refuted: roots of perfect squares are not always exact."
  },
  {
   "property": "C45",
   "status": "partial",
   "theorems": [
    "C45_from_float_accurate",
    "C45_from_float_exact",
    "C45_from_float_integer",
    "C45_subnormal_flush_refuted",
    "C45_one_refuted",
    "C45_hundred_refuted",
    "C45_round_trip"
   ],
   "note": "Accuracy, exactness (value and power of two within the kept digits) and round trip proved for normal numbers; refuted: decwide_t<16>(1.0) is 0.99..9 and converts to the integer 0, subnormal numbers become zero. Infinities and NaN not modelled."
  },
  {
   "property": "C46",
   "status": "partial",
   "theorems": [
    "C46_to_float_accurate_partial",
    "C46_to_float_zero",
    "C46_to_float_near_exact",
    "C46_unterminated_refuted",
    "C46_nearest_refuted",
    "C46_strtold_exists"
   ],
   "note": "Error bound, sign, range and near-exactness proved for values whose text fits its buffer, strtold being a parameter assumed correctly rounded (one is constructed); refuted: the text is unterminated when both leading limb and exponent are full, and the result is not always the nearest double."
  },
  {
   "property": "C47",
   "status": "partial",
   "theorems": [
    "C47_ldexp_accurate_partial",
    "C47_int_min_refuted",
    "C47_ldexp_of_zero"
   ],
   "note": "Values, results and powers inside the exponent range, every exponent except the minimum int (undefined behaviour, refuted)."
  },
  {
   "property": "C48",
   "status": "partial",
   "theorems": [
    "C48_remainder_partial",
    "C48_integer_remainder_partial",
    "C48_negative_divisor_refuted",
    "C48_small_limbs_refuted"
   ],
   "note": "Integer-valued operands with a positive divisor, at least four guard digits; refuted for negative divisors, zero by a negative divisor, and 8-bit limbs. Arbitrary non-zero operands of either sign: a whole multiple of the divisor away from the dividend and below the divisor, up to rounding (C48_remainder_partial)."
  },
  {
   "property": "C49",
   "status": "partial",
   "theorems": [
    "C49_frexp_accurate_partial",
    "C49_frexp_zero",
    "C49_power_of_two_refuted",
    "C49_small_exponent_refuted"
   ],
   "note": "Range, sign, termination and error bound proved for exponents with room; exactness is refuted (2^107 gives 0.99..9), as is definedness with the 8-bit exponent type."
  },
  {
   "property": "C50",
   "status": "partial",
   "theorems": [
    "C50_constants_partial"
   ],
   "note": "Proved for at most 51 digits, where the constants are tables, against PI and ln of the standard library Reals; beyond 51 digits they are computed by AGM iterations, which are not modelled."
  },
  {
   "property": "C51",
   "status": "partial",
   "theorems": [
    "C51_exp_partial",
    "C51_exp_stored_constant_partial",
    "C51_last_digits_refuted",
    "C51_large_argument_refuted"
   ],
   "note": "Relative error (22000+|x|)10^-digits10 proved for 16 to 2000 digits and 10^-W <= |x| <= 10^9, given ln_two() to digits10+2 digits, which C50 proves up to 51 digits. Refuted: the last five digits can be wrong (exp(0.352)), and exp(1500000000) is below one because the binary exponent is cut to 32 bits. More than 2000 digits (Newton on log) not modelled."
  },
  {
   "property": "C52",
   "status": "partial",
   "theorems": [
    "C52_log_partial",
    "C52_relative_refuted"
   ],
   "note": "Proved for 16 to 51 digits: all x > 1, x = 1, and x < 1 except powers of the limb base (their reciprocal is not normal) and the numbers within eight units of the working precision below one (where C26 shows log need not return). Refuted: the relative error near one, log(1+99e-13) has 44 right digits of 50. More than 51 digits (AGM) not modelled."
  },
  {
   "property": "C53",
   "status": "partial",
   "theorems": [
    "C53_hyperbolic_partial",
    "C53_sinh_relative_refuted",
    "C53_hyperbolic_of_zero"
   ],
   "note": "Proved for both signs, 16 to 2000 digits, |x| up to 10^9 and within the exponent range, except x for which exp(x) comes out as an exact power of the limb base (reciprocal not well-formed, C39) and, for negative x, for which it is not well-formed; x = 0 in C53_hyperbolic_of_zero. Refuted: sinh has no relative accuracy near zero (sinh(1e-96) = 0 with 50 digits)."
  },
  {
   "property": "C54",
   "status": "partial",
   "theorems": [
    "C54_pow_real_partial",
    "C54_pow_zero"
   ],
   "note": "Proved for 16 to 51 digits, for x = 1 and the x of C52 with |ln x| at least 20 10^-digits10, |a| at most 10^(digits10-8), |a ln x| at most 9 10^8. Missing: x nearer to one, the x < 1 excluded in C52, more than 51 digits; x <= 0 does not return (C26)."
  },
  {
   "property": "C55",
   "status": "proved",
   "theorems": [
    "C55_complex_transform",
    "C55_real_transform",
    "C55_inverse_transform"
   ],
   "note": "Exact real arithmetic (the templates instantiated with the real numbers and exact sines, see C57 for the literals); rounding of the floating-point type is not part of the claim."
  },
  {
   "property": "C56",
   "status": "partial",
   "theorems": [
    "C56_convolution_exact",
    "C56_transform_size",
    "C56_product_partial"
   ],
   "note": "Exact convolution and transform size proved for all arrays. Missing: a bound for the rounding errors of the floating-point run, which enters as the hypothesis that it ends within a quarter unit of the exact run."
  },
  {
   "property": "C57",
   "status": "proved",
   "theorems": [
    "C57_sine_table",
    "C57_sine_one"
   ],
   "note": "Literals as written; their conversion to the floating-point type is not modelled."
  },
  {
   "property": "C58",
   "status": "partial",
   "theorems": [
    "C58_rootn_accurate_partial",
    "C58_rootn_negative_index_partial",
    "C58_rounded_pow_suffices",
    "C58_rootn_special",
    "C58_smallest_index_refuted",
    "C58_root_of_one_refuted"
   ],
   "note": "Proved for indices 3 to 37 (and their negatives), positive x (both signs for cbrt) with room in the exponent, away (to the precision of the built-in type) from the p-th powers of powers of the limb base, built-in pow as a parameter. Refuted: cbrt(1) is not in normal form and compares below 1, cbrt(27) is not 3, rootn(x, INT32_MIN) is undefined. Missing: indices above 37, the excluded neighbourhoods, digit counts failing enough_doublings for p > 3."
  },
  {
   "property": "C59",
   "status": "proved",
   "theorems": [
    "C59_addition_monotone",
    "C59_subtraction_monotone",
    "C59_multiplication_monotone",
    "C59_saturation_refuted"
   ],
   "note": "Exponent-range hypotheses as for C01, C02, C07; across the overflow threshold the order is lost (refuted example)."
  },
  {
   "property": "C60",
   "status": "partial",
   "theorems": [
    "C60_division_monotone_partial",
    "C60_division_refuted"
   ],
   "note": "False of the code when a dividend equals the divisor (special-cased to exactly one): x > v but x/v < 1 (refuted example). Proved for all other dividends and divisors that are not powers of the limb base (their reciprocal is not in normal form)."
  },
  {
   "property": "C61",
   "status": "proved",
   "theorems": [
    "C61_arithmetic",
    "C61_functions",
    "C61_transcendental",
    "C61_histories",
    "C61_allocated_sizes"
   ],
   "note": "Unconditional in operands and configuration; memories of equal sizes (those of the allocations). The products of FFT size (1793 limbs and more) are outside this model of operator*=; C62 covers their pools."
  },
  {
   "property": "C62",
   "status": "proved",
   "theorems": [
    "C62_transforms_local",
    "C62_product_independent"
   ],
   "note": "Parametric in the arithmetic (any type, any operations), so it covers the rounded floating-point run too."
  },
  {
   "property": "C63",
   "status": "partial",
   "theorems": [
    "C63_exp_of_log_partial",
    "C63_log_of_exp_partial"
   ],
   "note": "Both directions proved for 16 to 51 digits: exp(log x) for the x of C52 at least 20 units of the last digit from one in the logarithm (and x = 1), log(exp x) for x from 30000 units of the last digit to 9 10^8. Missing: log(exp x) for negative x and x nearer to zero, more than 51 digits."
  },
  {
   "property": "C64",
   "status": "partial",
   "theorems": [
    "C64_rootn_inv_accurate_partial",
    "C64_rootn_inv_of_index_one_refuted"
   ],
   "note": "Proved for indices 3 to 37 under the hypotheses of C58. Refuted for index 1, where the code returns the argument itself and not its reciprocal. Missing: index 2, indices above 37, the excluded neighbourhoods."
  }
 ]
}