{"id": "C01", "title": "Same-sign addition is accurate to the last stored limb", "statement": "For two full-precision finite values of the same sign, x += y yields a value whose magnitude never exceeds |x|+|y| and misses it by less than one unit (one limb carry-out: one limb unit) in the last stored limb of the result's exponent window; when both operands have the same exponent and no carry leaves the top limb, or when nothing is shifted out, the sum is exact.", "quantifier": "every pair of well-formed same-sign values, every limb type, every digits10", "why_tests_cant": "Carry chains, alignment offsets and carry-out renormalisation depend on every limb combination; only a handful of digit patterns can be sampled.", "anchors": ["math/wide_decimal/decwide_t.h:operator+=", "math/wide_decimal/decwide_t_detail_ops.h:eval_add_n"]}
{"id": "C02", "title": "Opposite-sign addition / subtraction is accurate and has the right sign", "statement": "For two full-precision values of opposite sign, x += y yields a value whose distance from x+y is less than one unit in the last stored limb of the larger operand's exponent window; it has the sign of x+y; it is exact when the two exponents agree; it is zero exactly when x = -y.", "quantifier": "every pair of well-formed opposite-sign values, every limb type, every digits10", "why_tests_cant": "Borrow chains, cancellation and renormalisation depend on every limb combination.", "anchors": ["math/wide_decimal/decwide_t.h:operator+=", "math/wide_decimal/decwide_t_detail_ops.h:eval_subtract_n"]}
{"id": "C03", "title": "Schoolbook limb multiplication is the exact product", "statement": "Multiplying two count-limb magnitudes yields 2*count limbs, each below the limb base, which denote exactly the product of the two magnitudes, as long as column sums fit the double-limb accumulator; the accumulator fits for every count used with 8-bit and 32-bit limbs below the Karatsuba threshold.", "quantifier": "every pair of limb arrays of every equal length, each limb width", "why_tests_cant": "Column sums depend on all limbs at once, and accumulator overflow happens only for extreme limbs at sufficient length.", "anchors": ["math/wide_decimal/decwide_t_detail_ops.h:eval_multiply_n_by_n_to_2n", "math/wide_decimal/decwide_t.h:eval_mul_dispatch_multiplication_method"]}
{"id": "C04", "title": "Schoolbook multiplication never overflows its accumulator for any supported configuration", "statement": "For every limb type and every number of digits for which schoolbook multiplication is selected, no column accumulator can wrap, so the product of two values is right.", "quantifier": "every configuration (limb type, digits10) selecting the schoolbook path and every pair of operands", "why_tests_cant": "Only operands with many near-maximal limbs reach the extreme column sums.", "anchors": ["math/wide_decimal/decwide_t_detail_ops.h:eval_multiply_n_by_n_to_2n", "math/wide_decimal/decwide_t.h:elems_for_kara"]}
{"id": "C05", "title": "Karatsuba multiplication equals the exact product and stays inside its scratch memory", "statement": "For every length whose successive halvings stay even until the base case, the recursive multiplication of two n-limb magnitudes yields exactly their 2n-limb product, never reads or writes outside the result (2n limbs) or the scratch area (4n limbs), and the result does not depend on the scratch area's previous contents.", "quantifier": "every pair of limb arrays of such a length, every initial scratch content", "why_tests_cant": "Sign cases and carry/borrow propagation in the middle term depend on relations between halves at each recursion level; out-of-bounds accesses may be silent.", "anchors": ["math/wide_decimal/decwide_t_detail_ops.h:eval_multiply_kara_n_by_n_to_2n", "math/wide_decimal/decwide_t_detail_ops.h:eval_multiply_kara_propagate_carry", "math/wide_decimal/decwide_t_detail_ops.h:eval_multiply_kara_propagate_borrow"]}
{"id": "C06", "title": "The padded Karatsuba sizes are always adequate", "statement": "For every number of limbs that selects Karatsuba multiplication the chosen padded size is at least that number of limbs, halves evenly down to the base case, and the scratch pool supplied is large enough.", "quantifier": "every limb count in the Karatsuba range of the size table", "why_tests_cant": "The size depends on digits10; unit tests instantiate only a few template arguments.", "anchors": ["math/wide_decimal/decwide_t_detail.h:a029750", "math/wide_decimal/decwide_t.h:eval_mul_dispatch_multiplication_method"]}
{"id": "C07", "title": "Multiplication is accurate to the last stored limb", "statement": "For full-precision non-zero finite values neither of which is (recognised as) one, whose exponent sum lies inside the exponent range, x *= y has the sign of the product, magnitude at most |x*y| and within one unit of the last stored limb of the result; multiplying by exactly one is exact.", "quantifier": "every pair of well-formed values, every limb type, every digits10", "why_tests_cant": "Truncation and leading-limb renormalisation depend on all limbs of both factors.", "anchors": ["math/wide_decimal/decwide_t.h:operator*=", "math/wide_decimal/decwide_t.h:eval_mul_dispatch_multiplication_method"]}
{"id": "C08", "title": "Comparison is the numeric order", "statement": "cmp, and the operators built on it, return the sign of the numeric difference for every pair of normalised values, hence form a total order compatible with equality.", "quantifier": "every pair (and triple, for transitivity) of normalised values", "why_tests_cant": "Ordering must hold for all pairs of signs, exponents and limb patterns.", "anchors": ["math/wide_decimal/decwide_t.h:cmp", "math/wide_decimal/decwide_t_detail_ops.h:compare_ranges"]}
{"id": "C09", "title": "Normal form is preserved by every sequence of arithmetic operations", "statement": "Starting from normalised values, any sequence of negations, additions, subtractions, multiplications and multiplications/divisions by built-in integers leaves every value normalised: limb count constant, limbs below the base, leading limb non-zero unless the value is zero, exponent a multiple of the limb digits.", "quantifier": "every finite sequence of operations on every store of values", "why_tests_cant": "A history property: each operation relies on the normal form left by earlier ones.", "anchors": ["math/wide_decimal/decwide_t.h:operator+=", "math/wide_decimal/decwide_t.h:operator*=", "math/wide_decimal/decwide_t.h:mul_unsigned_long_long", "math/wide_decimal/decwide_t.h:div_unsigned_long_long", "math/wide_decimal/decwide_t.h:negate"]}
{"id": "C10", "title": "Integer construction is exact and integer conversion inverts it", "statement": "Constructing from any 64-bit signed or unsigned integer yields exactly that value whenever digits10 covers its digits, and converting back returns the same integer.", "quantifier": "every 64-bit integer, every limb type, every digits10 large enough", "why_tests_cant": "2^64 values per configuration, with limb-boundary corner cases.", "anchors": ["math/wide_decimal/decwide_t.h:from_unsigned_long_long", "math/wide_decimal/decwide_t.h:extract_unsigned_long_long", "math/wide_decimal/decwide_t.h:extract_signed_long_long"]}
{"id": "C11", "title": "Integer conversion truncates and saturates", "statement": "Conversion of a finite value to a signed/unsigned 64-bit integer yields the truncation toward zero when that is representable and the nearest representable limit otherwise.", "quantifier": "every well-formed value", "why_tests_cant": "Limits and fraction boundaries depend on all limbs and exponents.", "anchors": ["math/wide_decimal/decwide_t.h:extract_unsigned_long_long", "math/wide_decimal/decwide_t.h:extract_signed_long_long"]}
{"id": "C12", "title": "Parsing a decimal literal yields its value", "statement": "A string [sign]digits[.digits][e[sign]digits] is parsed to the decimal value it denotes, exactly when its significant digits fit the stored limbs and otherwise truncated below the last stored limb.", "quantifier": "every literal of that shape, every configuration", "why_tests_cant": "Unbounded strings; leading/trailing zeros, point position and limb alignment interact.", "anchors": ["math/wide_decimal/decwide_t.h:rd_string"]}
{"id": "C13", "title": "Printing then parsing returns the value", "statement": "The decimal digits extracted for output are the correctly placed digits of the stored value, so that printing in scientific notation with enough digits and parsing the text returns an equal value.", "quantifier": "every well-formed value whose digits fit the requested precision", "why_tests_cant": "All digit patterns and exponents.", "anchors": ["math/wide_decimal/decwide_t.h:get_output_digits", "math/wide_decimal/decwide_t.h:get_output_string", "math/wide_decimal/decwide_t.h:wr_string", "math/wide_decimal/decwide_t.h:rd_string"]}
{"id": "C14", "title": "Rounding of printed digits is half-up and carries correctly", "statement": "The extracted digit string is the stored digit string rounded half-up at the requested length; a carry out of the first digit prepends a 1 and increments the printed exponent.", "quantifier": "every well-formed value and every digit count", "why_tests_cant": "Carry propagation through arbitrarily long runs of nines.", "anchors": ["math/wide_decimal/decwide_t.h:get_output_string", "math/wide_decimal/decwide_t.h:get_output_digits"]}
{"id": "C15", "title": "Multiplication by a built-in integer is accurate", "statement": "Multiplying by an unsigned built-in integer gives a magnitude at most |x*n| and within one unit of the last stored limb, is exact when no limb is carried out, and keeps/flips the sign correctly.", "quantifier": "every well-formed value, every 64-bit integer", "why_tests_cant": "All limb patterns times all multipliers.", "anchors": ["math/wide_decimal/decwide_t.h:mul_unsigned_long_long", "math/wide_decimal/decwide_t.h:mul_signed_long_long", "math/wide_decimal/decwide_t_detail_ops.h:mul_loop_n"]}
{"id": "C16", "title": "Division by a built-in integer is accurate", "statement": "Dividing by a non-zero unsigned built-in integer gives the quotient truncated at the last stored limb.", "quantifier": "every well-formed value, every divisor", "why_tests_cant": "All limb patterns and divisors; renormalisation happens only for some of them.", "anchors": ["math/wide_decimal/decwide_t.h:div_unsigned_long_long", "math/wide_decimal/decwide_t_detail_ops.h:div_loop_n"]}
{"id": "C17", "title": "Zero annihilates under multiplication", "statement": "0*x and x*0 are (positive) zero for every finite x, and multiplication is commutative.", "quantifier": "every well-formed value", "why_tests_cant": "Special cases combine with sign, one-detection and exponent-range checks.", "anchors": ["math/wide_decimal/decwide_t.h:operator*="]}
{"id": "C18", "title": "Subtracting a variable from itself gives zero", "statement": "x -= x leaves zero in x, as x - x does.", "quantifier": "every well-formed value", "why_tests_cant": "Aliasing of operand and destination is rarely tested and depends on evaluation order.", "anchors": ["math/wide_decimal/decwide_t.h:operator-="]}
{"id": "C19", "title": "Addition at reduced precision stays accurate", "statement": "After lowering an operand's working precision, addition still returns a value within one unit of the last active limb of the true sum.", "quantifier": "every precision setting and every pair of values", "why_tests_cant": "Precision settings and carry-out combine.", "anchors": ["math/wide_decimal/decwide_t.h:operator+=", "math/wide_decimal/decwide_t.h:precision"]}
{"id": "C20", "title": "floor and ceil return the neighbouring integers", "statement": "floor(x) is the largest integer not above x and ceil(x) the least not below it.", "quantifier": "every well-formed value", "why_tests_cant": "Depends on exponents against digits10 and on every fractional limb.", "anchors": ["math/wide_decimal/decwide_t.h:floor", "math/wide_decimal/decwide_t.h:ceil", "math/wide_decimal/decwide_t.h:extract_integer_part"]}
{"id": "C21", "title": "Sign-magnitude wrapper arithmetic is correct", "statement": "The unsigned-magnitude-plus-sign helper used for string exponent arithmetic computes exact signed sums and differences whenever the magnitude fits the underlying unsigned type.", "quantifier": "every pair of representable values", "why_tests_cant": "All sign and magnitude combinations.", "anchors": ["math/wide_decimal/decwide_t_detail.h:unsigned_wrap"]}
{"id": "C22", "title": "Slot allocator hands out disjoint live slots", "statement": "Over every history of allocations and deallocations, two simultaneously live allocations never share a slot, a returned pointer always addresses a whole slot inside the pool, an allocation fails only when every slot is live, and freeing makes the slot available again.", "quantifier": "every finite history of allocate/deallocate calls", "why_tests_cant": "A property of all histories.", "anchors": ["util/memory/util_n_slot_array_allocator.h:n_slot_array_allocator"]}
{"id": "C23", "title": "Slot allocator honours the requested size", "statement": "A successful allocation of count elements provides at least count elements.", "quantifier": "every requested count", "why_tests_cant": "Only requests larger than the slot width expose it.", "anchors": ["util/memory/util_n_slot_array_allocator.h:allocate"]}
{"id": "C24", "title": "Dynamic arrays own their storage uniquely", "statement": "Over every sequence of construction, copy, move, swap and destruction, each live array refers to storage owned by no other live array, no storage is released twice and none is leaked.", "quantifier": "every finite sequence of operations", "why_tests_cant": "Ownership over histories; double free may go unnoticed.", "anchors": ["util/utility/util_dynamic_array.h:dynamic_array"]}
{"id": "C25", "title": "Dynamic-array ordering is lexicographic", "statement": "operator== and operator< on dynamic arrays are equality and the lexicographic order of the sequences.", "quantifier": "every pair of arrays of all lengths", "why_tests_cant": "All lengths and contents, in particular proper prefixes.", "anchors": ["util/utility/util_dynamic_array.h:operator<", "util/utility/util_dynamic_array.h:operator=="]}
{"id": "C26", "title": "Elementary functions terminate on their whole argument range", "statement": "log, pow and the root functions return for every argument, including zero and negative arguments.", "quantifier": "every well-formed argument", "why_tests_cant": "Non-termination cannot be observed by a finite test run, and the argument range is unbounded.", "anchors": ["math/wide_decimal/decwide_t.h:log", "math/wide_decimal/decwide_t.h:pow", "math/wide_decimal/decwide_t.h:cbrt", "math/wide_decimal/decwide_t.h:rootn"]}
{"id": "C27", "title": "Division conventions", "statement": "Dividing zero by zero, dividing by zero, dividing equal values and dividing by one follow the documented conventions consistently: x/x = 1 for non-zero x, x/1 = x, and division by zero yields the library's zero.", "quantifier": "every well-formed pair", "why_tests_cant": "The special-case tests are ordered and overlap.", "anchors": ["math/wide_decimal/decwide_t.h:operator/=", "math/wide_decimal/decwide_t.h:calculate_inv"]}
{"id": "C28", "title": "numeric_limits constants are what they claim", "statement": "epsilon() is 10^(1-digits10) and is stored in normal form so that it compares correctly; max()/min() are the largest/smallest positive values; lowest() is -max().", "quantifier": "every configuration", "why_tests_cant": "One instance per (limb type, digits10), unboundedly many.", "anchors": ["math/wide_decimal/decwide_t.h:my_value_eps", "math/wide_decimal/decwide_t.h:my_value_max", "math/wide_decimal/decwide_t.h:my_value_min", "math/wide_decimal/decwide_t.h:numeric_limits"]}
{"id": "C29", "title": "Decimal conversion of built-in unsigned integers is right", "statement": "baselexical_cast writes exactly the decimal (or hexadecimal) digits of the number without leading zeros, into at most the digits available, and the result reads back as the number.", "quantifier": "every unsigned value", "why_tests_cant": "2^64 values.", "anchors": ["util/utility/util_baselexical_cast.h:baselexical_cast"]}
{"id": "C30", "title": "Rounding a value to its decimal digits is half-up", "statement": "Rounding a value (as floor, ceil, integer conversion do) yields the multiple of the decimal unit at its (digits10+4)-th significant digit nearest (half away from zero) to the original value.", "quantifier": "every well-formed value, every configuration", "why_tests_cant": "All digit patterns, position inside a limb, carry propagation.", "anchors": ["math/wide_decimal/decwide_t.h:eval_round_self"]}
{"id": "C31", "title": "Stream formatting follows the stream flags", "statement": "Writing a value honours precision, sign, showpoint, width and fill the way a built-in floating-point type does and never throws for any flag combination.", "quantifier": "every value and every combination of flags, precision and width", "why_tests_cant": "The product of flags, precisions and values is unbounded.", "anchors": ["math/wide_decimal/decwide_t.h:wr_string", "math/wide_decimal/decwide_t.h:wr_string_fixed", "math/wide_decimal/decwide_t.h:wr_string_scientific", "math/wide_decimal/decwide_t.h:operator<<"]}
{"id": "C32", "title": "FFT carry release reconstructs the exact product", "statement": "Provided the transformed convolution is rounded to the exact integer coefficients, releasing the carries yields exactly the product limbs, and no element outside the result buffer is read.", "quantifier": "every pair of limb arrays", "why_tests_cant": "Only very large precisions use the path; all digit patterns.", "anchors": ["math/wide_decimal/decwide_t_detail_ops.h:mul_loop_fft", "math/wide_decimal/decwide_t.h:eval_mul_dispatch_multiplication_method"]}
{"id": "C33", "title": "Integer powers compute the power", "statement": "pow(x, n) for integer n performs a sequence of multiplications (and at most one reciprocal) whose exact result is x^n, for every n.", "quantifier": "every base and every 64-bit exponent", "why_tests_cant": "All exponents, including the extreme ones.", "anchors": ["math/wide_decimal/decwide_t.h:pow"]}
{"id": "C34", "title": "Addition and multiplication are commutative", "statement": "x+y and y+x, and x*y and y*x, are equal values for all full-precision non-zero operands.", "quantifier": "every pair of well-formed values", "why_tests_cant": "Order-dependent branches (which operand is larger, zero, one) for every pair.", "anchors": ["math/wide_decimal/decwide_t.h:operator+=", "math/wide_decimal/decwide_t.h:operator*="]}
{"id": "C35", "title": "Precision setting is clamped and monotone", "statement": "precision(k) sets a working precision between two limbs and the full limb count, monotone in k, providing at least the requested digits when they fit.", "quantifier": "every requested digit count", "why_tests_cant": "All integers.", "anchors": ["math/wide_decimal/decwide_t.h:precision", "math/wide_decimal/decwide_t.h:get_precision"]}
{"id": "C36", "title": "Integer operations have defined behaviour for all arguments", "statement": "Adding, subtracting, multiplying, dividing by and raising to any 64-bit integer never overflows a built-in signed type.", "quantifier": "every 64-bit integer argument", "why_tests_cant": "Only the extreme value misbehaves, and undefined behaviour may be silent.", "anchors": ["math/wide_decimal/decwide_t.h:sub_signed_long_long", "math/wide_decimal/decwide_t.h:pow", "math/wide_decimal/decwide_t.h:rootn"]}
{"id": "C37", "title": "Decimal order of a value", "statement": "ilogb(x) is the base-10 exponent of the leading decimal digit of x, and order-of-integer counts its decimal digits.", "quantifier": "every non-zero value / every built-in integer", "why_tests_cant": "All values and exponents.", "anchors": ["math/wide_decimal/decwide_t.h:ilogb", "math/wide_decimal/decwide_t_detail.h:order_of_builtin_integer"]}
{"id": "C38", "title": "isint detects integers exactly", "statement": "isint(x) holds exactly when the value is an integer.", "quantifier": "every well-formed value", "why_tests_cant": "All exponents and limb positions.", "anchors": ["math/wide_decimal/decwide_t.h:isint"]}
{"id": "C39", "title": "Reciprocal iteration converges to the inverse", "statement": "Given an initial estimate of bounded relative error, each Newton step squares the relative error up to the working-precision truncation, so the computed inverse is accurate to the number of digits the loop aims for.", "quantifier": "every non-zero value, every configuration", "why_tests_cant": "Convergence for all values.", "anchors": ["math/wide_decimal/decwide_t.h:calculate_inv"]}
{"id": "C40", "title": "Identities of zero, one and negation", "statement": "x+0 = x, 0+x = x, x*1 = x, 1*x = x, -(-x) = x, x + (-x) = 0, |x| >= 0 and fabs(-x) = fabs(x), observed on value, sign and comparison.", "quantifier": "every well-formed value", "why_tests_cant": "All values.", "anchors": ["math/wide_decimal/decwide_t.h:operator+=", "math/wide_decimal/decwide_t.h:operator*=", "math/wide_decimal/decwide_t.h:negate", "math/wide_decimal/decwide_t.h:fabs"]}
{"id": "C41", "title": "Assignment makes the target a copy of the source", "statement": "After x = y, x holds the value of y and y is unchanged, whatever happened to x before, including x having been moved from.", "quantifier": "every history of constructions, copies, moves and assignments", "why_tests_cant": "A property of all object histories.", "anchors": ["math/wide_decimal/decwide_t.h:operator=", "math/wide_decimal/decwide_t_detail.h:fixed_dynamic_array", "util/utility/util_dynamic_array.h:dynamic_array"]}
{"id": "C42", "title": "Division is accurate", "statement": "For full-precision non-zero x and y with exponents away from the ends of the range, x / y has the sign of the quotient and differs from it by at most 9 units of 10^-(digits10 + two limbs) relative, whatever the working memory contained before.", "quantifier": "every configuration (limb type, digits, exponent type, internal floating-point type), all dividends and divisors in range, all prior memory contents", "why_tests_cant": "the iteration starts from a rounded floating-point estimate and truncates at changing working precisions; the worst-case error over all pairs of operands cannot be sampled", "anchors": ["math/wide_decimal/decwide_t.h: operator/=, calculate_inv, extract_parts, decwide_t(internal_float_type, exponent_type)"]}
{"id": "C43", "title": "Integer-valued arithmetic is exact while it fits", "statement": "Sums, differences, products and sums with built-in integers of integer-valued numbers are exact whenever operands and result have no more decimal digits than the stored limbs.", "quantifier": "every configuration, all pairs of integer-valued objects within the stored digits", "why_tests_cant": "ranges over all pairs of integers of up to hundreds of digits", "anchors": ["math/wide_decimal/decwide_t.h: operator+=, operator-=, operator*=, add_signed_long_long"]}
{"id": "C44", "title": "The square root is accurate", "statement": "For positive x away from the ends of the exponent range, sqrt(x) is a positive full-precision number whose square differs from x by at most 11 units of 10^-(digits10 + two limbs) relative, whatever the working memory contained before; sqrt of zero and one are exact and sqrt of a negative number is zero.", "quantifier": "every configuration (limb type, digits, exponent type, internal floating-point type), all radicands in range, all prior memory contents", "why_tests_cant": "the coupled iteration starts from a rounded floating-point estimate and truncates at changing working precisions; the worst case over all radicands cannot be sampled", "anchors": ["math/wide_decimal/decwide_t.h: sqrt, calculate_sqrt, extract_parts, decwide_t(internal_float_type, exponent_type)"]}
{"id": "C45", "title": "Conversion from built-in floating-point numbers", "statement": "Converting a finite float, double or long double gives a number of the same sign and value: exactly, when the value and the power of two it carries fit the stored digits (in particular integers), and otherwise within a few units of the last limb; converting back returns the original number; zero gives zero.", "quantifier": "every configuration, every normal number of each built-in type in range, both signs, all prior memory contents", "why_tests_cant": "all 2^64 doubles (and more long doubles) in every configuration; the error depends on the exponent through a chain of truncated products", "anchors": ["math/wide_decimal/decwide_t.h: decwide_t(float), decwide_t(double), decwide_t(long double), from_builtin_float_type", "math/wide_decimal/decwide_t_detail.h: native_float_parts"]}
{"id": "C46", "title": "Conversion to built-in floating-point numbers", "statement": "Converting a number in range to float, double or long double gives a finite number of the same sign, the nearest one up to an extra sixteenth of a unit; a number that is (nearly) a number of the type gives exactly that number; zero gives zero.", "quantifier": "every configuration, every value in the range of the target type, each built-in type, every correctly rounding strtold", "why_tests_cant": "ranges over all values and their text; buffer sizes depend on leading digits and exponent width, rounding on digits arbitrarily far down", "anchors": ["math/wide_decimal/decwide_t.h: operator float, operator double, operator long double, extract_long_double, get_output_digits"]}
{"id": "C47", "title": "ldexp scales by a power of two", "statement": "ldexp(x, e) is x * 2^e up to an error of a few units of the last decimal digit plus one growing linearly with |e|.", "quantifier": "every configuration, all non-zero values and all int exponents with results in range, all prior memory contents", "why_tests_cant": "2^32 exponents times all values; the error accumulates over a ladder of truncated products and a division", "anchors": ["math/wide_decimal/decwide_t.h: ldexp, pow, operator/=, mul_unsigned_long_long"]}
{"id": "C48", "title": "fmod of integers is the remainder", "statement": "For integer-valued a and b with b not zero, within the stored digits, fmod(a, b) is exactly the remainder of truncated division, with the sign of a.", "quantifier": "every configuration, all pairs of integers within digits10 - 1 digits, all prior memory contents", "why_tests_cant": "the quotient is inexact and its rounding inside floor/ceil must never cross an integer, for all pairs of integers of up to hundreds of digits", "anchors": ["math/wide_decimal/decwide_t.h: fmod, floor, ceil, operator/=, operator*="]}
{"id": "C49", "title": "frexp splits into fraction and binary exponent", "statement": "frexp(x, &e) ends and returns r with 1/2 <= |r| < 1, the sign of x, and r * 2^e = x up to a relative error of a few dozen units of the last decimal digit (exactly, when x and r are representable); zero gives zero with exponent 0.", "quantifier": "every configuration, all non-zero values whose binary exponent fits, all prior memory contents", "why_tests_cant": "the estimate of the binary exponent is a rounded long double product whose error grows with the exponent, and two loops repair it; termination and accuracy for all exponents cannot be sampled", "anchors": ["math/wide_decimal/decwide_t.h: frexp, calculate_frexp, ilogb, pow"]}
{"id": "C50", "title": "The constants pi, ln 2 and ln 10 are right to the last stored digit", "statement": "pi(), ln_two() and the logarithm of ten are the mathematical constants cut off after the last stored limb, for every limb type and number of digits.", "quantifier": "every configuration (limb type, number of digits, exponent type)", "why_tests_cant": "a test compares with another list of digits; that the digits are those of the mathematical constants, for every way a configuration cuts the table, is a statement about real numbers", "anchors": ["math/wide_decimal/decwide_t.h: calc_pi, calc_ln_two, calc_ln_ten_low_precision"]}
{"id": "C51", "title": "exp(x) is the exponential", "statement": "For every x of either sign whose exponential is representable, exp(x) returns and the result differs from the real exponential e^x by a relative error of at most a fixed multiple of 10^-digits10, growing at most linearly with |x|; exp(0) = 1.", "quantifier": "every configuration of 16 to 2000 digits, all numbers x, all prior memory contents", "why_tests_cant": "argument reduction, the stopping rule of the series, 2048-fold powering and scaling each lose digits; a bound for every argument and number of digits is a statement about real numbers", "anchors": ["math/wide_decimal/decwide_t.h: exp (digits10 <= 2000), ln_two, ldexp, pow"]}
{"id": "C52", "title": "log(x) is the logarithm", "statement": "For every positive x in the exponent range, log(x) returns and differs from the real natural logarithm by at most (9 + |ln x|) 10^-digits10; log(1) = 0.", "quantifier": "every configuration of 16 to 51 digits, all positive numbers x, all prior memory contents", "why_tests_cant": "decimal scaling, the comparison with a rounded 1.8F, the stopping rule of the alternating series and the multiple of ln 10 each lose digits; a bound for every argument and configuration is a statement about real numbers", "anchors": ["math/wide_decimal/decwide_t.h: log (digits10 <= 51), calc_ln_ten_low_precision, ilogb, operator/="]}
{"id": "C53", "title": "sinh, cosh and tanh are the hyperbolic functions", "statement": "For every x whose exponential and its reciprocal are in the exponent range, sinh(x), cosh(x) and tanh(x) return; cosh(x) is within a relative error, and sinh(x) within an error relative to cosh(x), of (23000 + 2|x|) 10^-digits10, and tanh(x) within an absolute error of (47000 + 3|x|) 10^-digits10, of the real functions.", "quantifier": "every configuration of 16 to 2000 digits, all arguments of either sign, all prior memory contents", "why_tests_cant": "cancellation in exp(x) - exp(-x), the reciprocal's rounding and the exponent ranges of the final quotient must be bounded for every argument; the claim is about real functions", "anchors": ["math/wide_decimal/decwide_t.h: sinh, cosh, tanh, exp, calculate_inv, operator-=, operator/="]}
{"id": "C54", "title": "pow(x, a) with a real exponent is the power", "statement": "For positive x and every a with a ln x in the range of exp, pow(x, a) returns and its relative error against the real power x^a is below (23000 + 20|a| + 3|a ln x|) 10^-digits10; pow(x, 0) = 1.", "quantifier": "every configuration of 16 to 51 digits, all bases x, all exponents a of either sign, all prior memory contents", "why_tests_cant": "the absolute error of the logarithm is magnified by a and by the exponential; a bound for every pair of arguments is a statement about real numbers", "anchors": ["math/wide_decimal/decwide_t.h: pow(x, a), log, exp, operator*="]}
{"id": "C55", "title": "The FFT computes the discrete Fourier transform", "statement": "For every power-of-two size and all data, the complex transform, the real forward transform and the real inverse transform, evaluated without rounding, terminate, produce exactly the sums that define the discrete Fourier transform (in the packed half-complex format for real data) and n/2 times the original data respectively, and write nothing outside the array.", "quantifier": "every size 2^p with at least 8 complex / 16 real points, both directions, all real data", "why_tests_cant": "index arithmetic of bit reversal, the in-place recursion and the twiddle recurrences must be right for every size and position, and rounding hides small mistakes in a floating-point test", "anchors": ["math/wide_decimal/decwide_t_detail_fft.h: danielson_lanczos_apply, danielson_lanczos_apply_4_basecase, fft_lanczos_fft, rfft_lanczos_rfft"]}
{"id": "C56", "title": "FFT convolution gives the product", "statement": "The transform size chosen for a multiplication is large enough that the two forward transforms, the pointwise product and the inverse transform, evaluated without rounding, give n/2 times the linear (not wrapped-around) convolution of the digits; hence the limbs of a product are right whenever the floating-point run ends within a quarter unit of the exact one.", "quantifier": "all limb types, all pairs of limb arrays of equal length up to 2^29, all prior pool contents", "why_tests_cant": "wrap-around or packing mistakes show only for particular lengths; the claim is over all digit arrays", "anchors": ["math/wide_decimal/decwide_t_detail_ops.h: mul_loop_fft", "math/wide_decimal/decwide_t_detail.h: a000079_as_constexpr", "math/wide_decimal/decwide_t.h: eval_mul_dispatch_multiplication_method"]}
{"id": "C57", "title": "The sine table is right", "statement": "Every literal of the FFT's table of sines is sin(pi/2^k) to 41 significant digits.", "quantifier": "k = 0 .. 31", "why_tests_cant": "the entries beyond 2^16 are reached only by products of millions of digits, and the built-in sine is less accurate than the literals", "anchors": ["math/wide_decimal/decwide_t_detail_fft.h: template_sin_order_1"]}
{"id": "C58", "title": "cbrt and rootn are accurate and terminate", "statement": "rootn(x, p), and cbrt(x) as rootn(x, 3), return a value whose p-th power is x up to a small multiple of p units in the last carried limb, relatively, with the sign of x; negative p gives the reciprocal root; p = 1, 2 are the identity and the square root; the result compares correctly with other values.", "quantifier": "all x and all 32-bit indices p, both signs, all configurations, all prior contents of the working memory", "why_tests_cant": "convergence of the iteration at growing working precisions depends on the starting value for every mantissa and on the truncation of every step", "anchors": ["math/wide_decimal/decwide_t.h: calculate_rootn_inv", "math/wide_decimal/decwide_t.h: rootn", "math/wide_decimal/decwide_t.h: cbrt"]}
{"id": "C59", "title": "Addition, subtraction and multiplication are monotone", "statement": "If x <= y then x + z <= y + z, x - z <= y - z and z - y <= z - x, and x * z <= y * z for z >= 0 (reversed for z <= 0), for the rounded results, as long as exponents stay inside the range. Truncation of same-sign sums, rounding away of differences, and the shortcuts for factors 1 and 0.99...9 never swap two results.", "quantifier": "all x, y, z of either sign, zeros included, all configurations, all prior contents of the working memory", "why_tests_cant": "the rounding direction and the unit of the last limb change with signs, carries and cancellation; an order violation would appear only for pairs of neighbouring values straddling such a change", "anchors": ["math/wide_decimal/decwide_t.h: operator+=", "math/wide_decimal/decwide_t.h: operator-=", "math/wide_decimal/decwide_t.h: operator*="]}
{"id": "C60", "title": "Division is monotone in the dividend", "statement": "If x <= y then x / z <= y / z for z > 0 (reversed for z < 0), for the rounded results; in particular x > z > 0 never gives a quotient below one.", "quantifier": "all x, y and all non-zero z, all configurations", "why_tests_cant": "the violations are between neighbouring numbers in the last stored limb", "anchors": ["math/wide_decimal/decwide_t.h: operator/=", "math/wide_decimal/decwide_t.h: calculate_inv"]}
{"id": "C61", "title": "Results never depend on leftover contents of working memory", "statement": "The result of every operation (*, /, the mixed integer forms, reciprocal, integer and real powers, sqrt, cbrt, rootn, fmod, frexp, ldexp, conversion from built-in floats, exp, log, sinh, cosh, tanh), and of every sequence of statements, is determined by the operands alone: evaluated again after other computations have left anything whatever in the heap or pool memory used for products and scratch, it is the same value, limb for limb - including whether it is defined at all.", "quantifier": "all operands, all configurations, all pairs of prior contents of the result and scratch areas at every multiplication of the computation, all programs", "why_tests_cant": "a read of a stale scratch limb shows only for particular earlier computations, and fresh allocations are usually zero", "anchors": ["math/wide_decimal/decwide_t.h: eval_mul_dispatch_multiplication_method", "math/wide_decimal/decwide_t_detail_ops.h: eval_multiply_kara_n_by_n_to_2n", "math/wide_decimal/decwide_t.h: operator*="]}
{"id": "C62", "title": "The FFT code is confined to its array, in any arithmetic", "statement": "Whatever the floating-point arithmetic does (rounding included), the complex, real and inverse real transforms and the convolution built on them end, compute the n numbers of their array from those n numbers only, and leave everything beyond the array unchanged; the limbs of an FFT product are therefore independent of what the two pools held before.", "quantifier": "all transform sizes 2^p, p >= 4, all arithmetics, all array contents, all operand sizes up to 2^29 limbs", "why_tests_cant": "an index one past the end at one size, or a stale element of the pool, can go unnoticed in any run", "anchors": ["math/wide_decimal/decwide_t_detail_fft.h: rfft_lanczos_rfft", "math/wide_decimal/decwide_t_detail_fft.h: fft_lanczos_fft", "math/wide_decimal/decwide_t_detail_ops.h: mul_loop_fft"]}
{"id": "C63", "title": "exp and log undo each other", "statement": "For 16 to 51 digits, exp(log(x)) returns x up to the relative error (23000 + 3|ln x|) 10^-digits10, and log(exp(x)) returns x up to the absolute error (23000 + 3x) 10^-digits10.", "quantifier": "every configuration with 16 to 51 digits, every x in the ranges of the two functions with a logarithm not below twenty units of the last digit (exp of log) or x at least 30000 units of the last digit and positive (log of exp), every content of the working memories", "why_tests_cant": "round trips can be sampled only for a few of the 10^51 arguments, and the error of the first call reaches the second in a different place for each", "anchors": ["math/wide_decimal/decwide_t.h: exp, log, calculate_ln_two"]}
{"id": "C64", "title": "rootn_inv is the reciprocal root", "statement": "rootn_inv(x, p) returns for positive x and p >= 1 a value whose p-th power times x is 1 up to a small multiple of p units in the last carried limb.", "quantifier": "all positive x and all indices p, all configurations, all prior contents of the working memory", "why_tests_cant": "convergence of the iteration at growing working precisions depends on the starting value for every mantissa and on the truncation of every step", "anchors": ["math/wide_decimal/decwide_t.h: rootn_inv", "math/wide_decimal/decwide_t.h: calculate_rootn_inv"]}
