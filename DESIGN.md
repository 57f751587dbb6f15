# Formal model of ckormanyos/wide-decimal in Rocq (Coq 8.16.1)

The model lives in `rocq/theories`. Values are records of limb lists (big-endian, `Z` limbs),
a decimal exponent, a sign and a working precision. Unsigned wrap-around of the C++ double-limb
type is explicit (`mod 2^w`); undefined behaviour, out-of-bounds access and non-termination
(fuel) are distinct outcomes, not defaults. Numeric meaning is given in `Q` by a small separate
specification (`Spec.v`).

## Trusted base

* Coq 8.16.1's kernel, including `vm_compute` (used for closed computations: witnesses, tables). No
  `native_compute`, no plugins of our own, no kernel check switched off.
* Axioms: none of our own. `Print Assumptions` is run on every property theorem in `Properties_*.v` and prints
  "Closed under the global context" for every theorem of C01-C49. The theorems of `Properties_Exp.v` (C50 and
  later, about exp, ln and pi) use the standard library's real numbers and rest on its axioms, exactly
  `ClassicalDedekindReals.sig_not_dec`, `ClassicalDedekindReals.sig_forall_dec`,
  `FunctionalExtensionality.functional_extensionality_dep` and `Classical_Prop.classic`. Only the standard
  library is imported.
* The reading of the C++ source: each definition in a `Model_*.v` file cites the lines it models and says
  where it simplifies. There is no extraction from the source; a wrong reading is the main risk.
* The specifications `Spec*.v`: value of a limb array (`limbs_value`), value of a number (`value`, a
  rational), normal form (`normal`), truncation (`truncates`), decimal literals, printed text,
  half-up rounding, convolution.

## What is modelled

| file | covers |
|---|---|
| Model_Config, Model_Limb | template parameters (u8/u16/u32 limbs, digits10, 8 to 64 bit exponents), limb loops: add, subtract, compare, schoolbook (both variants), times/divided by one limb, Karatsuba with its scratch memory, size tables |
| Model_Dec | the number object: construction from integers, += -= *= /= with all special cases, integer variants, comparison, precision, eps, isint, ++/--, fabs |
| Model_Misc | ilogb, numeric_limits constants, copy/move |
| Model_Round | rounding to digits10, extraction of the integer part, conversion to 64-bit integers, floor, ceil |
| Model_Str | string parsing, digit output, fixed/scientific notation, stream flags, padding |
| Model_Float, Model_Inv | binary floating point with round-to-nearest-even, estimate extraction and construction, Newton reciprocal at growing working precision, division, division by integers, integer powers |
| Model_Sqrt | square root: floating-point start, coupled Newton iteration; the built-in sqrt is a parameter, with the correctly rounded one as an instance |
| Model_Conv | conversions from and to built-in floating-point types, ldexp |
| Model_Rem | fmod, frexp |
| Model_Fft | FFT multiplication: half-limbs, rounding, carry release, operator branch |
| Model_Transform | the FFT itself (whole of decwide_t_detail_fft.h) over an abstract arithmetic, convolution, sine literals |
| Model_Log | control flow of log, pow, inverse roots |
| Model_Root | rootn and cbrt for every index; a stand-in for the built-in pow(q, -1/p) |
| Model_Exp | constants pi, ln 2, ln 10 and log for at most 51 digits, exp for at most 2000 digits, sinh, cosh, tanh |
| Model_Util | slot allocator, dynamic array (with heap and ownership), baselexical_cast |

Everything is parametric in the configuration: theorems quantify over limb type, digits10, exponent type
(and built-in floating-point type), not over instances of them.

## What is not modelled

* The rounding errors of the FFT (decwide_t_detail_fft.h): the code is modelled and proved with exact real arithmetic (C55, C56), the distance of the floating-point run from it is a hypothesis (C32, C56). (A worst-case bound for the twiddle recurrences is above the quarter unit needed at the sizes the code uses.)
* The AGM iterations for pi, ln 2 and log beyond 51 digits, exp beyond 2000 digits.
* Infinities and NaN in conversions from and to built-in floating-point types (the finite conversions are in
  Model_Conv, with the C library's frexp taken from the standard and strtold a parameter); `hash`,
  `numeric_limits` members that are plain literals.
* Threads: the library's objects are not shared, only the slot allocator is process-wide; it is modelled
  sequentially (C22, C23).
* 24-digit alternative limb sizes, the `WIDE_DECIMAL_DISABLE_*` variants, user-supplied allocators that throw.

## Simplifications

* Limbs and exponents are unbounded `Z`, with the C++ conversions written out (`ucast w`, `scast w`). Where
  C++ would overflow a signed type the result is `None` (integer operations) or, for exponents, the
  two's-complement wrap.
* The built-in floating-point type has unbounded exponent range in Model_Float (estimates lie between
  10^-9 and 10^9, so neither overflow nor subnormals occur there); Model_Log adds infinity where it
  matters.
* The memory pools of a multiplication are arbitrary lists of the right length: theorems hold for every
  prior content.
* `strtoll`/`strtoul` are modelled from the C standard.
* Binary searches over tables are linear searches; nested constexpr conditionals are table searches.
* Aliasing: operators on two distinct objects; `x -= x`, `x += x` are modelled separately (C18).

## How theorems and refutations are named

`Cxx_name` - proved as claimed (possibly with the range hypotheses it states); `_partial` - part of the claim;
`_refuted` - the claim, read literally, is false of the model of the code, with the witness in the statement.
Each theorem has an `Example` beside it meeting its hypotheses.

## Defects found (all as `_refuted` theorems)

* Schoolbook multiplication with 16-bit limbs overflows its 32-bit column sums from 43 limbs on (C04).
* 0 * x keeps the exponent of the zero; x*0 can carry a stale sign or exponent (C17); `x -= x` doubles x (C18).
* Addition at reduced precision uses stale limbs (C19).
* lowest() is not the most negative value; eps not in normal form for some digits10 (C28).
* floor/ceil/integer conversion fail when the integer part has more limbs than are kept (C11, C20).
* Rounding with too few limbs below the rounding position leaves a stale limb (C30).
* Exponents of parsed literals wrap silently (C12); stream flag combinations differ from built-in types and one throws (C31).
* Slot allocator ignores the requested size (C23); swap of a dynamic array with an rvalue double-frees (C24); ordering ignores length (C25).
* 0.99...9 is treated as one by multiplication and division (C07, C27, C39).
* Reciprocal: not normal for powers of the base, out-of-bounds for short u8 configurations, inaccurate with long double estimates for wider limbs (C39).
* FFT multiplication reads past the limb array when the leading product limb is zero and drops the last limb (C32).
* log(x <= 0), log(0.99...9), pow(x <= 0, a), cbrt(0) do not return; root index = 0 mod 2^E divides by zero (C26).
* cbrt(1) is a representation with a limb equal to the limb base, less than 1 by comparison; cbrt(27) is 3 + 3e-72; rootn(x, INT32_MIN) negates INT32_MIN (C58).
* rootn_inv(x, 1) returns x, not 1/x (C64).
* x > v but x / v < v / v = 1 for x one unit above v = 12345 (C60); near overflow the product of the larger number is the smaller one, products up to 10^7 times max() exist while larger ones saturate to max() (C59).
* sqrt of a perfect square can be one unit of the last limb too large: sqrt(1000000) > 1000 (C44).
* decwide_t<16>(1.0) is 0.99..9, and converting it to an integer gives 0; subnormal numbers convert to zero (C45).
* Conversion to a built-in float may hand strtold a text with no terminating zero, and rounds twice (C46).
* ldexp(x, INT_MIN) negates INT_MIN (C47).
* fmod uses floor/ceil by the sign of the dividend only: fmod(5,-3) is -1, fmod(0,-3) is -3; with 8-bit limbs fmod(8280,92) is 92 (C48).
* frexp(2^107) is 0.99..9 with exponent 107; with 8-bit exponents frexp(1e40) converts an unrepresentable long double (C49).
* exp can lose the last five of its digits10 digits (exp(0.352)), and exp(1500000000) is below one (C51).
* log(1+99e-13) has only 44 right digits of 50: the series is cut off at an absolute size (C52).
* sinh(1e-96) with 50 digits is zero: sinh has no relative accuracy near zero (C53).
* The minimum signed integer is negated in -=, pow (C36).

## Mutation testing

`seeded/LOG.jsonl` records edits of the model definitions (each a plausible bug), the theorems whose proofs
then fail and the theorems that were tightened. The harness admits each failing lemma in a scratch copy and
continues, and a property theorem counts as failed when it then depends on an admitted lemma or its own proof fails.

## Plan per property

- **C01 Same-sign addition is accurate to the last stored limb** - Model operator+= branch by branch on limb lists; induct on limb lists for eval_add_n; lift to Q values.
- **C02 Opposite-sign addition / subtraction is accurate and has the right sign** - Same model, subtract branch; borrow induction; justify loop.
- **C03 Schoolbook limb multiplication is the exact product** - Row-wise (u8) and column-wise (u16/u32) loops with the double-limb wrap explicit; column invariant by induction.
- **C04 Schoolbook multiplication never overflows its accumulator for any supported configuration** - Refuted with a closed witness for 16-bit limbs; proved for u8/u32.
- **C05 Karatsuba multiplication equals the exact product and stays inside its scratch memory** - Recursive model over result and scratch arrays with bounds-checked slice reads/writes; induction on recursion depth.
- **C06 The padded Karatsuba sizes are always adequate** - Finite table sweep by computation, lifted to all limb counts in range.
- **C07 Multiplication is accurate to the last stored limb** - Combination of the product theorem with the truncation/renormalisation step of operator*=.
- **C08 Comparison is the numeric order** - Case analysis on sign/exponent; lexicographic = numeric order for equal-length normalised limb lists.
- **C09 Normal form is preserved by every sequence of arithmetic operations** - State machine over a store of values with an operation alphabet; one-step invariant, fold.
- **C10 Integer construction is exact and integer conversion inverts it** - Model of from_unsigned_long_long and extract_*; loop invariants.
- **C11 Integer conversion truncates and saturates** - Same model; saturation branches; refutation where the code differs.
- **C12 Parsing a decimal literal yields its value** - Model of rd_string over character lists with wrap-free exponent, relation to literal value.
- **C13 Printing then parsing returns the value** - Model of digit extraction and scientific printing; composition with C12.
- **C14 Rounding of printed digits is half-up and carries correctly** - Model of get_output_string rounding; numeric spec of half-up rounding.
- **C15 Multiplication by a built-in integer is accurate** - mul_loop_n invariant; value bound.
- **C16 Division by a built-in integer is accurate** - div_loop_n invariant; value bound; refutation of exact truncation.
- **C17 Zero annihilates under multiplication** - Refuted by witnesses; what does hold is proved.
- **C18 Subtracting a variable from itself gives zero** - Refuted by witness; proved for every normalised non-zero x that x-=x doubles.
- **C19 Addition at reduced precision stays accurate** - Refuted by witness.
- **C20 floor and ceil return the neighbouring integers** - Proved in the range where integer part extraction works; refuted beyond.
- **C21 Sign-magnitude wrapper arithmetic is correct** - Z model with wrap; complete case analysis.
- **C22 Slot allocator hands out disjoint live slots** - State machine with history; invariant by induction over operation list.
- **C23 Slot allocator honours the requested size** - Refuted.
- **C24 Dynamic arrays own their storage uniquely** - Heap/ownership state machine; invariant for all operations but rvalue swap; refuted with it.
- **C25 Dynamic-array ordering is lexicographic** - Equality proved; ordering refuted on proper prefixes; what it does is characterised.
- **C26 Elementary functions terminate on their whole argument range** - Fuelled model of the recursion structure; refuted: out of fuel for every fuel.
- **C27 Division conventions** - Case analysis of operator/= prologue.
- **C28 numeric_limits constants are what they claim** - Closed forms for all digits10; lowest refuted; eps normal form refuted for digits10 mod limb digits = 1.
- **C29 Decimal conversion of built-in unsigned integers is right** - Digit recursion, positional value.
- **C30 Rounding a value to its decimal digits is half-up** - Model on limb list; numeric half-up spec; refutation for last limb of u8.
- **C31 Stream formatting follows the stream flags** - Pure string functions; refutations for the faulty flag combinations.
- **C32 FFT carry release reconstructs the exact product** - Half-limb splitting, rounding in the FFT floating-point type, carry release and the operator's FFT branch are modelled; the transform itself is a parameter constrained to be within a quarter unit of the convolution.
- **C33 Integer powers compute the power** - Ladder with the real multiplication; relative error by induction on the exponent's bits; exact for integers that fit; negative exponents through the reciprocal.
- **C34 Addition and multiplication are commutative** - From models of += and *=.
- **C35 Precision setting is clamped and monotone** - Z function; case analysis.
- **C36 Integer operations have defined behaviour for all arguments** - Int64 operations with UB outcome; refuted at the minimum.
- **C37 Decimal order of a value** - Z function; log10 spec.
- **C38 isint detects integers exactly** - Model on limb list; integrality in Q.
- **C39 Reciprocal iteration converges to the inverse** - Executable model of the estimate in binary floating point (round to nearest even), digit extraction, Newton loop at growing working precision; error recurrence over Q with truncation terms.
- **C40 Identities of zero, one and negation** - Corollaries of the branch models.
- **C41 Assignment and moves** - Heap-free model of copy/move of the limb array; refuted after a move.
- **C42 Division is accurate** - Reciprocal theorem composed with multiplication of a possibly denormal reciprocal.
- **C43 Integer-valued arithmetic is exact** - Truncation theorems plus the fact that integers that fit have no digits below the cut; lifted to whole histories by a refinement against an integer interpreter (Spec_Hist.v).
- **C44 The square root is accurate** - Model of the coupled iteration (Model_Sqrt.v) with the built-in sqrt as a parameter; invariant over Q for both iterates (root and half reciprocal root) with the truncation terms of each working precision; the exponents of both iterates never change away from powers of the limb base.
- **C45 Conversion from built-in floating-point numbers** - Model of the bit loop and of the scaling by a power of one half or two (Model_Conv.v); mantissa recovered exactly by induction over the bits; error from the power theorem (C33) and one product; exactness from products of integers that fit.
- **C46 Conversion to built-in floating-point numbers** - Model of the text built for strtold, shown to be a literal of the specification within 10^-21 of the value; rounding analysed in Q, strtold a parameter.
- **C47 ldexp** - Composition of the power, product, quotient and integer-scaling theorems.
- **C48 fmod of integers** - The quotient's error (C42) is too small for the rounding inside floor/ceil to cross an integer; then an exact product and difference (C43).
- **C49 frexp** - Bounds on 10^k against powers of two from two tabulated powers; power and reciprocal theorems for the scaling (also when the reciprocal is not normal); invariants with an error budget for the two loops, their length from a geometric bound.
- **C50 constants** - Certified decimal enclosures of PI (Machin-like formula), ln 2, ln 10 (exponential series) in the standard library's Reals by closed integer computations; cutting at a limb boundary for every configuration.
- **C51 exp** - Argument reduction, series, 2048th power and scaling each analysed in Q on top of the theorems for division, product, ldexp (the series loop by an invariant with an error budget per term, its length from the geometric decay); the chain of errors against the standard library's exp in Reals.
- **C52 log** - Scaling by the power of ten from ilogb, the comparison with 1.8F through the conversion theorem (C45), the difference with one (zero, or at least a unit of the last limb), the series loop by an invariant with a geometric error budget, the multiple of ln 10 (C50); the tail of the logarithmic series and ln of a product in Reals.
- **C53 sinh, cosh, tanh** - exp by C51, its reciprocal by the division theorem, difference and sum by the addition theorems (the difference is zero or at least a unit of the last limb), half by the integer division theorem, the quotient by the division theorem; cosh >= 1, |sinh| <= cosh and the quotient of two approximations in Reals.
- **C54 pow(x, a)** - Composition of C52, the product theorem and C51; the exponential of an approximate exponent in Reals.
- **C55 FFT is the DFT** - The file's templates over an abstract arithmetic (Model_Transform.v), instantiated with the real numbers and exact sines; bit reversal as a recursive function, invariants for the swapping, butterfly and separating loops, induction over the size, orthogonality of the roots of unity for the inverse.
- **C56 FFT convolution** - C55 three times and the product of two transforms; the zero padding excludes wrap-around; joined with C32.
- **C57 sine literals** - Enclosures with 70-digit ends, each from the previous one by the double-angle formula, checked by closed integer computations.
- **C58 cbrt, rootn** - The iteration's residual 1 - x r^p obeys a quadratic recurrence with the truncation terms of the power ladder, product and small division at each working precision; starting value from the built-in pow (parameter with an error bound, shown satisfiable) through the mantissa reader and constructor; reciprocal by C39.
- **C59 monotone + - \*** - Results are floors (same-sign sums, products) or ceilings (differences) of the exact results on decimal grids whose unit is read off the result or the larger operand; grids of larger magnitude are coarser, so floors and ceilings keep the order; zeros, ones and 0.99..9 by cases.
- **C60 monotone /** - A quotient is the product with one reciprocal, C59 applies; the equal-operand shortcut is refuted.
- **C61 no stale memory** - Relational: two runs side by side. A Karatsuba level keeps its result area equal in its first 2n cells whatever the areas held (agreement on a prefix, lengths equal everywhere); every function that multiplies inherits equality by congruence.
- **C62 FFT confined** - Two arrays equal on [0, n) and arbitrary beyond, followed store by store through the loops for an arbitrary arithmetic.
- **C63 exp and log undo each other.** Model of C51/C52; the two error bounds are composed over the standard library's Reals (Inverse_proofs). Also C47/C53 at zero (Zero_proofs) and fmod (C48) of arbitrary operands (Fmod3_proofs).
- **C64 rootn_inv.** Model of C58; the inner statement of the root proof about the iteration, restated (Rootinv_proofs). Index 1 is refuted.
