{"id": "C01", "title": "Bit counting fallbacks agree with the mathematical definition", "statement": "For an unsigned integer type of w = 2^k bits, support::countr_zero, countl_zero, countr_one, countl_one and bit_width (portable bisection code) return exactly the number of trailing/leading zero/one bits of the argument and the position of the highest set bit plus one, including the value w for the all-zero (all-one) argument.", "quantifier": "every width w that is a power of two and every w-bit value", "why_tests_cant": "2^64 (or 2^128) inputs; the bisection must keep a correct mask in every iteration.", "anchors": ["include/ccmath/internal/support/bits.hpp: countr_zero, countl_zero, countr_one, countl_one, bit_width", "include/ccmath/internal/support/ctz.hpp: generic_ctz"]}
{"id": "C02", "title": "Single-bit test and bit_ceil", "statement": "has_single_bit(v) is true exactly when v is a power of two; bit_ceil(v) returns the least power of two >= v whenever that power fits in the type, and otherwise the code performs an out-of-range shift (undefined).", "quantifier": "every width and every value of that width", "why_tests_cant": "the claim quantifies over all values and over all candidate powers of two.", "anchors": ["include/ccmath/internal/support/bits.hpp: has_single_bit, bit_ceil, bit_floor"]}
{"id": "C03", "title": "Rotations are inverse bijections on words", "statement": "support::rotl(v,c) and rotr(v,c) rotate the w bits of v by c mod w for every int c except INT_MIN in rotl (where -c overflows); rotl by c undoes rotr by c.", "quantifier": "all widths that are powers of two, all values, all int counts", "why_tests_cant": "the negative-count and multiple-of-width branches interact; 2^96 argument pairs.", "anchors": ["include/ccmath/internal/support/bits.hpp: rotl, rotr"]}
{"id": "C04", "title": "Population count", "statement": "The popcount fallbacks return the number of set bits of the argument for unsigned char and 64-bit arguments and for the generic loop; the 16- and 32-bit SWAR fallbacks do not, and a concrete argument is exhibited.", "quantifier": "every value of the type", "why_tests_cant": "tests sample; a SWAR mask error changes only some patterns.", "anchors": ["include/ccmath/internal/support/bits.hpp: popcount"]}
{"id": "C05", "title": "Carry arithmetic is exact", "statement": "add_with_carry / sub_with_borrow on w-bit words satisfy a + b + cin = r + 2^w*cout and a - b - bin = r - 2^w*bout with 0<=r<2^w, so chained words never lose a carry; add_overflow / sub_overflow report exactly whether the mathematical result is out of range.", "quantifier": "every width, all words, both carries", "why_tests_cant": "carry chains must be right for all 2^(2w+1) inputs.", "anchors": ["include/ccmath/internal/support/math_support.hpp: add_with_carry, sub_with_borrow, add_overflow, sub_overflow"]}
{"id": "C06", "title": "Trailing/leading mask constructors", "statement": "mask_trailing_ones<T,n> equals 2^n-1 and mask_leading_ones<T,n> equals 2^w-2^(w-n), for native integers and for multiword integers.", "quantifier": "every width w, every n<=w", "why_tests_cant": "compile-time parameters: each instantiation would need its own test.", "anchors": ["include/ccmath/internal/support/math_support.hpp: mask_trailing_ones, mask_leading_ones", "include/ccmath/internal/types/big_int.hpp: mask_trailing_ones, mask_leading_ones"]}
{"id": "C07", "title": "Multiword addition and subtraction are arithmetic modulo 2^Bits", "statement": "BigInt operator+, +=, add_overflow, operator-, -=, sub_overflow, unary minus, ++, -- and ~ compute the integer operation modulo 2^Bits, and the returned carry/borrow is exactly the overflow of the unsigned operation, for any number of words including the early-exit on zero carry when the right operand is shorter.", "quantifier": "every word size, number of words and pair of values", "why_tests_cant": "number of words and values unbounded; early exit only wrong for rare carry patterns.", "anchors": ["include/ccmath/internal/types/big_int.hpp: inplace_binop, add_with_carry, sub_with_borrow, operator+, operator-, operator++, negate"]}
{"id": "C08", "title": "Multiword multiplication is exact", "statement": "ful_mul returns the exact product of the represented unsigned integers in the wider type (for negative signed operands it is still the product of the unsigned bit patterns, exhibited as a counterexample to signed exactness), operator* the product modulo 2^Bits, mul(word) the product modulo 2^Bits. The carry returned by mul(word) is always 0 instead of the overflow word (proved, with a counterexample).", "quantifier": "every word size, word counts N and M, and all values", "why_tests_cant": "schoolbook column accumulators must never overflow their two words plus carry: needs an invariant over columns.", "anchors": ["include/ccmath/internal/types/big_int.hpp: mul2, Accumulator, multiply_with_carry, scalar_multiply_with_carry, ful_mul, operator*"]}
{"id": "C09", "title": "quick_mul_hi error bound", "statement": "For Bits-bit unsigned a,b: 0 <= floor(a*b / 2^Bits) - a.quick_mul_hi(b) <= WORD_COUNT-1, the bound the code documents; the product approximation never exceeds the true one.", "quantifier": "every word size, word count and pair of values", "why_tests_cant": "a worst-case error bound over 2^(2*Bits) pairs.", "anchors": ["include/ccmath/internal/types/big_int.hpp: quick_mul_hi"]}
{"id": "C10", "title": "Multiword shifts and rotations", "statement": "operator<< and >> on BigInt equal multiplication by 2^s modulo 2^Bits and (floor) division by 2^s, arithmetic for signed types, for every shift s>=0, across word boundaries (a 128-bit total shifted natively by 128 or more is undefined behaviour and excluded). rotl/rotr rotate by c for every non-negative 32-bit c, and for negative c when Bits divides 2^32; a negative rotation of a 96-bit type is exhibited wrong.", "quantifier": "every word size, word count, value and in-range shift", "why_tests_cant": "offset/word-crossing cases grow with N.", "anchors": ["include/ccmath/internal/types/big_int.hpp: shift, operator<<, operator>>"]}
{"id": "C11", "title": "Multiword division", "statement": "a / b, a % b and a.div(b) return the quotient and remainder of truncated division for b <> 0 (unsigned: Euclidean); signed operands follow C++ truncation with remainder taking the sign of the dividend, MIN/-1 wrapping; division by zero returns no remainder from div().", "quantifier": "every word size and count, every dividend and divisor", "why_tests_cant": "bit-serial long division needs a loop invariant.", "anchors": ["include/ccmath/internal/types/big_int.hpp: divide_unsigned, divide_signed, div, operator/, operator%"]}
{"id": "C12", "title": "Division by half-word times power of two", "statement": "div_uint_half_times_pow_2(x,e) divides by x*2^e: the object becomes floor(a/(x*2^e)) and the returned remainder is a mod (x*2^e), for every half-word x<>0 and every e.", "quantifier": "every value, divisor half-word and shift amount", "why_tests_cant": "word-position bookkeeping depends on e relative to every half word boundary.", "anchors": ["include/ccmath/internal/types/big_int.hpp: div_uint_half_times_pow_2"]}
{"id": "C13", "title": "Multiword comparison is a total order equal to numeric order", "statement": "cmp and the six relational operators on BigInt agree with comparison of the represented (signed or unsigned) integers.", "quantifier": "all word counts and pairs of values", "why_tests_cant": "most-significant-first scan with sign case analysis over all N.", "anchors": ["include/ccmath/internal/types/big_int.hpp: cmp, operator==, operator<"]}
{"id": "C14", "title": "Multiword conversions", "statement": "Constructing a BigInt from a native integer, from a BigInt of the same word size, or from a BigInt with larger words, and converting back with to<T>(), preserves the value modulo the target width, sign-extending when source and target are both signed. From a BigInt with smaller words the same holds unless the value is negative, the source word count is a multiple of the word ratio and the target is wider: that case is not sign-extended (counterexample). Unsigned from a negative narrower signed BigInt zero-extends (counterexample).", "quantifier": "all widths and values", "why_tests_cant": "combinatorially many type pairs and values.", "anchors": ["include/ccmath/internal/types/big_int.hpp: BigInt(const BigInt<OtherBits,...>&), BigInt(T), to"]}
{"id": "C15", "title": "Multiword bit queries", "statement": "countl_zero, countr_zero, countl_one, countr_one, bit_width, popcount (64-bit words), has_single_bit, get_bit, set_bit, count_zeros and the first_leading/trailing functions on unsigned BigInt agree with the bits of the represented integer. Exceptions, each exhibited by a counterexample: first_trailing_one of 0 and of the maximum, bit_width of a signed type, popcount with 32-bit words.", "quantifier": "all word counts and values", "why_tests_cant": "cross-word scan for all N.", "anchors": ["include/ccmath/internal/types/big_int.hpp: countl_zero, countr_zero, bit_width, popcount, has_single_bit, get_bit, set_bit"]}
{"id": "C16", "title": "Exponentiation by squaring", "statement": "BigInt pow_n(k) computes base^k modulo 2^Bits for every 64-bit k and raises nothing else.", "quantifier": "all values, all exponents", "why_tests_cant": "loop over bits of k.", "anchors": ["include/ccmath/internal/types/big_int.hpp: pow_n"]}
{"id": "C17", "title": "Floating-point field access round-trips", "statement": "For every IEEE interchange format, decomposing a bit pattern into sign, biased exponent and mantissa and re-assembling it gives the same pattern, and setting one field leaves the others unchanged.", "quantifier": "every format (fraction and exponent length) and every bit pattern", "why_tests_cant": "2^64/2^128 patterns.", "anchors": ["include/ccmath/internal/support/fp/fp_bits.hpp: merge, encode, set_biased_exponent, set_sign, set_mantissa, create_value"]}
{"id": "C18", "title": "Classification partitions the bit patterns and matches real semantics", "statement": "is_nan/is_inf/is_finite/is_zero/is_normal/is_subnormal and fpclassify/isnan/isinf/isfinite/isnormal/signbit classify every bit pattern exactly as IEEE 754 does (for fpclassify: exactly one class), stated against the real number denoted.", "quantifier": "every format and bit pattern", "why_tests_cant": "partition over all patterns.", "anchors": ["include/ccmath/internal/support/fp/fp_bits.hpp: is_nan, is_inf, is_zero, is_subnormal, is_normal", "include/ccmath/math/compare/fpclassify.hpp", "include/ccmath/math/compare/isnormal.hpp"]}
{"id": "C19", "title": "Quiet comparisons", "statement": "isgreater, isgreaterequal, isless, islessequal, islessgreater and isunordered agree with the order of the real (extended) values and are false (true for isunordered) whenever an argument is NaN; +0 and -0 compare equal.", "quantifier": "all pairs of bit patterns in every format", "why_tests_cant": "2^128 pairs.", "anchors": ["include/ccmath/math/compare/isgreater.hpp", "include/ccmath/math/compare/islessgreater.hpp", "include/ccmath/math/compare/isunordered.hpp"]}
{"id": "C20", "title": "make_value normalises exactly", "statement": "FPBits::make_value(m, e) (m not zero, at most fraction+1 bits) returns the positive float with value m*2^(e+1-bias-fraction) when that is representable, obtained by normalising; when the number is subnormal and bits are lost the result is the truncation toward zero. (The code comment omits the fraction length.)", "quantifier": "all mantissas and exponents", "why_tests_cant": "two-dimensional argument space with three branches.", "anchors": ["include/ccmath/internal/support/fp/fp_bits.hpp: make_value"]}
{"id": "C21", "title": "trunc is exact", "statement": "trunc(x) is the integer obtained by discarding the fraction of x, with the sign of x kept on zero results; NaN, infinities and integers are returned unchanged, in every rounding mode.", "quantifier": "every format and bit pattern", "why_tests_cant": "2^64 patterns; the mask width depends on the exponent.", "anchors": ["include/ccmath/math/nearest/trunc.hpp", "include/ccmath/internal/math/runtime/func/detail/trunc_scalar.hpp"]}
{"id": "C22", "title": "floor and ceil are exact", "statement": "floor(x) is the greatest integer <= x and ceil(x) the least integer >= x, exactly, for every finite x, with no rounding error from the +-1 adjustment; zero results of ceil on (-1,0) are negative zero.", "quantifier": "every format, bit pattern and rounding mode", "why_tests_cant": "the +-1 step is a float addition that must be proved exact.", "anchors": ["include/ccmath/math/nearest/floor.hpp", "include/ccmath/math/nearest/ceil.hpp", "include/ccmath/internal/math/runtime/func/detail/trunc_scalar.hpp"]}
{"id": "C23", "title": "round, rint and nearbyint obey the rounding mode", "statement": "round(x) rounds to the nearest integer with ties away from zero, rint/nearbyint round to an integer per the current mode (nearest-even, up, down, toward zero); result equals the mathematically rounded integer and keeps the sign of x on zero.", "quantifier": "every format, bit pattern and mode", "why_tests_cant": "mode x pattern product.", "anchors": ["include/ccmath/math/nearest/round.hpp", "include/ccmath/math/nearest/rint.hpp", "include/ccmath/math/nearest/nearbyint.hpp", "include/ccmath/internal/support/fp/directional_rounding_utils.hpp: directional_round"]}
{"id": "C24", "title": "fp::nearest_integer", "statement": "support::fp::nearest_integer(x): in the default mode it returns the integer nearest to x (ties to even) for |x| < 2^fraction_length, and in every mode it returns x unchanged for |x| >= 2^precision, NaN and infinities. At run time, in every mode, the result is an integer within 1/2 of x whenever |x| >= 1/2. In constant evaluation odd integers between 2^fraction_length and 2^precision are altered, and rounding upwards the predecessor of 1/2 is taken to 1 (both exhibited).", "quantifier": "all doubles and floats", "why_tests_cant": "needs exactness argument for the magic-number addition.", "anchors": ["include/ccmath/internal/support/fp/nearest_integer.hpp"]}
{"id": "C25", "title": "frexp decomposition", "statement": "frexp(x,&e) of a float or double returns m with 1/2 <= |m| < 1 and x = m*2^e exactly for every finite non-zero x including subnormals; zero, infinity and NaN are returned unchanged. (The long double overload goes through double: the claim is refuted for a 128-bit long double.)", "quantifier": "all formats and patterns", "why_tests_cant": "subnormal renormalisation covers 2^52 patterns.", "anchors": ["include/ccmath/internal/math/generic/func/fmanip/impl/frexp_impl.hpp"]}
{"id": "C26", "title": "ldexp is correctly rounded", "statement": "With the requested rounding mode to-nearest, ldexp(x,n) equals x*2^n rounded to nearest-even for every finite x and every int n: exact when representable, gradual underflow, infinity on overflow; specials returned unchanged. In the other modes it still rounds to nearest unless |n| exceeds the exponent limit, where the requested mode is used.", "quantifier": "all formats, patterns and all int exponents", "why_tests_cant": "2^96 pairs; rounding in the subnormal range.", "anchors": ["include/ccmath/internal/support/helpers/internal_ldexp.hpp", "include/ccmath/internal/types/normalized_float.hpp: convert_ieee", "include/ccmath/math/fmanip/ldexp.hpp"]}
{"id": "C27", "title": "scalbn", "statement": "scalbn(x,n) returns x*2^n for every int n and rounding mode, rounded once: exact if representable and correctly overflowing/underflowing, in spite of being computed by up to three multiplications. (The overload taking long truncates n to int: refuted.)", "quantifier": "all doubles/floats and all int n", "why_tests_cant": "double rounding would only show for specific mantissas.", "anchors": ["include/ccmath/math/fmanip/impl/scalbn_double_impl.hpp", "include/ccmath/math/fmanip/impl/scalbn_float_impl.hpp"]}
{"id": "C28", "title": "ilogb and logb", "statement": "ilogb(x) and logb(x) of a float or double return the unique e with 2^e <= |x| < 2^(e+1) for every finite non-zero x, including subnormals; special cases return the documented values. (Refuted for a 128-bit long double, which goes through double.)", "quantifier": "all formats and patterns", "why_tests_cant": "subnormal scan over all patterns.", "anchors": ["include/ccmath/internal/math/generic/func/fmanip/impl/ilogb_impl.hpp", "include/ccmath/internal/math/generic/func/fmanip/impl/logb_impl.hpp"]}
{"id": "C29", "title": "modf splits exactly", "statement": "modf(x,&i) of a float or double gives i = trunc(x) and returned f with x = i + f exactly, both carrying the sign of x, |f| < 1, in every rounding mode. (Refuted for a 128-bit long double, which goes through double.)", "quantifier": "all formats, patterns, rounding modes", "why_tests_cant": "subtraction must be proved exact.", "anchors": ["include/ccmath/math/fmanip/impl/modf_impl.hpp"]}
{"id": "C30", "title": "nextafter steps to the adjacent value", "statement": "nextafter(x,y) for finite x<>y returns the closest representable value different from x in the direction of y: no representable value lies strictly between; equal arguments return y; NaN gives NaN; works across zero, subnormals and into infinity.", "quantifier": "all formats and pairs of patterns", "why_tests_cant": "adjacency quantifies over all other representable values.", "anchors": ["include/ccmath/internal/math/generic/func/fmanip/nextafter_gen.hpp", "include/ccmath/math/fmanip/nextafter.hpp"]}
{"id": "C31", "title": "copysign and fabs touch only the sign", "statement": "copysign(x,y) has the magnitude of x and the sign of y, fabs(x)/abs clear the sign, for every non-NaN pattern, in every rounding mode; for NaN arguments the constexpr path of copysign returns the default quiet NaN with the sign of y and fabs the default quiet NaN.", "quantifier": "all formats and patterns", "why_tests_cant": "2^128 pairs.", "anchors": ["include/ccmath/math/fmanip/copysign.hpp", "include/ccmath/math/basic/fabs.hpp"]}
{"id": "C32", "title": "sqrt is correctly rounded", "statement": "sqrt(x) for binary32/64/128 equals the real square root rounded according to the current rounding mode for every non-negative finite x, including subnormals; negative arguments give NaN, zeros keep their sign. (The separate x87 80-bit routine has the same property except when rounding upwards an argument whose significand is all ones and whose exponent is odd, where it returns half the right result.)", "quantifier": "all formats with a power-of-two width and at least 3 exponent bits, all patterns, all four modes", "why_tests_cant": "needs the digit-recurrence invariant; ties/sticky for 2^64 inputs.", "anchors": ["include/ccmath/internal/math/generic/func/power/sqrt_gen.hpp: sqrt_calc_bits, sqrt_impl"]}
{"id": "C33", "title": "Software fma is correctly rounded", "statement": "fma(x,y,z) evaluated by the in-tree software path equals the real x*y+z rounded once in the current rounding mode, for all finite float/double arguments, including total cancellation, subnormal results, overflow and double-rounding-prone cases.", "quantifier": "all triples of patterns for float and double, four rounding modes", "why_tests_cant": "2^192 triples.", "anchors": ["include/ccmath/internal/support/fp/fma.hpp: fixed_fma, round_normalized, decode_finite_nonzero"]}
{"id": "C34", "title": "Software fma special values", "statement": "fma propagates NaN, returns NaN for inf*0 (and inf-inf), the right infinity otherwise, and the IEEE sign for exact zero results in each rounding mode.", "quantifier": "all triples with at least one non-finite or zero operand, four modes", "why_tests_cant": "sign table per mode.", "anchors": ["include/ccmath/internal/support/fp/fma.hpp: special_case_fma"]}
{"id": "C35", "title": "Sticky right shift preserves rounding information", "statement": "shift_right_with_sticky(n,v) leaves floor(v/2^n) in v and returns true exactly when a discarded bit was set, for every n >= 0 including n >= width.", "quantifier": "all widths, values, shifts", "why_tests_cant": "unbounded shift argument.", "anchors": ["include/ccmath/internal/support/fp/fma.hpp: shift_right_with_sticky"]}
{"id": "C36", "title": "DyadicFloat conversions are correctly rounded", "statement": "DyadicFloat<Bits>::generic_as<T>() returns the dyadic value rounded to T in the current rounding mode, with correct overflow and gradual underflow, and raises inexact, overflow and underflow exactly when due; as<T>() (fast_as) returns the correctly rounded value in every hardware rounding mode, with or without fma. as_mantissa_type and as_mantissa_type_rounded return the truncated (rounded) integer modulo 2^Bits and the rounding direction; with a directed mode and a mantissa shifted out completely the rounded variant is wrong (exhibited).", "quantifier": "all Bits, all mantissas, exponents, signs and modes", "why_tests_cant": "three parameters unbounded.", "anchors": ["include/ccmath/internal/types/dyadic_float.hpp: generic_as, fast_as, as, operator T, as_mantissa_type, as_mantissa_type_rounded"]}
{"id": "C37", "title": "DyadicFloat normalisation and shifts preserve value", "statement": "normalize, shift_left, unary minus, mul_pow_2 and construction from a float preserve (or negate, or scale) the represented number exactly and establish the leading-bit invariant; shift_right truncates toward zero by less than one unit.", "quantifier": "all Bits, mantissas, exponents", "why_tests_cant": "invariant for all.", "anchors": ["include/ccmath/internal/types/dyadic_float.hpp: normalize, shift_left, shift_right, DyadicFloat(T), operator-, mul_pow_2"]}
{"id": "C38", "title": "DyadicFloat arithmetic: error bounds and correct rounding", "statement": "quick_add of operands of equal sign truncates with an error below one unit in the last place; with opposite signs the error is below one unit of the larger exponent, and the documented bound MSB(a+b)*2^(2-Bits) holds unless the exponents differ by exactly one (exhibited). quick_add loses the exponent when the first operand is negligible (exhibited). quick_mul truncates with an error below 2*WORD_COUNT units, is exact for half-width mantissas, and can exceed the documented 2*(WORD_COUNT-1) units (exhibited). pow_n accumulates one such factor per unit of the exponent. rounded_mul and rounded_div return the exact product and quotient rounded once to Bits bits in the current mode.", "quantifier": "all Bits and operand pairs", "why_tests_cant": "worst-case bound.", "anchors": ["include/ccmath/internal/types/dyadic_float.hpp: quick_add, quick_mul, quick_sub, pow_n, round, rounded_mul, rounded_div"]}
{"id": "C39", "title": "Rounding direction classification", "statement": "rounding_direction(v, s, sign) returns +1/-1/0 according to whether rounding v/2^s to an integer in the current mode increases, decreases or keeps the magnitude, for 2<=s<Bits (and outside it for the modes where it is right); for s>=Bits the directed modes misreport and for s=1 a tie in nearest mode runs into an undefined shift (both exhibited).", "quantifier": "all widths, values, shifts, modes", "why_tests_cant": "full case analysis.", "anchors": ["include/ccmath/internal/types/dyadic_float.hpp: rounding_direction"]}
{"id": "C40", "title": "Generic multiplication op::mul is correctly rounded", "statement": "support::fp::op::mul<Out>(x,y) equals x*y rounded once to the output type, for every pair of finite inputs; specials follow IEEE.", "quantifier": "all formats and pairs", "why_tests_cant": "2^128 pairs.", "anchors": ["include/ccmath/internal/support/fp/ops/mul.hpp"]}
{"id": "C41", "title": "Generic addition op::add / op::sub", "statement": "support::fp::op::add/sub(x,y) equals the exact sum/difference rounded once to the output type in every rounding mode, for all normal operands of the same sign or with |y|<=|x|, and for x = 0; the unrestricted claim is false: adding zero returns zero, opposite-sign operands with |x|<|y| get the wrong sign, x - inf keeps the sign of the infinity, subnormal operands give wrong sums, (-0)+(-0) is +0 (each exhibited).", "quantifier": "all pairs", "why_tests_cant": "exponent-difference cases unbounded.", "anchors": ["include/ccmath/internal/support/fp/ops/add_or_sub.hpp"]}
{"id": "C42", "title": "fmin and fmax", "statement": "max/min (fmax/fmin): the other argument if exactly one is NaN (two NaNs: the default NaN for max, the second argument for min); otherwise one of the arguments, not less (not greater) than either, and -0 is ordered below +0.", "quantifier": "all pairs of patterns", "why_tests_cant": "NaN/zero combinations with all payloads.", "anchors": ["include/ccmath/internal/math/generic/func/basic/min_gen.hpp", "include/ccmath/internal/math/generic/func/basic/max_gen.hpp"]}
{"id": "C43", "title": "fdim", "statement": "fdim(x,y) for finite x > y is x-y rounded once, in every rounding mode, when x-y does not exceed the largest finite number, and +inf when rounding x-y to nearest or upwards overflows; +0 when x <= y; a NaN argument is returned (x first); with an infinity and x > y it is +inf. The early overflow test is too coarse: fdim(1,-DBL_MAX) is +inf although x-y rounds to DBL_MAX (refutation).", "quantifier": "all pairs", "why_tests_cant": "overflow pre-check must coincide with rounding overflow.", "anchors": ["include/ccmath/internal/math/generic/func/basic/fdim_gen.hpp"]}
{"id": "C44", "title": "remquo quotient and remainder", "statement": "remquo(x,y,&q), for all finite x and finite non-zero y and in every rounding mode, provided the fmod it calls is exact: the result is x - n*y exactly, n the integer nearest x/y (ties to even), a zero result has the sign of x, q has the sign of x/y, |q| is congruent to |n| modulo 8. With the in-tree fmod this holds for |x| < 8|y| and fails in general (refutation). NaN, x infinite or y zero give NaN and do not store q; y infinite returns x and stores 0.", "quantifier": "all pairs of finite patterns", "why_tests_cant": "long-division loop length depends on exponent gap (up to 2046 iterations).", "anchors": ["include/ccmath/math/basic/impl/remquo_double_impl.hpp", "include/ccmath/math/basic/impl/remquo_float_impl.hpp"]}
{"id": "C45", "title": "remainder and fmod fallbacks", "statement": "The in-tree fmod returns x when |x| < |y|, and the exact remainder of truncated division in every rounding mode when x = X*2^e, y = Y*2^e with |X|+|Y| <= 2^fl; remainder returns the same number, which is the IEEE remainder when the quotient's fraction is below one half and never when it is above. Special values per branch. fmod is not C's fmod in general: fmod(1-2^-53, 1/3) is negative and differs from x by no multiple of y, fmod(2^1023,2^-1074) is -inf, fmod(0,NaN)=0, fmod(-6,3)=+0, remainder(5,3)=2 (refutations).", "quantifier": "all pairs", "why_tests_cant": "universally quantified exactness condition.", "anchors": ["include/ccmath/math/basic/fmod.hpp", "include/ccmath/math/basic/remainder.hpp"]}
{"id": "C46", "title": "nan(tag) always yields a quiet NaN", "statement": "nan(s) returns a positive quiet NaN for every C string s (any length, any characters); the payload is the number written in decimal, or in hexadecimal after 0x, when it is short enough and fits; any other string gives the default NaN.", "quantifier": "all byte strings", "why_tests_cant": "unbounded string length.", "anchors": ["include/ccmath/math/basic/impl/nan_double_impl.hpp", "include/ccmath/math/basic/impl/nan_float_impl.hpp"]}
{"id": "C47", "title": "lerp: end points, bounds and monotonicity", "statement": "For finite a, b in any floating-point format and any rounding mode: lerp(a,b,0) = a and lerp(a,b,1) = b (numerically); for t in [0,1] the result is finite, lies between a and b, and is monotonic in t; lerp(a,a,t) = a when a is not zero or |t| is at most 2^(bias-1) (outside that 1-t can overflow to infinity); a NaN argument gives a NaN. The version with two fused multiply-adds has the same end points but is not monotonic.", "quantifier": "all formats, rounding modes and finite triples", "why_tests_cant": "float rounding in every case.", "anchors": ["include/ccmath/math/misc/lerp.hpp", "include/ccmath/internal/math/generic/func/misc/lerp_gen.hpp"]}
{"id": "C48", "title": "align_up / align_down", "statement": "For a power-of-two alignment whose mask fits the type, align_down(v) is the greatest multiple of it not above v; align_up(v) is the least multiple not below v if that fits in the type, and otherwise undefined behaviour for a signed type of at least 32 bits and the multiple reduced modulo 2^w for the other types.", "quantifier": "all widths, values and power-of-two alignments", "why_tests_cant": "parameter product.", "anchors": ["include/ccmath/ext/align.hpp"]}
{"id": "C49", "title": "ceil_div, abs_diff, is_power_of_two, sign, clamp", "statement": "For every integer type: abs_diff(a,b) is |a-b| if it fits (always when unsigned), otherwise undefined behaviour (signed, >= 32 bits) or reduced modulo 2^w; for v >= 0 and d > 0 ceil_div(v,d) is the ceiling of v/d exactly when v+d-1 (unsigned) or v+d (signed) fits, giving 0 or undefined behaviour otherwise, and always for types narrower than int; division by zero is undefined behaviour except in safe::ceil_div, which returns 0; is_power_of_two is exact, with undefined behaviour on the least value of a signed type of at least 32 bits only, and safe::is_power_of_two is exact everywhere; sign(v) is in {-1,0,1} with the sign of v; step compares; clamp returns the nearest value in [lo,hi] (when lo<=hi), idempotently.", "quantifier": "all widths, signedness and values", "why_tests_cant": "universally quantified; wrap conditions.", "anchors": ["include/ccmath/ext/ceil_div.hpp", "include/ccmath/ext/abs_diff.hpp", "include/ccmath/ext/is_power_of_two.hpp", "include/ccmath/ext/sign.hpp", "include/ccmath/ext/clamp.hpp"]}
{"id": "C50", "title": "Error-free transforms", "statement": "fast_two_sum / exact_add (|b| <= |a| or a = 0) returns the rounded sum and, to nearest, its exact error; in any mode lo is the correctly rounded error, exact if the exponents differ by at most the precision, |lo| < ulp(hi) and |a+b-(hi+lo)| <= 2^(1-2p) min(|a+b|,|hi|). two_sum (to nearest) is exact for any order of operands. split (Veltkamp) returns a rounded to p-s bits and the exact rest, which fits in s bits; exact_mult (Dekker) returns the rounded product and its exact error unless the product is near the subnormal range (then within 3.5 times the smallest subnormal). quick_mult and add on double-doubles have relative error at most 7 * 2^-2p (add: relative to |a.hi|, when the high parts do not nearly cancel). Outside: with |a| < |b| fast_two_sum loses the error, split overflows in the top of the range (exact_mult(2^1000,2^-1000) = (1, NaN)), and the error of a subnormal product is lost.", "quantifier": "all doubles in range", "why_tests_cant": "exactness is a theorem about rounding.", "anchors": ["include/ccmath/internal/types/double_double.hpp: exact_add, split, exact_mult", "include/ccmath/internal/support/math_support.hpp: two_sum, fast_two_sum, veltkamp_split"]}
{"id": "C51", "title": "SIMD masks, reductions, where expressions and concatenation", "statement": "For any lane count: the mask operators and comparisons act lane by lane on well-formed masks; all_of/any_of/none_of/reduce_count agree with the lanes; reduce_min_index / reduce_max_index return the first / last set lane; to_ullong / from_bits map lane i to bit i and back; simd_select picks per lane (both the branch-free blend and the loop); reduce(v, op) is the left fold, the masked reduce is the fold of the selected lanes for a neutral identity, reduce on floats has the recursive-summation error bound; reduce_min/max return an extremal (selected) lane; where expressions change and access the selected lanes only; simd_cat / simd_split concatenate and cut. The back ends' disagreements on -0 and NaN are stated as refuted variants.", "quantifier": "all lane counts and masks", "why_tests_cant": "lane count unbounded.", "anchors": ["include/ccmath/internal/math/runtime/pp/vec_ext.hpp", "include/ccmath/internal/math/runtime/pp/scalar.hpp", "include/ccmath/internal/math/runtime/pp/simd_mask.hpp", "include/ccmath/internal/math/runtime/pp/mask_reductions.hpp", "include/ccmath/internal/math/runtime/pp/reduce.hpp", "include/ccmath/internal/math/runtime/pp/where.hpp", "include/ccmath/internal/math/runtime/pp/simd_cat.hpp", "include/ccmath/internal/math/runtime/pp/simd_math.hpp"]}
{"id": "C52", "title": "Tininess-free narrowing cast", "statement": "support::fp::cast<Out>(x) from a wider format returns x correctly rounded to the narrower format in the current rounding mode, exactly x when widening; infinity maps to infinity, NaN to a quiet NaN keeping sign and leading payload bits.", "quantifier": "all patterns and format pairs", "why_tests_cant": "all patterns.", "anchors": ["include/ccmath/internal/support/fp/cast.hpp"]}
{"id": "C53", "title": "ext: clamp, saturate, sign, step, chgsign, move_towards, approximately", "statement": "For every floating-point format: clamp(v,lo,hi) with lo <= hi returns one of its arguments, between lo and hi, equal to v inside the range, the nearer bound outside, lo for NaN, and is idempotent and monotonic; saturate limits to [0,1] (NaN gives 0); sign gives -1, 0 or 1 (0 for NaN and zeros); step(edge,v) is 0 exactly when v < edge and 1 otherwise; chgsign gives |x| with the sign of y; move_towards never leaves the segment from current to target, reaches the target when it is within max_delta, and otherwise is the correctly rounded current +- max_delta; approximately is true when |a-b| <= epsilon, only when the rounded difference is, and with epsilon 0 is equality. Where it fails: clamp(5, 0, 2.5) of mixed types is 2.0; approximately is false for equal infinities.", "quantifier": "every argument pattern of every format, every rounding mode", "why_tests_cant": "2^96 triples of floats", "anchors": ["include/ccmath/ext/clamp.hpp:28-45", "include/ccmath/ext/saturate.hpp:24-27", "include/ccmath/ext/sign.hpp:24-30", "include/ccmath/ext/step.hpp:26-30", "include/ccmath/ext/chgsign.hpp:26-40", "include/ccmath/ext/move_towards.hpp:29-40", "include/ccmath/ext/approximately.hpp:28-36"]}
{"id": "C54", "title": "ext: normalize, unlerp, mix, remap, smoothstep", "statement": "normalize and safe normalize give a number in [0,1] for any arguments; for finite min < max whose difference does not overflow normalize is monotonic, 0 up to min and 1 from max on; unlerp is exactly 0 at the start and 1 at the end, safe unlerp 0 on an empty interval; mix gives exactly x at 0 and y at 1; remap takes the start of the source range to the start of the target range; smoothstep is exactly 0 up to edge0 and exactly 1 from edge1 on, and lies in [0,1] for any arguments unless rounding upwards (where it can exceed 1). If edge1 - edge0 overflows, smoothstep(edge0, edge1, edge1) is 0.", "quantifier": "every argument pattern of every format, every rounding mode", "why_tests_cant": "2^96 triples of floats; the range of smoothstep depends on the rounding of three operations", "anchors": ["include/ccmath/ext/normalize.hpp:28-50", "include/ccmath/ext/unlerp.hpp:28-60", "include/ccmath/ext/mix.hpp:26-30", "include/ccmath/ext/remap.hpp:28-60", "include/ccmath/ext/smoothstep.hpp:28-34"]}
{"id": "C55", "title": "ext: fract, repeat, delta_angle, ping_pong", "statement": "fract(x) is the correctly rounded x - floor(x), between 0 and 1, exact and below 1 unless -1/2 < x < 0, NaN for infinities and NaN; repeat(x, l) is exactly the floored remainder when x and l are integers (or integer multiples of one power of two) with |x|+|l| <= 2^(p-1), and safe repeat is 0 for l = 0; delta_angle of angles that are multiples of 2^e degrees is exactly target - current modulo 360, in (-180, 180]; ping_pong(a, b) lies in [0, |b|] if no intermediate result overflows and is 0 for b = 0. For tiny negative x fract gives 1, repeat(x,360) gives 360 or a negative number; ping_pong gives NaN when the quotient overflows.", "quantifier": "every argument of every format (integers of any size in range), every rounding mode", "why_tests_cant": "unbounded families of arguments; the failures are at isolated tiny values", "anchors": ["include/ccmath/ext/fract.hpp:24-30", "include/ccmath/ext/repeat.hpp:27-49", "include/ccmath/ext/delta_angle.hpp:27-53", "include/ccmath/ext/ping_pong.hpp:26-34"]}
{"id": "C56", "title": "exp2(float): accuracy, exact powers, over- and underflow", "statement": "For a float x in [-149, 128) exp2(x) is the correct rounding, in the current mode, of a real number within relative error 2^-33 of 2^x to nearest (2^-26 in the directed modes); for integral x the result is exactly 2^x in every mode; for x >= 128 and x < -149 the result is 2^x correctly rounded in the mode reported by get_rounding_mode (exception: to nearest on (-150, -149) the result is 0 although 2^-149 is nearer); exp2(NaN) is NaN, exp2(+inf) = +inf, exp2(-inf) = +0.", "quantifier": "every 32-bit pattern, every machine rounding mode and every reported mode", "why_tests_cant": "the error bound concerns the real number 2^x; the gap near -150 is a thin band at the subnormal limit", "anchors": ["include/ccmath/math/expo/impl/exp2_float_impl.hpp:33-120", "include/ccmath/math/expo/impl/exp2_data.hpp:26-48"]}
{"id": "C57", "title": "exp(float): accuracy, over- and underflow", "statement": "For a float x between -0x1.9fe368p6 and 0x1.62e42ep6 exp(x) is the correct rounding, in the current mode, of a real number within relative error 2^-33 of e^x to nearest (2^-26 in the directed modes); above, the result is +inf, which is e^x rounded to nearest; below, it is 2^-149, although e^x rounded to nearest is 0; exp(NaN) is NaN, exp(+inf) = +inf, exp(-inf) = +0.", "quantifier": "every 32-bit pattern, every machine rounding mode", "why_tests_cant": "the error bound concerns the real number e^x; the thresholds are correct only up to one float", "anchors": ["include/ccmath/math/expo/impl/exp_float_impl.hpp:36-95", "include/ccmath/math/expo/impl/exp_data.hpp:26-52"]}
{"id": "C58", "title": "log(float): accuracy and special arguments", "statement": "For every positive finite float x other than 1, log(x) is the correct rounding, in the current mode, of a real number within relative error 2^-25 of ln x (also for subnormal x and arbitrarily close to 1); log(1) = +0; log of either zero is -inf; log of a negative number or -inf is the quiet NaN with the sign bit; log(+inf) = +inf; log(NaN) is the positive quiet NaN.", "quantifier": "every 32-bit pattern, every machine rounding mode", "why_tests_cant": "the error bound concerns the real logarithm; a table or polynomial error of a few units in the last place is visible only for some of the 2^31 arguments", "anchors": ["include/ccmath/math/expo/impl/log_float_impl.hpp:35-83", "include/ccmath/math/expo/impl/log_data.hpp:26-52", "include/ccmath/math/expo/log.hpp:42-77"]}
{"id": "C59", "title": "log2(float): accuracy, exact powers of two and special arguments", "statement": "For every positive finite float x other than 1, log2(x) is the correct rounding, in the current mode, of a real number within relative error 2^-25 of ln x / ln 2; for x = 2^n, normal or subnormal, log2(x) is exactly n in every mode; the special arguments are as for log, except that a NaN is returned unchanged.", "quantifier": "every 32-bit pattern, every machine rounding mode", "why_tests_cant": "the error bound concerns the real logarithm; a table or polynomial error of a few units in the last place is visible only for some of the 2^31 arguments", "anchors": ["include/ccmath/math/expo/impl/log2_float_impl.hpp:32-80", "include/ccmath/math/expo/impl/log2_data.hpp:26-58", "include/ccmath/math/expo/log2.hpp:48-89"]}
{"id": "C60", "title": "log10(float): accuracy and special arguments", "statement": "For every positive finite float x other than 1, log10(x) is the correct rounding, in the current mode, of a real number within relative error 2^-23 (nearest mode) or 2^-22 (directed modes) of ln x / ln 10; the special arguments are as for log.  Powers of ten are not exact: log10(10^9) is not 9.", "quantifier": "every 32-bit pattern, every machine rounding mode", "why_tests_cant": "the error bound concerns the real logarithm; a table or polynomial error of a few units in the last place is visible only for some of the 2^31 arguments", "anchors": ["include/ccmath/math/expo/impl/log10_impl.hpp:19-20", "include/ccmath/math/expo/log10.hpp:40-76", "include/ccmath/math/numbers.hpp:32"]}
{"id": "C61", "title": "exp(double): accuracy, overflow, underflow and special arguments", "statement": "For every double x with |x| <= 1023, exp(x) is the correct rounding, in the current mode, of a positive real number within relative error 2^-57 (nearest mode) or 2^-54 (directed modes) of e^x, plus an absolute error of 2^-1124 that only matters for subnormal results; this includes results that overflow or are subnormal. From 710 to 1024 and from -746 down to -1024 the result is e^x correctly rounded in the current mode; from 1024 on it is +inf, from -1024 down it is +0, in every mode. exp(NaN) is a NaN, exp(+inf) = +inf, exp(-inf) = +0.", "quantifier": "every 64-bit pattern, every machine rounding mode", "why_tests_cant": "the error bound concerns the real exponential over 2^62 arguments; the scaling of subnormal results avoids a double rounding that samples would not show", "anchors": ["include/ccmath/math/expo/impl/exp_double_impl.hpp:36-145", "include/ccmath/math/expo/impl/exp_data.hpp:56-332", "include/ccmath/math/expo/exp.hpp:36-45"]}
{"id": "C62", "title": "exp2(double): accuracy, exact powers and special arguments", "statement": "For every double x with -1075 < x < 1024, exp2(x) is the correct rounding, in the current mode, of a positive real number within relative error 2^-57 (nearest mode) or 2^-54 (directed modes) of 2^x, plus an absolute error of 2^-1124; below 2^-54 in absolute value it is 2^x correctly rounded; for an integer n between -1074 and 1023 the result is exactly 2^n in every mode. From 1024 on it is +inf, from -1075 down it is +0, in every mode, which is 2^x correctly rounded to nearest. exp2(NaN) is a NaN, exp2(+inf) = +inf, exp2(-inf) = +0.", "quantifier": "every 64-bit pattern, every machine rounding mode", "why_tests_cant": "the error bound concerns the real exponential over 2^62 arguments; exactness for subnormal powers depends on the final scaling", "anchors": ["include/ccmath/math/expo/impl/exp2_double_impl.hpp:29-139", "include/ccmath/math/expo/impl/exp2_data.hpp:59-326", "include/ccmath/math/expo/exp2.hpp:36-45"]}
{"id": "C63", "title": "expm1(float): accuracy near zero and far from it, special arguments", "statement": "For every nonzero float x between -0x1.9fe368p6 and 0x1.62e42ep6, expm1(x) is the rounding, in the current mode, of a real number within 2^-22 (nearest mode) or 2^-21 (directed modes) of e^x - 1 in relative error, plus 2^-148 in absolute error; the relative error is at most 2^-26 (2^-25) for |x| <= 1/16, where e^x - 1 cancels, and 2^-30 (2^-23) for |x| >= 1/4. Above the upper bound the result is +inf and below the lower bound -1. expm1(+-0) = +-0, expm1(NaN) is a NaN, expm1(+inf) = +inf, expm1(-inf) = -1.", "quantifier": "every 32-bit pattern, every machine rounding mode", "why_tests_cant": "the claim compares with the real exponential in every rounding mode, and near zero the relative error is measured against a value that itself tends to zero", "anchors": ["include/ccmath/math/expo/impl/exp_float_impl.hpp:97-165", "include/ccmath/math/expo/expm1.hpp:33-45"]}
{"id": "C64", "title": "expm1(double): accuracy, the short series, and arguments below -512", "statement": "For every nonzero double x with -512 < x <= 1023, expm1(x) is the rounding, in the current mode, of a real number within relative error 2^-42 of e^x - 1, plus 2^-1073; for |x| <= 1/16 the relative error is at most 2^-50, and for |x| >= 1/4 at most 2^-50 (2^-49 in directed modes). From 710 to 1024 the result is e^x - 1 correctly rounded, from 1024 on +inf, from -1024 down -1. Not correct to a few units in the last place between 1/16 and 1/4: at 0x1ffff*2^-19 the result is off by more than 800 units in the last place, because the series is cut after x^8. Wrong for every x with -1024 < x <= -512: the result is near 0 instead of near -1. expm1(+-0) = +-0, expm1(NaN) is a NaN, expm1(+inf) = +inf, expm1(-inf) = -1.", "quantifier": "every 64-bit pattern, every machine rounding mode", "why_tests_cant": "2^62 arguments and a comparison with the real exponential; the wrong range is a narrow band of exponents", "anchors": ["include/ccmath/math/expo/impl/exp_double_impl.hpp:147-232", "include/ccmath/math/expo/expm1.hpp:33-45"]}
{"id": "C65", "title": "log(double): accuracy and special values", "statement": "For every positive finite double x other than 1 and every rounding mode, log(x) is the mode's rounding of a real whose relative distance to the natural logarithm of x is at most 2^-55 in round-to-nearest and 2^-54 in a directed mode, so that the nearest-mode result is within 3/4 ulp. log(NaN) is NaN, log(+-0) is -infinity, log of a negative number is NaN, log(+infinity) is +infinity, log(1) is +0.", "quantifier": "all doubles, subnormals included, all four rounding modes", "why_tests_cant": "2^63 positive doubles; the branch near 1 relies on cancellation-free splitting of x-1 and the far branch on a 128-entry table of reciprocals whose every entry must be right", "anchors": ["include/ccmath/math/expo/impl/log_double_impl.hpp:35-119", "include/ccmath/math/expo/impl/log_data.hpp:61-240", "include/ccmath/math/expo/log.hpp:42-77"]}
{"id": "C66", "title": "log2(double): accuracy, exact powers of two and special values", "statement": "For every positive finite double x other than 1 and every rounding mode, log2(x) is the mode's rounding of a real whose relative distance to the base-2 logarithm of x is at most 2^-54 in round-to-nearest and 2^-53 in a directed mode; in round-to-nearest log2(2^n) is exactly n for every representable power of two. Special values as for log, except that a NaN is returned unchanged.", "quantifier": "all doubles, subnormals included, all four rounding modes", "why_tests_cant": "the result near 1 and around every table boundary depends on the low bits cleared from the remainder; sampling misses single wrong table entries", "anchors": ["include/ccmath/math/expo/impl/log2_double_impl.hpp:38-126", "include/ccmath/math/expo/impl/log2_data.hpp:61-165", "include/ccmath/math/expo/log2.hpp:48-89"]}
{"id": "C67", "title": "log10(double): accuracy and special values", "statement": "For every positive finite double x other than 1 and every rounding mode, log10(x) is the mode's rounding of a real whose relative distance to the decimal logarithm of x is at most 2^-52 in round-to-nearest and 2^-51 in a directed mode (the product of the rounded logarithm and a rounded constant). Special values as for log. Powers of ten are not always exact.", "quantifier": "all doubles, subnormals included, all four rounding modes", "why_tests_cant": "the double rounding is only visible on arguments that sampling does not hit", "anchors": ["include/ccmath/math/expo/impl/log10_impl.hpp:22-23", "include/ccmath/math/expo/log10.hpp:40-76", "include/ccmath/math/numbers.hpp:32"]}
{"id": "C68", "title": "hypot: accuracy, no spurious overflow, special values", "statement": "For all finite floats or doubles x, y and every rounding mode, hypot(x,y) is the mode's rounding of a real v with |v - sqrt(x^2+y^2)| <= 2.3 u sqrt(x^2+y^2), u being the relative error unit of one rounding (2^-p to nearest, 2^(1-p) directed); so it overflows or underflows only when the true length nearly does. v is at least |x| and |y| and equals the true length when an argument is zero. hypot is symmetric, returns +inf when an argument is infinite (even if the other is NaN) and otherwise NaN when an argument is NaN. The three-argument overload is within 5.7 u plus two least subnormals unless the first pair overflows. The long double overload computes in double and so overflows and loses bits (refuted).", "quantifier": "all pairs (triples) of floats and of doubles, all four rounding modes", "why_tests_cant": "the square of all pairs of doubles cannot be enumerated; extreme ratios and subnormals are rare in samples", "anchors": ["include/ccmath/internal/math/generic/func/power/impl/hypot_impl.hpp:24-48", "include/ccmath/internal/math/generic/func/power/hypot_gen.hpp:20-28", "include/ccmath/math/power/hypot.hpp:31-54"]}
{"id": "C69", "title": "cbrt: accuracy, oddness and special values", "statement": "For every positive finite float or double x with real cube root r and every rounding mode, cbrt(x) is the mode's rounding of a real v with |v - r| <= 1.7 u r (u the relative error unit of one rounding). cbrt(-x) is -cbrt(x); zeros, infinities and NaNs are returned unchanged.", "quantifier": "all floats and doubles, subnormals included, all four rounding modes", "why_tests_cant": "the start value exp(log(x)/3) loses up to ten bits and only the Newton step restores them; that it always does cannot be sampled", "anchors": ["include/ccmath/internal/math/generic/func/power/impl/cbrt_impl.hpp:26-47", "include/ccmath/internal/math/generic/func/power/cbrt_gen.hpp:20-28", "include/ccmath/math/power/cbrt.hpp:30-38"]}
{"id": "C70", "title": "log1p(float): accuracy and special values", "statement": "For every finite float x > -1 other than +-0 and every rounding mode (rounding upward: x other than FLT_MAX), log1p(x) is the mode's rounding of a real whose relative distance to ln(1+x) is at most 2^-22 in round-to-nearest and 2^-21 in a directed mode, and at most 2^-24 for -0.29 <= x <= 0.41. log1p(NaN) is NaN, log1p(+-0) is the same zero, log1p(+inf) is +inf, log1p(-1) is -inf and log1p of anything below -1 is NaN. Rounding upward log1p(FLT_MAX) is wrong (72.78 instead of 88.72): 1+x overflows.", "quantifier": "all floats, all four rounding modes", "why_tests_cant": "four code paths are selected by bit-pattern tests; the one behind the last test is reached only by a few hundred floats around 0.41425", "anchors": ["include/ccmath/math/expo/impl/log1p_impl.hpp:28-120", "include/ccmath/math/expo/impl/log1p_impl.hpp:207-228"]}
{"id": "C71", "title": "log1p(double): accuracy and special values", "statement": "For every finite double x > -1 other than +-0 and every rounding mode (rounding upward: x other than DBL_MAX), log1p(x) is the mode's rounding of a real whose relative distance to ln(1+x) is at most 2^-44; at most 2^-52 (2^-51 directed) for |x| <= 1/5; at most 2^-51 (2^-50 directed) for x <= -0.293 or x >= 0.4143. The bound 2^-44 is nearly attained: at 0x3fda827900000000 the nearest-mode result is 210 ulps off. Special values as for float; log1p(DBL_MAX) is wrong rounding upward.", "quantifier": "all doubles, all four rounding modes", "why_tests_cant": "the loss of eight bits builds up only towards the ends of the interval in which the polynomial is used; tests at round arguments pass", "anchors": ["include/ccmath/math/expo/impl/log1p_impl.hpp:35-45", "include/ccmath/math/expo/impl/log1p_impl.hpp:122-198", "include/ccmath/math/expo/impl/log1p_impl.hpp:230-251"]}
{"id": "C72", "title": "Payne-Hanek reduction returns the octant and the reduced argument", "statement": "For every normal double x and every rounding mode, payne_hanek_reduce(x) returns k in [0,16) and a finite y such that for some integer n, with w = x - (16 n + k) pi/8: |w| <= pi/16 + 2^-200 and |y - w| <= 2.002 u |w| + 2^-100, u = 2^-53 to nearest and 2^-52 otherwise.", "quantifier": "all normal doubles up to DBL_MAX, all four rounding modes", "why_tests_cant": "the window of 8/pi words depends on the exponent: 2046 exponents, each with its own word offsets and carries, and the result is wrong in every digit if one carry is lost", "anchors": ["include/ccmath/math/trig/impl/sincos_payne_hanek.hpp:20-150"]}
{"id": "C73", "title": "sin(float) and cos(float): accuracy and special values", "statement": "For every finite float x with |x| <= 25 or |x| >= 2^18 and every rounding mode, sin(x) and cos(x) are within 13 u of the exact value relatively (u = 2^-24, 2^-23 directed), plus an absolute error of |x| 2^-57 (below 25) or 2^-98 (above 2^18). Between 25 and 2^18 only |error| <= u (|x| + 13) holds, and sin(262143.5f) is indeed off by more than 0.006. sin(+-0) = +-0, cos(+-0) = 1, infinities and NaN give NaN.", "quantifier": "all floats, all four rounding modes, constant evaluation and run time", "why_tests_cant": "the accuracy depends on how near the argument is to a multiple of pi/8, and on the cancellation in a three-step reduction whose first products are exact only for small multiples", "anchors": ["include/ccmath/math/trig/impl/sincos_float_impl.hpp:20-118", "include/ccmath/math/trig/impl/sincos_float_data.hpp:14-33", "include/ccmath/math/trig/impl/sincos_payne_hanek.hpp:20-150"]}
{"id": "C74", "title": "sin(double) and cos(double): accuracy and special values", "statement": "For every finite double x and every rounding mode, sin(x) and cos(x) are within 13 u of the exact value relatively (u = 2^-53, 2^-52 directed), plus an absolute error of |x| 2^-113 for |x| < 2^20 and of 2^-99 above. The 4-ulp contract named in the source does not hold: cos(8444920710073313 * 2^939) is off by more than 11 * 2^-52 relatively. sin(+-0) = +-0, cos(+-0) = 1, infinities and NaN give NaN.", "quantifier": "all doubles, all four rounding modes, constant evaluation and run time", "why_tests_cant": "the worst arguments are isolated doubles next to multiples of pi/2 with huge exponents; random tests meet none of them", "anchors": ["include/ccmath/math/trig/impl/sincos_double_impl.hpp:20-129", "include/ccmath/math/trig/impl/sincos_double_data.hpp:14-54", "include/ccmath/math/trig/impl/sincos_payne_hanek.hpp:20-150"]}
{"id": "C75", "title": "tan: accuracy and special values", "statement": "For every finite double x with |cos x| >= 2^-70 tan(x) is within 28 u |tan x| + 1.001 (d/|cos x|)(1 + |tan x|) + 2^-1074 of the exact tangent, d being the absolute error of sin and cos; for every float outside (25, 2^18) with |cos x| >= 2^-32 likewise. tan(+-0) = +-0; infinities and NaN give NaN.", "quantifier": "all doubles and floats with the stated lower bound on |cos x|, all four rounding modes", "why_tests_cant": "near the poles the quotient amplifies the reduction error of the cosine by the tangent itself", "anchors": ["include/ccmath/internal/math/generic/func/trig/tan_gen.hpp:21-30", "include/ccmath/math/trig/impl/sincos_double_impl.hpp:20-129", "include/ccmath/math/trig/impl/sincos_float_impl.hpp:20-118"]}
{"id": "C76", "title": "acos: accuracy and special values", "statement": "For every float and double x in [-1, 1] and every rounding mode acos(x) is within 3.3 u acos(x) of the exact value (u = 2^-24, 2^-53 to nearest, twice that in the directed modes). A NaN is returned unchanged; infinities and arguments outside [-1, 1] give a NaN.", "quantifier": "all floats and doubles, all four rounding modes", "why_tests_cant": "the relative error near 1 and the cancellations near 0 and -1 occur at isolated arguments", "anchors": ["include/ccmath/math/trig/impl/inv_trig_impl.hpp:35-138", "include/ccmath/math/trig/impl/inv_trig_data.hpp:14-25"]}
{"id": "C77", "title": "asin: accuracy and special values", "statement": "asin(x) is within 2 u of the exact value relatively for |x| <= 1/2 (plus 3 subnormal units), 9 u for x > 1/2 and 16 u for x < -1/2. asin is not odd: asin(-x) = -asin(x) fails. asin(+-0) = +-0; NaN, infinities and arguments outside [-1, 1] give NaN.", "quantifier": "all floats and doubles, all four rounding modes", "why_tests_cant": "the loss is largest just below -1/2, where pi/2 - acos(x) cancels", "anchors": ["include/ccmath/math/trig/impl/inv_trig_impl.hpp:84-148"]}
{"id": "C78", "title": "atan: accuracy and special values", "statement": "atan(double) is within 7 u for |x| <= 1/2, 17.5 u for other positive and 21 u for other negative arguments (plus 4 subnormal units); atan(float) is one rounding of a value within 22 * 2^-52 of the arctangent. The claim in the source that the double arctangent is within a couple of ulp is false. atan(+-0) = +-0, atan(+-inf) = +-pi/2, NaN gives NaN.", "quantifier": "all floats and doubles, all four rounding modes", "why_tests_cant": "the recursion through the reciprocal, the square root and asin accumulates errors that differ by sign and range", "anchors": ["include/ccmath/math/trig/impl/inv_trig_impl.hpp:150-198"]}
{"id": "C79", "title": "atan2: accuracy and special values", "statement": "For every finite (x, y) = r (cos A, sin A) other than the origin with -pi < A <= pi, atan2(y, x) is within 24 u |A| + 6 * 2^-1074 (double) and 4.01 u |A| + 3 * 2^-149 (float) of A, also when y/x overflows or underflows. Zeros, infinities and NaN give the values of the C standard, except atan2(-0, x) for negative x, which returns +pi instead of -pi.", "quantifier": "all pairs of floats and of doubles, all four rounding modes", "why_tests_cant": "overflow and underflow of the quotient and the signed zeros are a vanishing fraction of the operand pairs", "anchors": ["include/ccmath/math/trig/impl/inv_trig_impl.hpp:200-291"]}
{"id": "C80", "title": "pow for float: special values", "statement": "The float kernel of pow returns 1 for a zero exponent and for base 1 (NaN included); zero and infinite bases give zeros and infinities whose sign is that of the base exactly when the exponent is an odd integer; infinite exponents give 1, +0 or +inf according to |x|; other NaN operands give a NaN; a negative number to a non-integer power gives a NaN; pow(x,1) is x and pow(x,2) and pow(x,1/2) are correctly rounded.", "quantifier": "all pairs of floats, all rounding modes, constant evaluation and run time", "why_tests_cant": "the integer and odd tests on the exponent's bits must be right for every one of the 2^32 exponents, in combination with every base class", "anchors": ["include/ccmath/internal/math/generic/func/power/pow_impl/powf_impl.hpp:45-63", "include/ccmath/internal/math/generic/func/power/pow_impl/powf_impl.hpp:162-312", "include/ccmath/internal/math/generic/func/power/pow_impl/powf_impl.hpp:314-500"]}
{"id": "C81", "title": "pow for float: accuracy of the general case", "statement": "Rounding to nearest and without the FMA target, pow(x,y) for floats is the correct rounding of a number within 2^-28 (relatively) of the exact power |x|^y with the right sign, overflow and underflow included, for all finite x and y whose power is real, except the bases and exponents the code handles apart (bases 0, 1, -1, 2, 10; exponents 0, 1/2 and the integers 1 to 24).", "quantifier": "all such pairs of floats, constant evaluation and run time", "why_tests_cant": "2^64 pairs; the double-double fallback runs only when the fast result is within the Ziv tolerance of a rounding boundary, and the clamped exponents only when |y| exceeds 2.5e9", "anchors": ["include/ccmath/internal/math/generic/func/power/pow_impl/powf_impl.hpp:45-160", "include/ccmath/internal/math/generic/func/power/pow_impl/powf_impl.hpp:162-312", "include/ccmath/internal/math/generic/func/power/pow_impl/powf_impl.hpp:314-500"]}
{"id": "C82", "title": "pow for float: small integer exponents and the bases -1, 2 and 10", "statement": "Rounding to nearest and without the FMA target: pow(x,n) for n from 3 to 24 and any finite nonzero x is the correct rounding of a number within 2^-28 (relatively) of x^n, overflow and underflow included; pow(-1,n) is exactly 1 or -1 by the parity of n for every float integer n; pow(2,y) and pow(10,y) are likewise within 2^-28, except where the exact power lies between half the least positive float and that float, where the code returns 0 (refuted there).", "quantifier": "all floats x and y of those classes", "why_tests_cant": "the product overflows and underflows at different iterations for different bases; the direct product is taken only for bases with few significant bits", "anchors": ["include/ccmath/internal/math/generic/func/power/pow_impl/powf_impl.hpp:219-234", "include/ccmath/internal/math/generic/func/power/pow_impl/powf_impl.hpp:248-309", "include/ccmath/internal/support/helpers/exp10.hpp:28-97"]}
{"id": "C83", "title": "ext: cubic, lerp_angle, move_towards_angle", "statement": "cubic(y0,y1,y2,y3,t) for 0 <= t <= 1 is within 128 u m + 32 eta (m bounds the |yi| and is not within a factor 32 of overflow; u = 2^-23 or 2^-52) of the cubic with values y1, y2 and slopes y2-y0, y3-y1 at 0 and 1, in every rounding mode; exactly y1 at t = 0; exact on short dyadic values; not always y2 at t = 1. lerp_angle on angles that are multiples of a power of two degrees turns along the shorter arc, never leaves it, and is exactly start at t = 0 and end modulo 360 at t = 1. move_towards_angle takes the same turn fully if it is at most max_delta, else moves max_delta in its direction and not past the target.", "quantifier": "all formats with at least 6 fraction bits (cubic), all rounding modes, all values and angles of those classes", "why_tests_cant": "the error of the cubic depends on cancellation between its four coefficients; the wrap at 180 degrees depends on the rounding of a quotient by 360", "anchors": ["include/ccmath/ext/cubic.hpp:28-38", "include/ccmath/ext/lerp_angle.hpp:31-32", "include/ccmath/ext/move_towards_angle.hpp:29-33"]}
{"id": "C84", "title": "BigInt: bitwise operators, quotient and remainder operators", "statement": "For every word size and word count, a & b, a | b and a ^ b hold the bitwise and, or and exclusive or of the whole numbers; a / b and a % b hold the quotient truncated towards zero and the remainder modulo 2^bits for signed and unsigned numbers and a nonzero divisor; a / 0 returns a.", "quantifier": "all word sizes, word counts and operands", "why_tests_cant": "the number of words and the operands are unbounded", "anchors": ["include/ccmath/internal/types/big_int.hpp:1161-1178", "include/ccmath/internal/types/big_int.hpp:1206-1229"]}
{"id": "C85", "title": "NormalizedFloat and the builder functions of FPBits", "statement": "A NormalizedFloat made from sign, exponent and nonzero mantissa or from a finite nonzero number is normalised and stands for that number, mul2(e) multiplies it by 2^e, and cmp of two normalised ones is the order of their values (not so for zeros: 0.5 compares below 0). FPBits::zero, one, min_subnormal, max_subnormal, min_normal, max_normal give the numbers of those names, max_normal bounds every finite number and min_subnormal every nonzero one; signaling_nan and quiet_nan give NaNs of the given sign with the top fraction bit clear (for payloads without it) and set.", "quantifier": "all formats with up to 16 exponent bits, all numbers and payloads", "why_tests_cant": "all mantissas and exponents; subnormal normalisation shifts by a data-dependent amount", "anchors": ["include/ccmath/internal/types/normalized_float.hpp:44-77", "include/ccmath/internal/types/normalized_float.hpp:89-127", "include/ccmath/internal/support/fp/fp_bits.hpp:378-397"]}
{"id": "C86", "title": "ext: accuracy of rcp, mix, unlerp, smoothstep", "statement": "rcp(x) is 1/x correctly rounded in every mode, +-inf at +-0, +-0 at +-inf, NaN at NaN. For 0 <= a <= 1, mix(x,y,a) is within 8 u m + 4 eta of x(1-a) + y a (m bounds |x|, |y| and is not within a factor 32 of overflow; u = 2^-23 or 2^-52; eta the smallest positive number). unlerp(s,e,v) is within relative error 4 u (plus eta) of (v-s)/(e-s) when neither difference nor quotient is near overflow. smoothstep is then within 24 u of c^2 (3 - 2c), c being that quotient limited to [0,1].", "quantifier": "all formats with at least 6 fraction bits, all rounding modes, all finite arguments of those ranges", "why_tests_cant": "the bound must hold for every cancellation in the two differences, including subnormal ones, and each of the four rounding modes", "anchors": ["include/ccmath/ext/rcp.hpp:24-25", "include/ccmath/ext/mix.hpp:26-30", "include/ccmath/ext/unlerp.hpp:30-31", "include/ccmath/ext/smoothstep.hpp:28-34"]}
{"id": "C87", "title": "DyadicFloat multiply_add", "statement": "multiply_add(a,b,c) of normalised dyadic numbers of WORD_COUNT n and Bits B = w n differs from c + a b by at most (4n+4) 2^-B (|c| + |a b|), if c is zero, or of the sign opposite to the product, or exponent(a) + exponent(b) < exponent(c). Without that condition the product can be lost: 2^63 + 2^163 * 2^63 gives 2^63.", "quantifier": "all word sizes w >= 2 (even without a native double word), all word counts, all normalised dyadic numbers", "why_tests_cant": "the loss depends on the exponent gap of an intermediate product against an addend of the same sign; the error adds the truncations of a product and of an alignment", "anchors": ["include/ccmath/internal/types/dyadic_float.hpp:690-693", "include/ccmath/internal/types/dyadic_float.hpp:584-612"]}
