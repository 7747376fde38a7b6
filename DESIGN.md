# Formal model of ccmath: design

## Approach

The in-tree ("generic") code paths of ccmath are transcribed, function by
function, into total computable Gallina functions and the properties in
`properties.jsonl` are proved for all inputs in Rocq 8.16.1.

* **Machine integers** are `Z` with an explicit width; wrap-around is an explicit
  `mod 2^w`. Undefined behaviour (signed overflow, shift out of range) is a
  distinct outcome (`None`).
* **Floats** are bit patterns (`Z`) interpreted through a format record
  (fraction length, exponent length). Every theorem about floats is proved for an
  arbitrary well-formed format and therefore for binary32, binary64 and binary128.
  The real number denoted is given by a three-line function; correct rounding is
  stated with Flocq's `round radix2 (FLT_exp ..)` so that the specification does
  not mention any helper of the model.
* **Hardware arithmetic** (`+ - * /` on float/double) used inside the C++ is
  modelled by one correctly rounded operation (exact integer arithmetic followed
  by one rounding), itself proved against Flocq's `round`.
* **Rounding mode** is an explicit parameter; the code's
  `get_rounding_mode()` is the function returning that parameter.
* Compiler builtins and libm calls are *not* modelled: where a function dispatches
  to a builtin, only the in-tree alternative is modelled.

## Layout (rocq/theories)

| file family | content |
|---|---|
| `MachInt.v` | width-indexed machine integers, UB as `None` |
| `Bits*.v`, `PopcountProofs.v` | bits.hpp, ctz.hpp, math_support.hpp |
| `BigInt*.v` | types/big_int.hpp |
| `Fmt.v`, `FmtProofs.v`, `FloatSpec.v` | formats, decoding, real semantics; the specification vocabulary (`fval`, `rounded`, `is_real`, extended-real order) |
| `RoundProofs.v`, `RoundMore.v` | the rounding core against Flocq's `round` |
| `FOps.v`, `FOpsProofs.v`, `ExactOps.v` | the arithmetic of the machine, correctly rounded |
| `FPBits*.v`, `Compare*.v` | fp_bits.hpp, math/compare |
| `Nearest*.v` | nearest_integer_operations, math/nearest |
| `Fmanip*.v`, `ScalbnProofs.v`, `NextProofs.v`, `LdexpProofs.v` | math/fmanip, manipulation_functions, normal_float.hpp |
| `Sqrt*.v`, `Fma*.v` | sqrt_gen.hpp, support/fp/fma.hpp |
| `Dyadic*.v`, `GenOps*.v`, `AddProofs.v` | dyadic_float.hpp, support/fp/basic_operations, add_sub, mul, cast |
| `Basic*.v`, `RemProofs.v`, `RemquoProofs.v` | math/basic |
| `Lerp*.v`, `Ext*.v` | lerp, ext/*.hpp |
| `Eft.v`, `EftProofs.v`, `DdProofs.v` | double_double.hpp, multiply_add.hpp |
| `Simd*.v` | pp simd: masks, reductions, where, concatenation |
| `ErrLib.v` | rounding-error lemmas for chains of double operations |
| `Expo*.v`, `Exp2fProofs.v`, `ExpfProofs.v`, `LogRed.v`, `Logf*.v`, `Log2f*.v` | math/expo: the tables (`ExpoData.v`, copied from the `*_data.hpp` headers), models, error analysis |
| `ExpD*.v`, `ExpoDataD.v` | math/expo: the double versions of exp and exp2 |
| `ExpM1.v`, `TaylorExp.v`, `Expm1*.v` | math/expo: expm1 for float and double |
| `LogDataD.v` (generated tables), `LogD.v`, `LogD*.v`, `Log2D*.v` | math/expo: log, log2 and log10 for double, their tables |
| `Log1p.v`, `RelErr.v`, `Log1p*.v` | math/expo: log1p for float and double (the constant-evaluated path; the runtime path calls the platform's log1p) |
| `Trig.v`, `Ph*.v`, `Sin*.v`, `TanAcc.v` | math/trig: the Payne-Hanek reduction, sin, cos and tan for float and double |
| `InvTrig.v`, `Inv*.v` | math/trig/impl/inv_trig: acos, asin, atan and atan2 for float and double |
| `Power.v`, `HypotProofs.v`, `CbrtProofs.v` | math/power: hypot (two and three arguments, long double through double) and cbrt |
| `PowfData.v`, `Powf.v`, `PowfSpecial.v`, `PowfDD.v`, `PowfTab.v`, `PowfNum.v`, `PowfRed.v`, `PowfFast.v`, `PowfScale.v`, `PowfSlow.v`, `PowfPat.v`, `PowfExp.v`, `PowfKer.v`, `PowfAcc.v`, `PowfSmall.v`, `PowfBase.v`, `PowfNeg1.v` | generic/func/power/pow_impl/powf_impl.hpp: pow for float (not the branch with a run-time fused multiply-add) |
| `Props_*.v` | property theorems only, each followed by `Print Assumptions` |

## Plan per property

| id | modelled | proof method |
|---|---|---|
| C01 | bisection loops of countr_zero/countl_zero on w=2^k bits | loop invariant by induction on k |
| C02 | has_single_bit, bit_ceil with UB outcome | bit lemmas over Z |
| C03 | rotl/rotr incl. int count arithmetic | testbit extensionality |
| C04 | SWAR popcounts, loop popcount | induction on the loop; SWAR by block sums; refutation by witness |
| C05 | add/sub with carry, overflow checks | linear arithmetic mod 2^w |
| C06 | mask constructors | Z.ones lemmas |
| C07 | BigInt +,- on word lists | induction on words |
| C08 | multiplication columns with accumulators | column invariant |
| C09 | quick_mul_hi | exact accounting of dropped columns |
| C10 | word shifts | induction / division identities |
| C11 | bit-serial division, sign handling | loop invariant |
| C12 | half-word long division | loop invariant |
| C13 | cmp | induction from the most significant word |
| C14 | conversions | mod arithmetic, refutation by witness |
| C15 | bit queries | induction on words |
| C16 | pow_n | invariant on exponent bits |
| C17 | field access | div/mod identities |
| C18 | observers, fpclassify | case analysis + real semantics |
| C19 | comparisons | monotonicity of decoding |
| C20 | make_value | real semantics |
| C21 | trunc | real semantics, exact integer spec |
| C22 | floor, ceil | trunc + exactness of +-1 |
| C23 | directional_round | Zfloor/Zceil/ZnearestE specification |
| C24 | nearest_integer | exactness of addition; refutation |
| C25 | frexp | real semantics |
| C26 | internal_ldexp + NormalizedFloat | Flocq round |
| C27 | scalbn multiplications | exactness of intermediate products |
| C28 | ilogb, logb | Flocq mag |
| C29 | modf | exact subtraction |
| C30 | nextafter | order isomorphism bits/reals |
| C31 | copysign, fabs | bit level |
| C32 | sqrt_calc_bits loop | digit recurrence invariant + Flocq inbetween |
| C33 | fixed_fma, round_normalized | Flocq inbetween with sticky |
| C34 | special_case_fma | case analysis |
| C35 | shift_right_with_sticky | div/mod |
| C36 | generic_as, fast_as | Flocq inbetween |
| C37 | normalize, shifts | real semantics |
| C38 | quick_add, quick_mul | error accounting |
| C39 | rounding_direction | case analysis, refutation |
| C40 | op::mul | C36 + exact product |
| C41 | add_or_sub | partial + refutations |
| C42 | min_gen/max_gen | case analysis |
| C43 | fdim | Flocq round |
| C44 | remquo loops | invariant on the exponent-gap loop |
| C45 | fmod/remainder fallback | exactness condition; refutation |
| C46 | nan string parsing | induction on the string |
| C47 | lerp | rounding monotonicity |
| C48 | align | div/mod |
| C49 | ext integer helpers | arithmetic |
| C50 | EFT | Flocq Pff2Flocq results / direct |
| C51 | pp reductions | induction on lanes |
| C52 | fp::cast | C36 |
| C53 | ext clamp, saturate, sign, step, chgsign, move_towards, approximately | extended-real order |
| C54 | ext normalize, unlerp, mix, remap, smoothstep | exactness at the ends, monotone rounding |
| C55 | ext fract, repeat, delta_angle, ping_pong | exact subtraction |
| C56 | exp2_float_impl: shift trick, 32-entry table, cubic | real error analysis: every operation with its rounding error, polynomial and table bounded by interval arithmetic, then one rounding to float |
| C57 | exp_float_impl | the same |
| C58, C59 | log_float_impl, log2_float_impl: x = z 2^k by integer arithmetic on the pattern, 16-entry table of 1/c and log c, polynomial in z/c - 1 | `LogRed.v`: the reduction for any format; `Log*fNum.v`: table and polynomial bounded by interval arithmetic, relative bound near 1 by the mean value theorem; `Log*fProofs.v`: the rounding errors, in three cases (k <> 0; k = 0 away from 1; next to 1, where the table entry is exact) |
| C60 | log10 = log * log10e | the rounding of log and of the product |
| C61 | exp(double): kernel, table, special-case scaling | interval arithmetic for the polynomial, exhaustive table check, rounding analysis of the subnormal path |
| C62 | exp2(double) | same kernel analysis; exactness on integers |
| C63 | expm1(float) | rounding analysis of the series generic in the format, Taylor-Lagrange remainder, kernel of expf |
| C64 | expm1(double) | same series analysis; result of exp minus one; refutations below -512 and for the truncated series |
| C65-C67 | log, log2, log10 for double: table of inverses, double-double sum | exact reduction, interval arithmetic per table entry class, rounding analysis |
| C68, C69 | hypot, cbrt | rounding analysis of every operation, iteration error on the reals |
| C70, C71 | log1p: reduction to [sqrt 2/2, sqrt 2], correction term, polynomial | relative-error algebra on the reals, interval arithmetic, witness search for the refutations |
| C72 | payne_hanek_reduce: windowed words of 8/pi, 256-bit accumulator, signed fraction | the accumulator is an integer congruent to the exact product modulo 2^256 (`PhInt.v`), its value on the reals (`PhReal.v`), conversion to double and the multiplication by pi/8 (`PhFin.v`) |
| C73, C74 | sincos kernels: three-word Cody-Waite reduction, two polynomials, 16-entry table, angle addition | exactness of the first products and sums (`SinRed*.v`), polynomial error generic in the format (`SinPoly.v`), reconstruction on the reals by the class of the table entry (`SinRec.v`) |
| C75 | tan_gen | quotient of two approximations |
| C76-C79 | acos, asin, atan, atan2 | interval arithmetic for the approximations, rounding analysis of every operation |
| C80 | pow(float): the special values | case analysis of the tests on the patterns |
| C81 | pow(float): reduced logarithm, fast path, double-double path, scaling | exhaustive table checks, interval arithmetic, rounding analysis of both paths, then one rounding to float |
| C82 | pow(float): repeated product, bases -1, 2, 10 | loop invariant with overflow and underflow; C56 and C62 for the bases |
| C83 | ext cubic, lerp_angle, move_towards_angle | rounding analysis in units of u m; exactness on a grid; C55 for the turn |
| C84 | BigInt & \| ^ / % | induction on the words; C11 |
| C85 | NormalizedFloat, FPBits builders | order of normalised mantissas and exponents; field packing |
| C86 | accuracy of ext rcp, mix, unlerp, smoothstep | rounding analysis; differences of two floats have a relative error only |
| C87 | DyadicFloat multiply_add | the bounds of C38 for quick_mul and quick_add combined |

## Trusted base

1. The kernel of Coq 8.16.1 (with `vm_compute`, used for the concrete cases and
   for the refutation witnesses).
2. The transcription of the C++ into Gallina. Every definition of the model cites
   the lines it transcribes and states its simplifications. The ones that matter:
   * `+ - * /`, comparisons and conversions of `float`, `double` on the machine are
     assumed to be IEEE 754 operations in the given rounding mode (`FOps.v`). NaN
     payloads produced by them are the default quiet NaN.
   * A `UInt<N>`/`BigInt` used inside dyadic numbers, fma and the generic
     operations is a `Z` with an explicit wrap at `2^N`; C07-C13 justify this.
   * The `int` exponent of a `DyadicFloat` is not bounded in the model.
   * Setting errno and raising floating-point exceptions has no effect in the
     model, except where a definition returns the flags explicitly.
   * The rounding mode does not change during a call.
   * Code under `if constexpr`/`#if` is modelled for the branch stated in the
     comment of the definition. `fast_as<T, true>` (dyadic_float.hpp:455) tests a
     run-time value with `if constexpr` and cannot be instantiated; only the
     `false` instance is modelled.
   * The x87 80-bit format is not an instance of the model.
   * A C++ expression `a * b + c` is two rounded operations (no contraction into an
     fma), and `double_t` is `double`.
   * For pp (simd), the GNU vector and the array back ends are modelled. The MSVC
     intrinsics back end and runtime/simd/* are not.
3. The specification vocabulary: `FloatSpec.v`, `ExtFloatSpec.v`, `SimdSpec.v`,
   `SimdFloatSpec.v`, the other `*Spec.v` files, `hermite` (`ExtCubic.v`), `nf_value`, `nf_normal` (`NormFloat.v`), and Flocq's definition of `round`.
4. The axioms below. All are from Coq's standard library: the classical real
   numbers (`ClassicalDedekindReals.sig_forall_dec`, `sig_not_dec`),
   `FunctionalExtensionality.functional_extensionality_dep` (on which the reals
   depend) and `Classical_Prop.classic` (used by Flocq). The development adds none. Bounds on
   elementary functions are found by the `interval` tactic of Coq-Interval with an
   explicit precision; its proofs are checked by the kernel and compute with the
   63-bit machine integers of Coq, so the theorems that use it list the primitive
   operations `PrimInt63.*` and their specifications `Uint63.*_spec` (and
   `eqb_correct`, `eqb_refl`, `of_to_Z`) of `Coq.Numbers.Cyclic.Int63`. No primitive
   float is used.

### Axioms per theorem

As printed by `Print Assumptions` at the end of each `Props_*.v` file.

<!-- axioms:begin -->

**Closed under the global context** (171 theorems):

* `Props_Basic.v`: C45_case_refuted, C46_nan_double, C46_nan_float, C46_decimal, C46_hex, C46_other
* `Props_BigInt.v`: C06_multiword_masks, C07_add, C07_sub, C07_add_overflow, C07_sub_overflow, C07_unary, C08_ful_mul, C08_mul, C08_mul_word, C08_mul_word_carry_refuted, C08_mul_word_carry_always_zero, C08_ful_mul_signed_refuted, C09_quick_mul_hi, C10_shl, C10_shr, C10_rotl, C10_rotr, C10_rotl_negative_refuted, C11_div, C11_div_by_zero, C12_div_half, C13_compare, C14_of_integer, C14_to_integer, C14_convert, C14_convert_to_smaller_words, C14_convert_to_larger_words_partial, C14_convert_to_larger_words_refuted, C14_unsigned_from_signed_refuted, C15_counts, C15_get_set_bit, C15_popcount64, C15_popcount32_refuted, C15_first_bits, C15_first_trailing_one_refuted, C15_first_trailing_one_max_refuted, C15_bit_width_signed_refuted, C16_pow_n
* `Props_Bits.v`: C01_countr_zero, C01_countl_zero, C01_countr_one, C01_countl_one, C01_bit_width, C02_has_single_bit, C02_bit_ceil, C02_bit_ceil_narrow, C03_rotr, C03_rotl, C03_rotl_int_min_undefined, C03_inverse, C04_popcount_generic, C04_popcount_uchar, C04_popcount_uint64, C04_popcount_ushort_refuted, C04_popcount_uint32_refuted, C05_add_with_carry, C05_sub_with_borrow, C05_add_overflow_unsigned, C05_sub_overflow_unsigned, C05_add_overflow_signed, C05_sub_overflow_signed, C06_mask_trailing_ones, C06_mask_leading_ones, C06_mask_trailing_zeros, C06_mask_leading_zeros
* `Props_Dyadic.v`: C39_shift_one_refuted
* `Props_Eft.v`: C50_number_split, C50_order_refuted, C50_split_overflow_refuted, C50_underflow_refuted
* `Props_Expo.v`: C56_special, C57_special
* `Props_ExpoD.v`: C61_special, C62_special
* `Props_Ext.v`: C48_align_down, C48_align_up, C49_abs_diff, C49_abs_diff_unsigned, C49_ceil_div, C49_ceil_div_wrap, C49_ceil_div_0, C49_safe_ceil_div, C49_ceil_div_negative_refuted, C49_is_power_of_two, C49_is_power_of_two_signed, C49_safe_is_power_of_two, C49_sign, C49_clamp, C49_step
* `Props_ExtCubic.v`: C83_cubic_end_refuted
* `Props_ExtFloat.v`: C54_smoothstep_overflow_refuted, C55_fract_refuted, C55_repeat_refuted, C55_ping_pong_refuted
* `Props_Float.v`: C17_rebuild, C17_getters, C17_create_value, C17_setters, C18_quiet_signaling, C18_class_constants, C19_isunordered
* `Props_Fma.v`: C34_nan, C34_infinities, C35_shift_right_with_sticky
* `Props_Fmanip.v`: C26_special, C27_nan, C29_special, C30_nan
* `Props_GenOps.v`: C40_special, C41_add_special, C41_sub_special, C41_sub_refuted, C52_narrow_special
* `Props_InvTrig.v`: C77_odd_refuted, C79_nan
* `Props_Lerp.v`: C47_lerp_same_refuted, C47_lerp_nan
* `Props_Log.v`: C60_power_refuted
* `Props_LogD.v`: C67_power_refuted
* `Props_Power.v`: C68_special, C68_long_double_refuted, C69_special
* `Props_Powf.v`: C80_exponent_zero
* `Props_Simd.v`: C51_mask_operators, C51_mask_sources, C51_mask_reductions, C51_min_index, C51_max_index, C51_to_ullong, C51_from_bits, C51_bits_roundtrip, C51_select, C51_select_raw_refuted, C51_elementwise, C51_reduce, C51_reduce_assoc, C51_sum_unsigned, C51_sum_negative_zero_refuted, C51_reduce_masked, C51_plus_zero_refuted, C51_min_max_int, C51_min_masked_int, C51_max_masked_int, C51_min_max_nan, C51_min_order_refuted, C51_vector_min_max, C51_max_backends_refuted, C51_where, C51_masked_load, C51_masked_store, C51_cat, C51_split, C51_split_cat, C51_mask_cat, C51_mask_split, C51_abs_int
* `Props_Trig.v`: C73_special, C74_special, C75_special
* `Props_Types.v`: C84_bitwise, C84_quotient, C84_quotient_zero, C85_cmp_zero_refuted, C85_nans, C85_signaling_payload_refuted

**`ClassicalDedekindReals.sig_forall_dec`, `FunctionalExtensionality.functional_extensionality_dep`** (102 theorems):

* `Props_Basic.v`: C42_max, C42_min, C43_special, C44_remquo_in_tree_refuted, C45_fmod_special, C45_remainder_special, C45_fmod_refuted
* `Props_Dyadic.v`: C36_as_mantissa_type, C36_as_mantissa_type_rounded, C36_as_mantissa_type_rounded_refuted, C37_normalize, C37_make, C37_from_float, C37_shift_left, C37_shift_right, C37_neg, C37_mul_pow_2, C38_quick_add_same, C38_quick_add_opposite, C38_quick_add_exponent_refuted, C38_quick_mul, C38_quick_mul_exact, C38_quick_mul_doc_refuted, C38_pow_n, C39_rounding_direction, C39_directed_refuted
* `Props_DyadicMA.v`: C87_small_addend_refuted
* `Props_Expm1.v`: C63_special, C64_special
* `Props_ExtAcc.v`: C86_rcp_special
* `Props_ExtCubic.v`: C83_hermite
* `Props_ExtFloat.v`: C53_clamp, C53_clamp_mono, C53_saturate, C53_step, C53_chgsign, C53_approximately_special, C53_mixed_clamp_refuted, C54_smoothstep_up_refuted, C55_fract_special, C55_safe_repeat_zero, C55_safe_repeat, C55_ping_pong_zero
* `Props_Float.v`: C17_explicit_value, C18_fpbits, C18_is_subnormal_zero_refuted, C18_classifiers, C18_isnormal, C18_fpclassify, C18_nvhpc_refuted, C19_isless, C19_isgreater, C19_islessequal, C19_isgreaterequal, C19_islessgreater, C19_total, C20_make_value, C31_fabs, C31_fabs_value
* `Props_Fma.v`: C34_zero_factor
* `Props_Fmanip.v`: C25_special, C25_wide_refuted, C27_inf, C28_ilogb_special, C28_logb_special, C28_wide_refuted, C29_wide_refuted, C30_total
* `Props_InvTrig.v`: C79_negative_zero_refuted
* `Props_Lerp.v`: C47_fma_lerp_mono_refuted
* `Props_Log.v`: C58_special, C59_special, C60_special
* `Props_Log1p.v`: C70_special, C71_special
* `Props_LogD.v`: C65_special, C66_power_directed_refuted, C66_special, C67_special
* `Props_Nearest.v`: C22_special, C23_special, C24_big, C24_odd_integer_refuted, C24_upward_refuted
* `Props_Power.v`: C68_symmetric, C69_odd
* `Props_Powf.v`: C80_base_one, C80_base_zero, C80_base_infinite, C80_exponent_infinite, C80_nan, C80_negative_base
* `Props_Simd.v`: C51_min_max_float, C51_min_max_masked_float
* `Props_Sqrt.v`: C32_sqrt_special, C32_sqrt_x87_upward_refuted
* `Props_Types.v`: C85_make, C85_of, C85_mul2, C85_cmp, C85_zero_one, C85_limits

**`ClassicalDedekindReals.sig_forall_dec`, `ClassicalDedekindReals.sig_not_dec`, `Classical_Prop.classic`, `FunctionalExtensionality.functional_extensionality_dep`** (121 theorems):

* `Props_Basic.v`: C43_fdim, C43_overflow, C43_fdim_refuted, C44_remquo, C44_remquo_in_tree_partial, C44_special, C45_fmod_small, C45_fmod, C45_remainder_is_fmod, C45_remainder_ieee
* `Props_Dyadic.v`: C36_generic_as, C36_fast_as, C38_quick_add_bound, C38_quick_sub_bound, C38_quick_add_bound_refuted, C38_rounded_mul, C38_rounded_div
* `Props_DyadicMA.v`: C87_multiply_add
* `Props_Eft.v`: C50_fast_two_sum, C50_fast_two_sum_zero, C50_fast_two_sum_directed, C50_fast_two_sum_error, C50_two_sum, C50_split, C50_exact_mult, C50_quick_mult_d, C50_quick_mult, C50_dd_add, C50_dd_add_d
* `Props_Expm1.v`: C63_outside
* `Props_Expo.v`: C56_outside, C56_gap_refuted
* `Props_ExpoD.v`: C62_outside, C62_mode_refuted
* `Props_ExtAcc.v`: C86_rcp, C86_mix, C86_unlerp, C86_smoothstep
* `Props_ExtCubic.v`: C83_cubic, C83_cubic_start, C83_cubic_exact, C83_lerp_angle, C83_move_towards_angle
* `Props_ExtFloat.v`: C53_sign, C53_move_towards, C53_approximately, C54_normalize_range, C54_normalize, C54_unlerp, C54_safe_unlerp, C54_mix, C54_remap, C54_safe_remap, C54_smoothstep_ends, C54_smoothstep_range, C55_fract, C55_repeat, C55_delta_angle, C55_ping_pong
* `Props_Float.v`: C31_copysign
* `Props_Fma.v`: C33_fmaf, C33_fma, C33_kernel
* `Props_Fmanip.v`: C25_frexp, C26_ldexp, C26_ldexp_within, C26_ldexp_beyond, C26_directed_refuted, C27_scalbn, C27_long_refuted, C28_ilogb, C28_logb, C29_modf, C30_up, C30_down, C30_equal, C30_nextup, C30_nextdown
* `Props_GenOps.v`: C40_mul, C40_mul_float, C40_mul_double, C40_mul_double_to_float, C41_add_partial, C41_sub_partial, C41_add_double_partial, C41_add_float_partial, C41_add_zero_left, C41_add_refuted, C52_narrow, C52_widen, C52_double_to_float, C52_float_to_double
* `Props_InvTrig.v`: C76_special, C77_special, C78_special, C79_zero
* `Props_Lerp.v`: C47_lerp_0, C47_lerp_1, C47_lerp_between, C47_lerp_mono, C47_lerp_same, C47_fma_lerp_ends
* `Props_Nearest.v`: C21_trunc, C21_special, C22_floor, C22_ceil, C22_ceil_negative_zero, C23_round, C23_rint, C24_nearest_even, C24_runtime, C24_within_one
* `Props_Power.v`: C68_hypot, C68_hypot3
* `Props_Powf.v`: C80_simple, C80_directed_refuted
* `Props_PowfAcc.v`: C82_gap_refuted
* `Props_Simd.v`: C51_sum_float, C51_minus_zero_neutral
* `Props_Sqrt.v`: C32_sqrt_correctly_rounded, C32_sqrt_x87_except_carry

**`ClassicalDedekindReals.sig_forall_dec`, `ClassicalDedekindReals.sig_not_dec`, `Classical_Prop.classic`, `FunctionalExtensionality.functional_extensionality_dep`, `PrimInt63.add`, `PrimInt63.addc`, `PrimInt63.addcarryc`, `PrimInt63.addmuldiv`, `PrimInt63.compare`, `PrimInt63.div`, `PrimInt63.diveucl`, `PrimInt63.diveucl_21`, `PrimInt63.eqb`, `PrimInt63.head0`, `PrimInt63.int`, `PrimInt63.land`, `PrimInt63.leb`, `PrimInt63.lor`, `PrimInt63.lsl`, `PrimInt63.lsr`, `PrimInt63.ltb`, `PrimInt63.lxor`, `PrimInt63.mod`, `PrimInt63.mul`, `PrimInt63.mulc`, `PrimInt63.sub`, `PrimInt63.subc`, `PrimInt63.subcarryc`, `PrimInt63.tail0`, `Uint63.add_spec`, `Uint63.addc_def_spec`, `Uint63.addcarryc_def_spec`, `Uint63.addmuldiv_def_spec`, `Uint63.compare_def_spec`, `Uint63.div_spec`, `Uint63.diveucl_21_spec`, `Uint63.diveucl_def_spec`, `Uint63.eqb_correct`, `Uint63.eqb_refl`, `Uint63.head0_spec`, `Uint63.land_spec`, `Uint63.leb_spec`, `Uint63.lor_spec`, `Uint63.lsl_spec`, `Uint63.lsr_spec`, `Uint63.ltb_spec`, `Uint63.lxor_spec`, `Uint63.mod_spec`, `Uint63.mul_spec`, `Uint63.mulc_spec`, `Uint63.of_to_Z`, `Uint63.sub_spec`, `Uint63.subc_def_spec`, `Uint63.subcarryc_def_spec`, `Uint63.tail0_spec`** (61 theorems):

* `Props_Expm1.v`: C63_expm1, C63_far, C63_near, C64_expm1, C64_far, C64_near, C64_outside, C64_negative_refuted, C64_series_refuted
* `Props_Expo.v`: C56_exp2f, C56_integer, C57_expf, C57_overflow, C57_underflow_refuted
* `Props_ExpoD.v`: C61_exp, C61_overflow, C61_underflow, C61_mode_refuted, C62_exp2, C62_integer, C62_tiny
* `Props_InvTrig.v`: C76_acos, C76_acosf, C77_asin, C77_asinf, C78_atan, C78_atanf, C78_ulp_refuted, C79_atan2, C79_atan2f, C79_infinite
* `Props_Log.v`: C58_logf, C59_log2f, C59_power, C60_log10f
* `Props_Log1p.v`: C70_log1p, C70_overflow_refuted, C71_log1p, C71_ulp_refuted, C71_overflow_refuted
* `Props_LogD.v`: C65_log, C66_log2, C66_power, C67_log10
* `Props_Power.v`: C69_cbrtf, C69_cbrt
* `Props_Powf.v`: C80_fma_constant_refuted
* `Props_PowfAcc.v`: C81_powf, C82_small_integers, C82_minus_one, C82_two, C82_ten, C82_gap_ten_refuted
* `Props_Trig.v`: C72_payne_hanek, C73_sincosf, C73_middle, C73_middle_refuted, C74_sincos, C74_contract_refuted, C75_tan, C75_tanf

<!-- axioms:end -->

## Not modelled

* The polynomial and table based functions other than those listed in the plan
  (pow for double, gamma and the rest).
* Compiler builtins, libm and the CPU-specific SIMD code: where a function
  dispatches to one of them, only the in-tree alternative is modelled.
