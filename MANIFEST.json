{
 "claims": [
  {
   "property": "C01",
   "status": "proved",
   "theorems": [
    "C01_countr_zero",
    "C01_countl_zero",
    "C01_countr_one",
    "C01_countl_one",
    "C01_bit_width"
   ],
   "note": ""
  },
  {
   "property": "C02",
   "status": "proved",
   "theorems": [
    "C02_has_single_bit",
    "C02_bit_ceil",
    "C02_bit_ceil_narrow"
   ],
   "note": "bit_ceil above the largest representable power of two performs an out-of-range shift: outcome None"
  },
  {
   "property": "C03",
   "status": "proved",
   "theorems": [
    "C03_rotr",
    "C03_rotl",
    "C03_rotl_int_min_undefined",
    "C03_inverse"
   ],
   "note": "rotl by INT_MIN negates INT_MIN: outcome None (C03_rotl_int_min_undefined)"
  },
  {
   "property": "C04",
   "status": "proved",
   "theorems": [
    "C04_popcount_generic",
    "C04_popcount_uchar",
    "C04_popcount_uint64",
    "C04_popcount_ushort_refuted",
    "C04_popcount_uint32_refuted"
   ],
   "note": "the 16- and 32-bit fallbacks are wrong: C04_popcount_ushort_refuted, C04_popcount_uint32_refuted"
  },
  {
   "property": "C05",
   "status": "proved",
   "theorems": [
    "C05_add_with_carry",
    "C05_sub_with_borrow",
    "C05_add_overflow_unsigned",
    "C05_sub_overflow_unsigned",
    "C05_add_overflow_signed",
    "C05_sub_overflow_signed"
   ],
   "note": ""
  },
  {
   "property": "C06",
   "status": "proved",
   "theorems": [
    "C06_multiword_masks",
    "C06_mask_trailing_ones",
    "C06_mask_leading_ones",
    "C06_mask_trailing_zeros",
    "C06_mask_leading_zeros"
   ],
   "note": ""
  },
  {
   "property": "C07",
   "status": "proved",
   "theorems": [
    "C07_add",
    "C07_sub",
    "C07_add_overflow",
    "C07_sub_overflow",
    "C07_unary"
   ],
   "note": ""
  },
  {
   "property": "C08",
   "status": "proved",
   "theorems": [
    "C08_ful_mul",
    "C08_mul",
    "C08_mul_word",
    "C08_mul_word_carry_refuted",
    "C08_mul_word_carry_always_zero",
    "C08_ful_mul_signed_refuted"
   ],
   "note": "the carry of mul(word) is always zero: C08_mul_word_carry_refuted"
  },
  {
   "property": "C09",
   "status": "proved",
   "theorems": [
    "C09_quick_mul_hi"
   ],
   "note": ""
  },
  {
   "property": "C10",
   "status": "proved",
   "theorems": [
    "C10_shl",
    "C10_shr",
    "C10_rotl",
    "C10_rotr",
    "C10_rotl_negative_refuted"
   ],
   "note": "negative rotation counts are wrong for widths not dividing 2^32: C10_rotl_negative_refuted"
  },
  {
   "property": "C11",
   "status": "proved",
   "theorems": [
    "C11_div",
    "C11_div_by_zero"
   ],
   "note": "division by zero leaves the dividend and gives no remainder; operator% then dereferences an empty optional (outcome None)"
  },
  {
   "property": "C12",
   "status": "proved",
   "theorems": [
    "C12_div_half"
   ],
   "note": ""
  },
  {
   "property": "C13",
   "status": "proved",
   "theorems": [
    "C13_compare"
   ],
   "note": ""
  },
  {
   "property": "C14",
   "status": "proved",
   "theorems": [
    "C14_of_integer",
    "C14_to_integer",
    "C14_convert",
    "C14_convert_to_smaller_words",
    "C14_convert_to_larger_words_partial",
    "C14_convert_to_larger_words_refuted",
    "C14_unsigned_from_signed_refuted"
   ],
   "note": "conversion to larger words holds under the stated condition (C14_convert_to_larger_words_partial); outside it the code is wrong (C14_convert_to_larger_words_refuted)"
  },
  {
   "property": "C15",
   "status": "proved",
   "theorems": [
    "C15_counts",
    "C15_get_set_bit",
    "C15_popcount64",
    "C15_popcount32_refuted",
    "C15_first_bits",
    "C15_first_trailing_one_refuted",
    "C15_first_trailing_one_max_refuted",
    "C15_bit_width_signed_refuted"
   ],
   "note": "counterexamples: first_trailing_one at 0 and at the maximum, signed bit_width, 32-bit-word popcount"
  },
  {
   "property": "C16",
   "status": "proved",
   "theorems": [
    "C16_pow_n"
   ],
   "note": ""
  },
  {
   "property": "C17",
   "status": "proved",
   "theorems": [
    "C17_rebuild",
    "C17_getters",
    "C17_create_value",
    "C17_setters",
    "C17_explicit_value"
   ],
   "note": ""
  },
  {
   "property": "C18",
   "status": "proved",
   "theorems": [
    "C18_fpbits",
    "C18_quiet_signaling",
    "C18_is_subnormal_zero_refuted",
    "C18_classifiers",
    "C18_isnormal",
    "C18_fpclassify",
    "C18_class_constants",
    "C18_nvhpc_refuted"
   ],
   "note": "Two refuted sub-claims are recorded: FPBits::is_subnormal holds of zero, and with the Nvidia constants fpclassify cannot tell zero from subnormal."
  },
  {
   "property": "C19",
   "status": "proved",
   "theorems": [
    "C19_isless",
    "C19_isgreater",
    "C19_islessequal",
    "C19_isgreaterequal",
    "C19_islessgreater",
    "C19_isunordered",
    "C19_total"
   ],
   "note": ""
  },
  {
   "property": "C20",
   "status": "proved",
   "theorems": [
    "C20_make_value"
   ],
   "note": "Premises: the shift by -expo must be below the width and the result must not overflow the exponent field (both unchecked by the code)."
  },
  {
   "property": "C21",
   "status": "proved",
   "theorems": [
    "C21_trunc",
    "C21_special"
   ],
   "note": ""
  },
  {
   "property": "C22",
   "status": "proved",
   "theorems": [
    "C22_floor",
    "C22_ceil",
    "C22_special",
    "C22_ceil_negative_zero"
   ],
   "note": ""
  },
  {
   "property": "C23",
   "status": "proved",
   "theorems": [
    "C23_round",
    "C23_rint",
    "C23_special"
   ],
   "note": ""
  },
  {
   "property": "C24",
   "status": "proved",
   "theorems": [
    "C24_nearest_even",
    "C24_big",
    "C24_runtime",
    "C24_within_one",
    "C24_odd_integer_refuted",
    "C24_upward_refuted"
   ],
   "note": "two refuted sub-claims: C24_odd_integer_refuted, C24_upward_refuted"
  },
  {
   "property": "C25",
   "status": "proved",
   "theorems": [
    "C25_frexp",
    "C25_special",
    "C25_wide_refuted"
   ],
   "note": "C25_wide_refuted: a 128-bit long double goes through double"
  },
  {
   "property": "C26",
   "status": "proved",
   "theorems": [
    "C26_ldexp",
    "C26_ldexp_within",
    "C26_ldexp_beyond",
    "C26_special",
    "C26_directed_refuted"
   ],
   "note": "C26_directed_refuted: the requested mode is ignored within the exponent limit"
  },
  {
   "property": "C27",
   "status": "proved",
   "theorems": [
    "C27_scalbn",
    "C27_inf",
    "C27_nan",
    "C27_long_refuted"
   ],
   "note": "Premise 3*fl+7 <= bias, true of float and double (C27_formats). C27_long_refuted: the long overload truncates the exponent."
  },
  {
   "property": "C28",
   "status": "proved",
   "theorems": [
    "C28_ilogb",
    "C28_ilogb_special",
    "C28_logb",
    "C28_logb_special",
    "C28_wide_refuted"
   ],
   "note": "logb: premise bias+fl <= 2^prec, true of float and double. C28_wide_refuted."
  },
  {
   "property": "C29",
   "status": "proved",
   "theorems": [
    "C29_modf",
    "C29_special",
    "C29_wide_refuted"
   ],
   "note": "C29_wide_refuted"
  },
  {
   "property": "C30",
   "status": "proved",
   "theorems": [
    "C30_up",
    "C30_down",
    "C30_equal",
    "C30_nan",
    "C30_total",
    "C30_nextup",
    "C30_nextdown"
   ],
   "note": "the x87 80-bit long double target is not modelled; binary64 and binary128 targets are"
  },
  {
   "property": "C31",
   "status": "proved",
   "theorems": [
    "C31_fabs",
    "C31_fabs_value",
    "C31_copysign"
   ],
   "note": ""
  },
  {
   "property": "C32",
   "status": "proved",
   "theorems": [
    "C32_sqrt_correctly_rounded",
    "C32_sqrt_special",
    "C32_sqrt_x87_except_carry",
    "C32_sqrt_x87_upward_refuted"
   ],
   "note": "x87 variant: C32_sqrt_x87_except_carry and C32_sqrt_x87_upward_refuted"
  },
  {
   "property": "C33",
   "status": "proved",
   "theorems": [
    "C33_fmaf",
    "C33_fma",
    "C33_kernel"
   ],
   "note": "float and double (fixed_fma); also proved: the fallback to wide_fma is never taken. C33_kernel is the width-generic version. wide_fma (long double) is not covered by this claim."
  },
  {
   "property": "C34",
   "status": "proved",
   "theorems": [
    "C34_nan",
    "C34_infinities",
    "C34_zero_factor"
   ],
   "note": ""
  },
  {
   "property": "C35",
   "status": "proved",
   "theorems": [
    "C35_shift_right_with_sticky"
   ],
   "note": ""
  },
  {
   "property": "C36",
   "status": "proved",
   "theorems": [
    "C36_generic_as",
    "C36_fast_as",
    "C36_as_mantissa_type",
    "C36_as_mantissa_type_rounded",
    "C36_as_mantissa_type_rounded_refuted"
   ],
   "note": "C36_as_mantissa_type_rounded_refuted: directed modes with a shift of at least Bits"
  },
  {
   "property": "C37",
   "status": "proved",
   "theorems": [
    "C37_normalize",
    "C37_make",
    "C37_from_float",
    "C37_shift_left",
    "C37_shift_right",
    "C37_neg",
    "C37_mul_pow_2"
   ],
   "note": "exponents are unbounded integers in the model; dy_ok keeps them away from the int limits"
  },
  {
   "property": "C38",
   "status": "proved",
   "theorems": [
    "C38_quick_add_same",
    "C38_quick_add_opposite",
    "C38_quick_add_bound",
    "C38_quick_sub_bound",
    "C38_quick_add_bound_refuted",
    "C38_quick_add_exponent_refuted",
    "C38_quick_mul",
    "C38_quick_mul_exact",
    "C38_quick_mul_doc_refuted",
    "C38_pow_n",
    "C38_rounded_mul",
    "C38_rounded_div"
   ],
   "note": "three refuted sub-claims: the documented quick_add bound, the exponent of quick_add with a negligible first operand, the documented quick_mul bound. approx_reciprocal is not covered."
  },
  {
   "property": "C39",
   "status": "proved",
   "theorems": [
    "C39_rounding_direction",
    "C39_directed_refuted",
    "C39_shift_one_refuted"
   ],
   "note": "C39_directed_refuted, C39_shift_one_refuted outside the stated range"
  },
  {
   "property": "C40",
   "status": "proved",
   "theorems": [
    "C40_mul",
    "C40_mul_float",
    "C40_mul_double",
    "C40_mul_double_to_float",
    "C40_special"
   ],
   "note": "output format not wider than the input format; DyadicFloat width at least twice the precision"
  },
  {
   "property": "C41",
   "status": "partial",
   "theorems": [
    "C41_add_partial",
    "C41_sub_partial",
    "C41_add_double_partial",
    "C41_add_float_partial",
    "C41_add_zero_left",
    "C41_add_special",
    "C41_sub_special",
    "C41_add_refuted",
    "C41_sub_refuted"
   ],
   "note": "Proved for normal operands of equal sign or with |y| <= |x|, for a zero first operand, and for NaN and infinite operands of add. Outside that the claim is false of the code: C41_add_refuted (second operand zero, both zero negative, opposite signs with |x|<|y|, subnormal operands), C41_sub_refuted (sign of x-y for opposite signs with |x|<|y|, x - inf). Not covered: mixed subnormal/normal operands for which the result happens to be right."
  },
  {
   "property": "C42",
   "status": "proved",
   "theorems": [
    "C42_max",
    "C42_min"
   ],
   "note": ""
  },
  {
   "property": "C43",
   "status": "proved",
   "theorems": [
    "C43_fdim",
    "C43_overflow",
    "C43_fdim_refuted",
    "C43_special"
   ],
   "note": "C43_fdim_refuted shows why the bound on x-y is needed"
  },
  {
   "property": "C44",
   "status": "proved",
   "theorems": [
    "C44_remquo",
    "C44_remquo_in_tree_partial",
    "C44_special",
    "C44_remquo_in_tree_refuted"
   ],
   "note": "Relative to an exact fmod, as the statement says; C44_remquo_in_tree_partial for the in-tree fmod, which is not exact (C44_remquo_in_tree_refuted)."
  },
  {
   "property": "C45",
   "status": "proved",
   "theorems": [
    "C45_fmod_small",
    "C45_fmod",
    "C45_remainder_is_fmod",
    "C45_remainder_ieee",
    "C45_fmod_special",
    "C45_remainder_special",
    "C45_fmod_refuted",
    "C45_case_refuted"
   ],
   "note": "C45_fmod_refuted and C45_case_refuted outside the stated range"
  },
  {
   "property": "C46",
   "status": "proved",
   "theorems": [
    "C46_nan_double",
    "C46_nan_float",
    "C46_decimal",
    "C46_hex",
    "C46_other"
   ],
   "note": "the null pointer argument is not modelled"
  },
  {
   "property": "C47",
   "status": "proved",
   "theorems": [
    "C47_lerp_0",
    "C47_lerp_1",
    "C47_lerp_between",
    "C47_lerp_mono",
    "C47_lerp_same",
    "C47_lerp_same_refuted",
    "C47_lerp_nan",
    "C47_fma_lerp_ends",
    "C47_fma_lerp_mono_refuted"
   ],
   "note": "C47_lerp_same_refuted and C47_fma_lerp_mono_refuted; overloads on integers and mixed types are not modelled"
  },
  {
   "property": "C48",
   "status": "proved",
   "theorems": [
    "C48_align_down",
    "C48_align_up"
   ],
   "note": ""
  },
  {
   "property": "C49",
   "status": "proved",
   "theorems": [
    "C49_abs_diff",
    "C49_abs_diff_unsigned",
    "C49_ceil_div",
    "C49_ceil_div_wrap",
    "C49_ceil_div_0",
    "C49_safe_ceil_div",
    "C49_ceil_div_negative_refuted",
    "C49_is_power_of_two",
    "C49_is_power_of_two_signed",
    "C49_safe_is_power_of_two",
    "C49_sign",
    "C49_clamp",
    "C49_step"
   ],
   "note": "C49_ceil_div_negative_refuted: not the ceiling for negative values; mixed-type clamp is not covered here"
  },
  {
   "property": "C50",
   "status": "proved",
   "theorems": [
    "C50_fast_two_sum",
    "C50_fast_two_sum_zero",
    "C50_fast_two_sum_directed",
    "C50_fast_two_sum_error",
    "C50_two_sum",
    "C50_split",
    "C50_exact_mult",
    "C50_quick_mult_d",
    "C50_quick_mult",
    "C50_dd_add",
    "C50_dd_add_d",
    "C50_number_split",
    "C50_order_refuted",
    "C50_split_overflow_refuted",
    "C50_underflow_refuted"
   ],
   "note": "for every format of at least 4 bits of precision; overflow bounds are explicit and sufficient, not tight; C50_order_refuted, C50_split_overflow_refuted, C50_underflow_refuted; veltkamp_split on the x87 type is the same model with an explicit leading bit not represented"
  },
  {
   "property": "C51",
   "status": "proved",
   "theorems": [
    "C51_mask_operators",
    "C51_mask_sources",
    "C51_mask_reductions",
    "C51_min_index",
    "C51_max_index",
    "C51_to_ullong",
    "C51_from_bits",
    "C51_bits_roundtrip",
    "C51_select",
    "C51_select_raw_refuted",
    "C51_elementwise",
    "C51_reduce",
    "C51_reduce_assoc",
    "C51_sum_unsigned",
    "C51_sum_float",
    "C51_sum_negative_zero_refuted",
    "C51_reduce_masked",
    "C51_minus_zero_neutral",
    "C51_plus_zero_refuted",
    "C51_min_max_int",
    "C51_min_masked_int",
    "C51_max_masked_int",
    "C51_min_max_float",
    "C51_min_max_nan",
    "C51_min_order_refuted",
    "C51_min_max_masked_float",
    "C51_vector_min_max",
    "C51_max_backends_refuted",
    "C51_where",
    "C51_masked_load",
    "C51_masked_store",
    "C51_cat",
    "C51_split",
    "C51_split_cat",
    "C51_mask_cat",
    "C51_mask_split",
    "C51_abs_int"
   ],
   "note": "Proved for the GNU-vector, array and scalar back ends, every lane count; the MSVC intrinsic back end and the compilers' floating-point vector reductions (__builtin_reduce_min/max on floats) are not modelled. Refuted variants: blends differ on ill-formed masks; sum of -0 lanes; identity +0; NaN-position dependence of reduce_min; the back ends' max differs on NaN and signed zeros."
  },
  {
   "property": "C52",
   "status": "proved",
   "theorems": [
    "C52_narrow",
    "C52_narrow_special",
    "C52_widen",
    "C52_double_to_float",
    "C52_float_to_double"
   ],
   "note": ""
  },
  {
   "property": "C53",
   "status": "proved",
   "theorems": [
    "C53_clamp",
    "C53_clamp_mono",
    "C53_saturate",
    "C53_sign",
    "C53_step",
    "C53_chgsign",
    "C53_move_towards",
    "C53_approximately",
    "C53_approximately_special",
    "C53_mixed_clamp_refuted"
   ],
   "note": "C53_mixed_clamp_refuted; approximately is false for equal infinities (C53_approximately_special)"
  },
  {
   "property": "C54",
   "status": "proved",
   "theorems": [
    "C54_normalize_range",
    "C54_normalize",
    "C54_unlerp",
    "C54_safe_unlerp",
    "C54_mix",
    "C54_remap",
    "C54_safe_remap",
    "C54_smoothstep_ends",
    "C54_smoothstep_range",
    "C54_smoothstep_up_refuted",
    "C54_smoothstep_overflow_refuted"
   ],
   "note": "C54_smoothstep_up_refuted and C54_smoothstep_overflow_refuted"
  },
  {
   "property": "C55",
   "status": "proved",
   "theorems": [
    "C55_fract",
    "C55_fract_special",
    "C55_repeat",
    "C55_safe_repeat_zero",
    "C55_safe_repeat",
    "C55_delta_angle",
    "C55_ping_pong_zero",
    "C55_ping_pong",
    "C55_fract_refuted",
    "C55_repeat_refuted",
    "C55_ping_pong_refuted"
   ],
   "note": "C55_fract_refuted, C55_repeat_refuted, C55_ping_pong_refuted; ping_pong is modelled for T = double; lerp_angle and move_towards_angle are modelled, no theorem"
  },
  {
   "property": "C56",
   "status": "proved",
   "theorems": [
    "C56_exp2f",
    "C56_integer",
    "C56_outside",
    "C56_gap_refuted",
    "C56_special"
   ],
   "note": "C56_gap_refuted: 0 instead of 2^-149 to nearest on (-150,-149)"
  },
  {
   "property": "C57",
   "status": "proved",
   "theorems": [
    "C57_expf",
    "C57_overflow",
    "C57_underflow_refuted",
    "C57_special"
   ],
   "note": "C57_underflow_refuted: 2^-149 instead of 0 below the lower threshold"
  },
  {
   "property": "C58",
   "status": "proved",
   "theorems": [
    "C58_logf",
    "C58_special"
   ],
   "note": ""
  },
  {
   "property": "C59",
   "status": "proved",
   "theorems": [
    "C59_log2f",
    "C59_power",
    "C59_special"
   ],
   "note": ""
  },
  {
   "property": "C60",
   "status": "proved",
   "theorems": [
    "C60_log10f",
    "C60_special",
    "C60_power_refuted"
   ],
   "note": "C60_power_refuted: log10(10^9) is not 9"
  },
  {
   "property": "C61",
   "status": "proved",
   "theorems": [
    "C61_exp",
    "C61_overflow",
    "C61_underflow",
    "C61_mode_refuted",
    "C61_special"
   ],
   "note": "C61_mode_refuted: directed modes are ignored beyond 1024; between 1023 and 1024 in absolute value only C61_overflow and C61_underflow apply"
  },
  {
   "property": "C62",
   "status": "proved",
   "theorems": [
    "C62_exp2",
    "C62_integer",
    "C62_tiny",
    "C62_outside",
    "C62_mode_refuted",
    "C62_special"
   ],
   "note": "C62_mode_refuted: directed modes are ignored outside (-1075,1024)"
  },
  {
   "property": "C63",
   "status": "proved",
   "theorems": [
    "C63_expm1",
    "C63_far",
    "C63_near",
    "C63_outside",
    "C63_special"
   ],
   "note": ""
  },
  {
   "property": "C64",
   "status": "proved",
   "theorems": [
    "C64_expm1",
    "C64_far",
    "C64_near",
    "C64_outside",
    "C64_negative_refuted",
    "C64_series_refuted",
    "C64_special"
   ],
   "note": "C64_negative_refuted: wrong on the whole of (-1024,-512]; C64_series_refuted: 800 ulps below 1/4"
  },
  {
   "property": "C65",
   "status": "proved",
   "theorems": [
    "C65_log",
    "C65_special"
   ],
   "note": ""
  },
  {
   "property": "C66",
   "status": "proved",
   "theorems": [
    "C66_log2",
    "C66_power",
    "C66_power_directed_refuted",
    "C66_special"
   ],
   "note": "C66_power_directed_refuted: log2(2) is not 1 in the directed modes"
  },
  {
   "property": "C67",
   "status": "proved",
   "theorems": [
    "C67_log10",
    "C67_special",
    "C67_power_refuted"
   ],
   "note": "C67_power_refuted: log10(10^15) is not 15"
  },
  {
   "property": "C68",
   "status": "proved",
   "theorems": [
    "C68_hypot",
    "C68_special",
    "C68_symmetric",
    "C68_hypot3",
    "C68_long_double_refuted"
   ],
   "note": "C68_long_double_refuted: the long double overload computes in double"
  },
  {
   "property": "C69",
   "status": "proved",
   "theorems": [
    "C69_cbrtf",
    "C69_cbrt",
    "C69_odd",
    "C69_special"
   ],
   "note": ""
  },
  {
   "property": "C70",
   "status": "proved",
   "theorems": [
    "C70_log1p",
    "C70_special",
    "C70_overflow_refuted"
   ],
   "note": "C70_overflow_refuted: log1p(FLT_MAX) rounding upward"
  },
  {
   "property": "C71",
   "status": "proved",
   "theorems": [
    "C71_log1p",
    "C71_special",
    "C71_ulp_refuted",
    "C71_overflow_refuted"
   ],
   "note": "C71_ulp_refuted: 210 ulps off near 0.4142; C71_overflow_refuted: log1p(DBL_MAX) rounding upward"
  },
  {
   "property": "C72",
   "status": "proved",
   "theorems": [
    "C72_payne_hanek"
   ],
   "note": ""
  },
  {
   "property": "C73",
   "status": "proved",
   "theorems": [
    "C73_sincosf",
    "C73_middle",
    "C73_middle_refuted",
    "C73_special"
   ],
   "note": "C73_middle_refuted: sin(262143.5f) is off by more than 0.006"
  },
  {
   "property": "C74",
   "status": "proved",
   "theorems": [
    "C74_sincos",
    "C74_contract_refuted",
    "C74_special"
   ],
   "note": "C74_contract_refuted: the 4-ulp contract of the source fails next to a zero of cos"
  },
  {
   "property": "C75",
   "status": "proved",
   "theorems": [
    "C75_tan",
    "C75_tanf",
    "C75_special"
   ],
   "note": "floats between 25 and 2^18 are excluded: the kernels lose relative accuracy there (C73)"
  },
  {
   "property": "C76",
   "status": "proved",
   "theorems": [
    "C76_acos",
    "C76_acosf",
    "C76_special"
   ],
   "note": ""
  },
  {
   "property": "C77",
   "status": "proved",
   "theorems": [
    "C77_asin",
    "C77_asinf",
    "C77_special",
    "C77_odd_refuted"
   ],
   "note": "C77_odd_refuted: asin(-x) is not -asin(x)"
  },
  {
   "property": "C78",
   "status": "proved",
   "theorems": [
    "C78_atan",
    "C78_atanf",
    "C78_special",
    "C78_ulp_refuted"
   ],
   "note": "C78_ulp_refuted: the source comment claims a couple of ulp"
  },
  {
   "property": "C79",
   "status": "proved",
   "theorems": [
    "C79_atan2",
    "C79_atan2f",
    "C79_zero",
    "C79_negative_zero_refuted",
    "C79_infinite",
    "C79_nan"
   ],
   "note": "C79_negative_zero_refuted: atan2(-0, -1) is +pi"
  },
  {
   "property": "C80",
   "status": "proved",
   "theorems": [
    "C80_exponent_zero",
    "C80_base_one",
    "C80_base_zero",
    "C80_base_infinite",
    "C80_exponent_infinite",
    "C80_nan",
    "C80_negative_base",
    "C80_simple",
    "C80_directed_refuted",
    "C80_fma_constant_refuted"
   ],
   "note": "C80_directed_refuted: the small integer path is not correctly rounded downwards; C80_fma_constant_refuted: with an FMA target and no constexpr fma 1.2f^200 is 80 ulps off in a constant expression"
  },
  {
   "property": "C81",
   "status": "proved",
   "theorems": [
    "C81_powf"
   ],
   "note": "without the FMA target; the bases and exponents handled apart are in C80 and C82"
  },
  {
   "property": "C82",
   "status": "proved",
   "theorems": [
    "C82_small_integers",
    "C82_minus_one",
    "C82_two",
    "C82_ten",
    "C82_gap_refuted",
    "C82_gap_ten_refuted"
   ],
   "note": "C82_gap_refuted and C82_gap_ten_refuted: 2^-149.5 and 10^-45 give 0 although the least positive float is nearest"
  },
  {
   "property": "C83",
   "status": "proved",
   "theorems": [
    "C83_hermite",
    "C83_cubic",
    "C83_cubic_start",
    "C83_cubic_exact",
    "C83_cubic_end_refuted",
    "C83_lerp_angle",
    "C83_move_towards_angle"
   ],
   "note": "C83_cubic_end_refuted: cubic(1, 0, 2^-30, 0, 1) is 0, not y2"
  },
  {
   "property": "C84",
   "status": "proved",
   "theorems": [
    "C84_bitwise",
    "C84_quotient",
    "C84_quotient_zero"
   ],
   "note": ""
  },
  {
   "property": "C85",
   "status": "proved",
   "theorems": [
    "C85_make",
    "C85_of",
    "C85_mul2",
    "C85_cmp",
    "C85_cmp_zero_refuted",
    "C85_zero_one",
    "C85_limits",
    "C85_nans",
    "C85_signaling_payload_refuted"
   ],
   "note": "C85_cmp_zero_refuted: 0.5 compares below zero; C85_signaling_payload_refuted: a payload with the top bit set gives a quiet NaN"
  },
  {
   "property": "C86",
   "status": "proved",
   "theorems": [
    "C86_rcp",
    "C86_rcp_special",
    "C86_mix",
    "C86_unlerp",
    "C86_smoothstep"
   ],
   "note": ""
  },
  {
   "property": "C87",
   "status": "proved",
   "theorems": [
    "C87_multiply_add",
    "C87_small_addend_refuted"
   ],
   "note": "C87_small_addend_refuted: the product is lost when a small addend has its sign"
  }
 ]
}