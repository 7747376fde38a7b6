(** * Model of math/nearest and the rounding helpers behind it

    [rm] is the mode in which the processor (or the constant evaluator) performs
    the additions in the code; [dm] is the mode requested from the function. *)
From Coq Require Import ZArith Bool.
From Verif Require Import MachInt Fmt FOps FPBits Compare.
Open Scope Z_scope.

(** support/fp/directional_rounding_utils.hpp:31-38 [rounding_mode]: the four
    <cfenv> modes and eFE_TONEARESTFROMZERO. *)
Inductive imode := IM (rm : rmode) | IFromZero.

Section Nearest.
Context (F : fmt) (rm : rmode).

(** fp_bits.hpp:669 [is_inf_or_nan]. *)
Definition fp_is_inf_or_nan (b : Z) : bool := negb (fp_is_finite F b).

(** [(m >> n) << n] on the storage type (both shifts by [0 <= n < width]). *)
Definition clear_low (m n : Z) : Z := wrap (width F) (Z.shiftl (Z.shiftr m n) n).

(** math/nearest/trunc.hpp:29-67 (constant-evaluated branch) and
    internal/math/runtime/func/detail/trunc_scalar.hpp:20-39 [trunc_scalar] (same
    text), also generic/func/nearest/trunc_gen.hpp:25-52. *)
Definition cc_trunc (num : Z) : Z :=
  if fp_is_inf_or_nan num then num
  else if f_eq F num 0 then num
  else
    let exponent := get_exponent F num in
    if fl F <=? exponent then num
    else if exponent <=? -1 then fp_zero F (fp_sign F num)
    else
      let trimming_size := fl F - exponent in
      set_mantissa F num (clear_low (get_mantissa F num) trimming_size).

(** math/nearest/floor.hpp:32-49; trunc_scalar.hpp:41-49 [floor_scalar]. *)
Definition cc_floor (num : Z) : Z :=
  if cc_isinf F num || f_eq F num 0 || cc_isnan F num then num
  else
    let truncated := cc_trunc num in
    if f_eq F truncated num || f_gt F num 0 then truncated
    else f_sub F rm truncated (f_one F false).

(** math/nearest/ceil.hpp:33-50; trunc_scalar.hpp:51-59 [ceil_scalar]. *)
Definition cc_ceil (num : Z) : Z :=
  if cc_isinf F num || f_eq F num 0 || cc_isnan F num then num
  else
    let truncated := cc_trunc num in
    if f_eq F truncated num || f_lt F num 0 then truncated
    else f_add F rm truncated (f_one F false).

(** directional_rounding_utils.hpp:42-122 [directional_round]. *)
Definition directional_round (dm : imode) (val : Z) : Z :=
  if fp_is_inf_or_nan val || fp_is_zero F val then val
  else
    let is_neg := fp_sign F val in
    let exponent := get_exponent F val in
    if fl F <=? exponent then val
    else if exponent <=? -1 then
      match dm with
      | IM RDN => if is_neg then f_one F true else f_zero F false
      | IM RUP => if is_neg then f_zero F true else f_one F false
      | IM RZR => f_zero F is_neg
      | IFromZero => if exponent <? -1 then f_zero F is_neg else f_one F is_neg
      | IM RNE => if (exponent <=? -2) || (get_mantissa F val =? 0) then f_zero F is_neg else f_one F is_neg
      end
    else
      let trimming_length := fl F - exponent in
      let new_bits := set_mantissa F val (clear_low (get_mantissa F val) trimming_length) in
      let truncated_value := new_bits in
      if f_eq F truncated_value val then val
      else
        let trimmed_value := Z.land (get_mantissa F val) (wrap (width F) (wrap (width F) (Z.shiftl 1 trimming_length) - 1)) in
        let half_value := wrap (width F) (Z.shiftl 1 (trimming_length - 1)) in
        let truncated_value_is_odd := Z.land (get_mantissa F new_bits) (wrap (width F) (Z.shiftl 1 trimming_length)) in
        let away := if is_neg then f_sub F rm truncated_value (f_one F false) else f_add F rm truncated_value (f_one F false) in
        match dm with
        | IM RDN => if is_neg then f_sub F rm truncated_value (f_one F false) else truncated_value
        | IM RUP => if is_neg then truncated_value else f_add F rm truncated_value (f_one F false)
        | IM RZR => truncated_value
        | IFromZero => if half_value <=? trimmed_value then away else truncated_value
        | IM RNE =>
            if half_value <? trimmed_value then away
            else if trimmed_value =? half_value then
              if exponent =? 0 then f_pow2 F is_neg 1
              else if negb (truncated_value_is_odd =? 0) then away
              else truncated_value
            else truncated_value
        end.

(** math/nearest/round.hpp:32-48, also runtime/func/nearest/round_rt.hpp:25-36. *)
Definition cc_round (num : Z) : Z :=
  if cc_isinf F num || f_eq F num 0 || cc_isnan F num then num
  else directional_round IFromZero num.
(** math/nearest/rint.hpp:35-41, nearbyint.hpp:35-41, rint_rt.hpp:24-39,
    nearbyint_rt.hpp:23-30; [dm] is get_rounding_mode(). *)
Definition cc_rint (dm : rmode) (num : Z) : Z := directional_round (IM dm) num.

(** support/fp/nearest_integer.hpp:23-45 (float) and 47-69 (double): the same
    text with 2^24, 2^23 and 2^53, 2^52; [ct] is is_constant_evaluated(). *)
Definition cc_nearest_integer (ct : bool) (x : Z) : Z :=
  if f_lt F x (f_pow2 F false (prec F)) && f_gt F x (f_pow2 F true (prec F)) then
    let off := f_pow2 F false (fl F) in
    let r := if f_lt F x 0 then f_add F rm (f_sub F rm x off) off else f_sub F rm (f_add F rm x off) off in
    if ct then r
    else
      let diff := f_sub F rm x r in
      if f_gt F diff (f_pow2 F false (-1)) then f_add F rm r (f_one F false)
      else if f_lt F diff (f_pow2 F true (-1)) then f_sub F rm r (f_one F false)
      else r
  else x.
End Nearest.
