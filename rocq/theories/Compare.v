(** * Model of math/compare, abs and copysign on floating-point types

    The branches taken without a compiler builtin.  The generic copies under
    internal/math/generic/func/compare have the same text for floating-point
    arguments. *)
From Coq Require Import ZArith Bool.
From Verif Require Import MachInt Fmt FOps FPBits.
Open Scope Z_scope.

Section Cmp.
Context (F : fmt).

(** math/compare/isnan.hpp:27-37, isinf.hpp:28-38, isfinite.hpp:25-34. *)
Definition cc_isnan (num : Z) : bool := fp_is_nan F num.
Definition cc_isinf (num : Z) : bool := fp_is_inf F num.
Definition cc_isfinite (num : Z) : bool := fp_is_finite F num.

(** internal/math/generic/func/basic/abs_gen.hpp:29-42, called by
    math/basic/fabs.hpp:29-33. *)
Definition cc_abs (num : Z) : Z :=
  if fp_is_nan F num then qnan F
  else if fp_is_zero F num then 0
  else if f_lt F num 0 then f_neg F num else num.

(** math/compare/isnormal.hpp:27-34. *)
Definition cc_isnormal (num : Z) : bool :=
  f_ne F num 0 && negb (cc_isnan num) && negb (cc_isinf num) && f_ge F (cc_abs num) (f_min_normal F).

(** math/compare/signbit.hpp:34-48; [sign_mask_v] (floating_point_traits.hpp)
    is the sign bit. *)
Definition cc_signbit (num : Z) : bool :=
  if f_eq F num 0 || cc_isnan num then negb (Z.land num (sign_mask F) =? 0)
  else f_lt F num 0.

(** support/helpers/fpclassify_helper.hpp:28-63: the class constants, which
    depend on the compiler. *)
Record fp_defines := FPD { eFP_NAN : Z; eFP_INFINITE : Z; eFP_ZERO : Z; eFP_SUBNORMAL : Z; eFP_NORMAL : Z }.
Definition fpd_msvc := FPD 2 1 0 (-2) (-1).
Definition fpd_apple := FPD 1 2 3 5 4.
Definition fpd_nvhpc := FPD 0 1 2 2 4.
Definition fpd_intel := FPD 2 1 0 (-2) (-1).
Definition fpd_gnu := FPD 0 1 2 3 4.

(** math/compare/fpclassify.hpp:30-37. *)
Definition cc_fpclassify (d : fp_defines) (num : Z) : Z :=
  if cc_isnan num then eFP_NAN d
  else if cc_isinf num then eFP_INFINITE d
  else if f_eq F num 0 then eFP_ZERO d
  else if f_lt F (cc_abs num) (f_min_normal F) && f_gt F (cc_abs num) 0 then eFP_SUBNORMAL d
  else eFP_NORMAL d.

(** math/compare/isunordered.hpp:28-35, isgreater.hpp:28-35,
    isgreaterequal.hpp:28-35, isless.hpp:28-35, islessequal.hpp:28-35,
    islessgreater.hpp:28-35. *)
Definition cc_isunordered (x y : Z) : bool := cc_isnan x || cc_isnan y.
Definition cc_isgreater (x y : Z) : bool := negb (cc_isunordered x y) && f_gt F x y.
Definition cc_isgreaterequal (x y : Z) : bool := negb (cc_isunordered x y) && f_ge F x y.
Definition cc_isless (x y : Z) : bool := negb (cc_isunordered x y) && f_lt F x y.
Definition cc_islessequal (x y : Z) : bool := negb (cc_isunordered x y) && f_le F x y.
Definition cc_islessgreater (x y : Z) : bool := negb (cc_isunordered x y) && (f_lt F x y || f_gt F x y).

(** math/fmanip/copysign.hpp:31-47, constant-evaluated branch; [rm] is the
    rounding mode of the multiplication. *)
Definition cc_copysign (rm : rmode) (mag sgn : Z) : Z :=
  if cc_isnan mag || cc_isnan sgn then
    (if cc_signbit sgn then f_neg F (qnan F) else qnan F)
  else f_mul F rm (cc_abs mag) (f_one F (cc_signbit sgn)).
End Cmp.

(** Integer overloads.  math/basic/fabs.hpp:43-47 (signed, [w] bits; [None] is
    the overflow of [-num]; for types narrower than int the negation is done in
    int and converted back) and :57-69 (unsigned, through [int]). *)
Definition cc_abs_signed (w num : Z) : option Z :=
  if num <? 0 then (if w <? 32 then Some (to_signed w (wrap w (- num))) else sarith w (- num)) else Some num.
Definition cc_abs_unsigned (w num : Z) : option Z :=
  do r <- cc_abs_signed 32 (to_signed 32 (wrap 32 num)); Some (wrap w r).
