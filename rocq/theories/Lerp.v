(** * Model of ccm::lerp

    math/misc/lerp.hpp:28-40 on floating-point arguments; [rm] is the mode of the
    floating-point instructions.  The integer literals 0 and 1 are converted to the
    type of the other operand.  old_lerp (math/misc/lerp.hpp:77-88 and
    generic/func/misc/lerp_gen.hpp:43-54) is the same without the test for NaN. *)
From Coq Require Import ZArith Bool.
From Verif Require Import MachInt Fmt FOps FPBits Compare.
Open Scope Z_scope.

Section Lerp.
Context (F : fmt) (rm : rmode).

(** math/misc/lerp.hpp:79-87 (old_lerp), the text of lerp.hpp:32-39. *)
Definition old_lerp (a b t : Z) : Z :=
  let zero := f_zero F false in
  let one := f_one F false in
  if (f_le F a zero && f_ge F b zero) || (f_ge F a zero && f_le F b zero)
  then f_add F rm (f_mul F rm t b) (f_mul F rm (f_sub F rm one t) a)
  else if f_eq F t one then b
  else
    let x := f_add F rm a (f_mul F rm t (f_sub F rm b a)) in
    if Bool.eqb (f_gt F t one) (f_gt F b a) then (if f_lt F b x then x else b)
    else (if f_lt F x b then x else b).
(** math/misc/lerp.hpp:28-40. *)
Definition cc_lerp (a b t : Z) : Z :=
  if cc_isnan F a || cc_isnan F b || cc_isnan F t then f_add F rm (f_add F rm a b) t
  else old_lerp a b t.
(** generic/func/misc/lerp_gen.hpp:17-24 and math/common/misc/lerp.hpp:17-23; [fm]
    is ccm::fma. *)
Definition fma_lerp (fm : Z -> Z -> Z -> Z) (a b t : Z) : Z := fm t b (fm (f_neg F t) a a).
End Lerp.
