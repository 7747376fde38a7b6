(** * Model of hypot and cbrt *)
From Coq Require Import ZArith Bool.
From Verif Require Import MachInt Fmt FPBits FOps Compare Sqrt ExpoData ExpoF ExpD LogD.
Open Scope Z_scope.

Section Hypot.
Context (F : fmt) (rm : rmode).
(** internal/math/generic/func/power/impl/hypot_impl.hpp:24-48 hypot_impl (hypot_gen.hpp:20-28 for
    float and double, math/power/hypot.hpp:31-39).  The square root is the in-tree one, which reads
    the same rounding mode. *)
Definition cc_hypot (x y : Z) : option Z :=
  if cc_isinf F x || cc_isinf F y then Some (fp_inf F false)
  else if cc_isnan F x then Some (f_add F rm x y)
  else if cc_isnan F y then Some (f_add F rm x y)
  else
    let x := cc_abs F x in
    let y := cc_abs F y in
    if f_eq F x 0 && f_eq F y 0 then Some 0
    else
      let '(x, y) := if f_gt F y x then (y, x) else (x, y) in
      let ratio := f_div F rm y x in
      do s <- cc_sqrt F rm (f_add F rm (f_of_Z F rm 1) (f_mul F rm ratio ratio));
      Some (f_mul F rm x s).

(** math/power/hypot.hpp:50-54, the three-argument overloads for float and double. *)
Definition cc_hypot3 (x y z : Z) : option Z := do h <- cc_hypot x y; cc_hypot h z.
End Hypot.

(** hypot_gen.hpp:24-27: every other floating-point type [L] goes through double. *)
Definition cc_hypot_long (L : fmt) (rm : rmode) (x y : Z) : option Z :=
  do h <- cc_hypot binary64 rm (f_cast L binary64 rm x) (f_cast L binary64 rm y); Some (f_cast binary64 L rm h).

Section Cbrt.
Context (F : fmt) (rm : rmode) (exp_ log_ : Z -> Z).
(** internal/math/generic/func/power/impl/cbrt_impl.hpp:26-47 cbrt_impl; [exp_] and [log_] are
    ccm::exp and ccm::log of the type. *)
Definition cbrt_impl (x : Z) : Z :=
  if fp_is_nan F x then x
  else if fp_is_inf F x then x
  else if fp_is_zero F x then x
  else
    let negative := fp_sign F x in
    let ax := cc_abs F x in
    let y := exp_ (f_div F rm (log_ ax) (f_of_Z F rm 3)) in
    let y_sq := f_mul F rm y y in
    let y := f_div F rm (f_add F rm (f_mul F rm (f_of_Z F rm 2) y) (f_div F rm ax y_sq)) (f_of_Z F rm 3) in
    if negative then f_neg F y else y.
End Cbrt.
(** internal/math/generic/func/power/cbrt_gen.hpp:20-23 for float and double, math/power/cbrt.hpp:30-38. *)
Definition cbrtf (rm : rmode) (x : Z) : Z := cbrt_impl binary32 rm (expf rm) (logf rm) x.
Definition cbrt_d (rm : rmode) (x : Z) : Z := cbrt_impl binary64 rm (exp_d rm) (log_d rm) x.
