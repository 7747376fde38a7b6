(** * log1p for float and double

    Models math/expo/impl/log1p_impl.hpp with the conventions of ExpoF.v and LogD.v: arithmetic in
    the rounding mode of the machine, double_t is double (FLT_EVAL_METHOD 0), uint32_t and uint64_t
    by wrap.  The error reporting of lines 216-224 and 239-247 (errno, exception flags) is left out. *)
From Coq Require Import ZArith List Bool.
From Verif Require Import MachInt Fmt FOps ExpoData LogDataD ExpoF LogD ExpM1.
Import ListNotations.
Open Scope Z_scope.

(** log1p_impl.hpp:28-33, the float constants; they take part in double arithmetic, so they are
    given as doubles (the conversion of a float to double is exact). *)
Definition l1f_ln2hi : Z := lit 0x162e430 (-25).
Definition l1f_ln2lo : Z := lit 0x105c610 (-53).
Definition l1f_odd : list Z := [ lit 0x1555556 (-25); lit 0x124924a (-26) ].
Definition l1f_even : list Z := [ lit 0x199999a (-26); lit 0x1f0a3d8 (-27) ].
(** log1p_impl.hpp:35-45, the double constants: lg1, lg3, lg5, lg7 and lg2, lg4, lg6. *)
Definition l1d_odd : list Z := [ lit 0x15555555555555 (-53); lit 0x12492492492492 (-54); lit 0x1745d1745d0a63 (-55); lit 0x1111111111126e (-55) ].
Definition l1d_even : list Z := [ lit 0x19999999999999 (-54); lit 0x1c71c71c71c6d6 (-55); lit 0x13b13b13b0ff6e (-55) ].

(** log1p_impl.hpp:110-119 and 188-197, before the narrowing of line 119; the nested sums of lines
    113-114 and 191-192 are [horner]. *)
Definition log1p_kernel (odd even : list Z) (ln2hi ln2lo : Z) (rm : rmode) (f c dk : Z) : Z :=
  let s := f_div F64 rm f (f_add F64 rm (lit 2 0) f) in
  let z := f_mul F64 rm s s in
  let w := f_mul F64 rm z z in
  let t1 := f_mul F64 rm w (horner F64 rm w even) in
  let t2 := f_mul F64 rm z (horner F64 rm w odd) in
  let r := f_add F64 rm t2 t1 in
  let hfsq := f_mul F64 rm (f_mul F64 rm (lit 1 (-1)) f) f in
  f_add F64 rm
    (f_add F64 rm
      (f_sub F64 rm
        (f_add F64 rm (f_mul F64 rm s (f_add F64 rm hfsq r)) (f_add F64 rm (f_mul F64 rm dk ln2lo) c))
        hfsq)
      f)
    (f_mul F64 rm dk ln2hi).

(** log1p_impl.hpp:92-107: the reduction for float; the pair (f, c) and k. *)
Definition log1pf_reduce (rm : rmode) (x : Z) : Z * Z * Z :=
  let one := litf 1 0 in
  let u := f_add F32 rm one x in
  let iu := wrap 32 (u + (0x3f800000 - 0x3f3504f3)) in
  let k := Z.shiftr iu 23 - 0x7f in
  let c := if k <? 25 then
             f_div F64 rm (f_cast F32 F64 rm (if 2 <=? k then f_sub F32 rm one (f_sub F32 rm u x) else f_sub F32 rm x (f_sub F32 rm u one))) (f_cast F32 F64 rm u)
           else f_zero F64 false in
  let iu := wrap 32 (Z.land iu 0x007fffff + 0x3f3504f3) in
  (f_cast F32 F64 rm (f_sub F32 rm iu one), c, k).
(** log1p_impl.hpp:168-185: the reduction for double. *)
Definition log1pd_reduce (rm : rmode) (x : Z) : Z * Z * Z :=
  let one := lit 1 0 in
  let u := f_add F64 rm one x in
  let hu := wrap 32 (Z.shiftr u 32 + (0x3ff00000 - 0x3fe6a09e)) in
  let k := Z.shiftr hu 20 - 0x3ff in
  let c := if k <? 54 then
             f_div F64 rm (if 2 <=? k then f_sub F64 rm one (f_sub F64 rm u x) else f_sub F64 rm x (f_sub F64 rm u one)) u
           else f_zero F64 false in
  let hu := wrap 32 (Z.land hu 0x000fffff + 0x3fe6a09e) in
  let iu := Z.lor (Z.shiftl hu 32) (Z.land u 0xffffffff) in
  (f_sub F64 rm iu one, c, k).

(** log1p_impl.hpp:47-120 log1p_float_impl. *)
Definition log1pf_impl (rm : rmode) (x : Z) : Z :=
  if f_gt F32 x (litf 0xd41d08 (-25)) || f_lt F32 x (litf (-0x95f612) (-25)) then
    let u := f_add F32 rm (litf 1 0) x in
    if f_eq F32 u (litf 1 0) then x else logf_impl rm u
  else
    let kernel f c k := f_cast F64 F32 rm (log1p_kernel l1f_odd l1f_even l1f_ln2hi l1f_ln2lo rm f c (f_of_Z F64 rm k)) in
    let general := let '(f, c, k) := log1pf_reduce rm x in kernel f c k in
    if (x <? 0x3ed413d0) || negb (Z.shiftr x 31 =? 0) then
      if 0xbf800000 <=? x then
        if f_eq F32 x (litf (-1) 0) then f_inf F32 true else sbit F32 true + qnan F32
      else if wrap 32 (Z.shiftl x 1) <? wrap 32 (Z.shiftl 0x33800000 1) then x
      else if x <=? 0xbe95f619 then kernel (f_cast F32 F64 rm x) (f_zero F64 false) 0
      else general
    else if 0x7f800000 <=? x then x
    else general.
(** log1p_impl.hpp:122-198 log1p_double_impl. *)
Definition log1pd_impl (rm : rmode) (x : Z) : Z :=
  if f_gt F64 x (lit 0x1a83a109d0635a (-54)) || f_lt F64 x (lit (-0x12bec2480e8c8b) (-54)) then
    let u := f_add F64 rm (lit 1 0) x in
    if f_eq F64 u (lit 1 0) then x else logd_impl rm u
  else
    let hx := Z.shiftr x 32 in
    let kernel f c k := log1p_kernel l1d_odd l1d_even logd_ln2hi logd_ln2lo rm f c (f_of_Z F64 rm k) in
    let general := let '(f, c, k) := log1pd_reduce rm x in kernel f c k in
    if (hx <? 0x3fda827a) || negb (Z.shiftr hx 31 =? 0) then
      if 0xbff00000 <=? hx then
        if f_eq F64 x (lit (-1) 0) then f_inf F64 true else sbit F64 true + qnan F64
      else if wrap 32 (Z.shiftl hx 1) <? wrap 32 (Z.shiftl 0x3ca00000 1) then x
      else if hx <=? 0xbfd2bec4 then kernel x (f_zero F64 false) 0
      else general
    else if 0x7ff00000 <=? hx then x
    else general.

(** log1p_impl.hpp:207-228 log1p_float and 230-251 log1p_double: the same text for the two types. *)
Definition log1p_wrapper (F : fmt) (impl : Z -> Z) (x : Z) : Z :=
  if f_eq F x (f_zero F false) then x
  else if is_nan F x then qnan F
  else if f_eq F x (f_inf F false) then f_inf F false
  else if f_eq F x (f_one F true) then f_inf F true
  else if f_lt F x (f_one F true) then sbit F true + qnan F
  else impl x.
Definition log1pf (rm : rmode) (x : Z) : Z := log1p_wrapper F32 (log1pf_impl rm) x.
Definition log1p_d (rm : rmode) (x : Z) : Z := log1p_wrapper F64 (log1pd_impl rm) x.
