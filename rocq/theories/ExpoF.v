(** * The float kernels of exp2, exp, expm1, log, log2 and log10

    Models math/expo/impl/{exp2_float_impl,exp_float_impl,log_float_impl,log2_float_impl,log10_impl}.hpp.
    Floats and doubles are bit patterns, so the bit casts of internal/support/bits.hpp:127-151
    (double_to_uint64 and the like) are the identity; narrow_eval is the identity because
    double_t is double (FLT_EVAL_METHOD 0).  [rm] is the rounding mode of the machine and [dm]
    the mode reported by get_rounding_mode.  Errno and the exception flags are not modelled. *)
From Coq Require Import ZArith List Bool.
From Verif Require Import MachInt Fmt FOps ExpoData.
Import ListNotations.
Open Scope Z_scope.

Notation F32 := binary32.
Notation F64 := binary64.

(** bits.hpp:127 top12_bits_of_float. *)
Definition top12f (x : Z) : Z := Z.shiftr x 20.
(** bits.hpp:124 top12_bits_of_double. *)
Definition top12d (x : Z) : Z := Z.shiftr x 52.
(** bits.hpp:121 top16_bits_of_double. *)
Definition top16d (x : Z) : Z := Z.shiftr x 48.
(** std::array::at with an index in range (every index used below is reduced modulo the size). *)
Definition at_ (l : list Z) (i : Z) : Z := nth (Z.to_nat i) l 0.
Definition at2 (l : list (Z * Z)) (i : Z) : Z * Z := nth (Z.to_nat i) l (0, 0).

(** exp2_float_impl.hpp:33-51 exp2_float_overflow_result. *)
Definition exp2f_overflow (dm : rmode) : Z :=
  match dm with RDN | RZR => max_mag F32 | _ => f_inf F32 false end.
(** exp2_float_impl.hpp:53-64 exp2_float_underflow_result. *)
Definition exp2f_underflow (dm : rmode) : Z :=
  match dm with RUP => 1 | _ => f_zero F32 false end.
(** exp2_data.hpp:32 shift_scaled = 0x1.8p+52 / 32, a constant expression. *)
Definition exp2f_shift : Z := f_div F64 RNE (lit 0x18 48) (f_of_Z F64 RNE 32).

(** exp2_float_impl.hpp:103-119, the part of exp2_float_impl after the special cases. *)
Definition exp2f_main (rm : rmode) (x : Z) : Z :=
  let xd := f_cast F32 F64 rm x in
  let kd := f_add F64 rm xd exp2f_shift in
  let ki := kd in
  let kd := f_sub F64 rm kd exp2f_shift in
  let rem := f_sub F64 rm xd kd in
  let t := at_ exp2f_tab (ki mod 32) in
  let t := wrap 64 (t + wrap 64 (Z.shiftl ki 47)) in
  let scale := t in
  let z := f_add F64 rm (f_mul F64 rm (at_ exp2f_poly 0) rem) (at_ exp2f_poly 1) in
  let r2 := f_mul F64 rm rem rem in
  let y := f_add F64 rm (f_mul F64 rm (at_ exp2f_poly 2) rem) (f_of_Z F64 rm 1) in
  let y := f_add F64 rm (f_mul F64 rm z r2) y in
  let y := f_mul F64 rm y scale in
  f_cast F64 F32 rm y.

(** exp2_float_impl.hpp:66-120 exp2_float_impl; exp2.hpp:36-45 and exp2_gen.hpp:22-24. *)
Definition exp2f (dm rm : rmode) (x : Z) : Z :=
  let abs_top := Z.land (top12f x) 0x7ff in
  if top12f (litf 1 7) <=? abs_top then
    if is_inf F32 x then (if sign_of F32 x then f_zero F32 false else x)
    else if is_nan F32 x then f_add F32 rm x x
    else if f_gt F32 x (f_zero F32 false) then exp2f_overflow dm
    else if f_le F32 x (litf (-150) 0) then exp2f_underflow dm
    else if f_lt F32 x (litf (-149) 0) then exp2f_underflow dm
    else exp2f_main rm x
  else exp2f_main rm x.

(** exp_data.hpp:36-37,46-50: invln2_scaled, shift and poly_scaled, constant expressions. *)
Definition expf_invln2N : Z := f_mul F64 RNE (lit 0x171547652b82fe (-52)) (f_of_Z F64 RNE 32).
Definition expf_shift : Z := lit 0x18 48.
Definition div32 (x : Z) : Z := f_div F64 RNE x (f_of_Z F64 RNE 32).
Definition expf_polys : list Z :=
  [ div32 (div32 (div32 (at_ expf_poly 0))); div32 (div32 (at_ expf_poly 1)); div32 (at_ expf_poly 2) ].

(** exp_float_impl.hpp:71-91 (and 129-141): scale and result before their product. *)
Definition expf_kernel (rm : rmode) (x : Z) : Z * Z :=
  let xd := f_cast F32 F64 rm x in
  let z := f_mul F64 rm expf_invln2N xd in
  let kd := f_add F64 rm z expf_shift in
  let ki := kd in
  let kd := f_sub F64 rm kd expf_shift in
  let rem := f_sub F64 rm z kd in
  let t := at_ expf_tab (ki mod 32) in
  let t := wrap 64 (t + wrap 64 (Z.shiftl ki 47)) in
  let scale := t in
  let z := f_add F64 rm (f_mul F64 rm (at_ expf_polys 0) rem) (at_ expf_polys 1) in
  let r2 := f_mul F64 rm rem rem in
  let y := f_add F64 rm (f_mul F64 rm (at_ expf_polys 2) rem) (f_of_Z F64 rm 1) in
  let y := f_add F64 rm (f_mul F64 rm z r2) y in
  (scale, y).
(** exp_float_impl.hpp:92-94. *)
Definition expf_main (rm : rmode) (x : Z) : Z :=
  let '(scale, y) := expf_kernel rm x in f_cast F64 F32 rm (f_mul F64 rm scale y).

(** exp_float_impl.hpp:36-95 exp_float_impl.  The products of literals on lines 61 and 67 are
    folded by the compiler (to nearest). *)
Definition expf (rm : rmode) (x : Z) : Z :=
  let abs_top := Z.land (top12f x) 0x7ff in
  if top12f (litf 88 0) <=? abs_top then
    if x =? f_inf F32 true then f_zero F32 false
    else if top12f (f_inf F32 false) <=? abs_top then f_add F32 rm x x
    else if f_gt F32 x (litf 0x162e42e (-18)) then f_mul F32 RNE (litf 1 97) (litf 1 97)
    else if f_lt F32 x (litf (-0x19fe368) (-18)) then f_mul F32 RNE (litf 0x14 (-79)) (litf 0x14 (-79))
    else expf_main rm x
  else expf_main rm x.

(** log_float_impl.hpp:57-71 (and log2_float_impl.hpp:51-66): the argument reduction of a positive
    finite x that is not 1: (i, expo, normVal). *)
Definition logf_reduce (rm : rmode) (x : Z) : Z * Z * Z :=
  let intX := if (0x7f800000 - 0x00800000) <=? wrap 32 (x - 0x00800000)
              then wrap 32 (f_mul F32 rm x (litf 1 23) - 23 * 2 ^ 23)
              else x in
  let tmp := wrap 32 (intX - 0x3f330000) in
  let i := Z.shiftr tmp 19 mod 16 in
  let expo := Z.shiftr (to_signed 32 tmp) 23 in
  let intNorm := wrap 32 (intX - Z.land tmp (wrap 32 (Z.shiftl 0x1ff 23))) in
  (i, expo, f_cast F32 F64 rm intNorm).

(** log_data.hpp:51 ln2. *)
Definition logf_ln2 : Z := lit 0x162e42fefa39ef (-53).
(** log_float_impl.hpp:35-83 log_float_impl. *)
Definition logf_impl (rm : rmode) (x : Z) : Z :=
  if x =? 0x3f800000 then f_zero F32 false
  else
    let '(i, expo, normVal) := logf_reduce rm x in
    let '(invc, logc) := at2 logf_tab i in
    let rem := f_sub F64 rm (f_mul F64 rm normVal invc) (f_of_Z F64 rm 1) in
    let y0 := f_add F64 rm logc (f_mul F64 rm (f_of_Z F64 rm expo) logf_ln2) in
    let r2 := f_mul F64 rm rem rem in
    let y := f_add F64 rm (f_mul F64 rm (at_ logf_poly 1) rem) (at_ logf_poly 2) in
    let y := f_add F64 rm (f_mul F64 rm (at_ logf_poly 0) r2) y in
    let y := f_add F64 rm (f_mul F64 rm y r2) (f_add F64 rm y0 rem) in
    f_cast F64 F32 rm y.

(** log2_float_impl.hpp:32-80 log2_float_impl.  The mask on line 60 is 0xff800000. *)
Definition log2f_impl (rm : rmode) (x : Z) : Z :=
  if x =? 0x3f800000 then f_zero F32 false
  else if ((0x7f800000 - 0x00800000) <=? wrap 32 (x - 0x00800000)) &&
          (negb (Z.land x 0x80000000 =? 0) || (0xff000000 <=? wrap 32 (x * 2)))
  then let d := f_sub F32 rm x x in f_div F32 rm d d
  else
    let '(i, expo, normVal) := logf_reduce rm x in
    let '(invc, logc) := at2 log2f_tab i in
    let rem := f_sub F64 rm (f_mul F64 rm normVal invc) (f_of_Z F64 rm 1) in
    let y0 := f_add F64 rm logc (f_of_Z F64 rm expo) in
    let r2 := f_mul F64 rm rem rem in
    let y := f_add F64 rm (f_mul F64 rm (at_ log2f_poly 1) rem) (at_ log2f_poly 2) in
    let y := f_add F64 rm (f_mul F64 rm (at_ log2f_poly 0) r2) y in
    let p := f_add F64 rm (f_mul F64 rm (at_ log2f_poly 3) rem) y0 in
    let y := f_add F64 rm (f_mul F64 rm y r2) p in
    f_cast F64 F32 rm y.

(** The argument checks of log and log10: log.hpp:42-77 and log10.hpp:48-74 (the branch of GCC
    and Clang for the argument 1).  [-std::numeric_limits<T>::quiet_NaN()] is the quiet NaN
    with the sign bit. *)
Definition log_wrapper (F : fmt) (impl : Z -> Z) (x : Z) : Z :=
  if f_eq F x (f_one F false) then f_zero F false
  else if f_eq F x (f_zero F false) then f_inf F true
  else if f_lt F x (f_zero F false) then sbit F true + qnan F
  else if f_eq F x (f_inf F false) then f_inf F false
  else if is_nan F x then qnan F
  else impl x.
(** log2.hpp:48-89 (not the Apple branch). *)
Definition log2_wrapper (F : fmt) (impl : Z -> Z) (x : Z) : Z :=
  if f_eq F x (f_zero F false) then f_inf F true
  else if f_eq F x (f_one F false) then f_zero F false
  else if is_nan F x || f_eq F x (f_inf F false) then x
  else if sign_of F x then sbit F true + qnan F
  else impl x.
Definition logf (rm : rmode) (x : Z) : Z := log_wrapper F32 (logf_impl rm) x.
Definition log2f (rm : rmode) (x : Z) : Z := log2_wrapper F32 (log2f_impl rm) x.
(** numbers.hpp:32 log10e_v<float>: static_cast<float> of 0.434294481903251827651128918916605L, which
    is the float 0xde5bd9 * 2^-25. *)
Definition log10e_f : Z := 0x3ede5bd9.
(** log10_impl.hpp:19-20 log10_float_impl under log10.hpp:48-74. *)
Definition log10f (rm : rmode) (x : Z) : Z :=
  log_wrapper F32 (fun y => f_mul F32 rm (logf_impl rm y) log10e_f) x.
