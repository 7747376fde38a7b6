(** * Model of acos, asin, atan and atan2

    math/trig/acos.hpp:29-46, asin.hpp:29-46, atan.hpp:29-46 and atan2.hpp:30-48 call the functions
    below in constant evaluation; the generic run-time path (runtime/func/trig/*_rt.hpp) calls them
    too.  A constant of the source converted to the type T is folded by the compiler, to nearest.
    multiply_add is (x * y) + z.  errno and the exception flags are not modelled. *)
From Coq Require Import ZArith Bool List.
From Verif Require Import MachInt Fmt FPBits FOps Compare Sqrt ExpoData.
Import ListNotations.
Open Scope Z_scope.
Notation F32 := binary32.
Notation F64 := binary64.

Section T.
Context (F : fmt) (rm : rmode).
(** static_cast<T> of the double constant m 2^e *)
Definition cst (m e : Z) : Z := round_int F RNE false m e.
(** support/multiply_add.hpp *)
Definition mad (x y z : Z) : Z := f_add F rm (f_mul F rm x y) z.

(** inv_trig_data.hpp:17-18 k_pi, k_pi_over_2; numbers.hpp:35 pi_v (the long double literal rounded
    to float and to double is the same as k_pi rounded to them). *)
Definition k_pi : Z := cst 0x1921fb54442d18 (-51).
Definition k_pi_over_2 : Z := cst 0x1921fb54442d18 (-52).
Definition pi_v : Z := k_pi.

(** inv_trig_data.hpp:21-24 k_asin_coeffs *)
Definition k_asin : list Z :=
  [ cst 0x15555555555380 (-55); cst 0x1333333336fd5b (-56); cst 0x16db6db41ce4bc (-57); cst 0x1f1c72c66896de (-58);
    cst 0x16e89f0a0ac64b (-58); cst 0x11c6c111de4074 (-58); cst 0x1c6fa84b5699ac (-59); cst 0x18ed60a3e6dd19 (-59);
    cst 0x1ab3a090750049 (-60); cst 0x1405213cd1ef46 (-58); cst (-0x10a5a381f73f65) (-58); cst 0x105985a32a9045 (-57) ].
Definition ka (i : nat) : Z := nth i k_asin 0.

(** inv_trig_impl.hpp:35-53 asin_eval *)
Definition asin_eval (xsq : Z) : Z :=
  let x4 := f_mul F rm xsq xsq in
  let c0 := mad xsq (ka 1) (ka 0) in
  let c1 := mad xsq (ka 3) (ka 2) in
  let c2 := mad xsq (ka 5) (ka 4) in
  let c3 := mad xsq (ka 7) (ka 6) in
  let c4 := mad xsq (ka 9) (ka 8) in
  let c5 := mad xsq (ka 11) (ka 10) in
  let x8 := f_mul F rm x4 x4 in
  let d0 := mad x4 c1 c0 in
  let d1 := mad x4 c3 c2 in
  let d2 := mad x4 c5 c4 in
  mad x8 (mad x8 d2 d1) d0.

(** inv_trig_impl.hpp:55-83 acos_kernel; [get_val] of the FPBits of ax is ax. *)
Definition acos_kernel (x : Z) : option Z :=
  let ax := cc_abs F x in
  if f_le F ax (cst 1 (-1)) then
    if f_lt F ax (cst 1 (-10)) then
      Some (f_add F rm k_pi_over_2 (mad (f_mul F rm (cst (-0x15555555555555) (-55)) x) (f_mul F rm x x) (f_neg F x)))
    else
      let xsq := f_mul F rm x x in
      let x3 := f_mul F rm x xsq in
      let r := asin_eval xsq in
      Some (mad (f_neg F x3) r (f_sub F rm k_pi_over_2 x))
  else
    let u := mad (cst (-1) (-1)) ax (cst 1 (-1)) in
    do s <- cc_sqrt F rm u;
    let cv := f_mul F rm (cst 2 0) s in
    let r3 := asin_eval u in
    let r := mad (f_mul F rm cv u) r3 cv in
    Some (if f_lt F x (cst 0 0) then f_sub F rm k_pi r else r).

(** inv_trig_impl.hpp:112-138 acos_impl *)
Definition acos_impl (x : Z) : option Z :=
  if fp_is_nan F x then Some x
  else if fp_is_inf F x then Some (f_add F rm x (qnan F))
  else
    let ax := cc_abs F x in
    if f_gt F ax (cst 1 0) then Some (f_add F rm x (qnan F))
    else if f_eq F ax (cst 1 0) then Some (if f_lt F x (cst 0 0) then pi_v else cst 0 0)
    else acos_kernel x.
End T.

(** inv_trig_impl.hpp:84-108 asin_small_impl; sizeof(T) == sizeof(float) is width 32 *)
Definition asin_small (F : fmt) (rm : rmode) (x : Z) : Z :=
  let ax := cc_abs F x in
  if f_lt F ax (cst F 1 (-14)) then
    f_add F rm x (f_mul F rm (f_mul F rm (f_mul F rm x x) x) (cst F 0x15555555555555 (-55)))
  else if width F =? 32 then
    let dx := f_cast F F64 rm x in
    let xsq := f_mul F64 rm dx dx in
    let r := asin_eval F64 rm xsq in
    f_cast F64 F rm (f_add F64 rm dx (f_mul F64 rm (f_mul F64 rm dx xsq) r))
  else
    let xsq := f_mul F rm x x in
    let r := asin_eval F rm xsq in
    f_add F rm x (f_mul F rm (f_mul F rm x xsq) r).

(** inv_trig_impl.hpp:140-148 asin_impl *)
Definition asin_impl (F : fmt) (rm : rmode) (x : Z) : option Z :=
  if f_eq F x (cst F 0 0) then Some x
  else if f_le F (cc_abs F x) (cst F 1 (-1)) then Some (asin_small F rm x)
  else
    do a <- acos_impl F rm x;
    Some (f_sub F rm (f_div F rm (pi_v F) (cst F 2 0)) a).

(** inv_trig_impl.hpp:150-198 atan_impl for T = double (the else branch); [rec] is the recursive call,
    whose argument 1/|x| is at most 1. *)
Definition atan_body (rm : rmode) (rec : Z -> option Z) (x : Z) : option Z :=
  if cc_isnan F64 x then Some x
  else if f_eq F64 x (cst F64 0 0) then Some x
  else
    let neg := f_lt F64 x (cst F64 0 0) in
    let ax := cc_abs F64 x in
    if cc_isinf F64 ax then
      Some (if neg then f_div F64 rm (f_neg F64 (pi_v F64)) (cst F64 2 0) else f_div F64 rm (pi_v F64) (cst F64 2 0))
    else if f_gt F64 ax (cst F64 1 0) then
      let pi_over_2 := f_div F64 rm (pi_v F64) (cst F64 2 0) in
      let recip := f_div F64 rm (cst F64 1 0) ax in
      do small <- (if f_lt F64 recip (cst F64 1 (-14)) then
                     let recip_sq := f_mul F64 rm recip recip in
                     Some (f_add F64 rm recip (f_mul F64 rm (f_mul F64 rm recip_sq recip) (cst F64 (-0x15555555555555) (-54))))
                   else rec recip);
      Some (if neg then f_add F64 rm (f_neg F64 pi_over_2) small else f_sub F64 rm pi_over_2 small)
    else if f_lt F64 ax (cst F64 1 (-14)) then
      let ax_sq := f_mul F64 rm ax ax in
      let val := f_add F64 rm ax (f_mul F64 rm (f_mul F64 rm ax_sq ax) (cst F64 (-0x15555555555555) (-54))) in
      Some (if neg then f_neg F64 val else val)
    else
      do root <- cc_sqrt F64 rm (f_add F64 rm (cst F64 1 0) (f_mul F64 rm ax ax));
      asin_impl F64 rm (if neg then f_div F64 rm (f_neg F64 ax) root else f_div F64 rm ax root).
(** Two levels of recursion: the argument of the inner call is not above 1, and a third level would be
    [None]. *)
Definition atan_d (rm : rmode) (x : Z) : option Z := atan_body rm (atan_body rm (fun _ => None)) x.
(** inv_trig_impl.hpp:157, T = float *)
Definition atan_f (rm : rmode) (x : Z) : option Z := do a <- atan_d rm (f_cast F32 F64 rm x); Some (f_cast F64 F32 rm a).

Section Atan2.
Context (F : fmt) (rm : rmode) (atan_ : Z -> option Z).
Let zero := cst F 0 0.
(** inv_trig_impl.hpp:200-265 atan2_impl; [atan_] is atan_impl of the type. *)
Definition atan2_impl (y x : Z) : option Z :=
  if cc_isnan F y || cc_isnan F x then Some (f_add F rm y x)
  else if cc_isinf F x then
    let pi := pi_v F in
    if f_gt F x zero then
      if cc_isinf F y then
        if f_gt F y zero then Some (f_div F rm pi (cst F 4 0))
        else if f_lt F y zero then Some (f_div F rm (f_neg F pi) (cst F 4 0))
        else Some y
      else if f_gt F y zero then Some zero
      else if f_lt F y zero then Some (f_neg F zero)
      else Some y
    else if cc_isinf F y then
      if f_gt F y zero then Some (f_div F rm (f_mul F rm (cst F 3 0) pi) (cst F 4 0))
      else if f_lt F y zero then Some (f_div F rm (f_mul F rm (f_neg F (cst F 3 0)) pi) (cst F 4 0))
      else Some (if sign_of F y then f_neg F pi else pi)
    else if f_gt F y zero then Some pi
    else if f_lt F y zero then Some (f_neg F pi)
    else Some (if sign_of F y then f_neg F pi else pi)
  else if cc_isinf F y then
    let pi_over_2 := f_div F rm (pi_v F) (cst F 2 0) in
    Some (if sign_of F y then f_neg F pi_over_2 else pi_over_2)
  else if f_eq F x zero then
    let pi_over_2 := f_div F rm (pi_v F) (cst F 2 0) in
    if f_gt F y zero then Some pi_over_2
    else if f_lt F y zero then Some (f_neg F pi_over_2)
    else if sign_of F x then Some (if sign_of F y then f_neg F (pi_v F) else pi_v F)
    else Some y
  else
    let ratio := f_div F rm y x in
    do angle <- atan_ ratio;
    if f_lt F x zero then
      if f_ge F y zero then Some (f_add F rm angle (pi_v F)) else Some (f_sub F rm angle (pi_v F))
    else Some angle.
End Atan2.
(** inv_trig_impl.hpp:267-291, the entry points *)
Definition cc_acosf (rm : rmode) := acos_impl F32 rm.
Definition cc_acos (rm : rmode) := acos_impl F64 rm.
Definition cc_asinf (rm : rmode) := asin_impl F32 rm.
Definition cc_asin (rm : rmode) := asin_impl F64 rm.
Definition cc_atanf (rm : rmode) := atan_f rm.
Definition cc_atan (rm : rmode) := atan_d rm.
Definition cc_atan2f (rm : rmode) := atan2_impl F32 rm (atan_f rm).
Definition cc_atan2 (rm : rmode) := atan2_impl F64 rm (atan_d rm).
