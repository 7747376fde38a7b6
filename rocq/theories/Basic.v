(** * Model of math/basic: min, max, fdim, fmod, remainder, remquo, nan

    The branches taken without a compiler builtin, in constant evaluation.
    [rm] is the mode of the floating-point instructions. *)
From Coq Require Import ZArith Bool List.
From Verif Require Import MachInt Fmt FOps FPBits Compare Nearest.
Import ListNotations.
Open Scope Z_scope.

Section Basic.
Context (F : fmt) (rm : rmode).

(** generic/func/basic/max_gen.hpp:29-52 and min_gen.hpp:28-49, floating-point
    arguments; called by math/basic/max.hpp:34-46, min.hpp:33-45. *)
Definition gen_max (x y : Z) : Z :=
  if fp_is_nan F x && fp_is_nan F y then qnan F
  else if fp_is_nan F x then y
  else if fp_is_nan F y then x
  else if fp_is_zero F x && fp_is_zero F y then (if fp_sign F x then y else x)
  else if f_gt F x y then x else y.
Definition gen_min (x y : Z) : Z :=
  if fp_is_nan F x then y
  else if fp_is_nan F y then x
  else if fp_is_zero F x && fp_is_zero F y then (if fp_sign F x then x else y)
  else if f_lt F x y then x else y.

(** generic/func/basic/fdim_gen.hpp:31-46. *)
Definition gen_fdim (x y : Z) : Z :=
  if fp_is_nan F x then x
  else if fp_is_nan F y then y
  else if f_le F x y then f_zero F false
  else if f_lt F y (f_zero F false) && f_gt F x (f_add F rm (max_mag F) y) then f_inf F false
  else f_sub F rm x y.

(** math/basic/fmod.hpp:28-72 and generic/func/basic/fmod_gen.hpp:25-63; the
    last line is also runtime/func/basic/fmod_rt.hpp:31. *)
Definition trunc_rem (x y : Z) : Z := f_sub F rm x (f_mul F rm (cc_trunc F (f_div F rm x y)) y).
Definition cc_fmod (x y : Z) : Z :=
  if fp_is_zero F x && negb (fp_is_zero F y) then x
  else if (fp_is_inf F x && negb (fp_is_nan F y)) || (fp_is_zero F y && negb (fp_is_nan F x)) then f_neg F (qnan F)
  else if fp_is_inf F y && fp_is_finite F x then x
  else if fp_is_nan F x || fp_is_nan F y then qnan F
  else trunc_rem x y.

(** math/basic/remainder.hpp:31-52, generic/func/basic/remainder_gen.hpp:25-44
    and runtime/func/basic/remainder_rt.hpp:26-46. *)
Definition cc_remainder (x y : Z) : Z :=
  if (fp_is_inf F x && negb (fp_is_nan F y)) || (fp_is_zero F y && negb (fp_is_nan F x)) || (fp_is_nan F x || fp_is_nan F y)
  then f_neg F (qnan F)
  else trunc_rem x y.

(** math/basic/impl/remquo_double_impl.hpp:27-122 and remquo_float_impl.hpp:26-104
    (the same text with the constants of the other format; also the copies under
    generic/func/basic/remquo_impl): (result, value stored in *quo, [None] if
    nothing is stored).  [fm] is the function [ccm::fmod] that is called.
    Simplification: the magnitudes are compared as integers; the signed/unsigned
    conversions of the code do not change a 63-bit (31-bit) magnitude.  The
    hexadecimal constants are written with the fields of the format. *)
Definition remquo_nan (x y : Z) : Z := f_div F rm (f_mul F rm x y) (f_mul F rm x y).
Definition remquo_last (hx : Z -> Z) (half y x : Z) (q : Z) : Z * Z :=
  if f_gt F (hx x) half then
    let x := f_sub F rm x y in
    let q := q + 1 in
    if f_ge F (hx x) half then (f_sub F rm x y, q + 1) else (x, q)
  else (x, q).
Definition cc_remquo (fm : Z -> Z -> Z) (x y : Z) : Z * option Z :=
  let x_mag := mag_of F x in
  let y_mag := mag_of F y in
  let x_sign := sign_of F x in
  let q_sign := xorb x_sign (sign_of F y) in
  if y_mag =? 0 then (remquo_nan x y, None)
  else if (inf_mag F <=? x_mag) || (inf_mag F <? y_mag) then (remquo_nan x y, None)
  else
    let x := if y_mag <=? (expmax F - 3) * 2 ^ fl F - 1 then fm x (f_mul F rm (f_of_Z F rm 8) y) else x in
    if x_mag =? y_mag then (f_mul F rm (f_zero F false) x, Some (if q_sign then -1 else 1))
    else
      let x := cc_abs F x in
      let y := y_mag in
      let y4 := f_mul F rm (f_of_Z F rm 4) y in
      let '(x, q) := if (y_mag <=? (expmax F - 2) * 2 ^ fl F - 1) && f_ge F x y4 then (f_sub F rm x y4, 4) else (x, 0) in
      let y2 := f_mul F rm (f_of_Z F rm 2) y in
      let '(x, q) := if (y_mag <=? (expmax F - 1) * 2 ^ fl F - 1) && f_ge F x y2 then (f_sub F rm x y2, q + 2) else (x, q) in
      let '(x, q) :=
        if y_mag <? 2 * 2 ^ fl F then remquo_last (fun x => f_add F rm x x) y y x q
        else remquo_last (fun x => x) (f_mul F rm (f_pow2 F false (-1)) y) y x q in
      let x := if f_eq F x (f_zero F false) then f_zero F false else x in
      let x := if x_sign then f_neg F x else x in
      (x, Some (if q_sign then - q else q)).
End Basic.

(** support/helpers/digit_to_int.hpp:15-21. *)
Definition digit_to_int (c : Z) : Z :=
  if (48 <=? c) && (c <=? 57) then c - 48
  else if (65 <=? c) && (c <=? 70) then c - 65 + 10
  else if (97 <=? c) && (c <=? 102) then c - 97 + 10
  else 0.

(** math/basic/impl/nan_double_impl.hpp:67-85 the accumulation loop; nan_float_impl.hpp:58-75
    (with 32 bits, 7 and 10^8).  [w] is the width of the accumulator, [lim] the
    index from which it is reduced modulo [m]; [i] counts the characters read. *)
Fixpoint nan_loop (w base lim m : Z) (digit : Z -> Z) (i acc : Z) (s : list Z) : Z :=
  match s with
  | [] => acc
  | c :: s =>
      let acc := wrap w (acc * base) in
      let acc := wrap w (acc + wrap 8 (digit c)) in
      let acc := if lim <=? i then acc mod m else acc in
      nan_loop w base lim m digit (i + 1) acc s
  end.
(** nan_double_impl.hpp:25-91 and nan_float_impl.hpp:21-82 on the characters
    before the terminating zero ([arg] is a valid C string; the null pointer is
    handled only by the double version and is not modelled). *)
Definition cc_nan (F : fmt) (lim m : Z) (s : list Z) : Z :=
  let w := width F in
  match s with
  | [] => qnan F
  | 48 :: c :: t =>
      if (c =? 120) || (c =? 88) then Z.lor (nan_loop w 16 lim m digit_to_int 0 0 t) (qnan F)
      else if forallb (fun c => (48 <=? c) && (c <=? 57)) s
      then Z.lor (nan_loop w 10 lim m (fun c => c - 48) 0 0 s) (qnan F) else qnan F
  | _ =>
      if forallb (fun c => (48 <=? c) && (c <=? 57)) s
      then Z.lor (nan_loop w 10 lim m (fun c => c - 48) 0 0 s) (qnan F) else qnan F
  end.
Definition cc_nan_double : list Z -> Z := cc_nan binary64 15 (10 ^ 18).
Definition cc_nan_float : list Z -> Z := cc_nan binary32 7 (10 ^ 8).
