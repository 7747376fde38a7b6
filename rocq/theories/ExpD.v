(** * The double kernels of exp, exp2 and expm1

    Models math/expo/impl/{exp_double_impl,exp2_double_impl}.hpp, with the conventions of
    ExpoF.v: doubles are bit patterns, [rm] is the rounding mode of the machine, errno and the
    exception flags are not modelled, and products of literals are folded to nearest. *)
From Coq Require Import ZArith List Bool.
From Verif Require Import MachInt Fmt FOps ExpoData ExpoDataD ExpoF.
Import ListNotations.
Open Scope Z_scope.

(** exp_data.hpp:56-59 invln2N (a folded product), shift, negln2hiN, negln2loN. *)
Definition expd_invln2N : Z := f_mul F64 RNE (lit 0x171547652b82fe (-52)) (f_of_Z F64 RNE 128).
Definition expd_shift : Z := lit 0x18 48.
Definition expd_negln2hi : Z := lit (-0x162e42fefa0000) (-60).
Definition expd_negln2lo : Z := lit (-0x1cf79abc9e3b3a) (-99).
(** exp2_data.hpp:59 shift, a folded quotient. *)
Definition exp2d_shift : Z := f_div F64 RNE (lit 0x18 48) (f_of_Z F64 RNE 128).

(** exp_double_impl.hpp:36-72 handle_special_case (n = 1009) and exp2_double_impl.hpp:29-71
    handle_special_cases (n = 1); [two_n] is the literal 2^n of the final product. *)
Definition special_case (n : Z) (rm : rmode) (tmp sign_bits expo : Z) : Z :=
  if Z.land expo 0x80000000 =? 0 then
    let scale := wrap 64 (sign_bits - n * 2 ^ 52) in
    f_mul F64 rm (lit 1 n) (f_add F64 rm scale (f_mul F64 rm scale tmp))
  else
    let scale := wrap 64 (sign_bits + 1022 * 2 ^ 52) in
    let result := f_add F64 rm scale (f_mul F64 rm scale tmp) in
    let result :=
      if f_lt F64 result (lit 1 0) then
        let lo := f_add F64 rm (f_sub F64 rm scale result) (f_mul F64 rm scale tmp) in
        let hi := f_add F64 rm (lit 1 0) result in
        let lo := f_add F64 rm (f_add F64 rm (f_sub F64 rm (lit 1 0) hi) result) lo in
        let result := f_sub F64 rm (f_add F64 rm hi lo) (lit 1 0) in
        if f_eq F64 result (f_zero F64 false) then f_zero F64 false else result
      else result in
    f_mul F64 rm (lit 1 (-1022)) result.

(** exp_double_impl.hpp:109-139 (and 185-209): tmp, sign_bits and expo_int64. *)
Definition expd_kernel (rm : rmode) (x : Z) : Z * Z * Z :=
  let scaled := f_mul F64 rm expd_invln2N x in
  let expo := f_add F64 rm scaled expd_shift in
  let ki := expo in
  let kd := f_sub F64 rm expo expd_shift in
  let rem := f_add F64 rm (f_add F64 rm x (f_mul F64 rm kd expd_negln2hi)) (f_mul F64 rm kd expd_negln2lo) in
  let index := 2 * (ki mod 128) in
  let top := wrap 64 (Z.shiftl ki 45) in
  let tail := at_ expd_tab index in
  let sign_bits := wrap 64 (at_ expd_tab (index + 1) + top) in
  let r2 := f_mul F64 rm rem rem in
  let c := at_ expd_poly in
  let tmp := f_add F64 rm
    (f_add F64 rm (f_add F64 rm tail rem) (f_mul F64 rm r2 (f_add F64 rm (c 0) (f_mul F64 rm rem (c 1)))))
    (f_mul F64 rm (f_mul F64 rm r2 r2) (f_add F64 rm (c 2) (f_mul F64 rm rem (c 3)))) in
  (tmp, sign_bits, ki).

(** exp_double_impl.hpp:74-145 exp_double_impl; exp.hpp:34-43 and exp_gen.hpp. *)
Definition exp_d (rm : rmode) (x : Z) : Z :=
  let abs_top := Z.land (top12d x) 0x7ff in
  let kernel (special : bool) :=
    let '(tmp, sign_bits, ki) := expd_kernel rm x in
    if special then special_case 1009 rm tmp sign_bits ki
    else f_add F64 rm sign_bits (f_mul F64 rm sign_bits tmp) in
  if top12d (lit 1 9) - top12d (lit 1 (-54)) <=? wrap 32 (abs_top - top12d (lit 1 (-54))) then
    if 0x80000000 <=? wrap 32 (abs_top - top12d (lit 1 (-54))) then f_add F64 rm (lit 1 0) x
    else if top12d (lit 1 10) <=? abs_top then
      if x =? f_inf F64 true then f_zero F64 false
      else if top12d (f_inf F64 false) <=? abs_top then f_add F64 rm (lit 1 0) x
      else if negb (Z.shiftr x 63 =? 0) then f_mul F64 RNE (lit 1 (-767)) (lit 1 (-767))
      else f_mul F64 RNE (lit 1 769) (lit 1 769)
    else kernel true
  else kernel (abs_top =? 0).

(** exp2_double_impl.hpp:113-137: tmp, sign_bits and expo_int64. *)
Definition exp2d_kernel (rm : rmode) (x : Z) : Z * Z * Z :=
  let expo := f_add F64 rm x exp2d_shift in
  let ki := expo in
  let kd := f_sub F64 rm expo exp2d_shift in
  let rem := f_sub F64 rm x kd in
  let index := 2 * (ki mod 128) in
  let top := wrap 64 (Z.shiftl ki 45) in
  let tail := at_ exp2d_tab index in
  let sign_bits := wrap 64 (at_ exp2d_tab (index + 1) + top) in
  let r2 := f_mul F64 rm rem rem in
  let c := at_ exp2d_poly in
  let tmp := f_add F64 rm
    (f_add F64 rm (f_add F64 rm tail (f_mul F64 rm rem (c 0))) (f_mul F64 rm r2 (f_add F64 rm (c 1) (f_mul F64 rm rem (c 2)))))
    (f_mul F64 rm (f_mul F64 rm r2 r2) (f_add F64 rm (c 3) (f_mul F64 rm rem (c 4)))) in
  (tmp, sign_bits, ki).

(** exp2_double_impl.hpp:73-139 exp2_double_impl; exp2.hpp:36-45. *)
Definition exp2_d (rm : rmode) (x : Z) : Z :=
  let abs_top := Z.land (top12d x) 0x7ff in
  let kernel (special : bool) :=
    let '(tmp, sign_bits, ki) := exp2d_kernel rm x in
    if special then special_case 1 rm tmp sign_bits ki
    else f_add F64 rm sign_bits (f_mul F64 rm sign_bits tmp) in
  if top12d (lit 1 9) - top12d (lit 1 (-54)) <=? wrap 32 (abs_top - top12d (lit 1 (-54))) then
    if 0x80000000 <=? wrap 32 (abs_top - top12d (lit 1 (-54))) then f_add F64 rm x (lit 1 0)
    else
      let large :=
        if wrap 64 (2 * lit 928 0) <? wrap 64 (2 * x) then kernel true else kernel (abs_top =? 0) in
      if top12d (lit 1 10) <=? abs_top then
        if x =? f_inf F64 true then f_zero F64 false
        else if top12d (f_inf F64 false) <=? abs_top then f_add F64 rm x (lit 1 0)
        else if Z.shiftr x 63 =? 0 then f_mul F64 RNE (lit 1 769) (lit 1 769)
        else if lit (-1075) 0 <=? x then f_mul F64 RNE (lit 1 (-767)) (lit 1 (-767))
        else large
      else large
  else kernel (abs_top =? 0).
