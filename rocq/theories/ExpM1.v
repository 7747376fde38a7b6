(** * expm1 for float and double

    Models the expm1 functions of math/expo/impl/{exp_float_impl,exp_double_impl}.hpp and
    expm1_impl.hpp:18-22 with the conventions of ExpoF.v and ExpD.v. *)
From Coq Require Import ZArith List Bool.
From Verif Require Import MachInt Fmt FOps ExpoData ExpoDataD ExpoF ExpD.
Import ListNotations.
Open Scope Z_scope.

(** The nested sum c0 + x * (c1 + x * (... + x * cn)) of both expm1_series. *)
Fixpoint horner (F : fmt) (rm : rmode) (x : Z) (cs : list Z) : Z :=
  match cs with
  | [] => f_zero F false
  | [c] => c
  | c :: cs => f_add F rm c (f_mul F rm x (horner F rm x cs))
  end.
(** exp_float_impl.hpp:97-101 and exp_double_impl.hpp:147-151 expm1_series. *)
Definition expm1_series (F : fmt) (cs : list Z) (rm : rmode) (x : Z) : Z :=
  let x2 := f_mul F rm x x in
  f_add F rm x (f_mul F rm x2 (horner F rm x cs)).
(** exp_float_impl.hpp:100, the decimal literals rounded to float. *)
Definition expm1f_cs : list Z :=
  [ litf 1 (-1); litf 0xaaaaab (-26); litf 0xaaaaab (-28); litf 0x888889 (-30); litf 0xb60b61 (-33) ].
(** exp_double_impl.hpp:150, the folded quotients 1.0 / n!. *)
Definition expm1d_cs : list Z :=
  lit 1 (-1) :: map (fun n => f_div F64 RNE (lit 1 0) (lit n 0)) [6; 24; 120; 720; 5040; 40320].

(** exp_float_impl.hpp:130-143, the main part of expm1_kernel. *)
Definition expm1f_main (rm : rmode) (x : Z) : Z :=
  let '(scale, y) := expf_kernel rm x in f_cast F64 F32 rm (f_sub F64 rm (f_mul F64 rm scale y) (lit 1 0)).
(** exp_float_impl.hpp:103-144 expm1_kernel. *)
Definition expm1f_kernel (rm : rmode) (x : Z) : Z :=
  let abs_top := Z.land (top12f x) 0x7ff in
  let main := expm1f_main rm x in
  if top12f (litf 88 0) <=? abs_top then
    if x =? f_inf F32 true then litf (-1) 0
    else if top12f (f_inf F32 false) <=? abs_top then f_add F32 rm x x
    else if f_gt F32 x (litf 0x162e42e (-18)) then f_mul F32 RNE (litf 1 97) (litf 1 97)
    else if f_lt F32 x (litf (-0x19fe368) (-18)) then litf (-1) 0
    else main
  else main.
(** exp_double_impl.hpp:153-211 expm1_kernel. *)
Definition expm1d_kernel (rm : rmode) (x : Z) : Z :=
  let abs_top := Z.land (top12d x) 0x7ff in
  let kernel (special : bool) :=
    let '(tmp, sign_bits, ki) := expd_kernel rm x in
    if special then special_case 1009 rm tmp sign_bits ki
    else f_sub F64 rm (f_add F64 rm sign_bits (f_mul F64 rm sign_bits tmp)) (lit 1 0) in
  if top12d (lit 1 9) - top12d (lit 1 (-54)) <=? wrap 32 (abs_top - top12d (lit 1 (-54))) then
    if 0x80000000 <=? wrap 32 (abs_top - top12d (lit 1 (-54))) then x
    else if top12d (lit 1 10) <=? abs_top then
      if x =? f_inf F64 true then lit (-1) 0
      else if top12d (f_inf F64 false) <=? abs_top then f_add F64 rm x x
      else if negb (Z.shiftr x 63 =? 0) then lit (-1) 0
      else f_mul F64 RNE (lit 1 769) (lit 1 769)
    else kernel true
  else kernel (abs_top =? 0).

(** exp_float_impl.hpp:146-165 expm1_float_impl and exp_double_impl.hpp:213-232 expm1_double_impl:
    the same text for the two types; [half] and the others are the literals 0.25, 0.0625, 0.5, 2. *)
Definition expm1_gen (F : fmt) (quarter sixteenth half two minus_one : Z) (cs : list Z) (kernel : rmode -> Z -> Z) (rm : rmode) (x : Z) : Z :=
  if f_eq F x (f_zero F false) then x
  else if is_nan F x then qnan F
  else if f_eq F x (f_inf F false) then f_inf F false
  else if f_eq F x (f_inf F true) then minus_one
  else if f_ge F x quarter || f_le F x (f_neg F quarter) then kernel rm x
  else if f_gt F x sixteenth || f_lt F x (f_neg F sixteenth) then
    let t := expm1_series F cs rm (f_mul F rm x half) in f_mul F rm t (f_add F rm t two)
  else expm1_series F cs rm x.
Definition expm1f (rm : rmode) (x : Z) : Z :=
  expm1_gen F32 (litf 1 (-2)) (litf 1 (-4)) (litf 1 (-1)) (litf 1 1) (litf (-1) 0) expm1f_cs expm1f_kernel rm x.
Definition expm1_d (rm : rmode) (x : Z) : Z :=
  expm1_gen F64 (lit 1 (-2)) (lit 1 (-4)) (lit 1 (-1)) (lit 1 1) (lit (-1) 0) expm1d_cs expm1d_kernel rm x.
