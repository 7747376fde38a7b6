(** * Error-free transforms
    include/ccmath/internal/support/math_support.hpp and
    include/ccmath/internal/types/double_double.hpp.  The hardware operations
    + - * are the correctly rounded f_add, f_sub, f_mul in rounding mode [rm]
    (no contraction of a * b + c into an fma).  A DoubleDouble is a pair (hi, lo). *)
From Coq Require Import ZArith.
From Verif Require Import MachInt Fmt FOps Fma.
Open Scope Z_scope.

Section Eft.
Context (F : fmt) (rm : rmode).

(** math_support.hpp:209-215 [fast_two_sum]; double_double.hpp:42-49 [exact_add]
    is the same computation for double. *)
Definition fast_two_sum (a b : Z) : Z * Z :=
  let hi := f_add F rm a b in
  let e := f_sub F rm hi a in
  (hi, f_sub F rm b e).

(** math_support.hpp:218-227 [two_sum]. *)
Definition two_sum (a b : Z) : Z * Z :=
  let s := f_add F rm a b in
  let a' := f_sub F rm s b in
  let b' := f_sub F rm s a' in
  (s, f_add F rm (f_sub F rm a a') (f_sub F rm b b')).

(** Veltkamp's splitting with the constant 2^s + 1: double_double.hpp:67-77 [split]
    is s = 27 on double; math_support.hpp:233-240 [veltkamp_split] is s = 32 on long
    double (0x1.00000001p+32). *)
Definition split (s : Z) (a : Z) : Z * Z :=
  let C := f_of_Z F rm (2 ^ s + 1) in
  let t1 := f_mul F rm C a in
  let t2 := f_sub F rm a t1 in
  let hi := f_add F rm t1 t2 in
  (hi, f_sub F rm a hi).

(** double_double.hpp:79-91 [exact_mult] (s = 27). *)
Definition exact_mult (s : Z) (a b : Z) : Z * Z :=
  let (ah, al) := split s a in
  let (bh, bl) := split s b in
  let r := f_mul F rm a b in
  let t1 := f_sub F rm (f_mul F rm ah bh) r in
  let t2 := f_add F rm (f_mul F rm ah bl) t1 in
  let t3 := f_add F rm (f_mul F rm al bh) t2 in
  (r, f_add F rm (f_mul F rm al bl) t3).

(** double_double.hpp:52-57 [add(DoubleDouble, DoubleDouble)]. *)
Definition dd_add (a b : Z * Z) : Z * Z :=
  let (rh, rl) := fast_two_sum (fst a) (fst b) in
  let lo := f_add F rm (snd a) (snd b) in
  fast_two_sum rh (f_add F rm rl lo).
(** double_double.hpp:60-64 [add(DoubleDouble, double)]. *)
Definition dd_add_d (a : Z * Z) (b : Z) : Z * Z :=
  let (rh, rl) := fast_two_sum (fst a) b in
  fast_two_sum rh (f_add F rm rl (snd a)).

(** double_double.hpp:93-98 [quick_mult(double, DoubleDouble)] and 100-107
    [quick_mult(DoubleDouble, DoubleDouble)]; [exact_fma] (28-36) is the correctly
    rounded fma (C33 for the software fallback). *)
Definition quick_mult_d (s : Z) (a : Z) (b : Z * Z) : Z * Z :=
  let (rh, rl) := exact_mult s a (fst b) in
  (rh, f_fma F rm a (snd b) rl).
Definition quick_mult (s : Z) (a b : Z * Z) : Z * Z :=
  let (rh, rl) := exact_mult s (fst a) (fst b) in
  let t1 := f_fma F rm (fst a) (snd b) rl in
  (rh, f_fma F rm (snd a) (fst b) t1).
(** double_double.hpp:114-118 [multiply_add<DoubleDouble>]. *)
Definition dd_multiply_add (s : Z) (x y z : Z * Z) : Z * Z := dd_add z (quick_mult s x y).
End Eft.

(** types/number_pair.hpp:24-33 [split] of an unsigned [w]-bit integer. *)
Definition number_split (w x : Z) : Z * Z :=
  let half := w / 8 * 4 in
  let mask := 2 ^ half - 1 in
  (Z.shiftr x half, Z.land x mask).
