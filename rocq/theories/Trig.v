(** * sin, cos and tan for float and double

    Models math/trig/impl/sincos_payne_hanek.hpp, sincos_float_impl.hpp, sincos_double_impl.hpp with
    their tables and internal/math/generic/func/trig/{sin,cos,tan}_gen.hpp.  Conventions of ExpoF.v:
    arithmetic in the rounding mode of the machine, multiply_add is the plain (x * y) + z of a
    target without FMA, uint64_t by wrap.  [ct] is is_constant_evaluated().  The error reporting
    (errno, exception flags) of sincos_float_impl.hpp:63-73 and sincos_double_impl.hpp:64-74 is left out. *)
From Coq Require Import ZArith List Bool.
From Verif Require Import MachInt Fmt FOps FPBits Nearest ExpoData ExpoF.
Import ListNotations.
Open Scope Z_scope.

(** sincos_payne_hanek.hpp:31-38 *)
Definition frac_8_over_pi : list Z :=
  [ 0x8be60db9391054a7; 0xf09d5f47d4d37703; 0x6d8a5664f10e4107; 0xf9458eaf7aef1586; 0xdc91b8e909374b80; 0x1924bba827464873;
    0xf877ac72c4a69cfb; 0xa208d7d4baed1213; 0xa671c09ad17df904; 0xe64758e60d4ce7d2; 0x72117e2ef7e4a0ec; 0x7fe25fff7816603f;
    0xbcbc462d6829b47d; 0xb4d9fb3c9f2c26dd; 0x3d18fd9a797fa8b5; 0xd49eeb1faf97c5ec; 0xf41ce7de294a4ba9; 0xafed7ec47e357421;
    0x580cc11bf1edaeaf; 0xc33ef0826bd0d876; 0xa78e45857b986c21; 0x9666157c5281a102; 0x37ff620135cc9cc4; 0x1818555b29cea325;
    0x8389ef0231ad1f10; 0x670d9f3773a024aa; 0x0d6711da2e58729b; 0x76bd13455c6414fa; 0x97fc1c14fdf8cfa0; 0xcb0b793e60c9f6ef;
    0x0cf49bbdac797be2; 0x7ce87cd72bc9fc76 ].
(** sincos_payne_hanek.hpp:40-41 *)
Definition pi8_hi : Z := lit 0x1921fb54442d18 (-54).
Definition pi8_lo : Z := lit 0x11a62633145c07 (-108).

(** sincos_payne_hanek.hpp:50-64 mul64: the pair (hi, lo). *)
Definition mul64 (a b : Z) : Z * Z :=
  let a_lo := Z.land a 0xffffffff in
  let a_hi := Z.shiftr a 32 in
  let b_lo := Z.land b 0xffffffff in
  let b_hi := Z.shiftr b 32 in
  let ll := wrap 64 (a_lo * b_lo) in
  let lh := wrap 64 (a_lo * b_hi) in
  let hl := wrap 64 (a_hi * b_lo) in
  let hh := wrap 64 (a_hi * b_hi) in
  let mid := wrap 64 (Z.shiftr ll 32 + Z.land lh 0xffffffff + Z.land hl 0xffffffff) in
  let lo := Z.lor (Z.land ll 0xffffffff) (wrap 64 (Z.shiftl mid 32)) in
  let hi := wrap 64 (hh + Z.shiftr lh 32 + Z.shiftr hl 32 + Z.shiftr mid 32) in
  (hi, lo).

(** sincos_payne_hanek.hpp:68-77 add_at_word: the accumulator is the list of its limbs, low limb
    first; the end of the list is the test word < 4. *)
Fixpoint add_at_word (acc : list Z) (val : Z) (word : nat) : list Z :=
  match acc with
  | [] => []
  | old :: rest =>
      match word with
      | S word => old :: add_at_word rest val word
      | O => if val =? 0 then acc
             else let s := wrap 64 (old + val) in
                  s :: add_at_word rest (if s <? old then 1 else 0) O
      end
  end.

(** sincos_payne_hanek.hpp:92-98, the part of add_word_at after the shift of a negative position. *)
Definition add_word_pos (acc : list Z) (w bitpos : Z) : list Z :=
  if 256 <=? bitpos then acc
  else
    let word := Z.to_nat (Z.shiftr bitpos 6) in
    let off := Z.land bitpos 63 in
    let low := wrap 64 (Z.shiftl w off) in
    let high := if negb (off =? 0) then Z.shiftr w (64 - off) else 0 in
    let acc := add_at_word acc low word in
    if negb (high =? 0) && Nat.ltb (word + 1) 4 then add_at_word acc high (word + 1) else acc.
(** sincos_payne_hanek.hpp:81-99 add_word_at; a long holds every position that occurs. *)
Definition add_word_at (acc : list Z) (w bitpos : Z) : list Z :=
  if w =? 0 then acc
  else if bitpos <? 0 then
    if 64 <=? - bitpos then acc
    else
      let w := Z.shiftr w (- bitpos) in
      if w =? 0 then acc else add_word_pos acc w 0
  else add_word_pos acc w bitpos.

(** sincos_payne_hanek.hpp:117-124, the loop over the words of 8/pi; [shift] starts at
    binary_exp - 64 + 252 and drops by 64 from word to word. *)
Fixpoint ph_loop (acc : list Z) (mantissa : Z) (ws : list Z) (shift : Z) : list Z :=
  match ws with
  | [] => acc
  | w :: ws =>
      let acc :=
        if (shift <=? -128) || (256 <=? shift) then acc
        else let '(hi, lo) := mul64 mantissa w in add_word_at (add_word_at acc lo shift) hi (shift + 64) in
      ph_loop acc mantissa ws (shift - 64)
  end.
(** sincos_payne_hanek.hpp:115-124: the accumulator after the loop. *)
Definition ph_acc (mantissa binary_exp : Z) : list Z :=
  ph_loop (add_word_at [0; 0; 0; 0] mantissa (binary_exp + 1 + 252)) mantissa frac_8_over_pi (binary_exp - 64 + 252).

(** sincos_payne_hanek.hpp:126-143: from the accumulator to k and y_val (before the sign). *)
Definition ph_finish (rm : rmode) (acc : list Z) : Z * Z :=
  let acc1 := nth 1 acc 0 in let acc2 := nth 2 acc 0 in let acc3 := nth 3 acc 0 in
  let k := Z.land (Z.shiftr acc3 60) 15 in
  let a3 := Z.land acc3 0x0fffffffffffffff in
  let round_up := negb (Z.land (Z.shiftr a3 59) 1 =? 0) in
  let w0 := Z.lor (wrap 64 (Z.shiftl a3 4)) (Z.shiftr acc2 60) in
  let w1 := Z.lor (wrap 64 (Z.shiftl acc2 4)) (Z.shiftr acc1 60) in
  let r_hi := f_mul F64 rm (f_of_Z F64 rm (Z.shiftr w0 11)) (lit 1 (-53)) in
  let r_lo := f_add F64 rm (f_mul F64 rm (f_of_Z F64 rm (Z.land w0 0x7ff)) (lit 1 (-64)))
                           (f_mul F64 rm (f_of_Z F64 rm w1) (lit 1 (-128))) in
  let '(r_hi, k) := if round_up then (f_sub F64 rm r_hi (lit 1 0), Z.land (k + 1) 15) else (r_hi, k) in
  let y_val := f_add F64 rm (f_mul F64 rm r_hi pi8_hi)
                            (f_add F64 rm (f_mul F64 rm r_hi pi8_lo) (f_mul F64 rm r_lo pi8_hi)) in
  (k, y_val).

(** sincos_payne_hanek.hpp:102-148 payne_hanek_reduce: the pair of the return value and y. *)
Definition payne_hanek_reduce (rm : rmode) (x : Z) : Z * Z :=
  let neg := sign_of F64 x in
  let abs := mag_of F64 x in
  let e := Z.land (Z.shiftr abs 52) 0x7ff - 1023 in
  let mantissa := Z.lor (Z.land abs 0xfffffffffffff) 0x10000000000000 in
  let binary_exp := e - 52 in
  let '(k, y_val) := ph_finish rm (ph_acc mantissa binary_exp) in
  let y := if neg then f_neg F64 y_val else y_val in
  let k_signed := if neg then wrap 32 (0 - k) else k in
  (Z.land k_signed 15, y).

Section Small.
Context (F : fmt) (one_over_pi mpi0 mpi1 mpi2 : Z).
(** sincos_float_impl.hpp:35-44 and sincos_double_impl.hpp:35-44, the same text; the pair of the
    return value and u.  None when the conversion of k to int is undefined. *)
Definition range_reduction_small (rm : rmode) (ct : bool) (x : Z) : option (Z * Z) :=
  let prod_hi := f_mul F rm x one_over_pi in
  let k := cc_nearest_integer F rm ct prod_hi in
  let y_hi := f_add F rm (f_mul F rm k mpi0) x in
  let u := f_add F rm (f_mul F rm k mpi1) y_hi in
  let u := f_add F rm (f_mul F rm k mpi2) u in
  match f_to_int F 32 k with
  | Some z => Some (wrap 32 z, u)
  | None => None
  end.
End Small.

(** ** float *)
(** sincos_float_data.hpp:21-24 *)
Definition sin_k_f : list Z :=
  let a := litf 0xc3ef15 (-25) in let b := litf 0xb504f3 (-24) in let c := litf 0xec835e (-24) in
  let a' := litf (-0xc3ef15) (-25) in let b' := litf (-0xb504f3) (-24) in let c' := litf (-0xec835e) (-24) in
  [ litf 0 0; a; b; c; litf 1 0; c; b; a; litf 0 0; a'; b'; c'; litf (-1) 0; c'; b'; a' ].
(** sincos_float_data.hpp:27-29 *)
Definition mpi_f0 : Z := litf (-0x1921f8) (-22).
Definition mpi_f1 : Z := litf (-0x1aa22) (-37).
Definition mpi_f2 : Z := litf (-0xb4611a) (-64).
Definition one_over_pi_f : Z := litf 0xa2f983 (-22).

(** sincos_float_impl.hpp:82-98 *)
Definition sincosf_poly (rm : rmode) (is_sin : bool) (k y : Z) : Z :=
  let sin_k := at_ sin_k_f (Z.land k 15) in
  let cos_k := at_ sin_k_f (Z.land (wrap 32 (k + 4)) 15) in
  let y_sq := f_mul F32 rm y y in
  let p1 := f_add F32 rm (f_mul F32 rm y_sq (litf 0x888889 (-30))) (litf (-0xaaaaab) (-26)) in
  let q1 := f_add F32 rm (f_mul F32 rm y_sq (litf 0xaa5c5f (-28))) (litf (-0xffffe2) (-25)) in
  let y3 := f_mul F32 rm y_sq y in
  let c1 := f_add F32 rm (f_mul F32 rm y_sq q1) (litf 1 0) in
  let s1 := f_add F32 rm (f_mul F32 rm y3 p1) y in
  if is_sin then f_add F32 rm (f_mul F32 rm cos_k s1) (f_mul F32 rm sin_k c1)
  else f_add F32 rm (f_mul F32 rm cos_k c1) (f_mul F32 rm (f_neg F32 sin_k) s1).

(** sincos_float_impl.hpp:46-99 sincosf_eval *)
Definition sincosf_eval (rm : rmode) (ct is_sin : bool) (x : Z) : option Z :=
  let x_abs := Z.land x 0x7fffffff in
  if x_abs =? 0 then Some (if is_sin then x else litf 1 0)
  else if x_abs <? 0x48800000 then
    match range_reduction_small F32 one_over_pi_f mpi_f0 mpi_f1 mpi_f2 rm ct x with
    | Some (k, y) => Some (sincosf_poly rm is_sin k y)
    | None => None
    end
  else if 0x7f800000 <=? x_abs then
    if fp_is_signaling_nan F32 x then Some (qnan F32)
    else Some (f_add F32 rm x (qnan F32))
  else
    let '(k, yd) := payne_hanek_reduce rm (f_cast F32 F64 rm x) in
    Some (sincosf_poly rm is_sin k (f_cast F64 F32 rm yd)).

(** ** double *)
(** sincos_double_data.hpp:23-26 *)
Definition sin_k_d : list Z :=
  let a := lit 0x187de2a6aea963 (-54) in let b := lit 0x16a09e667f3bcd (-53) in let c := lit 0x1d906bcf328d46 (-53) in
  let a' := lit (-0x187de2a6aea963) (-54) in let b' := lit (-0x16a09e667f3bcd) (-53) in let c' := lit (-0x1d906bcf328d46) (-53) in
  [ lit 0 0; a; b; c; lit 1 0; c; b; a; lit 0 0; a'; b'; c'; lit (-1) 0; c'; b'; a' ].
(** sincos_double_data.hpp:31-34 *)
Definition mpi_d0 : Z := lit (-0x1921fb544) (-34).
Definition mpi_d1 : Z := lit (-0x10b4611a8) (-68).
Definition mpi_d2 : Z := lit 0x1d9cceba3f91f2 (-120).
Definition one_over_pi_d : Z := lit 0x145f306dc9c883 (-51).
(** sincos_double_data.hpp:38-45 SIN_POLY[1..5] and 48-50 COS_POLY[1..5] *)
Definition sin_poly : list Z :=
  [ lit (-0x15555555555555) (-55); lit 0x11111111111111 (-59); lit (-0x1a01a01a01a01a) (-65); lit 0x171de3a556c734 (-71); lit (-0x1ae64567f544e4) (-78) ].
Definition cos_poly : list Z :=
  [ lit (-1) (-1); lit 0x155555555554f (-53); lit (-0x16c16c16b84c68) (-62); lit 0x1a019f88d4441e (-68); lit (-0x127a8a5f9090d7) (-74) ].

(** sincos_double_impl.hpp:89-97: c0 + x (c1 + x (...)) by multiply_add. *)
Fixpoint horner_ma (F : fmt) (rm : rmode) (x : Z) (cs : list Z) : Z :=
  match cs with
  | [] => f_zero F false
  | [c] => c
  | c :: cs => f_add F rm (f_mul F rm x (horner_ma F rm x cs)) c
  end.

(** sincos_double_impl.hpp:81-109; the Horner steps are [horner_ma]. *)
Definition sincosd_poly (rm : rmode) (is_sin : bool) (k y : Z) : Z :=
  let sin_k := at_ sin_k_d (Z.land k 15) in
  let cos_k := at_ sin_k_d (Z.land (wrap 32 (k + 4)) 15) in
  let y_sq := f_mul F64 rm y y in
  let sp := horner_ma F64 rm y_sq sin_poly in
  let cp := horner_ma F64 rm y_sq cos_poly in
  let y3 := f_mul F64 rm y_sq y in
  let c1 := f_add F64 rm (f_mul F64 rm y_sq cp) (lit 1 0) in
  let s1 := f_add F64 rm (f_mul F64 rm y3 sp) y in
  if is_sin then f_add F64 rm (f_mul F64 rm cos_k s1) (f_mul F64 rm sin_k c1)
  else f_add F64 rm (f_mul F64 rm cos_k c1) (f_mul F64 rm (f_neg F64 sin_k) s1).

(** sincos_double_impl.hpp:46-110 sincos_eval *)
Definition sincosd_eval (rm : rmode) (ct is_sin : bool) (x : Z) : option Z :=
  let x_abs := Z.land x 0x7fffffffffffffff in
  if x_abs =? 0 then Some (if is_sin then x else lit 1 0)
  else if x_abs <? 0x4130000000000000 then
    match range_reduction_small F64 one_over_pi_d mpi_d0 mpi_d1 mpi_d2 rm ct x with
    | Some (k, y) => Some (sincosd_poly rm is_sin k y)
    | None => None
    end
  else if 0x7ff0000000000000 <=? x_abs then
    if fp_is_signaling_nan F64 x then Some (qnan F64)
    else Some (f_add F64 rm x (qnan F64))
  else let '(k, y) := payne_hanek_reduce rm x in Some (sincosd_poly rm is_sin k y).

(** internal/math/generic/func/trig/sin_gen.hpp:20-29 and cos_gen.hpp:20-29 for float and double. *)
Definition cc_sinf (rm : rmode) (ct : bool) := sincosf_eval rm ct true.
Definition cc_cosf (rm : rmode) (ct : bool) := sincosf_eval rm ct false.
Definition cc_sin (rm : rmode) (ct : bool) := sincosd_eval rm ct true.
Definition cc_cos (rm : rmode) (ct : bool) := sincosd_eval rm ct false.
(** internal/math/generic/func/trig/tan_gen.hpp:21-30 *)
Definition tan_gen (F : fmt) (rm : rmode) (sin_gen cos_gen : Z -> option Z) (num : Z) : option Z :=
  match sin_gen num, cos_gen num with
  | Some s, Some c => if f_eq F c (f_zero F false) then Some (qnan F) else Some (f_div F rm s c)
  | _, _ => None
  end.
Definition cc_tanf (rm : rmode) (ct : bool) := tan_gen F32 rm (cc_sinf rm ct) (cc_cosf rm ct).
Definition cc_tan (rm : rmode) (ct : bool) := tan_gen F64 rm (cc_sin rm ct) (cc_cos rm ct).
