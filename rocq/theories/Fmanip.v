(** * Model of math/fmanip: frexp, ilogb, logb, modf, nextafter, scalbn, ldexp

    [rm] is the rounding mode of the processor (or of the constant evaluator).
    The errno and fenv effects are not modelled. *)
From Coq Require Import ZArith Bool.
From Verif Require Import MachInt Fmt FOps FPBits Compare Nearest.
Open Scope Z_scope.

Section Fmanip.
Context (F : fmt) (rm : rmode).

(** generic/func/fmanip/impl/frexp_impl.hpp:36-46 the loop
    [while (bits.is_subnormal()) { value *= 2; --exponent; }]; out of fuel is [None]. *)
Fixpoint frexp_loop (fuel : nat) (value exponent : Z) : option (Z * Z) :=
  if negb (fp_is_subnormal F value) then Some (value, exponent)
  else match fuel with
  | O => None
  | S f => frexp_loop f (f_mul F rm value (f_pow2 F false 1)) (exponent - 1)
  end.
(** frexp_impl.hpp:18-51 [frexp_impl(x, exp)]: (result, exp); [exp0] is the
    caller's value of [exp], left alone for infinities and NaN. *)
Definition cc_frexp (x exp0 : Z) : option (Z * Z) :=
  if fp_is_zero F x then Some (x, 0)
  else if fp_is_inf_or_nan F x then Some (x, exp0)
  else
    do r <- (if fp_is_subnormal F x
             then frexp_loop (Z.to_nat (fl F)) x (get_explicit_exponent F x)
             else Some (x, get_exponent F x));
    Some (set_biased_exponent_pub F (fst r) (bias F - 1), snd r + 1).

(** impl/ilogb_impl.hpp:42-74 [ilogb_impl]; [ilogb0] and [ilogbnan] are FP_ILOGB0
    and FP_ILOGBNAN. *)
Definition cc_ilogb (ilogb0 ilogbnan x : Z) : option Z :=
  if fp_is_nan F x then Some ilogbnan
  else if fp_is_inf F x then Some (2 ^ 31 - 1)
  else if fp_is_zero F x then Some ilogb0
  else do r <- cc_frexp x 0; Some (snd r - 1).

(** impl/logb_impl.hpp:21-40 [logb_impl].  The value of FP_ILOGB0 is immaterial. *)
Definition cc_logb (x : Z) : option Z :=
  if fp_is_nan F x then Some x
  else if fp_is_inf F x then Some (fp_inf F false)
  else if fp_is_zero F x then Some (f_neg F (fp_inf F false))
  else do e <- cc_ilogb 0 0 x; Some (f_of_Z F rm e).

(** math/fmanip/impl/modf_impl.hpp:20-50 [modf_impl]: (returned value, *iptr). *)
Definition cc_modf (x : Z) : Z * Z :=
  if cc_isnan F x then (x, x)
  else if cc_isinf F x then (fp_zero F (fp_sign F x), x)
  else if f_eq F x 0 then (x, x)
  else
    let iptr := cc_trunc F x in
    let fractional := f_sub F rm x iptr in
    if f_eq F fractional 0 then (fp_zero F (fp_sign F x), iptr) else (fractional, iptr).

(** math/fmanip/impl/scalbn_double_impl.hpp:24-55 and scalbn_float_impl.hpp:26-57:
    the same text with 1023, 1022, 53, 52 and 127, 126, 24, 23.  [double_t] and
    [float_t] are taken to be double and float (FLT_EVAL_METHOD 0). *)
Definition cc_scalbn (arg exp : Z) : Z :=
  let big := f_pow2 F false (bias F) in
  let tiny := f_pow2 F false (1 - bias F + prec F) in
  let '(tmp, exp) :=
    if bias F <? exp then
      let tmp := f_mul F rm arg big in
      let exp := exp - bias F in
      if bias F <? exp then (f_mul F rm tmp big, Z.min (exp - bias F) (bias F)) else (tmp, exp)
    else if exp <? 1 - bias F then
      let tmp := f_mul F rm arg tiny in
      let exp := exp + (bias F - 1 - prec F) in
      if exp <? 1 - bias F then (f_mul F rm tmp tiny, Z.max (exp + (bias F - 1 - prec F)) (1 - bias F)) else (tmp, exp)
    else (arg, exp) in
  let bits := wrap (width F) (Z.shiftl (wrap (width F) (bias F + exp)) (fl F)) in
  f_mul F rm tmp bits.
(** The overloads taking [long]: scalbn_double_impl.hpp:61-62,
    scalbn_float_impl.hpp:63-64: the exponent is cast to int. *)
Definition cc_scalbn_long (arg exp : Z) : Z := cc_scalbn arg (to_signed 32 (wrap 32 exp)).
End Fmanip.

(** math/fmanip/modf.hpp:42-49 and generic modf_gen.hpp:24-30: constant-evaluated
    modf of any type [F] but float and double goes through double. *)
Definition cc_modf_wide (F : fmt) (rm : rmode) (x : Z) : Z * Z :=
  let '(fractional, integer_part) := cc_modf binary64 rm (f_cast F binary64 rm x) in
  (f_cast binary64 F rm fractional, f_cast binary64 F rm integer_part).
(** ilogb_gen.hpp:20-28: the same for ilogb. *)
Definition cc_ilogb_wide (F : fmt) (rm : rmode) (ilogb0 ilogbnan x : Z) : option Z :=
  cc_ilogb binary64 rm ilogb0 ilogbnan (f_cast F binary64 rm x).

(** generic/func/fmanip/nextafter_gen.hpp:20-55 [nextafter_gen<TFrom, TTo>]; [F] is
    TFrom, [G] is TTo.  nextafter is the case [G = F], nexttoward has [G] long double. *)
Definition cc_nextafter (F G : fmt) (rm : rmode) (from to : Z) : Z :=
  if fp_is_nan F from then from
  else if fp_is_nan G to then f_cast G F rm to
  else if f_eq G (f_cast F G rm from) to then f_cast G F rm to
  else if f_ne F from 0 then
    if Bool.eqb (f_lt G (f_cast F G rm from) to) (f_gt F from 0)
    then wrap (width F) (uintval F from + 1)
    else wrap (width F) (uintval F from - 1)
  else fp_min_subnormal F (fp_sign G to).
(** math/fmanip/nextup.hpp:20-22, nextdown.hpp:20-22. *)
Definition cc_nextup (F : fmt) (rm : rmode) (x : Z) : Z := cc_nextafter F F rm x (f_inf F false).
Definition cc_nextdown (F : fmt) (rm : rmode) (x : Z) : Z := cc_nextafter F F rm x (f_inf F true).

(** types/normalized_float.hpp:27-42 [NormalizedFloat]: sign, exponent, mantissa.
    [exponent] is a 32-bit integer; the values below stay within its range. *)
Record nfloat := NF { nf_sign : bool; nf_exp : Z; nf_man : Z }.
Section NFloat.
Context (F : fmt).
(** normalized_float.hpp:89-94 [evaluate_normalization_shift]; the loop counter is
    bounded by the fraction length. *)
Fixpoint norm_shift_loop (k : nat) (m shift : Z) : Z :=
  match k with
  | O => shift
  | S k' => if negb (Z.land (2 ^ fl F) m =? 0) then shift
            else norm_shift_loop k' (wrap (width F) (Z.shiftl m 1)) (shift + 1)
  end.
Definition norm_shift (m : Z) : Z := norm_shift_loop (Z.to_nat (fl F)) m 0.
(** normalized_float.hpp:44-51 the constructor from sign, exponent, mantissa. *)
Definition nf_make (s : bool) (e m : Z) : nfloat :=
  if 2 ^ fl F <=? m then NF s e m
  else let sh := norm_shift m in NF s (e - sh) (wrap (width F) (Z.shiftl m sh)).
(** normalized_float.hpp:96-127 [init_from_bits], [init_from_bits_ieee]. *)
Definition nf_of (bits : Z) : nfloat :=
  if fp_is_inf_or_nan F bits || fp_is_zero F bits then NF (fp_sign F bits) 0 0
  else if fp_is_subnormal F bits then
    let shift := norm_shift (get_mantissa F bits) in
    NF (fp_sign F bits) (1 - bias F - shift) (wrap (width F) (Z.shiftl (get_mantissa F bits) shift))
  else NF (fp_sign F bits) (get_biased_exponent F bits - bias F) (Z.lor (2 ^ fl F) (get_mantissa F bits)).
(** normalized_float.hpp:57-70 [cmp]. *)
Definition nf_cmp (a b : nfloat) : Z :=
  let result := if nf_sign a then -1 else 1 in
  if negb (Bool.eqb (nf_sign a) (nf_sign b)) then result
  else if nf_exp b <? nf_exp a then result
  else if nf_exp a =? nf_exp b then
    if nf_man b <? nf_man a then result else if nf_man a =? nf_man b then 0 else - result
  else - result.
(** normalized_float.hpp:72-77 [mul2]. *)
Definition nf_mul2 (a : nfloat) (e : Z) : nfloat := NF (nf_sign a) (nf_exp a + e) (nf_man a).
(** normalized_float.hpp:160-196 [convert_ieee]. *)
Definition nf_to (a : nfloat) : Z :=
  let biased := nf_exp a + bias F in
  if expmax F - 1 <? biased then fp_inf F (nf_sign a)
  else
    let result := set_sign F 0 (nf_sign a) in
    let subnormal_exponent := 1 - bias F in
    if nf_exp a <? subnormal_exponent then
      let shift := wrap 32 (subnormal_exponent - nf_exp a) in
      if shift <=? fl F + 1 then
        let shift_out_mask := wrap (width F) (wrap (width F) (Z.shiftl 1 shift) - 1) in
        let shift_out_value := Z.land (nf_man a) shift_out_mask in
        let halfway_value := wrap (width F) (Z.shiftl 1 (shift - 1)) in
        let result := set_biased_exponent_pub F result 0 in
        let result := set_mantissa F result (Z.shiftr (nf_man a) shift) in
        let new_mantissa := get_mantissa F result in
        let new_mantissa :=
          if halfway_value <? shift_out_value then wrap (width F) (new_mantissa + 1)
          else if shift_out_value =? halfway_value then
            if negb (Z.land (get_mantissa F result) 1 =? 0) then wrap (width F) (new_mantissa + 1) else new_mantissa
          else new_mantissa in
        let result := set_mantissa F result new_mantissa in
        if new_mantissa =? 2 ^ fl F then set_biased_exponent_pub F result 1 else result
      else result
    else
      let result := set_biased_exponent_pub F result (wrap (width F) biased) in
      set_mantissa F result (nf_man a).

(** support/helpers/internal_ldexp.hpp:27-79 [internal_ldexp(x, exp)]; [dm] is
    get_rounding_mode(). *)
Definition cc_ldexp (dm : rmode) (x exp : Z) : Z :=
  if (exp =? 0) || fp_is_zero F x || fp_is_inf_or_nan F x then x
  else
    let exponent_limit := expmax F + fl F + 1 in
    let s := fp_sign F x in
    if exponent_limit <? exp then
      if (negb s && (match dm with RDN => true | _ => false end)) || (s && (match dm with RUP => true | _ => false end))
         || (match dm with RZR => true | _ => false end)
      then fp_max_normal F s else fp_inf F s
    else if exp <? - exponent_limit then
      if (negb s && (match dm with RUP => true | _ => false end)) || (s && (match dm with RDN => true | _ => false end))
      then fp_min_subnormal F s else fp_zero F s
    else
      nf_to (nf_mul2 (nf_of x) exp).
End NFloat.

(** frexp_gen.hpp:18-28 [frexp_gen] for the types other than float and double. *)
Definition cc_frexp_wide (F : fmt) (rm : rmode) (x exp0 : Z) : option (Z * Z) :=
  do r <- cc_frexp binary64 rm (f_cast F binary64 rm x) exp0;
  Some (f_cast binary64 F rm (fst r), snd r).
