(** * Model of support/fp/ops/mul.hpp, add_or_sub.hpp and support/fp/cast.hpp

    [F] is InType, [G] is OutType.  [rm] is the mode of the floating-point
    instructions, used by [DyadicFloat::as]; [dm] is [fenv::get_rounding_mode()].
    The exceptions and errno are not modelled.  (dyadic_float.hpp:455 tests the
    run-time value [round_and_sticky] in an [if constexpr] when exceptions are
    requested, which only affects them.) *)
From Coq Require Import ZArith Bool.
From Verif Require Import MachInt Bits Fmt FOps FPBits Fma Basic Dyadic.
Open Scope Z_scope.

(** support/bits.hpp [bit_ceil] for a positive argument (theorem C02_bit_ceil). *)
Definition bit_ceil_z (v : Z) : Z := 2 ^ Z.log2_up v.

Section Ops.
Context (F G : fmt) (rm : rmode) (has_fma : bool).

(** [OutFPBits::quiet_nan(x_bits.sign(), x_bits.get_mantissa() >> (In - Out))]. *)
Definition narrow_nan (x : Z) : Z :=
  fp_quiet_nan G (fp_sign F x) (wrap (width G) (Z.shiftr (get_mantissa F x) (fl F - fl G))).
(** mul.hpp:52-68 and add_or_sub.hpp:51-70: the NaN branch. *)
Definition op_nan (x y : Z) : Z :=
  if fp_is_quiet_nan F x then narrow_nan x
  else if fp_is_quiet_nan F y then narrow_nan y
  else fp_quiet_nan G false 0.

(** mul.hpp:31-102 [mul]; DyadicFloat<Bits> with [n] words of [w] bits. *)
Definition op_mul (native : bool) (w : Z) (n : nat) (x y : Z) : Z :=
  let s := negb (Bool.eqb (fp_sign F x) (fp_sign F y)) in
  let B := w * Z.of_nat n in
  if fp_is_nan F x || fp_is_nan F y then op_nan x y
  else if fp_is_inf F x then (if fp_is_zero F y then fp_quiet_nan G false 0 else fp_inf G s)
  else if fp_is_inf F y then (if fp_is_zero F x then fp_quiet_nan G false 0 else fp_inf G s)
  else if fp_is_zero F x || fp_is_zero F y then fp_zero G s
  else fast_as G B rm has_fma (quick_mul native w n (dy_of F B x) (dy_of F B y)).

(** add_or_sub.hpp:95-99, 120-124: zero with the sign of the rounding mode. *)
Definition op_zero (dm : rmode) : Z := fp_zero G (match dm with RDN => true | _ => false end).
(** add_or_sub.hpp:102-114: [static_cast<OutType>] of [y], negated in a subtraction. *)
Definition op_pass (is_sub : bool) (y : Z) : Z := f_cast F G rm (if is_sub then f_neg F y else y).

(** add_or_sub.hpp:127-136 [result_sign]. *)
Definition as_sign (eff_add : bool) (x y : Z) : bool :=
  let x_abs := fp_abs F x in
  let y_abs := fp_abs F y in
  if f_gt F x_abs y_abs then fp_sign F x
  else if f_lt F x_abs y_abs then
    if eff_add then fp_sign F y else negb (fp_sign F y)
  else if eff_add then fp_sign F x else false.

(** add_or_sub.hpp:143-176: the mantissa of the result. *)
Definition as_mant (eff_add : bool) (max_bits min_bits : Z) : Z :=
  let W := width F in
  if fp_is_subnormal F max_bits then
    wrap W (Z.shiftl (if eff_add then wrap W (get_mantissa F max_bits + get_mantissa F min_bits)
                      else wrap W (get_mantissa F max_bits - get_mantissa F min_bits)) 3)
  else
    let max_mant := wrap W (Z.shiftl (get_explicit_mantissa F max_bits) 3) in
    let min_mant := wrap W (Z.shiftl (get_explicit_mantissa F min_bits) 3) in
    let alignment := get_biased_exponent F max_bits - get_biased_exponent F min_bits in
    let aligned := Z.shiftr min_mant (Z.min alignment (fl F + 4)) in
    let sticky :=
      if alignment <=? 3 then false
      else if alignment <=? fl F + 3 then negb (wrap W (Z.shiftl min_mant (W - alignment)) =? 0)
      else true in
    let m := Z.lor aligned (b2z sticky) in
    if eff_add then wrap W (max_mant + m) else wrap W (max_mant - m).

(** add_or_sub.hpp:30-181 [add_or_sub]. *)
Definition add_or_sub (dm : rmode) (is_sub : bool) (x y : Z) : Z :=
  let eff_add := negb (Bool.eqb (Bool.eqb (fp_sign F x) (fp_sign F y)) is_sub) in
  if fp_is_nan F x || fp_is_nan F y then op_nan x y
  else if fp_is_inf F x then
    if fp_is_inf F y
    then (if negb eff_add then fp_quiet_nan G false 0 else fp_inf G (fp_sign F x))
    else fp_inf G (fp_sign F x)
  else if fp_is_inf F y then fp_inf G (fp_sign F y)
  else if fp_is_zero F x then (if fp_is_zero F y then op_zero dm else op_pass is_sub y)
  else if fp_is_zero F y then op_pass is_sub y
  else if f_eq F (fp_abs F x) (fp_abs F y) && negb eff_add then op_zero dm
  else
    let max_bits := gen_max F (fp_abs F x) (fp_abs F y) in
    let min_bits := gen_min F (fp_abs F x) (fp_abs F y) in
    let B := bit_ceil_z (fl F + 4) in
    fast_as G B rm has_fma
      (dy_make B (as_sign eff_add x y) (get_exponent F max_bits - (fl F + 3)) (as_mant eff_add max_bits min_bits)).
(** ops/add.hpp:21-25 and ops/sub.hpp:21-25. *)
Definition op_add (dm : rmode) (x y : Z) : Z := add_or_sub dm false x y.
Definition op_sub (dm : rmode) (x y : Z) : Z := add_or_sub dm true x y.

(** cast.hpp:29-62 [cast]; [out_wider] is sizeof(OutType) >= sizeof(InType) for
    different types. *)
Definition op_cast (x : Z) : Z :=
  if width F <=? width G then f_cast F G rm x
  else if fp_is_nan F x then
    if fp_is_signaling_nan F x then fp_quiet_nan G false 0
    else fp_quiet_nan G (fp_sign F x)
           (wrap (width G) (if fl G <? fl F then Z.shiftr (get_mantissa F x) (fl F - fl G) else get_mantissa F x))
  else if fp_is_inf F x then fp_inf G (fp_sign F x)
  else
    let B := bit_ceil_z (Z.max (fl F) (fl G) + 1) in
    fast_as G B rm has_fma (dy_of F B x).
End Ops.
