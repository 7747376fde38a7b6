(** * Model of generic/func/power/sqrt_gen.hpp

    [dm] is the mode reported by [get_rounding_mode()].  The storage type has
    [w] bits; every operation on it wraps modulo [2^w].  Exponents are [int]s
    that never leave the 32-bit range for the formats considered. *)
From Coq Require Import ZArith Bool.
From Verif Require Import MachInt Bits Fmt FOps FPBits.
Open Scope Z_scope.

Section Loop.
Context (w : Z).
(** sqrt_gen.hpp:193-204 (also 101-120) the digit loop: [bit] is [current_bit],
    the state is [(y, r)].  Out of fuel is [None]. *)
Fixpoint sqrt_loop (fuel : nat) (bit y r : Z) : option (Z * Z) :=
  if bit =? 0 then Some (y, r)
  else match fuel with
  | O => None
  | S f =>
      let r := wrap w (Z.shiftl r 1) in
      let tmp := wrap w (wrap w (Z.shiftl y 1) + bit) in
      if tmp <=? r
      then sqrt_loop f (Z.shiftr bit 1) (wrap w (y + bit)) (wrap w (r - tmp))
      else sqrt_loop f (Z.shiftr bit 1) y r
  end.
(** sqrt_gen.hpp:206-215 (also 122-130) one more digit: [(round_bit, r)]. *)
Definition sqrt_round_digit (y r : Z) : bool * Z :=
  let r := wrap w (Z.shiftl r 2) in
  let tmp := wrap w (wrap w (Z.shiftl y 2) + 1) in
  if tmp <=? r then (true, wrap w (r - tmp)) else (false, r).
(** sqrt_gen.hpp:223-235 (also 137-150) the final rounding of [y]. *)
Definition sqrt_round (dm : rmode) (y r : Z) (round_bit : bool) : Z :=
  let lsb := negb (Z.land y 1 =? 0) in
  match dm with
  | RNE => if round_bit && (lsb || negb (r =? 0)) then wrap w (y + 1) else y
  | RUP => if round_bit || negb (r =? 0) then wrap w (y + 1) else y
  | _ => y
  end.
End Loop.

Section Sqrt.
Context (F : fmt) (dm : rmode).
Notation w := (width F).

(** sqrt_gen.hpp:42-48 [normalize]: the new (exponent, mantissa). *)
Definition sqrt_normalize (exponent mantissa : Z) : option (Z * Z) :=
  do c <- countl_zero w mantissa;
  let shift := c - (w - 1 - fl F) in
  do m <- ushl w mantissa shift;
  Some (exponent - shift, m).

(** sqrt_gen.hpp:167-239 [sqrt_calc_bits].  [x_exp & 1] is the parity of
    [x_exp], [x_exp >> 1] its floored half (two's complement). *)
Definition sqrt_calc_bits (bits : Z) : option Z :=
  let one := wrap w (Z.shiftl 1 (fl F)) in
  let x_exp := get_exponent F bits in
  let x_mant := get_mantissa F bits in
  do p <- (if fp_is_subnormal F bits then sqrt_normalize (x_exp + 1) x_mant
           else Some (x_exp, Z.lor x_mant one));
  let (x_exp, x_mant) := p in
  let (x_exp, x_mant) :=
    if Z.odd x_exp then (x_exp - 1, wrap w (Z.shiftl x_mant 1)) else (x_exp, x_mant) in
  do yr <- sqrt_loop w (Z.to_nat (fl F)) (Z.shiftr one 1) one (wrap w (x_mant - one));
  let (y, r) := yr in
  let (round_bit, r) := sqrt_round_digit w y r in
  let x_exp := Z.shiftr x_exp 1 + bias F in
  let y := Z.lor (wrap w (y - one)) (wrap w (Z.shiftl (wrap w x_exp) (fl F))) in
  Some (sqrt_round w dm y r round_bit).

(** sqrt_gen.hpp:243-265 [sqrt_impl] (and 269-271 [sqrt_gen]). *)
Definition cc_sqrt (x : Z) : option Z :=
  if (uintval F x =? uintval F (fp_inf F false)) || fp_is_zero F x || fp_is_nan F x then Some x
  else if fp_sign F x then Some (f_neg F (fp_quiet_nan F false 0))
  else sqrt_calc_bits x.
End Sqrt.

(** ** The x87 extended format: sign, 15-bit exponent field, explicit integer
    bit, 63-bit fraction.  The fields are kept apart; [FPBits<long double>]
    extracts them from a 128-bit word by masks. *)
Record x87 := X87 { xs : bool; xe : Z; xi : bool; xf : Z }.
Definition x87_frac : Z := 63.
Definition x87_bias : Z := 16383.

(** fp_bits.hpp:492-522: [is_zero], [is_inf], [is_nan]. *)
Definition x87_is_zero (x : x87) : bool := (xe x =? 0) && negb (xi x) && (xf x =? 0).
Definition x87_is_inf (x : x87) : bool := (xe x =? 32767) && xi x && (xf x =? 0).
Definition x87_is_nan (x : x87) : bool :=
  if xe x =? 32767 then negb (x87_is_inf x)
  else if negb (xe x =? 0) then negb (xi x) else false.
(** fp_bits.hpp:538 [is_subnormal], 693-699 [get_explicit_exponent]. *)
Definition x87_is_subnormal (x : x87) : bool := xe x =? 0.
Definition x87_explicit_exponent (x : x87) : Z :=
  let e := if x87_is_zero x then 0 else xe x - x87_bias in
  if e =? - x87_bias then 1 - x87_bias else e.

(** sqrt_gen.hpp:74-163 [sqrt_calc_80bits]; the storage is [unsigned __int128].
    [normalize<long double>] (55-62) counts in 64 bits.  The result is built from
    a zero, so its sign is positive. *)
Definition x87_qnan : x87 := X87 false 32767 true (2 ^ 62).
Definition sqrt_calc_80bits (dm : rmode) (x : x87) : option x87 :=
  let one := 2 ^ 63 in
  if (negb (xs x) && x87_is_inf x) || x87_is_zero x || x87_is_nan x then Some x
  else if xs x then Some x87_qnan
  else
    let x_exp := x87_explicit_exponent x in
    let x_mant := xf x in
    do p <- (if xi x then Some (x_exp, Z.lor x_mant one)
             else if x87_is_subnormal x
             then do c <- countl_zero 64 (wrap 64 x_mant);
                  do m <- ushl 128 x_mant c; Some (x_exp - c, m)
             else Some (x_exp, x_mant));
    let (x_exp, x_mant) := p in
    let (x_exp, x_mant) :=
      if Z.odd x_exp then (x_exp - 1, wrap 128 (Z.shiftl x_mant 1)) else (x_exp, x_mant) in
    do yr <- sqrt_loop 128 63 (Z.shiftr one 1) one (wrap 128 (x_mant - one));
    let (y, r) := yr in
    let (round_bit, r) := sqrt_round_digit 128 y r in
    let x_exp := Z.shiftr x_exp 1 + x87_bias in
    let y := Z.lor y (wrap 128 (Z.shiftl x_exp 64)) in
    let y := sqrt_round 128 dm y r round_bit in
    Some (X87 false (x_exp mod 2 ^ 15) true (Z.land y (one - 1))).
