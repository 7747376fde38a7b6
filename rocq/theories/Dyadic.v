(** * Model of types/dyadic_float.hpp

    [B] is the template parameter [Bits]; a mantissa [UInt<Bits>] is its integer
    value, every operation reduced modulo [2^B] (theorems C06-C15 prove that the
    multiword operations compute exactly that); [quick_mul] calls the multiword
    [quick_mul_hi] on the words.  A shift by at least the width is undefined
    behaviour ([None]): big_int.hpp:482 requires the offset to be below the width.
    Simplification: the [int] exponents are unbounded integers; the theorems are
    stated for exponents for which no [int] operation can overflow.
    [dm] is [fenv::get_rounding_mode()], [rm] the mode of the floating-point
    instructions. *)
From Coq Require Import ZArith Bool List.
From Verif Require Import MachInt Bits BigInt Fmt FOps FPBits Fma.
Import ListNotations.
Open Scope Z_scope.

(** dyadic_float.hpp:104-112: the members. *)
Record dyadic := Dyadic { dsign : bool; dexp : Z; dmant : Z }.

(** dyadic_float.hpp:52-73 [rounding_direction]. *)
Definition rounding_direction (dm : rmode) (B value rshift : Z) (s : bool) : option Z :=
  do low <- (if (0 <? rshift) && (rshift <? B) then ushl B value (B - rshift) else Some 0);
  if (rshift =? 0) || ((rshift <? B) && (low =? 0)) || ((B <=? rshift) && (value =? 0)) then Some 0
  else match dm with
  | RNE =>
      if (0 <? rshift) && (rshift <=? B) && Z.testbit value (rshift - 1) then
        let round_bit := if rshift <? B then Z.testbit value rshift else false in
        if round_bit then Some 1
        else do t <- ushl B value (B - rshift + 1); Some (if negb (t =? 0) then 1 else -1)
      else Some (-1)
  | RZR => Some (-1)
  | RDN => Some (if s && ((rshift <? B) && negb (low =? 0)) then 1 else -1)
  | RUP => Some (if negb s && ((rshift <? B) && negb (low =? 0)) then 1 else -1)
  end.

(** dyadic_float.hpp:137-146 [normalize]; [countl_zero] of a non-zero
    mantissa is [B - 1 - log2] (theorem C15_counts). *)
Definition normalize (B : Z) (d : dyadic) : dyadic :=
  if dmant d =? 0 then d
  else let n := B - 1 - Z.log2 (dmant d) in
       Dyadic (dsign d) (dexp d - n) (wrap B (Z.shiftl (dmant d) n)).
(** dyadic_float.hpp:127 the three-argument constructor. *)
Definition dy_make (B : Z) (s : bool) (e m : Z) : dyadic := normalize B (Dyadic s e m).
(** dyadic_float.hpp:116-125 the constructor from a floating-point value. *)
Definition dy_of (F : fmt) (B bits : Z) : dyadic :=
  normalize B (Dyadic (fp_sign F bits) (get_explicit_exponent F bits - fl F)
                      (wrap B (get_explicit_mantissa F bits))).
(** dyadic_float.hpp:157-170 [shift_left] and 181-194 [shift_right]. *)
Definition dy_shl (B : Z) (d : dyadic) (n : Z) : dyadic :=
  if n <? B then Dyadic (dsign d) (dexp d - n) (wrap B (Z.shiftl (dmant d) n))
  else Dyadic (dsign d) 0 0.
Definition dy_shr (B : Z) (d : dyadic) (n : Z) : dyadic :=
  if n <? B then Dyadic (dsign d) (dexp d + n) (Z.shiftr (dmant d) n)
  else Dyadic (dsign d) 0 0.
(** dyadic_float.hpp:201 [get_unbiased_exponent]. *)
Definition get_unbiased_exponent (B : Z) (d : dyadic) : Z := dexp d + (B - 1).

(** dyadic_float.hpp:203-217 [round<InputBits>]. *)
Definition dy_round (dm : rmode) (B IB : Z) (s : bool) (e m rshift : Z) : option dyadic :=
  do q <- ushr IB m rshift;
  do dir <- rounding_direction dm IB m rshift s;
  let rm := wrap B q in
  Some (if 0 <? dir then
          let rm := wrap B (rm + 1) in
          if rm =? 0 then dy_make B s (e + 1) (Z.lor rm (2 ^ (B - 1))) else dy_make B s e rm
        else dy_make B s e rm).

(** The exceptions passed to [raise_except_if_required]. *)
Record excepts := Excepts { ex_inexact : bool; ex_overflow : bool; ex_underflow : bool }.
Definition no_excepts := Excepts false false false.

Section As.
Context (F : fmt) (B : Z).

(** dyadic_float.hpp:266-303 of [generic_as]:
    (biased exponent, mantissa, round, sticky, underflow). *)
Definition ga_split (d : dyadic) : option (Z * Z * bool * bool * bool) :=
  let ue := get_unbiased_exponent B d in
  if ue <? - bias F - fl F then Some (0, 0, false, true, true)
  else if ue =? - bias F - fl F then
    do one <- ushl B 1 (B - 1);
    Some (0, 0, true, negb (Z.land (dmant d) (wrap B (one - 1)) =? 0), true)
  else
    let sub := ue <? 1 - bias F in
    let extra := (B - 1 - fl F) + (if sub then 1 - bias F - ue else 0) in
    let be := if sub then 0 else wrap (width F) (ue + bias F) in
    do round_mask <- ushl B 1 (extra - 1);
    do q <- ushr B (dmant d) extra;
    Some (be, wrap (width F) q, negb (Z.land (dmant d) round_mask =? 0),
          negb (Z.land (dmant d) (wrap B (round_mask - 1)) =? 0), sub).
(** dyadic_float.hpp:219-330 [generic_as<T, true>] with the exceptions it raises;
    the switch of lines 241-253 is the same as fma.hpp:264-291. *)
Definition generic_as (dm : rmode) (d : dyadic) : option (Z * excepts) :=
  if dmant d =? 0 then Some (fp_zero F (dsign d), no_excepts)
  else
    let ue := get_unbiased_exponent B d in
    if expmax F <=? ue + bias F then Some (rn_overflow F dm (dsign d), Excepts true true false)
    else
      do r <- ga_split d;
      let '(be, om, round, sticky, underflow) := r in
      let lsb := negb (Z.land om 1 =? 0) in
      let result := uintval F (create_value F (dsign d) be om) in
      let incr := wrap (width F) (result + 1) in
      let s := dsign d in
      let result :=
        match dm with
        | RNE => if round && (lsb || sticky) then incr else result
        | RDN => if s && (round || sticky) then incr else result
        | RUP => if negb s && (round || sticky) then incr else result
        | RZR => result
        end in
      Some (result,
        if round || sticky
        then if fp_is_inf F result then Excepts true true false else Excepts true false underflow
        else no_excepts).

(** support/multiply_add.hpp:20-60: an fma instruction when there is one,
    [x * y + z] otherwise. *)
Definition multiply_add (rm : rmode) (has_fma : bool) (x y z : Z) : Z :=
  if has_fma then f_fma F rm x y z else f_add F rm (f_mul F rm x y) z.

(** dyadic_float.hpp:356-467 [fast_as<T, false>] and 485-499 [as]/[operator T];
    [implicit_mask] is 0 for the formats with an implicit leading bit. *)
Definition fast_as (rm : rmode) (has_fma : bool) (d : dyadic) : Z :=
  if dmant d =? 0 then fp_zero F (dsign d)
  else
    let precision := fl F + 1 in
    let implicit_mask := significand_mask F - fraction_mask F in
    let exp_hi := dexp d + (B - 1 + bias F) in
    if 2 * bias F <? exp_hi then
      let d_hi := create_value F (dsign d) (2 * bias F) implicit_mask in
      f_mul F rm (f_of_Z F rm 2) d_hi
    else
      let denorm := exp_hi <=? 0 in
      let shift := if denorm then wrap 32 (wrap 32 (B - precision) + wrap 32 (1 - exp_hi)) else wrap 32 (B - precision) in
      let exp_hi := if denorm then bias F else exp_hi in
      let exp_lo := exp_hi - precision - 1 in
      let m_hi := if B <=? shift then 0 else Z.shiftr (dmant d) shift in
      let d_hi := create_value F (dsign d) exp_hi
                    (Z.lor (Z.land (wrap (width F) m_hi) (significand_mask F)) implicit_mask) in
      let sm1 := wrap 32 (shift - 1) in
      let round_mask := if B <=? sm1 then 0 else wrap B (Z.shiftl 1 sm1) in
      let sticky_mask := wrap B (round_mask - 1) in
      let round_bit := negb (Z.land (dmant d) round_mask =? 0) in
      let sticky_bit := negb (Z.land (dmant d) sticky_mask =? 0) in
      let rs := b2z round_bit * 2 + b2z sticky_bit in
      if exp_lo <=? 0 then
        let up := 1 - exp_lo in
        let scale_up := create_value F false (bias F + up) implicit_mask in
        let scale_down := create_value F false (bias F - up) implicit_mask in
        let d_lo := create_value F (dsign d) (exp_lo + up) implicit_mask in
        f_mul F rm (multiply_add rm has_fma d_lo (f_of_Z F rm rs) (f_mul F rm d_hi scale_up)) scale_down
      else
        let d_lo := create_value F (dsign d) exp_lo implicit_mask in
        let r := multiply_add rm has_fma d_lo (f_of_Z F rm rs) d_hi in
        if denorm then
          let clear_exp := wrap (width F) (Z.shiftl exp_hi (fl F)) in
          let r_bits := wrap (width F) (uintval F r - clear_exp) in
          if Z.land r_bits (exponent_mask F) =? 0 then wrap (width F) (r_bits - implicit_mask) else r_bits
        else r.
End As.

(** [(~x) + 1] on UInt<B>. *)
Definition mneg (B x : Z) : Z := wrap B (unot B x + 1).
(** dyadic_float.hpp:508-523 [as_mantissa_type]. *)
Definition as_mantissa_type (B : Z) (d : dyadic) : option Z :=
  if dmant d =? 0 then Some 0
  else
    do v <- (if 0 <? dexp d then ushl B (dmant d) (dexp d) else ushr B (dmant d) (- dexp d));
    Some (if dsign d then mneg B v else v).
(** dyadic_float.hpp:525-552 [as_mantissa_type_rounded]: (value, round_dir). *)
Definition as_mantissa_type_rounded (dm : rmode) (B : Z) (d : dyadic) : option (Z * Z) :=
  if dmant d =? 0 then Some (0, 0)
  else
    do r <- (if 0 <? dexp d then do v <- ushl B (dmant d) (dexp d); Some (v, 0)
             else if dexp d <? 0 then
               let shift := - dexp d in
               do v <- (if B <=? shift then Some 0 else ushr B (dmant d) shift);
               do dir <- rounding_direction dm B (dmant d) shift (dsign d);
               Some (if 0 <? dir then wrap B (v + 1) else v, dir)
             else Some (dmant d, 0));
    let (v, dir) := r in Some (if dsign d then mneg B v else v, dir).

(** dyadic_float.hpp:554 [operator-]. *)
Definition dy_neg (B : Z) (d : dyadic) : dyadic := dy_make B (negb (dsign d)) (dexp d) (dmant d).

(** dyadic_float.hpp:583-628 [quick_add]. *)
Definition quick_add (B : Z) (a b : dyadic) : dyadic :=
  if dmant a =? 0 then b
  else if dmant b =? 0 then a
  else
    let '(a, b) :=
      if dexp b <? dexp a then (a, dy_shr B b (dexp a - dexp b))
      else if dexp a <? dexp b then (dy_shr B a (dexp b - dexp a), b) else (a, b) in
    if Bool.eqb (dsign a) (dsign b) then
      let sum := dmant a + dmant b in
      let r := Dyadic (dsign a) (dexp a) (wrap B sum) in
      if 2 ^ B <=? sum then
        let r := dy_shr B r 1 in Dyadic (dsign r) (dexp r) (Z.lor (dmant r) (2 ^ (B - 1)))
      else r
    else if dmant b <=? dmant a
    then normalize B (Dyadic (dsign a) (dexp a) (wrap B (dmant a - dmant b)))
    else normalize B (Dyadic (dsign b) (dexp b) (wrap B (dmant b - dmant a))).
(** dyadic_float.hpp:743-745 [quick_sub]. *)
Definition quick_sub (B : Z) (a b : dyadic) : dyadic := quick_add B a (dy_neg B b).

(** dyadic_float.hpp:653-676 [quick_mul] on [n] words of [w] bits. *)
Definition quick_mul (native : bool) (w : Z) (n : nat) (a b : dyadic) : dyadic :=
  let B := w * Z.of_nat n in
  let s := negb (Bool.eqb (dsign a) (dsign b)) in
  let e := dexp a + dexp b + B in
  if negb ((dmant a =? 0) || (dmant b =? 0)) then
    let v := BigInt.quick_mul_hi native w (words_of w n (dmant a)) (words_of w n (dmant b)) in
    let r := Dyadic s e (bval w v) in
    if Z.shiftr (wget v (n - 1)) (w - 1) =? 0 then dy_shl B r 1 else r
  else Dyadic s e 0.
(** dyadic_float.hpp:691-693 [multiply_add]. *)
Definition dy_multiply_add native w n (a b c : dyadic) : dyadic :=
  quick_add (w * Z.of_nat n) c (quick_mul native w n a b).
(** dyadic_float.hpp:712-718 the loop of [pow_n]; [power] is a uint32_t, so 32
    iterations are enough. *)
Fixpoint dy_pow_loop (fuel : nat) native w n (result cur : dyadic) (power : Z) : option dyadic :=
  match fuel with
  | O => None
  | S f =>
      if power <=? 0 then Some result
      else
        let result := if 0 <? power mod 2 then quick_mul native w n result cur else result in
        dy_pow_loop f native w n result (quick_mul native w n cur cur) (Z.shiftr power 1)
  end.
(** dyadic_float.hpp:706-720 [pow_n]; [result = 1.0] is the constructor from
    the double 1.0. *)
Definition dy_pow_n native w n (a : dyadic) (power : Z) : option dyadic :=
  dy_pow_loop 33 native w n (dy_of binary64 (w * Z.of_nat n) (1023 * 2 ^ 52)) a power.
(** dyadic_float.hpp:735-741 [mul_pow_2]. *)
Definition mul_pow_2 (a : dyadic) (k : Z) : dyadic := Dyadic (dsign a) (dexp a + k) (dmant a).

(** dyadic_float.hpp:747-762 [rounded_mul]. *)
Definition rounded_mul (dm : rmode) (B : Z) (a b : dyadic) : option dyadic :=
  let s := negb (Bool.eqb (dsign a) (dsign b)) in
  let e := dexp a + dexp b + B in
  let product := wrap (2 * B) (dmant a * dmant b) in
  if Z.testbit product (2 * B - 1) then dy_round dm B (2 * B) s e product B
  else dy_round dm B (2 * B) s (e - 1) (wrap (2 * B) (Z.shiftl product 1)) B.

(** dyadic_float.hpp:782-806 [rounded_div].  UInt division by zero leaves the
    dividend and has no remainder (theorem C11_div_by_zero): [None]. *)
Definition rounded_div (dm : rmode) (B : Z) (a b : dyadic) : option dyadic :=
  let W := 2 * B + 64 in
  let s := negb (Bool.eqb (dsign a) (dsign b)) in
  if dmant a =? 0 then Some (dy_make B s 0 0)
  else if dmant b =? 0 then None
  else
    let unit := dmant a <? dmant b in
    let e := dexp a - dexp b - B + (if unit then 0 else 1) in
    do num <- ushl W (dmant a) (B - (if unit then 0 else 1) + 64);
    let q := num / dmant b in
    let q := if negb (num mod dmant b =? 0) then Z.lor q 1 else q in
    dy_round dm B W s e q 64.
