(** * Model of internal/support/bits.hpp, internal/support/ctz.hpp and
      internal/support/math_support.hpp (integer part)

    Only the portable in-tree code is modelled, not the compiler builtins that
    replace it where available.  [w] is [std::numeric_limits<T>::digits]. *)

From Coq Require Import ZArith Lia Bool List.
From Verif Require Import MachInt.
Import ListNotations.
Open Scope Z_scope.

(** bits.hpp:94-97 [has_single_bit]: [x && !(x & (x - 1))].  For types narrower
    than [int] the subtraction happens in [int]; the masked result is the same. *)
Definition has_single_bit (w x : Z) : bool :=
  negb (x =? 0) && (Z.land x (wrap w (x - 1)) =? 0).

(** bits.hpp:157-181 [rotr] (non-MSVC path).  [cnt] is a 32-bit [int]; the
    conversion to [unsigned int] is [wrap 32]; [cnt *= -1] is signed
    multiplication, undefined on INT_MIN. *)
Definition rotr (w t cnt : Z) : option Z :=
  if wrap 32 cnt mod w =? 0 then Some t
  else if cnt <? 0 then
    do c <- sarith 32 (cnt * -1);
    do a <- ushl w t (wrap 32 c mod w);
    do b <- ushr w t (w - wrap 32 c mod w);
    Some (Z.lor a b)
  else
    do a <- ushr w t (wrap 32 cnt mod w);
    do b <- ushl w t (w - wrap 32 cnt mod w);
    Some (Z.lor a b).

(** bits.hpp:187-200 [rotl]: [rotr(t, -cnt)]; the negation is signed. *)
Definition rotl (w t cnt : Z) : option Z :=
  do c <- sarith 32 (- cnt);
  rotr w t c.

(** bits.hpp:236-246 the bisection loop of [countr_zero] (identical code in
    ctz.hpp:28-44).  [fuel] bounds the number of iterations of
    [while (shift)]; running out of fuel is the outcome [None]. *)
Fixpoint countr_zero_loop (fuel : nat) (value zero_bits shift mask : Z) : option Z :=
  if shift =? 0 then Some zero_bits
  else match fuel with
  | O => None
  | S fuel' =>
      let hit := Z.land value mask =? 0 in
      let value := if hit then Z.shiftr value shift else value in
      let zero_bits := if hit then Z.lor zero_bits shift else zero_bits in
      let shift := Z.shiftr shift 1 in
      let mask := Z.shiftr mask shift in
      countr_zero_loop fuel' value zero_bits shift mask
  end.

(** bits.hpp:228-247 [countr_zero]; ctz.hpp:23-44 [generic_ctz]. *)
Definition countr_zero (w value : Z) : option Z :=
  if value =? 0 then Some w
  else if negb (Z.land value 1 =? 0) then Some 0
  else
    let shift := Z.shiftr w 1 in
    let mask := Z.shiftr (2 ^ w - 1) shift in
    countr_zero_loop (Z.to_nat w) value 0 shift mask.

(** bits.hpp:279-287 (and 291-299) the bisection loop of [countl_zero]. *)
Fixpoint countl_zero_loop (fuel : nat) (value zero_bits shift : Z) : option Z :=
  if shift =? 0 then Some zero_bits
  else match fuel with
  | O => None
  | S fuel' =>
      let tmp := Z.shiftr value shift in
      if negb (tmp =? 0)
      then countl_zero_loop fuel' tmp zero_bits (Z.shiftr shift 1)
      else countl_zero_loop fuel' value (Z.lor zero_bits shift) (Z.shiftr shift 1)
  end.

(** bits.hpp:272-302 [countl_zero]. *)
Definition countl_zero (w value : Z) : option Z :=
  if value =? 0 then Some w
  else countl_zero_loop (Z.to_nat w) value 0 (Z.shiftr w 1).

(** bits.hpp:320-322 [countr_one]. *)
Definition countr_one (w value : Z) : option Z := countr_zero w (unot w value).

(** bits.hpp:324-326 [countl_one]. *)
Definition countl_one (w value : Z) : option Z :=
  if negb (value =? 2 ^ w - 1) then countl_zero w (unot w value) else Some w.

(** bits.hpp:328-330 [bit_width]. *)
Definition bit_width (w value : Z) : option Z :=
  do c <- countl_zero w value; Some (w - c).

(** bits.hpp:335-353 [bit_ceil] for types at least as wide as [unsigned]
    (branch [sizeof(T) >= sizeof(unsigned)]). *)
Definition bit_ceil (w x : Z) : option Z :=
  if x <? 2 then Some 1
  else
    do c <- countl_zero w (wrap w (x - 1));
    ushl w 1 (w - c).

(** bits.hpp:335-353 [bit_ceil] for [unsigned char] / [unsigned short]
    (else branch, shifting a 32-bit [unsigned] by [n + extra]). *)
Definition bit_ceil_narrow (w x : Z) : option Z :=
  if x <? 2 then Some 1
  else
    do c <- countl_zero w (wrap w (x - 1));
    let n := w - c in
    let extra := 32 - w in
    do r <- ushl 32 1 (n + extra);
    Some (wrap w (Z.shiftr r extra)).

(** bits.hpp:362-381 the portable [popcount] loop over the bits [i .. w-1]. *)
Fixpoint popcount_loop (k : nat) (i value count : Z) : Z :=
  match k with
  | O => count
  | S k' =>
      popcount_loop k' (i + 1) value
        (if negb (Z.land (Z.shiftr value i) 1 =? 0) then count + 1 else count)
  end.
Definition popcount_generic (w value : Z) : Z := popcount_loop (Z.to_nat w) 0 value 0.

(** bits.hpp:421-427 [popcount(unsigned char)]. *)
Definition popcount_uchar (n : Z) : Z :=
  let r := wrap 32 (n * 0x08040201) in
  Z.shiftr (wrap 32 (Z.land (Z.shiftr r 3) 0x11111111 * 0x11111111)) 28.

(** bits.hpp:429-435 [popcount(unsigned short)].  C++ precedence: binary [-]
    and [+] bind tighter than [&], so [n - (n >> 1) & M] is [(n - (n>>1)) & M].
    The arithmetic is in [int]; each assignment truncates to 16 bits. *)
Definition popcount_ushort (n : Z) : Z :=
  let n := wrap 16 (Z.land (n - Z.shiftr n 1) 0x5555) in
  let n := wrap 16 (Z.land (Z.land n 0x3333 + Z.shiftr n 2) 0x3333) in
  let n := wrap 16 (Z.land (n + Z.shiftr n 4) 0x0F0F) in
  Z.shiftr (n * 0x0101) 16.

(** bits.hpp:437-445 [popcount(unsigned int)], 32-bit branch (same code at
    bits.hpp:463-469 for a 32-bit [unsigned long]). *)
Definition popcount_uint32 (n : Z) : Z :=
  let n := Z.land (wrap 32 (n - Z.shiftr n 1)) 0x55555555 in
  let n := Z.land (wrap 32 (Z.land n 0x33333333 + Z.shiftr n 2)) 0x33333333 in
  let n := Z.land (wrap 32 (n + Z.shiftr n 4)) 0x0F0F0F0F in
  Z.shiftr (wrap 32 (n * 0x01010101)) 24.

(** bits.hpp:483-489 [popcount(unsigned long long)] (same code at
    bits.hpp:471-476 for a 64-bit [unsigned long]). *)
Definition popcount_uint64 (n : Z) : Z :=
  let n := wrap 64 (n - Z.land (Z.shiftr n 1) 0x5555555555555555) in
  let n := wrap 64 (Z.land n 0x3333333333333333 + Z.land (Z.shiftr n 2) 0x3333333333333333) in
  let n := Z.land (wrap 64 (n + Z.shiftr n 4)) 0xF0F0F0F0F0F0F0F in
  Z.shiftr (wrap 64 (n * 0x101010101010101)) 56.

(** bits.hpp:101-115 [top_bits<T, k>] on a [w]-bit pattern. *)
Definition top_bits (w k x : Z) : Z := wrap 32 (Z.shiftr x (w - k)).

(* ------------------------------------------------------------------ *)
(** ** math_support.hpp *)

(** math_support.hpp:28-46 [add_overflow], unsigned branch: result, flag. *)
Definition add_overflow_u (w a b : Z) : Z * bool :=
  let usum := wrap w (a + b) in (usum, usum <? a).

(** math_support.hpp:28-57 [add_overflow], signed branch.  [a], [b] are the
    signed values; [res] is only written when there is no overflow ([old]
    otherwise). *)
Definition add_overflow_s (w a b old : Z) : Z * bool :=
  let ua := wrap w a in
  let ub := wrap w b in
  let usum := wrap w (ua + ub) in
  let sign_bit := 2 ^ (w - 1) in
  let overflow :=
    negb (Z.land (Z.land (unot w (Z.lxor ua ub)) (Z.lxor ua usum)) sign_bit =? 0) in
  (if overflow then old else to_signed w usum, overflow).

(** math_support.hpp:59-77 [sub_overflow], unsigned branch. *)
Definition sub_overflow_u (w a b : Z) : Z * bool :=
  (wrap w (a - b), a <? b).

(** math_support.hpp:59-88 [sub_overflow], signed branch. *)
Definition sub_overflow_s (w a b old : Z) : Z * bool :=
  let ua := wrap w a in
  let ub := wrap w b in
  let udiff := wrap w (ua - ub) in
  let sign_bit := 2 ^ (w - 1) in
  let overflow :=
    negb (Z.land (Z.land (Z.lxor ua ub) (Z.lxor ua udiff)) sign_bit =? 0) in
  (if overflow then old else to_signed w udiff, overflow).

(** math_support.hpp:95-118 [add_with_carry] (portable tail, lines 113-117):
    returns (sum, carry_out). *)
Definition add_with_carry (w a b carry_in : Z) : Z * Z :=
  let '(sum, carry1) := add_overflow_u w a b in
  let '(sum, carry2) := add_overflow_u w sum carry_in in
  (sum, Z.lor (b2z carry1) (b2z carry2)).

(** math_support.hpp:122-145 [sub_with_borrow] (portable tail, lines 140-144). *)
Definition sub_with_borrow (w a b carry_in : Z) : Z * Z :=
  let '(sub, carry1) := sub_overflow_u w a b in
  let '(sub, carry2) := sub_overflow_u w sub carry_in in
  (sub, Z.lor (b2z carry1) (b2z carry2)).

(** math_support.hpp:156-167 [mask_trailing_ones<T, count>]. *)
Definition mask_trailing_ones (w count : Z) : option Z :=
  if count =? 0 then Some 0 else ushr w (unot w 0) (w - count).

(** math_support.hpp:173-175 [mask_leading_ones<T, count>]. *)
Definition mask_leading_ones (w count : Z) : option Z :=
  do m <- mask_trailing_ones w (w - count); Some (unot w m).

(** math_support.hpp:178-180 [mask_trailing_zeros<T, count>]. *)
Definition mask_trailing_zeros (w count : Z) : option Z := mask_leading_ones w (w - count).

(** math_support.hpp:183-185 [mask_leading_zeros<T, count>]. *)
Definition mask_leading_zeros (w count : Z) : option Z := mask_trailing_ones w (w - count).
