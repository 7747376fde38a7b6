(** * Model of support/fp/fp_bits.hpp (FPStorage, FPRepSem, FPRepImpl)

    [bits] of an object is the [Z] value of its storage.  The storage has
    exactly [width F] bits (float, double, 128-bit long double).  The 80-bit x87
    specialisation (fp_bits.hpp:441-582) is not modelled. *)
From Coq Require Import ZArith Bool.
From Verif Require Import MachInt Bits Fmt.
Open Scope Z_scope.

Section FP.
Context (F : fmt).
Notation w := (width F).

(** fp_bits.hpp:146-172: the masks; [mask_trailing_ones<storage_type, n>()] is
    [2^n - 1] (theorem C06_mask_trailing_ones). *)
Definition significand_mask : Z := 2 ^ fl F - 1.
Definition exponent_mask : Z := wrap w (Z.shiftl (2 ^ el F - 1) (fl F)).
Definition sign_mask : Z := wrap w (Z.shiftl 1 (el F + fl F)).
Definition exponent_significand_mask : Z := 2 ^ (el F + fl F) - 1.
Definition fp_bits_mask : Z := 2 ^ w - 1.
Definition fraction_mask : Z := 2 ^ fl F - 1.

(** fp_bits.hpp:186-191 [merge]. *)
Definition merge (a b mask : Z) : Z := Z.lxor a (Z.land (Z.lxor a b) mask).

(** fp_bits.hpp:222-241 [Exponent] special values. *)
Definition Exponent_subnormal : Z := - bias F.
Definition Exponent_min : Z := 1 - bias F.
Definition Exponent_max : Z := bias F.
Definition Exponent_inf : Z := bias F + 1.

(** fp_bits.hpp:256-262 conversions Exponent <-> BiasedExponent (uint32_t). *)
Definition to_biased (e : Z) : Z := wrap 32 (e + bias F).
Definition of_biased (be : Z) : Z := to_signed 32 be - bias F.

(** fp_bits.hpp:291-305 [Significand] special values. *)
Definition Significand_msb : Z := 2 ^ (fl F - 1).

(** fp_bits.hpp:307-317 [encode]. *)
Definition encode_exp (be : Z) : Z := Z.land (wrap w (Z.shiftl be (fl F))) exponent_mask.
Definition encode_sig (v : Z) : Z := Z.land v significand_mask.
Definition encode2 (be sig : Z) : Z := Z.lor (encode_exp be) (encode_sig sig).
Definition encode (sign : bool) (be sig : Z) : Z :=
  if sign then Z.lor sign_mask (encode2 be sig) else encode2 be sig.

(** fp_bits.hpp:326-337: [exp_bits], [sig_bits], [exp_sig_bits],
    [biased_exponent], [set_biased_exponent]. *)
Definition exp_bits (bits : Z) : Z := Z.land bits exponent_mask.
Definition sig_bits (bits : Z) : Z := Z.land bits significand_mask.
Definition exp_sig_bits (bits : Z) : Z := Z.land bits exponent_significand_mask.
Definition biased_exponent (bits : Z) : Z := wrap 32 (Z.shiftr (exp_bits bits) (fl F)).
Definition set_biased_exponent (bits be : Z) : Z := merge bits (encode_exp be) exponent_mask.

(** fp_bits.hpp:345-349 [sign] (true is NEG), [set_sign]. *)
Definition fp_sign (bits : Z) : bool := negb (Z.land bits sign_mask =? 0).
Definition set_sign (bits : Z) (s : bool) : Z :=
  if Bool.eqb (fp_sign bits) s then bits else Z.lxor bits sign_mask.

(** fp_bits.hpp:378-397 builders. *)
Definition fp_zero (s : bool) := encode s (to_biased Exponent_subnormal) 0.
Definition fp_one (s : bool) := encode s (to_biased 0) 0.
Definition fp_min_subnormal (s : bool) := encode s (to_biased Exponent_subnormal) 1.
Definition fp_max_subnormal (s : bool) := encode s (to_biased Exponent_subnormal) significand_mask.
Definition fp_min_normal (s : bool) := encode s (to_biased Exponent_min) 0.
Definition fp_max_normal (s : bool) := encode s (to_biased Exponent_max) significand_mask.
Definition fp_inf (s : bool) := encode s (to_biased Exponent_inf) 0.
Definition fp_signaling_nan (s : bool) (v : Z) :=
  encode s (to_biased Exponent_inf) (if v =? 0 then Z.shiftr Significand_msb 1 else v).
Definition fp_quiet_nan (s : bool) (v : Z) :=
  encode s (to_biased Exponent_inf) (Z.lor Significand_msb v).

(** fp_bits.hpp:401-415 observers. *)
Definition fp_is_zero (bits : Z) : bool := exp_sig_bits bits =? 0.
Definition fp_is_nan (bits : Z) : bool := encode2 (to_biased Exponent_inf) 0 <? exp_sig_bits bits.
Definition fp_is_quiet_nan (bits : Z) : bool :=
  encode2 (to_biased Exponent_inf) Significand_msb <=? exp_sig_bits bits.
Definition fp_is_signaling_nan (bits : Z) : bool := fp_is_nan bits && negb (fp_is_quiet_nan bits).
Definition fp_is_inf (bits : Z) : bool := exp_sig_bits bits =? encode2 (to_biased Exponent_inf) 0.
Definition fp_is_finite (bits : Z) : bool := negb (exp_bits bits =? encode_exp (to_biased Exponent_inf)).
Definition fp_is_subnormal (bits : Z) : bool := exp_bits bits =? encode_exp (to_biased Exponent_subnormal).
Definition fp_is_normal (bits : Z) : bool := fp_is_finite bits && negb (fp_is_subnormal bits).

(** fp_bits.hpp:417-421 [next_toward_inf]. *)
Definition next_toward_inf (bits : Z) : Z := if fp_is_finite bits then wrap w (bits + 1) else bits.
(** fp_bits.hpp:430-434 [get_explicit_mantissa]. *)
Definition get_explicit_mantissa (bits : Z) : Z :=
  if fp_is_subnormal bits then sig_bits bits
  else Z.lor (wrap w (Z.shiftl 1 (fl F))) (sig_bits bits).

(** fp_bits.hpp:636-653: [uintval], [set_uintval], [abs]. *)
Definition uintval (bits : Z) : Z := Z.land bits fp_bits_mask.
Definition fp_abs (bits : Z) : Z := Z.land bits exponent_significand_mask.

(** fp_bits.hpp:675-681: [get_biased_exponent] (uint16_t), the public
    [set_biased_exponent] (through int32_t), [get_exponent]. *)
Definition get_biased_exponent (bits : Z) : Z := wrap 16 (biased_exponent bits).
Definition set_biased_exponent_pub (bits biased : Z) : Z :=
  set_biased_exponent bits (wrap 32 (to_signed 32 (wrap 32 biased))).
Definition get_exponent (bits : Z) : Z := of_biased (biased_exponent bits).
(** fp_bits.hpp:693-699 [get_explicit_exponent]. *)
Definition get_explicit_exponent (bits : Z) : Z :=
  let e := of_biased (biased_exponent bits) in
  let e := if fp_is_zero bits then 0 else e in
  if e =? Exponent_subnormal then Exponent_min else e.
(** fp_bits.hpp:701-713: [get_mantissa], [set_mantissa], [set_significand]. *)
Definition get_mantissa (bits : Z) : Z := Z.land bits fraction_mask.
Definition set_mantissa (bits m : Z) : Z := merge bits m fraction_mask.
Definition set_significand (bits m : Z) : Z := merge bits m significand_mask.
(** fp_bits.hpp:726-727 [create_value]; the exponent is narrowed to uint32_t. *)
Definition create_value (s : bool) (biased mantissa : Z) : Z := encode s (wrap 32 biased) mantissa.

(** fp_bits.hpp:743-763 [make_value].  [None]: a shift by a negative amount or by
    at least the width.  [expo] is an [int]; its decrement is not checked. *)
Definition make_value (number expo : Z) : option Z :=
  do c <- countl_zero w number;
  let lz := fl F + 1 - (w - c) in
  do number <- ushl w number lz;
  let expo := expo - lz in
  if 0 <=? expo
  then Some (uintval (set_biased_exponent_pub (set_significand 0 number) (wrap w (expo + 1))))
  else do m <- ushr w number (- expo); Some (uintval (set_significand 0 m)).
End FP.
