(** * IEEE 754 binary interchange formats as bit patterns

    A format is a pair (fraction length, exponent length); a float is the [Z]
    value of its bit pattern.  This file has no real numbers. *)
From Coq Require Import ZArith Bool.
From Verif Require Import MachInt.
Open Scope Z_scope.

(** support/fp/fp_bits.hpp:51-94 [FPLayout]: SIGN_LENGTH is 1, [el] is
    EXPONENT_LENGTH, [fl] is FRACTION_LENGTH (= significand length, implicit
    bit).  Simplification: the x87 80-bit layout is not an instance. *)
Record fmt := Fmt { fl : Z; el : Z }.
Definition binary16 := Fmt 10 5.
Definition binary32 := Fmt 23 8.
Definition binary64 := Fmt 52 11.
Definition binary128 := Fmt 112 15.

Section Format.
Context (F : fmt).

(** fp_bits.hpp:141-157: STORAGE_LENGTH, EXP_SIG length, EXP_BIAS, masks. *)
Definition width : Z := fl F + el F + 1.
Definition bias : Z := 2 ^ (el F - 1) - 1.
Definition expmax : Z := 2 ^ el F - 1.
Definition sign_unit : Z := 2 ^ (fl F + el F).
(** Precision and exponent of the least subnormal. *)
Definition prec : Z := fl F + 1.
Definition emin : Z := 1 - bias - fl F.

(** Bit patterns of the format. *)
Definition is_pattern (b : Z) : Prop := 0 <= b < 2 ^ width.

(** The three fields of a pattern (fp_bits.hpp:194-217, 319-349). *)
Definition sign_of (b : Z) : bool := Z.testbit b (fl F + el F).
Definition mag_of (b : Z) : Z := b mod sign_unit.
Definition exp_field (b : Z) : Z := mag_of b / 2 ^ fl F.
Definition man_field (b : Z) : Z := b mod 2 ^ fl F.

Definition sbit (s : bool) : Z := if s then sign_unit else 0.
(** The infinity and the default quiet NaN magnitudes (fp_bits.hpp:381-397). *)
Definition inf_mag : Z := expmax * 2 ^ fl F.
Definition qnan : Z := inf_mag + 2 ^ (fl F - 1).
Definition max_mag : Z := inf_mag - 1.

(** The datum denoted by a pattern: IEEE 754 clause 3.4. *)
Inductive datum := DNaN | DInf (s : bool) | DFin (s : bool) (m e : Z).

(** Significand and exponent of a finite magnitude. *)
Definition sig_of (a : Z) : Z :=
  if a <? 2 ^ fl F then a else 2 ^ fl F + a mod 2 ^ fl F.
Definition exp_of (a : Z) : Z :=
  emin + (if a <? 2 ^ fl F then 0 else a / 2 ^ fl F - 1).

Definition decode (b : Z) : datum :=
  let a := mag_of b in
  if a <? inf_mag then DFin (sign_of b) (sig_of a) (exp_of a)
  else if a =? inf_mag then DInf (sign_of b) else DNaN.

Definition is_nan (b : Z) : bool := inf_mag <? mag_of b.
Definition is_inf (b : Z) : bool := mag_of b =? inf_mag.
Definition is_fin (b : Z) : bool := mag_of b <? inf_mag.

(** The magnitude pattern of [m 2^e]; also right when [m = 2^(fl+1)], the
    carry moving into the exponent field. *)
Definition enc (m e : Z) : Z := (e - emin) * 2 ^ fl F + m.
End Format.

(** Rounding modes of <cfenv>: to nearest even, downward, upward, toward zero. *)
Inductive rmode := RNE | RDN | RUP | RZR.

(** Overflow result, IEEE 754 clause 7.4. *)
Definition overflow_mag (F : fmt) (rm : rmode) (s : bool) : Z :=
  match rm with
  | RNE => inf_mag F
  | RZR => max_mag F
  | RDN => if s then inf_mag F else max_mag F
  | RUP => if s then max_mag F else inf_mag F
  end.

(** Does rounding a magnitude with floor [q] go up?  [r2] is twice the
    remainder (plus one if bits beyond it are lost), [u] one unit of [q]. *)
Definition round_up (rm : rmode) (s : bool) (q r2 u : Z) : bool :=
  match rm with
  | RNE => match r2 ?= u with Lt => false | Eq => Z.odd q | Gt => true end
  | RDN => s && (0 <? r2)
  | RUP => negb s && (0 <? r2)
  | RZR => false
  end.

(** One rounding of the real [(-1)^s (m + theta) 2^e], where [theta = 0] if
    [st = false] and [0 < theta < 1] if [st = true].  Models the IEEE 754
    rounding the hardware performs; proved against Flocq in RoundProofs.v. *)
Definition round_encode (F : fmt) (rm : rmode) (s : bool) (m e : Z) (st : bool) : Z :=
  if (m =? 0) && negb st then sbit F s
  else
    let d := if m =? 0 then 0 else Z.log2 m + 1 in
    let et := Z.max (emin F) (d + e - prec F) in
    let k := Z.max 0 (et - e) in
    let q := if et <=? e then m * 2 ^ (e - et) else m / 2 ^ k in
    let r := if et <=? e then 0 else m mod 2 ^ k in
    let a := enc F (q + b2z (round_up rm s q (2 * r + b2z st) (2 ^ k))) et in
    sbit F s + (if a <? inf_mag F then a else overflow_mag F rm s).
