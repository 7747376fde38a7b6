(** * Specification: the numbers of the 80-bit x87 format *)
From Coq Require Import ZArith Reals.
From Flocq Require Import Core.
From Verif Require Import MachInt Fmt Sqrt.
Open Scope Z_scope.

(** The format with 63 fraction bits and a 15-bit exponent: the same numbers as
    the x87 format, without the redundant integer bit. *)
Definition fmt80 : fmt := Fmt 63 15.
(** The value of a finite x87 number and the canonical finite encodings. *)
Definition x87_val (x : x87) : R :=
  ((if xs x then -1 else 1) * IZR (b2z (xi x) * 2 ^ 63 + xf x) * bpow radix2 (Z.max 1 (xe x) - 16383 - 63))%R.
Definition x87_finite (x : x87) : Prop :=
  0 <= xf x < 2 ^ 63 /\ 0 <= xe x < 32767 /\ (xi x = true <-> xe x <> 0).
(** The x87 fields of a non-negative pattern of the 63-bit-fraction format. *)
Definition x87_of (b : Z) : x87 :=
  X87 false (mag_of fmt80 b / 2 ^ 63) (negb (mag_of fmt80 b / 2 ^ 63 =? 0)) (mag_of fmt80 b mod 2 ^ 63).

