(** * Specification for the dyadic floats *)
From Coq Require Import ZArith Reals Bool.
From Flocq Require Import Core.
From Verif Require Import Fmt FloatSpec Dyadic.
Open Scope R_scope.

(** The real number a dyadic float stands for. *)
Definition dyval (d : dyadic) : R :=
  (if dsign d then -1 else 1) * IZR (dmant d) * bpow radix2 (dexp d).

(** A mantissa that fits [B] bits and an exponent far from the [int] limits, so
    that no exponent computation overflows. *)
Definition dy_ok (B : Z) (d : dyadic) : Prop :=
  (0 <= dmant d < 2 ^ B /\ - 2 ^ 29 <= dexp d <= 2 ^ 29)%Z.
(** Normalized: zero, or the leading mantissa bit is set. *)
Definition dy_norm (B : Z) (d : dyadic) : Prop := (dmant d = 0 \/ 2 ^ (B - 1) <= dmant d)%Z.

(** [x] rounded to [B] significant bits with unbounded exponent. *)
Definition round_bits (B : Z) (rm : rmode) (x : R) : R := round radix2 (FLX_exp B) (rnd rm) x.
