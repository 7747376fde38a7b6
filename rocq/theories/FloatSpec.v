(** * Specification: the real numbers denoted by bit patterns, correct rounding *)
From Coq Require Import ZArith Reals Bool.
From Flocq Require Import Core.
From Verif Require Import Fmt.
Open Scope R_scope.

(** A format on which the theorems hold: at least one fraction and two exponent
    bits, and the exponent range is wider than the significand (true of
    binary16/32/64/128 and bfloat16). *)
Definition good_fmt (F : fmt) : Prop :=
  (1 <= fl F /\ 2 <= el F /\ fl F + 2 <= 2 ^ (el F - 1))%Z.

(** The real number denoted by a datum / by a pattern (0 for infinities and NaN). *)
Definition dval (d : datum) : R :=
  match d with
  | DFin s m e => (if s then -1 else 1) * IZR m * bpow radix2 e
  | _ => 0
  end.
Definition fval (F : fmt) (b : Z) : R := dval (decode F b).

(** The order and the equality of the extended real numbers denoted; a NaN is
    related to nothing. *)
Definition xlt (F : fmt) (a b : Z) : Prop :=
  match decode F a, decode F b with
  | DNaN, _ | _, DNaN => False
  | DInf s, DInf t => s = true /\ t = false
  | DInf s, DFin _ _ _ => s = true
  | DFin _ _ _, DInf t => t = false
  | DFin _ _ _, DFin _ _ _ => fval F a < fval F b
  end.
Definition xeq (F : fmt) (a b : Z) : Prop :=
  match decode F a, decode F b with
  | DInf s, DInf t => s = t
  | DFin _ _ _, DFin _ _ _ => fval F a = fval F b
  | _, _ => False
  end.

(** The same across two formats. *)
Definition xlt2 (F G : fmt) (a b : Z) : Prop :=
  match decode F a, decode G b with
  | DNaN, _ | _, DNaN => False
  | DInf s, DInf t => s = true /\ t = false
  | DInf s, DFin _ _ _ => s = true
  | DFin _ _ _, DInf t => t = false
  | DFin _ _ _, DFin _ _ _ => fval F a < fval G b
  end.
Definition xgt2 (F G : fmt) (a b : Z) : Prop := xlt2 G F b a.
Definition xeq2 (F G : fmt) (a b : Z) : Prop :=
  match decode F a, decode G b with
  | DInf s, DInf t => s = t
  | DFin _ _ _, DFin _ _ _ => fval F a = fval G b
  | _, _ => False
  end.

(** The four rounding directions as functions R -> Z. *)
Definition rnd (rm : rmode) : R -> Z :=
  match rm with RNE => ZnearestE | RDN => Zfloor | RUP => Zceil | RZR => Ztrunc end.

(** [x] rounded to the format with unbounded exponent above. *)
Definition fround (F : fmt) (rm : rmode) (x : R) : R :=
  round radix2 (FLT_exp (emin F) (prec F)) (rnd rm) x.

(** [b] is the correctly rounded pattern for the exact result [x] in mode [rm]:
    the IEEE 754 rounding, infinity or the largest finite number on overflow,
    and the sign of the exact result ([zs] when that is zero). *)
Definition rounded (F : fmt) (rm : rmode) (x : R) (zs : bool) (b : Z) : Prop :=
  is_pattern F b /\
  sign_of F b = (if Req_bool x 0 then zs else Rlt_bool x 0) /\
  (Rabs (fround F rm x) < bpow radix2 (bias F + 1) ->
     is_fin F b = true /\ fval F b = fround F rm x) /\
  (bpow radix2 (bias F + 1) <= Rabs (fround F rm x) ->
     mag_of F b = overflow_mag F rm (Rlt_bool x 0)).
