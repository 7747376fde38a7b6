(** * The C++ built-in floating-point operators

    These model no ccmath function but the operators [+ - * /], the comparisons
    and the conversions of the language on an IEEE 754 implementation, in a given
    rounding mode: exact integer arithmetic followed by one [round_encode].
    Simplification: every NaN result is the default quiet NaN (payload and sign
    propagation of the hardware is not modelled). *)
From Coq Require Import ZArith Bool.
From Verif Require Import MachInt Fmt.
Open Scope Z_scope.

Section Ops.
Context (F : fmt) (rm : rmode).

Definition f_zero (s : bool) : Z := sbit F s.
Definition f_inf (s : bool) : Z := sbit F s + inf_mag F.
(** The literals 1 and -1 converted to the type. *)
Definition f_one (s : bool) : Z := sbit F s + bias F * 2 ^ fl F.
(** The literal 2^k or -2^k. *)
Definition f_pow2 (s : bool) (k : Z) : Z := sbit F s + (bias F + k) * 2 ^ fl F.
(** std::numeric_limits<T>::min(), the least positive normal number. *)
Definition f_min_normal : Z := 2 ^ fl F.
Definition f_neg (b : Z) : Z := sbit F (negb (sign_of F b)) + mag_of F b.
Definition szval (s : bool) (m : Z) : Z := if s then - m else m.

Definition is_rdn : bool := match rm with RDN => true | _ => false end.

(** Rounding of the exact [z 2^e]; [zs] is the sign of an exact zero. *)
Definition round_int (zs : bool) (z e : Z) : Z :=
  if z =? 0 then f_zero zs else round_encode F rm (z <? 0) (Z.abs z) e false.

Definition f_add (a b : Z) : Z :=
  match decode F a, decode F b with
  | DNaN, _ | _, DNaN => qnan F
  | DInf s, DInf t => if Bool.eqb s t then f_inf s else qnan F
  | DInf s, DFin _ _ _ => f_inf s
  | DFin _ _ _, DInf t => f_inf t
  | DFin s m e, DFin t n g =>
      let e0 := Z.min e g in
      let z := szval s m * 2 ^ (e - e0) + szval t n * 2 ^ (g - e0) in
      round_int (if Bool.eqb s t then s else is_rdn) z e0
  end.
Definition f_sub (a b : Z) : Z := f_add a (f_neg b).

Definition f_mul (a b : Z) : Z :=
  match decode F a, decode F b with
  | DNaN, _ | _, DNaN => qnan F
  | DInf s, DInf t => f_inf (xorb s t)
  | DInf s, DFin t n _ => if n =? 0 then qnan F else f_inf (xorb s t)
  | DFin s m _, DInf t => if m =? 0 then qnan F else f_inf (xorb s t)
  | DFin s m e, DFin t n g => round_int (xorb s t) (szval (xorb s t) (m * n)) (e + g)
  end.

Definition f_div (a b : Z) : Z :=
  match decode F a, decode F b with
  | DNaN, _ | _, DNaN => qnan F
  | DInf s, DInf t => qnan F
  | DInf s, DFin t _ _ => f_inf (xorb s t)
  | DFin s _ _, DInf t => f_zero (xorb s t)
  | DFin s m e, DFin t n g =>
      if n =? 0 then (if m =? 0 then qnan F else f_inf (xorb s t))
      else
        let k := prec F + Z.log2 n + 3 in
        let q := m * 2 ^ k / n in
        round_encode F rm (xorb s t) q (e - g - k) (negb (m * 2 ^ k mod n =? 0))
  end.

(** Fused multiply-add, as std::fma or the hardware instruction. *)
Definition f_fma (a b c : Z) : Z :=
  match decode F a, decode F b, decode F c with
  | DNaN, _, _ | _, DNaN, _ | _, _, DNaN => qnan F
  | DFin s m e, DFin t n g, DFin u p h =>
      let e0 := Z.min (e + g) h in
      let z := szval (xorb s t) (m * n) * 2 ^ (e + g - e0) + szval u p * 2 ^ (h - e0) in
      round_int (if Bool.eqb (xorb s t) u then u else is_rdn) z e0
  | DFin _ _ _, DFin _ _ _, DInf u => f_inf u
  | DInf s, DFin t n _, x | DFin t n _, DInf s, x =>
      if n =? 0 then qnan F else
      match x with DInf u => if Bool.eqb (xorb s t) u then f_inf u else qnan F | _ => f_inf (xorb s t) end
  | DInf s, DInf t, x =>
      match x with DInf u => if Bool.eqb (xorb s t) u then f_inf u else qnan F | _ => f_inf (xorb s t) end
  end.

(** Comparisons: [None] if unordered. *)
Definition f_cmp (a b : Z) : option comparison :=
  if is_nan F a || is_nan F b then None
  else Some (Z.compare (szval (sign_of F a) (mag_of F a)) (szval (sign_of F b) (mag_of F b))).
Definition f_lt (a b : Z) : bool := match f_cmp a b with Some Lt => true | _ => false end.
Definition f_gt (a b : Z) : bool := match f_cmp a b with Some Gt => true | _ => false end.
Definition f_eq (a b : Z) : bool := match f_cmp a b with Some Eq => true | _ => false end.
Definition f_le (a b : Z) : bool := f_lt a b || f_eq a b.
Definition f_ge (a b : Z) : bool := f_gt a b || f_eq a b.
Definition f_ne (a b : Z) : bool := negb (f_eq a b).

(** Conversion of an integer. *)
Definition f_of_Z (z : Z) : Z := round_int false z 0.
End Ops.

(** Conversion between floating-point types. *)
Definition f_cast (F G : fmt) (rm : rmode) (a : Z) : Z :=
  match decode F a with
  | DNaN => qnan G
  | DInf s => f_inf G s
  | DFin s m e => round_int G rm s (szval s m) e
  end.

(** Conversion to a signed integer type of [w] bits: truncation, undefined
    behaviour when out of range. *)
Definition f_to_int (F : fmt) (w : Z) (a : Z) : option Z :=
  match decode F a with
  | DFin s m e => sarith w (szval s (if 0 <=? e then m * 2 ^ e else m / 2 ^ (- e)))
  | _ => None
  end.
