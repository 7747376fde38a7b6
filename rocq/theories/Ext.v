(** * Model of ccm::ext on integers

    An integer type is its width and signedness; operands narrower than int are
    promoted to int (32 bits); signed overflow and division by zero are undefined
    ([None]). *)
From Coq Require Import ZArith Bool.
From Verif Require Import MachInt Bits.
Open Scope Z_scope.

(** The integral type [T] of the templates. *)
Record ity := { iw : Z; isg : bool }.
(** The values of the type; the integral promotions; the conversion to the type
    (modulo 2^w); the result of an arithmetic operation in a (promoted) type. *)
Definition in_ity (T : ity) (z : Z) : Prop := if isg T then inS (iw T) z else inU (iw T) z.
Definition promote (T : ity) : ity := if iw T <? 32 then {| iw := 32; isg := true |} else T.
Definition icast (T : ity) (z : Z) : Z := if isg T then to_signed (iw T) (wrap (iw T) z) else wrap (iw T) z.
Definition iarith (T : ity) (z : Z) : option Z := if isg T then sarith (iw T) z else Some (wrap (iw T) z).
(** Operator ~ on a promoted operand; the operator & is [Z.land] on values of a
    common type. *)
Definition inot (T : ity) (z : Z) : Z := if isg T then Z.lnot z else unot (iw T) z.

Section Int.
Context (T : ity).
Let P := promote T.

(** ext/align.hpp:40-85, Direction eUP, with [alignment] = 2^k. *)
Definition align_up (k value : Z) : option Z :=
  let align_mask := icast T (2 ^ k - 1) in
  do s <- iarith P (value + align_mask);
  Some (icast T (Z.land s (inot P align_mask))).
(** ext/align.hpp:86-105, Direction eDOWN. *)
Definition align_down (k value : Z) : Z :=
  let align_mask := icast T (2 ^ k - 1) in
  icast T (Z.land value (inot P align_mask)).

(** ext/abs_diff.hpp:25-26. *)
Definition abs_diff (lhs rhs : Z) : option Z :=
  if rhs <? lhs then do d <- iarith P (lhs - rhs); Some (icast T d)
  else do d <- iarith P (rhs - lhs); Some (icast T d).

(** ext/ceil_div.hpp:28-29; the division truncates. *)
Definition ceil_div (value divisor : Z) : option Z :=
  do s <- iarith P (value + divisor);
  do d <- iarith P (s - 1);
  if divisor =? 0 then None
  else do q <- iarith P (Z.quot d divisor); Some (icast T q).
(** ext/ceil_div.hpp:46-51 [safe::ceil_div]. *)
Definition safe_ceil_div (value divisor : Z) : option Z :=
  if divisor =? 0 then Some 0 else ceil_div value divisor.

(** ext/is_power_of_two.hpp:41-42, signed. *)
Definition is_power_of_two_signed (n : Z) : option bool :=
  if n =? 0 then Some false
  else do m <- iarith P (n - 1); Some (Z.land n m =? 0).
(** ext/is_power_of_two.hpp:76-81 [safe::is_power_of_two], signed. *)
Definition safe_is_power_of_two_signed (n : Z) : bool :=
  (0 <? n) && has_single_bit (iw T) (wrap (iw T) n).

(** ext/sign.hpp:24-25, integers. *)
Definition isign (value : Z) : Z := icast T (b2z (0 <? value) - b2z (value <? 0)).
(** ext/step.hpp:25-26, integers. *)
Definition istep (edge value : Z) : Z := if value <? edge then 0 else 1.
(** generic/func/basic/max_gen.hpp:50 and min_gen.hpp:47 on integers, called by
    math/basic/max.hpp:43, min.hpp:42; ext/clamp.hpp:29-30. *)
Definition imax (x y : Z) : Z := if y <? x then x else y.
Definition imin (x y : Z) : Z := if x <? y then x else y.
Definition iclamp (v lo hi : Z) : Z := imin (imax v lo) hi.
End Int.
