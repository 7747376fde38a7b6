(** * C40, C41, C52: op::mul, op::add / op::sub and fp::cast *)
From Coq Require Import ZArith Reals Bool Lia.
From Verif Require Import MachInt BigIntMul Fmt FloatSpec RoundProofs FOps FOpsProofs FmaSpec Basic Dyadic GenOps GenOpsProofs AddProofs NextProofs FmanipWide.
Open Scope Z_scope.

(** ** C40: multiplication *)

(** One rounding of the exact product, whatever the (not wider) output format and
    the rounding mode; [w*n] is the width of the DyadicFloat, [h] whether the
    target has an fma instruction. *)
Theorem C40_mul : forall F G rm h native w n x y, good_fmt F -> good_fmt G -> el F <= 16 -> el G <= 16 -> fl G <= fl F ->
  fl G + 3 <= bias G -> 2 <= w -> mul2_width native w -> (1 <= n)%nat -> Z.of_nat n < 2 ^ w -> 2 * prec F <= w * Z.of_nat n <= 2 ^ 20 ->
  is_pattern F x -> is_pattern F y -> is_fin F x = true -> is_fin F y = true ->
  rounded G rm (fval F x * fval F y) (xorb (sign_of F x) (sign_of F y)) (op_mul F G rm h native w n x y).
Proof. intros. apply op_mul_fin; auto. Qed.

Lemma mul2_64 : mul2_width true 64. Proof. vm_compute. intuition congruence. Qed.
(** The instances: float with DyadicFloat<64> and double with DyadicFloat<128>. *)
Theorem C40_mul_float : forall rm h x y, is_pattern binary32 x -> is_pattern binary32 y ->
  is_fin binary32 x = true -> is_fin binary32 y = true ->
  rounded binary32 rm (fval binary32 x * fval binary32 y) (xorb (sign_of binary32 x) (sign_of binary32 y))
    (op_mul binary32 binary32 rm h true 64 1 x y).
Proof.
  intros. apply op_mul_fin; auto using good32, mul2_64; vm_compute; intuition congruence.
Qed.
Theorem C40_mul_double : forall rm h x y, is_pattern binary64 x -> is_pattern binary64 y ->
  is_fin binary64 x = true -> is_fin binary64 y = true ->
  rounded binary64 rm (fval binary64 x * fval binary64 y) (xorb (sign_of binary64 x) (sign_of binary64 y))
    (op_mul binary64 binary64 rm h true 64 2 x y).
Proof.
  intros. apply op_mul_fin; auto using good64, mul2_64; vm_compute; intuition congruence.
Qed.
Theorem C40_mul_double_to_float : forall rm h x y, is_pattern binary64 x -> is_pattern binary64 y ->
  is_fin binary64 x = true -> is_fin binary64 y = true ->
  rounded binary32 rm (fval binary64 x * fval binary64 y) (xorb (sign_of binary64 x) (sign_of binary64 y))
    (op_mul binary64 binary32 rm h true 64 2 x y).
Proof.
  intros. apply op_mul_fin; auto using good64, good32, mul2_64; vm_compute; intuition congruence.
Qed.
(** NaN operands give a quiet NaN with the payload of the first quiet one;
    infinity times zero is NaN; otherwise an infinite operand gives infinity. *)
Theorem C40_special : forall F G rm h native w n x y, good_fmt F -> good_fmt G -> el F <= 16 -> el G <= 16 -> fl G <= fl F ->
  2 <= w -> (1 <= n)%nat -> 2 * prec F <= w * Z.of_nat n <= 2 ^ 20 -> is_pattern F x -> is_pattern F y ->
  let r := op_mul F G rm h native w n x y in
  (is_nan F x = true \/ is_nan F y = true -> is_pattern G r /\ quiet G r /\
     (quiet F x -> r = sbit G (sign_of F x) + (inf_mag G + (x mod 2 ^ fl F) / 2 ^ (fl F - fl G))) /\
     (~ quiet F x -> quiet F y -> r = sbit G (sign_of F y) + (inf_mag G + (y mod 2 ^ fl F) / 2 ^ (fl F - fl G)))) /\
  (is_inf F x = true /\ mag_of F y = 0 \/ mag_of F x = 0 /\ is_inf F y = true -> r = qnan G) /\
  (is_nan F x = false -> is_nan F y = false -> is_inf F x = true \/ is_inf F y = true -> mag_of F x <> 0 -> mag_of F y <> 0 ->
     r = f_inf G (xorb (sign_of F x) (sign_of F y))).
Proof. intros. apply op_mul_special; auto. Qed.

(** (1+2^-52)^2 in three modes; the least subnormal squared; DBL_MAX squared;
    1/3 squared narrowed to float; infinity times zero; a NaN payload. *)
Example C40_case :
  op_mul binary64 binary64 RNE true true 64 2 0x3FF0000000000001 0x3FF0000000000001 = 0x3FF0000000000002 /\
  op_mul binary64 binary64 RUP true true 64 2 0x3FF0000000000001 0x3FF0000000000001 = 0x3FF0000000000003 /\
  op_mul binary64 binary64 RUP false true 64 2 1 1 = 1 /\ op_mul binary64 binary64 RNE false true 64 2 1 1 = 0 /\
  op_mul binary64 binary64 RZR true true 64 2 0x7fefffffffffffff 0xffefffffffffffff = 0xffefffffffffffff /\
  op_mul binary64 binary64 RNE true true 64 2 0x7fefffffffffffff 0xffefffffffffffff = 0xfff0000000000000 /\
  op_mul binary64 binary32 RNE true true 64 2 0x3FD5555555555555 0x3FD5555555555555 = 0x3DE38E39 /\
  op_mul binary32 binary32 RNE true true 64 1 0x7f800000 0x80000000 = 0x7fc00000 /\
  op_mul binary64 binary32 RNE true true 64 2 0xfff8000020000000 0x7ff8000000000000 = 0xffc00001.
Proof. repeat match goal with |- _ /\ _ => split end; vm_compute; reflexivity. Qed.

(** ** C41: addition and subtraction *)

(** Normal operands [x], [y] of the same sign, or with |y| <= |x|: the exact sum
    (difference) rounded once. [dm] is the mode read for the sign of an exact zero,
    [rm] the mode of the conversion. *)
Theorem C41_add_partial : forall F G rm h dm x y, good_fmt F -> good_fmt G -> el F <= 16 -> el G <= 16 -> fl G <= fl F ->
  4 <= el F -> fl G + 3 <= bias G -> fl F + 5 <= bit_ceil_z (fl F + 4) -> fl F <= 2 ^ 20 ->
  is_fin F x = true -> is_fin F y = true -> 2 ^ fl F <= mag_of F x -> 2 ^ fl F <= mag_of F y ->
  sign_of F x = sign_of F y \/ mag_of F y <= mag_of F x ->
  rounded G rm (fval F x + fval F y) (zero_sum_sign dm (sign_of F x) (sign_of F y)) (op_add F G rm h dm x y).
Proof. intros. apply (add_normal F G); auto. Qed.
Theorem C41_sub_partial : forall F G rm h dm x y, good_fmt F -> good_fmt G -> el F <= 16 -> el G <= 16 -> fl G <= fl F ->
  4 <= el F -> fl G + 3 <= bias G -> fl F + 5 <= bit_ceil_z (fl F + 4) -> fl F <= 2 ^ 20 ->
  is_fin F x = true -> is_fin F y = true -> 2 ^ fl F <= mag_of F x -> 2 ^ fl F <= mag_of F y ->
  sign_of F x = sign_of F y \/ mag_of F y <= mag_of F x ->
  rounded G rm (fval F x - fval F y) (zero_sum_sign dm (sign_of F x) (negb (sign_of F y))) (op_sub F G rm h dm x y).
Proof. intros. apply (sub_normal F G); auto. Qed.
Theorem C41_add_double_partial : forall rm h x y, is_fin binary64 x = true -> is_fin binary64 y = true ->
  2 ^ 52 <= mag_of binary64 x -> 2 ^ 52 <= mag_of binary64 y ->
  sign_of binary64 x = sign_of binary64 y \/ mag_of binary64 y <= mag_of binary64 x ->
  rounded binary64 rm (fval binary64 x + fval binary64 y) (zero_sum_sign rm (sign_of binary64 x) (sign_of binary64 y))
    (op_add binary64 binary64 rm h rm x y).
Proof. intros. apply (add_normal binary64 binary64); auto using good64; vm_compute; intuition congruence. Qed.
Theorem C41_add_float_partial : forall rm h x y, is_fin binary32 x = true -> is_fin binary32 y = true ->
  2 ^ 23 <= mag_of binary32 x -> 2 ^ 23 <= mag_of binary32 y ->
  sign_of binary32 x = sign_of binary32 y \/ mag_of binary32 y <= mag_of binary32 x ->
  rounded binary32 rm (fval binary32 x + fval binary32 y) (zero_sum_sign rm (sign_of binary32 x) (sign_of binary32 y))
    (op_add binary32 binary32 rm h rm x y).
Proof. intros. apply (add_normal binary32 binary32); auto using good32; vm_compute; intuition congruence. Qed.
Theorem C41_add_zero_left : forall F G rm h dm x y, good_fmt F -> good_fmt G -> el F <= 16 ->
  is_pattern F y -> is_fin F x = true -> is_fin F y = true -> mag_of F x = 0 -> mag_of F y <> 0 ->
  rounded G rm (fval F x + fval F y) (sign_of F y) (op_add F G rm h dm x y) /\
  rounded G rm (fval F x - fval F y) (negb (sign_of F y)) (op_sub F G rm h dm x y).
Proof. intros. apply add_zero_left; auto. Qed.
(** NaN and infinite operands of the addition. *)
Theorem C41_add_special : forall F G rm h dm x y, good_fmt F -> good_fmt G -> el F <= 16 -> el G <= 16 -> fl G <= fl F ->
  is_pattern F x -> is_pattern F y ->
  let r := op_add F G rm h dm x y in
  (is_nan F x = true \/ is_nan F y = true -> is_pattern G r /\ quiet G r /\
     (quiet F x -> r = sbit G (sign_of F x) + (inf_mag G + (x mod 2 ^ fl F) / 2 ^ (fl F - fl G))) /\
     (~ quiet F x -> quiet F y -> r = sbit G (sign_of F y) + (inf_mag G + (y mod 2 ^ fl F) / 2 ^ (fl F - fl G)))) /\
  (is_inf F x = true -> is_inf F y = true -> r = if Bool.eqb (sign_of F x) (sign_of F y) then f_inf G (sign_of F x) else qnan G) /\
  (is_inf F x = true -> is_fin F y = true -> r = f_inf G (sign_of F x)) /\
  (is_fin F x = true -> is_inf F y = true -> r = f_inf G (sign_of F y)).
Proof. intros F G rm h dm x y HF HG H1 H2 H3 Px Py. exact (add_special F G HF HG H1 H2 H3 rm h dm x y Px Py). Qed.
(** For the subtraction all but the last case: the difference of a finite number
    and an infinity has the sign of the infinity instead of the opposite one. *)
Theorem C41_sub_special : forall F G rm h dm x y, good_fmt F -> good_fmt G -> el F <= 16 -> el G <= 16 -> fl G <= fl F ->
  is_pattern F x -> is_pattern F y ->
  let r := op_sub F G rm h dm x y in
  (is_nan F x = true \/ is_nan F y = true -> is_pattern G r /\ quiet G r /\
     (quiet F x -> r = sbit G (sign_of F x) + (inf_mag G + (x mod 2 ^ fl F) / 2 ^ (fl F - fl G))) /\
     (~ quiet F x -> quiet F y -> r = sbit G (sign_of F y) + (inf_mag G + (y mod 2 ^ fl F) / 2 ^ (fl F - fl G)))) /\
  (is_inf F x = true -> is_inf F y = true -> r = if Bool.eqb (sign_of F x) (negb (sign_of F y)) then f_inf G (sign_of F x) else qnan G) /\
  (is_inf F x = true -> is_fin F y = true -> r = f_inf G (sign_of F x)) /\
  (is_fin F x = true -> is_inf F y = true -> r = f_inf G (sign_of F y)).
Proof. intros F G rm h dm x y HF HG H1 H2 H3 Px Py. exact (sub_special F G HF HG H1 H2 H3 rm h dm x y Px Py). Qed.

Lemma not_rounded_add : forall F rm x y r, good_fmt F -> is_fin F x = true -> is_fin F y = true -> f_add F rm x y <> r ->
  ~ rounded F rm (fval F x + fval F y) (if Bool.eqb (sign_of F x) (sign_of F y) then sign_of F x else is_rdn rm) r.
Proof. intros F rm x y r HF Hx Hy Hne HR. exact (Hne (rounded_unique F HF rm _ _ _ _ (f_add_spec F HF rm x y Hx Hy) HR)). Qed.

(** The statement without the restrictions is false in round to nearest, one
    witness for each restriction: 1 + 0 is 0; (-0) + (-0) is +0; 1 + (-2) is 1;
    2^-1074 + 2^-1074 is 2^-1074; 2^-1022 + 2^-1074 is wrong too. *)
Theorem C41_add_refuted :
  let bad x y := is_pattern binary64 x /\ is_pattern binary64 y /\ is_fin binary64 x = true /\ is_fin binary64 y = true /\
    ~ rounded binary64 RNE (fval binary64 x + fval binary64 y)
        (if Bool.eqb (sign_of binary64 x) (sign_of binary64 y) then sign_of binary64 x else false) (op_add binary64 binary64 RNE true RNE x y) in
  bad 0x3FF0000000000000 0 /\ bad 0x8000000000000000 0x8000000000000000 /\ bad 0x3FF0000000000000 0xC000000000000000 /\
  bad 1 1 /\ bad 0x0010000000000000 1.
Proof.
  cbv zeta. repeat match goal with |- _ /\ _ => split end;
    lazymatch goal with
    | |- ~ rounded _ _ _ _ _ => apply not_rounded_add; [exact good64 | reflexivity | reflexivity | vm_compute; discriminate]
    | |- is_pattern _ _ => vm_compute; split; congruence
    | |- _ => vm_compute; reflexivity
    end.
Qed.
Theorem C41_sub_refuted :
  op_sub binary64 binary64 RNE true RNE 0x3FF0000000000000 0xC000000000000000 = 0xC008000000000000 /\
  op_sub binary64 binary64 RNE true RNE 0x3FF0000000000000 0x7ff0000000000000 = 0x7ff0000000000000 /\
  f_sub binary64 RNE 0x3FF0000000000000 0xC000000000000000 = 0x4008000000000000 /\
  f_sub binary64 RNE 0x3FF0000000000000 0x7ff0000000000000 = 0xfff0000000000000.
Proof. repeat match goal with |- _ /\ _ => split end; vm_compute; reflexivity. Qed.

(** The hypotheses are met by the usual formats; 1.5 + 2^-53 (a lost bit), 1 - (1 - 2^-53),
    2 + (-1.5), total cancellation toward minus infinity, overflow. *)
Example C41_case :
  (52 + 5 <= bit_ceil_z (52 + 4) /\ 23 + 5 <= bit_ceil_z (23 + 4) /\ 10 + 5 <= bit_ceil_z (10 + 4) /\ 112 + 5 <= bit_ceil_z (112 + 4)) /\
  op_add binary64 binary64 RUP true RUP 0x3FF8000000000000 0x3CA0000000000000 = 0x3FF8000000000001 /\
  op_sub binary64 binary64 RNE true RNE 0x3FF0000000000000 0x3FEFFFFFFFFFFFFF = 0x3CA0000000000000 /\
  op_add binary64 binary64 RNE true RNE 0x4000000000000000 0xBFF8000000000000 = 0x3FE0000000000000 /\
  op_add binary64 binary64 RDN true RDN 0x4000000000000000 0xC000000000000000 = 0x8000000000000000 /\
  op_add binary64 binary32 RNE true RNE 0x7fefffffffffffff 0x7fefffffffffffff = 0x7f800000.
Proof. repeat match goal with |- _ /\ _ => split end; vm_compute; solve [reflexivity | congruence]. Qed.

(** ** C52: conversion between formats *)
Theorem C52_narrow : forall F G rm h x, good_fmt F -> good_fmt G -> el F <= 16 -> el G <= 16 ->
  fl F <= 2 ^ 20 -> fl G + 3 <= bias G -> fl G < fl F -> width G < width F -> is_pattern F x -> is_fin F x = true ->
  rounded G rm (fval F x) (sign_of F x) (op_cast F G rm h x).
Proof. intros. apply op_cast_fin; auto; lia. Qed.
Theorem C52_narrow_special : forall F G rm h x, good_fmt F -> good_fmt G -> el F <= 16 -> el G <= 16 ->
  fl G < fl F -> width G < width F -> is_pattern F x ->
  let r := op_cast F G rm h x in
  (is_nan F x = true -> is_pattern G r /\ quiet G r /\
     (quiet F x -> r = sbit G (sign_of F x) + (inf_mag G + (x mod 2 ^ fl F) / 2 ^ (fl F - fl G)))) /\
  (is_inf F x = true -> r = f_inf G (sign_of F x)).
Proof. intros. apply op_cast_special; auto; lia. Qed.
Theorem C52_widen : forall F G rm h x, good_fmt F -> good_fmt G -> fl F <= fl G -> el F <= el G -> is_fin F x = true ->
  let r := op_cast F G rm h x in
  is_pattern G r /\ is_fin G r = true /\ fval G r = fval F x /\ sign_of G r = sign_of F x.
Proof.
  intros F G rm h x HF HG H1 H2 Hx r. unfold r, op_cast. replace (width F <=? width G) with true by (unfold width; lia).
  apply cast_fin; auto. split; auto.
Qed.
Theorem C52_double_to_float : forall rm h x, is_pattern binary64 x -> is_fin binary64 x = true ->
  rounded binary32 rm (fval binary64 x) (sign_of binary64 x) (op_cast binary64 binary32 rm h x).
Proof. intros. apply op_cast_fin; auto using good64, good32; vm_compute; intuition congruence. Qed.
Theorem C52_float_to_double : forall rm h x, is_fin binary32 x = true ->
  let r := op_cast binary32 binary64 rm h x in
  is_pattern binary64 r /\ is_fin binary64 r = true /\ fval binary64 r = fval binary32 x /\ sign_of binary64 r = sign_of binary32 x.
Proof. intros. apply C52_widen; auto using good32, good64; vm_compute; congruence. Qed.
(** 1/3, a double below half of the least float subnormal, DBL_MAX, and back. *)
Example C52_case :
  op_cast binary64 binary32 RNE true 0x3FD5555555555555 = 0x3EAAAAAB /\ op_cast binary64 binary32 RZR true 0x3FD5555555555555 = 0x3EAAAAAA /\
  op_cast binary64 binary32 RNE true 0x3690000000000000 = 0 /\ op_cast binary64 binary32 RUP true 0x3690000000000000 = 1 /\
  op_cast binary64 binary32 RNE true 0xffefffffffffffff = 0xff800000 /\
  op_cast binary32 binary64 RNE true 1 = 0x36A0000000000000.
Proof. repeat match goal with |- _ /\ _ => split end; vm_compute; reflexivity. Qed.

Print Assumptions C40_mul.
Print Assumptions C40_mul_float.
Print Assumptions C40_mul_double.
Print Assumptions C40_mul_double_to_float.
Print Assumptions C40_special.
Print Assumptions C41_add_partial.
Print Assumptions C41_sub_partial.
Print Assumptions C41_add_double_partial.
Print Assumptions C41_add_float_partial.
Print Assumptions C41_add_zero_left.
Print Assumptions C41_add_special.
Print Assumptions C41_sub_special.
Print Assumptions C41_add_refuted.
Print Assumptions C41_sub_refuted.
Print Assumptions C52_narrow.
Print Assumptions C52_narrow_special.
Print Assumptions C52_widen.
Print Assumptions C52_double_to_float.
Print Assumptions C52_float_to_double.
