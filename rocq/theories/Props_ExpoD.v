(** * C61-C62: exp and exp2 for double *)
From Coq Require Import ZArith Reals Bool Lia Lra List.
From Flocq Require Import Core.
From Verif Require Import MachInt Fmt FloatSpec RoundProofs FmtProofs FOps FOpsProofs ExactOps ExtFloatSpec ExtFloatProofs ExtInterp FmanipWide ExpoData ExpoF ErrLib Exp2fProofs ExpD ExpDWrap.
Open Scope Z_scope.

(** ** C61: exp(double) *)
(** Up to 1023 in absolute value, overflow and subnormal results included, the result is the
    rounding, in the mode of the machine, of a positive real that differs from e^x by a relative
    error of at most 2^-57 (2^-54 in a directed mode) plus 2^-1124 (2^-50 of the least double). *)
Theorem C61_exp : forall rm x, is_pattern binary64 x -> is_fin binary64 x = true -> let X := fval binary64 x in (-1023 <= X <= 1023)%R ->
  exists v, (0 < v)%R /\ (Rabs (v - exp X) <= bpow radix2 (match rm with RNE => -57 | _ => -54 end) * exp X + bpow radix2 (-1124))%R /\
    rounded binary64 rm v false (exp_d rm x).
Proof.
  intros rm x P Fi X HX. destruct (exp_d_gen rm x X) as (v & H1 & H2 & _ & H4); [split; auto|apply Rabs_def1; lra|].
  exists v. split; [exact H2|]. split; [|exact H1]. apply H4. apply Rabs_le. exact HX.
Qed.
(** From 710 on the result overflows: the mode decides below 1024, and from 1024 on it is +inf in every mode. *)
Theorem C61_overflow : forall rm x, is_pattern binary64 x -> is_fin binary64 x = true -> let X := fval binary64 x in
  ((710 <= X < 1024)%R -> rounded binary64 rm (exp X) false (exp_d rm x)) /\ ((1024 <= X)%R -> exp_d rm x = 0x7ff0000000000000).
Proof.
  intros rm x P Fi X. assert (Hx : is_real binary64 x X) by (split; auto). split; intros HX; rewrite (exp_d_over rm x X Hx) by lra.
  - rewrite Rlt_bool_true by lra. apply rounded_huge64. pose proof (exp_big X (proj1 HX)). pose proof (bpow_gt_0 radix2 1024). lra.
  - rewrite Rlt_bool_false by lra. reflexivity.
Qed.
(** From -746 down the result underflows: the mode decides above -1024, and from -1024 down it is +0 in every mode. *)
Theorem C61_underflow : forall rm x, is_pattern binary64 x -> is_fin binary64 x = true -> let X := fval binary64 x in
  ((-1024 < X <= -746)%R -> rounded binary64 rm (exp X) false (exp_d rm x)) /\ ((X <= -1024)%R -> exp_d rm x = 0).
Proof.
  intros rm x P Fi X. assert (Hx : is_real binary64 x X) by (split; auto). split; intros HX; rewrite (exp_d_under rm x X Hx) by lra.
  - rewrite Rlt_bool_true by lra. pose proof (exp_small X (proj2 HX)). pose proof (bpow_gt_0 radix2 (-1075)). pose proof (exp_pos X).
    assert (bpow radix2 (-1075) < bpow radix2 (-1074))%R by (apply bpow_lt; lia). apply rounded_tiny64; [lra|intros; lra].
  - rewrite Rlt_bool_false by lra. reflexivity.
Qed.
(** Beyond 1024 the directed modes are not respected: e^x rounds to the largest double downwards,
    and to the least positive double upwards. *)
Theorem C61_mode_refuted : forall x, is_pattern binary64 x -> is_fin binary64 x = true -> let X := fval binary64 x in
  ((1024 <= X)%R -> exp_d RDN x = 0x7ff0000000000000 /\ rounded binary64 RDN (exp X) false 0x7fefffffffffffff) /\
  ((X <= -1024)%R -> exp_d RUP x = 0 /\ rounded binary64 RUP (exp X) false 1).
Proof.
  intros x P Fi X. assert (Hx : is_real binary64 x X) by (split; auto). split; intros HX.
  - rewrite (exp_d_over RDN x X Hx), Rlt_bool_false by lra. split; [reflexivity|]. apply (rounded_huge64 RDN). pose proof (exp_big X ltac:(lra)). pose proof (bpow_gt_0 radix2 1024). lra.
  - rewrite (exp_d_under RUP x X Hx), Rlt_bool_false by lra. split; [reflexivity|]. pose proof (exp_small X ltac:(lra)). pose proof (bpow_gt_0 radix2 (-1075)). pose proof (exp_pos X).
    assert (bpow radix2 (-1075) < bpow radix2 (-1074))%R by (apply bpow_lt; lia). apply (rounded_tiny64 RUP); [lra|congruence].
Qed.
Theorem C61_special : forall rm x, is_pattern binary64 x ->
  (is_nan binary64 x = true -> is_nan binary64 (exp_d rm x) = true) /\
  (is_inf binary64 x = true -> exp_d rm x = if sign_of binary64 x then 0 else 0x7ff0000000000000).
Proof. exact exp_d_special. Qed.
(** exp(1) = 0x1.5bf0a8b145769p1, exp(0) = 1, exp(-740) = 85 * 2^-1074, exp(1000), exp(1024) and exp(-1024). *)
Example C61_case :
  exp_d RNE 0x3ff0000000000000 = 0x4005bf0a8b145769 /\ exp_d RUP 0 = 0x3ff0000000000000 /\ exp_d RNE 0xc087200000000000 = 85 /\
  exp_d RDN 0xc087200000000000 = 84 /\ exp_d RNE 0x408f400000000000 = 0x7ff0000000000000 /\ exp_d RZR 0x408f400000000000 = 0x7fefffffffffffff /\
  exp_d RZR 0x4090000000000000 = 0x7ff0000000000000 /\ exp_d RUP 0xc090000000000000 = 0 /\
  decode binary64 0xc087200000000000 = DFin true 6509108836433920 (-43) /\ is_fin binary64 0xc087200000000000 = true.
Proof. repeat match goal with |- _ /\ _ => split end; vm_compute; reflexivity. Qed.

(** ** C62: exp2(double) *)
Theorem C62_exp2 : forall rm x, is_pattern binary64 x -> is_fin binary64 x = true -> let X := fval binary64 x in (-1075 < X < 1024)%R ->
  exists v, (0 < v)%R /\ (Rabs (v - Rpower 2 X) <= bpow radix2 (match rm with RNE => -57 | _ => -54 end) * Rpower 2 X + bpow radix2 (-1124))%R /\
    rounded binary64 rm v false (exp2_d rm x).
Proof.
  intros rm x P Fi X HX. destruct (exp2_d_gen rm x X) as (v & H1 & H2 & H3); [split; auto|auto|]. exists v. auto.
Qed.
(** A power of two is exact in every mode, subnormal results included. *)
Theorem C62_integer : forall rm x n, is_pattern binary64 x -> is_fin binary64 x = true -> fval binary64 x = IZR n -> -1074 <= n <= 1023 ->
  let r := exp2_d rm x in is_pattern binary64 r /\ is_fin binary64 r = true /\ fval binary64 r = bpow radix2 n.
Proof. intros rm x n P Fi V Hn. apply (exp2_d_int rm x n); [split; auto|exact Hn]. Qed.
(** Below 2^-54 in absolute value, 2^x is correctly rounded. *)
Theorem C62_tiny : forall rm x, is_pattern binary64 x -> is_fin binary64 x = true -> let X := fval binary64 x in (Rabs X < bpow radix2 (-54))%R ->
  rounded binary64 rm (Rpower 2 X) false (exp2_d rm x).
Proof. intros rm x P Fi X HX. apply exp2_d_tiny; [split; auto|exact HX]. Qed.
(** Outside, the result does not depend on the mode; it is 2^x correctly rounded to nearest. *)
Theorem C62_outside : forall rm x, is_pattern binary64 x -> is_fin binary64 x = true -> let X := fval binary64 x in
  ((1024 <= X)%R -> exp2_d rm x = 0x7ff0000000000000 /\ rounded binary64 RNE (Rpower 2 X) false (exp2_d rm x)) /\
  ((X <= -1075)%R -> exp2_d rm x = 0 /\ rounded binary64 RNE (Rpower 2 X) false (exp2_d rm x)).
Proof.
  intros rm x P Fi X. assert (Hx : is_real binary64 x X) by (split; auto). split; intros HX.
  - rewrite (exp2_d_over rm x X Hx HX). split; [reflexivity|]. apply (rounded_huge64 RNE). rewrite <- Rpower2_Z. apply Rle_Rpower; lra.
  - rewrite (exp2_d_under rm x X Hx HX). split; [reflexivity|].
    assert (Rpower 2 X <= bpow radix2 (-1075))%R by (rewrite <- Rpower2_Z; apply Rle_Rpower; lra).
    assert (bpow radix2 (-1075) < bpow radix2 (-1074))%R by (apply bpow_lt; lia). assert (0 < Rpower 2 X)%R by apply exp_pos. apply (rounded_tiny64 RNE); [lra|auto].
Qed.
Theorem C62_mode_refuted : forall x, is_pattern binary64 x -> is_fin binary64 x = true -> let X := fval binary64 x in
  ((1024 <= X)%R -> exp2_d RDN x = 0x7ff0000000000000 /\ rounded binary64 RDN (Rpower 2 X) false 0x7fefffffffffffff) /\
  ((X <= -1075)%R -> exp2_d RUP x = 0 /\ rounded binary64 RUP (Rpower 2 X) false 1).
Proof.
  intros x P Fi X. assert (Hx : is_real binary64 x X) by (split; auto). split; intros HX.
  - rewrite (exp2_d_over RDN x X Hx HX). split; [reflexivity|]. apply (rounded_huge64 RDN). rewrite <- Rpower2_Z. apply Rle_Rpower; lra.
  - rewrite (exp2_d_under RUP x X Hx HX). split; [reflexivity|].
    assert (Rpower 2 X <= bpow radix2 (-1075))%R by (rewrite <- Rpower2_Z; apply Rle_Rpower; lra).
    assert (bpow radix2 (-1075) < bpow radix2 (-1074))%R by (apply bpow_lt; lia). assert (0 < Rpower 2 X)%R by apply exp_pos. apply (rounded_tiny64 RUP); [lra|congruence].
Qed.
Theorem C62_special : forall rm x, is_pattern binary64 x ->
  (is_nan binary64 x = true -> is_nan binary64 (exp2_d rm x) = true) /\
  (is_inf binary64 x = true -> exp2_d rm x = if sign_of binary64 x then 0 else 0x7ff0000000000000).
Proof. exact exp2_d_special. Qed.
(** exp2(0.5) = 0x1.6a09e667f3bcdp0, exp2(-1074) is the least positive double, exp2(1023), exp2(1024) and exp2(-1075). *)
Example C62_case :
  exp2_d RNE 0x3fe0000000000000 = 0x3ff6a09e667f3bcd /\ exp2_d RUP 0xc090c80000000000 = 1 /\ exp2_d RDN 0x408ff80000000000 = 0x7fe0000000000000 /\
  exp2_d RDN 0x4090000000000000 = 0x7ff0000000000000 /\ exp2_d RUP 0xc090cc0000000000 = 0 /\
  decode binary64 0xc090c80000000000 = DFin true 4723501952925696 (-42) /\ is_fin binary64 0xc090c80000000000 = true.
Proof. repeat match goal with |- _ /\ _ => split end; vm_compute; reflexivity. Qed.

Print Assumptions C61_exp.
Print Assumptions C61_overflow.
Print Assumptions C61_underflow.
Print Assumptions C61_mode_refuted.
Print Assumptions C61_special.
Print Assumptions C62_exp2.
Print Assumptions C62_integer.
Print Assumptions C62_tiny.
Print Assumptions C62_outside.
Print Assumptions C62_mode_refuted.
Print Assumptions C62_special.
