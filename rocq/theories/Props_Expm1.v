(** * C63-C64: expm1 *)
From Coq Require Import ZArith Reals Bool Lia Lra List.
From Flocq Require Import Core.
From Verif Require Import MachInt Fmt FloatSpec RoundProofs FmtProofs FOps FOpsProofs ExactOps ExtFloatSpec ExtFloatProofs ExtInterp FmanipWide ExpoData ExpoF ErrLib Exp2fProofs ExpoFWrap ExpD ExpDWrap ExpM1 Expm1Proofs Expm1Wrap.
Open Scope Z_scope.

(** ** C63: expm1(float) *)
(** Between the two bounds of the code the result is the rounding, in the mode of the machine, of a
    real that differs from e^x - 1 by a relative error of at most 2^-22 (2^-21 in a directed mode)
    plus two least subnormals. *)
Theorem C63_expm1 : forall rm x, is_pattern binary32 x -> is_fin binary32 x = true -> let X := fval binary32 x in
  X <> 0%R -> (- (IZR 0x33fc6d * bpow radix2 (-15)) <= X <= IZR 0xb17217 * bpow radix2 (-17))%R ->
  exists v zs, rounded binary32 rm v zs (expm1f rm x) /\
    (Rabs (v - (exp X - 1)) <= bpow radix2 (match rm with RNE => -22 | _ => -21 end) * Rabs (exp X - 1) + bpow radix2 (-148))%R.
Proof.
  intros rm x P Fi X N HX. destruct (expm1f_all rm x X) as (v & zs & RV & EV); [split; auto|auto|exact HX|]. exists v, zs. split; [exact RV|].
  replace (bpow radix2 (match rm with RNE => -22 | _ => -21 end)) with (4 * uF binary32 rm)%R; [exact EV|]. change 4%R with (bpow radix2 2). destruct rm; cbn [uF]; rewrite <- bpow_plus; reflexivity.
Qed.
(** From 1/4 on in absolute value the subtraction happens in double: 2^-30 (2^-23). *)
Theorem C63_far : forall rm x, is_pattern binary32 x -> is_fin binary32 x = true -> let X := fval binary32 x in
  (/ 4 <= Rabs X)%R -> (- (IZR 0x33fc6d * bpow radix2 (-15)) <= X <= IZR 0xb17217 * bpow radix2 (-17))%R ->
  exists v zs, rounded binary32 rm v zs (expm1f rm x) /\
    (Rabs (v - (exp X - 1)) <= bpow radix2 (match rm with RNE => -30 | _ => -23 end) * Rabs (exp X - 1))%R.
Proof.
  intros rm x P Fi X N HX. destruct (expm1f_far rm x X) as (v & zs & RV & EV); [split; auto|auto|exact HX|]. exists v, zs. split; [exact RV|].
  destruct rm; exact EV.
Qed.
(** Up to 1/16 the cancellation of e^x - 1 does not show: 2^-26 (2^-25). *)
Theorem C63_near : forall rm x, is_pattern binary32 x -> is_fin binary32 x = true -> let X := fval binary32 x in
  X <> 0%R -> (Rabs X <= / 16)%R ->
  exists v zs, rounded binary32 rm v zs (expm1f rm x) /\
    (Rabs (v - (exp X - 1)) <= bpow radix2 (match rm with RNE => -26 | _ => -25 end) * Rabs (exp X - 1) + bpow radix2 (-148))%R.
Proof.
  intros rm x P Fi X N HX. destruct (expm1f_near rm x X) as (v & zs & RV & EV); [split; auto|auto|exact HX|]. exists v, zs. split; [exact RV|].
  replace (bpow radix2 (match rm with RNE => -26 | _ => -25 end)) with (/ 4 * uF binary32 rm)%R; [exact EV|]. change (/ 4)%R with (bpow radix2 (-2)). destruct rm; cbn [uF]; rewrite <- bpow_plus; reflexivity.
Qed.
(** Outside the bounds: +inf and -1, in every mode. *)
Theorem C63_outside : forall rm x, is_pattern binary32 x -> is_fin binary32 x = true -> let X := fval binary32 x in
  ((IZR 0xb17217 * bpow radix2 (-17) < X)%R -> expm1f rm x = 0x7f800000) /\ ((X < - (IZR 0x33fc6d * bpow radix2 (-15)))%R -> expm1f rm x = 0xbf800000).
Proof. intros rm x P Fi X. destruct (expm1f_out rm x X) as [A B]; [split; auto|]. split; [exact A|exact B]. Qed.
(** Zeros are returned with their sign, NaN and the infinities as IEC 60559 prescribes. *)
Theorem C63_special : forall rm x, is_pattern binary32 x ->
  (mag_of binary32 x = 0 -> expm1f rm x = x) /\ (is_nan binary32 x = true -> is_nan binary32 (expm1f rm x) = true) /\
  (is_inf binary32 x = true -> expm1f rm x = if sign_of binary32 x then 0xbf800000 else 0x7f800000).
Proof.
  intros rm x P. destruct (expm1_special binary32 (litf 1 (-2)) (litf 1 (-4)) (litf 1 (-1)) (litf 1 1) (litf (-1) 0) expm1f_cs expm1f_kernel rm x good32 hi32 ltac:(intros []; reflexivity) P) as (A & B & C).
  split; [exact A|split; [|exact C]]. intros H. unfold expm1f. rewrite (B H). reflexivity.
Qed.
(** expm1f at 1, 1/8, 1/32, -10, 89, -200, the least subnormal, and what they are. *)
Example C63_case : expm1f RNE 0x3f800000 = 1071378601 /\ expm1f RNE 0x3e000000 = 1040734225 /\ expm1f RNE 0x3d000000 = 1023542624 /\
  expm1f RNE 0xc1200000 = 3212836102 /\ expm1f RDN 0x42b20000 = 0x7f800000 /\ expm1f RUP 0xc3480000 = 0xbf800000 /\ expm1f RNE 1 = 1 /\
  decode binary32 0x3e000000 = DFin false 8388608 (-26) /\ is_fin binary32 0xc1200000 = true /\ expm1f RNE 0x80000000 = 0x80000000.
Proof. repeat match goal with |- _ /\ _ => split end; vm_compute; reflexivity. Qed.

(** ** C64: expm1(double) *)
(** Between -512 and 1023 the relative error is at most 2^-42, two thousand units in the last place. *)
Theorem C64_expm1 : forall rm x, is_pattern binary64 x -> is_fin binary64 x = true -> let X := fval binary64 x in
  X <> 0%R -> (-512 < X <= 1023)%R ->
  exists v zs, rounded binary64 rm v zs (expm1_d rm x) /\ (Rabs (v - (exp X - 1)) <= bpow radix2 (-42) * Rabs (exp X - 1) + bpow radix2 (-1073))%R.
Proof. intros rm x P Fi X N HX. apply expm1_d_all; [split; auto|exact N|exact HX]. Qed.
(** Away from the interval between 1/16 and 1/4 the error is a few units in the last place. *)
Theorem C64_far : forall rm x, is_pattern binary64 x -> is_fin binary64 x = true -> let X := fval binary64 x in
  (/ 4 <= Rabs X)%R -> (-512 < X <= 1023)%R ->
  exists v zs, rounded binary64 rm v zs (expm1_d rm x) /\
    (Rabs (v - (exp X - 1)) <= bpow radix2 (match rm with RNE => -50 | _ => -49 end) * Rabs (exp X - 1))%R.
Proof. intros rm x P Fi X N HX. destruct (expm1_d_far rm x X) as (v & zs & RV & EV); [split; auto|exact N|exact HX|]. exists v, zs. split; [exact RV|]. destruct rm; exact EV. Qed.
Theorem C64_near : forall rm x, is_pattern binary64 x -> is_fin binary64 x = true -> let X := fval binary64 x in
  X <> 0%R -> (Rabs X <= / 16)%R ->
  exists v zs, rounded binary64 rm v zs (expm1_d rm x) /\ (Rabs (v - (exp X - 1)) <= bpow radix2 (-50) * Rabs (exp X - 1) + bpow radix2 (-1073))%R.
Proof. intros rm x P Fi X N HX. apply expm1_d_near; [split; auto|exact N|exact HX]. Qed.
(** Overflow, and -1 from -1024 down. *)
Theorem C64_outside : forall rm x, is_pattern binary64 x -> is_fin binary64 x = true -> let X := fval binary64 x in
  ((710 <= X < 1024)%R -> rounded binary64 rm (exp X - 1) false (expm1_d rm x)) /\
  ((1024 <= X)%R -> expm1_d rm x = 0x7ff0000000000000) /\ ((X <= -1024)%R -> expm1_d rm x = 0xbff0000000000000).
Proof. intros rm x P Fi X. destruct (expm1_d_out rm x X) as (A & B & C & _); [split; auto|]. split; [exact A|split; [exact B|exact C]]. Qed.
(** False between -1024 and -512: every argument gives a number close to 0, where e^x - 1 is close to -1. *)
Theorem C64_negative_refuted : forall rm x, is_pattern binary64 x -> is_fin binary64 x = true -> let X := fval binary64 x in (-1024 < X <= -512)%R ->
  is_fin binary64 (expm1_d rm x) = true /\ (0 <= fval binary64 (expm1_d rm x) <= bpow radix2 (-700))%R /\ (-1 < exp X - 1 < - / 2)%R.
Proof.
  intros rm x P Fi X HX. destruct (expm1_d_out rm x X) as (_ & _ & _ & D0); [split; auto|]. destruct (D0 HX) as [A B]. split; [exact A|split; [exact B|]].
  pose proof (exp_pos X). pose proof (exp_small_512 X ltac:(lra)). lra.
Qed.
(** The bound 2^-42 cannot be much improved: at 0x1ffff * 2^-19, just below 1/4, the result is more than
    800 units in the last place (of size 2^-54) away from e^x - 1. *)
Theorem C64_series_refuted : exists x X, is_pattern binary64 x /\ is_fin binary64 x = true /\ fval binary64 x = X /\ (/ 16 < X < / 4)%R /\
  (/ 4 <= exp X - 1 <= / 2)%R /\ (800 * bpow radix2 (-54) < Rabs (fval binary64 (expm1_d RNE x) - (exp X - 1)))%R.
Proof.
  destruct expm1_d_cut as [(A & B & C) E]. exists 0x3fcffff000000000, (IZR 0x1ffff * bpow radix2 (-19))%R. split; [exact A|split; [exact B|split; [exact C|]]].
  pose proof cut_range as (R1 & R2). split; [exact R1|split; [exact R2|exact E]].
Qed.
Theorem C64_special : forall rm x, is_pattern binary64 x ->
  (mag_of binary64 x = 0 -> expm1_d rm x = x) /\ (is_nan binary64 x = true -> is_nan binary64 (expm1_d rm x) = true) /\
  (is_inf binary64 x = true -> expm1_d rm x = if sign_of binary64 x then 0xbff0000000000000 else 0x7ff0000000000000).
Proof.
  intros rm x P. destruct (expm1_special binary64 (lit 1 (-2)) (lit 1 (-4)) (lit 1 (-1)) (lit 1 1) (lit (-1) 0) expm1d_cs expm1d_kernel rm x good64 hi64 ltac:(intros []; reflexivity) P) as (A & B & C).
  split; [exact A|split; [|exact C]]. intros H. unfold expm1_d. rewrite (B H). reflexivity.
Qed.
(** expm1 at 1, 1/8, -600, 1000, 2000, -2000 and -0. *)
Example C64_case : expm1_d RNE 0x3ff0000000000000 = 0x3ffb7e151628aed2 /\ expm1_d RNE 0x3fc0000000000000 = 4593965198879469157 /\ expm1_d RNE 0xc082c00000000000 = 708434364405563505 /\
  expm1_d RZR 0x408f400000000000 = 0x7fefffffffffffff /\ expm1_d RNE 0x409f400000000000 = 0x7ff0000000000000 /\ expm1_d RNE 0xc09f400000000000 = 0xbff0000000000000 /\
  expm1_d RNE 0x8000000000000000 = 0x8000000000000000 /\ decode binary64 0xc082c00000000000 = DFin true 5277655813324800 (-43) /\ is_fin binary64 0xc082c00000000000 = true.
Proof. repeat match goal with |- _ /\ _ => split end; vm_compute; reflexivity. Qed.

Print Assumptions C63_expm1.
Print Assumptions C63_far.
Print Assumptions C63_near.
Print Assumptions C63_outside.
Print Assumptions C63_special.
Print Assumptions C64_expm1.
Print Assumptions C64_far.
Print Assumptions C64_near.
Print Assumptions C64_outside.
Print Assumptions C64_negative_refuted.
Print Assumptions C64_series_refuted.
Print Assumptions C64_special.
