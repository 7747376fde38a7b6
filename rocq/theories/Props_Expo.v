(** * C56-C57: exp2 and exp for float *)
From Coq Require Import ZArith Reals Bool Lia Lra List.
From Flocq Require Import Core.
From Verif Require Import MachInt Fmt FloatSpec RoundProofs FmtProofs FOps FOpsProofs ExtInterp FmanipWide ExpoData ExpoF ErrLib Exp2fProofs ExpfProofs ExpoFWrap.
Open Scope Z_scope.

(** ** C56: exp2(float) *)
(** From -149 up to 128 the result is the rounding, in the mode of the machine, of a real that
    differs from 2^x by a relative error of at most 2^-33 (2^-26 in a directed mode). *)
Theorem C56_exp2f : forall dm rm x, is_pattern binary32 x -> is_fin binary32 x = true -> let X := fval binary32 x in (-149 <= X < 128)%R ->
  exists v, (Rabs (v - Rpower 2 X) <= bpow radix2 (match rm with RNE => -33 | _ => -26 end) * Rpower 2 X)%R /\
    rounded binary32 rm v false (exp2f dm rm x).
Proof.
  intros dm rm x P Fi X HX. destruct (exp2f_accuracy dm rm x P Fi HX) as (v & H1 & H2). exists v. split; [|exact H2]. destruct rm; exact H1.
Qed.
(** A power of two is exact in every mode. *)
Theorem C56_integer : forall dm rm x n, is_pattern binary32 x -> is_fin binary32 x = true -> fval binary32 x = IZR n -> -149 <= n < 128 ->
  let r := exp2f dm rm x in is_pattern binary32 r /\ is_fin binary32 r = true /\ fval binary32 r = bpow radix2 n.
Proof. exact exp2f_integer. Qed.
(** Outside, the result is 2^x correctly rounded in the requested mode, except to nearest between -150 and -149. *)
Theorem C56_outside : forall dm rm x, is_pattern binary32 x -> is_fin binary32 x = true -> let X := fval binary32 x in
  (128 <= X \/ X < -149)%R -> (dm = RNE -> 128 <= X \/ X <= -150)%R -> rounded binary32 dm (Rpower 2 X) false (exp2f dm rm x).
Proof. exact exp2f_outside. Qed.
(** There the nearest float is 2^-149 but the result is 0. *)
Theorem C56_gap_refuted : forall rm x, is_pattern binary32 x -> is_fin binary32 x = true -> (-150 < fval binary32 x < -149)%R ->
  exp2f RNE rm x = 0 /\ rounded binary32 RNE (Rpower 2 (fval binary32 x)) false 1.
Proof.
  intros rm x P Fi HX. split; [rewrite exp2f_under by (auto; lra); reflexivity|].
  assert (HB : (bpow radix2 (-150) < Rpower 2 (fval binary32 x) < bpow radix2 (-149))%R).
  { rewrite <- !Rpower2_Z. split; apply Rpower_lt; lra. }
  apply one_rounded, HB.
Qed.
Theorem C56_special : forall dm rm x, is_pattern binary32 x ->
  (is_nan binary32 x = true -> is_nan binary32 (exp2f dm rm x) = true) /\
  (is_inf binary32 x = true -> exp2f dm rm x = if sign_of binary32 x then 0 else 0x7f800000).
Proof. exact exp2f_special. Qed.
(** exp2(0.5) = 0x1.6a09e6p0, exp2(-149) is the least positive float, exp2(-149.5) = 0. *)
Example C56_case :
  exp2f RNE RNE 0x3f000000 = 0x3fb504f3 /\ exp2f RUP RUP 0xc3150000 = 1 /\ exp2f RNE RNE 0xc3158000 = 0 /\ exp2f RUP RUP 0xc3158000 = 1 /\
  exp2f RNE RNE 0x43000000 = 0x7f800000 /\ exp2f RZR RZR 0x43000000 = 0x7f7fffff /\
  decode binary32 0xc3158000 = DFin true 9797632 (-16) /\ is_fin binary32 0xc3158000 = true.
Proof. repeat match goal with |- _ /\ _ => split end; vm_compute; reflexivity. Qed.

(** ** C57: exp(float) *)
(** The thresholds of the code: 0x1.62e42ep6 = 0xb17217 * 2^-17 and -0x1.9fe368p6 = -0x33fc6d * 2^-15. *)
Theorem C57_expf : forall rm x, is_pattern binary32 x -> is_fin binary32 x = true -> let X := fval binary32 x in
  (- (IZR 0x33fc6d * bpow radix2 (-15)) <= X <= IZR 0xb17217 * bpow radix2 (-17))%R ->
  exists v, (Rabs (v - exp X) <= bpow radix2 (match rm with RNE => -33 | _ => -26 end) * exp X)%R /\
    rounded binary32 rm v false (expf rm x).
Proof.
  intros rm x P Fi X HX. destruct (expf_accuracy rm x P Fi HX) as (v & H1 & H2). exists v. split; [|exact H2]. destruct rm; exact H1.
Qed.
(** Above, the result is +inf in every mode; that is e^x rounded to nearest. *)
Theorem C57_overflow : forall rm x, is_pattern binary32 x -> is_fin binary32 x = true -> let X := fval binary32 x in
  (IZR 0xb17217 * bpow radix2 (-17) < X)%R -> expf rm x = 0x7f800000 /\ rounded binary32 RNE (exp X) false (expf RNE x).
Proof.
  intros rm x P Fi X HX. split; [exact (expf_over rm x P Fi HX)|]. rewrite (expf_over RNE x P Fi HX). exact (proj1 (expf_outside x P Fi) HX).
Qed.
(** Below, the result is the least positive float in every mode, though the float nearest e^x is 0. *)
Theorem C57_underflow_refuted : forall rm x, is_pattern binary32 x -> is_fin binary32 x = true -> let X := fval binary32 x in
  (X < - (IZR 0x33fc6d * bpow radix2 (-15)))%R -> expf rm x = 1 /\ rounded binary32 RNE (exp X) false 0.
Proof. intros rm x P Fi X HX. split; [exact (expf_under rm x P Fi HX)|]. exact (proj2 (expf_outside x P Fi) HX). Qed.
Theorem C57_special : forall rm x, is_pattern binary32 x ->
  (is_nan binary32 x = true -> is_nan binary32 (expf rm x) = true) /\
  (is_inf binary32 x = true -> expf rm x = if sign_of binary32 x then 0 else 0x7f800000).
Proof. exact expf_special. Qed.
(** exp(1) = 0x1.5bf0a8p1, exp(0) = 1, exp(-104) = 2^-149 (to nearest 0), exp(89) = inf. *)
Example C57_case :
  expf RNE 0x3f800000 = 0x402df854 /\ expf RNE 0 = 0x3f800000 /\ expf RNE 0xc2d00000 = 1 /\ expf RZR 0x42b20000 = 0x7f800000 /\
  decode binary32 0xc2d00000 = DFin true 13631488 (-17) /\ 0x33fc6d * 4 < 13631488.
Proof. repeat match goal with |- _ /\ _ => split end; vm_compute; reflexivity. Qed.

Print Assumptions C56_exp2f.
Print Assumptions C56_integer.
Print Assumptions C56_outside.
Print Assumptions C56_gap_refuted.
Print Assumptions C56_special.
Print Assumptions C57_expf.
Print Assumptions C57_overflow.
Print Assumptions C57_underflow_refuted.
Print Assumptions C57_special.
