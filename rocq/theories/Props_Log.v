(** * C58-C60: log, log2 and log10 for float *)
From Coq Require Import ZArith Reals Bool Lia Lra List.
From Flocq Require Import Core.
From Verif Require Import MachInt Fmt FloatSpec RoundProofs FmtProofs FOps FOpsProofs ExtInterp FmanipWide ExpoData ExpoF ErrLib LogfWrap.
Open Scope Z_scope.

(** ** C58: log(float) *)
(** For every positive finite float except 1 the result is the rounding, in the mode of the
    machine, of a real that differs from ln x by a relative error of at most 2^-25. *)
Theorem C58_logf : forall rm x zs, is_pattern binary32 x -> is_fin binary32 x = true -> let X := fval binary32 x in (0 < X)%R -> X <> 1%R ->
  exists v, (Rabs (v - ln X) <= bpow radix2 (-25) * Rabs (ln X))%R /\ rounded binary32 rm v zs (logf rm x).
Proof. exact logf_accuracy. Qed.
(** The other arguments: NaN, the two zeros, every negative number, infinity and 1. *)
Theorem C58_special : forall rm x, is_pattern binary32 x -> let r := logf rm x in
  (is_nan binary32 x = true -> r = qnan binary32) /\ (mag_of binary32 x = 0 -> r = f_inf binary32 true) /\
  (is_nan binary32 x = false -> sign_of binary32 x = true -> 0 < mag_of binary32 x -> r = sbit binary32 true + qnan binary32) /\
  (x = inf_mag binary32 -> r = inf_mag binary32) /\ (is_fin binary32 x = true -> fval binary32 x = 1%R -> r = 0).
Proof.
  intros rm x P r. destruct (log_wrapper_spec binary32 good32 (logf_impl rm) x P) as (A & B & C & D & E & _). exact (conj A (conj B (conj C (conj D E)))).
Qed.

(** ** C59: log2(float) *)
Theorem C59_log2f : forall rm x zs, is_pattern binary32 x -> is_fin binary32 x = true -> let X := fval binary32 x in (0 < X)%R -> X <> 1%R ->
  exists v, (Rabs (v - ln X / ln 2) <= bpow radix2 (-25) * Rabs (ln X / ln 2))%R /\ rounded binary32 rm v zs (log2f rm x).
Proof. exact log2f_accuracy. Qed.
(** The logarithm of a power of two, subnormal ones included, is exact in every mode. *)
Theorem C59_power : forall rm x n, is_pattern binary32 x -> is_fin binary32 x = true -> fval binary32 x = bpow radix2 n ->
  let r := log2f rm x in is_pattern binary32 r /\ is_fin binary32 r = true /\ fval binary32 r = IZR n.
Proof. exact log2f_power. Qed.
(** A NaN is returned unchanged. *)
Theorem C59_special : forall rm x, is_pattern binary32 x -> let r := log2f rm x in
  (is_nan binary32 x = true -> r = x) /\ (mag_of binary32 x = 0 -> r = f_inf binary32 true) /\
  (is_nan binary32 x = false -> sign_of binary32 x = true -> 0 < mag_of binary32 x -> r = sbit binary32 true + qnan binary32) /\
  (x = inf_mag binary32 -> r = inf_mag binary32) /\ (is_fin binary32 x = true -> fval binary32 x = 1%R -> r = 0).
Proof.
  intros rm x P r. destruct (log2_wrapper_spec binary32 good32 (log2f_impl rm) x P) as (A & B & C & D & E & _). exact (conj A (conj B (conj C (conj D E)))).
Qed.

(** ** C60: log10(float) *)
(** The product of the rounded logarithm and the rounded constant: the relative error before the
    last rounding is at most 2^-23, or 2^-22 in a directed mode. *)
Theorem C60_log10f : forall rm x zs, is_pattern binary32 x -> is_fin binary32 x = true -> let X := fval binary32 x in (0 < X)%R -> X <> 1%R ->
  exists v, (Rabs (v - ln X / ln 10) <= bpow radix2 (match rm with RNE => -23 | _ => -22 end) * Rabs (ln X / ln 10))%R /\ rounded binary32 rm v zs (log10f rm x).
Proof. exact log10f_accuracy. Qed.
Theorem C60_special : forall rm x, is_pattern binary32 x -> let r := log10f rm x in
  (is_nan binary32 x = true -> r = qnan binary32) /\ (mag_of binary32 x = 0 -> r = f_inf binary32 true) /\
  (is_nan binary32 x = false -> sign_of binary32 x = true -> 0 < mag_of binary32 x -> r = sbit binary32 true + qnan binary32) /\
  (x = inf_mag binary32 -> r = inf_mag binary32) /\ (is_fin binary32 x = true -> fval binary32 x = 1%R -> r = 0).
Proof.
  intros rm x P r. destruct (log_wrapper_spec binary32 good32 (fun y => f_mul binary32 rm (logf_impl rm y) log10e_f) x P) as (A & B & C & D & E & _). exact (conj A (conj B (conj C (conj D E)))).
Qed.
(** Powers of ten are not exact: in the nearest mode log10(10^9) is the float after 9, and rounding
    downward log10(10) is two steps below 1. *)
Theorem C60_power_refuted : exists n, f_of_Z binary32 RNE n = 0x4e6e6b28 /\ decode binary32 0x4e6e6b28 = DFin false (5 ^ 9 * 2 ^ 3) 6 /\ n = 10 ^ 9 /\
  log10f RNE (f_of_Z binary32 RNE n) = f_of_Z binary32 RNE 9 + 1 /\ log10f RDN (f_of_Z binary32 RNE 10) = f_of_Z binary32 RNE 1 - 2.
Proof. exists (10 ^ 9). repeat match goal with |- _ /\ _ => split end; vm_compute; reflexivity. Qed.

(** The hypotheses are met by ordinary, subnormal and close-to-1 arguments. *)
Example C58_ex :
  (is_pattern binary32 0x40000000 /\ is_fin binary32 0x40000000 = true /\ fval binary32 0x40000000 = 2%R) /\
  logf RNE 0x40000000 = 0x3f317218 /\ logf RUP 0x40000000 = 0x3f317218 /\ logf RDN 0x40000000 = 0x3f317217 /\
  is_fin binary32 1 = true /\ logf RNE 1 = 0xc2ce8ed0 /\ logf RNE 0x3f800001 = 0x33ffffff /\ logf RNE 0x3f7fffff = 0xb3800000 /\
  logf RNE 0x80000000 = 0xff800000 /\ logf RNE 0xbf800000 = 0xffc00000.
Proof. repeat match goal with |- _ /\ _ => split end; try match goal with |- ?a = ?b => match type of a with R => fail 2 | _ => vm_compute; reflexivity end end; try (split; vm_compute; congruence). unfold fval. replace (decode binary32 0x40000000) with (DFin false 8388608 (-22)) by (vm_compute; reflexivity). cbn [dval]. change (bpow radix2 (-22)) with (/ 4194304)%R. try change (bpow radix2 1) with 2%R. lra. Qed.
Example C59_ex :
  (is_pattern binary32 0x41200000 /\ is_fin binary32 0x41200000 = true /\ fval binary32 0x41200000 = 10%R) /\ log2f RNE 0x41200000 = 0x40549a78 /\
  (fval binary32 1 = bpow radix2 (-149) /\ log2f RDN 1 = f_of_Z binary32 RNE (-149)) /\ (fval binary32 0x40000000 = bpow radix2 1 /\ log2f RUP 0x40000000 = f_of_Z binary32 RNE 1).
Proof.
  repeat match goal with |- _ /\ _ => split end; try match goal with |- ?a = ?b => match type of a with R => fail 2 | _ => vm_compute; reflexivity end end; try (split; vm_compute; congruence); unfold fval.
  - replace (decode binary32 0x41200000) with (DFin false 10485760 (-20)) by (vm_compute; reflexivity). cbn [dval]. change (bpow radix2 (-20)) with (/ 1048576)%R; lra.
  - replace (decode binary32 1) with (DFin false 1 (-149)) by (vm_compute; reflexivity). cbn [dval]. ring.
  - replace (decode binary32 0x40000000) with (DFin false 8388608 (-22)) by (vm_compute; reflexivity). cbn [dval]. change (bpow radix2 (-22)) with (/ 4194304)%R. try change (bpow radix2 1) with 2%R. lra.
Qed.
Example C60_ex : log10f RNE 0x41200000 = f_of_Z binary32 RNE 1 /\ log10f RNE 0x42c80000 = f_of_Z binary32 RNE 2 /\ log10f RNE 0x3f000000 = 0xbe9a209b.
Proof. repeat match goal with |- _ /\ _ => split end; vm_compute; reflexivity. Qed.

Print Assumptions C58_logf.
Print Assumptions C58_special.
Print Assumptions C59_log2f.
Print Assumptions C59_power.
Print Assumptions C59_special.
Print Assumptions C60_log10f.
Print Assumptions C60_special.
Print Assumptions C60_power_refuted.
