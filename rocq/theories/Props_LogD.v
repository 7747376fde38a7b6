(** * C65-C67: log, log2 and log10 for double *)
From Coq Require Import ZArith Reals Bool Lia Lra List.
From Flocq Require Import Core.
From Verif Require Import MachInt Fmt FloatSpec RoundProofs FmtProofs FOps FOpsProofs ExtInterp FmanipWide ExpoData ExpoF LogD ErrLib LogfWrap LogDWrap.
Open Scope Z_scope.

(** ** C65: log(double) *)
(** For every positive finite double except 1 the result is the rounding, in the mode of the
    machine, of a real that differs from ln x by a relative error of at most 2^-55 (2^-54 in a
    directed mode): in the nearest mode the result is within 3/4 of an ulp of ln x. *)
Theorem C65_log : forall rm x zs, is_pattern binary64 x -> is_fin binary64 x = true -> let X := fval binary64 x in (0 < X)%R -> X <> 1%R ->
  exists v, (Rabs (v - ln X) <= bpow radix2 (match rm with RNE => -55 | _ => -54 end) * Rabs (ln X))%R /\ rounded binary64 rm v zs (log_d rm x).
Proof. exact log_d_accuracy. Qed.
(** The other arguments: NaN, the two zeros, every negative number, infinity and 1. *)
Theorem C65_special : forall rm x, is_pattern binary64 x -> let r := log_d rm x in
  (is_nan binary64 x = true -> r = qnan binary64) /\ (mag_of binary64 x = 0 -> r = f_inf binary64 true) /\
  (is_nan binary64 x = false -> sign_of binary64 x = true -> 0 < mag_of binary64 x -> r = sbit binary64 true + qnan binary64) /\
  (x = inf_mag binary64 -> r = inf_mag binary64) /\ (is_fin binary64 x = true -> fval binary64 x = 1%R -> r = 0).
Proof.
  intros rm x P r. destruct (log_wrapper_spec binary64 good64 (logd_impl rm) x P) as (A & B & C & D & E & _). exact (conj A (conj B (conj C (conj D E)))).
Qed.

(** ** C66: log2(double) *)
Theorem C66_log2 : forall rm x zs, is_pattern binary64 x -> is_fin binary64 x = true -> let X := fval binary64 x in (0 < X)%R -> X <> 1%R ->
  exists v, (Rabs (v - ln X / ln 2) <= bpow radix2 (match rm with RNE => -54 | _ => -53 end) * Rabs (ln X / ln 2))%R /\ rounded binary64 rm v zs (log2_d rm x).
Proof. exact log2_d_accuracy. Qed.
(** The logarithm of a power of two, subnormal ones included, is exact in the nearest mode. *)
Theorem C66_power : forall x n, is_pattern binary64 x -> is_fin binary64 x = true -> fval binary64 x = bpow radix2 n ->
  let r := log2_d RNE x in is_pattern binary64 r /\ is_fin binary64 r = true /\ fval binary64 r = IZR n.
Proof. exact log2_d_power. Qed.
(** In the directed modes it is not, unlike for float: log2(2) is the double below 1 rounding
    downward and the one above 1 rounding upward. *)
Theorem C66_power_directed_refuted : exists x, is_pattern binary64 x /\ fval binary64 x = bpow radix2 1 /\ log2_d RDN x = f_of_Z binary64 RNE 1 - 1 /\ log2_d RUP x = f_of_Z binary64 RNE 1 + 1.
Proof.
  exists 0x4000000000000000. split; [split; vm_compute; congruence|]. split; [|split; vm_compute; reflexivity].
  unfold fval. replace (decode binary64 0x4000000000000000) with (DFin false 4503599627370496 (-51)) by (vm_compute; reflexivity). cbn [dval]. change (bpow radix2 (-51)) with (/ 2251799813685248)%R. change (bpow radix2 1) with 2%R. lra.
Qed.
(** A NaN is returned unchanged. *)
Theorem C66_special : forall rm x, is_pattern binary64 x -> let r := log2_d rm x in
  (is_nan binary64 x = true -> r = x) /\ (mag_of binary64 x = 0 -> r = f_inf binary64 true) /\
  (is_nan binary64 x = false -> sign_of binary64 x = true -> 0 < mag_of binary64 x -> r = sbit binary64 true + qnan binary64) /\
  (x = inf_mag binary64 -> r = inf_mag binary64) /\ (is_fin binary64 x = true -> fval binary64 x = 1%R -> r = 0).
Proof.
  intros rm x P r. destruct (log2_wrapper_spec binary64 good64 (log2d_impl rm) x P) as (A & B & C & D & E & _). exact (conj A (conj B (conj C (conj D E)))).
Qed.

(** ** C67: log10(double) *)
(** The product of the rounded logarithm and the rounded constant: the relative error before the
    last rounding is at most 2^-52, or 2^-51 in a directed mode. *)
Theorem C67_log10 : forall rm x zs, is_pattern binary64 x -> is_fin binary64 x = true -> let X := fval binary64 x in (0 < X)%R -> X <> 1%R ->
  exists v, (Rabs (v - ln X / ln 10) <= bpow radix2 (match rm with RNE => -52 | _ => -51 end) * Rabs (ln X / ln 10))%R /\ rounded binary64 rm v zs (log10_d rm x).
Proof. exact log10_d_accuracy. Qed.
Theorem C67_special : forall rm x, is_pattern binary64 x -> let r := log10_d rm x in
  (is_nan binary64 x = true -> r = qnan binary64) /\ (mag_of binary64 x = 0 -> r = f_inf binary64 true) /\
  (is_nan binary64 x = false -> sign_of binary64 x = true -> 0 < mag_of binary64 x -> r = sbit binary64 true + qnan binary64) /\
  (x = inf_mag binary64 -> r = inf_mag binary64) /\ (is_fin binary64 x = true -> fval binary64 x = 1%R -> r = 0).
Proof.
  intros rm x P r. destruct (log_wrapper_spec binary64 good64 (fun y => f_mul binary64 rm (logd_impl rm y) log10e_d) x P) as (A & B & C & D & E & _). exact (conj A (conj B (conj C (conj D E)))).
Qed.
(** Powers of ten are not exact: in the nearest mode log10(10^15) is the double before 15, and
    rounding downward log10(10) is two steps below 1. *)
Theorem C67_power_refuted : exists n, n = 10 ^ 15 /\ f_of_Z binary64 RNE n = 0x430c6bf526340000 /\ decode binary64 0x430c6bf526340000 = DFin false (10 ^ 15 * 2 ^ 3) (-3) /\
  log10_d RNE (f_of_Z binary64 RNE n) = f_of_Z binary64 RNE 15 - 1 /\ log10_d RDN (f_of_Z binary64 RNE 10) = f_of_Z binary64 RNE 1 - 2.
Proof. exists (10 ^ 15). repeat match goal with |- _ /\ _ => split end; vm_compute; reflexivity. Qed.

(** The hypotheses are met by ordinary, subnormal and close-to-1 arguments. *)
Example C65_ex :
  (is_pattern binary64 0x4000000000000000 /\ is_fin binary64 0x4000000000000000 = true /\ fval binary64 0x4000000000000000 = 2%R) /\
  log_d RNE 0x4000000000000000 = 0x3fe62e42fefa39ef /\ log_d RUP 0x4000000000000000 = 0x3fe62e42fefa39f0 /\ log_d RDN 0x4000000000000000 = 0x3fe62e42fefa39ef /\
  is_fin binary64 1 = true /\ log_d RNE 1 = 13873131416795836867 /\ log_d RNE 0x3ff0000000000001 = 0x3cafffffffffffff /\ log_d RNE 0x3fefffffffffffff = 0xbca0000000000000 /\
  log_d RNE 0x8000000000000000 = 0xfff0000000000000 /\ log_d RNE 0xbff0000000000000 = 0xfff8000000000000.
Proof.
  repeat match goal with |- _ /\ _ => split end; try match goal with |- ?a = ?b => match type of a with R => fail 2 | _ => vm_compute; reflexivity end end; try (split; vm_compute; congruence).
  unfold fval. replace (decode binary64 0x4000000000000000) with (DFin false 4503599627370496 (-51)) by (vm_compute; reflexivity). cbn [dval]. change (bpow radix2 (-51)) with (/ 2251799813685248)%R. lra.
Qed.
Example C66_ex : log2_d RNE 0x4024000000000000 = 4614662735865160561 /\ (fval binary64 1 = bpow radix2 (-1074) /\ log2_d RNE 1 = f_of_Z binary64 RNE (-1074)) /\ log2_d RNE 0x3ff0000000000001 = 4374988959397937917.
Proof.
  repeat match goal with |- _ /\ _ => split end; try match goal with |- ?a = ?b => match type of a with R => fail 2 | _ => vm_compute; reflexivity end end.
  unfold fval. replace (decode binary64 1) with (DFin false 1 (-1074)) by (vm_compute; reflexivity). cbn [dval]. ring.
Qed.
Example C67_ex : log10_d RNE 0x4024000000000000 = f_of_Z binary64 RNE 1 /\ log10_d RNE 0x3fe0000000000000 = 13822466531077880319 /\ log10_d RUP 0x3fe0000000000000 = 13822466531077880318.
Proof. repeat match goal with |- _ /\ _ => split end; vm_compute; reflexivity. Qed.

Print Assumptions C65_log.
Print Assumptions C65_special.
Print Assumptions C66_log2.
Print Assumptions C66_power.
Print Assumptions C66_power_directed_refuted.
Print Assumptions C66_special.
Print Assumptions C67_log10.
Print Assumptions C67_special.
Print Assumptions C67_power_refuted.
