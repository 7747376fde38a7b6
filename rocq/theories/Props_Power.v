(** * C68, C69: hypot and cbrt *)
From Coq Require Import ZArith Reals Bool Lia Lra.
From Flocq Require Import Core.
From Verif Require Import MachInt Fmt FloatSpec RoundProofs FmtProofs FOps FOpsProofs FPBits ExtInterp FmanipWide SqrtSpec Power Expm1Proofs HypotProofs CbrtProofs.
Open Scope Z_scope.

(** The unit of the relative error of one rounding: 2^-p to nearest, 2^(1-p) in a directed mode. *)
Definition unit_of (F : fmt) (rm : rmode) : R := bpow radix2 (match rm with RNE => - prec F | _ => 1 - prec F end).

Lemma unit_uF : forall F rm, unit_of F rm = uF F rm. Proof. intros F []; reflexivity. Qed.
Ltac two H := destruct H as [-> | ->].
Ltac side := first [assumption | exact 0%nat | exact good32 | exact good64 | (vm_compute; congruence) | (split; vm_compute; congruence) | exact (eq_refl : width binary32 = 2 ^ Z.of_nat 5) | exact (eq_refl : width binary64 = 2 ^ Z.of_nat 6)].

(** ** C68: hypot *)
(** On finite arguments the result is the rounding, in the mode of the machine, of a real that
    differs from sqrt(x^2 + y^2) by at most 2.3 units: no spurious overflow or underflow.  The real
    is at least |x| and |y|, and it is exact when one of the arguments is zero. *)
Theorem C68_hypot : forall F rm x y, F = binary32 \/ F = binary64 -> is_pattern F x -> is_fin F x = true -> is_pattern F y -> is_fin F y = true ->
  let X := fval F x in let Y := fval F y in let h := sqrt (X * X + Y * Y) in
  exists b v, cc_hypot F rm x y = Some b /\ (Rabs (v - h) <= 23 / 10 * unit_of F rm * h)%R /\ (Rabs X <= v)%R /\ (Rabs Y <= v)%R /\
    (X = 0 \/ Y = 0 -> v = h)%R /\ rounded F rm v false b.
Proof.
  intros F rm x y H. rewrite unit_uF. two H; [apply (hypot_fin binary32) with (k := 5%nat)|apply (hypot_fin binary64) with (k := 6%nat)]; side.
Qed.
(** An infinity wins over a NaN. *)
Theorem C68_special : forall F rm x y, F = binary32 \/ F = binary64 -> is_pattern F x -> is_pattern F y ->
  (is_inf F x = true \/ is_inf F y = true -> cc_hypot F rm x y = Some (inf_mag F)) /\
  (is_inf F x = false -> is_inf F y = false -> is_nan F x = true \/ is_nan F y = true -> cc_hypot F rm x y = Some (qnan F)).
Proof. intros F rm x y H Px Py. two H; apply hypot_special; side. Qed.
Theorem C68_symmetric : forall F rm x y, F = binary32 \/ F = binary64 -> is_pattern F x -> is_pattern F y -> cc_hypot F rm x y = cc_hypot F rm y x.
Proof. intros F rm x y H Px Py. two H; apply hypot_sym; side. Qed.
(** Three arguments. *)
Theorem C68_hypot3 : forall F rm x y z, F = binary32 \/ F = binary64 -> is_pattern F x -> is_fin F x = true -> is_pattern F y -> is_fin F y = true ->
  is_pattern F z -> is_fin F z = true ->
  let X := fval F x in let Y := fval F y in let Z := fval F z in let h := sqrt (X * X + Y * Y + Z * Z) in (sqrt (X * X + Y * Y) <= bpow radix2 (bias F))%R ->
  exists b v, cc_hypot3 F rm x y z = Some b /\ (Rabs (v - h) <= 57 / 10 * unit_of F rm * h + 2 * bpow radix2 (emin F))%R /\ rounded F rm v false b.
Proof.
  intros F rm x y z H. rewrite unit_uF. two H; [apply (hypot3_fin binary32) with (k := 5%nat)|apply (hypot3_fin binary64) with (k := 6%nat)]; side.
Qed.
(** The long double overload goes through double: hypot(2^2000, 0) is infinite in the 80-bit format,
    and hypot(1 + 2^-63, 0) is 1. *)
Theorem C68_long_double_refuted : exists x y, is_fin fmt80 x = true /\ is_fin fmt80 y = true /\
  cc_hypot_long fmt80 RNE x 0 = Some (inf_mag fmt80) /\ y <> f_one fmt80 false /\ cc_hypot_long fmt80 RNE y 0 = Some (f_one fmt80 false).
Proof.
  exists (f_pow2 fmt80 false 2000), (f_one fmt80 false + 1). repeat match goal with |- _ /\ _ => split end; vm_compute; congruence.
Qed.
(** hypot(3, -4) = 5; hypot of the largest double and 0, of twice the least float rounded upward; hypot(1, 2, 2) = 3. *)
Example C68_case :
  cc_hypot binary64 RNE 0x4008000000000000 0xC010000000000000 = Some 0x4014000000000000 /\ cc_hypot binary32 RUP 1 1 = Some 2 /\
  cc_hypot binary64 RNE 0x7fefffffffffffff 0 = Some 0x7fefffffffffffff /\
  cc_hypot3 binary64 RNE 0x3ff0000000000000 0x4000000000000000 0x4000000000000000 = Some 0x4008000000000000 /\
  is_fin binary64 0xC010000000000000 = true /\ is_inf binary64 0xfff0000000000000 = true /\ is_nan binary64 0x7ff8000000000001 = true.
Proof. repeat match goal with |- _ /\ _ => split end; vm_compute; reflexivity. Qed.

(** ** C69: cbrt *)
(** For a positive finite argument with cube root r, subnormal ones included, the result is the
    rounding of a real that differs from r by at most 1.7 units. *)
Theorem C69_cbrtf : forall rm x r zs, is_pattern binary32 x -> is_fin binary32 x = true -> (0 < fval binary32 x)%R -> (r * r * r = fval binary32 x)%R ->
  exists v, (Rabs (v - r) <= 17 / 10 * unit_of binary32 rm * r)%R /\ rounded binary32 rm v zs (cbrtf rm x).
Proof. intros rm. rewrite unit_uF. exact (cbrtf_accuracy rm). Qed.
Theorem C69_cbrt : forall rm x r zs, is_pattern binary64 x -> is_fin binary64 x = true -> (0 < fval binary64 x)%R -> (r * r * r = fval binary64 x)%R ->
  exists v, (Rabs (v - r) <= 17 / 10 * unit_of binary64 rm * r)%R /\ rounded binary64 rm v zs (cbrt_d rm x).
Proof. intros rm. rewrite unit_uF. exact (cbrt_d_accuracy rm). Qed.
(** The function is odd. *)
Theorem C69_odd : forall rm x,
  (is_pattern binary32 x -> is_nan binary32 x = false -> sign_of binary32 x = false -> cbrtf rm (f_neg binary32 x) = f_neg binary32 (cbrtf rm x)) /\
  (is_pattern binary64 x -> is_nan binary64 x = false -> sign_of binary64 x = false -> cbrt_d rm (f_neg binary64 x) = f_neg binary64 (cbrt_d rm x)).
Proof. intros rm x. split; intros P N S; [exact (cbrt_odd binary32 rm _ _ x good32 ltac:(vm_compute; congruence) P N S)|exact (cbrt_odd binary64 rm _ _ x good64 ltac:(vm_compute; congruence) P N S)]. Qed.
(** Zeros, infinities and NaNs are returned unchanged. *)
Theorem C69_special : forall rm x,
  (is_pattern binary32 x -> is_nan binary32 x = true \/ is_inf binary32 x = true \/ mag_of binary32 x = 0 -> cbrtf rm x = x) /\
  (is_pattern binary64 x -> is_nan binary64 x = true \/ is_inf binary64 x = true \/ mag_of binary64 x = 0 -> cbrt_d rm x = x).
Proof. intros rm x. split; intros P H; [exact (cbrt_special binary32 rm _ _ x good32 ltac:(vm_compute; congruence) P H)|exact (cbrt_special binary64 rm _ _ x good64 ltac:(vm_compute; congruence) P H)]. Qed.
(** cbrt(8) = 2, cbrt(-27) = -3, cbrt(1000) = 10, the cube root of the least double, and cbrtf(8) rounding downward. *)
Example C69_case : cbrt_d RNE 0x4020000000000000 = 0x4000000000000000 /\ cbrt_d RNE 0xC03B000000000000 = 0xC008000000000000 /\
  cbrt_d RNE 0x408F400000000000 = 0x4024000000000000 /\ cbrt_d RNE 1 = 0x2990000000000000 /\ cbrtf RDN 0x41000000 = 0x40000000 /\ is_fin binary64 1 = true.
Proof. repeat match goal with |- _ /\ _ => split end; vm_compute; reflexivity. Qed.

Print Assumptions C68_hypot.
Print Assumptions C68_special.
Print Assumptions C68_symmetric.
Print Assumptions C68_hypot3.
Print Assumptions C68_long_double_refuted.
Print Assumptions C69_cbrtf.
Print Assumptions C69_cbrt.
Print Assumptions C69_odd.
Print Assumptions C69_special.
