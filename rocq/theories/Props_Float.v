(** * Property theorems C17 to C20 and C31: bit patterns, classes, comparison, sign.
    [fmt] is a format (fraction length, exponent length); [decode], [fval],
    [xlt], [xeq] are the specification (Fmt.v, FloatSpec.v).  [good_fmt] and
    [el F <= 16] hold of binary16/32/64/128 ([C17_formats]). *)
From Coq Require Import ZArith Lia Bool Reals.
From Flocq Require Import Core.
From Verif Require Import MachInt Bits Fmt FloatSpec RoundProofs FOps FPBits FPBitsProofs Compare CompareProofs.
Open Scope Z_scope.

Example C17_formats : (good_fmt binary16 /\ el binary16 <= 16) /\ (good_fmt binary32 /\ el binary32 <= 16) /\
  (good_fmt binary64 /\ el binary64 <= 16) /\ (good_fmt binary128 /\ el binary128 <= 16).
Proof. unfold good_fmt. cbn. lia. Qed.

(* C17 *)
Theorem C17_rebuild : forall F, good_fmt F -> el F <= 16 -> forall b, is_pattern F b ->
  create_value F (fp_sign F b) (get_biased_exponent F b) (get_mantissa F b) = b.
Proof. exact create_fields. Qed.
Theorem C17_getters : forall F, good_fmt F -> el F <= 16 -> forall b,
  fp_sign F b = sign_of F b /\ get_biased_exponent F b = exp_field F b /\ get_mantissa F b = man_field F b.
Proof. exact get_fields. Qed.
Theorem C17_create_value : forall F, good_fmt F -> el F <= 16 -> forall s e m, 0 <= e < 2 ^ el F -> 0 <= m < 2 ^ fl F ->
  let b := create_value F s e m in
  is_pattern F b /\ sign_of F b = s /\ exp_field F b = e /\ man_field F b = m.
Proof. exact create_value_fields. Qed.
Theorem C17_setters : forall F, good_fmt F -> el F <= 16 -> forall b s e m,
  is_pattern F b -> 0 <= e < 2 ^ el F -> 0 <= m < 2 ^ fl F ->
  (let c := set_sign F b s in is_pattern F c /\ sign_of F c = s /\ exp_field F c = exp_field F b /\ man_field F c = man_field F b) /\
  (let c := set_biased_exponent_pub F b e in is_pattern F c /\ sign_of F c = sign_of F b /\ exp_field F c = e /\ man_field F c = man_field F b) /\
  (let c := set_mantissa F b m in is_pattern F c /\ sign_of F c = sign_of F b /\ exp_field F c = exp_field F b /\ man_field F c = m).
Proof. exact set_fields. Qed.
(** The explicit mantissa and exponent denote the magnitude; the mantissa has its
    leading bit exactly when the number is normal. *)
Theorem C17_explicit_value : forall F, good_fmt F -> el F <= 16 -> forall b, is_fin F b = true ->
  Rabs (fval F b) = (IZR (get_explicit_mantissa F b) * bpow radix2 (get_explicit_exponent F b - fl F))%R /\
  (2 ^ fl F <= mag_of F b -> 2 ^ fl F <= get_explicit_mantissa F b < 2 ^ prec F) /\
  (get_explicit_mantissa F b < 2 ^ fl F -> get_explicit_exponent F b = 0 \/ get_explicit_exponent F b = 1 - bias F).
Proof. exact explicit_value. Qed.
Example C17_case : is_pattern binary64 0xC008000000000000 /\ fp_sign binary64 0xC008000000000000 = true /\
  get_biased_exponent binary64 0xC008000000000000 = 1024 /\ get_mantissa binary64 0xC008000000000000 = 2 ^ 51 /\
  set_mantissa binary64 0xC008000000000000 1 = 0xC000000000000001.
Proof. unfold is_pattern. vm_compute. repeat split; congruence. Qed.

(* C18 *)
Theorem C18_fpbits : forall F, good_fmt F -> el F <= 16 -> forall b,
  (fp_is_nan F b = true <-> decode F b = DNaN) /\ (fp_is_inf F b = true <-> exists s, decode F b = DInf s) /\
  (fp_is_finite F b = true <-> exists s m e, decode F b = DFin s m e) /\
  (fp_is_zero F b = true <-> (exists s m e, decode F b = DFin s m e) /\ fval F b = 0%R) /\
  (fp_is_subnormal F b = true <-> (exists s m e, decode F b = DFin s m e) /\ (Rabs (fval F b) < bpow radix2 (1 - bias F))%R) /\
  (fp_is_normal F b = true <-> (exists s m e, decode F b = DFin s m e) /\ (bpow radix2 (1 - bias F) <= Rabs (fval F b))%R).
Proof. exact fpbits_observers. Qed.
Theorem C18_quiet_signaling : forall F, good_fmt F -> el F <= 16 -> forall b,
  (fp_is_quiet_nan F b = true <-> decode F b = DNaN /\ Z.testbit b (fl F - 1) = true) /\
  (fp_is_signaling_nan F b = true <-> decode F b = DNaN /\ Z.testbit b (fl F - 1) = false).
Proof. exact quiet_spec. Qed.
(** FPBits::is_subnormal holds of zero, so it is not FP_SUBNORMAL. *)
Theorem C18_is_subnormal_zero_refuted : exists b, fval binary64 b = 0%R /\ fp_is_subnormal binary64 b = true.
Proof. exists 0. split; [|reflexivity]. unfold fval, dval. cbn. ring. Qed.
Theorem C18_classifiers : forall F, good_fmt F -> el F <= 16 -> forall b,
  cc_isnan F b = is_nan F b /\ cc_isinf F b = is_inf F b /\ cc_isfinite F b = is_fin F b /\ cc_signbit F b = sign_of F b.
Proof.
  intros F H1 H2 b. split; [apply isnan_eq; auto|]. split; [apply isinf_eq; auto|].
  split; [apply isfinite_eq; auto|apply signbit_eq; auto].
Qed.
Theorem C18_isnormal : forall F, good_fmt F -> el F <= 16 -> forall b, is_pattern F b ->
  cc_isnormal F b = is_fin F b && Rle_bool (bpow radix2 (1 - bias F)) (Rabs (fval F b)).
Proof. exact isnormal_eq. Qed.
Theorem C18_fpclassify : forall F, good_fmt F -> el F <= 16 -> forall d b, is_pattern F b ->
  cc_fpclassify F d b =
    (if is_nan F b then eFP_NAN d else if is_inf F b then eFP_INFINITE d
     else if Req_bool (fval F b) 0 then eFP_ZERO d
     else if Rlt_bool (Rabs (fval F b)) (bpow radix2 (1 - bias F)) then eFP_SUBNORMAL d else eFP_NORMAL d).
Proof. exact fpclassify_spec. Qed.
(** The five constants differ on every compiler but the Nvidia one. *)
Definition distinct_classes (d : fp_defines) : Prop :=
  eFP_NAN d <> eFP_INFINITE d /\ eFP_NAN d <> eFP_ZERO d /\ eFP_NAN d <> eFP_SUBNORMAL d /\ eFP_NAN d <> eFP_NORMAL d /\
  eFP_INFINITE d <> eFP_ZERO d /\ eFP_INFINITE d <> eFP_SUBNORMAL d /\ eFP_INFINITE d <> eFP_NORMAL d /\
  eFP_ZERO d <> eFP_SUBNORMAL d /\ eFP_ZERO d <> eFP_NORMAL d /\ eFP_SUBNORMAL d <> eFP_NORMAL d.
Theorem C18_class_constants : distinct_classes fpd_msvc /\ distinct_classes fpd_apple /\ distinct_classes fpd_intel /\ distinct_classes fpd_gnu.
Proof. unfold distinct_classes; cbn; lia. Qed.
Theorem C18_nvhpc_refuted : exists z s, fval binary64 z = 0%R /\ fval binary64 s <> 0%R /\
  cc_fpclassify binary64 fpd_nvhpc z = cc_fpclassify binary64 fpd_nvhpc s.
Proof.
  exists 0, 1. split; [unfold fval, dval; cbn; ring|]. split; [|reflexivity].
  unfold fval. replace (decode binary64 1) with (DFin false 1 (-1074)) by reflexivity. unfold dval.
  cbn [decode]. rewrite !Rmult_1_l. apply Rgt_not_eq, bpow_gt_0.
Qed.
Example C18_case : cc_fpclassify binary64 fpd_gnu 0x000FFFFFFFFFFFFF = 3 /\ cc_fpclassify binary64 fpd_gnu 0x8010000000000000 = 4 /\
  cc_fpclassify binary64 fpd_gnu 0x8000000000000000 = 2 /\ cc_fpclassify binary32 fpd_gnu 0x7F800000 = 1 /\
  cc_fpclassify binary32 fpd_gnu 0x7F800001 = 0.
Proof. repeat split; vm_compute; reflexivity. Qed.

(* C19 *)
Theorem C19_isless : forall F, good_fmt F -> el F <= 16 -> forall x y, cc_isless F x y = true <-> xlt F x y.
Proof. exact isless_spec. Qed.
Theorem C19_isgreater : forall F, good_fmt F -> el F <= 16 -> forall x y, cc_isgreater F x y = true <-> xlt F y x.
Proof. exact isgreater_spec. Qed.
Theorem C19_islessequal : forall F, good_fmt F -> el F <= 16 -> forall x y, cc_islessequal F x y = true <-> xlt F x y \/ xeq F x y.
Proof. exact islessequal_spec. Qed.
Theorem C19_isgreaterequal : forall F, good_fmt F -> el F <= 16 -> forall x y, cc_isgreaterequal F x y = true <-> xlt F y x \/ xeq F x y.
Proof. exact isgreaterequal_spec. Qed.
Theorem C19_islessgreater : forall F, good_fmt F -> el F <= 16 -> forall x y, cc_islessgreater F x y = true <-> xlt F x y \/ xlt F y x.
Proof. exact islessgreater_spec. Qed.
Theorem C19_isunordered : forall F, good_fmt F -> el F <= 16 -> forall x y,
  cc_isunordered F x y = true <-> decode F x = DNaN \/ decode F y = DNaN.
Proof.
  intros F H1 H2 x y. rewrite isunordered_eq by auto. rewrite orb_true_iff.
  rewrite (proj1 (decode_cases F x)), (proj1 (decode_cases F y)). tauto.
Qed.
Theorem C19_total : forall F, good_fmt F -> forall x y, is_nan F x = false -> is_nan F y = false ->
  xlt F x y \/ xeq F x y \/ xlt F y x.
Proof. exact order_total. Qed.
Example C19_case : cc_islessequal binary64 0x8000000000000000 0 = true /\ cc_isless binary64 0x8000000000000000 0 = false /\
  cc_isless binary64 0xFFF0000000000000 0xFFEFFFFFFFFFFFFF = true /\ cc_isless binary64 0x7FF8000000000000 0 = false /\
  cc_isunordered binary64 0 0x7FF8000000000000 = true.
Proof. repeat split; vm_compute; reflexivity. Qed.

(* C20 *)
(** [digits n] is the number of bits of [n]; [emin F] the exponent of the least
    subnormal, so the result is [n 2^(expo + 1 - bias - fl)] cut down to a
    multiple of the least subnormal. *)
Theorem C20_make_value : forall F, good_fmt F -> el F <= 16 -> forall k n expo,
  width F = 2 ^ Z.of_nat k -> 0 < n < 2 ^ prec F ->
  fl F + 1 - digits n - expo < width F -> digits n + expo <= 2 * bias F + fl F ->
  exists b, make_value F n expo = Some b /\ is_pattern F b /\ sign_of F b = false /\ is_fin F b = true /\
    fval F b = (IZR (Zfloor (IZR n * bpow radix2 expo)) * bpow radix2 (emin F))%R.
Proof. exact make_value_spec. Qed.
Example C20_case : make_value binary64 3 1074 = Some 0x4008000000000000 /\ make_value binary64 13 (-2) = Some 3 /\
  width binary64 = 2 ^ Z.of_nat 6 /\ digits 13 = 4.
Proof. repeat split; vm_compute; reflexivity. Qed.

(* C31 *)
Theorem C31_fabs : forall F, good_fmt F -> el F <= 16 -> forall b, is_pattern F b ->
  cc_abs F b = if is_nan F b then qnan F else mag_of F b.
Proof. exact abs_eq. Qed.
Theorem C31_fabs_value : forall F, good_fmt F -> el F <= 16 -> forall b, is_pattern F b -> is_fin F b = true ->
  fval F (cc_abs F b) = Rabs (fval F b) /\ sign_of F (cc_abs F b) = false.
Proof.
  intros F H1 H2 b Hb Hf. destruct (abs_fin F H1 H2 b Hb Hf) as (-> & _ & V). split; auto.
  apply ExactOps.fabs_pat; auto.
Qed.
Theorem C31_copysign : forall F, good_fmt F -> el F <= 16 -> forall rm x y, is_pattern F x -> is_pattern F y ->
  cc_copysign F rm x y = sbit F (sign_of F y) + (if is_nan F x || is_nan F y then qnan F else mag_of F x).
Proof. exact copysign_spec. Qed.
Example C31_case : cc_copysign binary64 RDN 0x3FF8000000000000 0x8000000000000000 = 0xBFF8000000000000 /\
  cc_copysign binary64 RNE 0xFFF0000000000000 0 = 0x7FF0000000000000 /\ cc_abs binary32 0x80000001 = 1.
Proof. repeat split; vm_compute; reflexivity. Qed.

Print Assumptions C17_rebuild.
Print Assumptions C17_getters.
Print Assumptions C17_create_value.
Print Assumptions C17_setters.
Print Assumptions C17_explicit_value.
Print Assumptions C18_fpbits.
Print Assumptions C18_quiet_signaling.
Print Assumptions C18_is_subnormal_zero_refuted.
Print Assumptions C18_classifiers.
Print Assumptions C18_isnormal.
Print Assumptions C18_fpclassify.
Print Assumptions C18_class_constants.
Print Assumptions C18_nvhpc_refuted.
Print Assumptions C19_isless.
Print Assumptions C19_isgreater.
Print Assumptions C19_islessequal.
Print Assumptions C19_isgreaterequal.
Print Assumptions C19_islessgreater.
Print Assumptions C19_isunordered.
Print Assumptions C19_total.
Print Assumptions C20_make_value.
Print Assumptions C31_fabs.
Print Assumptions C31_fabs_value.
Print Assumptions C31_copysign.
