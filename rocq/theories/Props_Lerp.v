(** * C47: lerp *)
From Coq Require Import ZArith Reals Bool Lia Lra.
From Flocq Require Import Core.
From Verif Require Import MachInt Fmt FloatSpec FmtProofs RoundProofs FOps FOpsProofs ExactOps Lerp LerpProofs FmanipWide.
Open Scope Z_scope.

(** lerp(a, b, 0) = a, in every rounding mode. *)
Theorem C47_lerp_0 : forall F rm a b t, good_fmt F -> el F <= 16 -> is_pattern F a -> is_pattern F b -> is_pattern F t ->
  is_fin F a = true -> is_fin F b = true -> mag_of F t = 0 ->
  let r := cc_lerp F rm a b t in is_pattern F r /\ is_fin F r = true /\ fval F r = fval F a.
Proof. intros F rm a b t HF HelF. exact (lerp_0 F HF HelF rm a b t). Qed.
(** lerp(a, b, 1) = b. *)
Theorem C47_lerp_1 : forall F rm a b t, good_fmt F -> el F <= 16 -> is_pattern F a -> is_pattern F b -> is_pattern F t ->
  is_fin F a = true -> is_fin F b = true -> is_fin F t = true -> fval F t = 1%R ->
  let r := cc_lerp F rm a b t in is_pattern F r /\ is_fin F r = true /\ fval F r = fval F b.
Proof. intros F rm a b t HF HelF. exact (lerp_1 F HF HelF rm a b t). Qed.
(** For t in [0, 1] the result is finite and lies between a and b. *)
Theorem C47_lerp_between : forall F rm a b t, good_fmt F -> el F <= 16 -> is_pattern F a -> is_pattern F b -> is_pattern F t ->
  is_fin F a = true -> is_fin F b = true -> is_fin F t = true -> (0 <= fval F t <= 1)%R ->
  let r := cc_lerp F rm a b t in
  is_pattern F r /\ is_fin F r = true /\ (Rmin (fval F a) (fval F b) <= fval F r <= Rmax (fval F a) (fval F b))%R.
Proof. intros F rm a b t HF HelF. exact (lerp_between F HF HelF rm a b t). Qed.
(** lerp is monotonic in t over [0, 1]. *)
Theorem C47_lerp_mono : forall F rm a b t1 t2, good_fmt F -> el F <= 16 -> is_pattern F a -> is_pattern F b -> is_pattern F t1 -> is_pattern F t2 ->
  is_fin F a = true -> is_fin F b = true -> is_fin F t1 = true -> is_fin F t2 = true -> (0 <= fval F t1 <= fval F t2)%R -> (fval F t2 <= 1)%R ->
  (fval F a <= fval F b -> fval F (cc_lerp F rm a b t1) <= fval F (cc_lerp F rm a b t2))%R /\
  (fval F b <= fval F a -> fval F (cc_lerp F rm a b t2) <= fval F (cc_lerp F rm a b t1))%R.
Proof. intros F rm a b t1 t2 HF HelF. exact (lerp_mono F HF HelF rm a b t1 t2). Qed.
(** lerp(a, a, t) = a for every finite t, if a is not zero or |t| is at most a
    quarter of the overflow threshold... *)
Theorem C47_lerp_same : forall F rm a t, good_fmt F -> el F <= 16 -> is_pattern F a -> is_pattern F t -> is_fin F a = true -> is_fin F t = true ->
  mag_of F a <> 0 \/ (Rabs (fval F t) <= bpow radix2 (bias F - 1))%R ->
  let r := cc_lerp F rm a a t in is_pattern F r /\ is_fin F r = true /\ fval F r = fval F a.
Proof. intros F rm a t HF HelF. exact (lerp_same F HF HelF rm a t). Qed.
(** ... but rounding upwards lerp(0, 0, -FLT_MAX) is NaN: 1 - t overflows. *)
Theorem C47_lerp_same_refuted : exists t, is_pattern binary32 t /\ is_fin binary32 t = true /\ is_nan binary32 (cc_lerp binary32 RUP 0 0 t) = true.
Proof. exists 0xFF7FFFFF. split; [vm_compute; split; congruence|]. split; vm_compute; reflexivity. Qed.
(** A NaN argument gives a NaN. *)
Theorem C47_lerp_nan : forall F rm a b t, good_fmt F -> el F <= 16 ->
  is_nan F a = true \/ is_nan F b = true \/ is_nan F t = true -> is_nan F (cc_lerp F rm a b t) = true.
Proof. intros F rm a b t HF HelF. exact (lerp_nan F HF HelF rm a b t). Qed.
(** The single-instruction version of generic/func/misc has the same end points... *)
Theorem C47_fma_lerp_ends : forall F rm a b t, good_fmt F -> is_pattern F a -> is_pattern F b -> is_pattern F t ->
  is_fin F a = true -> is_fin F b = true -> is_fin F t = true ->
  let r := fma_lerp F (f_fma F rm) a b t in
  (fval F t = 0%R -> is_pattern F r /\ is_fin F r = true /\ fval F r = fval F a) /\
  (fval F t = 1%R -> is_pattern F r /\ is_fin F r = true /\ fval F r = fval F b).
Proof. intros F rm a b t HF. exact (fma_lerp_ends F HF rm a b t). Qed.
(** ... but is not monotonic. *)
Theorem C47_fma_lerp_mono_refuted : exists a b t1 t2,
  let f := fma_lerp binary32 (f_fma binary32 RNE) a b in
  is_fin binary32 a = true /\ is_fin binary32 b = true /\ is_fin binary32 t1 = true /\ is_fin binary32 t2 = true /\
  (0 < fval binary32 t1 < fval binary32 t2)%R /\ (fval binary32 t2 < 1)%R /\
  (fval binary32 b < fval binary32 a)%R /\ (fval binary32 (f t1) < fval binary32 (f t2))%R.
Proof.
  exists 1069191209, 1069189998, 1050291087, 1050291089. cbv zeta.
  assert (L : forall x y, is_pattern binary32 x -> is_pattern binary32 y -> is_fin binary32 x = true -> is_fin binary32 y = true -> f_lt binary32 x y = true -> (fval binary32 x < fval binary32 y)%R).
  { intros x y Px Py Fx Fy. rewrite (f_lt_fin binary32 good32) by auto. destruct (Rlt_bool_spec (fval binary32 x) (fval binary32 y)); [auto|discriminate]. }
  assert (Z0 : fval binary32 0 = 0%R) by (apply (fval_zero binary32 good32); reflexivity).
  assert (O1 : fval binary32 (f_one binary32 false) = 1%R) by (apply (f_one_props binary32 good32)).
  rewrite <- Z0, <- O1.
  repeat split; try reflexivity; apply L; try (vm_compute; (reflexivity || (split; congruence))).
Qed.
(** lerp(1, 3, 0.5) = 2, lerp(-1, 1, 0.25) = -0.5, lerp(FLT_MAX, -FLT_MAX, 0.5) = 0,
    lerp(1, 2, 3) = 4. *)
Example C47_case :
  cc_lerp binary32 RNE 0x3F800000 0x40400000 0x3F000000 = 0x40000000 /\
  cc_lerp binary32 RNE 0xBF800000 0x3F800000 0x3E800000 = 0xBF000000 /\
  cc_lerp binary32 RNE 0x7F7FFFFF 0xFF7FFFFF 0x3F000000 = 0 /\
  cc_lerp binary32 RNE 0x3F800000 0x40000000 0x40400000 = 0x40800000 /\
  cc_lerp binary32 RUP 0x3F800000 0x3F800001 0x3F7FFFFF = 0x3F800001 /\
  mag_of binary32 0x80000000 = 0 /\ is_fin binary32 0x7F7FFFFF = true.
Proof. repeat match goal with |- _ /\ _ => split end; vm_compute; reflexivity. Qed.

Print Assumptions C47_lerp_0.
Print Assumptions C47_lerp_1.
Print Assumptions C47_lerp_between.
Print Assumptions C47_lerp_mono.
Print Assumptions C47_lerp_same.
Print Assumptions C47_lerp_same_refuted.
Print Assumptions C47_lerp_nan.
Print Assumptions C47_fma_lerp_ends.
Print Assumptions C47_fma_lerp_mono_refuted.
