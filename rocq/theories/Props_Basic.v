(** * C42-C46: min / max, fdim, remquo, fmod / remainder, nan *)
From Coq Require Import ZArith Reals Bool Lia Lra List.
From Flocq Require Import Core.
From Verif Require Import MachInt Fmt FloatSpec RoundProofs FmtProofs FOps FOpsProofs FmaSpec Basic BasicProofs RemProofs RemquoProofs FmanipWide.
Import ListNotations.
Open Scope Z_scope.

(** ** C42: fmax and fmin *)
Theorem C42_max : forall F x y, good_fmt F -> el F <= 16 -> is_pattern F x -> is_pattern F y -> let r := gen_max F x y in
  (is_nan F x = true -> is_nan F y = true -> r = qnan F) /\
  (is_nan F x = true -> is_nan F y = false -> r = y) /\
  (is_nan F x = false -> is_nan F y = true -> r = x) /\
  (is_nan F x = false -> is_nan F y = false ->
     (r = x \/ r = y) /\ ~ xlt F r x /\ ~ xlt F r y /\
     (mag_of F x = 0 -> mag_of F y = 0 -> sign_of F r = sign_of F x && sign_of F y)).
Proof. intros F x y HF HelF. exact (max_spec F HF HelF x y). Qed.
Theorem C42_min : forall F x y, good_fmt F -> el F <= 16 -> is_pattern F x -> is_pattern F y -> let r := gen_min F x y in
  (is_nan F x = true -> r = y) /\
  (is_nan F x = false -> is_nan F y = true -> r = x) /\
  (is_nan F x = false -> is_nan F y = false ->
     (r = x \/ r = y) /\ ~ xlt F x r /\ ~ xlt F y r /\
     (mag_of F x = 0 -> mag_of F y = 0 -> sign_of F r = sign_of F x || sign_of F y)).
Proof. intros F x y HF HelF. exact (min_spec F HF HelF x y). Qed.
(** max(-2, 1.5) = 1.5, min(-0, +0) = -0, max(NaN, -inf) = -inf. *)
Example C42_case :
  gen_max binary32 0xC0000000 0x3FC00000 = 0x3FC00000 /\ gen_min binary32 0x80000000 0 = 0x80000000 /\
  gen_min binary32 0 0x80000000 = 0x80000000 /\ gen_max binary32 0x80000000 0 = 0 /\
  gen_max binary32 0x7FC01234 0xFF800000 = 0xFF800000 /\ gen_max binary32 0x7FC01234 0xFF800001 = 0x7FC00000.
Proof. repeat match goal with |- _ /\ _ => split end; vm_compute; reflexivity. Qed.

(** ** C43: fdim *)
(** The difference is rounded once, in every rounding mode, as long as it does not
    exceed the largest finite number... *)
Theorem C43_fdim : forall F rm x y, good_fmt F -> el F <= 16 -> is_pattern F x -> is_pattern F y -> is_fin F x = true -> is_fin F y = true ->
  (fval F y < fval F x)%R -> (fval F x - fval F y <= fval F (max_mag F))%R ->
  rounded F rm (fval F x - fval F y) false (gen_fdim F rm x y).
Proof. intros F rm x y HF HelF. exact (fdim_fin F HF HelF rm x y). Qed.
(** ... and also when rounding to nearest or upwards makes it overflow... *)
Theorem C43_overflow : forall F rm x y, good_fmt F -> el F <= 16 -> is_pattern F x -> is_pattern F y -> is_fin F x = true -> is_fin F y = true ->
  rm = RNE \/ rm = RUP -> (bpow radix2 (bias F + 1) <= fround F rm (fval F x - fval F y))%R ->
  gen_fdim F rm x y = f_inf F false /\ rounded F rm (fval F x - fval F y) false (f_inf F false).
Proof. intros F rm x y HF HelF. exact (fdim_overflow F HF HelF rm x y). Qed.
(** ... but not between the two: fdim(1, -DBL_MAX) is infinite although 1 + DBL_MAX
    rounds to DBL_MAX, and it is infinite in the other two modes. *)
Theorem C43_fdim_refuted : exists x y, is_pattern binary64 x /\ is_pattern binary64 y /\ is_fin binary64 x = true /\ is_fin binary64 y = true /\
  ~ rounded binary64 RNE (fval binary64 x - fval binary64 y) false (gen_fdim binary64 RNE x y) /\
  ~ rounded binary64 RZR (fval binary64 x - fval binary64 y) false (gen_fdim binary64 RZR x y).
Proof.
  exists 0x3ff0000000000000, 0xffefffffffffffff. assert (P : is_pattern binary64 0xffefffffffffffff) by (vm_compute; split; congruence).
  split; [vm_compute; split; congruence|]. split; [exact P|]. split; [reflexivity|]. split; [reflexivity|].
  pose proof (f_sub_spec binary64 good64 RNE 0x3ff0000000000000 0xffefffffffffffff P eq_refl eq_refl) as R1.
  pose proof (f_sub_spec binary64 good64 RZR 0x3ff0000000000000 0xffefffffffffffff P eq_refl eq_refl) as R2.
  split; intros H; [pose proof (rounded_unique binary64 good64 _ _ _ _ _ R1 H) as E|pose proof (rounded_unique binary64 good64 _ _ _ _ _ R2 H) as E];
    vm_compute in E; discriminate.
Qed.
(** NaN arguments, the first one taking precedence; unordered or x <= y gives +0; infinities. *)
Theorem C43_special : forall F rm x y, good_fmt F -> el F <= 16 -> is_pattern F x -> is_pattern F y ->
  (is_nan F x = true -> gen_fdim F rm x y = x) /\
  (is_nan F x = false -> is_nan F y = true -> gen_fdim F rm x y = y) /\
  (is_nan F x = false -> is_nan F y = false -> ~ xlt F y x -> gen_fdim F rm x y = f_zero F false) /\
  (xlt F y x -> is_inf F x = true \/ is_inf F y = true -> gen_fdim F rm x y = f_inf F false).
Proof. intros F rm x y HF HelF. exact (fdim_special F HF HelF rm x y). Qed.
(** fdim(4, 1) = 3; fdim(1, 4) = 0; fdim(1, -inf) = inf; 1 - (-2^-53) to nearest even. *)
Example C43_case :
  gen_fdim binary64 RNE 0x4010000000000000 0x3ff0000000000000 = 0x4008000000000000 /\
  gen_fdim binary64 RNE 0x3ff0000000000000 0x4010000000000000 = 0 /\
  gen_fdim binary64 RNE 0x3ff0000000000000 0xfff0000000000000 = 0x7ff0000000000000 /\
  gen_fdim binary64 RNE 0x3ff0000000000000 0xbca0000000000000 = 0x3ff0000000000000 /\
  gen_fdim binary64 RUP 0x3ff0000000000000 0xbca0000000000000 = 0x3ff0000000000001 /\
  gen_fdim binary64 RNE 0x7fe0000000000000 0xffe0000000000000 = 0x7ff0000000000000.
Proof. repeat match goal with |- _ /\ _ => split end; vm_compute; reflexivity. Qed.

(** ** C44: remquo *)
(** With an exact fmod (as the C standard library's), for all finite x and finite
    non-zero y and in every rounding mode: the result is x - n*y exactly, with n the
    integer nearest to x/y, ties to even; a zero result has the sign of x; the value
    stored has the sign of x/y (or is 0), the low three bits of |n|, and is at most 8.
    [exact_fmod] is only needed when the code calls fmod. *)
Theorem C44_remquo : forall F rm fm x y, good_fmt F -> el F <= 16 -> 2 <= fl F ->
  is_pattern F x -> is_pattern F y -> is_fin F x = true -> is_fin F y = true -> mag_of F y <> 0 ->
  ((Rabs (fval F y) < bpow radix2 (bias F - 2))%R -> exact_fmod F fm x (f_mul F rm (f_of_Z F rm 8) y)) ->
  let n := ZnearestE (fval F x / fval F y) in
  exists r q, cc_remquo F rm fm x y = (r, Some q) /\ is_pattern F r /\ is_fin F r = true /\
    fval F r = (fval F x - IZR n * fval F y)%R /\ (fval F r = 0%R -> sign_of F r = sign_of F x) /\
    Z.abs q <= 8 /\ Z.abs q mod 8 = Z.abs n mod 8 /\ (0 <= IZR q * (fval F x / fval F y))%R.
Proof. intros F rm fm x y HF HelF H2. exact (remquo_exact F HF HelF H2 rm fm x y). Qed.
(** With the in-tree fmod, when |x| < 8|y|. *)
Theorem C44_remquo_in_tree_partial : forall F rm x y, good_fmt F -> el F <= 16 -> 2 <= fl F ->
  is_pattern F x -> is_pattern F y -> is_fin F x = true -> is_fin F y = true -> (Rabs (fval F x) < 8 * Rabs (fval F y))%R ->
  let n := ZnearestE (fval F x / fval F y) in
  exists r q, cc_remquo F rm (cc_fmod F rm) x y = (r, Some q) /\ is_pattern F r /\ is_fin F r = true /\
    fval F r = (fval F x - IZR n * fval F y)%R /\ (fval F r = 0%R -> sign_of F r = sign_of F x) /\
    Z.abs q <= 8 /\ Z.abs q mod 8 = Z.abs n mod 8 /\ (0 <= IZR q * (fval F x / fval F y))%R.
Proof. intros F rm x y HF HelF H2. exact (remquo_small F HF HelF H2 rm x y). Qed.
(** NaNs, an infinite x or a zero y give a NaN and store nothing; an infinite y
    returns x and stores 0. *)
Theorem C44_special : forall F rm fm x y, good_fmt F -> el F <= 16 -> 2 <= fl F -> is_pattern F x -> is_pattern F y ->
  (is_nan F x = true \/ is_nan F y = true \/ is_inf F x = true \/ mag_of F y = 0 ->
     is_nan F (fst (cc_remquo F rm fm x y)) = true /\ snd (cc_remquo F rm fm x y) = None) /\
  (is_fin F x = true -> is_inf F y = true -> cc_remquo F rm fm x y = (x, Some 0)).
Proof. intros F rm fm x y HF HelF H2. exact (remquo_special F HF HelF H2 rm fm x y). Qed.

Lemma no_multiple : forall F b x y m e mx ex my ey k1 k2, is_fin F b = true -> is_fin F x = true -> is_fin F y = true ->
  decode F b = DFin (sign_of F b) m e -> decode F x = DFin false mx ex -> decode F y = DFin false my ey ->
  0 <= k1 -> 0 <= k2 -> ex = ey + k1 -> e = ey - k2 ->
  (mx * 2 ^ (k1 + k2) - (if sign_of F b then - m else m)) mod (my * 2 ^ k2) <> 0 ->
  forall n, fval F b <> (fval F x - IZR n * fval F y)%R.
Proof.
  intros F b x y m e mx ex my ey k1 k2 Hb Hx Hy Db Dx Dy K1 K2 Ex Ee HM n E. apply HM.
  assert (E' : IZR (mx * 2 ^ (k1 + k2) - (if sign_of F b then - m else m)) = IZR (n * (my * 2 ^ k2))).
  { unfold fval in E. rewrite Db, Dx, Dy in E. subst ex e.
    rewrite minus_IZR, !mult_IZR, <- !bpow_IZR by lia. rewrite bpow_plus.
    apply (Rmult_eq_reg_r (bpow radix2 (ey - k2))); [|pose proof (bpow_gt_0 radix2 (ey - k2)); lra].
    assert (B1 : bpow radix2 ey = (bpow radix2 k2 * bpow radix2 (ey - k2))%R) by (rewrite <- bpow_plus; f_equal; lia).
    cbn [dval] in E. rewrite (bpow_plus radix2 ey k1), B1 in E. destruct (sign_of F b); rewrite ?opp_IZR; lra. }
  apply eq_IZR in E'. rewrite E'. apply Znumtheory.Zdivide_mod. exists n. reflexivity.
Qed.
(** With the in-tree fmod the result need not differ from x by a multiple of y:
    x = 1 - 2^-53, y = 1/24 rounded down. *)
Theorem C44_remquo_in_tree_refuted : exists x y, is_pattern binary64 x /\ is_pattern binary64 y /\ is_fin binary64 x = true /\ is_fin binary64 y = true /\
  mag_of binary64 y <> 0 /\
  forall n, fval binary64 (fst (cc_remquo binary64 RNE (cc_fmod binary64 RNE) x y)) <> (fval binary64 x - IZR n * fval binary64 y)%R.
Proof.
  exists 0x3FEFFFFFFFFFFFFF, 0x3FA5555555555555. split; [vm_compute; split; congruence|]. split; [vm_compute; split; congruence|].
  split; [reflexivity|]. split; [reflexivity|]. split; [vm_compute; discriminate|].
  replace (fst (cc_remquo binary64 RNE (cc_fmod binary64 RNE) 0x3FEFFFFFFFFFFFFF 0x3FA5555555555555)) with 0x3CA0000000000000 by (vm_compute; reflexivity).
  eapply (no_multiple binary64 _ _ _ 4503599627370496 (-105) 9007199254740991 (-53) 6004799503160661 (-57) 4 48); vm_compute; try reflexivity; discriminate.
Qed.
(** The constants written in the code are those of the model. *)
Example C44_constants :
  (expmax binary64 - 3) * 2 ^ fl binary64 - 1 = 0x7fbfffffffffffff /\ (expmax binary64 - 2) * 2 ^ fl binary64 - 1 = 0x7fcfffffffffffff /\
  (expmax binary64 - 1) * 2 ^ fl binary64 - 1 = 0x7fdfffffffffffff /\ 2 * 2 ^ fl binary64 = 0x0020000000000000 /\
  (expmax binary32 - 3) * 2 ^ fl binary32 - 1 = 0x7dffffff /\ (expmax binary32 - 2) * 2 ^ fl binary32 - 1 = 0x7e7fffff /\
  (expmax binary32 - 1) * 2 ^ fl binary32 - 1 = 0x7effffff /\ 2 * 2 ^ fl binary32 = 0x01000000.
Proof. repeat match goal with |- _ /\ _ => split end; vm_compute; reflexivity. Qed.
(** remquo(5,3) = (-1, 2); remquo(-7.5, 3) = (-1.5, -2) (a tie); remquo(1, 1e-308-ish) in
    the subnormal branch; remquo(8, 1) = (0, 8 or 0). *)
Example C44_case :
  cc_remquo binary64 RNE (cc_fmod binary64 RNE) 0x4014000000000000 0x4008000000000000 = (0xBFF0000000000000, Some 2) /\
  cc_remquo binary64 RUP (cc_fmod binary64 RUP) 0xC01E000000000000 0x4008000000000000 = (0xBFF8000000000000, Some (-2)) /\
  cc_remquo binary64 RNE (cc_fmod binary64 RNE) 7 2 = (0x8000000000000001, Some 4) /\
  cc_remquo binary64 RNE (cc_fmod binary64 RNE) 0x3FF0000000000000 0xBFF0000000000000 = (0, Some (-1)) /\
  cc_remquo binary64 RNE (cc_fmod binary64 RNE) 0x7fe8000000000000 0x7fe0000000000000 = (0xffd0000000000000, Some 2) /\
  cc_remquo binary64 RNE (cc_fmod binary64 RNE) 0x401F000000000000 0x3FF0000000000000 = (0xBFD0000000000000, Some 8).
Proof. repeat match goal with |- _ /\ _ => split end; vm_compute; reflexivity. Qed.
(** The hypothesis on fmod is met: fmod(1, 16) = 1 with the in-tree code. *)
Example C44_fmod_case : exact_fmod binary64 (cc_fmod binary64 RNE) 0x3FF0000000000000 (f_mul binary64 RNE (f_of_Z binary64 RNE 8) 0x4000000000000000).
Proof.
  assert (E : f_mul binary64 RNE (f_of_Z binary64 RNE 8) 0x4000000000000000 = 0x4030000000000000) by (vm_compute; reflexivity). rewrite E.
  assert (E2 : cc_fmod binary64 RNE 0x3FF0000000000000 0x4030000000000000 = 0x3FF0000000000000) by (vm_compute; reflexivity).
  unfold exact_fmod. rewrite E2. split; [vm_compute; split; congruence|]. split; [reflexivity|]. split; [reflexivity|].
  assert (V1 : fval binary64 0x3FF0000000000000 = 1%R).
  { unfold fval. replace (decode binary64 0x3FF0000000000000) with (DFin false (2 ^ 52) (-52)) by (vm_compute; reflexivity). cbn [dval]. rewrite <- bpow_IZR by lia.
    rewrite Rmult_1_l, <- bpow_plus. reflexivity. }
  assert (V2 : fval binary64 0x4030000000000000 = 16%R).
  { unfold fval. replace (decode binary64 0x4030000000000000) with (DFin false (2 ^ 52) (-48)) by (vm_compute; reflexivity). cbn [dval]. rewrite <- bpow_IZR by lia.
    rewrite Rmult_1_l, <- bpow_plus. reflexivity. }
  rewrite V1, V2. replace (Ztrunc (1 / 16)) with 0; [ring|]. symmetry. rewrite Ztrunc_floor by lra. apply Zfloor_imp. cbn [Z.add]. lra.
Qed.

(** ** C45: fmod and remainder *)
(** fmod is x when |x| < |y|... *)
Theorem C45_fmod_small : forall F rm x y, good_fmt F -> el F <= 16 -> is_pattern F x -> is_pattern F y -> is_fin F x = true -> is_fin F y = true ->
  (Rabs (fval F x) < Rabs (fval F y))%R -> cc_fmod F rm x y = x.
Proof. intros F rm x y HF HelF. exact (fmod_small F HF HelF rm x y). Qed.
(** ... and the exact remainder of the truncated division, in every mode, when x and
    y are multiples X*2^e, Y*2^e of a common power of two with |X| + |Y| <= 2^fl. *)
Theorem C45_fmod : forall F rm x y X Y e, good_fmt F -> el F <= 16 ->
  is_pattern F x -> is_pattern F y -> is_fin F x = true -> is_fin F y = true ->
  emin F <= e -> fval F x = (IZR X * bpow radix2 e)%R -> fval F y = (IZR Y * bpow radix2 e)%R -> Y <> 0 -> Z.abs X + Z.abs Y <= 2 ^ fl F ->
  let r := cc_fmod F rm x y in
  is_pattern F r /\ is_fin F r = true /\ fval F r = (IZR (Z.rem X Y) * bpow radix2 e)%R.
Proof. intros F rm x y X Y e HF HelF. exact (fmod_exact F HF HelF rm x y X Y e). Qed.
(** remainder is the same number; it is the IEEE remainder when the fraction of the
    quotient is below one half, and never when it is above. *)
Theorem C45_remainder_is_fmod : forall F rm x y X Y e, good_fmt F -> el F <= 16 ->
  is_pattern F x -> is_pattern F y -> is_fin F x = true -> is_fin F y = true ->
  emin F <= e -> fval F x = (IZR X * bpow radix2 e)%R -> fval F y = (IZR Y * bpow radix2 e)%R -> Y <> 0 -> Z.abs X + Z.abs Y <= 2 ^ fl F ->
  let r := cc_remainder F rm x y in
  is_pattern F r /\ is_fin F r = true /\ fval F r = (IZR (Z.rem X Y) * bpow radix2 e)%R.
Proof. intros F rm x y X Y e HF HelF. exact (remainder_exact F HF HelF rm x y X Y e). Qed.
Theorem C45_remainder_ieee : forall F rm x y X Y e, good_fmt F -> el F <= 16 ->
  is_pattern F x -> is_pattern F y -> is_fin F x = true -> is_fin F y = true ->
  emin F <= e -> fval F x = (IZR X * bpow radix2 e)%R -> fval F y = (IZR Y * bpow radix2 e)%R -> Y <> 0 -> Z.abs X + Z.abs Y <= 2 ^ fl F ->
  let ieee := (fval F x - IZR (ZnearestE (fval F x / fval F y)) * fval F y)%R in
  (2 * Z.abs (Z.rem X Y) < Z.abs Y -> fval F (cc_remainder F rm x y) = ieee) /\
  (Z.abs Y < 2 * Z.abs (Z.rem X Y) -> fval F (cc_remainder F rm x y) <> ieee).
Proof. intros F rm x y X Y e HF HelF. exact (remainder_vs_ieee F HF HelF rm x y X Y e). Qed.
(** NaN, infinite and zero arguments. *)
Theorem C45_fmod_special : forall F rm x y, good_fmt F -> el F <= 16 -> is_pattern F x -> is_pattern F y -> let r := cc_fmod F rm x y in
  (is_nan F x = true \/ is_nan F y = true /\ mag_of F x <> 0 -> is_pattern F r /\ is_nan F r = true) /\
  (is_nan F x = false -> is_nan F y = false -> is_inf F x = true \/ mag_of F y = 0 -> is_pattern F r /\ is_nan F r = true) /\
  (is_fin F x = true -> is_inf F y = true -> r = x).
Proof. intros F rm x y HF HelF. exact (fmod_special F HF HelF rm x y). Qed.
Theorem C45_remainder_special : forall F rm x y, good_fmt F -> el F <= 16 -> is_pattern F x -> is_pattern F y ->
  is_nan F x = true \/ is_nan F y = true \/ is_inf F x = true \/ mag_of F y = 0 ->
  is_pattern F (cc_remainder F rm x y) /\ is_nan F (cc_remainder F rm x y) = true.
Proof. intros F rm x y HF HelF. exact (remainder_special F HF HelF rm x y). Qed.
(** The C function is not computed in general, even when the quotient is below 3:
    fmod(1 - 2^-53, 1/3 rounded down) is negative and differs from x by no multiple of y. *)
Theorem C45_fmod_refuted : exists x y, is_pattern binary64 x /\ is_pattern binary64 y /\ is_fin binary64 x = true /\ is_fin binary64 y = true /\
  mag_of binary64 y <> 0 /\ sign_of binary64 x = false /\ sign_of binary64 (cc_fmod binary64 RNE x y) = true /\
  forall n, fval binary64 (cc_fmod binary64 RNE x y) <> (fval binary64 x - IZR n * fval binary64 y)%R.
Proof.
  exists 0x3FEFFFFFFFFFFFFF, 0x3FD5555555555555. split; [vm_compute; split; congruence|]. split; [vm_compute; split; congruence|].
  split; [reflexivity|]. split; [reflexivity|]. split; [vm_compute; discriminate|]. split; [reflexivity|]. split; [vm_compute; reflexivity|].
  replace (cc_fmod binary64 RNE 0x3FEFFFFFFFFFFFFF 0x3FD5555555555555) with 0xBCA0000000000000 by (vm_compute; reflexivity).
  eapply (no_multiple binary64 _ _ _ 4503599627370496 (-105) 9007199254740991 (-53) 6004799503160661 (-54) 1 51); vm_compute; try reflexivity; discriminate.
Qed.
(** fmod(0, NaN) is 0; fmod(-6, 3) is +0; fmod(2^1023, 2^-1074) is -inf;
    remainder(5, 3) is 2; remainder(5, inf) is a NaN. *)
Theorem C45_case_refuted :
  cc_fmod binary64 RNE 0 0x7ff8000000000000 = 0 /\ cc_fmod binary64 RNE 0xC018000000000000 0x4008000000000000 = 0 /\
  cc_fmod binary64 RNE 0x7fe0000000000000 1 = 0xfff0000000000000 /\
  cc_remainder binary64 RNE 0x4014000000000000 0x4008000000000000 = 0x4000000000000000 /\
  is_nan binary64 (cc_remainder binary64 RNE 0x4014000000000000 0x7ff0000000000000) = true.
Proof. repeat match goal with |- _ /\ _ => split end; vm_compute; reflexivity. Qed.
(** fmod(-7.5, 2) = -1.5 = rem (-15) 4 / 2; fmod(3, -inf) = 3. *)
Example C45_case :
  cc_fmod binary64 RNE 0xC01E000000000000 0x4000000000000000 = 0xBFF8000000000000 /\ Z.rem (-15) 4 = -3 /\
  cc_fmod binary64 RDN 0x4008000000000000 0xfff0000000000000 = 0x4008000000000000 /\
  cc_remainder binary64 RNE 0x401C000000000000 0x4008000000000000 = 0x3FF0000000000000.
Proof. repeat match goal with |- _ /\ _ => split end; vm_compute; reflexivity. Qed.

(** ** C46: nan *)
(** Every C string gives a positive quiet NaN... *)
Theorem C46_nan_double : forall s, let r := cc_nan_double s in
  is_pattern binary64 r /\ quiet binary64 r /\ sign_of binary64 r = false.
Proof. intros s. apply nan_quiet; [exact good64|vm_compute; intuition congruence ..]. Qed.
Theorem C46_nan_float : forall s, let r := cc_nan_float s in
  is_pattern binary32 r /\ quiet binary32 r /\ sign_of binary32 r = false.
Proof. intros s. apply nan_quiet; [exact good32|vm_compute; intuition congruence ..]. Qed.
(** ... whose payload is the number written, in decimal or after 0x in hexadecimal
    (other characters count as 0), if it is short enough and fits; other strings give
    the default NaN. *)
Theorem C46_decimal : forall s, s <> [] -> forallb dec_digit s = true ->
  (Z.of_nat (length s) <= 15 -> numeral 10 (fun c => c - 48) s < 2 ^ 51 -> cc_nan_double s = 0x7ff8000000000000 + numeral 10 (fun c => c - 48) s) /\
  (Z.of_nat (length s) <= 7 -> numeral 10 (fun c => c - 48) s < 2 ^ 22 -> cc_nan_float s = 0x7fc00000 + numeral 10 (fun c => c - 48) s).
Proof.
  intros s H1 H2. split; intros H3 H4; [apply (nan_decimal binary64)|apply (nan_decimal binary32)]; auto using good32, good64; vm_compute; intuition congruence.
Qed.
Theorem C46_hex : forall c s ds, c = 120 \/ c = 88 -> Forall2 hex_read s ds ->
  (Z.of_nat (length s) <= 15 -> numeral 16 (fun d => d) ds < 2 ^ 51 -> cc_nan_double (48 :: c :: s) = 0x7ff8000000000000 + numeral 16 (fun d => d) ds) /\
  (Z.of_nat (length s) <= 7 -> numeral 16 (fun d => d) ds < 2 ^ 22 -> cc_nan_float (48 :: c :: s) = 0x7fc00000 + numeral 16 (fun d => d) ds).
Proof.
  intros c s ds H1 H2. rewrite <- (numeral_read s ds H2).
  split; intros H3 H4; [apply (nan_hex binary64)|apply (nan_hex binary32)]; auto using good32, good64; vm_compute; intuition congruence.
Qed.
Theorem C46_other : forall s, forallb dec_digit s = false -> (forall c t, s = 48 :: c :: t -> c <> 120 /\ c <> 88) ->
  cc_nan_double s = 0x7ff8000000000000 /\ cc_nan_float s = 0x7fc00000.
Proof.
  intros s H1 H2. split; [apply (nan_other binary64)|apply (nan_other binary32)]; auto; vm_compute; congruence.
Qed.
(** nan("1234"), nan("0xfF"), nan("x1"), nan("") and a long string that wraps. *)
Example C46_case :
  cc_nan_double [49;50;51;52] = 0x7ff80000000004d2 /\ cc_nan_float [48;120;102;70] = 0x7fc000ff /\
  cc_nan_double [120;49] = 0x7ff8000000000000 /\ cc_nan_float [] = 0x7fc00000 /\
  cc_nan_double (repeat 57 40) = 0x7ff8b6b3a763ffff /\ hex_char 102 15 /\ hex_char 70 15.
Proof. unfold hex_char. repeat match goal with |- _ /\ _ => split end; try lia; first [vm_compute; reflexivity|vm_compute; congruence|left; vm_compute; reflexivity|right; vm_compute; reflexivity]. Qed.

Print Assumptions C42_max.
Print Assumptions C42_min.
Print Assumptions C43_fdim.
Print Assumptions C43_overflow.
Print Assumptions C43_fdim_refuted.
Print Assumptions C43_special.
Print Assumptions C44_remquo.
Print Assumptions C44_remquo_in_tree_partial.
Print Assumptions C44_special.
Print Assumptions C44_remquo_in_tree_refuted.
Print Assumptions C45_fmod_small.
Print Assumptions C45_fmod.
Print Assumptions C45_remainder_is_fmod.
Print Assumptions C45_remainder_ieee.
Print Assumptions C45_fmod_special.
Print Assumptions C45_remainder_special.
Print Assumptions C45_fmod_refuted.
Print Assumptions C45_case_refuted.
Print Assumptions C46_nan_double.
Print Assumptions C46_nan_float.
Print Assumptions C46_decimal.
Print Assumptions C46_hex.
Print Assumptions C46_other.
