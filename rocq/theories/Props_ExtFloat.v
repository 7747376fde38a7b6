(** * C53-C55: the floating-point functions of ccm::ext *)
From Coq Require Import ZArith Reals Bool Lia Lra.
From Flocq Require Import Core.
From Verif Require Import MachInt Fmt FloatSpec FmtProofs FOps FOpsProofs ExactOps Basic ExtFloatSpec ExtFloat ExtFloatProofs ExtInterp ExtFract FmanipWide.
Open Scope Z_scope.

(** ** C53: clamp, saturate, sign, step, chgsign, move_towards, approximately *)
(** clamp(v, lo, hi) with lo <= hi: one of the arguments, between lo and hi, v itself inside the range, the nearer bound outside (lo for a NaN), idempotent. *)
Theorem C53_clamp : forall F v lo hi, good_fmt F -> el F <= 16 -> is_pattern F v -> is_pattern F lo -> is_pattern F hi -> xle F lo hi ->
  let r := fclamp F v lo hi in
  (r = v \/ r = lo \/ r = hi) /\ xle F lo r /\ xle F r hi /\
  (xle F lo v -> xle F v hi -> xeq F r v) /\ (xlt F v lo -> xeq F r lo) /\ (xlt F hi v -> xeq F r hi) /\ (is_nan F v = true -> xeq F r lo) /\
  xeq F (fclamp F r lo hi) r.
Proof. intros F v lo hi HF HelF. exact (clamp_spec F HF HelF v lo hi). Qed.
(** clamp is monotonic. *)
Theorem C53_clamp_mono : forall F v w lo hi, good_fmt F -> el F <= 16 -> is_pattern F v -> is_pattern F w -> is_pattern F lo -> is_pattern F hi -> is_nan F lo = false -> is_nan F hi = false ->
  xle F v w -> xle F (fclamp F v lo hi) (fclamp F w lo hi).
Proof. intros F v w lo hi HF HelF. exact (clamp_mono F HF HelF v w lo hi). Qed.
(** saturate: the value limited to [0, 1], 0 for NaN, 0 and 1 for the infinities. *)
Theorem C53_saturate : forall F v, good_fmt F -> el F <= 16 -> is_pattern F v -> let r := saturate F v in
  is_real F r (fval F r) /\ (0 <= fval F r <= 1)%R /\
  (is_fin F v = true -> fval F r = Rmin (Rmax (fval F v) 0) 1) /\
  (is_nan F v = true -> fval F r = 0%R) /\ (is_inf F v = true -> fval F r = if sign_of F v then 0%R else 1%R).
Proof. intros F v HF HelF. exact (saturate_spec F HF HelF v). Qed.
(** sign: -1, 0 or 1; 0 for zeros and NaN. *)
Theorem C53_sign : forall F rm v, good_fmt F -> el F <= 16 -> is_pattern F v -> is_real F (fsign F rm v)
  (if is_nan F v || (mag_of F v =? 0) then 0 else if sign_of F v then -1 else 1)%R.
Proof. intros F rm v HF HelF. exact (fsign_spec F HF rm v). Qed.
(** step(edge, v): 0 below the edge and 1 otherwise. *)
Theorem C53_step : forall F e v, good_fmt F -> el F <= 16 -> is_pattern F e -> is_pattern F v ->
  (xlt F v e -> is_real F (fstep F e v) 0) /\ (~ xlt F v e -> is_real F (fstep F e v) 1).
Proof. intros F e v HF HelF. exact (fstep_spec F HF e v). Qed.
(** chgsign: the magnitude of x with the sign of y. *)
Theorem C53_chgsign : forall F x y, good_fmt F -> el F <= 16 -> is_pattern F x -> is_pattern F y -> let r := chgsign F x y in
  is_pattern F r /\ sign_of F r = sign_of F y /\ (is_nan F x = false -> mag_of F r = mag_of F x) /\ (is_nan F x = true -> is_nan F r = true).
Proof. intros F x y HF HelF. exact (chgsign_spec F HF HelF x y). Qed.
(** move_towards never passes the target or leaves the segment, reaches the target when it is within max_delta, and otherwise moves by max_delta (correctly rounded). *)
Theorem C53_move_towards : forall F rm c t d, good_fmt F -> el F <= 16 -> is_pattern F c -> is_pattern F t -> is_pattern F d -> is_fin F c = true -> is_fin F t = true -> is_fin F d = true ->
  (0 <= fval F d)%R -> let r := move_towards F rm c t d in
  is_pattern F r /\ is_fin F r = true /\ (Rmin (fval F c) (fval F t) <= fval F r <= Rmax (fval F c) (fval F t))%R /\
  ((Rabs (fval F t - fval F c) <= fval F d)%R -> r = t) /\
  (r <> t -> fval F r = fround F rm (if Rlt_bool (fval F c) (fval F t) then fval F c + fval F d else fval F c - fval F d)).
Proof. intros F rm c t d HF HelF. exact (move_towards_spec F HF HelF rm c t d). Qed.
(** approximately: true within epsilon; true only if the rounded difference is within epsilon; with epsilon 0 it is equality. *)
Theorem C53_approximately : forall F rm l r e, good_fmt F -> el F <= 16 -> is_pattern F l -> is_pattern F r -> is_pattern F e -> is_fin F l = true -> is_fin F r = true -> is_fin F e = true ->
  (0 <= fval F e)%R ->
  ((Rabs (fval F l - fval F r) <= fval F e)%R -> approximately F rm l r e = true) /\
  (approximately F rm l r e = true -> (Rabs (fround F rm (fval F l - fval F r)) < bpow radix2 (bias F + 1))%R -> (Rabs (fround F rm (fval F l - fval F r)) <= fval F e)%R) /\
  (fval F e = 0%R -> (approximately F rm l r e = true <-> fval F l = fval F r)).
Proof. intros F rm l r e HF HelF. exact (approximately_spec F HF HelF rm l r e). Qed.
(** approximately is false for NaN and, although the operands are equal, for equal infinities. *)
Theorem C53_approximately_special : forall F rm l r e, good_fmt F -> el F <= 16 -> is_pattern F l -> is_pattern F r ->
  is_nan F l = true \/ is_nan F r = true \/ is_nan F e = true \/ (is_inf F l = true /\ is_inf F r = true /\ sign_of F l = sign_of F r) ->
  approximately F rm l r e = false.
Proof. intros F rm l r e HF HelF. exact (approximately_special F HF HelF rm l r e). Qed.
(** With mixed arguments clamp(5, 0, 2.5) is 2.0, not 2.5: the inner min converts
    its result back to int. *)
Theorem C53_mixed_clamp_refuted : exists hi r, is_real binary64 hi (5 / 2) /\ clamp_int_int_double RNE 5 0 hi = Some r /\ is_real binary64 r 2.
Proof.
  exists 0x4004000000000000, 0x4000000000000000. split; [|split; [vm_compute; reflexivity|]]; (split; [vm_compute; split; congruence|split; [vm_compute; reflexivity|]]).
  - unfold fval. replace (decode binary64 0x4004000000000000) with (DFin false 0x14000000000000 (-51)) by (vm_compute; reflexivity). cbn. lra.
  - unfold fval. replace (decode binary64 0x4000000000000000) with (DFin false 0x10000000000000 (-51)) by (vm_compute; reflexivity). cbn. lra.
Qed.
Example C53_ex : let i z := f_of_Z binary32 RNE z in
  fclamp binary32 (i 7) (i 1) (i 5) = i 5 /\ fclamp binary32 (i (-7)) (i 1) (i 5) = i 1 /\ saturate binary32 (i 3) = i 1 /\
  fsign binary32 RNE (i (-3)) = i (-1) /\ fstep binary32 (i 2) (i 1) = i 0 /\ chgsign binary32 (i 3) (i (-1)) = i (-3) /\
  move_towards binary32 RNE (i 10) (i 1) (i 4) = i 6 /\ move_towards binary32 RNE (i 3) (i 1) (i 4) = i 1 /\
  approximately binary32 RNE (i 3) (i 4) (i 1) = true /\ approximately binary32 RNE 0x7F800000 0x7F800000 (i 1) = false.
Proof. cbv zeta. repeat match goal with |- _ /\ _ => split end; vm_compute; reflexivity. Qed.

(** ** C54: normalize, unlerp, mix, remap, smoothstep *)
(** normalize and safe_normalize give a number in [0, 1] for any arguments, NaN and infinities included. *)
Theorem C54_normalize_range : forall F rm v mn mx, good_fmt F -> el F <= 16 -> let r := normalize F rm v mn mx in let s := safe_normalize F rm v mn mx in
  is_real F r (fval F r) /\ (0 <= fval F r <= 1)%R /\ is_real F s (fval F s) /\ (0 <= fval F s <= 1)%R.
Proof. intros F rm v mn mx HF HelF. exact (normalize_range F HF HelF rm v mn mx). Qed.
(** normalize: 0 at min, 1 at max, monotonic, 0 below min and 1 above max. *)
Theorem C54_normalize : forall F rm mn mx A B, good_fmt F -> el F <= 16 -> is_real F mn A -> is_real F mx B -> (A < B)%R -> (Rabs (fround F rm (B - A)) < bpow radix2 (bias F + 1))%R ->
  is_real F (normalize F rm mn mn mx) 0 /\ is_real F (normalize F rm mx mn mx) 1 /\
  (forall v w V W, is_real F v V -> is_real F w W -> (V <= W)%R -> (fval F (normalize F rm v mn mx) <= fval F (normalize F rm w mn mx))%R) /\
  (forall v V, is_real F v V -> (V <= A)%R -> fval F (normalize F rm v mn mx) = 0%R) /\
  (forall v V, is_real F v V -> (B <= V)%R -> fval F (normalize F rm v mn mx) = 1%R).
Proof. intros F rm mn mx A B HF HelF. exact (normalize_spec F HF HelF rm mn mx A B). Qed.
(** unlerp is exactly 0 at the start and 1 at the end. *)
Theorem C54_unlerp : forall F rm s e v S E V, good_fmt F -> el F <= 16 -> is_real F s S -> is_real F e E -> is_real F v V -> S <> E -> (Rabs (fround F rm (E - S)) < bpow radix2 (bias F + 1))%R ->
  (V = S -> is_real F (unlerp F rm s e v) 0) /\ (V = E -> is_real F (unlerp F rm s e v) 1).
Proof. intros F rm s e v S E V HF HelF. exact (unlerp_ends F HF rm s e v S E V). Qed.
(** safe_unlerp is 0 for an empty interval and unlerp otherwise. *)
Theorem C54_safe_unlerp : forall F rm s e v S E V, good_fmt F -> el F <= 16 -> is_real F s S -> is_real F e E -> is_real F v V -> (Rabs (fround F rm (E - S)) < bpow radix2 (bias F + 1))%R ->
  (S = E -> is_real F (safe_unlerp F rm s e v) 0) /\ (S <> E -> safe_unlerp F rm s e v = unlerp F rm s e v).
Proof. intros F rm s e v S E V HF HelF. exact (safe_unlerp_spec F HF rm s e v S E V). Qed.
(** mix gives exactly x at a = 0 and y at a = 1. *)
Theorem C54_mix : forall F rm x y a X Y A, good_fmt F -> el F <= 16 -> is_real F x X -> is_real F y Y -> is_real F a A ->
  (A = 0%R -> is_real F (mix F rm x y a) X) /\ (A = 1%R -> is_real F (mix F rm x y a) Y).
Proof. intros F rm x y a X Y A HF HelF. exact (mix_ends F HF rm x y a X Y A). Qed.
(** remap takes the start of the source range exactly to the start of the target range. *)
Theorem C54_remap : forall F rm ss se ds de x SS SE DS DE X, good_fmt F -> el F <= 16 -> is_real F ss SS -> is_real F se SE -> is_real F ds DS -> is_real F de DE -> is_real F x X ->
  SS <> SE -> (Rabs (fround F rm (SE - SS)) < bpow radix2 (bias F + 1))%R -> (Rabs (fround F rm (DE - DS)) < bpow radix2 (bias F + 1))%R -> X = SS ->
  is_real F (remap F rm ss se ds de x) DS /\ is_real F (safe_remap F rm ss se ds de x) DS.
Proof. intros F rm ss se ds de x SS SE DS DE X HF HelF. exact (remap_start F HF rm ss se ds de x SS SE DS DE X). Qed.
(** safe_remap gives the start of the target range for an empty source range. *)
Theorem C54_safe_remap : forall F rm ss se ds de x SS SE, good_fmt F -> el F <= 16 -> is_real F ss SS -> is_real F se SE -> SS = SE -> safe_remap F rm ss se ds de x = ds.
Proof. intros F rm ss se ds de x SS SE HF HelF. exact (safe_remap_degenerate F HF rm ss se ds de x SS SE). Qed.
(** smoothstep is exactly 0 up to edge0 and exactly 1 from edge1 on. *)
Theorem C54_smoothstep_ends : forall F rm e0 e1 A B, good_fmt F -> el F <= 16 -> is_real F e0 A -> is_real F e1 B -> (A < B)%R -> (Rabs (fround F rm (B - A)) < bpow radix2 (bias F + 1))%R ->
  (forall x X, is_real F x X -> (X <= A)%R -> is_real F (smoothstep F rm e0 e1 x) 0) /\
  (forall x X, is_real F x X -> (B <= X)%R -> is_real F (smoothstep F rm e0 e1 x) 1).
Proof. intros F rm e0 e1 A B HF HelF. exact (smoothstep_ends F HF HelF rm e0 e1 A B). Qed.
(** Unless rounding upwards smoothstep gives a number in [0, 1] for any arguments. *)
Theorem C54_smoothstep_range : forall F rm e0 e1 x, good_fmt F -> el F <= 16 -> rm <> RUP -> let r := smoothstep F rm e0 e1 x in
  is_real F r (fval F r) /\ (0 <= fval F r <= 1)%R.
Proof. intros F rm e0 e1 x HF HelF. exact (smoothstep_range F HF HelF rm e0 e1 x). Qed.
(** Rounding upwards smoothstep can exceed 1. *)
Theorem C54_smoothstep_up_refuted : exists x, let r := smoothstep binary32 RUP 0 0x3F800000 x in is_fin binary32 r = true /\ (1 < fval binary32 r)%R.
Proof.
  exists 0x3F7FFF9C. cbv zeta. split; [vm_compute; reflexivity|].
  assert (H : f_lt binary32 (f_one binary32 false) (smoothstep binary32 RUP 0 0x3F800000 0x3F7FFF9C) = true) by (vm_compute; reflexivity).
  destruct (f_one_props binary32 good32 false) as (_ & FO & _ & VO & _).
  rewrite (f_lt_fin binary32 good32) in H by (auto; vm_compute; reflexivity). assert (VO1 : fval binary32 (f_one binary32 false) = 1%R) by exact VO. rewrite VO1 in H.
  destruct (Rlt_bool_spec 1 (fval binary32 (smoothstep binary32 RUP 0 0x3F800000 0x3F7FFF9C))); [auto|discriminate].
Qed.
(** If edge1 - edge0 overflows smoothstep is 0 at edge1. *)
Theorem C54_smoothstep_overflow_refuted : exists e0 e1, is_pattern binary32 e0 /\ is_fin binary32 e0 = true /\ is_pattern binary32 e1 /\ is_fin binary32 e1 = true /\
  f_lt binary32 e0 e1 = true /\ smoothstep binary32 RNE e0 e1 e1 = 0.
Proof. exists 0xFF7FFFFF, 0x7F7FFFFF. repeat match goal with |- _ /\ _ => split end; try (vm_compute; reflexivity); vm_compute; split; congruence. Qed.
Example C54_ex : let i z := f_of_Z binary32 RNE z in
  normalize binary32 RNE (i 3) (i 1) (i 5) = 0x3F000000 /\ unlerp binary32 RNE (i 1) (i 5) (i 2) = 0x3E800000 /\
  mix binary32 RNE (i 4) (i 8) 0x3F000000 = i 6 /\ remap binary32 RNE (i 0) (i 4) (i 10) (i 20) (i 2) = i 15 /\
  smoothstep binary32 RNE (i 0) (i 2) (i 1) = 0x3F000000 /\ safe_remap binary32 RNE (i 4) (i 4) (i 10) (i 20) (i 2) = i 10.
Proof. cbv zeta. repeat match goal with |- _ /\ _ => split end; vm_compute; reflexivity. Qed.

(** ** C55: fract, repeat, delta_angle, ping_pong *)
(** fract(x) is the correctly rounded x - floor(x), between 0 and 1; it is exact, hence below 1, unless -1/2 < x < 0. *)
Theorem C55_fract : forall F rm x X, good_fmt F -> el F <= 16 -> is_real F x X ->
  is_real F (fract F rm x) (fround F rm (X - IZR (Zfloor X))) /\ (0 <= fround F rm (X - IZR (Zfloor X)) <= 1)%R /\
  ((0 <= X \/ X <= - / 2)%R -> is_real F (fract F rm x) (X - IZR (Zfloor X)) /\ (0 <= X - IZR (Zfloor X) < 1)%R).
Proof. intros F rm x X HF HelF. exact (fract_spec F HF HelF rm x X). Qed.
(** fract of an infinity or a NaN is NaN. *)
Theorem C55_fract_special : forall F rm x, good_fmt F -> el F <= 16 -> is_pattern F x -> is_fin F x = false -> is_nan F (fract F rm x) = true.
Proof. intros F rm x HF HelF. exact (fract_special F HF HelF rm x). Qed.
(** repeat on integers (or integer multiples of a power of two) is exactly the floored remainder. *)
Theorem C55_repeat : forall F rm x y X Y e, good_fmt F -> el F <= 16 -> Y <> 0 -> Z.abs X + Z.abs Y <= 2 ^ fl F -> emin F <= e -> e + fl F <= bias F ->
  is_real F x (IZR X * bpow radix2 e) -> is_real F y (IZR Y * bpow radix2 e) ->
  is_real F (repeatf F rm x y) (IZR (X mod Y) * bpow radix2 e).
Proof. intros F rm x y X Y e HF HelF. exact (repeat_spec F HF HelF rm x y X Y e). Qed.
(** safe repeat gives 0 for length 0 and repeat otherwise. *)
Theorem C55_safe_repeat_zero : forall F rm x y, good_fmt F -> el F <= 16 -> is_real F y 0 -> safe_repeatf F rm x y = f_zero F false.
Proof. intros F rm x y HF HelF. exact (safe_repeat_zero F HF rm x y). Qed.
(** safe repeat, other lengths. *)
Theorem C55_safe_repeat : forall F rm x y Y, good_fmt F -> el F <= 16 -> is_real F y Y -> Y <> 0%R -> safe_repeatf F rm x y = repeatf F rm x y.
Proof. intros F rm x y Y HF HelF. exact (safe_repeat_nonzero F HF rm x y Y). Qed.
(** delta_angle: for angles that are multiples of 2^e degrees the result is exactly target - current modulo 360, in (-180, 180]. *)
Theorem C55_delta_angle : forall F rm c t C T e, good_fmt F -> el F <= 16 -> emin F <= e <= 0 -> Z.abs (T - C) + 360 * 2 ^ (- e) <= 2 ^ fl F ->
  is_real F c (IZR C * bpow radix2 e) -> is_real F t (IZR T * bpow radix2 e) ->
  exists r k, is_real F (delta_angle F rm c t) r /\ (r = IZR T * bpow radix2 e - IZR C * bpow radix2 e - 360 * IZR k)%R /\ (-180 < r <= 180)%R.
Proof. intros F rm c t C T e HF HelF. exact (delta_angle_spec F HF HelF rm c t C T e). Qed.
(** ping_pong with length 0 is 0. *)
Theorem C55_ping_pong_zero : forall F rm a b, good_fmt F -> el F <= 16 -> is_real F b 0 -> ping_pong F rm a b = f_zero F false.
Proof. intros F rm a b HF HelF. exact (ping_pong_zero F HF rm a b). Qed.
(** ping_pong lies in [0, |b|] if no intermediate result overflows. *)
Theorem C55_ping_pong : forall F rm a b A B, good_fmt F -> el F <= 16 -> is_real F a A -> is_real F b B -> B <> 0%R -> (2 * Rabs B < bpow radix2 (bias F + 1))%R ->
  (Rabs (fround F rm (A - B)) < bpow radix2 (bias F + 1))%R -> (Rabs (fround F rm (fround F rm (A - B) / (2 * B))) < bpow radix2 (bias F + 1))%R ->
  exists r, is_real F (ping_pong F rm a b) r /\ (0 <= r <= Rabs B)%R.
Proof. intros F rm a b A B HF HelF. exact (ping_pong_range F HF HelF rm a b A B). Qed.
(** fract(x) < 1 fails for tiny negative x, and so does 0 <= repeat(x, 360) < 360
    on both sides. *)
Theorem C55_fract_refuted : exists x, is_pattern binary32 x /\ is_fin binary32 x = true /\ fract binary32 RNE x = f_one binary32 false.
Proof. exists 0x80000001. split; [vm_compute; split; congruence|]. split; vm_compute; reflexivity. Qed.
Theorem C55_repeat_refuted : let l := f_of_Z binary32 RNE 360 in
  (exists x, is_pattern binary32 x /\ is_fin binary32 x = true /\ repeatf binary32 RNE x l = l) /\
  (exists x, is_pattern binary32 x /\ is_fin binary32 x = true /\ f_lt binary32 (repeatf binary32 RNE x l) (f_zero binary32 false) = true).
Proof.
  split; [exists 0x9E800000|exists 0x80000001]; (split; [vm_compute; split; congruence|]); split; vm_compute; reflexivity.
Qed.
(** ping_pong(2^1023, denorm_min) is NaN: the quotient overflows. *)
Theorem C55_ping_pong_refuted : exists a b, is_pattern binary64 a /\ is_fin binary64 a = true /\ is_pattern binary64 b /\ is_fin binary64 b = true /\
  is_nan binary64 (ping_pong binary64 RNE a b) = true.
Proof. exists 0x7fe0000000000000, 1. repeat match goal with |- _ /\ _ => split end; try (vm_compute; reflexivity); vm_compute; split; congruence. Qed.
Example C55_ex : let i z := f_of_Z binary32 RNE z in
  fract binary32 RNE 0xC0600000 = 0x3F000000 /\ repeatf binary32 RNE (i (-10)) (i 360) = i 350 /\ repeatf binary32 RNE (i 7) (i (-5)) = i (-3) /\
  delta_angle binary32 RNE (i 350) (i 10) = i 20 /\ delta_angle binary32 RNE (i 10) (i 350) = i (-20) /\ delta_angle binary32 RNE (i 0) (i 180) = i 180 /\
  ping_pong binary64 RNE (f_of_Z binary64 RNE 7) (f_of_Z binary64 RNE 5) = f_of_Z binary64 RNE 3.
Proof. cbv zeta. repeat match goal with |- _ /\ _ => split end; vm_compute; reflexivity. Qed.

Print Assumptions C53_clamp.
Print Assumptions C53_clamp_mono.
Print Assumptions C53_saturate.
Print Assumptions C53_sign.
Print Assumptions C53_step.
Print Assumptions C53_chgsign.
Print Assumptions C53_move_towards.
Print Assumptions C53_approximately.
Print Assumptions C53_approximately_special.
Print Assumptions C53_mixed_clamp_refuted.
Print Assumptions C54_normalize_range.
Print Assumptions C54_normalize.
Print Assumptions C54_unlerp.
Print Assumptions C54_safe_unlerp.
Print Assumptions C54_mix.
Print Assumptions C54_remap.
Print Assumptions C54_safe_remap.
Print Assumptions C54_smoothstep_ends.
Print Assumptions C54_smoothstep_range.
Print Assumptions C54_smoothstep_up_refuted.
Print Assumptions C54_smoothstep_overflow_refuted.
Print Assumptions C55_fract.
Print Assumptions C55_fract_special.
Print Assumptions C55_repeat.
Print Assumptions C55_safe_repeat_zero.
Print Assumptions C55_safe_repeat.
Print Assumptions C55_delta_angle.
Print Assumptions C55_ping_pong_zero.
Print Assumptions C55_ping_pong.
Print Assumptions C55_fract_refuted.
Print Assumptions C55_repeat_refuted.
Print Assumptions C55_ping_pong_refuted.
