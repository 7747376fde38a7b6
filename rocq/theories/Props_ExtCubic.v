(** * C83: cubic, lerp_angle and move_towards_angle of ccm::ext *)
From Coq Require Import ZArith Reals Bool Lia Lra.
From Flocq Require Import Core.
From Verif Require Import MachInt Fmt FloatSpec FmtProofs FOps ExtFloatSpec ExtFloat ExtCubic.
Open Scope Z_scope.

(** [hermite] has the values y1 and y2 and the slopes y2 - y0 and y3 - y1 at 0 and 1. *)
Theorem C83_hermite : forall y0 y1 y2 y3, exists c d : R -> R, forall t,
  (hermite y0 y1 y2 y3 t = y1 + (y2 - y0) * t + c t * t ^ 2)%R /\
  (hermite y0 y1 y2 y3 t = y2 + (y3 - y1) * (t - 1) + d t * (t - 1) ^ 2)%R.
Proof.
  intros. exists (fun t => (2 * y0 - 2 * y1 + y2 - y3 + (y3 - y2 - y0 + y1) * t)%R), (fun t => (2 * y3 - 2 * y2 + y1 - y0 + (y3 - y2 - y0 + y1) * (t - 1))%R).
  intros t. unfold hermite. split; ring.
Qed.
(** For 0 <= t <= 1 and values of magnitude at most m, not near the overflow threshold, cubic is finite and off by at most
    128 u m + 32 eta, u = 2^-fl being the spacing of the numbers above 1 and eta the smallest positive number, in every mode. *)
Theorem C83_cubic : forall F rm y0 y1 y2 y3 t Y0 Y1 Y2 Y3 T m, good_fmt F -> 6 <= fl F -> (0 <= m <= bpow radix2 (bias F - 4))%R ->
  is_real F y0 Y0 -> is_real F y1 Y1 -> is_real F y2 Y2 -> is_real F y3 Y3 ->
  (Rabs Y0 <= m)%R -> (Rabs Y1 <= m)%R -> (Rabs Y2 <= m)%R -> (Rabs Y3 <= m)%R -> is_real F t T -> (0 <= T <= 1)%R ->
  exists r, is_real F (cubic F rm y0 y1 y2 y3 t) r /\
    (Rabs (r - hermite Y0 Y1 Y2 Y3 T) <= 128 * bpow radix2 (- fl F) * m + 32 * bpow radix2 (emin F))%R.
Proof. intros F rm y0 y1 y2 y3 t Y0 Y1 Y2 Y3 T m HF Hf Hm R0 R1 R2 R3 M0 M1 M2 M3. exact (cubic_err F HF Hf rm m Hm y0 y1 y2 y3 Y0 Y1 Y2 Y3 R0 R1 R2 R3 M0 M1 M2 M3 t T). Qed.
(** At t = 0 it is exactly y1. *)
Theorem C83_cubic_start : forall F rm y0 y1 y2 y3 t Y0 Y1 Y2 Y3 m, good_fmt F -> 6 <= fl F -> (0 <= m <= bpow radix2 (bias F - 4))%R ->
  is_real F y0 Y0 -> is_real F y1 Y1 -> is_real F y2 Y2 -> is_real F y3 Y3 ->
  (Rabs Y0 <= m)%R -> (Rabs Y1 <= m)%R -> (Rabs Y2 <= m)%R -> (Rabs Y3 <= m)%R -> is_real F t 0 ->
  is_real F (cubic F rm y0 y1 y2 y3 t) Y1.
Proof. intros F rm y0 y1 y2 y3 t Y0 Y1 Y2 Y3 m HF Hf Hm R0 R1 R2 R3 M0 M1 M2 M3. exact (cubic_start F HF Hf rm m Hm y0 y1 y2 y3 Y0 Y1 Y2 Y3 R0 R1 R2 R3 M0 M1 M2 M3 t). Qed.
(** On multiples of 2^e and t = K / 2^n that are short enough it is exact, for instance on integers up to 2^19 with t = 0 or 1 in float. *)
Theorem C83_cubic_exact : forall F rm y0 y1 y2 y3 t Y0 Y1 Y2 Y3 K M n e, good_fmt F -> el F <= 16 -> 0 <= n -> 1 <= M ->
  Z.abs Y0 <= M -> Z.abs Y1 <= M -> Z.abs Y2 <= M -> Z.abs Y3 <= M ->
  0 <= K <= 2 ^ n -> 16 * M * 2 ^ (3 * n) <= 2 ^ fl F -> emin F <= e - 3 * n -> e - 3 * n + fl F <= bias F ->
  is_real F y0 (IZR Y0 * bpow radix2 e) -> is_real F y1 (IZR Y1 * bpow radix2 e) -> is_real F y2 (IZR Y2 * bpow radix2 e) -> is_real F y3 (IZR Y3 * bpow radix2 e) ->
  is_real F t (IZR K * bpow radix2 (- n)) ->
  is_real F (cubic F rm y0 y1 y2 y3 t)
    (hermite (IZR Y0 * bpow radix2 e) (IZR Y1 * bpow radix2 e) (IZR Y2 * bpow radix2 e) (IZR Y3 * bpow radix2 e) (IZR K * bpow radix2 (- n))).
Proof. intros F rm y0 y1 y2 y3 t Y0 Y1 Y2 Y3 K M n e HF HelF. exact (cubic_exact F HF HelF rm y0 y1 y2 y3 t Y0 Y1 Y2 Y3 K M n e). Qed.
(** At t = 1 it need not be y2: cubic(1, 0, 2^-30, 0, 1) is 0. *)
Theorem C83_cubic_end_refuted : exists y0 y1 y2 y3, is_fin binary32 y0 = true /\ is_fin binary32 y1 = true /\ is_fin binary32 y2 = true /\ is_fin binary32 y3 = true /\
  f_eq binary32 (cubic binary32 RNE y0 y1 y2 y3 (f_one binary32 false)) y2 = false.
Proof. exists 0x3f800000, 0, 0x30800000, 0. repeat split; vm_compute; reflexivity. Qed.

(** lerp_angle on multiples of 2^e degrees and 0 <= t <= 1: d is the shortest turn from start to end; the result is start + d t
    up to the two roundings, never leaves the arc, and is exact at t = 0 (start) and t = 1 (end modulo 360). *)
Theorem C83_lerp_angle : forall F rm c g t C T e s, good_fmt F -> el F <= 16 -> emin F <= e <= 0 ->
  Z.abs (T - C) + 360 * 2 ^ (- e) <= 2 ^ fl F -> Z.abs C + 180 * 2 ^ (- e) <= 2 ^ fl F ->
  is_real F c (IZR C * bpow radix2 e) -> is_real F g (IZR T * bpow radix2 e) -> is_real F t s -> (0 <= s <= 1)%R ->
  exists d k r, let C' := (IZR C * bpow radix2 e)%R in
    (d = IZR T * bpow radix2 e - C' - 360 * IZR k)%R /\ (-180 < d <= 180)%R /\
    is_real F (lerp_angle F rm c g t) r /\ r = fround F rm (C' + fround F rm (d * s)) /\ (Rmin C' (C' + d) <= r <= Rmax C' (C' + d))%R /\
    (s = 0%R -> r = C') /\ (s = 1%R -> r = C' + d)%R.
Proof. intros F rm c g t C T e s HF HelF. exact (lerp_angle_spec F HF HelF rm c g t C T e s). Qed.
(** move_towards_angle: the same turn d, taken fully if it is at most max_delta, else max_delta in its direction; never past the target. *)
Theorem C83_move_towards_angle : forall F rm c g m C T e X, good_fmt F -> el F <= 16 -> emin F <= e <= 0 ->
  Z.abs (T - C) + 360 * 2 ^ (- e) <= 2 ^ fl F -> Z.abs C + 180 * 2 ^ (- e) <= 2 ^ fl F ->
  is_real F c (IZR C * bpow radix2 e) -> is_real F g (IZR T * bpow radix2 e) -> is_real F m X -> (0 <= X)%R ->
  exists d k r, let C' := (IZR C * bpow radix2 e)%R in
    (d = IZR T * bpow radix2 e - C' - 360 * IZR k)%R /\ (-180 < d <= 180)%R /\
    is_real F (move_towards_angle F rm c g m) r /\ (Rmin C' (C' + d) <= r <= Rmax C' (C' + d))%R /\
    ((Rabs d <= X)%R -> r = C' + d)%R /\ (r <> (C' + d)%R -> r = fround F rm (if Rlt_bool 0 d then C' + X else C' - X)).
Proof. intros F rm c g m C T e X HF HelF. exact (move_towards_angle_spec F HF HelF rm c g m C T e X). Qed.

Example C83_ex : let i z := f_of_Z binary32 RNE z in let half := f_pow2 binary32 false (-1) in
  cubic binary32 RNE (i 1) (i 2) (i 4) (i 3) half = f_add binary32 RNE (i 3) (f_pow2 binary32 false (-2)) /\
  cubic binary32 RNE (i 1) (i 2) (i 4) (i 3) (i 1) = i 4 /\ cubic binary64 RUP (f_of_Z binary64 RNE 1) 0 0 0 0 = 0 /\
  lerp_angle binary32 RNE (i 350) (i 10) half = i 360 /\ lerp_angle binary32 RNE (i 10) (i 350) (i 1) = i (-10) /\
  move_towards_angle binary32 RNE (i 10) (i 350) (i 5) = i 5 /\ move_towards_angle binary32 RNE (i 10) (i 350) (i 30) = i (-10) /\
  16 * 2 ^ 10 * 2 ^ (3 * 3) <= 2 ^ fl binary32 /\ 6 <= fl binary32 /\ emin binary32 <= -8 <= 0 /\ Z.abs (10 * 256 - 350 * 256) + 360 * 2 ^ 8 <= 2 ^ fl binary32.
Proof. cbv zeta. repeat match goal with |- _ /\ _ => split end; vm_compute; try reflexivity; congruence. Qed.

Print Assumptions C83_hermite.
Print Assumptions C83_cubic.
Print Assumptions C83_cubic_start.
Print Assumptions C83_cubic_exact.
Print Assumptions C83_cubic_end_refuted.
Print Assumptions C83_lerp_angle.
Print Assumptions C83_move_towards_angle.
