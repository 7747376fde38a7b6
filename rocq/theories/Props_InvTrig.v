(** * C76-C79: acos, asin, atan and atan2 for float and double *)
From Coq Require Import ZArith Reals Bool Lia Lra List Ratan.
From Flocq Require Import Core.
From Interval Require Import Tactic.
From Verif Require Import MachInt Fmt FloatSpec RoundProofs FmtProofs LogfNum ExtFloatSpec FOps FmanipWide ErrLib Exp2fProofs Expm1Proofs SinRedF ExactOps ExtFloatProofs InvTrig InvNum InvAcc InvAtan InvAtan2 InvSpecial.
Open Scope Z_scope.

(** [is_real F b v]: the pattern b is finite and its value is v. *)

(** ** C76: acos *)
(** On the whole domain the error is at most 3.3 roundings relative to the exact value. *)
Theorem C76_acos : forall rm x X, is_real binary64 x X -> (Rabs X <= 1)%R ->
  exists a V, cc_acos rm x = Some a /\ is_real binary64 a V /\ (Rabs (V - acos X) <= 3.3 * bpow radix2 (match rm with RNE => -53 | _ => -52 end) * acos X)%R.
Proof. intros rm x X H B. replace (bpow radix2 _) with (uF D rm) by (destruct rm; reflexivity). exact (acos64 rm x X H B). Qed.
Theorem C76_acosf : forall rm x X, is_real binary32 x X -> (Rabs X <= 1)%R ->
  exists a V, cc_acosf rm x = Some a /\ is_real binary32 a V /\ (Rabs (V - acos X) <= 3.3 * bpow radix2 (match rm with RNE => -24 | _ => -23 end) * acos X)%R.
Proof. intros rm x X H B. replace (bpow radix2 _) with (uF S32 rm) by (destruct rm; reflexivity). exact (acos32 rm x X H B). Qed.
(** A NaN is returned as it is; an infinity and a number outside [-1, 1] give the quiet NaN. *)
Theorem C76_special : forall F rm x, F = binary64 \/ F = binary32 -> is_pattern F x ->
  (is_nan F x = true -> acos_impl F rm x = Some x) /\
  (is_inf F x = true \/ (is_fin F x = true /\ (1 < Rabs (fval F x))%R) -> acos_impl F rm x = Some (qnan F)).
Proof.
  intros F rm x [-> | ->] P.
  - destruct (acos_special D good64 del d24 dem db 6%nat rm x P) as (A & B & C). split; [exact A|]. intros [H|(H1 & H2)]; auto.
  - destruct (acos_special S32 good32 sel h24 sem hbs 5%nat rm x P) as (A & B & C). split; [exact A|]. intros [H|(H1 & H2)]; auto.
Qed.

(** ** C77: asin *)
(** Within 2 roundings up to 1/2; above 1/2, and more so below -1/2, where the result is pi/2 - acos x,
    the cancellation costs up to 9 and 16. *)
Theorem C77_asin : forall rm x X, is_real binary64 x X -> (Rabs X <= 1)%R -> let u := bpow radix2 (match rm with RNE => -53 | _ => -52 end) in
  exists a V, cc_asin rm x = Some a /\ is_real binary64 a V /\
  (Rabs X <= / 2 -> Rabs (V - asin X) <= 2 * u * Rabs (asin X) + 3 * bpow radix2 (-1074))%R /\
  (/ 2 < X -> Rabs (V - asin X) <= 9 * u * Rabs (asin X))%R /\ (X < - / 2 -> Rabs (V - asin X) <= 16 * u * Rabs (asin X))%R.
Proof. intros rm x X H B u. replace u with (uF D rm) by (destruct rm; reflexivity). exact (asin64 rm x X H B). Qed.
Theorem C77_asinf : forall rm x X, is_real binary32 x X -> (Rabs X <= 1)%R -> let u := bpow radix2 (match rm with RNE => -24 | _ => -23 end) in
  exists a V, cc_asinf rm x = Some a /\ is_real binary32 a V /\
  (Rabs X <= / 2 -> Rabs (V - asin X) <= 2 * u * Rabs (asin X) + 3 * bpow radix2 (-149))%R /\
  (/ 2 < X -> Rabs (V - asin X) <= 9 * u * Rabs (asin X))%R /\ (X < - / 2 -> Rabs (V - asin X) <= 16 * u * Rabs (asin X))%R.
Proof. intros rm x X H B u. replace u with (uF S32 rm) by (destruct rm; reflexivity). exact (asin32 rm x X H B). Qed.
Theorem C77_special : forall F rm x, F = binary64 \/ F = binary32 -> is_pattern F x ->
  (is_nan F x = true \/ is_inf F x = true \/ (is_fin F x = true /\ (1 < Rabs (fval F x))%R) -> asin_impl F rm x = Some (qnan F)) /\
  (mag_of F x = 0 -> asin_impl F rm x = Some x).
Proof.
  assert (I : forall F x, good_fmt F -> is_pattern F x -> is_inf F x = true -> x = sbit F (sign_of F x) + inf_mag F).
  { intros F x HF P H. rewrite (pattern_split F HF x P) at 1. unfold is_inf in H. apply Z.eqb_eq in H. rewrite H. reflexivity. }
  assert (M : forall F x, good_fmt F -> is_pattern F x -> mag_of F x = 0 -> is_fin F x = true /\ fval F x = 0%R).
  { intros F x HF P H. assert (Fi : is_fin F x = true) by (unfold is_fin; rewrite H; apply Z.ltb_lt; apply (inf_mag_pos F HF)). split; [exact Fi|]. apply (fval_zero F HF); auto. }
  intros F rm x [-> | ->] P; (split; [intros [H|[H|(H1 & H2)]]|intros H]).
  - exact (asin_nan D good64 del rm x P H).
  - rewrite (I D x good64 P H). exact (proj1 (asin_inf rm _)).
  - exact (asin_out D good64 del d24 dem db 6%nat rm x P H1 H2).
  - destruct (M D x good64 P H) as (A & B). exact (asin_zero D good64 d24 dem db 6%nat rm x P A B).
  - exact (asin_nan S32 good32 sel rm x P H).
  - rewrite (I S32 x good32 P H). exact (proj2 (asin_inf rm _)).
  - exact (asin_out S32 good32 sel h24 sem hbs 5%nat rm x P H1 H2).
  - destruct (M S32 x good32 P H) as (A & B). exact (asin_zero S32 good32 h24 sem hbs 5%nat rm x P A B).
Qed.
(** asin is not odd: the negative half loses more. *)
Theorem C77_odd_refuted : exists x a b, cc_asin RNE x = Some a /\ cc_asin RNE (f_neg binary64 x) = Some b /\ b <> f_neg binary64 a.
Proof. exists 0x3fe199999999999a. eexists _, _. split; [vm_compute; reflexivity|]. split; [vm_compute; reflexivity|]. vm_compute. discriminate. Qed.

(** ** C78: atan *)
(** Double: within 7 roundings up to 1/2, 17.5 for the other positive and 21 for the other negative arguments. *)
Theorem C78_atan : forall rm x X, is_real binary64 x X -> let u := bpow radix2 (match rm with RNE => -53 | _ => -52 end) in
  exists a V, cc_atan rm x = Some a /\ is_real binary64 a V /\
  (Rabs (V - atan X) <= (if Rle_bool (Rabs X) (/ 2) then 7 else if Rlt_bool X 0 then 21 else 17.5) * u * Rabs (atan X) + 4 * bpow radix2 (-1074))%R.
Proof. intros rm x X H u. replace u with (uF D rm) by (destruct rm; reflexivity). exact (atan64 rm x X H). Qed.
(** Float: one rounding of a value within 22 2^-52 of the arctangent. *)
Theorem C78_atanf : forall rm x X, is_real binary32 x X ->
  exists a V, cc_atanf rm x = Some a /\ is_real binary32 a (fround binary32 rm V) /\ (Rabs (V - atan X) <= 22 * bpow radix2 (-52) * Rabs (atan X))%R.
Proof. exact atan32. Qed.
(** Zeros come back, infinities give +-pi/2 (in the directed modes possibly one float below it), NaN gives NaN. *)
Theorem C78_special : forall rm x,
  (is_pattern binary64 x -> (mag_of binary64 x = 0 \/ is_nan binary64 x = true -> cc_atan rm x = Some x) /\
    (is_inf binary64 x = true -> cc_atan rm x = Some (sbit binary64 (sign_of binary64 x) + 0x3ff921fb54442d18))) /\
  (is_pattern binary32 x -> (mag_of binary32 x = 0 -> cc_atanf rm x = Some x) /\ (is_nan binary32 x = true -> cc_atanf rm x = Some (qnan binary32)) /\
    (is_inf binary32 x = true -> exists d, cc_atanf rm x = Some (sbit binary32 (sign_of binary32 x) + 0x3fc90fdb - d) /\ (d = 0 \/ (d = 1 /\ rm <> RNE)))).
Proof.
  assert (M : forall F x, good_fmt F -> is_pattern F x -> mag_of F x = 0 -> is_fin F x = true /\ fval F x = 0%R).
  { intros F x HF P H. assert (Fi : is_fin F x = true) by (unfold is_fin; rewrite H; apply Z.ltb_lt; apply (inf_mag_pos F HF)). split; [exact Fi|]. apply (fval_zero F HF); auto. }
  intros rm x. split; intros P; [split|split; [|split]].
  - intros [H|H]; [destruct (M D x good64 P H) as (A & B); exact (atan64_zero rm x P A B)|exact (atan64_nan rm x P H)].
  - intros H. rewrite (pattern_split D good64 x P) at 1. unfold is_inf in H. apply Z.eqb_eq in H. rewrite H. destruct rm, (sign_of D x); vm_compute; reflexivity.
  - intros H. destruct (M S32 x good32 P H) as (A & B). exact (atan32_zero rm x P A B).
  - exact (atan32_nan rm x P).
  - intros H. unfold is_inf in H. apply Z.eqb_eq in H. assert (EX : x = sbit S32 (sign_of S32 x) + inf_mag S32) by (rewrite (pattern_split S32 good32 x P) at 1; rewrite H; reflexivity). set (s := sign_of S32 x) in *. clearbody s. rewrite EX.
    destruct rm, s; (exists 0; split; [vm_compute; reflexivity|left; reflexivity]) || (exists 1; split; [vm_compute; reflexivity|right; split; [reflexivity|discriminate]]).
Qed.
(** "double atan is within a couple of double ULP" (inv_trig_impl.hpp:153-154) is false: this result, in
    [-1, -1/2) where an ulp is 2^-53, is off by more than five of them. *)
Theorem C78_ulp_refuted : exists x X a V, cc_atan RNE x = Some a /\ is_real binary64 x X /\ is_real binary64 a V /\ (/ 2 <= Rabs V < 1)%R /\ (5 * bpow radix2 (-53) < Rabs (V - atan X))%R.
Proof.
  exists 0xbfe2944804bf70e1, (- (IZR 0x12944804bf70e1 * bpow radix2 (-53)))%R, 0xbfe0d543956af118, (- (IZR 0x10d543956af118 * bpow radix2 (-53)))%R. split; [vm_compute; reflexivity|].
  split; [exact (neg_r D good64 _ _ (lit_r false 0x12944804bf70e1 (-53) ltac:(lia) ltac:(lia)))|].
  split; [exact (neg_r D good64 _ _ (lit_r false 0x10d543956af118 (-53) ltac:(lia) ltac:(lia)))|].
  split; [rewrite Rabs_Ropp, Rabs_pos_eq; bpn; lra|]. bpn. interval with (i_prec 120).
Qed.

(** ** C79: atan2 *)
(** (X, Y) = r (cos A, sin A) with r > 0 and -pi < A <= pi: the result is within 24 roundings (double) and
    4.01 roundings (float) of A, for every finite point, whether the quotient overflows, underflows or not. *)
Theorem C79_atan2 : forall rm y x Y X r A, is_real binary64 y Y -> is_real binary64 x X -> (0 < r)%R -> (- PI < A <= PI)%R -> X = (r * cos A)%R -> Y = (r * sin A)%R ->
  exists a V, cc_atan2 rm y x = Some a /\ is_real binary64 a V /\ (Rabs (V - A) <= 24 * bpow radix2 (match rm with RNE => -53 | _ => -52 end) * Rabs A + 6 * bpow radix2 (-1074))%R.
Proof. intros rm y x Y X r A Hy Hx Hr HA EX EY. replace (bpow radix2 (match rm with RNE => -53 | _ => -52 end)) with (uF D rm) by (destruct rm; reflexivity). apply (atan2_64 rm y x Y X A Hy Hx). split; [exact HA|]. exists r. auto. Qed.
Theorem C79_atan2f : forall rm y x Y X r A, is_real binary32 y Y -> is_real binary32 x X -> (0 < r)%R -> (- PI < A <= PI)%R -> X = (r * cos A)%R -> Y = (r * sin A)%R ->
  exists a V, cc_atan2f rm y x = Some a /\ is_real binary32 a V /\ (Rabs (V - A) <= 4.01 * bpow radix2 (match rm with RNE => -24 | _ => -23 end) * Rabs A + 3 * bpow radix2 (-149))%R.
Proof. intros rm y x Y X r A Hy Hx Hr HA EX EY. replace (bpow radix2 (match rm with RNE => -24 | _ => -23 end)) with (uF S32 rm) by (destruct rm; reflexivity). apply (atan2_32 rm y x Y X A Hy Hx). split; [exact HA|]. exists r. auto. Qed.
(** A zero y: y itself beside a positive x or +0; pi with the sign of y beside -0. *)
Theorem C79_zero : forall rm y x,
  (is_pattern binary64 y -> is_pattern binary64 x -> mag_of binary64 y = 0 -> is_fin binary64 x = true ->
    (sign_of binary64 x = false -> cc_atan2 rm y x = Some y) /\
    (mag_of binary64 x = 0 -> sign_of binary64 x = true -> cc_atan2 rm y x = Some (sbit binary64 (sign_of binary64 y) + 0x400921fb54442d18))) /\
  (is_pattern binary32 y -> is_pattern binary32 x -> mag_of binary32 y = 0 -> is_fin binary32 x = true ->
    (sign_of binary32 x = false -> cc_atan2f rm y x = Some y) /\
    (mag_of binary32 x = 0 -> sign_of binary32 x = true -> cc_atan2f rm y x = Some (sbit binary32 (sign_of binary32 y) + 0x40490fdb))).
Proof.
  assert (M : forall F x, good_fmt F -> is_pattern F x -> mag_of F x = 0 -> is_fin F x = true /\ fval F x = 0%R).
  { intros F x HF P H. assert (Fi : is_fin F x = true) by (unfold is_fin; rewrite H; apply Z.ltb_lt; apply (inf_mag_pos F HF)). split; [exact Fi|]. apply (fval_zero F HF); auto. }
  assert (N : forall F x, good_fmt F -> is_pattern F x -> is_fin F x = true -> sign_of F x = false -> (0 < fval F x)%R \/ (fval F x = 0%R /\ sign_of F x = false)).
  { intros F x HF P Fi S. destruct (Req_dec (fval F x) 0) as [Z|NZ]; [right; auto|left]. rewrite (sign_fval F HF) in S by auto. destruct (Rlt_bool_spec (fval F x) 0); [discriminate|lra]. }
  intros rm y x. split; intros Py Px My Fx.
  - destruct (M D y good64 Py My) as (Fy & Vy). destruct (atan2_zero_y D good64 del d24 dem db 6%nat rm (atan_d rm) y x (atan64_zero rm) Py Px Fy Fx Vy) as (A & B). split; [intros S; exact (A (N D x good64 Px Fx S))|].
    intros Mx S. etransitivity; [exact (B (conj (proj2 (M D x good64 Px Mx)) S))|]. destruct (sign_of D y); vm_compute; reflexivity.
  - destruct (M S32 y good32 Py My) as (Fy & Vy). destruct (atan2_zero_y S32 good32 sel h24 sem hbs 5%nat rm (atan_f rm) y x (atan32_zero rm) Py Px Fy Fx Vy) as (A & B). split; [intros S; exact (A (N S32 x good32 Px Fx S))|].
    intros Mx S. etransitivity; [exact (B (conj (proj2 (M S32 x good32 Px Mx)) S))|]. destruct (sign_of S32 y); vm_compute; reflexivity.
Qed.
(** atan2(-0, x) for a negative x should be -pi: the code tests y >= 0, which holds of -0, and returns +pi. *)
Theorem C79_negative_zero_refuted : exists y x a, mag_of binary64 y = 0 /\ sign_of binary64 y = true /\ is_real binary64 x (-1) /\ cc_atan2 RNE y x = Some a /\ a = 0x400921fb54442d18 /\ sign_of binary64 a = false.
Proof.
  exists 0x8000000000000000, 0xbff0000000000000, 0x400921fb54442d18. split; [reflexivity|]. split; [reflexivity|].
  split; [split; [split; vm_compute; congruence|split; [reflexivity|fvalof D 0xbff0000000000000; bpn; lra]]|]. split; [vm_compute; reflexivity|]. split; reflexivity.
Qed.
(** Infinities: (y, +inf) gives a zero and (y, -inf) pi with the sign of y; (+-inf, x) gives +-pi/2; two
    infinities give +-pi/4 and +-3pi/4. *)
Theorem C79_infinite : forall rm s t,
  (forall y, is_pattern binary64 y -> is_fin binary64 y = true -> cc_atan2 rm y (sbit binary64 s + inf_mag binary64) = Some (sbit binary64 (sign_of binary64 y) + (if s then 0x400921fb54442d18 else 0))) /\
  (forall y, is_pattern binary32 y -> is_fin binary32 y = true -> cc_atan2f rm y (sbit binary32 s + inf_mag binary32) = Some (sbit binary32 (sign_of binary32 y) + (if s then 0x40490fdb else 0))) /\
  (forall x, is_pattern binary64 x -> is_fin binary64 x = true -> cc_atan2 rm (sbit binary64 s + inf_mag binary64) x = Some (sbit binary64 s + 0x3ff921fb54442d18)) /\
  (forall x, is_pattern binary32 x -> is_fin binary32 x = true -> cc_atan2f rm (sbit binary32 s + inf_mag binary32) x = Some (sbit binary32 s + 0x3fc90fdb)) /\
  (exists a V, cc_atan2 rm (sbit binary64 s + inf_mag binary64) (sbit binary64 t + inf_mag binary64) = Some a /\ is_real binary64 a V /\ (Rabs (V - (if s then -1 else 1) * (if t then 3 * PI / 4 else PI / 4)) <= bpow radix2 (-51))%R) /\
  (exists a V, cc_atan2f rm (sbit binary32 s + inf_mag binary32) (sbit binary32 t + inf_mag binary32) = Some a /\ is_real binary32 a V /\ (Rabs (V - (if s then -1 else 1) * (if t then 3 * PI / 4 else PI / 4)) <= 5 * bpow radix2 (-23))%R).
Proof.
  assert (CN : forall (s : bool) v, ((if s then -1 else 1) * v = cneg s v)%R) by (intros [] v; cbn [cneg]; ring).
  intros rm s t. split; [intros y; apply (atan2_inf_x rm s y)|]. split; [intros y; apply (atan2_inf_x rm s y)|]. split; [intros x; apply (atan2_inf_y rm s x)|]. split; [intros x; apply (atan2_inf_y rm s x)|].
  destruct (atan2_inf_inf rm s t) as ((a & V & A1 & A2 & A3) & (b & W & B1 & B2 & B3)). split.
  - exists a, V. split; [exact A1|]. split; [exact A2|]. rewrite CN. apply Rle_trans with (1 := A3). change (-51) with (1 + -52). rewrite bpow_plus. change (bpow radix2 1) with 2%R. apply Rmult_le_compat_l; [lra|]. destruct rm; apply bpow_le; vm_compute; discriminate.
  - exists b, W. split; [exact B1|]. split; [exact B2|]. rewrite CN. apply Rle_trans with (1 := B3). apply Rmult_le_compat_l; [lra|]. destruct rm; apply bpow_le; vm_compute; discriminate.
Qed.
Theorem C79_nan : forall F rm atan_ y x, F = binary64 \/ F = binary32 -> is_pattern F y -> is_pattern F x -> is_nan F y = true \/ is_nan F x = true -> atan2_impl F rm atan_ y x = Some (qnan F).
Proof. intros F rm atan_ y x [-> | ->]; [exact (atan2_nan D good64 del rm atan_ y x)|exact (atan2_nan S32 good32 sel rm atan_ y x)]. Qed.

(** ** non-vacuity *)
Ltac rl F x := (split; [split; vm_compute; congruence|split; [reflexivity|fvalof F x; bpn; lra]]).
Example C76_ex : is_real binary64 0xbfe8000000000000 (-0.75) /\ is_real binary32 0x3f7fffff (16777215 / 16777216) /\ cc_acos RNE 0xbfe8000000000000 = Some 4612629203707475651 /\ cc_acosf RUP 0x3f7fffff = Some 968164597 /\ cc_acos RNE 0x4000000000000000 = Some (qnan binary64).
Proof. split; [rl D 0xbfe8000000000000|]. split; [rl F32 0x3f7fffff|]. vm_compute. repeat split. Qed.
Example C77_ex : is_real binary64 0xbfe8000000000000 (-0.75) /\ cc_asin RNE 0xbfe8000000000000 = Some 13829185920525828316 /\ cc_asin RDN 0x3fd0000000000000 = Some 4598223502729512909 /\ cc_asin RNE 0x8000000000000000 = Some 0x8000000000000000.
Proof. split; [rl D 0xbfe8000000000000|]. vm_compute. repeat split. Qed.
Example C78_ex : is_real binary64 0x4008000000000000 3 /\ cc_atan RNE 0x4008000000000000 = Some 4608304021247788384 /\ cc_atan RNE 0xbff0000000000000 = Some 13828621494152080664 /\ cc_atanf RUP 0x40400000 = Some 1067442364.
Proof. split; [rl D 0x4008000000000000|]. vm_compute. repeat split. Qed.
Example C79_ex : is_real binary64 0xbff0000000000000 (-1) /\ is_real binary64 0x3ff0000000000000 1 /\ (-1 = sqrt 2 * cos (3 * (PI / 4)))%R /\ (1 = sqrt 2 * sin (3 * (PI / 4)))%R /\ (- PI < 3 * (PI / 4) <= PI)%R /\
  cc_atan2 RNE 0x3ff0000000000000 0xbff0000000000000 = Some 4612488097114038738 /\ cc_atan2f RNE 0x7f7fffff 0x80000001 = Some 1070141403.
Proof.
  split; [rl D 0xbff0000000000000|]. split; [rl D 0x3ff0000000000000|]. split; [rewrite cos_3PI4; pose proof sqrt2_neq_0; field; assumption|]. split; [rewrite sin_3PI4; pose proof sqrt2_neq_0; field; assumption|]. split; [pose proof PI_RGT_0; lra|]. vm_compute. repeat split.
Qed.

Print Assumptions C76_acos.
Print Assumptions C76_acosf.
Print Assumptions C76_special.
Print Assumptions C77_asin.
Print Assumptions C77_asinf.
Print Assumptions C77_special.
Print Assumptions C77_odd_refuted.
Print Assumptions C78_atan.
Print Assumptions C78_atanf.
Print Assumptions C78_special.
Print Assumptions C78_ulp_refuted.
Print Assumptions C79_atan2.
Print Assumptions C79_atan2f.
Print Assumptions C79_zero.
Print Assumptions C79_negative_zero_refuted.
Print Assumptions C79_infinite.
Print Assumptions C79_nan.
