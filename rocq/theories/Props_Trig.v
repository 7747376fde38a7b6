(** * C72-C75: sin, cos and tan for float and double *)
From Coq Require Import ZArith Reals Bool Lia Lra List.
From Flocq Require Import Core.
From Interval Require Import Tactic.
From Verif Require Import MachInt Fmt FloatSpec RoundProofs FmtProofs LogfNum ExtFloatSpec FOps FmanipWide ExpoData ExpoF ErrLib Exp2fProofs Log1pWrap Expm1Proofs Trig PhFin SinRedF SinD SinDref SinF TanAcc.
Open Scope Z_scope.

(** [ct] is constant evaluation, which rounds to nearest.  [is_real F b v]: the pattern b is finite
    and its value is v. *)

(** ** C72: the Payne-Hanek reduction *)
(** For every normal double the octant k and the reduced argument y satisfy
    x = (16 n + k) pi/8 + w with |w| at most pi/16 + 2^-200, and y is w up to a relative error of
    2.002 roundings and an absolute error of 2^-100. *)
Theorem C72_payne_hanek : forall rm x X, is_real binary64 x X -> (bpow radix2 (-1022) <= Rabs X)%R ->
  exists k y Y n, payne_hanek_reduce rm x = (k, y) /\ 0 <= k < 16 /\ is_real binary64 y Y /\
    (let w := X - IZR (16 * n + k) * (PI / 8) in
     Rabs w <= PI / 16 + bpow radix2 (-200) /\
     Rabs (Y - w) <= 2.002 * bpow radix2 (match rm with RNE => -53 | _ => -52 end) * Rabs w + bpow radix2 (-100))%R.
Proof. intros rm x X H HN. destruct (ph_reduce rm x X H HN) as (k & y & Y & n & E). exists k, y, Y, n. destruct rm; exact E. Qed.

(** ** C73: sin(float), cos(float) *)
(** For |x| <= 25 and for |x| >= 2^18 the error is at most 13 roundings relative to the exact value,
    plus an absolute error far below the distance of the result to zero of any float argument. *)
Theorem C73_sincosf : forall rm ct x X, (ct = true -> rm = RNE) -> is_real binary32 x X -> (Rabs X <= 25 \/ bpow radix2 18 <= Rabs X)%R ->
  let u := bpow radix2 (match rm with RNE => -24 | _ => -23 end) in
  let d := (if Rle_bool (Rabs X) 25 then Rabs X * bpow radix2 (-57) else bpow radix2 (-98))%R in
  (exists r V, cc_sinf rm ct x = Some r /\ is_real binary32 r V /\ (Rabs (V - sin X) <= 13 * u * Rabs (sin X) + d + bpow radix2 (-145))%R) /\
  (exists r V, cc_cosf rm ct x = Some r /\ is_real binary32 r V /\ (Rabs (V - cos X) <= 13 * u * Rabs (cos X) + d + bpow radix2 (-145))%R).
Proof.
  intros rm ct x X HC HX HR u d.
  assert (G : forall s, exists r V, sincosf_eval rm ct s x = Some r /\ is_real binary32 r V /\ (Rabs (V - trig s X) <= 13 * u * Rabs (trig s X) + d + bpow radix2 (-145))%R).
  { intros s. destruct (sincosf_accuracy rm ct s x X HC HX) as (r & V & E & R & B). exists r, V. split; [exact E|]. split; [exact R|].
    replace (uF S32 rm) with u in B by (destruct rm; reflexivity). apply Rle_trans with (1 := B). unfold errF, d. destruct (Rle_bool_spec (Rabs X) 25); [lra|]. rewrite Rlt_bool_false by (destruct HR; lra). lra. }
  split; [exact (G true)|exact (G false)].
Qed.
(** In between only an absolute bound holds, proportional to |x|. *)
Theorem C73_middle : forall rm ct x X, (ct = true -> rm = RNE) -> is_real binary32 x X -> (25 < Rabs X < bpow radix2 18)%R ->
  let u := bpow radix2 (match rm with RNE => -24 | _ => -23 end) in
  (exists r V, cc_sinf rm ct x = Some r /\ is_real binary32 r V /\ (Rabs (V - sin X) <= u * (Rabs X + 13))%R) /\
  (exists r V, cc_cosf rm ct x = Some r /\ is_real binary32 r V /\ (Rabs (V - cos X) <= u * (Rabs X + 13))%R).
Proof.
  intros rm ct x X HC HX HR u.
  assert (G : forall s, exists r V, sincosf_eval rm ct s x = Some r /\ is_real binary32 r V /\ (Rabs (V - trig s X) <= u * (Rabs X + 13))%R).
  { intros s. destruct (sincosf_accuracy rm ct s x X HC HX) as (r & V & E & R & B). exists r, V. split; [exact E|]. split; [exact R|].
    replace (uF S32 rm) with u in B by (destruct rm; reflexivity). unfold errF in B. rewrite Rle_bool_false, Rlt_bool_true in B by lra. exact B. }
  split; [exact (G true)|exact (G false)].
Qed.
(** The loss is real: sin(262143.5f) is off by more than 0.006, two hundred thousand ulps. *)
Theorem C73_middle_refuted : exists x r V, cc_sinf RNE false x = Some r /\ is_real binary32 x 262143.5 /\ is_real binary32 r V /\ (0.006 < Rabs (V - sin 262143.5))%R.
Proof. destruct far_f_refuted as (V & A & B & C & E). exists far_xf, 1053947683, V. exact (conj A (conj B (conj C E))). Qed.
(** Zeros, infinities and NaN. *)
Theorem C73_special : forall rm ct x, is_pattern binary32 x ->
  (mag_of binary32 x = 0 -> cc_sinf rm ct x = Some x /\ cc_cosf rm ct x = Some (f_one binary32 false)) /\
  (is_fin binary32 x = false -> cc_sinf rm ct x = Some (qnan binary32) /\ cc_cosf rm ct x = Some (qnan binary32)).
Proof.
  intros rm ct x P. destruct (sincosf_special rm ct true x P) as (A & B). destruct (sincosf_special rm ct false x P) as (C & E).
  split; intros H; (split; [first [exact (A H)|exact (B H)]|]); [|exact (E H)]. replace (f_one binary32 false) with (litf 1 0) by (vm_compute; reflexivity). exact (C H).
Qed.

(** ** C74: sin(double), cos(double) *)
(** For every finite double the error is at most 13 roundings relative to the exact value plus an
    absolute error of |x| 2^-113 below 2^20 and of 2^-99 above. *)
Theorem C74_sincos : forall rm ct x X, (ct = true -> rm = RNE) -> is_real binary64 x X ->
  let u := bpow radix2 (match rm with RNE => -53 | _ => -52 end) in
  let d := (if Rlt_bool (Rabs X) (bpow radix2 20) then Rabs X * bpow radix2 (-113) else bpow radix2 (-99))%R in
  (exists r V, cc_sin rm ct x = Some r /\ is_real binary64 r V /\ (Rabs (V - sin X) <= 13 * u * Rabs (sin X) + d + bpow radix2 (-1070))%R) /\
  (exists r V, cc_cos rm ct x = Some r /\ is_real binary64 r V /\ (Rabs (V - cos X) <= 13 * u * Rabs (cos X) + d + bpow radix2 (-1070))%R).
Proof.
  intros rm ct x X HC HX u d. replace u with (uF D rm) by (destruct rm; reflexivity). split; [exact (sincosd_accuracy rm ct true x X HC HX)|exact (sincosd_accuracy rm ct false x X HC HX)].
Qed.
(** The 4-ulp contract named in sincos_double_data.hpp:36-37 fails for huge arguments next to a zero of
    the cosine: here the relative error exceeds 11 2^-52. *)
Theorem C74_contract_refuted : exists x X r V, cc_cos RNE false x = Some r /\ is_real binary64 x X /\ is_real binary64 r V /\ (11 * bpow radix2 (-52) * Rabs (cos X) < Rabs (V - cos X))%R.
Proof. destruct far_refuted as (V & A & B & C & E). exists far_x, (IZR 8444920710073313 * bpow radix2 939)%R, 4342197521014475536, V. exact (conj A (conj B (conj C E))). Qed.
Theorem C74_special : forall rm ct x, is_pattern binary64 x ->
  (mag_of binary64 x = 0 -> cc_sin rm ct x = Some x /\ cc_cos rm ct x = Some (f_one binary64 false)) /\
  (is_fin binary64 x = false -> cc_sin rm ct x = Some (qnan binary64) /\ cc_cos rm ct x = Some (qnan binary64)).
Proof.
  intros rm ct x P. destruct (sincosd_special rm ct true x P) as (A & B). destruct (sincosd_special rm ct false x P) as (C & E).
  split; intros H; (split; [first [exact (A H)|exact (B H)]|]); [|exact (E H)]. replace (f_one binary64 false) with (lit 1 0) by (vm_compute; reflexivity). exact (C H).
Qed.

(** ** C75: tan *)
(** tan is the quotient of the two kernels: 28 roundings relative, plus the reduction error divided by
    the cosine. *)
Theorem C75_tan : forall rm ct x X, (ct = true -> rm = RNE) -> is_real binary64 x X -> (bpow radix2 (-70) <= Rabs (cos X))%R ->
  let u := bpow radix2 (match rm with RNE => -53 | _ => -52 end) in
  let d := (if Rlt_bool (Rabs X) (bpow radix2 20) then Rabs X * bpow radix2 (-113) else bpow radix2 (-99))%R in
  exists r T, cc_tan rm ct x = Some r /\ is_real binary64 r T /\
    (Rabs (T - tan X) <= 28 * u * Rabs (tan X) + 1.001 * ((d + bpow radix2 (-1070)) / Rabs (cos X)) * (1 + Rabs (tan X)) + bpow radix2 (-1074))%R.
Proof. intros rm ct x X HC HX HK u d. replace u with (uF D rm) by (destruct rm; reflexivity). exact (tand_accuracy rm ct x X HC HX HK). Qed.
Theorem C75_tanf : forall rm ct x X, (ct = true -> rm = RNE) -> is_real binary32 x X -> (Rabs X <= 25 \/ bpow radix2 18 <= Rabs X)%R -> (bpow radix2 (-32) <= Rabs (cos X))%R ->
  let u := bpow radix2 (match rm with RNE => -24 | _ => -23 end) in
  let d := (if Rle_bool (Rabs X) 25 then Rabs X * bpow radix2 (-57) else bpow radix2 (-98))%R in
  exists r T, cc_tanf rm ct x = Some r /\ is_real binary32 r T /\
    (Rabs (T - tan X) <= 28 * u * Rabs (tan X) + 1.001 * ((d + bpow radix2 (-145)) / Rabs (cos X)) * (1 + Rabs (tan X)) + bpow radix2 (-149))%R.
Proof. intros rm ct x X HC HX HR HK u d. replace u with (uF S32 rm) by (destruct rm; reflexivity). exact (tanf_accuracy rm ct x X HC HX HR HK). Qed.
Theorem C75_special : forall rm ct x,
  (is_pattern binary64 x -> (mag_of binary64 x = 0 -> cc_tan rm ct x = Some x) /\ (is_fin binary64 x = false -> cc_tan rm ct x = Some (qnan binary64))) /\
  (is_pattern binary32 x -> (mag_of binary32 x = 0 -> cc_tanf rm ct x = Some x) /\ (is_fin binary32 x = false -> cc_tanf rm ct x = Some (qnan binary32))).
Proof. intros rm ct x. destruct (tan_special rm ct x) as (A & B & C & E). split; intros P; split; auto. Qed.

(** The hypotheses are met in every branch. *)
Example C72_ex : is_real binary64 0x7fefffffffffffff (IZR 9007199254740991 * bpow radix2 971) /\ payne_hanek_reduce RNE 0x7fefffffffffffff = (8, 13795742826865126202).
Proof. split; [exact (pos_pat 0x7fefffffffffffff ltac:(lia))|vm_compute; reflexivity]. Qed.
Example C73_ex : is_real binary32 0x41c80000 25 /\ is_real binary32 0x43c80000 400 /\ is_real binary32 0x4f000000 (bpow radix2 31) /\
  cc_sinf RNE true 0x41c80000 = Some 3188164408 /\ cc_cosf RDN false 0x41c80000 = Some 1065205623 /\ cc_sinf RNE true 0x43c80000 = Some 3210335789 /\
  cc_sinf RNE true 0x4f000000 = Some 3212355528 /\ cc_cosf RDN false 0x4f000000 = Some 1047758354 /\ cc_sinf RUP false 0x80000000 = Some 0x80000000.
Proof.
  split; [split; [split; vm_compute; congruence|split; [reflexivity|fvalof F32 0x41c80000; bpn; lra]]|].
  split; [split; [split; vm_compute; congruence|split; [reflexivity|fvalof F32 0x43c80000; bpn; lra]]|].
  split; [split; [split; vm_compute; congruence|split; [reflexivity|fvalof F32 0x4f000000; bpn; lra]]|]. vm_compute. repeat split.
Qed.
Example C74_ex : is_real binary64 0x3ff0000000000000 1 /\ is_real binary64 0x4130000000000000 (bpow radix2 20) /\
  cc_sin RNE true 0x3ff0000000000000 = Some 4605754516372524270 /\ cc_cos RDN false 0x3ff0000000000000 = Some 4603041830072026763 /\
  cc_sin RNE true 0x4130000000000000 = Some 4599625255046907478 /\ cc_sin RNE true 0x7fefffffffffffff = Some 4572370766535020183 /\ cc_sin RNE false 1 = Some 1.
Proof.
  split; [split; [split; vm_compute; congruence|split; [reflexivity|fvalof D 0x3ff0000000000000; bpn; lra]]|].
  split; [split; [split; vm_compute; congruence|split; [reflexivity|fvalof D 0x4130000000000000; bpn; lra]]|]. vm_compute. repeat split.
Qed.
Example C75_ex : is_real binary64 0x3ff0000000000000 1 /\ (bpow radix2 (-70) <= Rabs (cos 1))%R /\ (bpow radix2 (-32) <= Rabs (cos 25))%R /\
  cc_tan RNE true 0x3ff0000000000000 = Some 4609692760021066661 /\ cc_tanf RNE false 0x41c80000 = Some 3188243238.
Proof.
  split; [exact (proj1 C74_ex)|]. split; [bpn; rewrite Rabs_pos_eq; interval with (i_prec 60)|]. split; [bpn; rewrite Rabs_pos_eq; interval with (i_prec 60)|]. vm_compute. repeat split.
Qed.

Print Assumptions C72_payne_hanek.
Print Assumptions C73_sincosf.
Print Assumptions C73_middle.
Print Assumptions C73_middle_refuted.
Print Assumptions C73_special.
Print Assumptions C74_sincos.
Print Assumptions C74_contract_refuted.
Print Assumptions C74_special.
Print Assumptions C75_tan.
Print Assumptions C75_tanf.
Print Assumptions C75_special.
