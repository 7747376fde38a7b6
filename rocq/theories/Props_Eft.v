(** * C50: error-free transforms and double-double arithmetic *)
From Coq Require Import ZArith Reals Bool Lia Lra.
From Flocq Require Import Core.
From Verif Require Import MachInt Fmt FloatSpec FmtProofs FOps FOpsProofs ExactOps Basic ExtFloatSpec Eft EftProofs DdProofs FmanipWide.
Open Scope Z_scope.

(** fast_two_sum (exact_add) with |b| <= |a|: hi is the rounded sum, lo the rounded error of hi; to nearest hi + lo = a + b exactly. *)
Theorem C50_fast_two_sum : forall F rm a b A B, good_fmt F -> 
  is_real F a A -> is_real F b B -> (Rabs B <= Rabs A)%R -> (Rabs (fround F rm (A + B)) < bpow radix2 (bias F + 1))%R ->
  let (hi, lo) := fast_two_sum F rm a b in
  is_real F hi (fround F rm (A + B)) /\ is_real F lo (fround F rm (A + B - fround F rm (A + B))) /\
  (rm = RNE -> (fround F rm (A + B) + fround F rm (A + B - fround F rm (A + B)) = A + B)%R).
Proof. intros F rm a b A B HF . exact (fast_two_sum_spec F HF rm a b A B). Qed.
(** ... and also if a = 0, in every mode. *)
Theorem C50_fast_two_sum_zero : forall F rm a b B, good_fmt F -> 
  is_real F a 0 -> is_real F b B ->
  let (hi, lo) := fast_two_sum F rm a b in is_real F hi B /\ is_real F lo 0.
Proof. intros F rm a b B HF . exact (fast_two_sum_zero F HF rm a b B). Qed.
(** In any rounding mode the error of hi is representable, so lo is exact, if the exponents of a and b differ by at most the precision; claim (a) of the comment. *)
Theorem C50_fast_two_sum_directed : forall F rm A B, good_fmt F -> 
  generic_format radix2 (FLT_exp (emin F) (prec F)) A -> generic_format radix2 (FLT_exp (emin F) (prec F)) B -> (Rabs B <= Rabs A)%R -> B = 0%R \/ mag radix2 A - mag radix2 B <= prec F ->
  generic_format radix2 (FLT_exp (emin F) (prec F)) (A + B - fround F rm (A + B)).
Proof. intros F rm A B HF . exact (fts_exact F HF rm A B). Qed.
(** In any mode hi + lo is within 2^(1-2p) min(|a + b|, |hi|) of a + b (2^-105 for double) and |lo| < ulp(hi); claim (b) of the comment. *)
Theorem C50_fast_two_sum_error : forall F rm A B, good_fmt F -> 
  generic_format radix2 (FLT_exp (emin F) (prec F)) A -> generic_format radix2 (FLT_exp (emin F) (prec F)) B -> (Rabs B <= Rabs A)%R -> let S := (A + B)%R in let h := fround F rm S in let lo := fround F rm (S - h) in
  (Rabs (S - (h + lo)) <= bpow radix2 (1 - 2 * prec F) * Rmin (Rabs S) (Rabs h))%R /\ (Rabs lo < ulp radix2 (FLT_exp (emin F) (prec F)) h)%R.
Proof. intros F rm A B HF . exact (fts_err_bound F HF rm A B). Qed.
(** two_sum needs no order of the operands; to nearest, hi is the rounded sum and hi + lo = a + b exactly. *)
Theorem C50_two_sum : forall F a b A B, good_fmt F -> 
  3 <= fl F -> is_real F a A -> is_real F b B -> (Rabs A <= bpow radix2 (bias F - 3))%R -> (Rabs B <= bpow radix2 (bias F - 3))%R ->
  let (s, t) := two_sum F RNE a b in
  is_real F s (fround F RNE (A + B)) /\ is_real F t (A + B - fround F RNE (A + B)).
Proof. intros F a b A B HF . exact (two_sum_spec F HF a b A B). Qed.
(** Veltkamp's splitting with the constant 2^s + 1, to nearest: hi is a rounded to p - s bits (nearest even), hi + lo = a exactly and lo fits in s bits. *)
Theorem C50_split : forall F s a A, good_fmt F -> 2 <= s <= prec F - 2 ->
  3 <= fl F -> is_real F a A -> (Rabs A <= bpow radix2 (bias F - s - 4))%R ->
  let (hi, lo) := split F RNE s a in
  is_real F hi (round radix2 (FLT_exp (emin F) (prec F - s)) ZnearestE A) /\
  is_real F lo (A - round radix2 (FLT_exp (emin F) (prec F - s)) ZnearestE A) /\
  generic_format radix2 (FLT_exp (emin F) s) (A - round radix2 (FLT_exp (emin F) (prec F - s)) ZnearestE A).
Proof. intros F s a A HF Hs. exact (split_spec F HF s Hs a A). Qed.
(** Dekker's product with s = ceil(p/2), to nearest: hi is the rounded product and hi + lo = a * b exactly unless the product is nearly subnormal, and then within 3.5 times the smallest subnormal. *)
Theorem C50_exact_mult : forall F a b A B, good_fmt F -> 
  3 <= fl F -> let s := prec F - Z.div2 (prec F) in is_real F a A -> is_real F b B ->
  (Rabs A <= bpow radix2 (bias F - s - 4))%R -> (Rabs B <= bpow radix2 (bias F - s - 4))%R -> (Rabs (A * B) <= bpow radix2 (bias F - 3))%R ->
  let (hi, lo) := exact_mult F RNE s a b in exists L,
  is_real F hi (fround F RNE (A * B)) /\ is_real F lo L /\
  ((A * B = 0 \/ bpow radix2 (emin F + 2 * prec F - 1) <= Rabs (A * B)) -> fround F RNE (A * B) + L = A * B)%R /\
  (Rabs (A * B - (fround F RNE (A * B) + L)) <= 7 / 2 * bpow radix2 (emin F))%R.
Proof. intros F a b A B HF . exact (exact_mult_spec F HF a b A B). Qed.
(** double x double-double: relative error 2^(1-2p). *)
Theorem C50_quick_mult_d : forall F a bh bl A BH BL, good_fmt F -> 3 <= fl F ->
  let s := prec F - Z.div2 (prec F) in is_real F a A -> is_real F bh BH -> is_real F bl BL -> (Rabs BL <= bpow radix2 (- prec F) * Rabs BH)%R ->
  (Rabs A <= bpow radix2 (bias F - s - 4))%R -> (Rabs BH <= bpow radix2 (bias F - s - 4))%R -> (Rabs (A * BH) <= bpow radix2 (bias F - 3))%R ->
  (A * BH = 0 \/ bpow radix2 (emin F + 2 * prec F - 1) <= Rabs (A * BH))%R ->
  let (hi, lo) := quick_mult_d F RNE s a (bh, bl) in exists L, is_real F hi (fround F RNE (A * BH)) /\ is_real F lo L /\
  (Rabs (fround F RNE (A * BH) + L - A * (BH + BL)) <= 2 * (bpow radix2 (- prec F) * bpow radix2 (- prec F)) * Rabs (A * BH) + bpow radix2 (emin F - 1))%R.
Proof. intros F a bh bl A BH BL HF H3. exact (quick_mult_d_spec F HF H3 a bh bl A BH BL). Qed.
(** double-double x double-double: relative error 7 * 2^-2p. *)
Theorem C50_quick_mult : forall F ah al bh bl AH AL BH BL, good_fmt F -> 3 <= fl F ->
  let s := prec F - Z.div2 (prec F) in is_real F ah AH -> is_real F al AL -> is_real F bh BH -> is_real F bl BL ->
  (Rabs AL <= bpow radix2 (- prec F) * Rabs AH)%R -> (Rabs BL <= bpow radix2 (- prec F) * Rabs BH)%R ->
  (Rabs AH <= bpow radix2 (bias F - s - 4))%R -> (Rabs BH <= bpow radix2 (bias F - s - 4))%R -> (Rabs (AH * BH) <= bpow radix2 (bias F - 3))%R ->
  (AH * BH = 0 \/ bpow radix2 (emin F + 2 * prec F - 1) <= Rabs (AH * BH))%R ->
  let (hi, lo) := quick_mult F RNE s (ah, al) (bh, bl) in exists L, is_real F hi (fround F RNE (AH * BH)) /\ is_real F lo L /\
  (Rabs (fround F RNE (AH * BH) + L - (AH + AL) * (BH + BL)) <= 7 * (bpow radix2 (- prec F) * bpow radix2 (- prec F)) * Rabs (AH * BH) + 3 * bpow radix2 (emin F - 1))%R.
Proof. intros F ah al bh bl AH AL BH BL HF H3. exact (quick_mult_spec F HF H3 ah al bh bl AH AL BH BL). Qed.
(** double-double + double-double, |a.hi| >= |b.hi|, unless the high parts nearly cancel: normalized result with error 7 * 2^-2p |a.hi|. *)
Theorem C50_dd_add : forall F ah al bh bl AH AL BH BL, good_fmt F -> 3 <= fl F -> 
  is_real F ah AH -> is_real F al AL -> is_real F bh BH -> is_real F bl BL ->
  (Rabs BH <= Rabs AH)%R -> (Rabs AL <= bpow radix2 (- prec F) * Rabs AH)%R -> (Rabs BL <= bpow radix2 (- prec F) * Rabs BH)%R -> (Rabs AH <= / 4 * bpow radix2 (bias F - 3))%R ->
  (8 * bpow radix2 (- prec F) * Rabs AH <= Rabs (fround F RNE (AH + BH)))%R ->
  let (hi, lo) := dd_add F RNE (ah, al) (bh, bl) in exists H L, is_real F hi H /\ is_real F lo L /\ H = fround F RNE (H + L) /\
  (Rabs (H + L - ((AH + AL) + (BH + BL))) <= 7 * (bpow radix2 (- prec F) * bpow radix2 (- prec F)) * Rabs AH)%R.
Proof. intros F ah al bh bl AH AL BH BL HF H3. exact (dd_add_spec F HF H3 ah al bh bl AH AL BH BL). Qed.
(** double-double + double. *)
Theorem C50_dd_add_d : forall F ah al b AH AL B, good_fmt F -> 3 <= fl F -> 
  is_real F ah AH -> is_real F al AL -> is_real F b B ->
  (Rabs B <= Rabs AH)%R -> (Rabs AL <= bpow radix2 (- prec F) * Rabs AH)%R -> (Rabs AH <= / 4 * bpow radix2 (bias F - 3))%R ->
  (8 * bpow radix2 (- prec F) * Rabs AH <= Rabs (fround F RNE (AH + B)))%R ->
  let (hi, lo) := dd_add_d F RNE (ah, al) b in exists H L, is_real F hi H /\ is_real F lo L /\ H = fround F RNE (H + L) /\
  (Rabs (H + L - ((AH + AL) + B)) <= 3 * (bpow radix2 (- prec F) * bpow radix2 (- prec F)) * Rabs AH)%R.
Proof. intros F ah al b AH AL B HF H3. exact (dd_add_d_spec F HF H3 ah al b AH AL B). Qed.
(** The integer split. *)
Theorem C50_number_split : forall w x, 0 < w -> w mod 8 = 0 -> inU w x ->
  let (hi, lo) := number_split w x in x = hi * 2 ^ (w / 2) + lo /\ 0 <= hi < 2 ^ (w / 2) /\ 0 <= lo < 2 ^ (w / 2).
Proof. exact number_split_spec. Qed.

(** Without |b| <= |a| fast_two_sum loses the error: 1 + (2^54 + 4) gives lo = 0. *)
Theorem C50_order_refuted : exists a b, is_pattern binary64 a /\ is_pattern binary64 b /\ is_fin binary64 a = true /\ is_fin binary64 b = true /\
  fst (fast_two_sum binary64 RNE a b) = b /\ mag_of binary64 a <> 0 /\ mag_of binary64 (snd (fast_two_sum binary64 RNE a b)) = 0.
Proof.
  exists 0x3ff0000000000000, 0x4350000000000001. split; [vm_compute; split; congruence|]. split; [vm_compute; split; congruence|].
  repeat match goal with |- _ /\ _ => split end; try (vm_compute; reflexivity). vm_compute; congruence.
Qed.
(** split overflows in the top of the range, and exact_mult with it although the
    product is small: exact_mult(2^1000, 2^-1000) = (1, NaN). *)
Theorem C50_split_overflow_refuted : exists a b, is_pattern binary64 a /\ is_pattern binary64 b /\ is_fin binary64 a = true /\ is_fin binary64 b = true /\
  fst (exact_mult binary64 RNE 27 a b) = f_one binary64 false /\ is_nan binary64 (snd (exact_mult binary64 RNE 27 a b)) = true.
Proof.
  exists 0x7e70000000000000, 0x0170000000000000. split; [vm_compute; split; congruence|]. split; [vm_compute; split; congruence|].
  repeat match goal with |- _ /\ _ => split end; vm_compute; reflexivity.
Qed.
(** In the subnormal range the error of the product is lost: for a = 2^-1000 (1 + 2^-52)
    exact_mult(a, a) = (0, 0). *)
Theorem C50_underflow_refuted : exists a, is_pattern binary64 a /\ is_fin binary64 a = true /\ mag_of binary64 a <> 0 /\ exact_mult binary64 RNE 27 a a = (0, 0).
Proof.
  exists 0x0170000000000001. split; [vm_compute; split; congruence|]. split; [vm_compute; reflexivity|]. split; vm_compute; [congruence|reflexivity].
Qed.
(** Concrete cases: 0.1 * 0.3 as an exact pair, 3 = s for p = 5, the split constant of
    double is 27 = ceil(53 / 2). *)
Example C50_ex :
  exact_mult binary64 RNE 27 0x3fb999999999999a 0x3fd3333333333333 = (0x3f9eb851eb851eb8, 0x3c3eb851eb851eb8) /\
  prec binary64 - Z.div2 (prec binary64) = 27 /\
  two_sum binary64 RNE 0x3ff0000000000000 0x4350000000000001 = (0x4350000000000001, 0x3ff0000000000000) /\
  fast_two_sum binary64 RNE 0x4350000000000001 0x3ff0000000000000 = (0x4350000000000001, 0x3ff0000000000000) /\
  number_split 32 0x12345678 = (0x1234, 0x5678).
Proof. repeat match goal with |- _ /\ _ => split end; vm_compute; reflexivity. Qed.

(** The hypotheses of C50_dd_add and C50_quick_mult hold for (3, 2^-60) and (-2, 2^-62). *)
Example C50_dd_hyps :
  let e := bpow radix2 (- prec binary64) in let u := bpow radix2 (bias binary64 - 3) in
  let ah := f_of_Z binary64 RNE 3 in let al := f_pow2 binary64 false (-60) in let bh := f_of_Z binary64 RNE (-2) in let bl := f_pow2 binary64 false (-62) in
  let AL := bpow radix2 (-60) in let BL := bpow radix2 (-62) in
  is_real binary64 ah 3 /\ is_real binary64 al AL /\ is_real binary64 bh (-2) /\ is_real binary64 bl BL /\
  (Rabs (-2) <= Rabs 3)%R /\ (Rabs AL <= e * Rabs 3)%R /\ (Rabs BL <= e * Rabs (-2))%R /\ (Rabs 3 <= / 4 * u)%R /\
  (8 * e * Rabs 3 <= Rabs (fround binary64 RNE (3 + -2)))%R /\
  (Rabs (3 * -2) <= u)%R /\ (bpow radix2 (emin binary64 + 2 * prec binary64 - 1) <= Rabs (3 * -2))%R.
Proof.
  cbv zeta. change (- prec binary64) with (-53). change (prec binary64) with 53. change (bias binary64 - 3) with 1020. change (emin binary64) with (-1074).
  assert (UB : (16 <= bpow radix2 1020)%R) by (change 16%R with (bpow radix2 4); apply bpow_le; lia).
  assert (E3 : (bpow radix2 (-60) <= bpow radix2 (-53))%R) by (apply bpow_le; lia). assert (E4 : (bpow radix2 (-62) <= bpow radix2 (-53))%R) by (apply bpow_le; lia).
  assert (E5 : (bpow radix2 (-53) <= / 32)%R) by (change (/ 32)%R with (bpow radix2 (-5)); apply bpow_le; lia).
  pose proof (bpow_gt_0 radix2 (-60)) as P1. pose proof (bpow_gt_0 radix2 (-62)) as P2.
  assert (E6 : (bpow radix2 (-1074 + 2 * 53 - 1) <= 1)%R) by (change 1%R with (bpow radix2 0); apply bpow_le; lia).
  assert (R : fround binary64 RNE (3 + -2) = 1%R).
  { replace (3 + -2)%R with (IZR 1) by lra. apply (fround_exact binary64 RNE). apply (format_int binary64 good64). vm_compute; congruence. }
  replace (fround binary64 RNE (3 + -2)) with 1%R by (rewrite <- R; reflexivity).
  assert (A3 : Rabs 3 = 3%R) by (apply Rabs_pos_eq; lra). assert (A2 : Rabs (-2) = 2%R) by (rewrite Rabs_left; lra).
  rewrite A3, A2, Rabs_mult, A3, A2, Rabs_R1, !(Rabs_pos_eq (bpow _ _)) by lra.
  split; [apply (ExtFloatProofs.ofz_r binary64 good64); vm_compute; congruence|].
  assert (PW : forall k, -1022 <= k <= 1023 -> is_real binary64 (f_pow2 binary64 false k) (bpow radix2 k)).
  { intros k Hk. destruct (f_pow2_props binary64 good64 false k) as (A & B & _ & D & _); [change (bias binary64) with 1023; lia|]. split; [auto|]. split; [auto|]. rewrite D. unfold sg. ring. }
  split; [apply PW; lia|]. split; [apply (ExtFloatProofs.ofz_r binary64 good64); vm_compute; congruence|]. split; [apply PW; lia|].
  repeat match goal with |- _ /\ _ => split end; lra.
Qed.

Print Assumptions C50_fast_two_sum.
Print Assumptions C50_fast_two_sum_zero.
Print Assumptions C50_fast_two_sum_directed.
Print Assumptions C50_fast_two_sum_error.
Print Assumptions C50_two_sum.
Print Assumptions C50_split.
Print Assumptions C50_exact_mult.
Print Assumptions C50_quick_mult_d.
Print Assumptions C50_quick_mult.
Print Assumptions C50_dd_add.
Print Assumptions C50_dd_add_d.
Print Assumptions C50_number_split.
Print Assumptions C50_order_refuted.
Print Assumptions C50_split_overflow_refuted.
Print Assumptions C50_underflow_refuted.
