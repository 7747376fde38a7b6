(** * C84, C85: bitwise operators of BigInt, NormalizedFloat and the builders of FPBits *)
From Coq Require Import ZArith Lia Bool Reals Lra List.
From Flocq Require Import Core.
From Verif Require Import MachInt Bits BitsSpec BigInt BigIntSpec BigIntProofs BigIntHolds BigIntBitwise
  Fmt FloatSpec FmtProofs FOps FPBits Fmanip ExtFloatSpec NormFloat FPBuild.
Import ListNotations.
Open Scope Z_scope.

(** ** C84 *)
(** &, | and ^ work on the binary digits of the whole number. *)
Theorem C84_bitwise : forall w n a b x y, 1 <= w -> holds w n a x -> holds w n b y ->
  holds w n (bi_and a b) (Z.land x y) /\ holds w n (bi_or a b) (Z.lor x y) /\ holds w n (bi_xor a b) (Z.lxor x y).
Proof. intros w n a b x y Hw. exact (h_bitwise w n Hw a b x y). Qed.
(** / and % truncate towards zero. *)
Theorem C84_quotient : forall int128 sgn k n a b x y, (1 <= n)%nat ->
  let w := 2 ^ Z.of_nat k in holds w n a x -> holds w n b y -> y <> 0 ->
  let u := denotes sgn (w * Z.of_nat n) x in let v := denotes sgn (w * Z.of_nat n) y in
  exists q r, bi_quot int128 sgn w a b = Some q /\ bi_rem int128 sgn w a b = Some r /\
    holds w n q (Z.quot u v mod 2 ^ (w * Z.of_nat n)) /\ holds w n r (Z.rem u v mod 2 ^ (w * Z.of_nat n)).
Proof.
  intros int128 sgn k n a b x y Hn w Ha Hb Hy u v. 
  assert (D : exists q r, bi_div int128 sgn w a b = Some (q, Some r) /\ holds w n q (Z.quot u v mod 2 ^ (w * Z.of_nat n)) /\ holds w n r (Z.rem u v mod 2 ^ (w * Z.of_nat n))) by (eapply h_div; eauto).
  destruct D as (q & r & E & Q & R).
  exists q, r. unfold bi_quot, bi_rem. rewrite E. auto.
Qed.
(** Division by zero with / returns the dividend. *)
Theorem C84_quotient_zero : forall int128 sgn w a b, (forall d, In d b -> d = 0) -> bi_quot int128 sgn w a b = Some a.
Proof.
  intros int128 sgn w a b H. unfold bi_quot, bi_div. replace (is_zero b) with true; auto. symmetry. clear -H. induction b; auto.
  unfold is_zero in *. simpl. rewrite (H a) by (left; auto). simpl. apply IHb. intros. apply H. right. auto.
Qed.
Example C84_ex : bi_and [12; 5] [10; 3] = [8; 1] /\ bi_xor [12; 5] [10; 3] = [6; 6] /\ holds 64 2 [12; 5] (12 + 5 * 2 ^ 64) /\
  bi_quot true true 64 [2 ^ 64 - 7; 2 ^ 64 - 1] [2; 0] = Some [2 ^ 64 - 3; 2 ^ 64 - 1].
Proof.
  split; [vm_compute; reflexivity|]. split; [vm_compute; reflexivity|]. split; [|vm_compute; reflexivity].
  unfold holds. split; [constructor; [lia|constructor; [lia|constructor]]|]. split; [reflexivity|vm_compute; reflexivity].
Qed.

(** ** C85 *)
(** NormalizedFloat: made from a sign, an exponent and a nonzero mantissa, or from a finite nonzero number,
    it is normalised and stands for that number; mul2 multiplies by a power of two; cmp orders by value. *)
Theorem C85_make : forall F (s : bool) e m, good_fmt F -> 0 < m < 2 ^ (fl F + 1) ->
  nf_normal F (nf_make F s e m) /\ nf_value F (nf_make F s e m) = ((if s then -1 else 1) * (IZR m * bpow radix2 (e - fl F)))%R.
Proof. intros F s e m HF. exact (nf_make_spec F HF s e m). Qed.
Theorem C85_of : forall F x, good_fmt F -> el F <= 16 -> is_pattern F x -> is_fin F x = true -> fval F x <> 0%R ->
  nf_normal F (nf_of F x) /\ nf_value F (nf_of F x) = fval F x.
Proof. intros F x HF Hel. exact (nf_of_value F HF Hel x). Qed.
Theorem C85_mul2 : forall F a k, nf_normal F a -> nf_normal F (nf_mul2 a k) /\ nf_value F (nf_mul2 a k) = (nf_value F a * bpow radix2 k)%R.
Proof. intros F a k. exact (nf_mul2_spec F a k). Qed.
Theorem C85_cmp : forall F a b, good_fmt F -> nf_normal F a -> nf_normal F b ->
  nf_cmp a b = match Rcompare (nf_value F a) (nf_value F b) with Lt => -1 | Eq => 0 | Gt => 1 end.
Proof. intros F a b HF. exact (nf_cmp_spec F HF a b). Qed.
(** A zero becomes mantissa 0 with exponent 0, so that 0.5 compares below 0. *)
Theorem C85_cmp_zero_refuted : exists x, is_fin binary32 x = true /\ f_gt binary32 x (f_zero binary32 false) = true /\
  nf_cmp (nf_of binary32 x) (nf_of binary32 (f_zero binary32 false)) = -1.
Proof. exists 0x3f000000. repeat split; vm_compute; reflexivity. Qed.
(** The builders: zero and one, ... *)
Theorem C85_zero_one : forall F (s : bool), good_fmt F -> el F <= 16 ->
  (is_real F (fp_zero F s) 0 /\ sign_of F (fp_zero F s) = s) /\ (is_real F (fp_one F s) (if s then -1 else 1)%R /\ sign_of F (fp_one F s) = s).
Proof. intros F s HF Hel. exact (conj (build_zero F HF Hel s) (build_one F HF Hel s)). Qed.
(** ... the limits of the format, ... *)
Theorem C85_limits : forall F (s : bool), good_fmt F -> el F <= 16 -> let g := (if s then -1 else 1)%R in
  is_real F (fp_min_subnormal F s) (g * bpow radix2 (emin F)) /\
  is_real F (fp_max_subnormal F s) (g * (bpow radix2 (1 - bias F) - bpow radix2 (emin F))) /\
  is_real F (fp_min_normal F s) (g * bpow radix2 (1 - bias F)) /\
  is_real F (fp_max_normal F s) (g * (bpow radix2 (bias F + 1) - bpow radix2 (bias F - fl F))) /\
  (forall x, is_fin F x = true -> Rabs (fval F x) <= Rabs (fval F (fp_max_normal F s)))%R /\
  (forall x, is_fin F x = true -> fval F x <> 0%R -> Rabs (fval F (fp_min_subnormal F s)) <= Rabs (fval F x))%R.
Proof. intros F s HF Hel. exact (build_limits F HF Hel s). Qed.
(** ... and NaNs: signaling with the top fraction bit clear, quiet with it set. *)
Theorem C85_nans : forall F s v, good_fmt F -> el F <= 16 -> 2 <= fl F ->
  (0 <= v < 2 ^ (fl F - 1) -> let b := fp_signaling_nan F s v in is_pattern F b /\ sign_of F b = s /\ is_nan F b = true /\ Z.testbit b (fl F - 1) = false) /\
  (0 <= v < 2 ^ fl F -> let b := fp_quiet_nan F s v in is_pattern F b /\ sign_of F b = s /\ is_nan F b = true /\ Z.testbit b (fl F - 1) = true).
Proof. intros F s v HF Hel. exact (build_nans F HF Hel s v). Qed.
(** A payload with the top bit set gives a quiet NaN from signaling_nan. *)
Theorem C85_signaling_payload_refuted : exists v, 0 <= v < 2 ^ fl binary32 /\ fp_signaling_nan binary32 false v = fp_quiet_nan binary32 false v.
Proof. exists (2 ^ 22). split; [vm_compute; split; congruence|]. vm_compute. reflexivity. Qed.
Example C85_ex : fp_one binary64 true = 0xbff0000000000000 /\ fp_max_subnormal binary32 false = 0x7fffff /\ fp_min_normal binary32 false = 0x800000 /\
  fp_max_normal binary32 false = 0x7f7fffff /\ fp_signaling_nan binary32 false 0 = 0x7fa00000 /\ nf_of binary32 1 = NF false (-149) 0x800000 /\
  nf_cmp (nf_of binary32 0xc0000000) (nf_of binary32 0x3f800000) = -1 /\ nf_make binary32 true 5 3 = NF true (-17) 0xc00000.
Proof. repeat match goal with |- _ /\ _ => split end; vm_compute; reflexivity. Qed.

Print Assumptions C84_bitwise.
Print Assumptions C84_quotient.
Print Assumptions C84_quotient_zero.
Print Assumptions C85_make.
Print Assumptions C85_of.
Print Assumptions C85_mul2.
Print Assumptions C85_cmp.
Print Assumptions C85_cmp_zero_refuted.
Print Assumptions C85_zero_one.
Print Assumptions C85_limits.
Print Assumptions C85_nans.
Print Assumptions C85_signaling_payload_refuted.
