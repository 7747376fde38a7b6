(** * Property theorems C21 to C24: rounding to an integer.
    [intres F b z r]: [r] is a finite number of value exactly [z] with the sign of
    [b].  [rm] is the hardware rounding mode of the additions in the code. *)
From Coq Require Import ZArith Lia Bool Reals Lra.
From Flocq Require Import Core.
From Verif Require Import MachInt Bits Fmt FloatSpec FmtProofs RoundProofs FOps FPBits Compare Nearest NearestProofs NearestInt.
Open Scope Z_scope.

Definition exact_int (F : fmt) (b z r : Z) : Prop :=
  is_pattern F r /\ is_fin F r = true /\ sign_of F r = sign_of F b /\ fval F r = IZR z.

(* C21 *)
Theorem C21_trunc : forall F, good_fmt F -> el F <= 16 -> forall b, is_pattern F b -> is_fin F b = true ->
  exact_int F b (Ztrunc (fval F b)) (cc_trunc F b).
Proof. exact trunc_fin. Qed.
Theorem C21_special : forall F, good_fmt F -> el F <= 16 -> forall b, is_pattern F b ->
  is_fin F b = false \/ (exists z, fval F b = IZR z) -> cc_trunc F b = b.
Proof. exact trunc_fixed. Qed.
Example C21_case : cc_trunc binary64 0xC00B333333333333 = 0xC008000000000000 (* -3.4 -> -3 *) /\ cc_trunc binary64 0xBFE0000000000000 = 0x8000000000000000 /\
  cc_trunc binary32 0x7FA00001 = 0x7FA00001.
Proof. vm_compute. auto. Qed.

(* C22 *)
Theorem C22_floor : forall F, good_fmt F -> el F <= 16 -> forall rm b, is_pattern F b -> is_fin F b = true ->
  exact_int F b (Zfloor (fval F b)) (cc_floor F rm b).
Proof. exact floor_fin. Qed.
Theorem C22_ceil : forall F, good_fmt F -> el F <= 16 -> forall rm b, is_pattern F b -> is_fin F b = true ->
  exact_int F b (Zceil (fval F b)) (cc_ceil F rm b).
Proof. exact ceil_fin. Qed.
Theorem C22_special : forall F, good_fmt F -> el F <= 16 -> forall rm b, is_fin F b = false -> cc_floor F rm b = b /\ cc_ceil F rm b = b.
Proof. intros F H1 H2 rm b H. split; [apply floor_special|apply ceil_special]; auto. Qed.
Theorem C22_ceil_negative_zero : forall F, good_fmt F -> el F <= 16 -> forall rm b, is_pattern F b -> is_fin F b = true ->
  (-1 < fval F b < 0)%R -> cc_ceil F rm b = f_zero F true.
Proof. exact ceil_neg_zero. Qed.
Example C22_case : cc_floor binary64 RUP 0xC00B333333333333 = 0xC010000000000000 /\ cc_ceil binary64 RDN 0x400B333333333333 = 0x4010000000000000 /\
  cc_ceil binary64 RNE 0xBFE0000000000000 = 0x8000000000000000 /\ is_fin binary64 0xBFE0000000000000 = true.
Proof. vm_compute. auto. Qed.

(* C23 *)
Theorem C23_round : forall F, good_fmt F -> el F <= 16 -> forall rm b, is_pattern F b -> is_fin F b = true ->
  exact_int F b (ZnearestA (fval F b)) (cc_round F rm b).
Proof. exact round_fin. Qed.
Theorem C23_rint : forall F, good_fmt F -> el F <= 16 -> forall rm dm b, is_pattern F b -> is_fin F b = true ->
  exact_int F b (rnd dm (fval F b)) (cc_rint F rm dm b).
Proof. exact rint_fin. Qed.
Theorem C23_special : forall F, good_fmt F -> el F <= 16 -> forall rm dm b, is_fin F b = false -> cc_round F rm b = b /\ cc_rint F rm dm b = b.
Proof. intros F H1 H2 rm dm b H. split; [apply round_special|apply (dir_special F H1 H2 rm (IM dm))]; auto. Qed.
Example C23_case : cc_round binary64 RDN 0xC004000000000000 (* -2.5 *) = 0xC008000000000000 /\ cc_rint binary64 RUP RNE 0xC004000000000000 = 0xC000000000000000 /\
  cc_rint binary64 RNE RDN 0xC004000000000000 = 0xC008000000000000 /\ cc_rint binary64 RNE RNE 0x3FF8000000000000 (* 1.5 *) = 0x4000000000000000.
Proof. vm_compute. auto. Qed.

(* C24 *)
(** In the default mode, constant-evaluated or not. *)
Theorem C24_nearest_even : forall F, good_fmt F -> forall ct x, is_pattern F x -> is_fin F x = true ->
  (Rabs (fval F x) < bpow radix2 (fl F))%R ->
  let r := cc_nearest_integer F RNE ct x in is_pattern F r /\ is_fin F r = true /\ fval F r = IZR (ZnearestE (fval F x)).
Proof. intros F HF ct x. apply (ni_rne F HF RNE eq_refl ct x). Qed.
Theorem C24_big : forall F, good_fmt F -> forall rm ct x,
  is_fin F x = false \/ (bpow radix2 (prec F) <= Rabs (fval F x))%R -> cc_nearest_integer F rm ct x = x.
Proof. intros F HF rm ct x [H|H]; apply ni_big; auto; intros [H1 H2]; [congruence|lra]. Qed.
(** In every mode, the result of the runtime path is a nearest integer when |x| >= 1/2. *)
Theorem C24_runtime : forall F, good_fmt F -> forall rm x, is_pattern F x -> is_fin F x = true -> (/ 2 <= Rabs (fval F x))%R ->
  let r := cc_nearest_integer F rm false x in
  is_pattern F r /\ is_fin F r = true /\ exists z, fval F r = IZR z /\ (Rabs (fval F x - IZR z) <= / 2)%R.
Proof. exact ni_runtime. Qed.
(** In every mode and on every path, the result is an integer at distance at most 1. *)
Theorem C24_within_one : forall F, good_fmt F -> forall rm ct x, is_pattern F x -> is_fin F x = true ->
  (Rabs (fval F x) < bpow radix2 (prec F))%R ->
  exists z, is_pattern F (cc_nearest_integer F rm ct x) /\ is_fin F (cc_nearest_integer F rm ct x) = true /\
    fval F (cc_nearest_integer F rm ct x) = IZR z /\ (Rabs (fval F x - IZR z) <= 1)%R.
Proof. intros F HF rm ct x P H1 H2. apply ni_within1; auto. split; auto. Qed.
(** Constant evaluation turns the odd integer 2^52 + 1 into 2^52. *)
Theorem C24_odd_integer_refuted : exists x z, is_pattern binary64 x /\ fval binary64 x = IZR z /\
  (Rabs (fval binary64 x) < bpow radix2 (prec binary64))%R /\ fval binary64 (cc_nearest_integer binary64 RNE true x) <> IZR z.
Proof. exists 0x4330000000000001, (2 ^ 52 + 1). exact ni_odd_refuted. Qed.
(** Rounding upwards, the runtime path takes the predecessor of 1/2 to 1. *)
Theorem C24_upward_refuted : exists x, is_pattern binary64 x /\ is_fin binary64 x = true /\ (0 < fval binary64 x < / 2)%R /\
  fval binary64 (cc_nearest_integer binary64 RUP false x) = 1%R.
Proof. exists 0x3FDFFFFFFFFFFFFF. exact ni_up_refuted. Qed.
Example C24_case : cc_nearest_integer binary64 RNE true 0x4004000000000000 (* 2.5 *) = 0x4000000000000000 /\
  cc_nearest_integer binary64 RUP false 0x4002000000000000 (* 2.25 *) = 0x4000000000000000 /\
  cc_nearest_integer binary64 RUP true 0x4002000000000000 = 0x4008000000000000.
Proof. vm_compute. auto. Qed.

Print Assumptions C21_trunc.
Print Assumptions C21_special.
Print Assumptions C22_floor.
Print Assumptions C22_ceil.
Print Assumptions C22_special.
Print Assumptions C22_ceil_negative_zero.
Print Assumptions C23_round.
Print Assumptions C23_rint.
Print Assumptions C23_special.
Print Assumptions C24_nearest_even.
Print Assumptions C24_big.
Print Assumptions C24_runtime.
Print Assumptions C24_within_one.
Print Assumptions C24_odd_integer_refuted.
Print Assumptions C24_upward_refuted.
