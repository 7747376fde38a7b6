(** * C33-C35: the software fma *)
From Coq Require Import ZArith Reals Bool Lia.
From Verif Require Import MachInt Fmt FloatSpec FOps Fma FmaSpec FmaProofs FmanipWide.
Open Scope Z_scope.

(** One rounding of the exact x*y+z, in all four modes; the result is never
    delegated to [wide_fma]. *)
Theorem C33_fmaf : forall dm x y z, is_pattern binary32 z ->
  is_fin binary32 x = true -> is_fin binary32 y = true -> is_fin binary32 z = true ->
  exists b, cc_fmaf dm x y z = FVal b /\
    rounded binary32 dm (fval binary32 x * fval binary32 y + fval binary32 z)
      (zero_sum_sign dm (xorb (sign_of binary32 x) (sign_of binary32 y)) (sign_of binary32 z)) b.
Proof. exact fmaf_fin. Qed.
Theorem C33_fma : forall dm x y z, is_pattern binary64 z ->
  is_fin binary64 x = true -> is_fin binary64 y = true -> is_fin binary64 z = true ->
  exists b, cc_fma dm x y z = FVal b /\
    rounded binary64 dm (fval binary64 x * fval binary64 y + fval binary64 z)
      (zero_sum_sign dm (xorb (sign_of binary64 x) (sign_of binary64 y)) (sign_of binary64 z)) b.
Proof. exact fma_fin. Qed.
(** The kernel itself, for any format and any accumulator wide enough. *)
Theorem C33_kernel : forall F dm T x y z, good_fmt F -> el F <= 16 ->
  2 * prec F + 2 <= accumulator_bits T -> accumulator_bits T + 1 <= acc_int T -> 2 * prec F <= product_int T ->
  is_pattern F z -> is_fin F x = true -> is_fin F y = true -> is_fin F z = true ->
  exists b, fixed_fma F dm T x y z = FVal b /\
    rounded F dm (fval F x * fval F y + fval F z) (zero_sum_sign dm (xorb (sign_of F x) (sign_of F y)) (sign_of F z)) b.
Proof. exact fma_kernel. Qed.

(** 2*3-1 = 5; the double-rounding example of the source, fmaf(1+2^-12,1+2^-12,2^-53);
    total cancellation in two modes; an underflowing product rounded up; overflow
    toward zero. *)
Example C33_case :
  good_fmt binary32 /\ good_fmt binary64 /\
  cc_fma RNE 0x4000000000000000 0x4008000000000000 0xBFF0000000000000 = FVal 0x4014000000000000 /\
  cc_fmaf RNE 0x3F800800 0x3F800800 0x25000000 = FVal 0x3F801001 /\
  cc_fma RNE 0x4000000000000000 0x4008000000000000 0xC018000000000000 = FVal 0 /\
  cc_fma RDN 0x4000000000000000 0x4008000000000000 0xC018000000000000 = FVal 0x8000000000000000 /\
  cc_fma RUP 1 1 0 = FVal 1 /\ cc_fma RNE 1 1 0 = FVal 0 /\
  cc_fmaf RZR 0x7f7fffff 0x7f7fffff 0x3f800000 = FVal 0x7f7fffff.
Proof.
  split; [exact good32|]. split; [exact good64|].
  repeat match goal with |- _ /\ _ => split end; vm_compute; reflexivity.
Qed.

Theorem C34_nan : forall F dm T x y z, good_fmt F -> el F <= 16 ->
  is_pattern F x -> is_pattern F y -> is_pattern F z ->
  is_nan F x = true \/ is_nan F y = true \/ is_nan F z = true ->
  exists b, fixed_fma F dm T x y z = FVal b /\ is_pattern F b /\ quiet F b /\
    (quiet F x -> b = x) /\ (~ quiet F x -> quiet F y -> b = y) /\ (~ quiet F x -> ~ quiet F y -> quiet F z -> b = z).
Proof. intros F dm T x y z HF Hel. exact (fixed_fma_nan F HF Hel dm T x y z). Qed.
Theorem C34_infinities : forall F dm T x y z, good_fmt F -> el F <= 16 ->
  is_pattern F x -> is_pattern F y -> is_pattern F z ->
  is_nan F x = false -> is_nan F y = false -> is_nan F z = false ->
  ((is_inf F x = true /\ mag_of F y = 0) \/ (mag_of F x = 0 /\ is_inf F y = true) ->
     exists b, fixed_fma F dm T x y z = FVal b /\ is_pattern F b /\ is_nan F b = true) /\
  (is_inf F x = true \/ is_inf F y = true -> mag_of F x <> 0 -> mag_of F y <> 0 ->
     (is_inf F z = true -> sign_of F z <> xorb (sign_of F x) (sign_of F y) ->
        exists b, fixed_fma F dm T x y z = FVal b /\ is_pattern F b /\ is_nan F b = true) /\
     (is_fin F z = true \/ sign_of F z = xorb (sign_of F x) (sign_of F y) ->
        exists b, fixed_fma F dm T x y z = FVal b /\ is_pattern F b /\ is_inf F b = true /\
          sign_of F b = xorb (sign_of F x) (sign_of F y))) /\
  (is_fin F x = true -> is_fin F y = true -> is_inf F z = true -> fixed_fma F dm T x y z = FVal z).
Proof. intros F dm T x y z HF Hel. exact (fixed_fma_inf F HF Hel dm T x y z). Qed.
(** Zero factors: an exact zero of the IEEE sign, or the addend unchanged. *)
Theorem C34_zero_factor : forall F dm T x y z, good_fmt F -> el F <= 16 ->
  is_fin F x = true -> is_fin F y = true -> is_fin F z = true -> mag_of F x = 0 \/ mag_of F y = 0 ->
  exists b, fixed_fma F dm T x y z = FVal b /\
    (mag_of F z <> 0 -> b = z) /\
    (mag_of F z = 0 -> is_pattern F b /\ mag_of F b = 0 /\
       sign_of F b = zero_sum_sign dm (xorb (sign_of F x) (sign_of F y)) (sign_of F z)).
Proof. intros F dm T x y z HF Hel. exact (fixed_fma_zero F HF Hel dm T x y z). Qed.
(** NaN payload kept; inf*0; inf-inf; inf*(-2)+1; 0*(-0)+0 in two modes. *)
Example C34_case :
  cc_fma RNE 0x3FF0000000000000 0x7FF800000000BEEF 0 = FVal 0x7FF800000000BEEF /\
  cc_fma RNE 0x7FF0000000000000 0x8000000000000000 0 = FVal 0x7FF8000000000000 /\
  cc_fma RNE 0x7FF0000000000000 0x3FF0000000000000 0xFFF0000000000000 = FVal 0x7FF8000000000000 /\
  cc_fma RNE 0x7FF0000000000000 0xC000000000000000 0x3FF0000000000000 = FVal 0xFFF0000000000000 /\
  cc_fma RNE 0 0x8000000000000000 0 = FVal 0 /\ cc_fma RDN 0 0x8000000000000000 0 = FVal 0x8000000000000000 /\
  cc_fma RUP 0 0x8000000000000000 0x8000000000000000 = FVal 0x8000000000000000.
Proof. repeat match goal with |- _ /\ _ => split end; vm_compute; reflexivity. Qed.

(** The flag is exactly "a discarded bit was set", for every shift count. *)
Theorem C35_shift_right_with_sticky : forall digits v n, 0 <= v < 2 ^ digits -> 0 <= n ->
  exists flag r, shift_right_with_sticky digits n v = (flag, r) /\ r = v / 2 ^ n /\ (flag = true <-> r * 2 ^ n <> v).
Proof. exact shift_sticky_prop. Qed.
Example C35_case : shift_right_with_sticky 128 3 0x2c = (true, 5) /\ shift_right_with_sticky 128 3 0x28 = (false, 5) /\
  shift_right_with_sticky 128 1000 1 = (true, 0) /\ shift_right_with_sticky 128 1000 0 = (false, 0).
Proof. repeat split; vm_compute; reflexivity. Qed.

Print Assumptions C33_fmaf.
Print Assumptions C33_fma.
Print Assumptions C33_kernel.
Print Assumptions C34_nan.
Print Assumptions C34_infinities.
Print Assumptions C34_zero_factor.
Print Assumptions C35_shift_right_with_sticky.
