(** * C32: sqrt *)
From Coq Require Import ZArith Reals Bool Lia.
From Verif Require Import MachInt Fmt FloatSpec FOps FPBits Sqrt SqrtSpec SqrtProofs FmanipWide.
Open Scope Z_scope.

(** The storage width must be a power of two (16, 32, 64, 128) for countl_zero. *)
Theorem C32_sqrt_correctly_rounded : forall F dm k x, good_fmt F -> 3 <= el F <= 16 -> width F = 2 ^ Z.of_nat k ->
  is_pattern F x -> is_fin F x = true -> sign_of F x = false ->
  exists b, cc_sqrt F dm x = Some b /\ rounded F dm (sqrt (fval F x)) false b.
Proof. intros F dm k x HF Hel. exact (cc_sqrt_fin F HF Hel dm k x). Qed.

Theorem C32_sqrt_special : forall F dm x, good_fmt F -> 3 <= el F <= 16 -> is_pattern F x ->
  (is_nan F x = true \/ mag_of F x = 0 \/ (is_inf F x = true /\ sign_of F x = false) -> cc_sqrt F dm x = Some x) /\
  (is_nan F x = false -> mag_of F x <> 0 -> sign_of F x = true ->
     exists b, cc_sqrt F dm x = Some b /\ is_pattern F b /\ is_nan F b = true).
Proof. intros F dm x HF Hel. exact (cc_sqrt_special F HF Hel dm x). Qed.

(** binary32, binary64 and binary128 meet the hypotheses; sqrt(2), the smallest
    subnormal, and the number just below 4 rounded upwards. *)
Example C32_case : good_fmt binary32 /\ good_fmt binary64 /\ good_fmt binary128 /\
  width binary32 = 2 ^ Z.of_nat 5 /\ width binary64 = 2 ^ Z.of_nat 6 /\ width binary128 = 2 ^ Z.of_nat 7 /\
  cc_sqrt binary64 RNE 0x4000000000000000 = Some 0x3FF6A09E667F3BCD /\
  cc_sqrt binary64 RNE 1 = Some 0x1E60000000000000 /\
  cc_sqrt binary32 RUP 0x407fffff = Some 0x40000000 /\
  cc_sqrt binary32 RDN 0x407fffff = Some 0x3fffffff /\
  cc_sqrt binary32 RNE 0xbf800000 = Some 0xffc00000.
Proof.
  split; [exact good32|]. split; [exact good64|]. split; [exact good128|].
  repeat match goal with |- _ /\ _ => split end; vm_compute; reflexivity.
Qed.

(** The 80-bit variant: correct in every mode except upwards, and upwards except
    when the significand is all ones and the binary exponent is odd. *)
Theorem C32_sqrt_x87_except_carry : forall dm x, x87_finite x -> xs x = false -> x87_is_zero x = false ->
  exists b r, sqrt_calc_80bits dm x = Some r /\ rounded fmt80 dm (sqrt (x87_val x)) false b /\
    (dm <> RUP \/ xf x <> 2 ^ 63 - 1 \/ Z.odd (xe x) = true -> r = x87_of b).
Proof. exact x87_sqrt_spec. Qed.

(** In the excluded case the carry of the rounding is lost: the square root of the
    number just below 4, rounded upwards, comes out as 1 instead of 2. *)
Theorem C32_sqrt_x87_upward_refuted : exists x, x87_finite x /\ xs x = false /\ x87_is_zero x = false /\
  x87_val x = (4 - / 2 ^ 62)%R /\
  sqrt_calc_80bits RUP x = Some (X87 false 16383 true 0) /\ x87_val (X87 false 16383 true 0) = 1%R.
Proof. exact x87_upward_refuted. Qed.

Example C32_x87_case :
  (let x := X87 false 16384 true 0 in x87_finite x /\ x87_is_zero x = false /\
   sqrt_calc_80bits RNE x = Some (X87 false 16383 true 0x3504f333f9de6484)) /\
  (let x := X87 false 0 false 1 in x87_finite x /\ x87_is_zero x = false).
Proof.
  split; [split; [|split; vm_compute; reflexivity]|split; [|vm_compute; reflexivity]];
  unfold x87_finite; cbn [xs xe xi xf]; repeat split; intros; try discriminate; try lia; try reflexivity.
Qed.

Print Assumptions C32_sqrt_correctly_rounded.
Print Assumptions C32_sqrt_special.
Print Assumptions C32_sqrt_x87_except_carry.
Print Assumptions C32_sqrt_x87_upward_refuted.
