(** * Property theorems C25 to C30: frexp, ldexp, scalbn, ilogb, logb, modf, nextafter.
    [fval F b] is the real number denoted by the pattern [b]; [rounded F rm x s b]
    says [b] is the correct rounding of [x] in mode [rm] (FloatSpec.v). *)
From Coq Require Import ZArith Lia Bool Reals Lra.
From Flocq Require Import Core.
From Verif Require Import MachInt Fmt FloatSpec FOps FPBits Compare Nearest Fmanip.
From Verif Require Import FmanipProofs ScalbnProofs NextProofs LdexpProofs FmanipWide.
Open Scope Z_scope.

(* C25 *)
Theorem C25_frexp : forall F, good_fmt F -> el F <= 16 -> forall rm x e0,
  is_pattern F x -> is_fin F x = true -> fval F x <> 0%R ->
  exists m e, cc_frexp F rm x e0 = Some (m, e) /\ is_pattern F m /\ is_fin F m = true /\
    (/ 2 <= Rabs (fval F m) < 1)%R /\ fval F x = (fval F m * bpow radix2 e)%R /\
    2 - bias F - fl F <= e <= bias F + 1.
Proof. exact frexp_fin. Qed.
Theorem C25_special : forall F, good_fmt F -> el F <= 16 -> forall rm x e0, is_pattern F x ->
  (is_fin F x = true /\ fval F x = 0%R -> cc_frexp F rm x e0 = Some (x, 0)) /\
  (is_fin F x = false -> cc_frexp F rm x e0 = Some (x, e0)).
Proof. exact frexp_special. Qed.
(** A 128-bit long double goes through double and loses digits. *)
Theorem C25_wide_refuted : exists x, is_pattern binary128 x /\ is_fin binary128 x = true /\
  exists m, cc_frexp_wide binary128 RNE x 0 = Some (m, 1) /\ (fval binary128 m * bpow radix2 1 <> fval binary128 x)%R.
Proof. exists big_one. exact frexp_wide_refuted. Qed.
Example C25_case : cc_frexp binary64 RNE 0xC020000000000000 (* -8 *) 7 = Some (0xBFE0000000000000, 4) /\
  cc_frexp binary32 RUP 3 (* 3 * 2^-149 *) 7 = Some (0x3F400000, -147) /\ cc_frexp binary32 RNE 0x7F800000 7 = Some (0x7F800000, 7).
Proof. vm_compute. auto. Qed.

(* C26 *)
(** With get_rounding_mode() to nearest, every exponent. *)
Theorem C26_ldexp : forall F, good_fmt F -> el F <= 16 -> forall x n, is_pattern F x -> is_fin F x = true ->
  rounded F RNE (fval F x * bpow radix2 n) (sign_of F x) (cc_ldexp F RNE x n).
Proof.
  intros F HF Hel x n HP Hx. destruct (Z.le_gt_cases (Z.abs n) (expmax F + fl F + 1)).
  - apply ldexp_within; assumption.
  - apply ldexp_beyond; assumption.
Qed.
(** In the other modes: still to nearest unless the exponent is out of bounds. *)
Theorem C26_ldexp_within : forall F, good_fmt F -> el F <= 16 -> forall dm x n,
  Z.abs n <= expmax F + fl F + 1 -> is_pattern F x -> is_fin F x = true ->
  rounded F RNE (fval F x * bpow radix2 n) (sign_of F x) (cc_ldexp F dm x n).
Proof. exact ldexp_within. Qed.
Theorem C26_ldexp_beyond : forall F, good_fmt F -> el F <= 16 -> forall dm x n,
  expmax F + fl F + 1 < Z.abs n -> is_pattern F x -> is_fin F x = true ->
  rounded F dm (fval F x * bpow radix2 n) (sign_of F x) (cc_ldexp F dm x n).
Proof. exact ldexp_beyond. Qed.
Theorem C26_special : forall F, good_fmt F -> el F <= 16 -> forall dm x n, is_fin F x = false -> cc_ldexp F dm x n = x.
Proof. exact ldexp_special. Qed.
(** So the mode in force is not respected in general. *)
Theorem C26_directed_refuted : exists x n b, cc_ldexp binary32 RUP x n = b /\
  ~ rounded binary32 RUP (fval binary32 x * bpow radix2 n) false b.
Proof. exists (f_one binary32 false), (-150), 0. exact ldexp_directed_refuted. Qed.
Example C26_case : cc_ldexp binary64 RNE 0x3FF8000000000000 (-1074) (* 1.5 * 2^-1074 *) = 2 /\
  cc_ldexp binary32 RNE 0xBF800000 128 = 0xFF800000 /\ cc_ldexp binary32 RNE 1 (* 2^-149 *) 150 = 0x40000000 /\
  cc_ldexp binary32 RZR 0x3F800000 2147483647 = 0x7F7FFFFF.
Proof. vm_compute. auto. Qed.

(* C27 *)
Theorem C27_scalbn : forall F, good_fmt F -> forall rm x n, 3 * fl F + 7 <= bias F ->
  is_pattern F x -> is_fin F x = true ->
  rounded F rm (fval F x * bpow radix2 n) (sign_of F x) (cc_scalbn F rm x n).
Proof. exact scalbn_fin. Qed.
Theorem C27_inf : forall F, good_fmt F -> forall rm x n, 3 * fl F + 7 <= bias F ->
  is_pattern F x -> is_inf F x = true -> cc_scalbn F rm x n = x.
Proof. exact scalbn_inf. Qed.
Theorem C27_nan : forall F, good_fmt F -> forall rm x n, is_nan F x = true -> is_nan F (cc_scalbn F rm x n) = true.
Proof. exact scalbn_nan. Qed.
(** The overload taking a long truncates the exponent to int. *)
Theorem C27_long_refuted : exists x n b, cc_scalbn_long binary64 RNE x n = b /\
  ~ rounded binary64 RNE (fval binary64 x * bpow radix2 n) false b.
Proof. exists (f_one binary64 false), (2 ^ 32), (f_one binary64 false). exact scalbn_long_refuted. Qed.
Example C27_formats : (good_fmt binary64 /\ 3 * fl binary64 + 7 <= bias binary64) /\ (good_fmt binary32 /\ 3 * fl binary32 + 7 <= bias binary32).
Proof. split; (split; [exact good64 || exact good32 | vm_compute; congruence]). Qed.
Example C27_case : cc_scalbn binary64 RNE 0x7FE8000000000000 (* 1.5 * 2^1023 *) (-2097) = 2 /\
  cc_scalbn binary64 RNE 0x7FE8000000000000 (-2098) = 1 /\ cc_scalbn binary64 RUP 0x7FE8000000000000 (-2147483648) = 1 /\
  cc_scalbn binary32 RNE 1 276 = 0x7F000000 /\ cc_scalbn binary32 RZR 0x80000001 2147483647 = 0xFF7FFFFF.
Proof. vm_compute. auto. Qed.

(* C28 *)
Theorem C28_ilogb : forall F, good_fmt F -> el F <= 16 -> forall rm ilogb0 ilogbnan x,
  is_pattern F x -> is_fin F x = true -> fval F x <> 0%R ->
  exists e, cc_ilogb F rm ilogb0 ilogbnan x = Some e /\
    (bpow radix2 e <= Rabs (fval F x) < bpow radix2 (e + 1))%R /\ emin F <= e <= bias F.
Proof. exact ilogb_fin. Qed.
Theorem C28_ilogb_special : forall F, good_fmt F -> el F <= 16 -> forall rm ilogb0 ilogbnan x,
  (is_nan F x = true -> cc_ilogb F rm ilogb0 ilogbnan x = Some ilogbnan) /\
  (is_inf F x = true -> cc_ilogb F rm ilogb0 ilogbnan x = Some (2 ^ 31 - 1)) /\
  (is_fin F x = true -> fval F x = 0%R -> cc_ilogb F rm ilogb0 ilogbnan x = Some ilogb0).
Proof. exact ilogb_special. Qed.
Theorem C28_logb : forall F, good_fmt F -> el F <= 16 -> forall rm x, bias F + fl F <= 2 ^ prec F ->
  is_pattern F x -> is_fin F x = true -> fval F x <> 0%R ->
  exists r e, cc_logb F rm x = Some r /\ is_pattern F r /\ is_fin F r = true /\ fval F r = IZR e /\
    (bpow radix2 e <= Rabs (fval F x) < bpow radix2 (e + 1))%R.
Proof. exact logb_fin. Qed.
Theorem C28_logb_special : forall F, good_fmt F -> el F <= 16 -> forall rm x,
  (is_nan F x = true -> cc_logb F rm x = Some x) /\
  (is_inf F x = true -> cc_logb F rm x = Some (f_inf F false)) /\
  (is_fin F x = true -> fval F x = 0%R -> cc_logb F rm x = Some (f_inf F true)).
Proof. exact logb_special. Qed.
(** A 128-bit long double goes through double: ilogb(2^2000) is INT_MAX. *)
Theorem C28_wide_refuted : exists x, is_pattern binary128 x /\ is_fin binary128 x = true /\ fval binary128 x = bpow radix2 2000 /\
  forall ilogb0 ilogbnan, cc_ilogb_wide binary128 RNE ilogb0 ilogbnan x = Some (2 ^ 31 - 1).
Proof. exists ((16383 + 2000) * 2 ^ 112). exact ilogb_wide_refuted. Qed.
Example C28_case : cc_ilogb binary64 RNE 0 0 0x4059000000000000 (* 100 *) = Some 6 /\ cc_ilogb binary64 RNE 0 0 5 = Some (-1072) /\
  cc_logb binary32 RNE 0x00000001 = Some 0xC3150000 (* -149 *) /\ bias binary32 + fl binary32 <= 2 ^ prec binary32.
Proof. vm_compute. intuition discriminate. Qed.

(* C29 *)
Theorem C29_modf : forall F, good_fmt F -> el F <= 16 -> forall rm x, is_pattern F x -> is_fin F x = true ->
  let f := fst (cc_modf F rm x) in let i := snd (cc_modf F rm x) in
  is_pattern F f /\ is_fin F f = true /\ is_pattern F i /\ is_fin F i = true /\
  fval F i = IZR (Ztrunc (fval F x)) /\ (fval F i + fval F f = fval F x)%R /\ (Rabs (fval F f) < 1)%R /\
  sign_of F f = sign_of F x /\ sign_of F i = sign_of F x.
Proof. exact modf_fin. Qed.
Theorem C29_special : forall F, good_fmt F -> el F <= 16 -> forall rm x, is_pattern F x ->
  (is_inf F x = true -> cc_modf F rm x = (f_zero F (sign_of F x), x)) /\
  (is_nan F x = true -> cc_modf F rm x = (x, x)).
Proof. exact modf_special. Qed.
Theorem C29_wide_refuted : exists x, is_pattern binary128 x /\ is_fin binary128 x = true /\
  (fval binary128 (snd (cc_modf_wide binary128 RNE x)) + fval binary128 (fst (cc_modf_wide binary128 RNE x))
    <> fval binary128 x)%R.
Proof. exists big_one. exact modf_wide_refuted. Qed.
Example C29_case : cc_modf binary64 RDN 0xC00E000000000000 (* -3.75 *) = (0xBFE8000000000000, 0xC008000000000000) /\
  cc_modf binary64 RDN 0x4008000000000000 (* 3 *) = (0, 0x4008000000000000) /\
  cc_modf binary32 RNE 0xFF800000 = (0x80000000, 0xFF800000).
Proof. vm_compute. auto. Qed.

(* C30 *)
(** [r] is the least value above [a] (greatest below); a zero keeps the sign of [a]. *)
Definition next_above (F : fmt) (a r : Z) : Prop :=
  is_pattern F r /\ xlt F a r /\ (forall c, xlt F a c -> ~ xlt F c r) /\
  (is_fin F r = true -> fval F r = 0%R -> sign_of F r = sign_of F a).
Definition next_below (F : fmt) (a r : Z) : Prop :=
  is_pattern F r /\ xlt F r a /\ (forall c, xlt F c a -> ~ xlt F r c) /\
  (is_fin F r = true -> fval F r = 0%R -> sign_of F r = sign_of F a).
(** [F] is the type of the first argument and of the result, [G] that of the
    second; nextafter has [G = F], nexttoward a wider [G]. *)
Theorem C30_up : forall F G, good_fmt F -> good_fmt G -> included F G -> el F <= 16 -> el G <= 16 ->
  forall rm a b, is_pattern F a -> is_nan F a = false -> is_nan G b = false -> xlt2 F G a b ->
  next_above F a (cc_nextafter F G rm a b).
Proof. exact next_up. Qed.
Theorem C30_down : forall F G, good_fmt F -> good_fmt G -> included F G -> el F <= 16 -> el G <= 16 ->
  forall rm a b, is_pattern F a -> is_nan F a = false -> is_nan G b = false -> xgt2 F G a b ->
  next_below F a (cc_nextafter F G rm a b).
Proof. exact next_dn. Qed.
Theorem C30_equal : forall F G, good_fmt F -> good_fmt G -> included F G -> el F <= 16 -> el G <= 16 ->
  forall rm a b, is_nan F a = false -> is_nan G b = false -> xeq2 F G a b ->
  let r := cc_nextafter F G rm a b in is_pattern F r /\ xeq2 F G r b /\ sign_of F r = sign_of G b.
Proof. exact next_eq. Qed.
Theorem C30_nan : forall F G, good_fmt F -> el F <= 16 -> good_fmt G -> el G <= 16 ->
  forall rm a b, is_nan F a = true \/ is_nan G b = true -> is_nan F (cc_nextafter F G rm a b) = true.
Proof. intros. apply next_nan; assumption. Qed.
(** The three cases are exhaustive. *)
Theorem C30_total : forall F G a b, is_nan F a = false -> is_nan G b = false ->
  xlt2 F G a b \/ xeq2 F G a b \/ xgt2 F G a b.
Proof. exact total2. Qed.
Theorem C30_nextup : forall F, good_fmt F -> el F <= 16 -> forall rm x, is_pattern F x ->
  (is_nan F x = false -> x <> f_inf F false -> next_above F x (cc_nextup F rm x)) /\
  cc_nextup F rm (f_inf F false) = f_inf F false /\
  (is_nan F x = true -> is_nan F (cc_nextup F rm x) = true).
Proof. exact nextup_spec. Qed.
Theorem C30_nextdown : forall F, good_fmt F -> el F <= 16 -> forall rm x, is_pattern F x ->
  (is_nan F x = false -> x <> f_inf F true -> next_below F x (cc_nextdown F rm x)) /\
  cc_nextdown F rm (f_inf F true) = f_inf F true /\
  (is_nan F x = true -> is_nan F (cc_nextdown F rm x) = true).
Proof. exact nextdown_spec. Qed.
Example C30_formats : included binary32 binary64 /\ included binary64 binary128 /\ included binary64 binary64.
Proof. unfold included. vm_compute. intuition discriminate. Qed.
Example C30_case : cc_nextafter binary32 binary32 RNE 0x3F800000 0x40000000 = 0x3F800001 /\
  cc_nextafter binary32 binary32 RNE 0x80000001 0x3F800000 = 0x80000000 /\ cc_nextafter binary32 binary32 RNE 0 0xBF800000 = 0x80000001 /\
  cc_nextafter binary32 binary64 RNE 0x3F800000 0x3FF0000000000001 = 0x3F800001 /\ cc_nextafter binary32 binary32 RNE 0x7F7FFFFF 0x7F800000 = 0x7F800000 /\
  cc_nextafter binary32 binary32 RNE 0 0x80000000 = 0x80000000.
Proof. vm_compute. repeat split. Qed.

Print Assumptions C25_frexp.
Print Assumptions C25_special.
Print Assumptions C25_wide_refuted.
Print Assumptions C26_ldexp.
Print Assumptions C26_ldexp_within.
Print Assumptions C26_ldexp_beyond.
Print Assumptions C26_special.
Print Assumptions C26_directed_refuted.
Print Assumptions C27_scalbn.
Print Assumptions C27_inf.
Print Assumptions C27_nan.
Print Assumptions C27_long_refuted.
Print Assumptions C28_ilogb.
Print Assumptions C28_ilogb_special.
Print Assumptions C28_logb.
Print Assumptions C28_logb_special.
Print Assumptions C28_wide_refuted.
Print Assumptions C29_modf.
Print Assumptions C29_special.
Print Assumptions C29_wide_refuted.
Print Assumptions C30_up.
Print Assumptions C30_down.
Print Assumptions C30_equal.
Print Assumptions C30_nan.
Print Assumptions C30_total.
Print Assumptions C30_nextup.
Print Assumptions C30_nextdown.
