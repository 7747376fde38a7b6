(** * C70, C71: log1p for float and double *)
From Coq Require Import ZArith Reals Bool Lia Lra List.
From Flocq Require Import Core.
From Interval Require Import Tactic.
From Verif Require Import MachInt Fmt FloatSpec RoundProofs FmtProofs FOps FOpsProofs ExtInterp FmanipWide ExpoData ExpoF LogDataD LogD Log1p ErrLib Exp2fProofs LogfNum Log1pWrap Log1pF Log1pDD.
Open Scope Z_scope.

(** ** C70: log1p(float) *)
(** For every finite float above -1 except the zeros (and, rounding upward, except FLT_MAX) the
    result is the rounding, in the mode of the machine, of a real whose relative distance to
    ln(1+x) is at most 2^-22 (2^-21 in a directed mode), and at most 2^-24 on [-0.29, 0.41]. *)
Theorem C70_log1p : forall rm x zs, is_pattern binary32 x -> is_fin binary32 x = true -> let X := fval binary32 x in (-1 < X)%R -> X <> 0%R -> (rm = RUP -> x <> inf_mag binary32 - 1) ->
  exists v, (Rabs (v - ln (1 + X)) <= bpow radix2 (match rm with RNE => -22 | _ => -21 end) * Rabs (ln (1 + X)))%R /\
    ((- 29 / 100 <= X <= 41 / 100)%R -> (Rabs (v - ln (1 + X)) <= bpow radix2 (-24) * Rabs (ln (1 + X)))%R) /\ rounded binary32 rm v zs (log1pf rm x).
Proof. exact log1pf_accuracy. Qed.
(** NaN, the two zeros, +infinity, -1 and everything below -1. *)
Theorem C70_special : forall rm x, is_pattern binary32 x -> let r := log1pf rm x in
  (is_nan binary32 x = true -> r = qnan binary32) /\ (mag_of binary32 x = 0 -> r = x) /\ (x = inf_mag binary32 -> r = inf_mag binary32) /\
  (is_fin binary32 x = true -> fval binary32 x = (-1)%R -> r = f_inf binary32 true) /\
  (x = f_inf binary32 true \/ is_fin binary32 x = true /\ (fval binary32 x < -1)%R -> r = sbit binary32 true + qnan binary32).
Proof.
  intros rm x P r. destruct (log1p_wrapper_spec binary32 good32 lf_m1 (log1pf_impl rm) x P) as (A & B & C & D & E & _). exact (conj A (conj B (conj C (conj D E)))).
Qed.
(** The exclusion of FLT_MAX is needed: rounding upward 1 + x overflows, and the result is 72.78
    where ln(1+x) is above 88. *)
Theorem C70_overflow_refuted : exists x, x = inf_mag binary32 - 1 /\ let r := log1pf RUP x in is_fin binary32 r = true /\ (fval binary32 r < 73)%R /\ (88 < ln (1 + fval binary32 x))%R.
Proof.
  exists (inf_mag binary32 - 1). cbv zeta. replace (log1pf RUP (inf_mag binary32 - 1)) with 1116835736 by (vm_compute; reflexivity). change (inf_mag binary32 - 1) with 2139095039.
  split; [reflexivity|]. split; [vm_compute; reflexivity|]. fvalof F32 1116835736. fvalof F32 2139095039. split; [bpn; lra|]. replace (1 * 16777215 * bp 104)%R with (IZR (16777215 * 2 ^ 104)) by (rewrite mult_IZR; change (IZR (2 ^ 104)) with (bp 104); lra). interval with (i_prec 60).
Qed.

(** ** C71: log1p(double) *)
(** For every finite double above -1 except the zeros (and, rounding upward, except DBL_MAX) the
    relative error before the last rounding is at most 2^-44. It is at most 2^-52 (2^-51 directed)
    for |x| <= 1/5 and at most 2^-51 (2^-50) for x <= -0.293 and x >= 0.4143. *)
Theorem C71_log1p : forall rm x zs, is_pattern binary64 x -> is_fin binary64 x = true -> let X := fval binary64 x in (-1 < X)%R -> X <> 0%R -> (rm = RUP -> x <> inf_mag binary64 - 1) ->
  exists v, (Rabs (v - ln (1 + X)) <= bpow radix2 (-44) * Rabs (ln (1 + X)))%R /\
    ((- 2 / 10 <= X <= 2 / 10)%R -> (Rabs (v - ln (1 + X)) <= bpow radix2 (match rm with RNE => -52 | _ => -51 end) * Rabs (ln (1 + X)))%R) /\
    ((X <= - 293 / 1000 \/ 4143 / 10000 <= X)%R -> (Rabs (v - ln (1 + X)) <= bpow radix2 (match rm with RNE => -51 | _ => -50 end) * Rabs (ln (1 + X)))%R) /\
    rounded binary64 rm v zs (log1p_d rm x).
Proof. exact log1p_d_accuracy. Qed.
Theorem C71_special : forall rm x, is_pattern binary64 x -> let r := log1p_d rm x in
  (is_nan binary64 x = true -> r = qnan binary64) /\ (mag_of binary64 x = 0 -> r = x) /\ (x = inf_mag binary64 -> r = inf_mag binary64) /\
  (is_fin binary64 x = true -> fval binary64 x = (-1)%R -> r = f_inf binary64 true) /\
  (x = f_inf binary64 true \/ is_fin binary64 x = true /\ (fval binary64 x < -1)%R -> r = sbit binary64 true + qnan binary64).
Proof.
  intros rm x P r. destruct (log1p_wrapper_spec binary64 good64 ld_m1 (log1pd_impl rm) x P) as (A & B & C & D & E & _). exact (conj A (conj B (conj C (conj D E)))).
Qed.
(** The bound 2^-44 is nearly attained: the coefficients of the double polynomial are not those
    of a minimax fit, and at 0x3fda827900000000 (about 0.41421318) the nearest-mode result is off
    by more than 2^-45 relative, that is by 210 units in the last place. *)
Theorem C71_ulp_refuted : exists x, is_pattern binary64 x /\ is_fin binary64 x = true /\ let X := fval binary64 x in (2 / 10 < X < 4143 / 10000)%R /\
  (bpow radix2 (-45) * ln (1 + X) < Rabs (fval binary64 (log1p_d RNE x) - ln (1 + X)))%R.
Proof.
  exists 0x3fda827900000000. cbv zeta. replace (log1p_d RNE 0x3fda827900000000) with 4599914932859267428 by (vm_compute; reflexivity).
  split; [split; vm_compute; congruence|]. split; [vm_compute; reflexivity|]. fvalof D 0x3fda827900000000. fvalof D 4599914932859267428. bpn.
  split; [lra|]. rewrite Rabs_left; interval with (i_prec 100).
Qed.
Theorem C71_overflow_refuted : exists x, x = inf_mag binary64 - 1 /\ let r := log1p_d RUP x in is_fin binary64 r = true /\ (fval binary64 r < 674)%R /\ (709 < ln (1 + fval binary64 x))%R.
Proof.
  exists (inf_mag binary64 - 1). cbv zeta. replace (log1p_d RUP (inf_mag binary64 - 1)) with 4649137487259075839 by (vm_compute; reflexivity). change (inf_mag binary64 - 1) with 9218868437227405311.
  split; [reflexivity|]. split; [vm_compute; reflexivity|]. fvalof D 4649137487259075839. fvalof D 9218868437227405311. split; [bpn; lra|].
  replace (1 * 9007199254740991 * bp 971)%R with (IZR (9007199254740991 * 2 ^ 971)) by (rewrite mult_IZR; change (IZR (2 ^ 971)) with (bp 971); lra). interval with (i_prec 60).
Qed.

(** The hypotheses are met by ordinary, tiny, negative and large arguments of every branch. *)
Example C70_ex :
  (is_pattern binary32 0x3f800000 /\ is_fin binary32 0x3f800000 = true /\ fval binary32 0x3f800000 = 1%R) /\ log1pf RNE 0x3f800000 = 0x3f317218 /\
  log1pf RNE 0x3e800000 = 1046773694 /\ log1pf RNE 0x3ed41400 = 1051816508 /\ log1pf RNE 0x30000000 = 0x30000000 /\ log1pf RNE 0x7f7fffff = 1118925336 /\ log1pf RNE 0xbf800000 = 0xff800000 /\ log1pf RNE 0xbf7fffff = 3246724498.
Proof.
  repeat match goal with |- _ /\ _ => split end; try match goal with |- ?a = ?b => match type of a with R => fail 2 | _ => vm_compute; reflexivity end end; try (split; vm_compute; congruence).
  fvalof F32 0x3f800000. bpn. lra.
Qed.
Example C71_ex :
  (is_pattern binary64 0x3ff0000000000000 /\ is_fin binary64 0x3ff0000000000000 = true /\ fval binary64 0x3ff0000000000000 = 1%R) /\ log1p_d RNE 0x3ff0000000000000 = 0x3fe62e42fefa39ef /\ log1p_d RNE 0x3fd0000000000000 = 4597207614006925857 /\ log1p_d RNE 0x3c00000000000000 = 0x3c00000000000000 /\ log1p_d RNE 0xbfefffffffffffff = 13853739099206662138.
Proof.
  repeat match goal with |- _ /\ _ => split end; try match goal with |- ?a = ?b => match type of a with R => fail 2 | _ => vm_compute; reflexivity end end; try (split; vm_compute; congruence).
  fvalof D 0x3ff0000000000000. bpn. lra.
Qed.

Print Assumptions C70_log1p.
Print Assumptions C70_special.
Print Assumptions C70_overflow_refuted.
Print Assumptions C71_log1p.
Print Assumptions C71_special.
Print Assumptions C71_ulp_refuted.
Print Assumptions C71_overflow_refuted.
