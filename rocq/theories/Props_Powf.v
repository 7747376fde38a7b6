(** * C80: powf, special values *)
From Coq Require Import ZArith Reals Bool Lia Lra List.
From Flocq Require Import Core.
From Interval Require Import Tactic.
From Verif Require Import MachInt Fmt FloatSpec RoundProofs FmtProofs LogfNum ExtFloatSpec FOps FOpsProofs FmanipWide ErrLib ExactOps ExtFloatProofs Exp2fProofs SinRedF Sqrt SqrtProofs Powf PowfSpecial.
Open Scope Z_scope.

(** [f_zero F s], [f_inf F s] and [f_one F s] are the zero, infinity and one of sign s. *)

(** pow(x, +-0) is 1 for every x, NaN included, and pow(1, y) is 1 for every y, NaN included. *)
Theorem C80_exponent_zero : forall fma ct dm rm x s, powf fma ct dm rm x (f_zero binary32 s) = Some (f_one binary32 false).
Proof. exact powf_y_zero. Qed.
Theorem C80_base_one : forall fma ct dm rm y, is_pattern binary32 y -> powf fma ct dm rm (f_one binary32 false) y = Some (f_one binary32 false).
Proof. exact powf_x_one. Qed.

(** Zero and infinite bases: a zero to a positive power is a zero, to a negative power an infinity, and
    conversely for an infinity; the sign is that of the base when the exponent is an odd integer. *)
Theorem C80_base_zero : forall fma ct dm rm s y o, is_pattern binary32 y -> is_fin binary32 y = true ->
  (o = true <-> exists n, fval binary32 y = IZR (2 * n + 1)) ->
  ((0 < fval binary32 y)%R -> powf fma ct dm rm (f_zero binary32 s) y = Some (f_zero binary32 (s && o))) /\
  ((fval binary32 y < 0)%R -> powf fma ct dm rm (f_zero binary32 s) y = Some (f_inf binary32 (s && o))).
Proof.
  intros fma ct dm rm s y o P Fn H. split; intros Y; pose proof (powf_sp fma ct dm rm false s y o P Fn ltac:(lra) H) as E; [rewrite Rlt_bool_true in E by lra|rewrite Rlt_bool_false in E by lra]; exact E.
Qed.
Theorem C80_base_infinite : forall fma ct dm rm s y o, is_pattern binary32 y -> is_fin binary32 y = true ->
  (o = true <-> exists n, fval binary32 y = IZR (2 * n + 1)) ->
  ((0 < fval binary32 y)%R -> powf fma ct dm rm (f_inf binary32 s) y = Some (f_inf binary32 (s && o))) /\
  ((fval binary32 y < 0)%R -> powf fma ct dm rm (f_inf binary32 s) y = Some (f_zero binary32 (s && o))).
Proof.
  intros fma ct dm rm s y o P Fn H. split; intros Y; pose proof (powf_sp fma ct dm rm true s y o P Fn ltac:(lra) H) as E; [rewrite Rlt_bool_true in E by lra|rewrite Rlt_bool_false in E by lra]; exact E.
Qed.

(** Infinite exponents: 1 when |x| = 1, otherwise +inf or +0 as |x| grows or decays. *)
Theorem C80_exponent_infinite : forall fma ct dm rm x s, is_pattern binary32 x -> is_nan binary32 x = false ->
  powf fma ct dm rm x (f_inf binary32 s) = Some (if mag_of binary32 x =? mag_of binary32 (f_one binary32 false) then f_one binary32 false
    else if Bool.eqb (mag_of binary32 x <? mag_of binary32 (f_one binary32 false)) s then f_inf binary32 false else f_zero binary32 false).
Proof. exact powf_y_inf. Qed.

(** Otherwise a NaN operand gives a NaN. *)
Theorem C80_nan : forall fma ct dm rm x y, is_pattern binary32 x -> is_pattern binary32 y ->
  (is_nan binary32 x = true /\ mag_of binary32 y <> 0) \/ (is_nan binary32 y = true /\ x <> f_one binary32 false) ->
  exists r, powf fma ct dm rm x y = Some r /\ is_nan binary32 r = true.
Proof. exact powf_nan. Qed.
(** A negative number to a power that is not an integer gives the quiet NaN. *)
Theorem C80_negative_base : forall fma ct dm rm x y, is_pattern binary32 x -> is_pattern binary32 y -> is_fin binary32 x = true -> is_fin binary32 y = true ->
  (fval binary32 x < 0)%R -> ~ (exists n, fval binary32 y = IZR n) -> powf fma ct dm rm x y = Some (qnan binary32).
Proof. exact powf_negative. Qed.

(** pow(x, 1) is x, pow(x, 2) the correctly rounded square, pow(x, 1/2) the correctly rounded root. *)
Theorem C80_simple : forall fma ct dm rm x, is_pattern binary32 x -> is_fin binary32 x = true ->
  powf fma ct dm rm x 0x3f800000 = Some x /\
  (exists r, powf fma ct dm rm x 0x40000000 = Some r /\ rounded binary32 rm (fval binary32 x * fval binary32 x) false r) /\
  ((0 < fval binary32 x)%R -> exists r, powf fma ct dm rm x 0x3f000000 = Some r /\ rounded binary32 dm (sqrt (fval binary32 x)) false r).
Proof.
  intros fma ct dm rm x Px Fx. split; [reflexivity|]. split.
  - eexists. split; [reflexivity|]. pose proof (f_mul_spec S32 good32 rm x x Fx Fx) as H. rewrite Bool.xorb_nilpotent in H. exact H.
  - intros P. assert (SX : sign_of S32 x = false) by (rewrite (sign_fval S32 good32 x Fx ltac:(lra)); apply Rlt_bool_false; lra).
    assert (MZ : mag_of S32 x <> 0) by (intros E; apply (fval_zero S32 good32 x Fx) in E; lra).
    destruct (cc_sqrt_fin S32 good32 ltac:(vm_compute; split; congruence) dm 5 x eq_refl Px Fx SX) as (b & Eb & Hb).
    exists b. split; [|exact Hb]. assert (E : pf_exc_y dm rm x 0x3f000000 = Some (inl b)).
    { unfold pf_exc_y. change (f_zero S32 false) with 0. change (mag_of S32 0x3f000000) with 0x3f000000. change (f_eq S32 0x3f000000 0) with false.
      rewrite (f_eq_zero S32 good32 x). rewrite (f_lt_zero S32 good32) by (apply fin_nan; auto). rewrite SX.
      apply Z.eqb_neq in MZ. rewrite MZ. replace (x =? 0xff800000) with false by (symmetry; apply Z.eqb_neq; intros ->; vm_compute in Fx; discriminate).
      cbn [andb orb]. rewrite Eb. reflexivity. }
    unfold powf, pf_exceptional. rewrite E. reflexivity.
Qed.

(** The repeated multiplication for small integer exponents is not correctly rounded outside
    round-to-nearest: (-2^-140)^9 lies strictly between the least negative subnormal and zero, and
    rounded downwards the result is -0 instead of that subnormal. *)
Theorem C80_directed_refuted : exists x y, is_real binary32 x (- bpow radix2 (-140)) /\ is_real binary32 y 9 /\
  powf false false RDN RDN x y = Some (f_zero binary32 true) /\ fround binary32 RDN (- bpow radix2 (-140) ^ 9) <> 0%R.
Proof.
  exists 0x80000200, 0x41100000. split; [split; [split; vm_compute; congruence|split; [reflexivity|fvalof S32 0x80000200; bpn; lra]]|].
  split; [split; [split; vm_compute; congruence|split; [reflexivity|fvalof S32 0x41100000; bpn; lra]]|]. split; [vm_compute; reflexivity|].
  apply Rlt_not_eq. assert (P : (0 < bpow radix2 (-140) ^ 9)%R) by (apply pow_lt, bpow_gt_0).
  apply Rle_lt_trans with (- bpow radix2 (-140) ^ 9)%R; [|lra]. change (fround S32 RDN) with (round radix2 (FLT_exp (emin S32) (prec S32)) Zfloor). apply round_DN_pt. apply FLT_exp_valid. unfold Prec_gt_0; vm_compute; reflexivity.
Qed.
(** With the FMA target and a compiler without a constexpr fma, the reduced argument loses its low bits
    in a constant expression: 1.2f^200 is off by 5e-6 relatively, more than 79 units in the last place. *)
Theorem C80_fma_constant_refuted : exists x y r X, is_real binary32 x X /\ is_real binary32 y 200 /\
  powf true true RNE RNE x y = Some r /\ (Rabs (fval binary32 r - X ^ 200) > 5e-6 * X ^ 200)%R.
Proof.
  exists 0x3f99999a, 0x43480000, 1505947948, (10066330 / 8388608)%R. split; [split; [split; vm_compute; congruence|split; [reflexivity|fvalof S32 0x3f99999a; bpn; lra]]|].
  split; [split; [split; vm_compute; congruence|split; [reflexivity|fvalof S32 0x43480000; bpn; lra]]|]. split; [vm_compute; reflexivity|].
  fvalof S32 1505947948. bpn. interval with (i_prec 100).
Qed.

(** ** non-vacuity *)
Example C80_ex : is_fin binary32 0x40400000 = true /\ fval binary32 0x40400000 = IZR (2 * 1 + 1) /\
  powf false false RNE RNE (f_zero binary32 true) 0xc0400000 = Some (f_inf binary32 true) /\
  powf false true RUP RUP (f_inf binary32 true) 0x3fc00000 = Some (f_inf binary32 false) /\
  powf false false RNE RNE 0xbf800000 (f_inf binary32 true) = Some (f_one binary32 false) /\
  powf false false RNE RNE 0xc0000000 0x3fc00000 = Some (qnan binary32) /\
  powf false false RNE RNE 0x3f99999a 0x43480000 = Some 1505947868 /\
  powf false false RNE RNE 0x40490fdb 0xbfb504f3 = Some 0x3e4adf71.
Proof. split; [reflexivity|]. split; [change (2 * 1 + 1) with 3; fvalof S32 0x40400000; bpn; lra|]. repeat match goal with |- _ /\ _ => split end; vm_compute; reflexivity. Qed.

Print Assumptions C80_exponent_zero.
Print Assumptions C80_base_one.
Print Assumptions C80_base_zero.
Print Assumptions C80_base_infinite.
Print Assumptions C80_exponent_infinite.
Print Assumptions C80_nan.
Print Assumptions C80_negative_base.
Print Assumptions C80_simple.
Print Assumptions C80_directed_refuted.
Print Assumptions C80_fma_constant_refuted.
