(** * C81: powf, accuracy *)
From Coq Require Import ZArith Reals Bool Lia Lra List.
From Flocq Require Import Core.
From Interval Require Import Tactic.
From Verif Require Import MachInt Fmt FloatSpec RoundProofs FmtProofs LogfNum ExtFloatSpec FOps FOpsProofs FmanipWide ErrLib ExactOps ExtFloatProofs Exp2fProofs SinRedF ExpoFWrap Powf PowfSpecial PowfScale PowfAcc PowfSmall PowfBase PowfNeg1.
Open Scope Z_scope.

(** [is_real F b v]: the pattern b of format F is finite and its value is v.
    [rounded F rm w zs b]: b is w correctly rounded in mode rm (infinite on overflow). *)

(** pow(x, y), rounding to nearest and without the FMA target, is the correct rounding of a number W
    that differs from the exact power by at most one part in 2^28 - sixteen times less than half a unit
    in the last place - for every finite x and y whose power is a real number, up to overflow and
    underflow to an infinity or a zero of the right sign. The bases 1, -1, 2 and 10 and the exponents
    0, 1/2, 1 and the integers 2 to 24 are left out here: the code handles them apart. *)
Theorem C81_powf : forall ct dm x y X Y (s : bool), is_real binary32 x X -> is_real binary32 y Y ->
  X <> 0%R -> Rabs X <> 1%R -> X <> 2%R -> X <> 10%R -> Y <> 0%R -> Y <> (/ 2)%R -> (forall n, 1 <= n <= 24 -> Y <> IZR n) ->
  (0 < X)%R \/ (exists n, Y = IZR n) -> (s = true <-> (X < 0)%R /\ exists n, Y = IZR (2 * n + 1)) ->
  exists r W, powf false ct dm RNE x y = Some r /\ rounded binary32 RNE W false r /\
    (Rabs (W - (if s then - Rpower (Rabs X) Y else Rpower (Rabs X) Y)) <= bpow radix2 (-28) * Rpower (Rabs X) Y)%R.
Proof. exact powf_general. Qed.

(** ** non-vacuity: 3^-2.5 and (-3)^-5 *)
Example C81_ex : exists r W r' W', powf false true RNE RNE 0x40400000 0xc0200000 = Some r /\ r = 0x3d836117 /\ rounded binary32 RNE W false r /\
    (Rabs (W - Rpower (Rabs 3) (- 2.5)) <= bpow radix2 (-28) * Rpower (Rabs 3) (- 2.5))%R /\
    powf false false RUP RNE 0xc0400000 0xc0a00000 = Some r' /\ r' = 0xbb86d905 /\ rounded binary32 RNE W' false r' /\
    (Rabs (W' - - Rpower (Rabs (-3)) (-5)) <= bpow radix2 (-28) * Rpower (Rabs (-3)) (-5))%R.
Proof.
  assert (X3 : is_real S32 0x40400000 3) by (split; [split; vm_compute; congruence|split; [reflexivity|fvalof S32 0x40400000; bpn; lra]]).
  assert (X3' : is_real S32 0xc0400000 (-3)) by (split; [split; vm_compute; congruence|split; [reflexivity|fvalof S32 0xc0400000; bpn; lra]]).
  assert (Y1 : is_real S32 0xc0200000 (- 2.5)) by (split; [split; vm_compute; congruence|split; [reflexivity|fvalof S32 0xc0200000; bpn; lra]]).
  assert (Y2 : is_real S32 0xc0a00000 (-5)) by (split; [split; vm_compute; congruence|split; [reflexivity|fvalof S32 0xc0a00000; bpn; lra]]).
  assert (A3 : Rabs 3 = 3%R) by (apply Rabs_pos_eq; lra). assert (A3' : Rabs (-3) = 3%R) by (rewrite Rabs_left; lra).
  destruct (C81_powf true RNE _ _ _ _ false X3 Y1 ltac:(lra) ltac:(lra) ltac:(lra) ltac:(lra) ltac:(lra) ltac:(lra) ltac:(let n := fresh in intros n Hn C; assert (IZR n >= 1)%R by (apply Rle_ge, IZR_le; lia); lra) ltac:(left; lra) ltac:(split; [discriminate|intros (C & _); lra])) as (r & W & E & HR & HW).
  destruct (C81_powf false RUP _ _ _ _ true X3' Y2 ltac:(lra) ltac:(lra) ltac:(lra) ltac:(lra) ltac:(lra) ltac:(lra) ltac:(let n := fresh in intros n Hn C; assert (IZR n >= 1)%R by (apply Rle_ge, IZR_le; lia); lra) ltac:(right; exists (-5); reflexivity) ltac:(split; [intros _; split; [lra|exists (-3); reflexivity]|reflexivity])) as (r' & W' & E' & HR' & HW').
  exists r, W, r', W'. split; [exact E|]. split; [vm_compute in E; congruence|]. split; [exact HR|]. split; [exact HW|]. split; [exact E'|]. split; [vm_compute in E'; congruence|]. split; [exact HR'|exact HW'].
Qed.

(** ** C82: the exponents and bases handled apart *)
(** Integer exponents from 3 to 24, whether or not the product is computed directly, and every base. *)
Theorem C82_small_integers : forall ct dm x y X n, is_real binary32 x X -> is_real binary32 y (IZR n) -> X <> 0%R -> 3 <= n <= 24 ->
  exists r W, powf false ct dm RNE x y = Some r /\ rounded binary32 RNE W false r /\
    (Rabs (W - X ^ Z.to_nat n) <= bpow radix2 (-28) * Rabs (X ^ Z.to_nat n))%R.
Proof. exact powf_small. Qed.
(** The powers of -1 are exact. *)
Theorem C82_minus_one : forall ct dm y n, is_real binary32 y (IZR n) -> powf false ct dm RNE (f_one binary32 true) y = Some (f_one binary32 (Z.odd n)).
Proof.
  intros ct dm y n Hy. apply (powf_minus_one ct dm y (IZR n)); [exact Hy|exists n; reflexivity|]. split.
  - intros E. apply Z.odd_spec in E. destruct E as (m & ->). exists m. reflexivity.
  - intros (m & E). apply eq_IZR in E. rewrite E, Z.add_comm, Z.odd_add_mul_2. reflexivity.
Qed.
(** The bases 2 and 10, away from the exponents whose power lies between half the least positive float
    and that float. *)
Theorem C82_two : forall ct y Y, is_real binary32 y Y -> Y <> 0%R -> Y <> (/ 2)%R -> (forall n, 1 <= n <= 24 -> Y <> IZR n) -> (Y <= -150 \/ -149 <= Y)%R ->
  exists r W, powf false ct RNE RNE 0x40000000 y = Some r /\ rounded binary32 RNE W false r /\ (Rabs (W - Rpower 2 Y) <= bpow radix2 (-28) * Rpower 2 Y)%R.
Proof. exact powf_two. Qed.
Theorem C82_ten : forall ct y Y, is_real binary32 y Y -> Y <> 0%R -> Y <> (/ 2)%R -> (forall n, 1 <= n <= 24 -> Y <> IZR n) -> (Y <= -45.25 \/ -44.85 <= Y)%R ->
  exists r W, powf false ct RNE RNE 0x41200000 y = Some r /\ rounded binary32 RNE W false r /\ (Rabs (W - Rpower 10 Y) <= bpow radix2 (-28) * Rpower 10 Y)%R.
Proof. exact powf_ten. Qed.
(** Between them the result is zero although the least positive float is the nearest: 2^-149.5. *)
Theorem C82_gap_refuted : exists y, is_real binary32 y (-149.5) /\ powf false false RNE RNE 0x40000000 y = Some 0 /\ rounded binary32 RNE (Rpower 2 (-149.5)) false 1.
Proof.
  exists 0xc3158000. split; [split; [split; vm_compute; congruence|split; [reflexivity|fvalof S32 0xc3158000; bpn; lra]]|]. split; [vm_compute; reflexivity|].
  apply one_rounded. rewrite <- !Rpower2_Z. split; apply Rpower_lt; lra.
Qed.
Theorem C82_gap_ten_refuted : exists y, is_real binary32 y (-45) /\ powf false false RNE RNE 0x41200000 y = Some 0 /\ rounded binary32 RNE (Rpower 10 (-45)) false 1.
Proof.
  exists 0xc2340000. split; [split; [split; vm_compute; congruence|split; [reflexivity|fvalof S32 0xc2340000; bpn; lra]]|]. split; [vm_compute; reflexivity|].
  apply one_rounded. rewrite <- !Rpower2_Z. unfold Rpower. split; apply exp_increasing; interval with (i_prec 60).
Qed.
(** The kernel itself: 4^-74.75 = 2^-149.5 is right, and 10^-3, (-1.5)^5 and (-1)^-7 for non-vacuity. *)
Example C82_ex : is_real binary32 0x40a00000 (IZR 5) /\ is_real binary32 0xc0e00000 (IZR (-7)) /\ is_real binary32 0xc0400000 (-3) /\
  powf false false RNE RNE 0x40800000 0xc2958000 = Some 1 /\
  powf false false RNE RNE 0xbfc00000 0x40a00000 = Some 0xc0f30000 /\
  powf false true RNE RNE 0xbf800000 0xc0e00000 = Some 0xbf800000 /\
  powf false false RNE RNE 0x40000000 0xc0400000 = Some 0x3e000000 /\
  powf false false RNE RNE 0x41200000 0xc0400000 = Some 0x3a83126f.
Proof.
  split; [split; [split; vm_compute; congruence|split; [reflexivity|fvalof S32 0x40a00000; bpn; lra]]|]. split; [split; [split; vm_compute; congruence|split; [reflexivity|fvalof S32 0xc0e00000; bpn; lra]]|]. split; [split; [split; vm_compute; congruence|split; [reflexivity|fvalof S32 0xc0400000; bpn; lra]]|].
  repeat match goal with |- _ /\ _ => split end; vm_compute; reflexivity.
Qed.

Print Assumptions C81_powf.
Print Assumptions C82_small_integers.
Print Assumptions C82_minus_one.
Print Assumptions C82_two.
Print Assumptions C82_ten.
Print Assumptions C82_gap_refuted.
Print Assumptions C82_gap_ten_refuted.
