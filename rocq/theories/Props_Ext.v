(** * C48, C49: integer functions of ccm::ext

    T ranges over the integer types: any signedness, and a width of at most 16 bits
    (promoted to int) or at least 32 bits. *)
From Coq Require Import ZArith Lia Bool.
From Verif Require Import MachInt Bits BitsSpec BitsProofs Ext ExtProofs.
Open Scope Z_scope.

(** Specification: the largest value of the type; [q] is the ceiling of v/d. *)
Definition int_width (T : ity) : Prop := 1 <= iw T <= 16 \/ 32 <= iw T.
Definition largest (T : ity) : Z := if isg T then 2 ^ (iw T - 1) - 1 else 2 ^ iw T - 1.
(** The alignment 2^k has its mask 2^k - 1 among the values of the type. *)
Definition fits_alignment (T : ity) (k : Z) : Prop := 0 <= k <= (if isg T then iw T - 1 else iw T).

(** ** C48 *)
(** align_down is the greatest multiple of the alignment that is not above v. *)
Theorem C48_align_down : forall T k v, int_width T -> fits_alignment T k -> in_ity T v ->
  let r := align_down T k v in in_ity T r /\ (2 ^ k | r) /\ r <= v < r + 2 ^ k.
Proof. intros T k v HT (Hk & HkT). exact (align_down_spec T HT k v Hk HkT). Qed.
(** Let u be the least multiple that is not below v.  align_up returns it if it fits;
    otherwise the behaviour is undefined for signed types as wide as int, and u is
    reduced modulo 2^w for the others. *)
Theorem C48_align_up : forall T k v u, int_width T -> fits_alignment T k -> in_ity T v ->
  (2 ^ k | u) -> v <= u < v + 2 ^ k -> align_up T k v =
  if u <=? largest T then Some u else if isg T && (32 <=? iw T) then None else Some (icast T u).
Proof. intros T k v u HT (Hk & HkT). exact (align_up_spec T HT k v u Hk HkT). Qed.
(** uint8: 13 -> 8 and 16; 250 up to 256 wraps to 0; int: -13 -> -16 and -8. *)
Example C48_case :
  let u8 := {| iw := 8; isg := false |} in let i32 := {| iw := 32; isg := true |} in
  align_down u8 3 13 = 8 /\ align_up u8 3 13 = Some 16 /\ align_up u8 4 250 = Some 0 /\
  align_down i32 4 (-13) = -16 /\ align_up i32 3 (-13) = Some (-8) /\ align_up i32 4 (2 ^ 31 - 1) = None /\
  align_up {| iw := 8; isg := true |} 3 127 = Some (-128) /\ fits_alignment u8 8 /\ int_width u8 /\ int_width i32.
Proof. cbv zeta. repeat match goal with |- _ /\ _ => split end; vm_compute; try reflexivity; intuition congruence. Qed.

(** ** C49 *)
Theorem C49_abs_diff : forall T a b, int_width T -> in_ity T a -> in_ity T b ->
  abs_diff T a b = if Z.abs (a - b) <=? largest T then Some (Z.abs (a - b))
                   else if 32 <=? iw T then None else Some (icast T (Z.abs (a - b))).
Proof. intros T a b HT. exact (abs_diff_spec T HT a b). Qed.
(** On unsigned types the difference always fits. *)
Theorem C49_abs_diff_unsigned : forall T a b, int_width T -> isg T = false -> in_ity T a -> in_ity T b ->
  abs_diff T a b = Some (Z.abs (a - b)).
Proof.
  intros T a b HT SG Ha Hb. rewrite (C49_abs_diff T a b HT Ha Hb). unfold largest. unfold in_ity, inU in Ha, Hb. rewrite SG in *.
  replace (Z.abs (a - b) <=? 2 ^ iw T - 1) with true by lia. reflexivity.
Qed.
(** ceil_div is the ceiling when the sum v + d (v + d - 1 for an unsigned type)
    fits, and always for types narrower than int... *)
Theorem C49_ceil_div : forall T v d, int_width T -> in_ity T v -> in_ity T d -> 0 <= v -> 0 < d ->
  iw T <= 16 \/ v + d <= (if isg T then largest T else largest T + 1) ->
  exists q, ceil_div T v d = Some q /\ (q - 1) * d < v <= q * d.
Proof. intros T v d HT. exact (ceil_div_spec T HT v d). Qed.
(** ... otherwise it is 0 (unsigned) or undefined (signed), so the condition is exact. *)
Theorem C49_ceil_div_wrap : forall T v d, int_width T -> in_ity T v -> in_ity T d -> 0 <= v -> 0 < d -> 32 <= iw T ->
  (if isg T then largest T else largest T + 1) < v + d ->
  ceil_div T v d = if isg T then None else Some 0.
Proof. intros T v d HT. exact (ceil_div_wrap T HT v d). Qed.
(** A zero divisor is undefined behaviour, except in the safe version. *)
Theorem C49_ceil_div_0 : forall T v, ceil_div T v 0 = None.
Proof. exact ceil_div_0. Qed.
Theorem C49_safe_ceil_div : forall T v d, int_width T -> in_ity T v -> in_ity T d -> 0 <= v -> 0 <= d ->
  iw T <= 16 \/ v + d <= (if isg T then largest T else largest T + 1) ->
  exists q, safe_ceil_div T v d = Some q /\ (d = 0 -> q = 0) /\ (0 < d -> (q - 1) * d < v <= q * d).
Proof. intros T v d HT. exact (safe_ceil_div_spec T HT v d). Qed.
(** For a negative value it is not the ceiling: ceil_div(-4, 2) = -1. *)
Theorem C49_ceil_div_negative_refuted : exists v d q, ceil_div {| iw := 32; isg := true |} v d = Some q /\ 0 < d /\ ~ ((q - 1) * d < v <= q * d).
Proof. exists (-4), 2, (-1). split; [reflexivity|]. lia. Qed.
(** is_power_of_two of an unsigned type. *)
Theorem C49_is_power_of_two : forall w n, inU w n -> (has_single_bit w n = true <-> power_of_two n).
Proof. exact has_single_bit_spec. Qed.
(** Signed types: exact, except that the least value of a type as wide as int has
    undefined behaviour; the safe version has no exception. *)
Theorem C49_is_power_of_two_signed : forall T n, int_width T -> isg T = true -> in_ity T n ->
  match is_power_of_two_signed T n with
  | Some b => b = true <-> power_of_two n
  | None => n = - 2 ^ (iw T - 1) /\ 32 <= iw T
  end.
Proof. intros T n HT. exact (is_power_of_two_signed_spec T HT n). Qed.
Theorem C49_safe_is_power_of_two : forall T n, int_width T -> isg T = true -> in_ity T n ->
  (safe_is_power_of_two_signed T n = true <-> power_of_two n).
Proof. intros T n HT. exact (safe_is_power_of_two_signed_spec T HT n). Qed.
Theorem C49_sign : forall T v, int_width T -> 2 <= iw T -> in_ity T v -> isign T v = Z.sgn v.
Proof. intros T v HT. exact (isign_spec T HT v). Qed.
(** clamp into [lo, hi], idempotently. *)
Theorem C49_clamp : forall v lo hi, lo <= hi ->
  lo <= iclamp v lo hi <= hi /\ (lo <= v <= hi -> iclamp v lo hi = v) /\ (v < lo -> iclamp v lo hi = lo) /\ (hi < v -> iclamp v lo hi = hi) /\
  iclamp (iclamp v lo hi) lo hi = iclamp v lo hi.
Proof. exact iclamp_spec. Qed.
Theorem C49_step : forall e v, (v < e -> istep e v = 0) /\ (e <= v -> istep e v = 1).
Proof. intros e v. rewrite istep_spec. destruct (Z_lt_dec v e); split; intros; auto; lia. Qed.
Example C49_case :
  let u32 := {| iw := 32; isg := false |} in let i32 := {| iw := 32; isg := true |} in let i8 := {| iw := 8; isg := true |} in
  abs_diff u32 3 10 = Some 7 /\ abs_diff i32 (- 2 ^ 31) 1 = None /\ abs_diff i8 (-128) 127 = Some (-1) /\
  ceil_div u32 10 3 = Some 4 /\ ceil_div u32 (2 ^ 32 - 1) 2 = Some 0 /\ ceil_div i8 127 2 = Some 64 /\ ceil_div i32 (2 ^ 31 - 1) 1 = None /\
  safe_ceil_div i32 5 0 = Some 0 /\ is_power_of_two_signed i32 64 = Some true /\ is_power_of_two_signed i32 (- 2 ^ 31) = None /\
  is_power_of_two_signed i8 (-128) = Some false /\ safe_is_power_of_two_signed i32 (- 2 ^ 31) = false /\
  isign i8 (-5) = -1 /\ iclamp 7 0 5 = 5 /\ iclamp (-7) 0 5 = 0.
Proof. cbv zeta. repeat match goal with |- _ /\ _ => split end; vm_compute; reflexivity. Qed.

Print Assumptions C48_align_down.
Print Assumptions C48_align_up.
Print Assumptions C49_abs_diff.
Print Assumptions C49_abs_diff_unsigned.
Print Assumptions C49_ceil_div.
Print Assumptions C49_ceil_div_wrap.
Print Assumptions C49_ceil_div_0.
Print Assumptions C49_safe_ceil_div.
Print Assumptions C49_ceil_div_negative_refuted.
Print Assumptions C49_is_power_of_two.
Print Assumptions C49_is_power_of_two_signed.
Print Assumptions C49_safe_is_power_of_two.
Print Assumptions C49_sign.
Print Assumptions C49_clamp.
Print Assumptions C49_step.
