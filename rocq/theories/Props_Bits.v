(** * C01-C06: bit-level helpers and carry arithmetic *)
From Coq Require Import ZArith Lia Bool List.
From Verif Require Import MachInt Bits BitsSpec BitsProofs PopcountProofs.
Open Scope Z_scope.

(** Width of the unsigned type: [2^k] bits. *)
Notation width k := (2 ^ Z.of_nat k).

(* C01 *)
Theorem C01_countr_zero : forall k v, inU (width k) v ->
  exists n, countr_zero (width k) v = Some n /\ trailing_zeros (width k) v n.
Proof. exact countr_zero_spec. Qed.
Theorem C01_countl_zero : forall k v, inU (width k) v ->
  exists n, countl_zero (width k) v = Some n /\ leading_zeros (width k) v n.
Proof. exact countl_zero_spec. Qed.
Theorem C01_countr_one : forall k v, inU (width k) v ->
  exists n, countr_one (width k) v = Some n /\ trailing_ones (width k) v n.
Proof. exact countr_one_spec. Qed.
Theorem C01_countl_one : forall k v, inU (width k) v ->
  exists n, countl_one (width k) v = Some n /\ leading_ones (width k) v n.
Proof. exact countl_one_spec. Qed.
Theorem C01_bit_width : forall k v, inU (width k) v ->
  exists n, bit_width (width k) v = Some n /\ 0 <= n /\ v < 2 ^ n /\
            (v <> 0 -> 2 ^ (n - 1) <= v).
Proof. exact bit_width_spec. Qed.
Example C01_case : inU (width 6) 0x00F0000000000100 /\
  countr_zero 64 0x00F0000000000100 = Some 8 /\ countl_zero 64 0x00F0000000000100 = Some 8 /\
  countl_one 64 (2 ^ 64 - 1) = Some 64 /\ countr_zero 64 0 = Some 64.
Proof. repeat split; try (vm_compute; congruence). Qed.

(* C02 *)
Theorem C02_has_single_bit : forall w x, inU w x ->
  (has_single_bit w x = true <-> power_of_two x).
Proof. exact has_single_bit_spec. Qed.
Theorem C02_bit_ceil : forall k x, inU (width k) x -> (1 <= k)%nat ->
  match bit_ceil (width k) x with
  | Some r => power_of_two r /\ x <= r < 2 ^ width k /\
              (forall q, power_of_two q -> x <= q -> r <= q)
  | None => 2 ^ (width k - 1) < x
  end.
Proof. exact bit_ceil_spec. Qed.
Theorem C02_bit_ceil_narrow : forall k x, inU (width k) x -> (1 <= k <= 5)%nat ->
  match bit_ceil_narrow (width k) x with
  | Some r => power_of_two r /\ x <= r < 2 ^ width k /\
              (forall q, power_of_two q -> x <= q -> r <= q)
  | None => 2 ^ (width k - 1) < x
  end.
Proof. exact bit_ceil_narrow_spec. Qed.
Example C02_case : bit_ceil 32 1000 = Some 1024 /\ bit_ceil 32 (2 ^ 31 + 1) = None /\
  bit_ceil_narrow 8 100 = Some 128 /\ has_single_bit 32 4096 = true.
Proof. repeat split. Qed.

(* C03 *)
Theorem C03_rotr : forall k t cnt, (k <= 31)%nat -> inU (width k) t -> inS 32 cnt ->
  exists r, rotr (width k) t cnt = Some r /\ rotated_left (width k) t (- cnt) r.
Proof. exact rotr_spec. Qed.
Theorem C03_rotl : forall k t cnt, (k <= 31)%nat -> inU (width k) t -> inS 32 cnt ->
  cnt <> - 2 ^ 31 ->
  exists r, rotl (width k) t cnt = Some r /\ rotated_left (width k) t cnt r.
Proof. exact rotl_spec. Qed.
Theorem C03_rotl_int_min_undefined : forall w t, rotl w t (- 2 ^ 31) = None.
Proof. exact rotl_min_undefined. Qed.
Theorem C03_inverse : forall k t cnt, (k <= 31)%nat -> inU (width k) t -> inS 32 cnt ->
  cnt <> - 2 ^ 31 ->
  (do r <- rotr (width k) t cnt; rotl (width k) r cnt) = Some t.
Proof. exact rotl_rotr_id. Qed.
Example C03_case : rotl 8 0x81 1 = Some 3 /\ rotr 8 0x81 (-9) = Some 3.
Proof. split; reflexivity. Qed.

(* C04 *)
Theorem C04_popcount_generic : forall w v, 0 <= w ->
  popcount_generic w v = bit_sum (Z.to_nat w) v.
Proof. exact popcount_generic_spec. Qed.
Theorem C04_popcount_uchar : forall v, inU 8 v -> popcount_uchar v = bit_sum 8 v.
Proof. exact popcount_uchar_spec. Qed.
Theorem C04_popcount_uint64 : forall v, inU 64 v -> popcount_uint64 v = bit_sum 64 v.
Proof. exact popcount_uint64_spec. Qed.
Theorem C04_popcount_ushort_refuted :
  exists v, inU 16 v /\ popcount_ushort v <> bit_sum 16 v.
Proof. exact popcount_ushort_refuted. Qed.
Theorem C04_popcount_uint32_refuted :
  exists v, inU 32 v /\ popcount_uint32 v <> bit_sum 32 v.
Proof. exact popcount_uint32_refuted. Qed.
Example C04_case : popcount_uint64 0xF0F0F0F0F0F0F0F1 = 33 /\ bit_sum 64 0xF0F0F0F0F0F0F0F1 = 33.
Proof. split; vm_compute; reflexivity. Qed.

(* C05 *)
Theorem C05_add_with_carry : forall w a b c, inU w a -> inU w b -> 0 <= c <= 1 -> 1 <= w ->
  let '(r, c') := add_with_carry w a b c in
  inU w r /\ 0 <= c' <= 1 /\ a + b + c = r + 2 ^ w * c'.
Proof. exact add_with_carry_spec. Qed.
Theorem C05_sub_with_borrow : forall w a b c, inU w a -> inU w b -> 0 <= c <= 1 -> 1 <= w ->
  let '(r, c') := sub_with_borrow w a b c in
  inU w r /\ 0 <= c' <= 1 /\ a - b - c = r - 2 ^ w * c'.
Proof. exact sub_with_borrow_spec. Qed.
Theorem C05_add_overflow_unsigned : forall w a b, inU w a -> inU w b ->
  let '(r, c) := add_overflow_u w a b in
  inU w r /\ a + b = r + 2 ^ w * b2z c /\ (c = true <-> ~ inU w (a + b)).
Proof. exact add_overflow_u_spec. Qed.
Theorem C05_sub_overflow_unsigned : forall w a b, inU w a -> inU w b ->
  let '(r, c) := sub_overflow_u w a b in
  inU w r /\ a - b = r - 2 ^ w * b2z c /\ (c = true <-> ~ inU w (a - b)).
Proof. exact sub_overflow_u_spec. Qed.
Theorem C05_add_overflow_signed : forall w a b old, 1 <= w -> inS w a -> inS w b ->
  let '(r, ovf) := add_overflow_s w a b old in
  (ovf = true <-> ~ inS w (a + b)) /\ (ovf = false -> r = a + b) /\ (ovf = true -> r = old).
Proof. exact add_overflow_s_spec. Qed.
Theorem C05_sub_overflow_signed : forall w a b old, 1 <= w -> inS w a -> inS w b ->
  let '(r, ovf) := sub_overflow_s w a b old in
  (ovf = true <-> ~ inS w (a - b)) /\ (ovf = false -> r = a - b) /\ (ovf = true -> r = old).
Proof. exact sub_overflow_s_spec. Qed.
Example C05_case : add_with_carry 8 255 255 1 = (255, 1) /\ sub_with_borrow 8 0 255 1 = (0, 1) /\
  snd (add_overflow_s 8 127 1 0) = true /\ add_overflow_s 8 (-100) 27 0 = (-73, false).
Proof. repeat split. Qed.

(* C06, native part *)
Theorem C06_mask_trailing_ones : forall w n, 0 <= n <= w -> 1 <= w ->
  mask_trailing_ones w n = Some (2 ^ n - 1).
Proof. exact mask_trailing_ones_spec. Qed.
Theorem C06_mask_leading_ones : forall w n, 0 <= n <= w -> 1 <= w ->
  mask_leading_ones w n = Some (2 ^ w - 2 ^ (w - n)).
Proof. exact mask_leading_ones_spec. Qed.
Theorem C06_mask_trailing_zeros : forall w n, 0 <= n <= w -> 1 <= w ->
  mask_trailing_zeros w n = Some (2 ^ w - 2 ^ n).
Proof. exact mask_trailing_zeros_spec. Qed.
Theorem C06_mask_leading_zeros : forall w n, 0 <= n <= w -> 1 <= w ->
  mask_leading_zeros w n = Some (2 ^ (w - n) - 1).
Proof. exact mask_leading_zeros_spec. Qed.
Example C06_case : mask_leading_ones 32 9 = Some 0xFF800000.
Proof. reflexivity. Qed.

Print Assumptions C01_countr_zero.
Print Assumptions C01_countl_zero.
Print Assumptions C01_countr_one.
Print Assumptions C01_countl_one.
Print Assumptions C01_bit_width.
Print Assumptions C02_has_single_bit.
Print Assumptions C02_bit_ceil.
Print Assumptions C02_bit_ceil_narrow.
Print Assumptions C03_rotr.
Print Assumptions C03_rotl.
Print Assumptions C03_rotl_int_min_undefined.
Print Assumptions C03_inverse.
Print Assumptions C04_popcount_generic.
Print Assumptions C04_popcount_uchar.
Print Assumptions C04_popcount_uint64.
Print Assumptions C04_popcount_ushort_refuted.
Print Assumptions C04_popcount_uint32_refuted.
Print Assumptions C05_add_with_carry.
Print Assumptions C05_sub_with_borrow.
Print Assumptions C05_add_overflow_unsigned.
Print Assumptions C05_sub_overflow_unsigned.
Print Assumptions C05_add_overflow_signed.
Print Assumptions C05_sub_overflow_signed.
Print Assumptions C06_mask_trailing_ones.
Print Assumptions C06_mask_leading_ones.
Print Assumptions C06_mask_trailing_zeros.
Print Assumptions C06_mask_leading_zeros.
