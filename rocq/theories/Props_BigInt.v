(** * Property theorems C06 to C16 for the multiword integers.
    [holds w n l v] (BigIntSpec.v): the object [l] of [n] words of [w] bits
    holds the unsigned integer [v]; [denotes sgn W v] is its signed or unsigned
    reading.  [native]/[int128] select the code compiled with or without a
    native 128-bit type. *)
From Coq Require Import ZArith Lia Bool List.
From Verif Require Import MachInt Bits BitsSpec PopcountProofs BigInt BigIntSpec BigIntProofs BigIntHolds.
Import ListNotations.
Open Scope Z_scope.

Ltac hcase := cbv zeta; repeat match goal with
  | |- _ /\ _ => split
  | |- holds _ _ _ _ => unfold holds
  | |- inS _ _ => unfold inS
  | |- Forall _ _ => constructor
  | |- _ => progress cbv beta
  end; vm_compute; congruence.

(* C06 *)
Theorem C06_multiword_masks : forall w n c, 1 <= w -> (1 <= n)%nat -> 0 <= c <= w * Z.of_nat n ->
  let W := w * Z.of_nat n in
  (exists l, bi_mask_trailing_ones w n c = Some l /\ holds w n l (2 ^ c - 1)) /\
  (exists l, bi_mask_leading_ones w n c = Some l /\ holds w n l (2 ^ W - 2 ^ (W - c))) /\
  (exists l, bi_mask_trailing_zeros w n c = Some l /\ holds w n l (2 ^ W - 2 ^ c)) /\
  (exists l, bi_mask_leading_zeros w n c = Some l /\ holds w n l (2 ^ (W - c) - 1)).
Proof. exact h_masks. Qed.
Example C06_multiword_case : bi_mask_trailing_ones 32 3 40 = Some [0xFFFFFFFF; 0xFF; 0].
Proof. reflexivity. Qed.

(* C07 *)
Theorem C07_add : forall w n a b x y, 1 <= w -> (1 <= n)%nat -> holds w n a x -> holds w n b y ->
  holds w n (bi_add w a b) ((x + y) mod 2 ^ (w * Z.of_nat n)).
Proof. intros. eapply h_add; eauto. Qed.
Theorem C07_sub : forall w n a b x y, 1 <= w -> (1 <= n)%nat -> holds w n a x -> holds w n b y ->
  holds w n (bi_sub w a b) ((x - y) mod 2 ^ (w * Z.of_nat n)).
Proof. intros. eapply h_sub; eauto. Qed.
(** The right operand may be shorter (the early exit). *)
Theorem C07_add_overflow : forall w n m a b x y, 1 <= w -> (1 <= n)%nat -> (m <= n)%nat -> holds w n a x -> holds w m b y ->
  let '(r, c) := bi_add_overflow w a b in
  exists z, holds w n r z /\ 0 <= c <= 1 /\ x + y = z + 2 ^ (w * Z.of_nat n) * c.
Proof. intros w n m a b x y Hw Hn Hm Ha Hb. exact (h_add_overflow w Hw n Hn a m b x y Ha Hb Hm). Qed.
Theorem C07_sub_overflow : forall w n m a b x y, 1 <= w -> (1 <= n)%nat -> (m <= n)%nat -> holds w n a x -> holds w m b y ->
  let '(r, c) := bi_sub_overflow w a b in
  exists z, holds w n r z /\ 0 <= c <= 1 /\ x - y = z - 2 ^ (w * Z.of_nat n) * c.
Proof. intros w n m a b x y Hw Hn Hm Ha Hb. exact (h_sub_overflow w Hw n Hn a m b x y Ha Hb Hm). Qed.
Theorem C07_unary : forall w n a x, 1 <= w -> (1 <= n)%nat -> holds w n a x ->
  holds w n (bi_not w a) (2 ^ (w * Z.of_nat n) - 1 - x) /\
  holds w n (negate w a) ((- x) mod 2 ^ (w * Z.of_nat n)) /\
  holds w n (increment w a) ((x + 1) mod 2 ^ (w * Z.of_nat n)) /\
  holds w n (decrement w a) ((x - 1) mod 2 ^ (w * Z.of_nat n)).
Proof.
  intros w n a x Hw Hn H. split; [eapply h_not; eauto|]. split; [eapply h_neg; eauto|].
  split; [eapply h_inc; eauto|eapply h_dec; eauto].
Qed.
Example C07_case :
  holds 64 2 [2 ^ 64 - 1; 5] (2 ^ 64 - 1 + 2 ^ 64 * 5) /\ holds 64 2 [1; 2 ^ 64 - 6] (1 + 2 ^ 64 * (2 ^ 64 - 6)) /\
  bi_add_overflow 64 [2 ^ 64 - 1; 5] [1; 2 ^ 64 - 6] = ([0; 0], 1) /\ negate 64 [0; 1] = [0; 2 ^ 64 - 1].
Proof. hcase. Qed.

(* C08 *)
Theorem C08_ful_mul : forall native w n m a b x y,
  1 <= w -> (native = false -> exists h, w = 2 * h) -> (1 <= n)%nat -> (1 <= m)%nat -> Z.of_nat n < 2 ^ w ->
  holds w n a x -> holds w m b y -> holds w (n + m) (ful_mul native w a b) (x * y).
Proof. intros. eapply h_ful_mul; eauto. split; auto. Qed.
Theorem C08_mul : forall native w n a b x y,
  1 <= w -> (native = false -> exists h, w = 2 * h) -> (1 <= n)%nat -> Z.of_nat n < 2 ^ w ->
  holds w n a x -> holds w n b y -> holds w n (bi_mul native w a b) ((x * y) mod 2 ^ (w * Z.of_nat n)).
Proof. intros. eapply h_mul; eauto. split; auto. Qed.
Theorem C08_mul_word : forall native w n a x y,
  1 <= w -> (native = false -> exists h, w = 2 * h) -> (1 <= n)%nat -> holds w n a x -> 0 <= y < 2 ^ w ->
  holds w n (fst (bi_mul_word native w a y)) ((x * y) mod 2 ^ (w * Z.of_nat n)).
Proof.
  intros native w n a x y Hw Hn1 Hn Ha Hy.
  pose proof (h_mul_word w n native a x y (conj Hw Hn1) Ha Hy) as H.
  destruct (bi_mul_word native w a y). apply H.
Qed.
(** The returned carry is the overflow word of the product in no case where
    that word is not zero. *)
Theorem C08_mul_word_carry_refuted : exists native w n a x y,
  holds w n a x /\ 0 <= y < 2 ^ w /\ snd (bi_mul_word native w a y) <> x * y / 2 ^ (w * Z.of_nat n).
Proof.
  exists true, 64, 2%nat, [0; 2 ^ 63], (2 ^ 127), 4. hcase.
Qed.
Theorem C08_mul_word_carry_always_zero : forall native w n a x y,
  1 <= w -> (native = false -> exists h, w = 2 * h) -> holds w n a x -> 0 <= y < 2 ^ w ->
  snd (bi_mul_word native w a y) = 0.
Proof.
  intros native w n a x y Hw Hn1 Ha Hy.
  pose proof (h_mul_word w n native a x y (conj Hw Hn1) Ha Hy) as H.
  destruct (bi_mul_word native w a y). apply H.
Qed.
(** On negative signed operands [ful_mul] is the product of the bit patterns. *)
Theorem C08_ful_mul_signed_refuted : exists native w n a b x y z,
  holds w n a x /\ holds w n b y /\ holds w (n + n) (ful_mul native w a b) z /\
  denotes true (w * Z.of_nat (n + n)) z <>
  denotes true (w * Z.of_nat n) x * denotes true (w * Z.of_nat n) y.
Proof.
  exists true, 64, 1%nat, [2 ^ 64 - 1], [2], (2 ^ 64 - 1), 2, (2 ^ 65 - 2). hcase.
Qed.
Example C08_case : ful_mul false 64 [2 ^ 64 - 1; 2 ^ 64 - 1] [2 ^ 64 - 1; 2 ^ 64 - 1] = [1; 0; 2 ^ 64 - 2; 2 ^ 64 - 1]
  /\ ful_mul true 64 [2 ^ 64 - 1; 2 ^ 64 - 1] [2 ^ 64 - 1; 2 ^ 64 - 1] = [1; 0; 2 ^ 64 - 2; 2 ^ 64 - 1]
  /\ exists h, 64 = 2 * h.
Proof. split; [|split]; [vm_compute; reflexivity..|exists 32; reflexivity]. Qed.

(* C09 *)
Theorem C09_quick_mul_hi : forall native w n a b x y,
  1 <= w -> (native = false -> exists h, w = 2 * h) -> (1 <= n)%nat -> Z.of_nat n < 2 ^ w ->
  holds w n a x -> holds w n b y ->
  exists z, holds w n (quick_mul_hi native w a b) z /\
    0 <= x * y / 2 ^ (w * Z.of_nat n) - z <= Z.of_nat n - 1.
Proof. intros. eapply h_quick_mul_hi; eauto. split; auto. Qed.
(** The error is attained: the approximation is not always exact. *)
Example C09_case : exists z, holds 64 2 (quick_mul_hi true 64 [2 ^ 64 - 1; 2 ^ 64 - 1] [2 ^ 64 - 1; 2 ^ 64 - 1]) z /\
  z <> (2 ^ 128 - 1) * (2 ^ 128 - 1) / 2 ^ 128.
Proof. exists (2 ^ 128 - 3). hcase. Qed.

(* C10 *)
(** Shifting a 128-bit total by 128 or more goes through the native [__int128]
    shift, which is undefined; that case is excluded. *)
Theorem C10_shl : forall int128 w n a x s, 1 <= w -> (1 <= n)%nat -> 0 <= s ->
  (int128 = true -> w * Z.of_nat n = 128 -> s < 128) -> holds w n a x ->
  holds w n (shift_left int128 w a s) ((x * 2 ^ s) mod 2 ^ (w * Z.of_nat n)).
Proof. intros. eapply h_shl; eauto. Qed.
Theorem C10_shr : forall int128 sgn w n a x s, 1 <= w -> (1 <= n)%nat -> 0 <= s ->
  (int128 = true -> w * Z.of_nat n = 128 -> s < 128) -> holds w n a x ->
  holds w n (shift_right int128 sgn w a s)
    ((denotes sgn (w * Z.of_nat n) x / 2 ^ s) mod 2 ^ (w * Z.of_nat n)).
Proof. intros. eapply h_shr; eauto. Qed.
(** Rotations; negative counts need the width to divide 2^32. *)
Theorem C10_rotl : forall int128 w n a x c, 1 <= w -> (1 <= n)%nat -> holds w n a x ->
  inS 32 c -> 0 <= c \/ 2 ^ 32 mod (w * Z.of_nat n) = 0 ->
  exists r, holds w n (bi_rotl int128 w a c) r /\ rotated_left (w * Z.of_nat n) x c r.
Proof. intros. eapply h_rotl; eauto. Qed.
Theorem C10_rotr : forall int128 w n a x c, 1 <= w -> (1 <= n)%nat -> holds w n a x ->
  inS 32 c -> 0 <= c \/ 2 ^ 32 mod (w * Z.of_nat n) = 0 ->
  exists r, holds w n (bi_rotr int128 w a c) r /\ rotated_left (w * Z.of_nat n) x (- c) r.
Proof. intros. eapply h_rotr; eauto. Qed.
Theorem C10_rotl_negative_refuted : exists int128 w n a x c r,
  holds w n a x /\ inS 32 c /\ holds w n (bi_rotl int128 w a c) r /\ ~ rotated_left (w * Z.of_nat n) x c r.
Proof.
  exists true, 32, 3%nat, [1; 0; 0], 1, (-1), (2 ^ 63). split; [hcase|]. split; [hcase|]. split; [hcase|].
  intros H. destruct H as [_ H]. specialize (H 63 ltac:(lia)). vm_compute in H. congruence.
Qed.
Example C10_case : shift_right true true 64 [0; 2 ^ 63 + 1] 65 = [2 ^ 62 + 2 ^ 63; 2 ^ 64 - 1] /\
  shift_left false 32 [0x80000001; 0; 7] 33 = [0; 2; 1].
Proof. split; vm_compute; reflexivity. Qed.

(* C11 *)
Theorem C11_div : forall int128 sgn k n a b x y, (1 <= n)%nat ->
  let w := 2 ^ Z.of_nat k in holds w n a x -> holds w n b y -> y <> 0 ->
  let u := denotes sgn (w * Z.of_nat n) x in let v := denotes sgn (w * Z.of_nat n) y in
  exists q r, bi_div int128 sgn w a b = Some (q, Some r) /\
    holds w n q (Z.quot u v mod 2 ^ (w * Z.of_nat n)) /\
    holds w n r (Z.rem u v mod 2 ^ (w * Z.of_nat n)).
Proof. intros. eapply h_div; eauto. Qed.
Theorem C11_div_by_zero : forall int128 sgn w a b, (forall d, In d b -> d = 0) ->
  bi_div int128 sgn w a b = Some (a, None) /\ bi_rem int128 sgn w a b = None.
Proof.
  intros int128 sgn w a b H. assert (E : bi_div int128 sgn w a b = Some (a, None)).
  { unfold bi_div. replace (is_zero b) with true; auto. symmetry. clear -H. induction b; auto.
    unfold is_zero in *. simpl. rewrite (H a) by (left; auto). simpl. apply IHb. intros. apply H. right. auto. }
  split; auto. unfold bi_rem. rewrite E. reflexivity.
Qed.
Example C11_case : bi_div true true 64 [2 ^ 64 - 7; 2 ^ 64 - 1] [2; 0] =
  Some ([2 ^ 64 - 3; 2 ^ 64 - 1], Some [2 ^ 64 - 1; 2 ^ 64 - 1]).
Proof. vm_compute; reflexivity. Qed.

(* C12 *)
Theorem C12_div_half : forall int128 h n a y x e, 1 <= h -> holds (2 * h) n a y -> 0 < x < 2 ^ h -> 0 <= e ->
  exists q r, div_uint_half_times_pow_2 int128 (2 * h) a x e = (q, Some r) /\
    holds (2 * h) n q (y / (x * 2 ^ e)) /\ holds (2 * h) n r (y mod (x * 2 ^ e)).
Proof. exact h_half_div. Qed.
Example C12_case : div_uint_half_times_pow_2 true 64 [5; 3 * 2 ^ 62] 10 3 =
  ((let v := (5 + 3 * 2 ^ 126) / 80 in [v mod 2 ^ 64; v / 2 ^ 64]), Some [(5 + 3 * 2 ^ 126) mod 80; 0]).
Proof. vm_compute; reflexivity. Qed.

(* C13 *)
Theorem C13_compare : forall sgn w n a b x y, 1 <= w -> (1 <= n)%nat -> holds w n a x -> holds w n b y ->
  let u := denotes sgn (w * Z.of_nat n) x in let v := denotes sgn (w * Z.of_nat n) y in
  cmp sgn w a b = Z.sgn (u - v) /\
  bi_eqb a b = (u =? v) /\ bi_lt sgn w a b = (u <? v) /\ bi_le sgn w a b = (u <=? v) /\
  bi_gt sgn w a b = (v <? u) /\ bi_ge sgn w a b = (v <=? u).
Proof. intros. eapply h_rel; eauto. Qed.
Example C13_case : cmp true 64 [5; 2 ^ 63] [4; 1] = -1 /\ cmp false 64 [5; 2 ^ 63] [4; 1] = 1.
Proof. split; reflexivity. Qed.

(* C14 *)
Theorem C14_of_integer : forall w n ts v, 1 <= w -> 1 <= ts -> - 2 ^ (ts - 1) <= v < 2 ^ ts ->
  holds w n (of_int w n ts v) (v mod 2 ^ (w * Z.of_nat n)).
Proof. intros. eapply h_of_int; eauto. Qed.
Theorem C14_to_integer : forall sgn w n ts a x, 1 <= w -> (1 <= n)%nat -> 1 <= ts ->
  ts <= w \/ ts mod w = 0 -> holds w n a x ->
  to_uint sgn w ts a = denotes sgn (w * Z.of_nat n) x mod 2 ^ ts.
Proof. intros. eapply h_to; eauto. Qed.
(** Same word size: sign extension happens when both types are signed. *)
Theorem C14_convert : forall sgn osgn w n m a x, 1 <= w -> (1 <= n)%nat -> holds w n a x ->
  holds w m (convert w m sgn osgn a) (denotes (sgn && osgn) (w * Z.of_nat n) x mod 2 ^ (w * Z.of_nat m)).
Proof. intros. eapply h_convert; eauto. Qed.
(** Other word sizes. *)
Theorem C14_convert_to_smaller_words : forall w ratio n m a x sgn osgn,
  let ow := w * Z.of_nat ratio in let v := denotes (sgn && osgn) (ow * Z.of_nat m) x in
  1 <= w -> (1 <= ratio)%nat -> (1 <= m)%nat -> holds ow m a x ->
  holds w n (convert_down w ratio n sgn osgn a) (v mod 2 ^ (w * Z.of_nat n)).
Proof. exact h_convert_down. Qed.
Theorem C14_convert_to_larger_words_partial : forall ow ratio n m a x sgn osgn,
  let w := ow * Z.of_nat ratio in let v := denotes (sgn && osgn) (ow * Z.of_nat m) x in
  1 <= ow -> (1 <= ratio)%nat -> (1 <= m)%nat -> holds ow m a x ->
  (0 <= v \/ Nat.modulo m ratio <> 0%nat \/ w * Z.of_nat n <= ow * Z.of_nat m) ->
  holds w n (convert_up ow ratio n sgn osgn a) (v mod 2 ^ (w * Z.of_nat n)).
Proof. exact h_convert_up. Qed.
(** A negative value whose word count is a multiple of the ratio is not sign
    extended. *)
Theorem C14_convert_to_larger_words_refuted : exists ow ratio n m a x y,
  let w := ow * Z.of_nat ratio in
  holds ow m a x /\ holds w n (convert_up ow ratio n true true a) y /\
  denotes true (w * Z.of_nat n) y <> denotes true (ow * Z.of_nat m) x /\
  ow * Z.of_nat m < w * Z.of_nat n.
Proof.
  exists 32, 2%nat, 2%nat, 2%nat, [2 ^ 32 - 1; 2 ^ 32 - 1], (2 ^ 64 - 1), (2 ^ 64 - 1). hcase.
Qed.
(** Unsigned from a narrower negative signed object zero-extends. *)
Theorem C14_unsigned_from_signed_refuted : exists w n m a x y,
  holds w n a x /\ holds w m (convert w m false true a) y /\
  y <> denotes true (w * Z.of_nat n) x mod 2 ^ (w * Z.of_nat m).
Proof.
  exists 64, 1%nat, 2%nat, [2 ^ 64 - 1], (2 ^ 64 - 1), (2 ^ 64 - 1). hcase.
Qed.
Example C14_case : of_int 64 2 32 (-5) = [2 ^ 64 - 5; 2 ^ 64 - 1] /\
  to_uint true 64 128 (of_int 64 1 32 (-5)) = 2 ^ 128 - 5 /\ convert_up 32 2 2 true true [2 ^ 32 - 5; 2 ^ 32 - 1; 2 ^ 32 - 1] = [2 ^ 64 - 5; 2 ^ 64 - 1].
Proof. repeat split; vm_compute; reflexivity. Qed.

(* C15 *)
Theorem C15_counts : forall k n a x, (1 <= n)%nat -> let w := 2 ^ Z.of_nat k in holds w n a x ->
  (exists c, bi_countr_zero w a = Some c /\ trailing_zeros (w * Z.of_nat n) x c) /\
  (exists c, bi_countl_zero w a = Some c /\ leading_zeros (w * Z.of_nat n) x c) /\
  (exists c, bi_countr_one w a = Some c /\ trailing_ones (w * Z.of_nat n) x c) /\
  (exists c, bi_countl_one w a = Some c /\ leading_ones (w * Z.of_nat n) x c) /\
  bi_bit_width false w a = Some (if x =? 0 then 0 else Z.log2 x + 1).
Proof. intros. eapply h_counts; eauto. Qed.
Theorem C15_get_set_bit : forall w n a x i, 1 <= w -> (1 <= n)%nat -> 0 <= i < w * Z.of_nat n -> holds w n a x ->
  get_bit w a i = Z.testbit x i /\ holds w n (set_bit w a i) (Z.lor x (2 ^ i)).
Proof. intros. split; [eapply h_getbit; eauto; lia|eapply h_setbit; eauto]. Qed.
(** Word size 64: the word popcount is the correct 64-bit one. *)
Theorem C15_popcount64 : forall n a x, (1 <= n)%nat -> holds 64 n a x ->
  bi_popcount popcount_uint64 a = bit_sum (Z.to_nat (64 * Z.of_nat n)) x /\
  (bi_has_single_bit popcount_uint64 a = true <-> power_of_two x) /\
  count_zeros popcount_uint64 64 a = 64 * Z.of_nat n - bit_sum (Z.to_nat (64 * Z.of_nat n)) x.
Proof.
  intros n a x Hn H. assert (Hw : 1 <= 64) by lia. split; [|split].
  - eapply h_popcount; eauto. exact popcount_uint64_spec.
  - eapply h_single; eauto. exact popcount_uint64_spec.
  - eapply h_count_zeros; eauto. exact popcount_uint64_spec.
Qed.
(** Word size 32 inherits the wrong 32-bit popcount. *)
Theorem C15_popcount32_refuted : exists n a x, holds 32 n a x /\
  bi_popcount popcount_uint32 a <> bit_sum (Z.to_nat (32 * Z.of_nat n)) x.
Proof.
  destruct popcount_uint32_refuted as (v & Hv & H). exists 1%nat, [v], v.
  split. { split; [constructor; [exact Hv|constructor]|]. split; auto. cbn [words_value]. ring. }
  change (bit_sum (Z.to_nat (32 * Z.of_nat 1)) v) with (bit_sum 32 v).
  unfold bi_popcount. cbn [map sumZ fold_right fold_left]. first [rewrite Z.add_0_r | rewrite Z.add_0_l].
  destruct (Z.eqb_spec v 0) as [->|_]; [exfalso; apply H; reflexivity|exact H].
Qed.
Theorem C15_first_bits : forall k n a x, (1 <= n)%nat -> let w := 2 ^ Z.of_nat k in holds w n a x ->
  (exists c, first_leading_zero w a = Some c /\ first_from_top false (w * Z.of_nat n) x c) /\
  (exists c, first_leading_one w a = Some c /\ first_from_top true (w * Z.of_nat n) x c) /\
  (exists c, first_trailing_zero w a = Some c /\ first_from_bottom false (w * Z.of_nat n) x c) /\
  (x <> 0 -> x <> 2 ^ (w * Z.of_nat n) - 1 ->
   exists c, first_trailing_one w a = Some c /\ first_from_bottom true (w * Z.of_nat n) x c).
Proof. intros. eapply h_first; eauto. Qed.
Theorem C15_first_trailing_one_refuted : exists k n a x c, let w := 2 ^ Z.of_nat k in holds w n a x /\
  first_trailing_one w a = Some c /\ ~ first_from_bottom true (w * Z.of_nat n) x c.
Proof.
  exists 6%nat, 2%nat, [0; 0], 0, 129. split; [hcase|]. split; [vm_compute; reflexivity|].
  intros [[H _]|[H _]]; vm_compute in H; intuition congruence.
Qed.
Theorem C15_first_trailing_one_max_refuted : exists k n a x c, let w := 2 ^ Z.of_nat k in holds w n a x /\
  first_trailing_one w a = Some c /\ ~ first_from_bottom true (w * Z.of_nat n) x c.
Proof.
  exists 6%nat, 2%nat, [2 ^ 64 - 1; 2 ^ 64 - 1], (2 ^ 128 - 1), 0. split; [hcase|]. split; [vm_compute; reflexivity|].
  intros [[_ H]|[H _]]; [specialize (H 0 ltac:(lia)); vm_compute in H; congruence|vm_compute in H; intuition congruence].
Qed.
(** On signed types bit_width is one too small. *)
Theorem C15_bit_width_signed_refuted : exists w n a x c, holds w n a x /\ 0 < denotes true (w * Z.of_nat n) x /\
  bi_bit_width true w a = Some c /\ c <> Z.log2 x + 1.
Proof. exists 64, 2%nat, [1; 0], 1, 0. split; [hcase|]. repeat split; vm_compute; congruence. Qed.
Example C15_case : bi_countl_zero 64 [5; 2 ^ 40] = Some 23 /\ bi_countr_one 32 [2 ^ 32 - 1; 7] = Some 35 /\
  first_trailing_one 64 [0; 8] = Some 68.
Proof. repeat split; vm_compute; reflexivity. Qed.

(* C16 *)
Theorem C16_pow_n : forall native w n a x e,
  1 <= w -> (native = false -> exists h, w = 2 * h) -> (1 <= n)%nat -> Z.of_nat n < 2 ^ w ->
  0 <= e < 2 ^ 64 -> holds w n a x ->
  exists r, pow_n native w a e = Some r /\ holds w n r ((x ^ e) mod 2 ^ (w * Z.of_nat n)).
Proof. intros. eapply h_pow; eauto. split; auto. Qed.
Example C16_case : pow_n true 64 [3; 0] 100 = Some [(3 ^ 100) mod 2 ^ 64; (3 ^ 100) / 2 ^ 64 mod 2 ^ 64] /\
  holds 64 2 [3; 0] 3.
Proof. split; [vm_compute; reflexivity|hcase]. Qed.

Print Assumptions C06_multiword_masks.
Print Assumptions C07_add.
Print Assumptions C07_sub.
Print Assumptions C07_add_overflow.
Print Assumptions C07_sub_overflow.
Print Assumptions C07_unary.
Print Assumptions C08_ful_mul.
Print Assumptions C08_mul.
Print Assumptions C08_mul_word.
Print Assumptions C08_mul_word_carry_refuted.
Print Assumptions C08_mul_word_carry_always_zero.
Print Assumptions C08_ful_mul_signed_refuted.
Print Assumptions C09_quick_mul_hi.
Print Assumptions C10_shl.
Print Assumptions C10_shr.
Print Assumptions C10_rotl.
Print Assumptions C10_rotr.
Print Assumptions C10_rotl_negative_refuted.
Print Assumptions C11_div.
Print Assumptions C11_div_by_zero.
Print Assumptions C12_div_half.
Print Assumptions C13_compare.
Print Assumptions C14_of_integer.
Print Assumptions C14_to_integer.
Print Assumptions C14_convert.
Print Assumptions C14_convert_to_smaller_words.
Print Assumptions C14_convert_to_larger_words_partial.
Print Assumptions C14_convert_to_larger_words_refuted.
Print Assumptions C14_unsigned_from_signed_refuted.
Print Assumptions C15_counts.
Print Assumptions C15_get_set_bit.
Print Assumptions C15_popcount64.
Print Assumptions C15_popcount32_refuted.
Print Assumptions C15_first_bits.
Print Assumptions C15_first_trailing_one_refuted.
Print Assumptions C15_first_trailing_one_max_refuted.
Print Assumptions C15_bit_width_signed_refuted.
Print Assumptions C16_pow_n.
