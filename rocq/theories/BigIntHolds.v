(** * The multiword lemmas restated on [holds] *)
From Coq Require Import ZArith Lia Bool List.
From Verif Require Import MachInt Bits BitsSpec BitsProofs BigInt BigIntSpec BigIntProofs BigIntMul BigIntShift
  BigIntDiv BigIntConv BigIntMore BigIntFree.
Import ListNotations.
Open Scope Z_scope.

Lemma words_value_bval : forall w l, words_value w l = bval w l.
Proof. reflexivity. Qed.
Lemma holds_iff : forall w n l v, holds w n l v <-> wf w l /\ length l = n /\ bval w l = v.
Proof. intros. unfold holds. reflexivity. Qed.
Lemma holds_bits : forall w n l v, holds w n l v -> bits w l = w * Z.of_nat n.
Proof. intros w n l v (_ & <- & _). reflexivity. Qed.
Lemma holds_nonnil : forall w n l v, holds w n l v -> (1 <= n)%nat -> l <> nil.
Proof. intros w n l v (_ & H & _) Hn ->. simpl in H. lia. Qed.
Lemma holds_range : forall w n l v, 0 <= w -> holds w n l v -> 0 <= v < 2 ^ (w * Z.of_nat n).
Proof.
  intros w n l v Hw H. rewrite <- (holds_bits w n l v H). destruct H as (H1 & H2 & <-).
  apply bval_range; auto.
Qed.
Lemma denotes_sval : forall sgn w l, 1 <= w -> wf w l -> l <> nil -> denotes sgn (bits w l) (bval w l) = sval sgn w l.
Proof.
  intros. unfold denotes, sval, ival, to_signed. destruct sgn; auto. simpl.
  destruct (Z.leb_spec (2 ^ (bits w l - 1)) (bval w l)), (Z.ltb_spec (bval w l) (2 ^ (bits w l - 1))); auto; lia.
Qed.

Ltac hh H := let W := fresh "W" in let L := fresh "L" in let V := fresh "V" in
  pose proof (holds_bits _ _ _ _ H); destruct H as (W & L & V); change (words_value ?w ?l) with (bval w l) in V.

Section S.
Context (w : Z) (Hw : 1 <= w) (n : nat) (Hn : (1 <= n)%nat).

Lemma h_add : forall a b x y, holds w n a x -> holds w n b y ->
  holds w n (bi_add w a b) ((x + y) mod 2 ^ (w * Z.of_nat n)).
Proof.
  intros a b x y (A1 & A2 & A3) (B1 & B2 & B3).
  destruct (bi_add_spec w a b Hw A1 B1 ltac:(lia)) as (R1 & R2 & R3).
  unfold bits in R3. rewrite A2 in R3. change (bval w a) with (words_value w a) in R3.
  change (bval w b) with (words_value w b) in R3. rewrite A3, B3 in R3. repeat split; auto; congruence.
Qed.

Lemma h_add_overflow : forall a m b x y, holds w n a x -> holds w m b y -> (m <= n)%nat ->
  let '(r, c) := bi_add_overflow w a b in
  exists z, holds w n r z /\ 0 <= c <= 1 /\ x + y = z + 2 ^ (w * Z.of_nat n) * c.
Proof.
  intros a m b x y (A1 & A2 & A3) (B1 & B2 & B3) Hm. unfold bi_add_overflow.
  pose proof (mw_add_spec w a b Hw A1 B1 ltac:(lia)) as H.
  destruct (mw_add w a b) as [r c]. destruct H as (R1 & R2 & R3 & R4).
  exists (bval w r). split; [repeat split; auto; congruence|]. split; auto.
  unfold bits in R4. rewrite A2 in R4. rewrite <- A3, <- B3. exact R4.
Qed.

Lemma h_sub_overflow : forall a m b x y, holds w n a x -> holds w m b y -> (m <= n)%nat ->
  let '(r, c) := bi_sub_overflow w a b in
  exists z, holds w n r z /\ 0 <= c <= 1 /\ x - y = z - 2 ^ (w * Z.of_nat n) * c.
Proof.
  intros a m b x y (A1 & A2 & A3) (B1 & B2 & B3) Hm. unfold bi_sub_overflow.
  pose proof (mw_sub_spec w a b Hw A1 B1 ltac:(lia)) as H.
  destruct (mw_sub w a b) as [r c]. destruct H as (R1 & R2 & R3 & R4).
  exists (bval w r). split; [repeat split; auto; congruence|]. split; auto.
  unfold bits in R4. rewrite A2 in R4. rewrite <- A3, <- B3. exact R4.
Qed.

Lemma h_sub : forall a b x y, holds w n a x -> holds w n b y ->
  holds w n (bi_sub w a b) ((x - y) mod 2 ^ (w * Z.of_nat n)).
Proof.
  intros a b x y (A1 & A2 & A3) (B1 & B2 & B3).
  destruct (bi_sub_spec w a b Hw A1 B1 ltac:(lia)) as (R1 & R2 & R3).
  unfold bits in R3. rewrite A2 in R3. change (bval w a) with (words_value w a) in R3.
  change (bval w b) with (words_value w b) in R3. rewrite A3, B3 in R3. repeat split; auto; congruence.
Qed.

Lemma h_unary : forall f g a x,
  (forall a, wf w a -> a <> nil -> wf w (f a) /\ length (f a) = length a /\ bval w (f a) = g (bval w a) (bits w a)) ->
  holds w n a x -> holds w n (f a) (g x (w * Z.of_nat n)).
Proof.
  intros f g a x Hf H. pose proof (holds_nonnil w n a x H Hn) as Hnn. destruct H as (A1 & A2 & A3).
  destruct (Hf a A1 Hnn) as (R1 & R2 & R3). unfold bits in R3. rewrite A2 in R3.
  change (bval w a) with (words_value w a) in R3. rewrite A3 in R3. repeat split; auto; congruence.
Qed.

Lemma h_not : forall a x, holds w n a x -> holds w n (bi_not w a) (2 ^ (w * Z.of_nat n) - 1 - x).
Proof.
  intros a x. apply (h_unary (bi_not w) (fun v B => 2 ^ B - 1 - v)).
  intros l Hl Hnl. apply bi_not_spec; auto; lia.
Qed.
Lemma h_neg : forall a x, holds w n a x -> holds w n (negate w a) ((- x) mod 2 ^ (w * Z.of_nat n)).
Proof.
  intros a x. apply (h_unary (negate w) (fun v B => (- v) mod 2 ^ B)).
  intros l Hl Hnl. apply negate_spec; auto; lia.
Qed.
Lemma h_inc : forall a x, holds w n a x -> holds w n (increment w a) ((x + 1) mod 2 ^ (w * Z.of_nat n)).
Proof.
  intros a x. apply (h_unary (increment w) (fun v B => (v + 1) mod 2 ^ B)).
  intros l Hl Hnl. apply increment_spec; auto; lia.
Qed.
Lemma h_dec : forall a x, holds w n a x -> holds w n (decrement w a) ((x - 1) mod 2 ^ (w * Z.of_nat n)).
Proof.
  intros a x. apply (h_unary (decrement w) (fun v B => (v - 1) mod 2 ^ B)).
  intros l Hl Hnl. apply decrement_spec; auto; lia.
Qed.
Lemma h_shl : forall int128 s a x, 0 <= s -> holds w n a x ->
  holds w n (shift_left int128 w a s) ((x * 2 ^ s) mod 2 ^ (w * Z.of_nat n)).
Proof.
  intros int128 s a x Hs. apply (h_unary (fun a => shift_left int128 w a s) (fun v B => (v * 2 ^ s) mod 2 ^ B)).
  intros l Hl Hnl. apply shift_left_spec; auto; lia.
Qed.
Lemma h_shr : forall int128 sgn s a x, 0 <= s -> holds w n a x ->
  holds w n (shift_right int128 sgn w a s) ((denotes sgn (w * Z.of_nat n) x / 2 ^ s) mod 2 ^ (w * Z.of_nat n)).
Proof.
  intros int128 sgn s a x Hs. apply (h_unary (fun a => shift_right int128 sgn w a s) (fun v B => (denotes sgn B v / 2 ^ s) mod 2 ^ B)).
  intros l Hl Hnl. rewrite denotes_sval by auto. apply shift_right_spec; auto; lia.
Qed.
Lemma h_setbit : forall i a x, 0 <= i < w * Z.of_nat n -> holds w n a x ->
  holds w n (set_bit w a i) (Z.lor x (2 ^ i)).
Proof.
  intros i a x Hi H. hh H. destruct (set_bit_spec w a i Hw W ltac:(lia)) as (R1 & R2 & R3).
  split; auto. split; [congruence|]. rewrite <- V. exact R3.
Qed.
Lemma h_getbit : forall i a x, 0 <= i -> holds w n a x -> get_bit w a i = Z.testbit x i.
Proof. intros i a x Hi (A1 & A2 & A3). rewrite get_bit_spec by auto. rewrite <- A3. reflexivity. Qed.

Lemma h_denotes : forall sgn a x, holds w n a x -> sval sgn w a = denotes sgn (w * Z.of_nat n) x.
Proof.
  intros sgn a x H. pose proof (holds_nonnil w n a x H Hn). hh H. rewrite <- V, <- H1.
  symmetry. apply denotes_sval; auto.
Qed.

Lemma h_rel : forall sgn a b x y, holds w n a x -> holds w n b y ->
  let u := denotes sgn (w * Z.of_nat n) x in let v := denotes sgn (w * Z.of_nat n) y in
  cmp sgn w a b = Z.sgn (u - v) /\
  bi_eqb a b = (u =? v) /\ bi_lt sgn w a b = (u <? v) /\ bi_le sgn w a b = (u <=? v) /\
  bi_gt sgn w a b = (v <? u) /\ bi_ge sgn w a b = (v <=? u).
Proof.
  intros sgn a b x y Ha Hb u v. unfold u, v. rewrite <- (h_denotes sgn a x Ha), <- (h_denotes sgn b y Hb).
  pose proof (holds_nonnil w n a x Ha Hn). destruct Ha as (A1 & A2 & A3), Hb as (B1 & B2 & B3).
  destruct (rel_specs sgn w a b Hw A1 B1 ltac:(congruence) H) as (R1 & R2 & R3 & R4 & R5).
  rewrite (cmp_spec sgn w a b) by (auto; congruence). repeat split; auto.
Qed.

Lemma h_mul_word : forall native a x y, mul2_width native w -> holds w n a x -> inU w y ->
  let '(r, c) := bi_mul_word native w a y in
  holds w n r ((x * y) mod 2 ^ (w * Z.of_nat n)) /\ c = 0.
Proof.
  intros native a x y Hm H Hy. hh H. pose proof (bi_mul_word_spec native w a y Hm W Hy) as R.
  destruct (bi_mul_word native w a y) as [r c]. destruct R as (R1 & R2 & R3 & R4).
  split; auto. split; auto. split; [congruence|]. rewrite <- V, <- H0. exact R3.
Qed.

Lemma h_ful_mul : forall native a m b x y, mul2_width native w -> (1 <= m)%nat -> Z.of_nat n < 2 ^ w ->
  holds w n a x -> holds w m b y -> holds w (n + m) (ful_mul native w a b) (x * y).
Proof.
  intros native a m b x y Hm Hm1 HN (A1 & A2 & A3) (B1 & B2 & B3).
  destruct (ful_mul_spec native w a b Hm A1 B1 ltac:(lia) ltac:(lia) ltac:(rewrite A2; auto)) as (R1 & R2 & R3).
  split; auto. split; [congruence|]. rewrite <- A3, <- B3. exact R3.
Qed.

Lemma h_mul : forall native a b x y, mul2_width native w -> Z.of_nat n < 2 ^ w ->
  holds w n a x -> holds w n b y -> holds w n (bi_mul native w a b) ((x * y) mod 2 ^ (w * Z.of_nat n)).
Proof.
  intros native a b x y Hm HN (A1 & A2 & A3) (B1 & B2 & B3).
  destruct (bi_mul_spec native w a b Hm A1 B1 ltac:(lia) ltac:(lia) ltac:(rewrite A2; auto)) as (R1 & R2 & R3).
  split; auto. split; [congruence|]. rewrite <- A3, <- B3. unfold bits in R3. rewrite A2 in R3. exact R3.
Qed.

Lemma h_quick_mul_hi : forall native a b x y, mul2_width native w -> Z.of_nat n < 2 ^ w ->
  holds w n a x -> holds w n b y ->
  exists z, holds w n (quick_mul_hi native w a b) z /\
    0 <= x * y / 2 ^ (w * Z.of_nat n) - z <= Z.of_nat n - 1.
Proof.
  intros native a b x y Hm HN (A1 & A2 & A3) (B1 & B2 & B3).
  destruct (quick_mul_hi_spec native w a b Hm A1 B1 ltac:(congruence) ltac:(lia) ltac:(rewrite A2; auto)) as (R1 & R2 & R3).
  exists (bval w (quick_mul_hi native w a b)). split; [repeat split; auto; congruence|].
  unfold bits in R3. rewrite A2 in R3. rewrite <- A3, <- B3. exact R3.
Qed.

Lemma h_of_int : forall ts v, 1 <= ts -> - 2 ^ (ts - 1) <= v < 2 ^ ts ->
  holds w n (of_int w n ts v) (v mod 2 ^ (w * Z.of_nat n)).
Proof. intros ts v Ht Hv. exact (of_int_spec w n ts v Hw Hv Ht). Qed.

Lemma h_to : forall sgn ts a x, 1 <= ts -> (ts <= w \/ ts mod w = 0) -> holds w n a x ->
  to_uint sgn w ts a = denotes sgn (w * Z.of_nat n) x mod 2 ^ ts.
Proof.
  intros sgn ts a x Ht Hd H. rewrite <- (h_denotes sgn a x H).
  pose proof (holds_nonnil w n a x H Hn). destruct H as (A1 & A2 & A3). apply to_uint_spec; auto.
Qed.

Lemma h_convert : forall sgn osgn m a x, holds w n a x ->
  holds w m (convert w m sgn osgn a) (denotes (sgn && osgn) (w * Z.of_nat n) x mod 2 ^ (w * Z.of_nat m)).
Proof.
  intros sgn osgn m a x H. rewrite <- (h_denotes (sgn && osgn) a x H).
  pose proof (holds_nonnil w n a x H Hn). destruct H as (A1 & A2 & A3). apply convert_spec; auto.
Qed.

Lemma h_pow : forall native a x e, mul2_width native w -> Z.of_nat n < 2 ^ w -> inU 64 e ->
  holds w n a x -> exists r, pow_n native w a e = Some r /\ holds w n r ((x ^ e) mod 2 ^ (w * Z.of_nat n)).
Proof.
  intros native a x e Hm HN He H. hh H.
  destruct (pow_n_spec native w a e Hm W ltac:(lia) ltac:(rewrite L; auto) He) as (r & E & R1 & R2 & R3).
  exists r. split; auto. split; auto. split; [congruence|]. rewrite <- V, <- H0. exact R3.
Qed.

Lemma h_rotl : forall int128 a x c, holds w n a x -> inS 32 c -> 0 <= c \/ 2 ^ 32 mod (w * Z.of_nat n) = 0 ->
  exists r, holds w n (bi_rotl int128 w a c) r /\ rotated_left (w * Z.of_nat n) x c r.
Proof.
  intros int128 a x c H Hc Hd. pose proof (holds_nonnil w n a x H Hn) as Hnn. hh H.
  destruct (bi_rotl_gen int128 w a c Hw W Hnn) as (R1 & R2 & R3).
  exists (bval w (bi_rotl int128 w a c)). split; [repeat split; auto; congruence|].
  rewrite H0, V in R3. assert (1 <= w * Z.of_nat n) by nia.
  apply rotated_left_mod with (wrap 32 c); auto. apply wrap32_mod; auto. destruct Hd; auto.
Qed.
Lemma h_rotr : forall int128 a x c, holds w n a x -> inS 32 c -> 0 <= c \/ 2 ^ 32 mod (w * Z.of_nat n) = 0 ->
  exists r, holds w n (bi_rotr int128 w a c) r /\ rotated_left (w * Z.of_nat n) x (- c) r.
Proof.
  intros int128 a x c H Hc Hd. pose proof (holds_nonnil w n a x H Hn) as Hnn. hh H.
  destruct (bi_rotr_gen int128 w a c Hw W Hnn) as (R1 & R2 & R3).
  exists (bval w (bi_rotr int128 w a c)). split; [repeat split; auto; congruence|].
  rewrite H0, V in R3. assert (1 <= w * Z.of_nat n) by nia.
  apply rotated_left_mod with (- wrap 32 c); auto.
  rewrite <- (Z.sub_0_l (wrap 32 c)), <- (Z.sub_0_l c).
  rewrite <- (Zminus_mod_idemp_r 0 (wrap 32 c)), <- (Zminus_mod_idemp_r 0 c).
  rewrite wrap32_mod; auto. destruct Hd; auto.
Qed.

Lemma h_popcount : forall f a x, holds w n a x -> (forall v, inU w v -> f v = bit_sum (Z.to_nat w) v) ->
  bi_popcount f a = bit_sum (Z.to_nat (w * Z.of_nat n)) x.
Proof. intros f a x H Hf. hh H. rewrite <- V, <- H0. apply bi_popcount_spec; auto. Qed.
Lemma h_single : forall f a x, holds w n a x -> (forall v, inU w v -> f v = bit_sum (Z.to_nat w) v) ->
  (bi_has_single_bit f a = true <-> power_of_two x).
Proof. intros f a x H Hf. hh H. rewrite <- V. apply bi_has_single_bit_spec; auto. Qed.
Lemma h_count_zeros : forall f a x, holds w n a x -> (forall v, inU w v -> f v = bit_sum (Z.to_nat w) v) ->
  count_zeros f w a = w * Z.of_nat n - bit_sum (Z.to_nat (w * Z.of_nat n)) x.
Proof.
  intros f a x H Hf. unfold count_zeros. rewrite (h_popcount f _ _ (h_not a x H) Hf).
  set (W := w * Z.of_nat n). pose proof (holds_range w n a x ltac:(lia) H) as Hr. fold W in Hr.
  assert (HW : 0 <= W) by (unfold W; nia).
  assert (E : forall k, Z.of_nat k <= W -> bit_sum k (2 ^ W - 1 - x) = Z.of_nat k - bit_sum k x).
  { induction k; intros Hk; [reflexivity|]. cbn [bit_sum]. rewrite IHk by lia.
    change (2 ^ W - 1 - x) with (unot W x). rewrite testbit_unot by (auto; lia).
    replace (Z.of_nat k <? W) with true by lia. destruct (Z.testbit x (Z.of_nat k)); cbn [andb negb Z.b2z]; lia. }
  rewrite E by lia. rewrite Z2Nat.id by lia. reflexivity.
Qed.
End S.

Section P.
Context (k n : nat) (Hn : (1 <= n)%nat).
Notation w := (2 ^ Z.of_nat k).

Lemma h_div : forall int128 sgn a b x y, holds w n a x -> holds w n b y -> y <> 0 ->
  let u := denotes sgn (w * Z.of_nat n) x in let v := denotes sgn (w * Z.of_nat n) y in
  exists q r, bi_div int128 sgn w a b = Some (q, Some r) /\
    holds w n q (Z.quot u v mod 2 ^ (w * Z.of_nat n)) /\ holds w n r (Z.rem u v mod 2 ^ (w * Z.of_nat n)).
Proof.
  intros int128 sgn a b x y Ha Hb Hy u v. pose proof (pw_ge1 k) as Hw.
  unfold u, v. rewrite <- (h_denotes w Hw n Hn sgn a x Ha), <- (h_denotes w Hw n Hn sgn b y Hb).
  pose proof (holds_nonnil w n a x Ha Hn) as Hnn. destruct Ha as (A1 & A2 & A3), Hb as (B1 & B2 & B3).
  destruct (bi_div_spec int128 sgn k a b A1 B1 ltac:(congruence) Hnn ltac:(rewrite <- B3 in Hy; exact Hy))
    as (q & r & E & R1 & R2 & R3 & R4 & R5 & R6).
  unfold bits in R5, R6. rewrite A2 in R5, R6.
  exists q, r. split; auto. split; repeat split; auto; congruence.
Qed.

Lemma h_counts : forall a x, holds w n a x ->
  (exists c, bi_countr_zero w a = Some c /\ trailing_zeros (w * Z.of_nat n) x c) /\
  (exists c, bi_countl_zero w a = Some c /\ leading_zeros (w * Z.of_nat n) x c) /\
  (exists c, bi_countr_one w a = Some c /\ trailing_ones (w * Z.of_nat n) x c) /\
  (exists c, bi_countl_one w a = Some c /\ leading_ones (w * Z.of_nat n) x c) /\
  bi_bit_width false w a = Some (if x =? 0 then 0 else Z.log2 x + 1).
Proof.
  intros a x H. hh H. rewrite <- V, <- H0.
  split; [apply bi_countr_zero_spec; auto|]. split; [apply bi_countl_zero_spec; auto|].
  split; [apply bi_countr_one_spec; auto|]. split; [apply bi_countl_one_spec; auto|].
  apply bi_bit_width_spec; auto.
Qed.

Lemma h_first : forall a x, holds w n a x ->
  (exists c, first_leading_zero w a = Some c /\ first_from_top false (w * Z.of_nat n) x c) /\
  (exists c, first_leading_one w a = Some c /\ first_from_top true (w * Z.of_nat n) x c) /\
  (exists c, first_trailing_zero w a = Some c /\ first_from_bottom false (w * Z.of_nat n) x c) /\
  (x <> 0 -> x <> 2 ^ (w * Z.of_nat n) - 1 ->
   exists c, first_trailing_one w a = Some c /\ first_from_bottom true (w * Z.of_nat n) x c).
Proof.
  intros a x H. pose proof (holds_nonnil w n a x H Hn) as Hnn. hh H. rewrite <- V, <- H0.
  split; [apply first_leading_zero_spec; auto|]. split; [apply first_leading_one_spec; auto|].
  split; [apply first_trailing_zero_spec; auto|]. intros. apply first_trailing_one_spec; auto.
Qed.
End P.

Lemma h_half_div : forall int128 h n a y x e, 1 <= h -> holds (2 * h) n a y -> 0 < x < 2 ^ h -> 0 <= e ->
  exists q r, div_uint_half_times_pow_2 int128 (2 * h) a x e = (q, Some r) /\
    holds (2 * h) n q (y / (x * 2 ^ e)) /\ holds (2 * h) n r (y mod (x * 2 ^ e)).
Proof.
  intros int128 h n a y x e Hh (A1 & A2 & A3) Hx He.
  destruct (div_half_spec int128 h a x e Hh A1 Hx He) as (q & r & E & R1 & R2 & R3 & R4 & R5 & R6).
  exists q, r. split; auto. rewrite <- A3.
  split; repeat split; auto; congruence.
Qed.

Lemma h_masks : forall w n c, 1 <= w -> (1 <= n)%nat -> 0 <= c <= w * Z.of_nat n ->
  let W := w * Z.of_nat n in
  (exists l, bi_mask_trailing_ones w n c = Some l /\ holds w n l (2 ^ c - 1)) /\
  (exists l, bi_mask_leading_ones w n c = Some l /\ holds w n l (2 ^ W - 2 ^ (W - c))) /\
  (exists l, bi_mask_trailing_zeros w n c = Some l /\ holds w n l (2 ^ W - 2 ^ c)) /\
  (exists l, bi_mask_leading_zeros w n c = Some l /\ holds w n l (2 ^ (W - c) - 1)).
Proof.
  intros w n c Hw Hn Hc W.
  split; [apply bi_mask_trailing_ones_spec; auto|]. split; [apply bi_mask_leading_ones_spec; auto|].
  split.
  - unfold bi_mask_trailing_zeros.
    destruct (bi_mask_leading_ones_spec w n (w * Z.of_nat n - c) Hw ltac:(lia) Hn) as (l & E & R1 & R2 & R3).
    exists l. split; auto. split; auto. split; auto. unfold W.
    replace (w * Z.of_nat n - (w * Z.of_nat n - c)) with c in R3 by lia. exact R3.
  - unfold bi_mask_leading_zeros. apply bi_mask_trailing_ones_spec; auto. lia.
Qed.

Lemma h_convert_up : forall ow ratio n m a x sgn osgn,
  let w := ow * Z.of_nat ratio in let v := denotes (sgn && osgn) (ow * Z.of_nat m) x in
  1 <= ow -> (1 <= ratio)%nat -> (1 <= m)%nat -> holds ow m a x ->
  (0 <= v \/ Nat.modulo m ratio <> 0%nat \/ w * Z.of_nat n <= ow * Z.of_nat m) ->
  holds w n (convert_up ow ratio n sgn osgn a) (v mod 2 ^ (w * Z.of_nat n)).
Proof.
  intros ow ratio n m a x sgn osgn w v How Hr Hm H Hc.
  pose proof (h_denotes ow How m Hm (sgn && osgn) a x H) as Ed. fold v in Ed. rewrite <- Ed in *.
  pose proof (holds_nonnil ow m a x H Hm) as Hnn. hh H.
  apply convert_up_spec; auto. rewrite L, H0. fold w. destruct Hc as [Hc|[Hc|Hc]]; auto.
  right. right. rewrite is_neg_spec by auto. apply Z.ltb_ge. auto.
Qed.

Lemma h_convert_down : forall w ratio n m a x sgn osgn,
  let ow := w * Z.of_nat ratio in let v := denotes (sgn && osgn) (ow * Z.of_nat m) x in
  1 <= w -> (1 <= ratio)%nat -> (1 <= m)%nat -> holds ow m a x ->
  holds w n (convert_down w ratio n sgn osgn a) (v mod 2 ^ (w * Z.of_nat n)).
Proof.
  intros w ratio n m a x sgn osgn ow v Hw Hr Hm H.
  assert (How : 1 <= ow) by (unfold ow; nia).
  pose proof (h_denotes ow How m Hm (sgn && osgn) a x H) as Ed. fold v in Ed. rewrite <- Ed.
  pose proof (holds_nonnil ow m a x H Hm) as Hnn. destruct H as (A1 & A2 & A3).
  apply convert_down_spec; auto.
Qed.
