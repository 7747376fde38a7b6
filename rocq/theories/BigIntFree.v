(** * Powers, masks, population count, rotations and first-bit queries *)
From Coq Require Import ZArith Zpow_facts Lia Bool List.
From Verif Require Import MachInt Bits BitsSpec BitsProofs BigInt BigIntSpec BigIntProofs BigIntMul BigIntShift BigIntDiv BigIntConv.
Import ListNotations.
Open Scope Z_scope.

(** ** pow_n *)
Lemma pow_n_loop_spec : forall fuel native w result cur expo,
  mul2_width native w -> wf w result -> wf w cur -> length cur = length result ->
  (1 <= length result)%nat -> Z.of_nat (length result) < 2 ^ w -> 0 <= expo < 2 ^ Z.of_nat fuel ->
  exists r, pow_n_loop fuel native w result cur expo = Some r /\ wf w r /\ length r = length result /\
    bval w r = (bval w result * bval w cur ^ expo) mod 2 ^ bits w result.
Proof.
  induction fuel; intros native w result cur expo Hm Hr Hc Hl Hn Hb He.
  - change (2 ^ Z.of_nat 0) with 1 in He. assert (expo = 0) by lia. subst. simpl.
    exists result. split; auto. split; auto. split; auto. rewrite Z.mul_1_r. symmetry. apply Z.mod_small.
    apply bval_range; auto. destruct Hm; lia.
  - cbn [pow_n_loop]. assert (Hw : 1 <= w) by apply Hm.
    assert (HP : 0 < 2 ^ bits w result) by (apply pow2_pos, bits_nonneg; lia).
    destruct (Z.ltb_spec 0 expo) as [Hpos|Hz]; simpl negb; cbv iota.
    + rewrite Z.shiftr_div_pow2 by lia. change (2 ^ 1) with 2.
      destruct (bi_mul_spec native w result cur Hm Hr Hc Hn ltac:(lia) Hb) as (M1 & M2 & M3).
      destruct (bi_mul_spec native w cur cur Hm Hc Hc ltac:(lia) ltac:(lia) ltac:(rewrite Hl; auto)) as (C1 & C2 & C3).
      rewrite (bits_eq w cur result Hl) in C3.
      pose proof (Z.div_mod expo 2 ltac:(lia)) as Hdm. pose proof (Z.mod_pos_bound expo 2 ltac:(lia)) as Hmb.
      assert (Hd : 0 <= expo / 2 < 2 ^ Z.of_nat fuel).
      { split; [apply Z.div_pos; lia|]. apply Z.div_lt_upper_bound; [lia|].
        rewrite Nat2Z.inj_succ, Z.pow_succ_r in He by lia. lia. }
      set (res' := if 0 <? expo mod 2 then _ else _).
      assert (R1 : wf w res') by (unfold res'; destruct (_ <? _); auto).
      assert (R2 : length res' = length result) by (unfold res'; destruct (_ <? _); auto).
      destruct (IHfuel native w res' (bi_mul native w cur cur) (expo / 2) Hm R1 C1 ltac:(congruence)
        ltac:(lia) ltac:(rewrite R2; auto) Hd) as (r & E & W1 & W2 & W3).
      exists r. split; auto. split; auto. split; [congruence|].
      rewrite W3, (bits_eq w _ result R2), C3. unfold res'.
      set (P := 2 ^ bits w result) in *. set (x := bval w cur) in *.
      assert (Ep : x ^ expo = x ^ (expo mod 2) * (x * x) ^ (expo / 2)).
      { rewrite <- Z.pow_2_r, <- Z.pow_mul_r, <- Z.pow_add_r by lia. f_equal. lia. }
      assert (Em : forall y, (y * ((x * x) mod P) ^ (expo / 2)) mod P = (y * (x * x) ^ (expo / 2)) mod P).
      { intros y. rewrite <- (Z.mul_mod_idemp_r y (((x * x) mod P) ^ (expo / 2))) by lia.
        rewrite <- Zpower_mod by lia. rewrite Z.mul_mod_idemp_r by lia. reflexivity. }
      rewrite Em, Ep. destruct (Z.ltb_spec 0 (expo mod 2)) as [Ho|Hev].
      * assert (expo mod 2 = 1) as -> by lia. rewrite M3, Z.mul_mod_idemp_l by lia. f_equal. ring.
      * assert (expo mod 2 = 0) as -> by lia. f_equal. ring.
    + assert (expo = 0) by lia. subst. exists result. split; auto. split; auto. split; auto.
      simpl. rewrite Z.mul_1_r. symmetry. apply Z.mod_small. apply bval_range; auto. lia.
Qed.

Lemma pow_n_spec : forall native w a expo, mul2_width native w -> wf w a -> (1 <= length a)%nat ->
  Z.of_nat (length a) < 2 ^ w -> inU 64 expo ->
  exists r, pow_n native w a expo = Some r /\ wf w r /\ length r = length a /\
    bval w r = (bval w a ^ expo) mod 2 ^ bits w a.
Proof.
  intros native w a expo Hm Ha Hn Hb He. assert (Hw : 1 <= w) by apply Hm.
  destruct (bi_one_spec w (length a) Hw Hn) as (O1 & O2 & O3). unfold bi_one in *. unfold pow_n.
  destruct (pow_n_loop_spec 64 native w (of_int w (length a) 32 1) a expo Hm O1 Ha ltac:(auto) ltac:(lia)
    ltac:(rewrite O2; auto) He) as (r & E & W1 & W2 & W3).
  exists r. split; auto. split; auto. split; [congruence|].
  rewrite W3, O3, (bits_eq w _ a O2). f_equal. ring.
Qed.

(** ** Masks *)
Lemma bits_repeat : forall w x n, bits w (repeat x n) = w * Z.of_nat n.
Proof. intros. unfold bits. rewrite repeat_length. reflexivity. Qed.

Lemma bi_mask_trailing_ones_spec : forall w n c, 1 <= w -> 0 <= c <= w * Z.of_nat n ->
  exists l, bi_mask_trailing_ones w n c = Some l /\ wf w l /\ length l = n /\ bval w l = 2 ^ c - 1.
Proof.
  intros w n c Hw Hc. unfold bi_mask_trailing_ones. pose proof (pow2_pos w ltac:(lia)).
  destruct (Z.eqb_spec c (w * Z.of_nat n)) as [->|Hne].
  - exists (repeat (2 ^ w - 1) n). split; auto. split; [apply wf_repeat; unfold inU; lia|].
    split; [apply repeat_length|]. apply bval_repeat_max. lia.
  - pose proof (Z.div_mod c w ltac:(lia)) as Hdm. pose proof (Z.mod_pos_bound c w ltac:(lia)) as Hmb.
    pose proof (Z.div_pos c w ltac:(lia) ltac:(lia)) as Hdp.
    rewrite mask_trailing_ones_spec by lia. cbn [bindo].
    assert (Hq : (Z.to_nat (c / w) < n)%nat) by (assert (c / w < Z.of_nat n) by nia; lia).
    assert (Hp2 : 0 < 2 ^ (c mod w) <= 2 ^ w) by (split; [apply pow2_pos; lia|apply pow2_le; lia]).
    eexists. split; [reflexivity|]. split.
    { apply wf_app. split; [apply wf_repeat; unfold inU; lia|]. constructor; [unfold inU; lia|apply wf_zero_words; lia]. }
    split. { rewrite app_length. cbn [length]. rewrite len_zero_words, repeat_length. lia. }
    rewrite bval_app by lia. cbn [bval]. rewrite bval_zero_words, bval_repeat_max, bits_repeat by lia.
    rewrite Z2Nat.id by lia. replace (2 ^ c) with (2 ^ (w * (c / w)) * 2 ^ (c mod w)); [ring|].
    rewrite <- Z.pow_add_r by nia. f_equal. lia.
Qed.

Lemma bi_mask_leading_ones_spec : forall w n c, 1 <= w -> 0 <= c <= w * Z.of_nat n -> (1 <= n)%nat ->
  exists l, bi_mask_leading_ones w n c = Some l /\ wf w l /\ length l = n /\
    bval w l = 2 ^ (w * Z.of_nat n) - 2 ^ (w * Z.of_nat n - c).
Proof.
  intros w n c Hw Hc Hn. unfold bi_mask_leading_ones. pose proof (pow2_pos w ltac:(lia)).
  destruct (Z.eqb_spec c (w * Z.of_nat n)) as [->|Hne].
  - exists (repeat (2 ^ w - 1) n). split; auto. split; [apply wf_repeat; unfold inU; lia|].
    split; [apply repeat_length|]. rewrite Z.sub_diag. change (2 ^ 0) with 1. apply bval_repeat_max. lia.
  - set (B := w * Z.of_nat n) in *. set (t := B - c - 1).
    pose proof (Z.div_mod t w ltac:(lia)) as Hdm. pose proof (Z.mod_pos_bound t w ltac:(lia)) as Hmb.
    pose proof (Z.div_pos t w ltac:(lia) ltac:(lia)) as Hdp.
    (* bits of the boundary word *)
    assert (Hcm : c mod w = w - 1 - t mod w).
    { symmetry. apply Z.mod_unique with (Z.of_nat n - 1 - t / w); [left; lia|].
      assert (Ec : c = w * Z.of_nat n - 1 - t) by (unfold t, B; lia). rewrite Ec at 1. rewrite Hdm at 1. ring. }
    pose proof (Z.mod_pos_bound c w ltac:(lia)) as Hcb.
    rewrite mask_leading_ones_spec by lia. cbn [bindo].
    assert (Hq : (Z.to_nat (t / w) < n)%nat) by (assert (t / w < Z.of_nat n) by (unfold t, B in *; nia); lia).
    assert (Hp2 : 0 < 2 ^ (w - c mod w) <= 2 ^ w) by (split; [apply pow2_pos; lia|apply pow2_le; lia]).
    eexists. split; [reflexivity|]. split.
    { apply wf_app. split; [apply wf_zero_words; lia|]. constructor; [unfold inU; lia|apply wf_repeat; unfold inU; lia]. }
    split. { rewrite app_length. cbn [length]. rewrite len_zero_words, repeat_length. lia. }
    rewrite bval_app by lia. cbn [bval]. rewrite bval_zero_words, bval_repeat_max by lia.
    unfold zero_words. rewrite bits_repeat. rewrite Z2Nat.id by lia.
    set (q := t / w) in *.
    replace (B - c) with (w * q + (w - c mod w)) by (unfold t in *; lia).
    assert (EB : 2 ^ B = 2 ^ (w * q) * 2 ^ w * 2 ^ (w * Z.of_nat (n - Z.to_nat q - 1))).
    { rewrite <- !Z.pow_add_r by (try apply wn_nonneg; nia). f_equal. unfold B.
      replace (Z.of_nat (n - Z.to_nat q - 1)) with (Z.of_nat n - q - 1) by lia. ring. }
    rewrite EB, Z.pow_add_r by nia. ring.
Qed.

(** ** Population count *)
Lemma bit_sum_0 : forall k, bit_sum k 0 = 0.
Proof. induction k; simpl; auto. rewrite IHk, Z.testbit_0_l. auto. Qed.

Lemma bit_sum_words : forall w d l, 1 <= w -> inU w d -> 0 <= bval w l ->
  bit_sum (Z.to_nat (bits w (d :: l))) (d + 2 ^ w * bval w l)
  = bit_sum (Z.to_nat w) d + bit_sum (Z.to_nat (bits w l)) (bval w l).
Proof.
  intros w d l Hw Hd Hl. rewrite bits_cons. pose proof (bits_nonneg w l ltac:(lia)).
  rewrite Z2Nat.inj_add by lia. rewrite bit_sum_split. rewrite Z2Nat.id by lia.
  unfold inU in Hd.
  rewrite <- (bit_sum_mod (Z.to_nat w) (d + 2 ^ w * bval w l) w) by lia.
  rewrite (Z.mul_comm (2 ^ w)), Z.mod_add, Z.mod_small by lia.
  rewrite Z.shiftr_div_pow2, Z.div_add, Z.div_small by lia. f_equal.
Qed.

Lemma bi_popcount_acc : forall f w l acc, 1 <= w -> wf w l ->
  (forall v, inU w v -> f v = bit_sum (Z.to_nat w) v) ->
  fold_left (fun bits v => if v =? 0 then bits else bits + f v) l acc
  = acc + bit_sum (Z.to_nat (bits w l)) (bval w l).
Proof.
  intros f w l. induction l as [|d l IH]; intros acc Hw Hl Hf.
  - simpl. unfold bits. simpl. rewrite Z.mul_0_r. simpl. lia.
  - apply wf_cons in Hl. destruct Hl as [Hd Hl]. cbn [fold_left bval].
    rewrite IH by auto. rewrite bit_sum_words by (auto; apply bval_range; auto; lia).
    destruct (Z.eqb_spec d 0) as [->|]; [rewrite bit_sum_0; lia|]. rewrite Hf by auto. lia.
Qed.

Lemma bi_popcount_spec : forall f w l, 1 <= w -> wf w l ->
  (forall v, inU w v -> f v = bit_sum (Z.to_nat w) v) ->
  bi_popcount f l = bit_sum (Z.to_nat (bits w l)) (bval w l).
Proof. intros. unfold bi_popcount. rewrite (bi_popcount_acc f w) by auto. lia. Qed.

Lemma bit_sum_nonneg : forall k v, 0 <= bit_sum k v.
Proof. intros. apply bit_sum_bounds. Qed.

Lemma single_loop : forall f w l acc, 1 <= w -> wf w l -> 0 <= acc ->
  (forall v, inU w v -> f v = bit_sum (Z.to_nat w) v) -> acc <= 1 ->
  bi_has_single_bit_loop f l acc = (acc + bit_sum (Z.to_nat (bits w l)) (bval w l) =? 1).
Proof.
  intros f w l. induction l as [|d l IH]; intros acc Hw Hl Ha Hf Hle.
  - simpl. unfold bits. simpl. rewrite Z.mul_0_r. simpl. rewrite Z.add_0_r. auto.
  - apply wf_cons in Hl. destruct Hl as [Hd Hl]. cbn [bi_has_single_bit_loop bval].
    rewrite bit_sum_words by (auto; apply bval_range; auto; lia).
    pose proof (bit_sum_nonneg (Z.to_nat w) d). pose proof (bit_sum_nonneg (Z.to_nat (bits w l)) (bval w l)).
    destruct (Z.eqb_spec d 0) as [->|Hd0].
    + rewrite IH by auto. rewrite bit_sum_0. reflexivity.
    + rewrite Hf by auto. destruct (Z.ltb_spec 1 (acc + bit_sum (Z.to_nat w) d)).
      * symmetry. apply Z.eqb_neq. lia.
      * rewrite IH by (auto; lia). f_equal. lia.
Qed.

Lemma bit_sum_zero : forall k v, bit_sum k v = 0 -> forall i, 0 <= i < Z.of_nat k -> Z.testbit v i = false.
Proof.
  induction k; intros v H i Hi; [lia|]. cbn [bit_sum] in H.
  pose proof (bit_sum_nonneg k v). destruct (Z.testbit v (Z.of_nat k)) eqn:E; [lia|].
  destruct (Z.eq_dec i (Z.of_nat k)) as [->|]; auto. apply IHk; lia.
Qed.

Lemma bit_sum_one : forall k v, inU (Z.of_nat k) v -> bit_sum k v = 1 ->
  exists i, 0 <= i < Z.of_nat k /\ v = 2 ^ i.
Proof.
  induction k; intros v Hv H; [discriminate|]. cbn [bit_sum] in H.
  pose proof (bit_sum_nonneg k v).
  destruct (Z.testbit v (Z.of_nat k)) eqn:E.
  - exists (Z.of_nat k). split; [lia|]. apply Z.bits_inj'. intros i Hi. rewrite Z.pow2_bits_eqb by lia.
    destruct (Z.eqb_spec (Z.of_nat k) i) as [<-|]; auto.
    destruct (Z_lt_le_dec i (Z.of_nat k)).
    + apply bit_sum_zero with k; lia.
    + apply testbit_high with (Z.of_nat (S k)); auto. lia.
  - destruct (IHk v) as (i & Hi & Ev); [|lia|].
    + destruct Hv as [H1 H2]. split; auto. rewrite Nat2Z.inj_succ, Z.pow_succ_r in H2 by lia.
      destruct (Z_lt_le_dec v (2 ^ Z.of_nat k)); auto.
      assert (Z.testbit v (Z.of_nat k) = true).
      { rewrite Z.testbit_true by lia.
        assert (v / 2 ^ Z.of_nat k = 1) as ->; auto.
        symmetry. apply Z.div_unique with (v - 2 ^ Z.of_nat k); lia. }
      congruence.
    + exists i. split; auto; lia.
Qed.

Lemma bit_sum_pow2 : forall k i, 0 <= i -> bit_sum k (2 ^ i) = if i <? Z.of_nat k then 1 else 0.
Proof.
  induction k; intros i Hi.
  - simpl. replace (i <? 0) with false by lia. auto.
  - cbn [bit_sum]. rewrite IHk, Z.pow2_bits_eqb by lia.
    destruct (Z.eqb_spec i (Z.of_nat k)), (Z.ltb_spec i (Z.of_nat k)), (Z.ltb_spec i (Z.of_nat (S k))); lia.
Qed.

Lemma bi_has_single_bit_spec : forall f w l, 1 <= w -> wf w l ->
  (forall v, inU w v -> f v = bit_sum (Z.to_nat w) v) ->
  (bi_has_single_bit f l = true <-> power_of_two (bval w l)).
Proof.
  intros f w l Hw Hl Hf. unfold bi_has_single_bit. rewrite (single_loop f w) by (auto; lia).
  pose proof (bval_range w l ltac:(lia) Hl) as Hr. pose proof (bits_nonneg w l ltac:(lia)) as HB.
  rewrite Z.add_0_l, Z.eqb_eq. unfold power_of_two. split.
  - intros H. destruct (bit_sum_one (Z.to_nat (bits w l)) (bval w l)) as (i & Hi & E); auto.
    + unfold inU. rewrite Z2Nat.id by lia. auto.
    + exists i. split; auto; lia.
  - intros (i & Hi & E). rewrite E, bit_sum_pow2 by lia. rewrite Z2Nat.id by lia.
    rewrite E in Hr. destruct (Z.ltb_spec i (bits w l)); auto.
    pose proof (pow2_le (bits w l) i). lia.
Qed.

(** ** Rotations *)
Lemma bi_or_spec : forall w a b, 1 <= w -> wf w a -> wf w b -> length a = length b ->
  wf w (bi_or a b) /\ length (bi_or a b) = length a /\ bval w (bi_or a b) = Z.lor (bval w a) (bval w b).
Proof.
  intros w a. induction a as [|d a IH]; intros b Hw Ha Hb Hl; destruct b as [|d' b]; try discriminate.
  - repeat split; auto.
  - apply wf_cons in Ha. destruct Ha as [Hd Ha]. apply wf_cons in Hb. destruct Hb as [Hd' Hb].
    destruct (IH b Hw Ha Hb ltac:(simpl in Hl; lia)) as (I1 & I2 & I3).
    unfold bi_or in *. cbn [combine map fst snd].
    split; [constructor; auto; apply inU_lor; auto; lia|]. split; [simpl; auto|].
    cbn [bval]. rewrite I3. apply Z.bits_inj'. intros i Hi. rewrite Z.lor_spec, !tb_split by (auto; try lia; apply inU_lor; auto; lia).
    destruct (i <? w); rewrite Z.lor_spec; auto.
Qed.

Lemma rot_lor : forall N v r, 1 <= N -> inU N v -> 0 < r < N ->
  rotated_left N v r (Z.lor ((v * 2 ^ r) mod 2 ^ N) (v / 2 ^ (N - r))).
Proof.
  intros N v r HN Hv Hr. pose proof (pow2_pos N ltac:(lia)) as HP. split.
  - apply inU_lor; [lia|apply Z.mod_pos_bound; auto|].
    pose proof (shiftr_range N v (N - r) ltac:(lia) Hv ltac:(lia)). rewrite Z.shiftr_div_pow2 in H by lia. auto.
  - intros i Hi. rewrite Z.lor_spec. rewrite <- Z.shiftr_div_pow2, Z.shiftr_spec by lia.
    rewrite Z.mod_pow2_bits_low by lia.
    destruct (Z_lt_le_dec i r).
    + rewrite Z.mul_pow2_bits_low by lia. simpl. f_equal.
      apply Z.mod_unique with (-1); [left; lia|lia].
    + rewrite Z.mul_pow2_bits by lia. rewrite (testbit_high N v (i + (N - r))) by (auto; lia).
      rewrite orb_false_r. f_equal. symmetry. apply Z.mod_small. lia.
Qed.

Lemma rotated_left_mod : forall w v c c' r, 1 <= w -> c mod w = c' mod w ->
  rotated_left w v c r -> rotated_left w v c' r.
Proof.
  intros w v c c' r Hw E [H1 H2]. split; auto. intros i Hi. rewrite H2 by auto. f_equal.
  rewrite <- (Zminus_mod_idemp_r i c), <- (Zminus_mod_idemp_r i c'). congruence.
Qed.

Lemma rotated_left_0 : forall w v, inU w v -> rotated_left w v 0 v.
Proof.
  intros. split; auto. intros. rewrite Z.sub_0_r, Z.mod_small by lia. auto.
Qed.

(** The int amount is reduced as an unsigned 32-bit number. *)
Lemma bi_rotl_gen : forall int128 w l c, 1 <= w -> wf w l -> l <> nil ->
  wf w (bi_rotl int128 w l c) /\ length (bi_rotl int128 w l c) = length l /\
  rotated_left (bits w l) (bval w l) (wrap 32 c) (bval w (bi_rotl int128 w l c)).
Proof.
  intros int128 w l c Hw Hl Hn. unfold bi_rotl. change (w * Z.of_nat (length l)) with (bits w l).
  pose proof (bits_pos w l Hw Hn) as HB. pose proof (bval_range w l ltac:(lia) Hl) as Hr.
  pose proof (Z.mod_pos_bound (wrap 32 c) (bits w l) ltac:(lia)) as Hm.
  set (r := wrap 32 c mod bits w l) in *.
  assert (Er : r mod bits w l = wrap 32 c mod bits w l) by (unfold r; apply Z.mod_mod; lia).
  destruct (Z.eqb_spec r 0) as [E|E].
  - split; auto. split; auto. apply rotated_left_mod with 0; [exact HB| |].
    + rewrite <- Er, E. reflexivity.
    + apply rotated_left_0; auto.
  - destruct (shift_left_spec int128 w l r Hw Hl ltac:(lia)) as (A1 & A2 & A3).
    destruct (shift_right_spec int128 false w l (bits w l - r) Hw Hl Hn ltac:(lia)) as (B1 & B2 & B3).
    destruct (bi_or_spec w _ _ Hw A1 B1 ltac:(congruence)) as (C1 & C2 & C3).
    split; auto. split; [congruence|]. rewrite C3, A3, B3.
    change (sval false w l) with (bval w l).
    rewrite (Z.mod_small (bval w l / _)).
    + apply rotated_left_mod with r; auto. apply rot_lor; auto. lia.
    + pose proof (shiftr_range (bits w l) (bval w l) (bits w l - r) ltac:(lia) Hr ltac:(lia)) as H.
      rewrite Z.shiftr_div_pow2 in H by lia. auto.
Qed.

Lemma bi_rotr_gen : forall int128 w l c, 1 <= w -> wf w l -> l <> nil ->
  wf w (bi_rotr int128 w l c) /\ length (bi_rotr int128 w l c) = length l /\
  rotated_left (bits w l) (bval w l) (- wrap 32 c) (bval w (bi_rotr int128 w l c)).
Proof.
  intros int128 w l c Hw Hl Hn. unfold bi_rotr. change (w * Z.of_nat (length l)) with (bits w l).
  pose proof (bits_pos w l Hw Hn) as HB. pose proof (bval_range w l ltac:(lia) Hl) as Hr.
  pose proof (Z.mod_pos_bound (wrap 32 c) (bits w l) ltac:(lia)) as Hm.
  pose proof (Z.div_mod (wrap 32 c) (bits w l) ltac:(lia)) as Hdm.
  set (r := wrap 32 c mod bits w l) in *.
  assert (Er : (bits w l - r) mod bits w l = (- wrap 32 c) mod bits w l).
  { rewrite Hdm. replace (- (bits w l * (wrap 32 c / bits w l) + r))
      with (bits w l - r + (- (wrap 32 c / bits w l) - 1) * bits w l) by ring.
    rewrite Z.mod_add by lia. reflexivity. }
  destruct (Z.eqb_spec r 0) as [E|E].
  - split; auto. split; auto. apply rotated_left_mod with 0; auto.
    + rewrite <- Er, E, Z.sub_0_r, Z.mod_same, Z.mod_0_l by lia. reflexivity.
    + apply rotated_left_0; auto.
  - destruct (shift_left_spec int128 w l (bits w l - r) Hw Hl ltac:(lia)) as (A1 & A2 & A3).
    destruct (shift_right_spec int128 false w l r Hw Hl Hn ltac:(lia)) as (B1 & B2 & B3).
    destruct (bi_or_spec w _ _ Hw B1 A1 ltac:(congruence)) as (C1 & C2 & C3).
    split; auto. split; [congruence|]. rewrite C3, A3, B3.
    change (sval false w l) with (bval w l).
    rewrite (Z.mod_small (bval w l / _)).
    + apply rotated_left_mod with (bits w l - r); auto. rewrite Z.lor_comm.
      replace r with (bits w l - (bits w l - r)) at 3 by lia. apply rot_lor; auto. lia.
    + pose proof (shiftr_range (bits w l) (bval w l) r ltac:(lia) Hr ltac:(lia)) as H.
      rewrite Z.shiftr_div_pow2 in H by lia. auto.
Qed.

Lemma wrap32_mod : forall N c, 1 <= N -> (inS 32 c /\ 0 <= c) \/ 2 ^ 32 mod N = 0 -> wrap 32 c mod N = c mod N.
Proof.
  intros N c HN [[H1 H2]|H].
  - rewrite wrap_small; auto. unfold inU, inS in *. simpl in *. lia.
  - unfold wrap. pose proof (Z.div_mod (2 ^ 32) N ltac:(lia)) as Hd. rewrite H, Z.add_0_r in Hd.
    pose proof (Z.div_mod c (2 ^ 32) ltac:(lia)) as Hc.
    rewrite Hc at 2. rewrite Hd at 2. symmetry.
    replace (N * (2 ^ 32 / N) * (c / 2 ^ 32) + c mod 2 ^ 32) with (c mod 2 ^ 32 + (2 ^ 32 / N * (c / 2 ^ 32)) * N) by ring.
    apply Z.mod_add. lia.
Qed.

(** ** First zero / one bits (one-based, 0 when there is none) *)
Lemma bi_max_spec : forall w n, 0 <= w -> wf w (bi_max w n) /\ length (bi_max w n) = n /\
  bval w (bi_max w n) = 2 ^ (w * Z.of_nat n) - 1.
Proof.
  intros. pose proof (pow2_pos w H). split; [apply wf_repeat; unfold inU; lia|].
  split; [apply repeat_length|apply bval_repeat_max; auto].
Qed.

Lemma is_max_spec : forall w l, 1 <= w -> wf w l -> bi_eqb l (bi_max w (length l)) = (bval w l =? 2 ^ bits w l - 1).
Proof.
  intros w l Hw Hl. destruct (bi_max_spec w (length l) ltac:(lia)) as (M1 & M2 & M3).
  destruct (Z.eqb_spec (bval w l) (2 ^ bits w l - 1)) as [E|E].
  - apply bi_eqb_spec; [congruence|]. apply bval_inj with w; auto; [lia|]. rewrite M3. exact E.
  - destruct (bi_eqb l (bi_max w (length l))) eqn:Eb; auto.
    apply bi_eqb_spec in Eb; [|congruence]. exfalso. apply E. rewrite Eb at 1. exact M3.
Qed.

Lemma all_ones : forall W v, 0 <= W -> inU W v -> (forall i, 0 <= i < W -> Z.testbit v i = true) -> v = 2 ^ W - 1.
Proof.
  intros W v HW Hv H. rewrite Z.sub_1_r, <- Z.ones_equiv. apply Z.bits_inj'. intros i Hi.
  rewrite Z.testbit_ones_nonneg by lia. destruct (Z.ltb_spec i W); [apply H; lia|apply testbit_high with W; auto].
Qed.

Lemma first_leading_zero_spec : forall k l, wf (pw k) l -> l <> nil ->
  exists r, first_leading_zero (pw k) l = Some r /\ first_from_top false (bits (pw k) l) (bval (pw k) l) r.
Proof.
  intros k l Hl Hn. pose proof (pw_ge1 k) as Hw. set (w := pw k) in *.
  pose proof (bval_range w l ltac:(lia) Hl) as Hr. pose proof (bits_pos w l Hw Hn) as HB.
  unfold first_leading_zero. rewrite is_max_spec by auto.
  destruct (Z.eqb_spec (bval w l) (2 ^ bits w l - 1)) as [E|E].
  - exists 0. split; auto. left. split; auto. intros i Hi. rewrite E. apply ones_bit; auto.
  - destruct (bi_countl_one_spec k l Hl) as (n & En & N1 & N2 & N3). fold w in En, N1, N2, N3. rewrite En. cbn [bindo].
    exists (n + 1). split; auto. right.
    assert (n < bits w l).
    { destruct (Z_lt_le_dec n (bits w l)); auto. exfalso. apply E. apply all_ones; auto; [lia|].
      intros. apply N2. lia. }
    split; [lia|]. split.
    + replace (bits w l - (n + 1)) with (bits w l - 1 - n) by lia. auto.
    + intros i Hi. apply N2. lia.
Qed.

Lemma testbit_not_words : forall w l i, 1 <= w -> wf w l -> 0 <= i < bits w l ->
  Z.testbit (bval w (bi_not w l)) i = negb (Z.testbit (bval w l) i).
Proof.
  intros w l i Hw Hl Hi. destruct (bi_not_spec w l ltac:(lia) Hl) as (N1 & N2 & N3). rewrite N3.
  change (2 ^ bits w l - 1 - bval w l) with (unot (bits w l) (bval w l)).
  rewrite testbit_unot by (try apply bval_range; auto; lia). replace (i <? bits w l) with true by lia. reflexivity.
Qed.

Lemma first_leading_one_spec : forall k l, wf (pw k) l -> l <> nil ->
  exists r, first_leading_one (pw k) l = Some r /\ first_from_top true (bits (pw k) l) (bval (pw k) l) r.
Proof.
  intros k l Hl Hn. pose proof (pw_ge1 k) as Hw.
  destruct (bi_not_spec (pw k) l ltac:(lia) Hl) as (N1 & N2 & N3).
  assert (Hnn : bi_not (pw k) l <> nil) by (intros E; rewrite E in N2; destruct l; [congruence|discriminate]).
  destruct (first_leading_zero_spec k _ N1 Hnn) as (r & Er & Hr). exists r. split; auto.
  rewrite (bits_eq _ _ l N2) in Hr. destruct Hr as [[H1 H2]|(H1 & H2 & H3)]; [left|right].
  - split; auto. intros i Hi. specialize (H2 i Hi). rewrite testbit_not_words in H2 by auto.
    destruct (Z.testbit (bval (pw k) l) i); auto.
  - split; auto. rewrite testbit_not_words in H2 by (auto; lia). split.
    + destruct (Z.testbit (bval (pw k) l) (bits (pw k) l - r)); auto.
    + intros i Hi. specialize (H3 i Hi). rewrite testbit_not_words in H3 by (auto; lia).
      destruct (Z.testbit (bval (pw k) l) i); auto.
Qed.

Lemma first_trailing_zero_spec : forall k l, wf (pw k) l -> l <> nil ->
  exists r, first_trailing_zero (pw k) l = Some r /\ first_from_bottom false (bits (pw k) l) (bval (pw k) l) r.
Proof.
  intros k l Hl Hn. pose proof (pw_ge1 k) as Hw. set (w := pw k) in *.
  pose proof (bval_range w l ltac:(lia) Hl) as Hr. pose proof (bits_pos w l Hw Hn) as HB.
  unfold first_trailing_zero. rewrite is_max_spec by auto.
  destruct (Z.eqb_spec (bval w l) (2 ^ bits w l - 1)) as [E|E].
  - exists 0. split; auto. left. split; auto. intros i Hi. rewrite E. apply ones_bit; auto.
  - destruct (bi_not_spec w l ltac:(lia) Hl) as (M1 & M2 & M3).
    destruct (bi_countr_zero_spec k _ M1) as (n & En & N1 & N2 & N3). fold w in En, N1, N2, N3. rewrite En. cbn [bindo].
    rewrite (bits_eq w _ l M2) in *.
    exists (n + 1). split; auto. right.
    assert (n < bits w l).
    { destruct (Z_lt_le_dec n (bits w l)); auto. exfalso. apply E. apply all_ones; auto; [lia|].
      intros i Hi. specialize (N2 i ltac:(lia)). rewrite testbit_not_words in N2 by auto.
      destruct (Z.testbit (bval w l) i); auto. }
    split; [lia|]. split.
    + replace (n + 1 - 1) with n by lia. specialize (N3 ltac:(lia)). rewrite testbit_not_words in N3 by (auto; lia).
      destruct (Z.testbit (bval w l) n); auto.
    + intros i Hi. specialize (N2 i ltac:(lia)). rewrite testbit_not_words in N2 by (auto; lia).
      destruct (Z.testbit (bval w l) i); auto.
Qed.

(** [first_trailing_one] tests the wrong value ([max] instead of 0): correct
    except on 0 and on the all-ones value. *)
Lemma first_trailing_one_spec : forall k l, wf (pw k) l -> l <> nil ->
  bval (pw k) l <> 0 -> bval (pw k) l <> 2 ^ bits (pw k) l - 1 ->
  exists r, first_trailing_one (pw k) l = Some r /\ first_from_bottom true (bits (pw k) l) (bval (pw k) l) r.
Proof.
  intros k l Hl Hn H0 Hmax. pose proof (pw_ge1 k) as Hw. set (w := pw k) in *.
  pose proof (bval_range w l ltac:(lia) Hl) as Hr. pose proof (bits_pos w l Hw Hn) as HB.
  unfold first_trailing_one. rewrite is_max_spec by auto.
  destruct (Z.eqb_spec (bval w l) (2 ^ bits w l - 1)) as [E|E]; [congruence|].
  destruct (bi_countr_zero_spec k l Hl) as (n & En & N1 & N2 & N3). fold w in En, N1, N2, N3. rewrite En. cbn [bindo].
  exists (n + 1). split; auto. right.
  assert (n < bits w l).
  { destruct (Z_lt_le_dec n (bits w l)); auto. exfalso. apply H0. apply Z.bits_inj'. intros i Hi. rewrite Z.bits_0.
    destruct (Z_lt_le_dec i (bits w l)); [apply N2; lia|apply bval_testbit_high; auto; lia]. }
  split; [lia|]. split.
  - replace (n + 1 - 1) with n by lia. apply N3. auto.
  - intros i Hi. apply N2. lia.
Qed.
