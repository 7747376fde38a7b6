(** * Multiword counts, constructors and division *)
From Coq Require Import ZArith Lia Bool List.
From Verif Require Import MachInt Bits BitsSpec BitsProofs BigInt BigIntProofs BigIntMul BigIntShift.
Import ListNotations.
Open Scope Z_scope.

Lemma tb_split : forall n a b i, 0 <= n -> 0 <= a < 2 ^ n -> 0 <= i ->
  Z.testbit (a + 2 ^ n * b) i = if i <? n then Z.testbit a i else Z.testbit b (i - n).
Proof.
  intros n a b i Hn Ha Hi.
  replace (a + 2 ^ n * b) with (b * 2 ^ n + a) by ring. rewrite <- lor_add by lia.
  rewrite Z.lor_spec, Z.mul_pow2_bits by lia. destruct (Z.ltb_spec i n).
  - rewrite (Z.testbit_neg_r b) by lia. reflexivity.
  - rewrite (testbit_high n a) by (auto; lia). apply orb_false_r.
Qed.

(** Runs of equal bits, parametrised by the bit. *)
Definition trun (be : bool) (W v n : Z) : Prop :=
  0 <= n <= W /\ (forall i, 0 <= i < n -> Z.testbit v i = be) /\
  (n < W -> Z.testbit v n = negb be).
Definition lrun (be : bool) (W v n : Z) : Prop :=
  0 <= n <= W /\ (forall i, W - n <= i < W -> Z.testbit v i = be) /\
  (n < W -> Z.testbit v (W - 1 - n) = negb be).

Lemma countr_run : forall be w f l, 1 <= w -> wf w l ->
  (forall d, inU w d -> exists n, f d = Some n /\ trun be w d n) ->
  exists n, countbit w f l = Some n /\ trun be (bits w l) (bval w l) n.
Proof.
  intros be w f l Hw. induction l as [|d l IH]; intros Hl Hf.
  - exists 0. split; auto. unfold bits. simpl. rewrite Z.mul_0_r. repeat split; try lia.
  - apply wf_cons in Hl. destruct Hl as [Hd Hl]. cbn [countbit bval].
    destruct (Hf d Hd) as (c & Hc & R1 & R2 & R3). rewrite Hc. cbn [bindo].
    rewrite bits_cons. pose proof (bits_nonneg w l ltac:(lia)) as Hb.
    destruct (Z.eqb_spec c w) as [->|Hne]; simpl negb; cbv iota.
    + destruct (IH Hl Hf) as (n & Hn & Q1 & Q2 & Q3). rewrite Hn. cbn [bindo].
      exists (w + n). split; auto. split; [lia|]. split.
      * intros i Hi. rewrite tb_split by (auto; lia). destruct (Z.ltb_spec i w); [apply R2|apply Q2]; lia.
      * intros H. rewrite tb_split by (auto; lia). destruct (Z.ltb_spec (w + n) w); [lia|].
        replace (w + n - w) with n by lia. apply Q3. lia.
    + exists c. split; auto. split; [lia|]. split.
      * intros i Hi. rewrite tb_split by (auto; lia). replace (i <? w) with true by lia. auto.
      * intros H. rewrite tb_split by (auto; lia). replace (c <? w) with true by lia. apply R3. lia.
Qed.

Lemma countl_run : forall be w f l, 1 <= w -> wf w l ->
  (forall d, inU w d -> exists n, f d = Some n /\ lrun be w d n) ->
  exists n, countbit w f (rev l) = Some n /\ lrun be (bits w l) (bval w l) n.
Proof.
  intros be w f l Hw. induction l as [|d l IH] using rev_ind; intros Hl Hf.
  - exists 0. split; auto. unfold bits. simpl. rewrite Z.mul_0_r. repeat split; try lia.
  - apply wf_app in Hl. destruct Hl as [Hl Hd]. apply wf_cons in Hd. destruct Hd as [Hd _].
    rewrite rev_app_distr. cbn [rev app countbit]. rewrite bval_app by lia. cbn [bval].
    rewrite Z.mul_0_r, Z.add_0_r.
    assert (EB : bits w (l ++ [d]) = bits w l + w) by (unfold bits; rewrite app_length; simpl; lia).
    rewrite EB. pose proof (bits_nonneg w l ltac:(lia)) as Hb.
    pose proof (bval_range w l ltac:(lia) Hl) as Hr.
    destruct (Hf d Hd) as (c & Hc & R1 & R2 & R3). rewrite Hc. cbn [bindo].
    destruct (Z.eqb_spec c w) as [->|Hne]; simpl negb; cbv iota.
    + destruct (IH Hl Hf) as (n & Hn & Q1 & Q2 & Q3). rewrite Hn. cbn [bindo].
      exists (w + n). split; auto. split; [lia|]. split.
      * intros i Hi. rewrite tb_split by lia. destruct (Z.ltb_spec i (bits w l)); [apply Q2|apply R2]; lia.
      * intros H. rewrite tb_split by lia.
        destruct (Z.ltb_spec (bits w l + w - 1 - (w + n)) (bits w l)); [|lia].
        replace (bits w l + w - 1 - (w + n)) with (bits w l - 1 - n) by lia. apply Q3. lia.
    + exists c. split; auto. split; [lia|]. split.
      * intros i Hi. rewrite tb_split by lia. replace (i <? bits w l) with false by lia. apply R2. lia.
      * intros H. rewrite tb_split by lia. replace (bits w l + w - 1 - c <? bits w l) with false by lia.
        replace (bits w l + w - 1 - c - bits w l) with (w - 1 - c) by lia. apply R3. lia.
Qed.

Notation pw k := (2 ^ Z.of_nat k).
Lemma pw_ge1 : forall k, 1 <= pw k.
Proof. intros. pose proof (pow2_pos (Z.of_nat k)). lia. Qed.

Lemma bi_countr_zero_spec : forall k l, wf (pw k) l ->
  exists n, bi_countr_zero (pw k) l = Some n /\ trailing_zeros (bits (pw k) l) (bval (pw k) l) n.
Proof. intros k l Hl. apply (countr_run false); auto using pw_ge1. intros. apply countr_zero_spec; auto. Qed.
Lemma bi_countr_one_spec : forall k l, wf (pw k) l ->
  exists n, bi_countr_one (pw k) l = Some n /\ trailing_ones (bits (pw k) l) (bval (pw k) l) n.
Proof. intros k l Hl. apply (countr_run true); auto using pw_ge1. intros. apply countr_one_spec; auto. Qed.
Lemma bi_countl_zero_spec : forall k l, wf (pw k) l ->
  exists n, bi_countl_zero (pw k) l = Some n /\ leading_zeros (bits (pw k) l) (bval (pw k) l) n.
Proof. intros k l Hl. apply (countl_run false); auto using pw_ge1. intros. apply countl_zero_spec; auto. Qed.
Lemma bi_countl_one_spec : forall k l, wf (pw k) l ->
  exists n, bi_countl_one (pw k) l = Some n /\ leading_ones (bits (pw k) l) (bval (pw k) l) n.
Proof. intros k l Hl. apply (countl_run true); auto using pw_ge1. intros. apply countl_one_spec; auto. Qed.

Lemma leading_zeros_unique : forall W v n, 0 < v < 2 ^ W -> leading_zeros W v n -> n = W - 1 - Z.log2 v.
Proof.
  intros W v n Hv (H1 & H2 & H3).
  assert (HW : 0 < W). { destruct (Z_lt_le_dec 0 W); auto. assert (W = 0 \/ W < 0) as [->|] by lia.
    - simpl in Hv. lia. - rewrite Z.pow_neg_r in Hv by lia. lia. }
  assert (Hlog : 0 <= Z.log2 v < W) by (split; [apply Z.log2_nonneg|apply Z.log2_lt_pow2; lia]).
  pose proof (Z.bit_log2 v ltac:(lia)) as Hb.
  destruct (Z_lt_le_dec (Z.log2 v) (W - n)).
  - destruct (Z.eq_dec (Z.log2 v) (W - 1 - n)); [lia|].
    assert (Hf : Z.testbit v (W - 1 - n) = false) by (apply Z.bits_above_log2; lia).
    rewrite H3 in Hf by lia. discriminate.
  - rewrite H2 in Hb by lia. discriminate.
Qed.

Lemma bi_countl_zero_val : forall k l, wf (pw k) l -> bval (pw k) l <> 0 ->
  bi_countl_zero (pw k) l = Some (bits (pw k) l - 1 - Z.log2 (bval (pw k) l)).
Proof.
  intros k l Hl Hv. destruct (bi_countl_zero_spec k l Hl) as (n & Hn & Hz).
  rewrite Hn. f_equal. apply leading_zeros_unique; auto.
  pose proof (bval_range (pw k) l ltac:(pose proof (pw_ge1 k); lia) Hl). lia.
Qed.

Lemma bi_bit_width_spec : forall k l, wf (pw k) l ->
  bi_bit_width false (pw k) l = Some (if bval (pw k) l =? 0 then 0 else Z.log2 (bval (pw k) l) + 1).
Proof.
  intros k l Hl. unfold bi_bit_width.
  change (pw k * Z.of_nat (length l)) with (bits (pw k) l). simpl b2z.
  destruct (Z.eqb_spec (bval (pw k) l) 0) as [E|E].
  - destruct (bi_countl_zero_spec k l Hl) as (n & Hn & H1 & H2 & H3). rewrite Hn. cbn [bindo].
    f_equal. destruct (Z_lt_le_dec n (bits (pw k) l)); [|lia].
    rewrite E in H3. rewrite Z.bits_0 in H3. discriminate (H3 l0).
  - rewrite bi_countl_zero_val by auto. cbn [bindo]. f_equal. lia.
Qed.

(* ------------------------------------------------------------------ *)
(** ** Construction from native integers *)
Lemma bval_fill : forall w n (neg : bool), 0 <= w ->
  bval w (repeat (if neg then 2 ^ w - 1 else 0) n) = if neg then 2 ^ (w * Z.of_nat n) - 1 else 0.
Proof. intros. destruct neg; [apply bval_repeat_max; auto|apply bval_repeat0]. Qed.
Lemma wf_fill : forall w n (neg : bool), 0 <= w -> wf w (repeat (if neg then 2 ^ w - 1 else 0) n).
Proof.
  intros. apply wf_repeat. pose proof (pow2_pos w H). unfold inU. destruct neg; lia.
Qed.

Lemma of_int_loop_wide : forall w ts n v, 1 <= w -> w < ts ->
  let l := of_int_loop w ts n v (v <? 0) in
  wf w l /\ length l = n /\ bval w l = v mod 2 ^ (w * Z.of_nat n).
Proof.
  intros w ts n. induction n; intros v Hw Ht l.
  - subst l. simpl. rewrite Z.mul_0_r. simpl. rewrite Z.mod_1_r. repeat split. constructor.
  - subst l. cbn [of_int_loop]. destruct (Z.eqb_spec v 0) as [->|Hv].
    + change (0 <? 0) with false. cbv iota. split; [apply wf_repeat, inU_0; lia|].
      split; [apply repeat_length|]. rewrite bval_repeat0, Z.mod_0_l; auto.
      pose proof (pow2_pos (w * Z.of_nat (S n)) ltac:(nia)). lia.
    + replace (w <? ts) with true by lia.
      pose proof (pow2_pos w ltac:(lia)) as HP.
      assert (E : (v <? 0) = (Z.shiftr v w <? 0)).
      { rewrite Z.shiftr_div_pow2 by lia. destruct (Z.ltb_spec v 0).
        - assert (v / 2 ^ w < 0) by (apply Z.div_lt_upper_bound; lia). lia.
        - assert (0 <= v / 2 ^ w) by (apply Z.div_pos; lia). lia. }
      rewrite E. destruct (IHn (Z.shiftr v w) Hw Ht) as (I1 & I2 & I3).
      split; [constructor; [apply wrap_range; lia|auto]|]. split; [simpl; congruence|].
      cbn [bval]. rewrite I3, Z.shiftr_div_pow2 by lia. rewrite pow_wS by lia.
      rewrite Z.rem_mul_r by (try apply pow2_pos; try apply wn_nonneg; lia). reflexivity.
Qed.

Lemma of_int_spec : forall w n ts v, 1 <= w -> - 2 ^ (ts - 1) <= v < 2 ^ ts -> 1 <= ts ->
  wf w (of_int w n ts v) /\ length (of_int w n ts v) = n /\
  bval w (of_int w n ts v) = v mod 2 ^ (w * Z.of_nat n).
Proof.
  intros w n ts v Hw Hv Hts. unfold of_int.
  destruct (Z_lt_le_dec w ts) as [Hlt|Hle]; [apply of_int_loop_wide; auto|].
  pose proof (pow2_pos w ltac:(lia)) as HP.
  destruct n; cbn [of_int_loop].
  - simpl. rewrite Z.mul_0_r. simpl. rewrite Z.mod_1_r. repeat split. constructor.
  - destruct (Z.eqb_spec v 0) as [->|Hv0].
    + change (0 <? 0) with false. cbv iota. split; [apply wf_repeat, inU_0; lia|].
      split; [apply repeat_length|]. rewrite bval_repeat0, Z.mod_0_l; auto.
      pose proof (pow2_pos (w * Z.of_nat (S n)) ltac:(nia)). lia.
    + replace (w <? ts) with false by lia.
      assert (Ev : of_int_loop w ts n 0 (v <? 0) = repeat (if v <? 0 then 2 ^ w - 1 else 0) n)
        by (destruct n; reflexivity).
      rewrite Ev. split; [constructor; [apply wrap_range; lia|apply wf_fill; lia]|].
      split; [simpl; rewrite repeat_length; auto|].
      cbn [bval]. rewrite bval_fill by lia.
      assert (H2t : 2 ^ ts <= 2 ^ w) by (apply pow2_le; lia).
      pose proof (pow2_half ts Hts) as Hh.
      assert (HPn : 0 < 2 ^ (w * Z.of_nat n)) by (apply pow2_pos, wn_nonneg; lia).
      rewrite pow_wS by lia. set (G := 2 ^ (w * Z.of_nat n)) in *.
      destruct (Z.ltb_spec v 0).
      * rewrite (wrap_unique w v (v + 2 ^ w) (-1)) by (unfold inU; lia).
        apply Z.mod_unique with (q := -1); [|ring]. left. split; [|nia]. nia.
      * rewrite wrap_small by (unfold inU; lia). rewrite Z.mod_small by nia. ring.
Qed.

Lemma bi_one_spec : forall w n, 1 <= w -> (1 <= n)%nat ->
  wf w (bi_one w n) /\ length (bi_one w n) = n /\ bval w (bi_one w n) = 1.
Proof.
  intros w n Hw Hn. destruct (of_int_spec w n 32 1 Hw ltac:(lia) ltac:(lia)) as (H1 & H2 & H3).
  unfold bi_one. split; auto. split; auto. rewrite H3. apply Z.mod_small. split; [lia|].
  replace 1 with (2 ^ 0) at 1 by reflexivity. apply pow2_lt; nia.
Qed.

Lemma bi_min_spec : forall w n, 1 <= w -> (1 <= n)%nat ->
  wf w (bi_min w n) /\ length (bi_min w n) = n /\ bval w (bi_min w n) = 2 ^ (w * Z.of_nat n - 1).
Proof.
  intros w n Hw Hn. unfold bi_min, zero_words.
  assert (inU w (2 ^ (w - 1))). { unfold inU. split; [apply Z.pow_nonneg; lia|apply pow2_lt; lia]. }
  split; [apply wset_wf; auto; apply wf_repeat, inU_0; lia|].
  split; [rewrite wset_length; apply repeat_length|].
  rewrite wset_val by (try rewrite repeat_length; lia). rewrite bval_repeat0.
  assert (E : wget (repeat 0 n) (n - 1) = 0).
  { unfold wget. rewrite nth_repeat. reflexivity. }
  rewrite E. rewrite Z.sub_0_r, Z.add_0_l, <- Z.pow_add_r by (try apply wn_nonneg; lia).
  f_equal. replace (Z.of_nat n) with (Z.of_nat (n - 1) + 1) by lia. ring.
Qed.

(* ------------------------------------------------------------------ *)
(** ** Unsigned division *)
Lemma sval_u : forall w l, sval false w l = bval w l.
Proof. reflexivity. Qed.

Lemma divide_loop_spec : forall int128 w k rem sub quo a b,
  1 <= w -> wf w rem -> wf w sub -> wf w quo ->
  length sub = length rem -> length quo = length rem -> rem <> nil ->
  0 < b -> 0 <= a < 2 ^ bits w rem ->
  (k = 0%nat \/ bval w sub = b * 2 ^ (Z.of_nat k - 1)) ->
  a = bval w quo * b + bval w rem ->
  bval w rem < b * 2 ^ Z.of_nat k ->
  bval w quo mod 2 ^ Z.of_nat k = 0 -> Z.of_nat k <= bits w rem ->
  let '(q, r) := divide_loop int128 w k rem sub quo in
  wf w q /\ wf w r /\ length q = length rem /\ length r = length rem /\
  bval w q = a / b /\ bval w r = a mod b.
Proof.
  intros int128 w k. induction k; intros rem sub quo a b Hw Hr Hs Hq Ls Lq Hn Hb Ha Hsub Ea Hlt Hm Hk.
  - cbn [divide_loop]. change (2 ^ Z.of_nat 0) with 1 in Hlt.
    pose proof (bval_range w rem ltac:(lia) Hr).
    repeat split; auto.
    + apply Z.div_unique with (bval w rem); [left|]; lia.
    + apply Z.mod_unique with (bval w quo); [left|]; lia.
  - cbn [divide_loop].
    pose proof (bval_range w rem ltac:(lia) Hr) as Rr.
    pose proof (bval_range w quo ltac:(lia) Hq) as Rq.
    destruct (of_int_spec w (length rem) 32 0 Hw ltac:(lia) ltac:(lia)) as (Z1 & Z2 & Z3).
    rewrite Z.mod_0_l in Z3 by (pose proof (pow2_pos (w * Z.of_nat (length rem)) ltac:(nia)); lia).
    destruct (rel_specs false w rem (of_int w (length rem) 32 0) Hw Hr Z1 ltac:(auto) Hn) as (G1 & _).
    change (sval false w) with (bval w) in G1. rewrite G1, Z3.
    destruct (Z.ltb_spec 0 (bval w rem)) as [Hpos|Hz].
    + destruct Hsub as [Hsub|Hsub]; [lia|].
      replace (Z.of_nat (S k) - 1) with (Z.of_nat k) in Hsub by lia.
      destruct (rel_specs false w rem sub Hw Hr Hs ltac:(auto) Hn) as (_ & G2 & _).
      change (sval false w) with (bval w) in G2. rewrite G2. set (hit := bval w sub <=? bval w rem) in *.
      assert (HPk : 0 < 2 ^ Z.of_nat k) by (apply pow2_pos; lia).
      rewrite Nat2Z.inj_succ, Z.pow_succ_r in Hlt, Hm by lia.
      assert (Hquo : exists t, bval w quo = t * (2 * 2 ^ Z.of_nat k)).
      { exists (bval w quo / (2 * 2 ^ Z.of_nat k)).
        pose proof (Z.div_mod (bval w quo) (2 * 2 ^ Z.of_nat k) ltac:(lia)). lia. }
      destruct Hquo as [t Ht].
      assert (Hbit : 0 <= Z.of_nat k < bits w quo) by (rewrite (bits_eq w quo rem Lq); lia).
      destruct (set_bit_spec w quo (Z.of_nat k) Hw Hq Hbit) as (B1 & B2 & B3).
      rewrite lor_mult in B3.
      2:lia. 2:{ rewrite Z.pow_add_r by lia. change (2 ^ 1) with 2. rewrite Ht.
                 replace (t * (2 * 2 ^ Z.of_nat k)) with (t * (2 ^ Z.of_nat k * 2)) by ring.
                 apply Z.mod_mul. lia. }
      destruct (bi_sub_spec w rem sub Hw Hr Hs ltac:(lia)) as (S1 & S2 & S3).
      assert (Hnsub : sub <> nil) by (intros ->; destruct rem; [congruence|discriminate]).
      destruct (shift_right_spec int128 false w sub 1 Hw Hs Hnsub ltac:(lia)) as (T1 & T2 & T3).
      change (sval false w sub) with (bval w sub) in T3. pose proof (bval_range w sub ltac:(lia) Hs) as Rs.
      assert (Hsub' : k = 0%nat \/ bval w (shift_right int128 false w sub 1) = b * 2 ^ (Z.of_nat k - 1)).
      { destruct k as [|k']; auto. right.
        assert (E2 : b * 2 ^ Z.of_nat (S k') = b * 2 ^ (Z.of_nat (S k') - 1) * 2).
        { replace (Z.of_nat (S k')) with ((Z.of_nat (S k') - 1) + 1) at 1 by lia.
          rewrite Z.pow_add_r by lia. change (2 ^ 1) with 2. ring. }
        rewrite T3, Hsub, E2. change (2 ^ 1) with 2. rewrite Z.div_mul by lia.
        assert (0 < 2 ^ (Z.of_nat (S k') - 1)) by (apply pow2_pos; lia).
        apply Z.mod_small. rewrite E2 in Hsub. nia. }
      assert (Lrem' : length (if hit then bi_sub w rem sub else rem) = length rem) by (destruct hit; auto).
      rewrite <- Lrem'.
      apply IHk with (b := b); auto.
      * destruct hit; auto.
      * destruct hit; auto.
      * rewrite Lrem'. congruence.
      * rewrite Lrem'. destruct hit; congruence.
      * intros E. rewrite E in Lrem'. destruct rem; [congruence|discriminate].
      * rewrite (bits_eq w _ rem Lrem'). auto.
      * destruct (Z.leb_spec (bval w sub) (bval w rem)) as [Hh|Hh]; unfold hit.
        -- rewrite B3, S3, Z.mod_small by lia. rewrite Ea, Hsub. ring.
        -- auto.
      * destruct (Z.leb_spec (bval w sub) (bval w rem)) as [Hh|Hh]; unfold hit.
        -- rewrite S3, Z.mod_small by lia. lia.
        -- lia.
      * destruct hit.
        -- rewrite B3, Ht. replace (t * (2 * 2 ^ Z.of_nat k) + 2 ^ Z.of_nat k) with ((2 * t + 1) * 2 ^ Z.of_nat k) by ring.
           apply Z.mod_mul. lia.
        -- rewrite Ht. replace (t * (2 * 2 ^ Z.of_nat k)) with ((2 * t) * 2 ^ Z.of_nat k) by ring. apply Z.mod_mul. lia.
      * rewrite (bits_eq w _ rem Lrem'). lia.
    + assert (Er : bval w rem = 0) by lia.
      repeat split; auto.
      * apply Z.div_unique with 0; [left|]; lia.
      * rewrite Er. apply Z.mod_unique with (bval w quo); [left|]; lia.
Qed.

Lemma bval_zero_words : forall w n, bval w (zero_words n) = 0.
Proof. intros. apply bval_repeat0. Qed.
Lemma wf_zero_words : forall w n, 0 <= w -> wf w (zero_words n).
Proof. intros. apply wf_repeat, inU_0. auto. Qed.
Lemma len_zero_words : forall n, length (zero_words n) = n.
Proof. intros. apply repeat_length. Qed.

Lemma divide_unsigned_spec : forall int128 k a b,
  let w := pw k in
  wf w a -> wf w b -> length a = length b -> a <> nil -> bval w b <> 0 ->
  exists q r, divide_unsigned int128 w a b = Some (q, r) /\
  wf w q /\ wf w r /\ length q = length a /\ length r = length a /\
  bval w q = bval w a / bval w b /\ bval w r = bval w a mod bval w b.
Proof.
  intros int128 k a b w Ha Hb Hl Hn Hb0.
  assert (Hw : 1 <= w) by apply pw_ge1.
  pose proof (bval_range w a ltac:(lia) Ha) as Ra. pose proof (bval_range w b ltac:(lia) Hb) as Rb.
  unfold divide_unsigned.
  destruct (rel_specs false w a b Hw Ha Hb Hl Hn) as (_ & G2 & _). change (sval false w) with (bval w) in G2. rewrite G2.
  destruct (Z.leb_spec (bval w b) (bval w a)) as [Hge|Hlt].
  - unfold w at 1 2 3. rewrite !bi_countl_zero_val by (auto; fold w; lia). fold w. cbn [bindo].
    rewrite (bits_eq w a b Hl) in *.
    replace (bits w b - 1 - Z.log2 (bval w b) - (bits w b - 1 - Z.log2 (bval w a)))
      with (Z.log2 (bval w a) - Z.log2 (bval w b)) by lia.
    set (cb := Z.log2 (bval w a) - Z.log2 (bval w b)).
    assert (Hcb : 0 <= cb) by (unfold cb; pose proof (Z.log2_le_mono _ _ Hge); lia).
    pose proof (Z.log2_nonneg (bval w b)) as Hlb. pose proof (Z.log2_nonneg (bval w a)) as Hla.
    assert (HlaW : Z.log2 (bval w a) < bits w b) by (apply Z.log2_lt_pow2; lia).
    pose proof (Z.log2_spec (bval w a) ltac:(lia)) as [A1 A2].
    pose proof (Z.log2_spec (bval w b) ltac:(lia)) as [B1 B2].
    assert (Epow : 2 ^ Z.log2 (bval w b) * 2 ^ cb = 2 ^ Z.log2 (bval w a)).
    { rewrite <- Z.pow_add_r by lia. f_equal. unfold cb. lia. }
    assert (HPcb : 0 < 2 ^ cb) by (apply pow2_pos; lia).
    destruct (shift_left_spec int128 w b cb Hw Hb Hcb) as (S1 & S2 & S3).
    assert (Hsmall : bval w b * 2 ^ cb < 2 ^ bits w b).
    { rewrite Z.pow_succ_r in B2 by lia.
      apply Z.lt_le_trans with (2 * 2 ^ Z.log2 (bval w b) * 2 ^ cb); [nia|].
      replace (2 * 2 ^ Z.log2 (bval w b) * 2 ^ cb) with (2 ^ Z.succ (Z.log2 (bval w a)))
        by (rewrite Z.pow_succ_r, <- Epow by lia; ring).
      apply pow2_le. lia. }
    rewrite Z.mod_small in S3 by nia.
    pose proof (divide_loop_spec int128 w (Z.to_nat (cb + 1)) a (shift_left int128 w b cb)
       (zero_words (length a)) (bval w a) (bval w b) Hw Ha S1 ltac:(apply wf_zero_words; lia)
       ltac:(congruence) (len_zero_words _) Hn ltac:(lia)) as HD.
    rewrite (bits_eq w a b Hl) in HD.
    rewrite Z2Nat.id in HD by lia.
    specialize (HD ltac:(lia)).
    specialize (HD ltac:(right; rewrite S3; do 2 f_equal; lia)).
    rewrite bval_zero_words in HD. specialize (HD ltac:(lia)).
    assert (Hx : bval w a < bval w b * 2 ^ (cb + 1)).
    { rewrite Z.pow_add_r by lia. change (2 ^ 1) with 2.
      rewrite Z.pow_succ_r, <- Epow in A2 by lia. nia. }
    specialize (HD Hx). specialize (HD ltac:(apply Z.mod_0_l; pose proof (pow2_pos (cb + 1)); lia)).
    specialize (HD ltac:(lia)).
    destruct (divide_loop _ _ _ _ _ _) as [q r]. exists q, r. tauto.
  - exists (zero_words (length a)), a. split; auto.
    split; [apply wf_zero_words; lia|]. split; auto. split; [apply len_zero_words|]. split; auto.
    rewrite bval_zero_words, Z.div_small, Z.mod_small by lia. auto.
Qed.

(* ------------------------------------------------------------------ *)
(** ** Signed division *)
Lemma sval_range : forall w l, 1 <= w -> wf w l -> l <> nil -> inS (bits w l) (sval true w l).
Proof.
  intros. apply to_signed_range; [apply bits_pos; auto|]. apply bval_range; auto; lia.
Qed.

Lemma sval_mod : forall sgn w l, 1 <= w -> wf w l -> l <> nil ->
  bval w l = sval sgn w l mod 2 ^ bits w l.
Proof.
  intros sgn w l Hw Hl Hn. unfold sval, ival. pose proof (bval_range w l ltac:(lia) Hl) as Hr.
  pose proof (bits_pos w l Hw Hn). destruct sgn.
  - fold (wrap (bits w l) (to_signed (bits w l) (bval w l))). rewrite to_signed_wrap by auto.
    symmetry. apply wrap_small. auto.
  - symmetry. apply Z.mod_small. auto.
Qed.

(** Absolute value as computed by [divide_signed]. *)
Lemma abs_words : forall w l, 1 <= w -> wf w l -> l <> nil ->
  let m := if get_msb w l then negate w l else l in
  wf w m /\ length m = length l /\ bval w m = Z.abs (sval true w l).
Proof.
  intros w l Hw Hl Hn m. pose proof (is_neg_spec true w l Hw Hl Hn) as Hneg.
  unfold is_neg in Hneg. simpl andb in Hneg.
  pose proof (sval_range w l Hw Hl Hn) as HS. unfold inS in HS.
  pose proof (pow2_half (bits w l) (bits_pos w l Hw Hn)) as Hh.
  pose proof (bval_range w l ltac:(lia) Hl) as Hr.
  pose proof (sval_mod true w l Hw Hl Hn) as Em.
  unfold m. rewrite Hneg. destruct (Z.ltb_spec (sval true w l) 0) as [Hlt|Hge].
  - destruct (negate_spec w l Hw Hl Hn) as (N1 & N2 & N3). split; auto. split; auto.
    rewrite N3, Em. rewrite <- (Zminus_mod_idemp_r 0) by lia.
    rewrite Z.mod_mod, Zminus_mod_idemp_r by lia. rewrite Z.sub_0_l, Z.mod_small by lia. lia.
  - split; auto. split; auto. rewrite Em, Z.mod_small by lia. lia.
Qed.

Lemma get_msb_sval : forall w l, 1 <= w -> wf w l -> l <> nil -> get_msb w l = (sval true w l <? 0).
Proof. intros. rewrite <- is_neg_spec by auto. reflexivity. Qed.

Lemma divide_signed_spec : forall int128 k a b,
  let w := pw k in
  wf w a -> wf w b -> length a = length b -> a <> nil -> bval w b <> 0 ->
  exists q r, divide_signed int128 w a b = Some (q, r) /\
  wf w q /\ wf w r /\ length q = length a /\ length r = length a /\
  bval w q = Z.quot (sval true w a) (sval true w b) mod 2 ^ bits w a /\
  bval w r = Z.rem (sval true w a) (sval true w b) mod 2 ^ bits w a.
Proof.
  intros int128 k a b w Ha Hb Hl Hn Hb0.
  assert (Hw : 1 <= w) by apply pw_ge1.
  assert (Hnb : b <> nil) by (intros ->; destruct a; [congruence|discriminate]).
  assert (HN : (1 <= length a)%nat) by (destruct a; [congruence|simpl; lia]).
  unfold divide_signed.
  destruct (bi_min_spec w (length a) Hw HN) as (M1 & M2 & M3).
  pose proof (bits_pos w a Hw Hn) as HW.
  assert (HPW : 0 < 2 ^ bits w a) by (apply pow2_pos; lia).
  assert (Hsb : sval true w b <> 0).
  { intros E. apply Hb0. rewrite (sval_mod true w b Hw Hb Hnb), E. apply Z.mod_0_l.
    rewrite <- (bits_eq w a b Hl). lia. }
  destruct (bi_eqb a (bi_min w (length a)) && bi_eqb b (bi_min w (length a))) eqn:Emin.
  - apply andb_true_iff in Emin. destruct Emin as [E1 E2].
    apply bi_eqb_spec in E1; [|congruence]. apply bi_eqb_spec in E2; [|congruence].
    assert (Eab : b = a) by congruence. clear E1 E2. subst b.
    destruct (bi_one_spec w (length a) Hw HN) as (O1 & O2 & O3).
    exists (bi_one w (length a)), (zero_words (length a)). split; auto.
    split; auto. split; [apply wf_zero_words; lia|]. split; auto. split; [apply len_zero_words|].
    rewrite O3, bval_zero_words, Z.quot_same, Z.rem_same by auto. split.
    + symmetry. apply Z.mod_small. pose proof (pow2_lt 0 (bits w a)). change (2 ^ 0) with 1 in *. lia.
    + symmetry. apply Z.mod_0_l. lia.
  - destruct (abs_words w a Hw Ha Hn) as (A1 & A2 & A3).
    destruct (abs_words w b Hw Hb Hnb) as (B1 & B2 & B3).
    set (ma := if get_msb w a then negate w a else a) in *.
    set (mb := if get_msb w b then negate w b else b) in *.
    assert (Hma : ma <> nil) by (intros E; rewrite E in A2; simpl in A2; lia).
    destruct (divide_unsigned_spec int128 k ma mb A1 B1 ltac:(congruence) Hma ltac:(fold w; lia))
      as (q & r & D0 & D1 & D2 & D3 & D4 & D5 & D6).
    fold w in D0, D1, D2, D5, D6. rewrite D0. cbn [bindo]. rewrite A3, B3 in D5, D6.
    eexists _, _. split; [reflexivity|].
    rewrite !get_msb_sval by auto.
    set (x := sval true w a) in *. set (y := sval true w b) in *.
    assert (Hnq : q <> nil) by (intros ->; simpl in D3; lia).
    assert (Hnr : r <> nil) by (intros ->; simpl in D4; lia).
    destruct (negate_spec w q Hw D1 Hnq) as (N1 & N2 & N3).
    destruct (negate_spec w r Hw D2 Hnr) as (P1 & P2 & P3).
    assert (Lqa : length q = length a) by congruence. assert (Lra : length r = length a) by congruence.
    rewrite (bits_eq w q a Lqa) in N3. rewrite (bits_eq w r a Lra) in P3.
    split; [destruct (negb _); auto|]. split; [destruct (x <? 0); auto|].
    split; [destruct (negb _); congruence|]. split; [destruct (x <? 0); congruence|].
    pose proof (bval_range w q ltac:(lia) D1) as Rq. pose proof (bval_range w r ltac:(lia) D2) as Rr.
    rewrite (bits_eq w q a Lqa) in Rq. rewrite (bits_eq w r a Lra) in Rr.
    assert (EQ : Z.abs x / Z.abs y = Z.quot (Z.abs x) (Z.abs y)) by (rewrite Z.quot_div_nonneg; lia).
    assert (ER : Z.abs x mod Z.abs y = Z.rem (Z.abs x) (Z.abs y)) by (rewrite Z.rem_mod_nonneg; lia).
    rewrite EQ in D5. rewrite ER in D6.
    split.
    + assert (HQ : Z.quot x y = if negb (eqb (x <? 0) (y <? 0)) then - bval w q else bval w q).
      { rewrite D5. destruct (Z.ltb_spec x 0), (Z.ltb_spec y 0); simpl.
        - rewrite (Z.abs_neq x), (Z.abs_neq y), Z.quot_opp_opp by lia. reflexivity.
        - rewrite (Z.abs_neq x), (Z.abs_eq y), Z.quot_opp_l by lia. lia.
        - rewrite (Z.abs_eq x), (Z.abs_neq y), Z.quot_opp_r by lia. lia.
        - rewrite (Z.abs_eq x), (Z.abs_eq y) by lia. reflexivity. }
      rewrite HQ. destruct (negb _); [auto|]. symmetry. apply Z.mod_small. auto.
    + assert (HR : Z.rem x y = if x <? 0 then - bval w r else bval w r).
      { rewrite D6. destruct (Z.ltb_spec x 0), (Z.ltb_spec y 0); simpl.
        - rewrite (Z.abs_neq x), (Z.abs_neq y), Z.rem_opp_opp by lia. lia.
        - rewrite (Z.abs_neq x), (Z.abs_eq y), Z.rem_opp_l by lia. lia.
        - rewrite (Z.abs_eq x), (Z.abs_neq y), Z.rem_opp_r by lia. lia.
        - rewrite (Z.abs_eq x), (Z.abs_eq y) by lia. reflexivity. }
      rewrite HR. destruct (x <? 0); [auto|]. symmetry. apply Z.mod_small. auto.
Qed.

(** [div] as a whole. *)
Lemma bi_div_zero : forall int128 sgn w a b, 0 <= w -> wf w b -> bval w b = 0 ->
  bi_div int128 sgn w a b = Some (a, None).
Proof. intros. unfold bi_div. rewrite (is_zero_spec w) by auto. rewrite H1. reflexivity. Qed.

Lemma bi_div_spec : forall int128 sgn k a b,
  let w := pw k in
  wf w a -> wf w b -> length a = length b -> a <> nil -> bval w b <> 0 ->
  exists q r, bi_div int128 sgn w a b = Some (q, Some r) /\
  wf w q /\ wf w r /\ length q = length a /\ length r = length a /\
  bval w q = Z.quot (sval sgn w a) (sval sgn w b) mod 2 ^ bits w a /\
  bval w r = Z.rem (sval sgn w a) (sval sgn w b) mod 2 ^ bits w a.
Proof.
  intros int128 sgn k a b w Ha Hb Hl Hn Hb0.
  assert (Hw : 1 <= w) by apply pw_ge1.
  assert (Hnb : b <> nil) by (intros ->; destruct a; [congruence|discriminate]).
  assert (HN : (1 <= length a)%nat) by (destruct a; [congruence|simpl; lia]).
  pose proof (bval_range w a ltac:(lia) Ha) as Ra. pose proof (bval_range w b ltac:(lia) Hb) as Rb.
  pose proof (bits_pos w a Hw Hn) as HW.
  assert (HPW : 0 < 2 ^ bits w a) by (apply pow2_pos; lia).
  unfold bi_div. rewrite (is_zero_spec w) by (auto; lia).
  destruct (Z.eqb_spec (bval w b) 0); [congruence|].
  destruct (bi_one_spec w (length a) Hw HN) as (O1 & O2 & O3).
  destruct (bi_eqb b (bi_one w (length a))) eqn:E1.
  - apply bi_eqb_spec in E1; [|congruence]. exists a, (zero_words (length a)).
    split; auto. split; auto. split; [apply wf_zero_words; lia|]. split; auto.
    split; [apply len_zero_words|]. rewrite bval_zero_words.
    assert (Eb : bval w b = 1) by congruence.
    assert (Hs : sval sgn w b = 1 \/ (sval sgn w b = -1 /\ bits w b = 1)).
    { unfold sval, ival. rewrite Eb. destruct sgn; auto. unfold to_signed.
      destruct (Z.ltb_spec 1 (2 ^ (bits w b - 1))); auto. right.
      rewrite (bits_eq w a b Hl) in HW.
      destruct (Z.eq_dec (bits w b) 1) as [E|E].
      - rewrite E. change (2 ^ 1) with 2. lia.
      - pose proof (pow2_le 1 (bits w b - 1)). change (2 ^ 1) with 2 in *. lia. }
    pose proof (sval_mod sgn w a Hw Ha Hn) as Em.
    destruct Hs as [-> | [-> EW]].
    + rewrite Z.quot_1_r, Z.rem_1_r, Z.mod_0_l by lia. auto.
    + rewrite <- (bits_eq w a b Hl) in EW. rewrite EW in *. change (2 ^ 1) with 2 in *.
      replace (Z.quot (sval sgn w a) (-1)) with (- sval sgn w a)
        by (replace (-1) with (-(1)) by lia; rewrite Z.quot_opp_r, Z.quot_1_r by lia; lia).
      replace (Z.rem (sval sgn w a) (-1)) with 0
        by (replace (-1) with (-(1)) by lia; rewrite Z.rem_opp_r, Z.rem_1_r by lia; lia).
      rewrite Z.mod_0_l by lia. split; auto. rewrite Em.
      clear. zlia.
  - destruct sgn.
    + destruct (divide_signed_spec int128 k a b Ha Hb Hl Hn Hb0) as (q & r & D0 & D). fold w in D0, D.
      rewrite D0. cbn [bindo fst snd]. exists q, r. split; auto.
    + destruct (divide_unsigned_spec int128 k a b Ha Hb Hl Hn Hb0) as (q & r & D0 & D1 & D2 & D3 & D4 & D5 & D6).
      fold w in D0, D1, D2, D5, D6. rewrite D0. cbn [bindo fst snd]. exists q, r. split; auto.
      change (sval false w) with (bval w). rewrite Z.quot_div_nonneg, Z.rem_mod_nonneg by lia.
      pose proof (bval_range w q ltac:(lia) D1) as Rq. pose proof (bval_range w r ltac:(lia) D2) as Rr.
      rewrite (bits_eq w q a D3) in Rq. rewrite (bits_eq w r a D4) in Rr.
      rewrite <- D5, <- D6, !Z.mod_small by auto. repeat split; auto.
Qed.
