(** * Multiword conversions, half-word division, powers, masks, rotations *)
From Coq Require Import ZArith Lia Bool List.
From Verif Require Import MachInt Bits BitsSpec BitsProofs BigInt BigIntProofs BigIntMul BigIntShift BigIntDiv.
Import ListNotations.
Open Scope Z_scope.

Lemma bval_firstn_S : forall w i l, 0 <= w -> (i < length l)%nat ->
  bval w (firstn (S i) l) = bval w (firstn i l) + 2 ^ (w * Z.of_nat i) * wget l i.
Proof.
  intros w i l Hw. revert l. induction i; intros l Hi; destruct l as [|d l]; simpl in Hi; try lia.
  - cbn [firstn bval]. change (Z.of_nat 0) with 0. rewrite !Z.mul_0_r.
    change (wget (d :: l) 0) with d. change (2 ^ 0) with 1. ring.
  - change (firstn (S (S i)) (d :: l)) with (d :: firstn (S i) l).
    change (firstn (S i) (d :: l)) with (d :: firstn i l).
    change (wget (d :: l) (S i)) with (wget l i). cbn [bval].
    rewrite (IHi l ltac:(lia)), pow_wS by lia. ring.
Qed.

Lemma bval_skipn : forall w n l, 0 <= w -> wf w l -> (n <= length l)%nat ->
  wf w (skipn n l) /\ length (skipn n l) = (length l - n)%nat /\
  bval w l = bval w (firstn n l) + 2 ^ (w * Z.of_nat n) * bval w (skipn n l).
Proof.
  intros w n l Hw Hl Hn. rewrite <- (firstn_skipn n l) in Hl at 1. apply wf_app in Hl.
  split; [tauto|]. split; [apply skipn_length|].
  rewrite <- (firstn_skipn n l) at 1. rewrite bval_app by auto.
  unfold bits. rewrite firstn_length_le by auto. reflexivity.
Qed.

(** ** to<T> *)
Lemma to_loop_spec : forall w ts k i l lo, 1 <= w -> 1 <= ts -> wf w l -> (i + k <= length l)%nat ->
  lo = wrap ts (bval w (firstn i l)) ->
  to_loop w ts k i l lo = wrap ts (bval w (firstn (i + k) l)).
Proof.
  intros w ts k. induction k; intros i l lo Hw Ht Hl Hk Hlo.
  - rewrite Nat.add_0_r. auto.
  - cbn [to_loop]. replace (i + S k)%nat with (S i + k)%nat by lia. apply IHk; auto; [lia|].
    rewrite bval_firstn_S by lia. rewrite Hlo. rewrite Z.shiftl_mul_pow2 by nia.
    rewrite wrap_mul_l by lia. rewrite wrap_add_l, wrap_add_r by lia. f_equal. ring.
Qed.

Lemma wrap_wrap_le : forall a b z, 0 <= a <= b -> wrap a (wrap b z) = wrap a z.
Proof.
  intros a b z H. unfold wrap. symmetry. pose proof (pow2_pos a ltac:(lia)).
  replace (2 ^ b) with (2 ^ a * 2 ^ (b - a)) by (rewrite <- Z.pow_add_r by lia; f_equal; lia).
  pose proof (pow2_pos (b - a) ltac:(lia)).
  rewrite Z.rem_mul_r by lia. rewrite (Z.mul_comm (2 ^ a)). rewrite Z.mod_add by lia.
  rewrite Z.mod_mod by lia. reflexivity.
Qed.

Lemma wrap_sval : forall sgn w l t, 1 <= w -> wf w l -> l <> nil -> 0 <= t <= bits w l ->
  wrap t (sval sgn w l) = wrap t (bval w l).
Proof.
  intros. rewrite (sval_mod sgn w l) by auto. symmetry. apply wrap_wrap_le. auto.
Qed.

Lemma to_uint_spec : forall sgn w ts l, 1 <= w -> 1 <= ts -> wf w l -> l <> nil ->
  (ts <= w \/ ts mod w = 0) ->
  to_uint sgn w ts l = wrap ts (sval sgn w l).
Proof.
  intros sgn w ts l Hw Ht Hl Hn Hd. unfold to_uint.
  assert (HL : (1 <= length l)%nat) by (destruct l; [congruence|simpl; lia]).
  assert (E0 : wget l 0 = bval w (firstn 1 l)).
  { destruct l; [congruence|]. unfold wget. simpl. lia. }
  assert (Hbw : w <= bits w l) by (unfold bits; nia).
  change (w * Z.of_nat (length l)) with (bits w l).
  pose proof (firstn_spec w l 1 ltac:(lia) Hl HL) as (F1 & F2 & F3).
  destruct (Z.leb_spec ts w) as [Hle|Hgt].
  - rewrite wrap_sval by (auto; lia). rewrite E0, F3.
    replace (w * Z.of_nat 1) with w by lia. apply wrap_wrap_le. lia.
  - destruct Hd as [Hd|Hd]; [lia|].
    assert (Hts : w * (ts / w) = ts) by (pose proof (Z.div_mod ts w); lia).
    set (mc := if bits w l <? ts then length l else Z.to_nat (ts / w)).
    assert (Hmc : (1 <= mc <= length l)%nat).
    { unfold mc. destruct (Z.ltb_spec (bits w l) ts); [lia|].
      assert (1 <= ts / w) by (apply Z.div_le_lower_bound; lia).
      assert (ts / w <= Z.of_nat (length l)) by (unfold bits in *; nia). lia. }
    rewrite to_loop_spec by (auto; try lia; rewrite E0; reflexivity).
    replace (1 + (mc - 1))%nat with mc by lia.
    destruct (firstn_spec w l mc ltac:(lia) Hl ltac:(lia)) as (G1 & G2 & G3).
    unfold mc in *. destruct (Z.ltb_spec (bits w l) ts) as [Hlt|Hge].
    + rewrite firstn_all. rewrite andb_true_r.
      pose proof (bval_range w l ltac:(lia) Hl) as Hr.
      pose proof (pow2_lt (bits w l) ts ltac:(lia)) as Hp.
      pose proof (bits_pos w l Hw Hn) as HB.
      rewrite (wrap_small ts (bval w l)) by (unfold inU; lia).
      destruct sgn.
      * rewrite is_neg_spec by auto. unfold sval, ival, to_signed.
        destruct (Z.ltb_spec (bval w l) (2 ^ (bits w l - 1))) as [Hs|Hs].
        -- replace (bval w l <? 0) with false by lia. symmetry. apply wrap_small. unfold inU; lia.
        -- replace (bval w l - 2 ^ bits w l <? 0) with true by lia.
           rewrite Z.shiftl_mul_pow2 by lia.
           replace (unot ts 0) with (2 ^ ts - 1) by (unfold unot; lia).
           set (B := bits w l) in *.
           assert (HPB : 0 < 2 ^ B) by (apply pow2_pos; lia).
           rewrite (wrap_unique ts ((2 ^ ts - 1) * 2 ^ B) (2 ^ ts - 2 ^ B) (2 ^ B - 1))
             by (unfold inU; try split; try ring; lia).
           assert (ES : 2 ^ ts - 2 ^ B = (2 ^ (ts - B) - 1) * 2 ^ B).
           { rewrite Z.mul_sub_distr_r, <- Z.pow_add_r by lia. f_equal; [f_equal; lia|lia]. }
           rewrite Z.lor_comm, ES, lor_add by lia. rewrite <- ES.
           symmetry. apply wrap_unique with (-1); [unfold inU; lia|ring].
      * simpl. symmetry. apply wrap_small. unfold inU; lia.
    + rewrite andb_false_r. rewrite G3. rewrite Z2Nat.id by (apply Z.div_pos; lia). rewrite Hts.
      rewrite wrap_sval by (auto; lia). apply wrap_wrap_le. lia.
Qed.

(** ** Same-word-size conversion *)
Lemma mod_mod_le : forall a b z, 0 <= a <= b -> (z mod 2 ^ b) mod 2 ^ a = z mod 2 ^ a.
Proof. intros a b z H. apply (wrap_wrap_le a b z H). Qed.

(** What the conversion computes: the source value is read as signed only when
    both sides are signed. *)
Lemma ext_val : forall sgn osgn w l n, 1 <= w -> wf w l -> l <> nil -> (length l <= n)%nat ->
  bval w (l ++ repeat (if sgn && is_neg osgn w l then 2 ^ w - 1 else 0) (n - length l))
  = sval (sgn && osgn) w l mod 2 ^ (w * Z.of_nat n).
Proof.
  intros sgn osgn w l n Hw Hl Hn Hle. rewrite bval_app, bval_fill by lia.
  assert (E : sgn && is_neg osgn w l = is_neg (sgn && osgn) w l).
  { unfold is_neg. destruct sgn, osgn; reflexivity. }
  rewrite E, is_neg_spec by auto. set (s := sgn && osgn).
  pose proof (bval_range w l ltac:(lia) Hl) as Hr. pose proof (bits_pos w l Hw Hn) as HB.
  pose proof (sval_mod s w l Hw Hl Hn) as Em.
  assert (EP : 2 ^ (w * Z.of_nat n) = 2 ^ bits w l * 2 ^ (w * Z.of_nat (n - length l))).
  { rewrite <- Z.pow_add_r by (try apply wn_nonneg; lia). f_equal. unfold bits.
    rewrite Nat2Z.inj_sub by lia. ring. }
  assert (HP2 : 1 <= 2 ^ (w * Z.of_nat (n - length l))) by (pose proof (pow2_pos _ (wn_nonneg w (n - length l) ltac:(lia))); lia).
  destruct (Z.ltb_spec (sval s w l) 0) as [Hneg|Hpos].
  - assert (Hsv : sval s w l = bval w l - 2 ^ bits w l).
    { unfold sval, ival, to_signed in *. destruct s; [|lia]. destruct (_ <? _); lia. }
    rewrite Hsv, EP. apply Z.mod_unique with (q := -1); [|ring]. left. nia.
  - assert (Hsv : sval s w l = bval w l).
    { unfold sval, ival, to_signed in *. destruct s; [|lia]. destruct (_ <? _); lia. }
    rewrite Hsv, EP, Z.mod_small by nia. ring.
Qed.

Lemma convert_spec : forall w n sgn osgn l, 1 <= w -> wf w l -> l <> nil ->
  wf w (convert w n sgn osgn l) /\ length (convert w n sgn osgn l) = n /\
  bval w (convert w n sgn osgn l) = sval (sgn && osgn) w l mod 2 ^ (w * Z.of_nat n).
Proof.
  intros w n sgn osgn l Hw Hl Hn. unfold convert.
  destruct (Nat.leb_spec n (length l)).
  - destruct (firstn_spec w l n ltac:(lia) Hl H) as (F1 & F2 & F3). split; auto. split; auto.
    rewrite F3, (sval_mod (sgn && osgn) w l) by auto. apply mod_mod_le.
    unfold bits. nia.
  - unfold extend. rewrite firstn_app, firstn_all, Nat.sub_diag. simpl (firstn 0 _). rewrite app_nil_r.
    rewrite app_length, len_zero_words.
    replace (length l + (n - length l) - length l)%nat with (n - length l)%nat by lia.
    split; [apply wf_app; split; auto; apply wf_fill; lia|].
    split; [rewrite app_length, repeat_length; lia|]. apply ext_val; auto. lia.
Qed.

(** ** Conversions between word sizes *)
Lemma testbit_shl_wrap : forall w x s b, 0 <= b < w -> 0 <= s ->
  Z.testbit (wrap w (Z.shiftl x s)) b = (s <=? b) && Z.testbit x (b - s).
Proof.
  intros. rewrite testbit_wrap by lia. replace (b <? w) with true by lia.
  rewrite Z.shiftl_spec by lia. destruct (Z.leb_spec s b); simpl; auto.
  apply Z.testbit_neg_r. lia.
Qed.

Lemma gather_bit : forall ow k w j base l cur b,
  1 <= ow -> wf ow l -> 0 <= b < w -> ow * Z.of_nat (j + k) <= w ->
  (forall i, ow * Z.of_nat j <= i -> Z.testbit cur i = false) ->
  Z.testbit (gather w ow k j base l cur) b =
    if b <? ow * Z.of_nat j then Z.testbit cur b
    else (b <? ow * Z.of_nat (j + k)) && Z.testbit (bval ow l) (ow * Z.of_nat base + b).
Proof.
  intros ow k. induction k; intros w j base l cur b How Hl Hb Hw Hc.
  - cbn [gather]. rewrite Nat.add_0_r. destruct (Z.ltb_spec b (ow * Z.of_nat j)); auto.

  - cbn [gather]. rewrite IHk; auto; try lia.
    + rewrite Z.lor_spec, testbit_shl_wrap by nia.
      replace (S j + k)%nat with (j + S k)%nat by lia.
      replace (ow * Z.of_nat (S j)) with (ow * Z.of_nat j + ow) by lia.
      destruct (Z.ltb_spec b (ow * Z.of_nat j)) as [H1|H1].
      * replace (b <? ow * Z.of_nat j + ow) with true by lia.
        replace (ow * Z.of_nat j <=? b) with false by lia. apply orb_false_r.
      * replace (ow * Z.of_nat j <=? b) with true by lia. simpl andb.
        destruct (Z.ltb_spec b (ow * Z.of_nat j + ow)) as [H2|H2].
        -- rewrite Hc by lia. simpl orb.
           assert (Hk0 : 0 <= ow * Z.of_nat k) by nia. destruct (Z.ltb_spec b (ow * Z.of_nat (j + S k))); [|lia]. simpl andb.
           replace (base + j)%nat with (Z.to_nat (Z.of_nat (base + j))) by lia.
           rewrite (bval_bit ow) by (auto; lia). f_equal. lia.
        -- reflexivity.
    + intros i Hi. rewrite Z.lor_spec, Hc by lia. simpl.
      destruct (Z_lt_le_dec i w).
      * rewrite testbit_shl_wrap by nia. replace (ow * Z.of_nat j <=? i) with true by nia. simpl.
        apply testbit_high with ow; [apply wget_range; auto; lia|lia].
      * apply testbit_high with w; [apply wrap_range; nia|auto].
Qed.

Lemma gather0_bit : forall ow k w base l b,
  1 <= ow -> wf ow l -> 0 <= b < w -> ow * Z.of_nat k <= w ->
  Z.testbit (gather w ow k 0 base l 0) b =
    (b <? ow * Z.of_nat k) && Z.testbit (bval ow l) (ow * Z.of_nat base + b).
Proof.
  intros. rewrite gather_bit; auto.
  - simpl (0 + k)%nat. destruct (Z.ltb_spec b (ow * Z.of_nat 0)); [lia|]. reflexivity.
  - intros. apply Z.bits_0.
Qed.

Lemma gather_range : forall ow k w j base l cur, 0 <= w -> inU w cur -> inU w (gather w ow k j base l cur).
Proof.
  intros ow k. induction k; intros; cbn [gather]; auto. apply IHk; auto.
  apply inU_lor; auto. apply wrap_range. auto.
Qed.

Lemma sval_testbit_high : forall sgn w l i, 1 <= w -> wf w l -> l <> nil -> bits w l <= i ->
  Z.testbit (sval sgn w l) i = is_neg sgn w l.
Proof.
  intros sgn w l i Hw Hl Hn Hi. pose proof (bits_pos w l Hw Hn).
  rewrite is_neg_spec by auto. pose proof (bval_range w l ltac:(lia) Hl) as Hr.
  unfold sval, ival. destruct sgn.
  - rewrite testbit_to_signed by (auto; lia). rewrite Z.min_r by lia.
    rewrite (testbit_top (bits w l)) by (auto; lia). unfold to_signed.
    destruct (Z.ltb_spec (bval w l) (2 ^ (bits w l - 1))); lia.
  - replace (bval w l <? 0) with false by lia. apply bval_testbit_high; auto; lia.
Qed.

Lemma sval_testbit_low : forall sgn w l i, 1 <= w -> wf w l -> l <> nil -> 0 <= i < bits w l ->
  Z.testbit (sval sgn w l) i = Z.testbit (bval w l) i.
Proof.
  intros sgn w l i Hw Hl Hn Hi. pose proof (bits_pos w l Hw Hn).
  pose proof (bval_range w l ltac:(lia) Hl) as Hr. unfold sval, ival. destruct sgn; auto.
  rewrite testbit_to_signed by (auto; lia). rewrite Z.min_l by lia. auto.
Qed.

Lemma wget_app : forall a b i, wget (a ++ b) i =
  if (i <? length a)%nat then wget a i else wget b (i - length a).
Proof.
  intros. unfold wget. destruct (Nat.ltb_spec i (length a)); [apply app_nth1|apply app_nth2]; auto.
Qed.

Lemma and_neg : forall sgn osgn w l, sgn && is_neg osgn w l = is_neg (sgn && osgn) w l.
Proof. intros. unfold is_neg. destruct sgn, osgn; reflexivity. Qed.

Lemma ones_bit : forall w b, 0 <= b < w -> Z.testbit (2 ^ w - 1) b = true.
Proof.
  intros. replace (2 ^ w - 1) with (Z.ones w) by (rewrite Z.ones_equiv; lia).
  apply Z.ones_spec_low. lia.
Qed.

Lemma fill_bit : forall w (c : bool) b, 0 <= b < w -> Z.testbit (if c then 2 ^ w - 1 else 0) b = c.
Proof. intros. destruct c; [apply ones_bit; auto|apply Z.bits_0]. Qed.

Lemma wget_repeat : forall x n i, (i < n)%nat -> wget (repeat x n) i = x.
Proof.
  intros x n. induction n; intros i Hi; [lia|]. destruct i; unfold wget; simpl; auto.
  apply IHn. lia.
Qed.

(** Word by word conversion, smaller to larger words: correct except when the
    source fills a whole number of target words and has to be sign-extended. *)
Lemma convert_up_spec : forall ow ratio n sgn osgn l,
  let w := ow * Z.of_nat ratio in
  1 <= ow -> (1 <= ratio)%nat -> wf ow l -> l <> nil ->
  (Nat.modulo (length l) ratio <> 0%nat \/ w * Z.of_nat n <= bits ow l \/ is_neg (sgn && osgn) ow l = false) ->
  wf w (convert_up ow ratio n sgn osgn l) /\ length (convert_up ow ratio n sgn osgn l) = n /\
  bval w (convert_up ow ratio n sgn osgn l) = sval (sgn && osgn) ow l mod 2 ^ (w * Z.of_nat n).
Proof.
  intros ow ratio n sgn osgn l w How Hr Hl Hn Hc.
  assert (Hw : 1 <= w) by (unfold w; nia).
  assert (Hneg := sval_testbit_high (sgn && osgn) ow l).
  unfold convert_up. fold w. rewrite and_neg. set (neg := is_neg (sgn && osgn) ow l) in *.
  set (v := sval (sgn && osgn) ow l) in *.
  change (ow * Z.of_nat (length l)) with (bits ow l).
  assert (Hlow : forall i, 0 <= i < bits ow l -> Z.testbit v i = Z.testbit (bval ow l) i)
    by (intros; apply sval_testbit_low; auto).
  assert (Hword : forall p b, 0 <= b < w -> Z.of_nat p * w + b < bits ow l ->
    Z.testbit (gather w ow ratio 0 (p * ratio) l 0) b = Z.testbit v (Z.of_nat p * w + b)).
  { intros p b Hb Hp. rewrite gather0_bit by (auto; unfold w in *; lia). fold w.
    replace (b <? w) with true by lia. simpl. rewrite Hlow by lia. f_equal. unfold w. nia. }
  destruct (Z.leb_spec (w * Z.of_nat n) (bits ow l)) as [Hbig|Hsmall].
  - assert (W1 : wf w (map (fun i => gather w ow ratio 0 (i * ratio) l 0) (seq 0 n))).
    { apply wf_map. intros. apply gather_range; [lia|apply inU_0; lia]. }
    assert (W2 : length (map (fun i => gather w ow ratio 0 (i * ratio) l 0) (seq 0 n)) = n)
      by (rewrite map_length, seq_length; auto).
    split; auto. split; auto.
    rewrite (bval_bits_eq w _ v Hw W1); [unfold bits; rewrite W2; reflexivity|].
    intros p b Hp Hb. rewrite W2 in Hp. rewrite wget_map_seq by auto. apply Hword; auto. nia.
  - set (len := length l) in *. set (full := Nat.div len ratio). set (rest := Nat.modulo len ratio) in *.
    assert (Hdm : len = (ratio * full + rest)%nat) by (apply Nat.div_mod; lia).
    assert (Hrest : (rest < ratio)%nat) by (apply Nat.mod_upper_bound; lia).
    assert (Hbits : bits ow l = w * Z.of_nat full + ow * Z.of_nat rest).
    { unfold bits. fold len. rewrite Hdm. unfold w. lia. }
    assert (Hfull : (full < n)%nat) by nia.
    set (ext := if neg then 2 ^ w - 1 else 0) in *.
    assert (Hext : inU w ext) by (unfold ext, inU; pose proof (pow2_pos w ltac:(lia)); destruct neg; lia).
    set (cur := if negb (rest =? 0)%nat then _ else _).
    assert (Hcur : inU w cur).
    { unfold cur. destruct (negb _); [apply inU_lor|]; try apply gather_range; try apply wrap_range; try apply inU_0; lia. }
    set (lst := map _ _ ++ cur :: repeat ext (n - full - 1)).
    assert (W1 : wf w lst).
    { apply wf_app. split; [apply wf_map; intros; apply gather_range; [lia|apply inU_0; lia]|].
      constructor; auto. apply wf_repeat; auto. }
    assert (W2 : length lst = n).
    { unfold lst. rewrite app_length, map_length, seq_length. simpl. rewrite repeat_length. lia. }
    split; auto. split; auto.
    rewrite (bval_bits_eq w _ v Hw W1); [unfold bits; rewrite W2; reflexivity|].
    intros p b Hp Hb. rewrite W2 in Hp. unfold lst. rewrite wget_app, map_length, seq_length.
    destruct (Nat.ltb_spec p full) as [Hpf|Hpf].
    + rewrite wget_map_seq by auto. apply Hword; auto. nia.
    + destruct (Nat.eq_dec p full) as [->|Hpne].
      * rewrite Nat.sub_diag. unfold wget at 1. cbn [nth]. unfold cur.
        assert (Hg : Z.testbit (gather w ow rest 0 (full * ratio) l 0) b =
                     (b <? ow * Z.of_nat rest) && Z.testbit v (Z.of_nat full * w + b)).
        { rewrite gather0_bit by (auto; unfold w; nia).
          destruct (Z.ltb_spec b (ow * Z.of_nat rest)); simpl; auto.
          rewrite Hlow by nia. f_equal. unfold w. nia. }
        destruct (Nat.eqb_spec rest 0) as [E0|E0]; simpl negb; cbv iota.
        -- rewrite Hg. rewrite E0. destruct (Z.ltb_spec b (ow * Z.of_nat 0)); [lia|]. simpl.
           rewrite Hneg by (auto; nia). destruct Hc as [Hc|[Hc|Hc]]; [lia|nia|]. symmetry. exact Hc.
        -- rewrite Z.lor_spec, Hg, testbit_shl_wrap by nia.
           destruct (Z.ltb_spec b (ow * Z.of_nat rest)).
           ++ replace (ow * Z.of_nat rest <=? b) with false by lia. simpl. apply orb_false_r.
           ++ replace (ow * Z.of_nat rest <=? b) with true by lia. simpl.
              unfold ext. rewrite fill_bit by nia. rewrite Hneg by (auto; nia). reflexivity.
      * replace (p - full)%nat with (S (p - full - 1)) by lia. unfold wget at 1. cbn [nth].
        fold (wget (repeat ext (n - full - 1)) (p - full - 1)). rewrite wget_repeat by lia.
        unfold ext. rewrite fill_bit by auto. rewrite Hneg by (auto; nia). reflexivity.
Qed.

Lemma convert_down_spec : forall w ratio n sgn osgn l,
  let ow := w * Z.of_nat ratio in
  1 <= w -> (1 <= ratio)%nat -> wf ow l -> l <> nil ->
  wf w (convert_down w ratio n sgn osgn l) /\ length (convert_down w ratio n sgn osgn l) = n /\
  bval w (convert_down w ratio n sgn osgn l) = sval (sgn && osgn) ow l mod 2 ^ (w * Z.of_nat n).
Proof.
  intros w ratio n sgn osgn l ow Hw Hr Hl Hn.
  assert (How : 1 <= ow) by (unfold ow; nia).
  assert (Hneg := sval_testbit_high (sgn && osgn) ow l).
  unfold convert_down. fold ow. rewrite and_neg. set (neg := is_neg (sgn && osgn) ow l) in *.
  set (v := sval (sgn && osgn) ow l) in *.
  change (ow * Z.of_nat (length l)) with (bits ow l).
  assert (Hlow : forall i, 0 <= i < bits ow l -> Z.testbit v i = Z.testbit (bval ow l) i)
    by (intros; apply sval_testbit_low; auto).
  set (word := fun i => wrap w (Z.shiftr (wget l (Nat.div i ratio)) (Z.of_nat (Nat.modulo i ratio) * w))).
  assert (Hword : forall p b, 0 <= b < w -> Z.of_nat p * w + b < bits ow l ->
    Z.testbit (word p) b = Z.testbit v (Z.of_nat p * w + b)).
  { intros p b Hb Hp. unfold word. rewrite testbit_wrap by lia. replace (b <? w) with true by lia.
    rewrite Z.shiftr_spec by lia.
    pose proof (Nat.div_mod p ratio ltac:(lia)) as Hdm. pose proof (Nat.mod_upper_bound p ratio ltac:(lia)) as Hm.
    set (pd := Nat.div p ratio) in *. set (pm := Nat.modulo p ratio) in *.
    replace pd with (Z.to_nat (Z.of_nat pd)) by lia.
    assert (Z.of_nat pm * w + w <= ow) by (unfold ow; nia).
    rewrite (bval_bit ow) by (auto; nia). rewrite Hlow by nia. 
    assert (Hdz : Z.of_nat p = Z.of_nat ratio * Z.of_nat pd + Z.of_nat pm) by lia.
    rewrite andb_true_l. f_equal. clearbody pd pm. clear - Hdz. unfold ow. rewrite Hdz. ring. }
  assert (Hwr : forall p, inU w (word p)) by (intros; apply wrap_range; lia).
  destruct (Z.leb_spec (w * Z.of_nat n) (bits ow l)) as [Hbig|Hsmall].
  - assert (W1 : wf w (map word (seq 0 n))) by (apply wf_map; auto).
    assert (W2 : length (map word (seq 0 n)) = n) by (rewrite map_length, seq_length; auto).
    split; auto. split; auto.
    rewrite (bval_bits_eq w _ v Hw W1); [unfold bits; rewrite W2; reflexivity|].
    intros p b Hp Hb. rewrite W2 in Hp. rewrite wget_map_seq by auto. apply Hword; auto. nia.
  - set (av := (length l * ratio)%nat).
    assert (Hbits : bits ow l = w * Z.of_nat av) by (unfold bits, av, ow; nia).
    assert (Hav : (av < n)%nat) by nia.
    set (ext := if neg then 2 ^ w - 1 else 0) in *.
    set (lst := map word (seq 0 av) ++ repeat ext (n - av)).
    assert (W1 : wf w lst).
    { apply wf_app. split; [apply wf_map; auto|]. apply wf_fill. lia. }
    assert (W2 : length lst = n).
    { unfold lst. rewrite app_length, map_length, seq_length, repeat_length. lia. }
    split; auto. split; auto.
    rewrite (bval_bits_eq w _ v Hw W1); [unfold bits; rewrite W2; reflexivity|].
    intros p b Hp Hb. rewrite W2 in Hp. unfold lst. rewrite wget_app, map_length, seq_length.
    destruct (Nat.ltb_spec p av) as [Hpf|Hpf].
    + rewrite wget_map_seq by auto. apply Hword; auto. nia.
    + rewrite wget_repeat by lia. unfold ext. rewrite fill_bit by auto. rewrite Hneg by (auto; nia). reflexivity.
Qed.
