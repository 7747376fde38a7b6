(** * Multiword shifts, bit access, comparison *)
From Coq Require Import ZArith Lia Bool List.
From Verif Require Import MachInt Bits BitsSpec BitsProofs BigInt BigIntProofs.
Import ListNotations.
Open Scope Z_scope.

(** Signed or unsigned reading of a [W]-bit pattern. *)
Definition ival (sgn : bool) (W v : Z) : Z := if sgn then to_signed W v else v.
(** The integer represented by a BigInt. *)
Definition sval (sgn : bool) (w : Z) (l : words) : Z := ival sgn (bits w l) (bval w l).

Lemma testbit_to_signed : forall W v i, 1 <= W -> inU W v -> 0 <= i ->
  Z.testbit (to_signed W v) i = Z.testbit v (Z.min i (W - 1)).
Proof.
  intros W v i HW Hv Hi. pose proof (testbit_top W v HW Hv) as Ht.
  unfold to_signed. destruct (Z.ltb_spec v (2 ^ (W - 1))).
  - replace (2 ^ (W - 1) <=? v) with false in Ht by lia.
    destruct (Z_lt_le_dec i W).
    + rewrite Z.min_l by lia. reflexivity.
    + rewrite Z.min_r by lia. rewrite Ht. apply (testbit_high W); auto.
  - replace (2 ^ (W - 1) <=? v) with true in Ht by lia.
    replace (v - 2 ^ W) with ((-1) * 2 ^ W + v) by lia.
    rewrite <- lor_add by (auto; lia). rewrite Z.lor_spec, Z.mul_pow2_bits by lia.
    destruct (Z_lt_le_dec i W).
    + rewrite Z.testbit_neg_r by lia. rewrite Z.min_l by lia. reflexivity.
    + rewrite Z.bits_m1 by lia. rewrite Z.min_r by lia. rewrite Ht. reflexivity.
Qed.

Lemma wget_map_seq : forall f N p, (p < N)%nat -> wget (map f (seq 0 N)) p = f p.
Proof.
  intros f N p Hp. unfold wget.
  rewrite (nth_indep _ 0 (f 0%nat)) by (rewrite map_length, seq_length; auto).
  rewrite map_nth, seq_nth by auto. reflexivity.
Qed.

Lemma wf_map : forall (A : Type) w (f : A -> Z) l, (forall x, In x l -> inU w (f x)) -> wf w (map f l).
Proof. intros. apply Forall_forall. intros y Hy. apply in_map_iff in Hy. destruct Hy as (x & <- & Hx). auto. Qed.

(** Position / bit decomposition of a bit index. *)
Lemma idx_decomp : forall w N i, 1 <= w -> 0 <= i < w * Z.of_nat N ->
  (Z.to_nat (i / w) < N)%nat /\ Z.of_nat (Z.to_nat (i / w)) = i / w /\
  0 <= i mod w < w /\ i = i / w * w + i mod w.
Proof.
  intros w N i Hw Hi. assert (0 <= i / w) by (apply Z.div_pos; lia).
  assert (i / w < Z.of_nat N) by (apply Z.div_lt_upper_bound; lia).
  pose proof (Z.mod_pos_bound i w ltac:(lia)). pose proof (Z.div_mod i w ltac:(lia)).
  repeat split; lia.
Qed.

Lemma bval_bit : forall w l p b, 1 <= w -> wf w l -> 0 <= b < w -> 0 <= p ->
  Z.testbit (wget l (Z.to_nat p)) b = Z.testbit (bval w l) (p * w + b).
Proof.
  intros w l p b Hw Hl Hb Hp. rewrite bval_testbit by (auto; nia).
  rewrite Z.div_add_l, Z.div_small, Z.add_0_r by lia.
  rewrite Z.add_comm, Z.mod_add, Z.mod_small by lia. reflexivity.
Qed.

Lemma shl_get_bit : forall w l p b, 1 <= w -> wf w l -> 0 <= b < w ->
  Z.testbit (shl_get l p) b = Z.testbit (bval w l) (p * w + b).
Proof.
  intros w l p b Hw Hl Hb. unfold shl_get. destruct (Z.ltb_spec p 0).
  - rewrite Z.bits_0, Z.testbit_neg_r by nia. reflexivity.
  - apply bval_bit; auto; lia.
Qed.
Lemma shl_get_range : forall w l p, 1 <= w -> wf w l -> inU w (shl_get l p).
Proof.
  intros. unfold shl_get. destruct (p <? 0); [apply inU_0; lia|apply wget_range; auto; lia].
Qed.

(** A list is determined by its bits. *)
Lemma bval_bits_eq : forall w l v, 1 <= w -> wf w l ->
  (forall p b, (p < length l)%nat -> 0 <= b < w ->
     Z.testbit (wget l p) b = Z.testbit v (Z.of_nat p * w + b)) ->
  bval w l = v mod 2 ^ bits w l.
Proof.
  intros w l v Hw Hl H. apply Z.bits_inj'. intros i Hi.
  destruct (Z_lt_le_dec i (bits w l)) as [Hlt|Hge].
  - rewrite Z.mod_pow2_bits_low by lia. rewrite bval_testbit by auto.
    destruct (idx_decomp w (length l) i Hw ltac:(unfold bits in Hlt; lia)) as (D1 & D2 & D3 & D4).
    rewrite H by auto. rewrite D2. f_equal. lia.
  - rewrite Z.mod_pow2_bits_high by (pose proof (bits_nonneg w l); lia).
    apply bval_testbit_high; auto; lia.
Qed.

Lemma combine_range : forall w a b, 0 <= w -> inU w a -> inU w b -> inU w (Z.lor a b).
Proof. intros. apply inU_lor; auto. Qed.

Lemma shiftr_range : forall w x s, 0 <= w -> inU w x -> 0 <= s -> inU w (Z.shiftr x s).
Proof.
  intros w x s Hw Hx Hs. unfold inU in *. rewrite Z.shiftr_div_pow2 by lia.
  pose proof (pow2_pos s Hs). split; [apply Z.div_pos; lia|].
  apply Z.le_lt_trans with x; [|lia]. apply Z.div_le_upper_bound; nia.
Qed.

Lemma shift_left_portable_spec : forall w l s, 1 <= w -> wf w l -> 0 <= s ->
  wf w (shift_left_portable w l s) /\ length (shift_left_portable w l s) = length l /\
  bval w (shift_left_portable w l s) = (bval w l * 2 ^ s) mod 2 ^ bits w l.
Proof.
  intros w l s Hw Hl Hs. unfold shift_left_portable.
  destruct (Z.eqb_spec s 0) as [->|Hs0].
  { split; auto. split; auto. rewrite Z.mul_1_r. symmetry. apply Z.mod_small. apply bval_range; auto; lia. }
  set (io := s / w). set (bo := s mod w).
  assert (Hbo : 0 <= bo < w) by (apply Z.mod_pos_bound; lia).
  assert (Es : s = io * w + bo) by (rewrite Z.mul_comm; apply Z.div_mod; lia).
  match goal with |- wf w (map ?f _) /\ _ => set (F := f) end.
  assert (Hwf : wf w (map F (seq 0 (length l)))).
  { apply wf_map. intros x _. unfold F. destruct (bo =? 0).
    - apply shl_get_range; auto.
    - apply combine_range; [lia|apply wrap_range; lia|].
      apply shiftr_range; [lia|apply shl_get_range; auto|lia]. }
  assert (Hlen : length (map F (seq 0 (length l))) = length l) by (rewrite map_length, seq_length; auto).
  split; auto. split; auto.
  rewrite <- (bits_eq w _ l Hlen). apply bval_bits_eq; auto.
  intros p b Hp Hb. rewrite Hlen in Hp. rewrite wget_map_seq by auto. unfold F. cbv beta zeta.
  replace (Z.of_nat (length l) - (Z.of_nat (length l) - Z.of_nat p - 1 + io) - 1) with (Z.of_nat p - io) by lia.
  replace (Z.of_nat (length l) - (Z.of_nat (length l) - Z.of_nat p - 1 + io + 1) - 1) with (Z.of_nat p - io - 1) by lia.
  rewrite Z.mul_pow2_bits by lia.
  destruct (Z.eqb_spec bo 0) as [E0|E0].
  - rewrite (shl_get_bit w) by auto. f_equal. nia.
  - rewrite Z.lor_spec, testbit_wrap by lia.
    replace (b <? w) with true by lia. simpl andb.
    rewrite testbit_shiftl_any by lia.
    rewrite Z.shiftr_spec by lia.
    destruct (Z.leb_spec bo b); simpl andb.
    + rewrite (shl_get_bit w) by (auto; lia).
      rewrite (testbit_high w (shl_get l (Z.of_nat p - io - 1))) by (try apply shl_get_range; auto; lia).
      rewrite orb_false_r. f_equal. nia.
    + rewrite orb_false_l. rewrite (shl_get_bit w) by (auto; lia). f_equal. nia.
Qed.

Lemma shift_left_spec : forall int128 w l s, 1 <= w -> wf w l -> 0 <= s ->
  wf w (shift_left int128 w l s) /\ length (shift_left int128 w l s) = length l /\
  bval w (shift_left int128 w l s) = (bval w l * 2 ^ s) mod 2 ^ bits w l.
Proof.
  intros int128 w l s Hw Hl Hs. unfold shift_left.
  destruct int128; simpl andb; [|apply shift_left_portable_spec; auto].
  destruct (Z.eqb_spec (Z.of_nat (length l) * w) 128) as [E|E];
    [|apply shift_left_portable_spec; auto].
  split; [apply words_of_wf; lia|]. split; [apply words_of_len|].
  rewrite words_of_val by lia. rewrite Z.shiftl_mul_pow2 by lia.
  replace (bits w l) with 128 by (unfold bits; lia).
  replace (w * Z.of_nat (length l)) with 128 by lia. apply wrap_idem. lia.
Qed.

(* ------------------------------------------------------------------ *)
Lemma get_msb_spec : forall w l, 1 <= w -> wf w l -> l <> nil ->
  get_msb w l = Z.testbit (bval w l) (bits w l - 1).
Proof.
  intros w l Hw Hl Hn. unfold get_msb.
  assert (Hlast : last l 0 = wget l (length l - 1)).
  { clear - Hn. induction l as [|a l IH]; [congruence|]. destruct l as [|b l]; [reflexivity|].
    change (last (a :: b :: l) 0) with (last (b :: l) 0). rewrite IH by congruence.
    unfold wget. simpl length. rewrite !Nat.sub_succ, !Nat.sub_0_r. reflexivity. }
  assert (HN : (1 <= length l)%nat) by (destruct l; [congruence|simpl; lia]).
  rewrite bval_testbit by (auto; unfold bits; nia).
  replace (bits w l - 1) with ((Z.of_nat (length l) - 1) * w + (w - 1)) by (unfold bits; ring).
  rewrite Z.div_add_l, Z.div_small, Z.add_0_r by lia.
  rewrite Z.add_comm, Z.mod_add, Z.mod_small by lia.
  rewrite Hlast. replace (Z.to_nat (Z.of_nat (length l) - 1)) with (length l - 1)%nat by lia.
  pose proof (wget_range w l (length l - 1) ltac:(lia) Hl) as Hr.
  rewrite testbit_top by auto. rewrite Z.shiftr_div_pow2 by lia.
  pose proof (pow2_pos (w - 1) ltac:(lia)). unfold inU in Hr.
  destruct (Z.leb_spec (2 ^ (w - 1)) (wget l (length l - 1))).
  - assert (1 <= wget l (length l - 1) / 2 ^ (w - 1)) by (apply Z.div_le_lower_bound; lia). lia.
  - rewrite Z.div_small by lia. reflexivity.
Qed.

Lemma is_neg_spec : forall sgn w l, 1 <= w -> wf w l -> l <> nil ->
  is_neg sgn w l = (sval sgn w l <? 0).
Proof.
  intros sgn w l Hw Hl Hn. unfold is_neg, sval, ival.
  pose proof (bval_range w l ltac:(lia) Hl) as Hr. destruct sgn; simpl andb.
  - rewrite get_msb_spec by auto.
    assert (HW : 1 <= bits w l) by (destruct l; [congruence|]; rewrite bits_cons; pose proof (bits_nonneg w l); lia).
    rewrite testbit_top by auto. unfold to_signed.
    pose proof (pow2_half _ HW).
    destruct (Z.ltb_spec (bval w l) (2 ^ (bits w l - 1))); lia.
  - lia.
Qed.

Lemma bits_pos : forall w l, 1 <= w -> l <> nil -> 1 <= bits w l.
Proof. intros. destruct l; [congruence|]. rewrite bits_cons. pose proof (bits_nonneg w l). lia. Qed.

Lemma shr_get_bit : forall sgn w l p b, 1 <= w -> wf w l -> l <> nil -> 0 <= b < w -> 0 <= p ->
  Z.testbit (shr_get w (sgn && get_msb w l) l p) b = Z.testbit (sval sgn w l) (p * w + b).
Proof.
  intros sgn w l p b Hw Hl Hn Hb Hp. unfold shr_get, sval, ival.
  pose proof (bval_range w l ltac:(lia) Hl) as Hr. pose proof (bits_pos w l Hw Hn) as HW.
  destruct (Z.leb_spec (Z.of_nat (length l)) p).
  - assert (bits w l <= p * w + b) by (unfold bits; nia).
    destruct sgn; simpl andb.
    + rewrite testbit_to_signed by (auto; lia). rewrite Z.min_r by lia.
      rewrite get_msb_spec by auto. destruct (Z.testbit (bval w l) (bits w l - 1)).
      * rewrite Z.sub_1_r, <- Z.ones_equiv. rewrite Z.ones_spec_low by lia. reflexivity.
      * apply Z.bits_0.
    + rewrite Z.bits_0, bval_testbit_high by (auto; lia). reflexivity.
  - rewrite (bval_bit w) by auto. destruct sgn; auto.
    rewrite testbit_to_signed by (auto; nia). f_equal. unfold bits. nia.
Qed.
Lemma shr_get_range : forall n w l p, 1 <= w -> wf w l -> inU w (shr_get w n l p).
Proof.
  intros n w l p Hw Hl. unfold shr_get. pose proof (pow2_pos w ltac:(lia)).
  destruct (_ <=? p); [|apply wget_range; auto; lia].
  destruct n; unfold inU; lia.
Qed.

Lemma shift_right_portable_spec : forall sgn w l s, 1 <= w -> wf w l -> l <> nil -> 0 <= s ->
  wf w (shift_right_portable sgn w l s) /\
  length (shift_right_portable sgn w l s) = length l /\
  bval w (shift_right_portable sgn w l s) = (sval sgn w l / 2 ^ s) mod 2 ^ bits w l.
Proof.
  intros sgn w l s Hw Hl Hn Hs. unfold shift_right_portable.
  pose proof (bits_pos w l Hw Hn) as HW. pose proof (bval_range w l ltac:(lia) Hl) as Hr.
  destruct (Z.eqb_spec s 0) as [->|Hs0].
  { split; auto. split; auto. rewrite Z.div_1_r. unfold sval, ival. destruct sgn.
    - fold (wrap (bits w l) (to_signed (bits w l) (bval w l))).
      rewrite to_signed_wrap by auto. symmetry. apply wrap_small. auto.
    - symmetry. apply Z.mod_small. auto. }
  set (io := s / w). set (bo := s mod w).
  assert (Hbo : 0 <= bo < w) by (apply Z.mod_pos_bound; lia).
  assert (Hio : 0 <= io) by (apply Z.div_pos; lia).
  assert (Es : s = io * w + bo) by (rewrite Z.mul_comm; apply Z.div_mod; lia).
  cbv zeta.
  match goal with |- wf w (map ?f _) /\ _ => set (F := f) end.
  assert (Hwf : wf w (map F (seq 0 (length l)))).
  { apply wf_map. intros x _. unfold F. destruct (bo =? 0).
    - apply shr_get_range; auto.
    - apply combine_range; [lia| |apply wrap_range; lia].
      apply shiftr_range; [lia|apply shr_get_range; auto|lia]. }
  assert (Hlen : length (map F (seq 0 (length l))) = length l) by (rewrite map_length, seq_length; auto).
  split; auto. split; auto.
  rewrite <- (bits_eq w _ l Hlen). apply bval_bits_eq; auto.
  intros p b Hp Hb. rewrite Hlen in Hp. rewrite wget_map_seq by auto. unfold F.
  rewrite <- Z.shiftr_div_pow2, Z.shiftr_spec by nia.
  destruct (Z.eqb_spec bo 0) as [E0|E0].
  - rewrite (shr_get_bit sgn w) by (auto; lia). f_equal. nia.
  - rewrite Z.lor_spec, testbit_wrap by lia.
    replace (b <? w) with true by lia. simpl andb.
    rewrite testbit_shiftl_any by lia. rewrite Z.shiftr_spec by lia.
    destruct (Z.leb_spec (w - bo) b); simpl andb.
    + rewrite (shr_get_bit sgn w l (Z.of_nat p + io + 1)) by (auto; lia).
      rewrite (testbit_high w) by (try apply shr_get_range; auto; lia). rewrite orb_false_l. f_equal. nia.
    + rewrite orb_false_r. rewrite (shr_get_bit sgn w) by (auto; lia). f_equal. nia.
Qed.

Lemma shift_right_spec : forall int128 sgn w l s, 1 <= w -> wf w l -> l <> nil -> 0 <= s ->
  wf w (shift_right int128 sgn w l s) /\
  length (shift_right int128 sgn w l s) = length l /\
  bval w (shift_right int128 sgn w l s) = (sval sgn w l / 2 ^ s) mod 2 ^ bits w l.
Proof.
  intros int128 sgn w l s Hw Hl Hn Hs. unfold shift_right.
  destruct int128; simpl andb; [|apply shift_right_portable_spec; auto].
  destruct (Z.eqb_spec (Z.of_nat (length l) * w) 128) as [E|E];
    [|apply shift_right_portable_spec; auto].
  split; [apply words_of_wf; lia|]. split; [apply words_of_len|].
  rewrite words_of_val by lia.
  assert (EB : bits w l = 128) by (unfold bits; lia).
  replace (w * Z.of_nat (length l)) with 128 by lia. fold (wrap 128 (wrap 128 (Z.shiftr (if sgn then to_signed 128 (bval w l) else bval w l) s))).
  rewrite wrap_idem by lia. rewrite Z.shiftr_div_pow2 by lia. unfold sval, ival. rewrite EB. reflexivity.
Qed.

(** Signed reading of the shifted value: floor division. *)
Lemma shift_right_sval : forall int128 sgn w l s, 1 <= w -> wf w l -> l <> nil -> 0 <= s ->
  sval sgn w (shift_right int128 sgn w l s) = sval sgn w l / 2 ^ s.
Proof.
  intros int128 sgn w l s Hw Hl Hn Hs.
  destruct (shift_right_spec int128 sgn w l s Hw Hl Hn Hs) as (H1 & H2 & H3).
  pose proof (bits_pos w l Hw Hn) as HW. pose proof (bval_range w l ltac:(lia) Hl) as Hr.
  pose proof (pow2_pos s Hs) as HPs.
  unfold sval at 1, ival. rewrite H3, (bits_eq w _ l H2). destruct sgn.
  - apply to_signed_of_S; auto.
    assert (HS : inS (bits w l) (sval true w l)) by (apply to_signed_range; auto).
    unfold inS in *. pose proof (pow2_pos (bits w l - 1) ltac:(lia)).
    split; [apply Z.div_le_lower_bound; nia|apply Z.div_lt_upper_bound; nia].
  - unfold sval, ival. apply Z.mod_small. split; [apply Z.div_pos; lia|].
    apply Z.le_lt_trans with (bval w l); [|lia]. apply Z.div_le_upper_bound; nia.
Qed.

(* ------------------------------------------------------------------ *)
(** ** get_bit / set_bit *)
Lemma get_bit_spec : forall w l i, 1 <= w -> wf w l -> 0 <= i ->
  get_bit w l i = Z.testbit (bval w l) i.
Proof.
  intros w l i Hw Hl Hi. unfold get_bit. rewrite Z.land_comm.
  rewrite land1_testbit by (apply Z.mod_pos_bound; lia).
  rewrite bval_testbit by auto. reflexivity.
Qed.

Lemma wset_length : forall l i x, length (wset l i x) = length l.
Proof. induction l; intros; simpl; auto. destruct i; simpl; auto. Qed.
Lemma wset_wf : forall w l i x, wf w l -> inU w x -> wf w (wset l i x).
Proof.
  intros w l. induction l; intros i x Hl Hx; simpl; auto. apply wf_cons in Hl. destruct Hl.
  destruct i; constructor; auto. apply IHl; auto.
Qed.
Lemma wset_get : forall l i j x, (i < length l)%nat ->
  wget (wset l i x) j = if Nat.eqb i j then x else wget l j.
Proof.
  intros l. induction l; intros i j x Hi; simpl in Hi; [lia|].
  destruct i, j; try reflexivity. unfold wget in *. simpl. apply IHl. lia.
Qed.
Lemma wset_val : forall w l i x, 0 <= w -> (i < length l)%nat ->
  bval w (wset l i x) = bval w l + 2 ^ (w * Z.of_nat i) * (x - wget l i).
Proof.
  intros w l. induction l; intros i x Hw Hi; [simpl in Hi; lia|].
  destruct i; cbn [wset bval].
  - unfold wget. cbn [nth]. change (Z.of_nat 0) with 0. rewrite Z.mul_0_r. change (2^0) with 1. ring.
  - rewrite IHl by (simpl in Hi; lia).
    replace (w * Z.of_nat (S i)) with (w + w * Z.of_nat i) by lia. rewrite Z.pow_add_r by nia.
    unfold wget. cbn [nth]. ring.
Qed.

Lemma set_bit_spec : forall w l i, 1 <= w -> wf w l -> 0 <= i < bits w l ->
  wf w (set_bit w l i) /\ length (set_bit w l i) = length l /\
  bval w (set_bit w l i) = Z.lor (bval w l) (2 ^ i).
Proof.
  intros w l i Hw Hl Hi.
  destruct (idx_decomp w (length l) i Hw ltac:(unfold bits in Hi; lia)) as (D1 & D2 & D3 & D4).
  unfold set_bit. rewrite Z.shiftl_1_l.
  rewrite (wrap_small w (2 ^ (i mod w))).
  2:{ unfold inU. split; [apply Z.pow_nonneg; lia|apply pow2_lt; lia]. }
  set (k := Z.to_nat (i / w)) in *.
  assert (Hx : inU w (Z.lor (wget l k) (2 ^ (i mod w)))).
  { apply inU_lor; [lia|apply wget_range; auto; lia|].
    unfold inU. split; [apply Z.pow_nonneg; lia|apply pow2_lt; lia]. }
  split; [apply wset_wf; auto|]. split; [apply wset_length|].
  assert (Hwf2 : wf w (wset l k (Z.lor (wget l k) (2 ^ (i mod w))))) by (apply wset_wf; auto).
  rewrite <- (Z.mod_small (Z.lor (bval w l) (2 ^ i)) (2 ^ bits w l)).
  2:{ pose proof (bval_range w l ltac:(lia) Hl). apply (inU_lor (bits w l)); auto; try lia.
      unfold inU. split; [apply Z.pow_nonneg; lia|apply pow2_lt; lia]. }
  rewrite <- (bits_eq w _ l (wset_length l k (Z.lor (wget l k) (2 ^ (i mod w))))).
  apply bval_bits_eq; auto. intros p b Hp Hb. rewrite wset_length in Hp.
  rewrite wset_get by auto.
  rewrite Z.lor_spec, !Z.pow2_bits_eqb by lia.
  rewrite <- (bval_bit w l (Z.of_nat p) b) by (auto; lia). rewrite Nat2Z.id.
  destruct (Nat.eqb_spec k p) as [<-|Hne].
  - rewrite Z.lor_spec, Z.pow2_bits_eqb by lia. f_equal.
    rewrite D2. destruct (Z.eqb_spec (i mod w) b), (Z.eqb_spec i (i / w * w + b)); auto; lia.
  - replace (i =? Z.of_nat p * w + b) with false; [rewrite orb_false_r; reflexivity|].
    symmetry. apply Z.eqb_neq. intros E. apply Hne.
    assert (i / w = Z.of_nat p) by (rewrite E, Z.div_add_l, Z.div_small by lia; lia). lia.
Qed.

(* ------------------------------------------------------------------ *)
(** ** Comparison *)
Lemma cmp_word_spec : forall a b, cmp_word a b = Z.sgn (a - b).
Proof.
  intros. unfold cmp_word. destruct (Z.ltb_spec b a); [|destruct (Z.eqb_spec a b)].
  - rewrite Z.sgn_pos by lia. reflexivity.
  - subst. rewrite Z.sub_diag. reflexivity.
  - rewrite Z.sgn_neg by lia. reflexivity.
Qed.

Lemma cmp_words_spec : forall w a b, 0 <= w -> wf w a -> wf w b -> length a = length b ->
  cmp_words (rev a) (rev b) = Z.sgn (bval w a - bval w b).
Proof.
  intros w a b Hw. revert b. induction a as [|x a IH] using rev_ind; intros b Ha Hb Hl.
  - destruct b; [reflexivity|discriminate].
  - destruct b as [|y b _] using rev_ind; [rewrite app_length in Hl; simpl in Hl; lia|].
    rewrite !app_length in Hl. simpl in Hl. assert (Hl' : length a = length b) by lia.
    rewrite !rev_app_distr. cbn [rev app cmp_words].
    apply wf_app in Ha. apply wf_app in Hb. destruct Ha as [Ha1 Ha2], Hb as [Hb1 Hb2].
    rewrite !bval_app by auto. rewrite (bits_eq w a b Hl'). cbn [bval].
    pose proof (bval_range w a Hw Ha1) as Ra. pose proof (bval_range w b Hw Hb1) as Rb.
    rewrite (bits_eq w a b Hl') in Ra. set (G := 2 ^ bits w b) in *.
    rewrite cmp_word_spec. destruct (Z.eqb_spec (Z.sgn (x - y)) 0) as [E|E]; simpl negb; cbv iota.
    + rewrite IH by auto. f_equal. assert (x = y) by (apply Z.sgn_null_iff in E; lia). subst. lia.
    + destruct (Z_lt_le_dec x y).
      * rewrite !Z.sgn_neg; nia.
      * assert (x <> y) by (intros ->; rewrite Z.sub_diag in E; auto). rewrite !Z.sgn_pos; nia.
Qed.

Lemma cmp_spec : forall sgn w a b, 1 <= w -> wf w a -> wf w b -> length a = length b -> a <> nil ->
  cmp sgn w a b = Z.sgn (sval sgn w a - sval sgn w b).
Proof.
  intros sgn w a b Hw Ha Hb Hl Hn.
  assert (Hnb : b <> nil) by (intros ->; destruct a; [congruence|discriminate]).
  unfold cmp. rewrite !is_neg_spec by auto. rewrite (cmp_words_spec w) by (auto; lia).
  unfold sval, ival. pose proof (bits_pos w a Hw Hn) as HW.
  rewrite <- (bits_eq w a b Hl).
  pose proof (bval_range w a ltac:(lia) Ha) as Ra. pose proof (bval_range w b ltac:(lia) Hb) as Rb.
  rewrite <- (bits_eq w a b Hl) in Rb. pose proof (pow2_half _ HW).
  destruct sgn; simpl andb; cbv iota; auto.
  unfold to_signed.
  destruct (Z.ltb_spec (bval w a) (2 ^ (bits w a - 1))) as [A|A], (Z.ltb_spec (bval w b) (2 ^ (bits w a - 1))) as [B|B].
  - replace (bval w a <? 0) with false by lia. replace (bval w b <? 0) with false by lia. reflexivity.
  - replace (bval w a <? 0) with false by lia.
    replace (bval w b - 2 ^ bits w a <? 0) with true by lia. simpl. rewrite Z.sgn_pos by lia. reflexivity.
  - replace (bval w a - 2 ^ bits w a <? 0) with true by lia.
    replace (bval w b <? 0) with false by lia. simpl. rewrite Z.sgn_neg by lia. reflexivity.
  - replace (bval w a - 2 ^ bits w a <? 0) with true by lia.
    replace (bval w b - 2 ^ bits w a <? 0) with true by lia. simpl. f_equal. lia.
Qed.

Lemma bi_eqb_spec : forall a b, length a = length b -> (bi_eqb a b = true <-> a = b).
Proof.
  induction a; intros [|y b] Hl; try discriminate; simpl; [tauto|].
  destruct (Z.eqb_spec a y) as [->|]; simpl.
  - rewrite IHa by (simpl in Hl; lia). split; congruence.
  - split; [discriminate|congruence].
Qed.

Lemma sval_inj : forall sgn w a b, 1 <= w -> wf w a -> wf w b -> length a = length b -> a <> nil ->
  sval sgn w a = sval sgn w b -> a = b.
Proof.
  intros sgn w a b Hw Ha Hb Hl Hn E. apply (bval_inj w); auto; [lia|].
  unfold sval, ival in E. rewrite (bits_eq w a b Hl) in E.
  pose proof (bval_range w a ltac:(lia) Ha) as Ra. pose proof (bval_range w b ltac:(lia) Hb) as Rb.
  rewrite (bits_eq w a b Hl) in Ra.
  assert (HW : 1 <= bits w b) by (rewrite <- (bits_eq w a b Hl); apply bits_pos; auto).
  destruct sgn; auto. apply (f_equal (wrap (bits w b))) in E.
  rewrite !to_signed_wrap in E by auto. rewrite !wrap_small in E by auto. auto.
Qed.

Lemma rel_specs : forall sgn w a b, 1 <= w -> wf w a -> wf w b -> length a = length b -> a <> nil ->
  bi_gt sgn w a b = (sval sgn w b <? sval sgn w a) /\
  bi_ge sgn w a b = (sval sgn w b <=? sval sgn w a) /\
  bi_lt sgn w a b = (sval sgn w a <? sval sgn w b) /\
  bi_le sgn w a b = (sval sgn w a <=? sval sgn w b) /\
  bi_eqb a b = (sval sgn w a =? sval sgn w b).
Proof.
  intros sgn w a b Hw Ha Hb Hl Hn. unfold bi_gt, bi_ge, bi_lt, bi_le.
  rewrite (cmp_spec sgn w a b) by auto.
  assert (E5 : bi_eqb a b = (sval sgn w a =? sval sgn w b)).
  { destruct (Z.eqb_spec (sval sgn w a) (sval sgn w b)) as [E|E].
    - apply bi_eqb_spec; auto. apply (sval_inj sgn w); auto.
    - destruct (bi_eqb a b) eqn:F; auto. apply bi_eqb_spec in F; auto. subst. congruence. }
  rewrite E5.
  destruct (Z.sgn_spec (sval sgn w a - sval sgn w b)) as [[? ->]|[[? ->]|[? ->]]];
    repeat split; lia.
Qed.

(* ------------------------------------------------------------------ *)
(** ** is_zero, one, min *)
Lemma is_zero_spec : forall w l, 0 <= w -> wf w l -> is_zero l = (bval w l =? 0).
Proof.
  intros w l Hw. induction l; intros H; auto. apply wf_cons in H. destruct H as [H1 H2].
  cbn [is_zero forallb bval]. fold (is_zero l). rewrite IHl by auto.
  pose proof (bval_range w l Hw H2). unfold inU in H1. pose proof (pow2_pos w Hw).
  destruct (Z.eqb_spec a 0), (Z.eqb_spec (bval w l) 0), (Z.eqb_spec (a + 2 ^ w * bval w l) 0); auto; nia.
Qed.
