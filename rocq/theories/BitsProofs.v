(** * Proofs about the bits.hpp / math_support.hpp models *)
From Coq Require Import ZArith Lia Bool List.
From Verif Require Import MachInt Bits BitsSpec.
Import ListNotations.
Open Scope Z_scope.

Ltac zlia := Z.div_mod_to_equations; lia.

(* ------------------------------------------------------------------ *)
(** ** countr_zero *)

Lemma lor_mult : forall zb m, 0 <= m -> zb mod 2 ^ (m + 1) = 0 ->
  Z.lor zb (2 ^ m) = zb + 2 ^ m.
Proof.
  intros zb m Hm H.
  apply Z.mod_divide in H; [|pose proof (pow2_pos (m+1)); lia].
  destruct H as [q ->]. apply lor_add; [lia|].
  rewrite pow2_succ by lia. pose proof (pow2_pos m). lia.
Qed.

Lemma countr_zero_loop_spec : forall m fuel value zb,
  (m <= fuel)%nat ->
  value mod 2 ^ (2 ^ Z.of_nat m) <> 0 ->
  zb mod 2 ^ Z.of_nat m = 0 ->
  exists n, countr_zero_loop fuel value zb (2 ^ Z.of_nat m / 2)
              (2 ^ (2 ^ Z.of_nat m / 2) - 1) = Some (zb + n) /\
    0 <= n < 2 ^ Z.of_nat m /\
    (forall i, 0 <= i < n -> Z.testbit value i = false) /\
    Z.testbit value n = true.
Proof.
  induction m as [|m IH]; intros fuel value zb Hf Hv Hz.
  - exists 0. change (2 ^ Z.of_nat 0 / 2) with 0. change (2 ^ 2 ^ Z.of_nat 0) with 2 in Hv.
    destruct fuel; simpl; (split; [f_equal; lia|]); (split; [lia|]);
      (split; [intros; lia|]).
    all: destruct (Z.testbit value 0) eqn:E; auto; exfalso; apply Hv;
      rewrite <- Z.bit0_mod, E; reflexivity.
  - destruct fuel as [|fuel]; [lia|].
    replace (Z.of_nat (S m)) with (Z.of_nat m + 1) in * by lia.
    set (M := Z.of_nat m) in *.
    assert (HM : 0 <= M) by (unfold M; lia).
    pose proof (pow2_pos M HM) as HpM.
    rewrite pow2_succ in * by lia.
    replace (2 * 2 ^ M / 2) with (2 ^ M) by (rewrite Z.mul_comm, Z.div_mul; lia).
    cbn [countr_zero_loop].
    destruct (Z.eqb_spec (2 ^ M) 0) as [E|_]; [lia|].
    rewrite land_ones_mod by lia.
    replace (Z.shiftr (2 ^ M) 1) with (2 ^ M / 2)
      by (rewrite Z.shiftr_div_pow2 by lia; f_equal).
    assert (Hmask : Z.shiftr (2 ^ 2 ^ M - 1) (2 ^ M / 2) = 2 ^ (2 ^ M / 2) - 1
                    \/ m = O).
    { destruct m; [right; auto|left].
      assert (2 ^ M = 2 * 2 ^ (M - 1)) by (apply pow2_half; unfold M; lia).
      assert (0 < 2 ^ (M - 1)) by (apply pow2_pos; unfold M; lia).
      replace (2 ^ M / 2) with (2 ^ (M - 1)) by (rewrite H, Z.mul_comm, Z.div_mul; lia).
      rewrite Z.shiftr_div_pow2 by lia.
      rewrite H, Z.mul_comm, Z.pow_mul_r by lia. rewrite Z.pow_2_r.
      set (P := 2 ^ 2 ^ (M - 1)) in *.
      assert (0 < P) by (apply pow2_pos; lia).
      symmetry. apply Z.div_unique with (r := P - 1); lia. }
    destruct (Z.eqb_spec (value mod 2 ^ 2 ^ M) 0) as [E|E].
    + (* low half zero *)
      assert (Hz1 : (zb + 2 ^ M) mod 2 ^ M = 0).
      { rewrite <- (Z.mul_1_l (2 ^ M)) at 1. rewrite Z.mod_add by lia.
        apply Z.mod_divide in Hz; [|lia]. destruct Hz as [q ->].
        replace (q * (2 * 2 ^ M)) with (q * 2 * 2 ^ M) by lia. apply Z.mod_mul. lia. }
      assert (Hv1 : (Z.shiftr value (2 ^ M)) mod 2 ^ 2 ^ M <> 0).
      { rewrite Z.shiftr_div_pow2 by lia. intro C. apply Hv.
        replace (2 ^ (2 * 2 ^ M)) with (2 ^ 2 ^ M * 2 ^ 2 ^ M)
          by (rewrite <- Z.pow_add_r by lia; f_equal; lia).
        assert (0 < 2 ^ 2 ^ M) by (apply pow2_pos; lia).
        rewrite Z.rem_mul_r by lia. rewrite E, C. lia. }
      assert (Hlor : Z.lor zb (2 ^ M) = zb + 2 ^ M).
      { apply lor_mult; auto. rewrite pow2_succ by lia. auto. }
      assert (Hgoal : exists n, countr_zero_loop fuel (Z.shiftr value (2 ^ M)) (Z.lor zb (2 ^ M))
         (2 ^ M / 2) (Z.shiftr (2 ^ 2 ^ M - 1) (2 ^ M / 2)) = Some (zb + 2 ^ M + n) /\
         0 <= n < 2 ^ M /\
         (forall i, 0 <= i < n -> Z.testbit (Z.shiftr value (2 ^ M)) i = false) /\
         Z.testbit (Z.shiftr value (2 ^ M)) n = true).
      { rewrite Hlor. destruct Hmask as [-> | ->].
        - apply IH; auto; lia.
        - destruct (IH fuel (Z.shiftr value (2 ^ M)) (zb + 2 ^ M)) as (n & H1 & H2);
            auto; [lia|].
          exists n. split; auto. revert H1. change (2 ^ M / 2) with 0.
          destruct fuel; simpl; auto. }
      destruct Hgoal as (n & H1 & H2 & H3 & H4).
      exists (2 ^ M + n). rewrite H1. split; [f_equal; lia|]. split; [lia|]. split.
      * intros i Hi. destruct (Z_lt_le_dec i (2 ^ M)).
        -- rewrite <- (Z.mod_pow2_bits_low value (2 ^ M) i) by lia. rewrite E. apply Z.bits_0.
        -- specialize (H3 (i - 2 ^ M)). rewrite Z.shiftr_spec in H3 by lia.
           replace (i - 2 ^ M + 2 ^ M) with i in H3 by lia. apply H3. lia.
      * rewrite Z.shiftr_spec in H4 by lia. rewrite Z.add_comm. exact H4.
    + assert (Hz1 : zb mod 2 ^ M = 0).
      { apply Z.mod_divide in Hz; [|lia]. destruct Hz as [q ->].
        replace (q * (2 * 2 ^ M)) with (q * 2 * 2 ^ M) by lia. apply Z.mod_mul. lia. }
      assert (Hgoal : exists n, countr_zero_loop fuel value zb
         (2 ^ M / 2) (Z.shiftr (2 ^ 2 ^ M - 1) (2 ^ M / 2)) = Some (zb + n) /\
         0 <= n < 2 ^ M /\
         (forall i, 0 <= i < n -> Z.testbit value i = false) /\
         Z.testbit value n = true).
      { destruct Hmask as [-> | ->].
        - apply IH; auto; lia.
        - destruct (IH fuel value zb) as (n & H1 & H2); auto; [lia|].
          exists n. split; auto. revert H1. change (2 ^ M / 2) with 0.
          destruct fuel; simpl; auto. }
      destruct Hgoal as (n & H1 & H2 & H3 & H4).
      exists n. rewrite H1. repeat split; auto; lia.
Qed.

Lemma land1_mod : forall v, Z.land v 1 = v mod 2.
Proof. intros. apply (land_ones_mod v 1). lia. Qed.

Lemma nat_lt_pow2 : forall k, Z.of_nat k < 2 ^ Z.of_nat k.
Proof. intros. apply Z.pow_gt_lin_r; lia. Qed.

Lemma countr_zero_spec : forall k v, inU (2 ^ Z.of_nat k) v ->
  exists n, countr_zero (2 ^ Z.of_nat k) v = Some n /\ trailing_zeros (2 ^ Z.of_nat k) v n.
Proof.
  intros k v Hv. set (w := 2 ^ Z.of_nat k).
  assert (Hw : 0 < w) by (apply pow2_pos; lia).
  unfold countr_zero.
  destruct (Z.eqb_spec v 0) as [->|Hv0].
  - exists w. split; auto. split; [lia|]. split; [intros; apply Z.bits_0|lia].
  - rewrite land1_mod.
    destruct (Z.eqb_spec (v mod 2) 0) as [E|E]; simpl negb; cbv iota.
    + assert (Hk : (1 <= k)%nat).
      { destruct k; [|lia]. exfalso. unfold inU in Hv. simpl in Hv.
        change (2 ^ 2 ^ Z.of_nat 0) with 2 in Hv. zlia. }
      assert (Hsh : Z.shiftr w 1 = w / 2) by (rewrite Z.shiftr_div_pow2 by lia; f_equal).
      rewrite Hsh.
      assert (Hw2 : w = 2 * (w / 2)).
      { unfold w. rewrite (pow2_half (Z.of_nat k)) by lia.
        rewrite (Z.mul_comm 2 (2 ^ _)), Z.div_mul by lia. lia. }
      assert (Hmask : Z.shiftr (2 ^ w - 1) (w / 2) = 2 ^ (w / 2) - 1).
      { rewrite Z.shiftr_div_pow2 by lia.
        assert (HP : 0 < 2 ^ (w / 2)) by (apply pow2_pos; lia).
        replace (2 ^ w) with (2 ^ (w / 2) * 2 ^ (w / 2))
          by (rewrite <- Z.pow_add_r by lia; f_equal; lia).
        symmetry. apply Z.div_unique with (r := 2 ^ (w/2) - 1); lia. }
      rewrite Hmask.
      destruct (countr_zero_loop_spec k (Z.to_nat w) v 0) as (n & H1 & H2 & H3 & H4).
      * pose proof (nat_lt_pow2 k). unfold w. lia.
      * rewrite Z.mod_small by (unfold inU in Hv; lia). auto.
      * apply Z.mod_0_l. fold w. lia.
      * exists n. fold w in H1, H2. rewrite H1. split; [f_equal; lia|].
        split; [lia|]. split; auto.
    + exists 0. split; auto. split; [lia|]. split; [intros; lia|]. intros _.
      rewrite Z.bit0_odd. destruct (Z.odd v) eqn:O; auto.
      rewrite Zmod_odd, O in E. lia.
Qed.

(** ** countl_zero *)

Lemma countl_zero_loop_spec : forall m fuel value zb,
  (m <= fuel)%nat ->
  0 < value < 2 ^ (2 ^ Z.of_nat m) ->
  zb mod 2 ^ Z.of_nat m = 0 ->
  countl_zero_loop fuel value zb (2 ^ Z.of_nat m / 2)
    = Some (zb + (2 ^ Z.of_nat m - 1 - Z.log2 value)).
Proof.
  induction m as [|m IH]; intros fuel value zb Hf Hv Hz.
  - change (2 ^ 2 ^ Z.of_nat 0) with 2 in Hv. assert (value = 1) by lia. subst.
    change (2 ^ Z.of_nat 0 / 2) with 0.
    destruct fuel; simpl; f_equal; lia.
  - destruct fuel as [|fuel]; [lia|].
    replace (Z.of_nat (S m)) with (Z.of_nat m + 1) in * by lia.
    set (M := Z.of_nat m) in *.
    assert (HM : 0 <= M) by (unfold M; lia).
    pose proof (pow2_pos M HM) as HpM.
    rewrite pow2_succ in * by lia.
    replace (2 * 2 ^ M / 2) with (2 ^ M) by (rewrite Z.mul_comm, Z.div_mul; lia).
    cbn [countl_zero_loop].
    destruct (Z.eqb_spec (2 ^ M) 0) as [E|_]; [lia|].
    replace (Z.shiftr (2 ^ M) 1) with (2 ^ M / 2)
      by (rewrite Z.shiftr_div_pow2 by lia; f_equal).
    assert (Hp2 : 0 < 2 ^ 2 ^ M) by (apply pow2_pos; lia).
    replace (2 ^ (2 * 2 ^ M)) with (2 ^ 2 ^ M * 2 ^ 2 ^ M) in Hv
      by (rewrite <- Z.pow_add_r by lia; f_equal; lia).
    assert (Hzz : exists q, zb = q * 2 ^ (M + 1)).
    { apply Z.mod_divide in Hz; [|lia]. destruct Hz as [q Hq]. exists q.
      rewrite pow2_succ; lia. }
    destruct Hzz as [q Hq]. rewrite pow2_succ in Hq by lia.
    destruct (Z.eqb_spec (Z.shiftr value (2 ^ M)) 0) as [E|E]; simpl negb; cbv iota.
    + rewrite Z.shiftr_div_pow2 in E by lia.
      assert (value < 2 ^ 2 ^ M) by (apply Z.div_small_iff in E; lia).
      rewrite lor_mult by (auto; rewrite pow2_succ by lia; auto).
      rewrite IH; auto; try lia.
      * f_equal. lia.
      * subst zb. replace (q * (2 * 2 ^ M) + 2 ^ M) with ((2 * q + 1) * 2 ^ M) by lia.
        apply Z.mod_mul. lia.
    + assert (Hlog : Z.log2 (Z.shiftr value (2 ^ M)) = Z.log2 value - 2 ^ M).
      { rewrite Z.log2_shiftr by lia. apply Z.max_r.
        rewrite Z.shiftr_div_pow2 in E by lia.
        assert (2 ^ 2 ^ M <= value).
        { destruct (Z_lt_le_dec value (2 ^ 2 ^ M)); auto.
          exfalso. apply E. apply Z.div_small. lia. }
        assert (2 ^ M <= Z.log2 value) by (apply -> Z.log2_le_pow2; [assumption|lia]). lia. }
      rewrite IH; auto; try lia.
      * rewrite Hlog. f_equal. lia.
      * rewrite Z.shiftr_div_pow2 in * by lia. split.
        -- assert (0 <= value / 2 ^ 2 ^ M) by (apply Z.div_pos; lia). lia.
        -- apply Z.div_lt_upper_bound; lia.
      * subst zb. replace (q * (2 * 2 ^ M)) with ((2 * q) * 2 ^ M) by lia.
        apply Z.mod_mul. lia.
Qed.

(** Value form used elsewhere in the development. *)
Lemma countl_zero_val : forall k v, inU (2 ^ Z.of_nat k) v ->
  countl_zero (2 ^ Z.of_nat k) v =
    Some (if v =? 0 then 2 ^ Z.of_nat k else 2 ^ Z.of_nat k - 1 - Z.log2 v).
Proof.
  intros k v Hv. unfold countl_zero.
  destruct (Z.eqb_spec v 0) as [->|Hv0]; auto.
  unfold inU in Hv.
  replace (Z.shiftr (2 ^ Z.of_nat k) 1) with (2 ^ Z.of_nat k / 2)
    by (rewrite Z.shiftr_div_pow2 by lia; f_equal).
  rewrite countl_zero_loop_spec.
  - f_equal.
  - pose proof (nat_lt_pow2 k). lia.
  - lia.
  - apply Z.mod_0_l. pose proof (pow2_pos (Z.of_nat k)). lia.
Qed.

Lemma leading_zeros_log2 : forall w v, 0 < w -> 0 < v < 2 ^ w ->
  leading_zeros w v (w - 1 - Z.log2 v).
Proof.
  intros w v Hw Hv.
  assert (Hl : 0 <= Z.log2 v < w).
  { split; [apply Z.log2_nonneg|]. apply Z.log2_lt_pow2; lia. }
  split; [lia|]. split.
  - intros i Hi. apply Z.bits_above_log2; lia.
  - intros _. replace (w - 1 - (w - 1 - Z.log2 v)) with (Z.log2 v) by lia.
    apply Z.bit_log2. lia.
Qed.

Lemma countl_zero_spec : forall k v, inU (2 ^ Z.of_nat k) v ->
  exists n, countl_zero (2 ^ Z.of_nat k) v = Some n /\ leading_zeros (2 ^ Z.of_nat k) v n.
Proof.
  intros k v Hv. rewrite countl_zero_val by auto. eexists. split; [reflexivity|].
  pose proof (pow2_pos (Z.of_nat k)).
  destruct (Z.eqb_spec v 0) as [->|].
  - split; [lia|]. split; [intros; apply Z.bits_0|lia].
  - apply leading_zeros_log2; unfold inU in Hv; lia.
Qed.

Lemma countr_one_spec : forall k v, inU (2 ^ Z.of_nat k) v ->
  exists n, countr_one (2 ^ Z.of_nat k) v = Some n /\ trailing_ones (2 ^ Z.of_nat k) v n.
Proof.
  intros k v Hv. set (w := 2 ^ Z.of_nat k).
  assert (Hw : 0 < w) by (apply pow2_pos; lia).
  destruct (countr_zero_spec k (unot w v)) as (n & H1 & H2 & H3 & H4).
  { apply unot_range; auto. }
  exists n. split; auto. fold w in H2, H4. split; auto. split.
  - intros i Hi. specialize (H3 i Hi). rewrite testbit_unot in H3 by (auto; lia).
    destruct (Z.ltb_spec i w); [|lia]. destruct (Z.testbit v i); auto.
  - intros Hn. specialize (H4 Hn). rewrite testbit_unot in H4 by (auto; lia).
    destruct (Z.ltb_spec n w); [|lia]. destruct (Z.testbit v n); auto.
Qed.

Lemma countl_one_spec : forall k v, inU (2 ^ Z.of_nat k) v ->
  exists n, countl_one (2 ^ Z.of_nat k) v = Some n /\ leading_ones (2 ^ Z.of_nat k) v n.
Proof.
  intros k v Hv. set (w := 2 ^ Z.of_nat k).
  assert (Hw : 0 < w) by (apply pow2_pos; lia).
  unfold countl_one. destruct (Z.eqb_spec v (2 ^ w - 1)) as [->|Hne]; simpl negb; cbv iota.
  - exists w. split; auto. split; [lia|]. split; [|lia].
    intros i Hi. rewrite Z.sub_1_r, <- Z.ones_equiv. apply Z.ones_spec_low. lia.
  - destruct (countl_zero_spec k (unot w v)) as (n & H1 & H2 & H3 & H4).
    { apply unot_range; auto. }
    exists n. split; auto. fold w in H2, H3, H4. split; auto. split.
    + intros i Hi. specialize (H3 i Hi). rewrite testbit_unot in H3 by (auto; lia).
      destruct (Z.ltb_spec i w); [|lia]. destruct (Z.testbit v i); auto.
    + intros Hn. specialize (H4 Hn). rewrite testbit_unot in H4 by (auto; lia).
      destruct (Z.ltb_spec (w - 1 - n) w); [|lia]. destruct (Z.testbit v _); auto.
Qed.

Lemma bit_width_val : forall k v, inU (2 ^ Z.of_nat k) v ->
  bit_width (2 ^ Z.of_nat k) v = Some (if v =? 0 then 0 else Z.log2 v + 1).
Proof.
  intros k v Hv. unfold bit_width. rewrite countl_zero_val by auto. simpl.
  destruct (v =? 0); f_equal; lia.
Qed.

Lemma bit_width_spec : forall k v, inU (2 ^ Z.of_nat k) v ->
  exists n, bit_width (2 ^ Z.of_nat k) v = Some n /\ 0 <= n /\ v < 2 ^ n /\
            (v <> 0 -> 2 ^ (n - 1) <= v).
Proof.
  intros k v Hv. rewrite bit_width_val by auto. eexists; split; [reflexivity|].
  unfold inU in Hv.
  destruct (Z.eqb_spec v 0) as [->|]. { simpl. lia. }
  pose proof (Z.log2_nonneg v). pose proof (Z.log2_spec v).
  replace (Z.log2 v + 1 - 1) with (Z.log2 v) by lia.
  rewrite <- Z.add_1_r in *. lia.
Qed.

(* ------------------------------------------------------------------ *)
(** ** has_single_bit, bit_ceil *)

Lemma land_pred_pow2 : forall x, 0 < x -> (Z.land x (x - 1) = 0 <-> power_of_two x).
Proof.
  intros x Hx. split.
  - intros H. exists (Z.log2 x). split; [apply Z.log2_nonneg|].
    pose proof (Z.log2_spec x Hx) as [Hl Hu].
    destruct (Z.eq_dec x (2 ^ Z.log2 x)); auto. exfalso.
    assert (Ht : Z.testbit (Z.land x (x - 1)) (Z.log2 x) = true).
    { rewrite Z.land_spec, Z.bit_log2 by lia. simpl.
      replace (Z.log2 x) with (Z.log2 (x - 1)) at 1.
      - apply Z.bit_log2. pose proof (pow2_pos (Z.log2 x) (Z.log2_nonneg x)). lia.
      - apply Z.log2_unique; [apply Z.log2_nonneg|]. lia. }
    rewrite H, Z.bits_0 in Ht. discriminate.
  - intros (k & Hk & ->).
    rewrite land_ones_mod by lia. apply Z.mod_same.
    pose proof (pow2_pos k Hk). lia.
Qed.

Lemma has_single_bit_spec : forall w x, inU w x ->
  (has_single_bit w x = true <-> power_of_two x).
Proof.
  intros w x Hx. unfold has_single_bit.
  destruct (Z.eqb_spec x 0) as [->|Hne]; simpl.
  - split; [discriminate|]. intros (k & Hk & E). pose proof (pow2_pos k Hk). lia.
  - rewrite wrap_small by (unfold inU in *; lia).
    rewrite Z.eqb_eq. apply land_pred_pow2. unfold inU in Hx. lia.
Qed.

Lemma bit_ceil_spec : forall k x, inU (2 ^ Z.of_nat k) x -> (1 <= k)%nat ->
  match bit_ceil (2 ^ Z.of_nat k) x with
  | Some r => power_of_two r /\ x <= r < 2 ^ (2 ^ Z.of_nat k) /\
              (forall q, power_of_two q -> x <= q -> r <= q)
  | None => 2 ^ (2 ^ Z.of_nat k - 1) < x
  end.
Proof.
  intros k x Hx Hk. unfold bit_ceil. set (w := 2 ^ Z.of_nat k) in *.
  assert (Hw : 2 <= w).
  { unfold w. rewrite (pow2_half (Z.of_nat k)) by lia.
    pose proof (pow2_pos (Z.of_nat k - 1)). lia. }
  destruct (Z.ltb_spec x 2).
  - split; [exists 0; split; [lia|reflexivity]|]. split.
    + unfold inU in Hx. pose proof (pow2_lt 0 w). change (2 ^ 0) with 1 in *. lia.
    + intros q (j & Hj & ->) _. pose proof (pow2_pos j Hj). lia.
  - unfold inU in Hx.
    rewrite wrap_small by (unfold inU; lia).
    unfold w at 1. rewrite countl_zero_val by (unfold inU; fold w; lia). fold w.
    destruct (Z.eqb_spec (x - 1) 0) as [E|_]; [lia|]. cbn [bindo].
    replace (w - (w - 1 - Z.log2 (x - 1))) with (Z.log2 (x - 1) + 1) by lia.
    pose proof (Z.log2_nonneg (x - 1)) as Hl0.
    pose proof (Z.log2_spec (x - 1)) as Hl. rewrite <- Z.add_1_r in Hl.
    specialize (Hl ltac:(lia)).
    assert (Hlw : Z.log2 (x - 1) < w) by (apply -> Z.log2_lt_pow2; lia).
    unfold ushl. destruct (Z.leb_spec 0 (Z.log2 (x - 1) + 1)); [|lia].
    destruct (Z.ltb_spec (Z.log2 (x - 1) + 1) w); simpl andb; cbv iota.
    + rewrite Z.shiftl_mul_pow2, Z.mul_1_l by lia.
      assert (2 ^ (Z.log2 (x - 1) + 1) < 2 ^ w) by (apply pow2_lt; lia).
      rewrite wrap_small by (unfold inU; lia).
      split; [exists (Z.log2 (x - 1) + 1); lia|]. split; [lia|].
      intros q (j & Hj & ->) Hq. apply pow2_le.
      destruct (Z_lt_le_dec j (Z.log2 (x - 1) + 1)); auto. exfalso.
      assert (2 ^ j <= 2 ^ Z.log2 (x - 1)) by (apply pow2_le; lia). lia.
    + assert (Z.log2 (x - 1) = w - 1) by lia. rewrite <- H2. lia.
Qed.

(* ------------------------------------------------------------------ *)
(** ** Rotations *)

Lemma testbit_shiftl_any : forall x n i, 0 <= i -> 0 <= n ->
  Z.testbit (Z.shiftl x n) i = (n <=? i) && Z.testbit x (i - n).
Proof.
  intros. destruct (Z.leb_spec n i); simpl.
  - apply Z.shiftl_spec_high; lia.
  - apply Z.shiftl_spec_low; lia.
Qed.

Lemma rot_core : forall w t k, 0 < k < w -> inU w t ->
  rotated_left w t k (Z.lor (wrap w (Z.shiftl t k)) (Z.shiftr t (w - k))).
Proof.
  intros w t k Hk Ht. split.
  - apply inU_lor; [lia| apply wrap_range; lia|].
    unfold inU in *. rewrite Z.shiftr_div_pow2 by lia.
    assert (0 < 2 ^ (w - k)) by (apply pow2_pos; lia).
    split; [apply Z.div_pos; lia|].
    apply Z.div_lt_upper_bound; nia.
  - intros i Hi. rewrite Z.lor_spec, testbit_wrap, testbit_shiftl_any, Z.shiftr_spec by lia.
    destruct (Z.ltb_spec i w); [|lia]. simpl.
    destruct (Z.leb_spec k i); simpl.
    + rewrite (testbit_high w t (i + (w - k))) by (auto; lia).
      rewrite orb_false_r. rewrite Z.mod_small by lia. reflexivity.
    + f_equal. apply Z.mod_unique with (q := -1); lia.
Qed.

Lemma rotated_left_mod : forall w v c r, 0 < w ->
  rotated_left w v (c mod w) r <-> rotated_left w v c r.
Proof.
  intros w v c r Hw. unfold rotated_left.
  split; intros [H1 H2]; split; auto; intros i Hi; rewrite (H2 i Hi); f_equal.
  - rewrite Zminus_mod_idemp_r. reflexivity.
  - rewrite Zminus_mod_idemp_r. reflexivity.
Qed.

Lemma rotated_left_0 : forall w v, 0 < w -> inU w v -> rotated_left w v 0 v.
Proof.
  intros. split; auto. intros i Hi. rewrite Z.sub_0_r, Z.mod_small by lia. reflexivity.
Qed.

(** Width [2^k] with [k <= 31] divides [2^31] and [2^32]. *)
Lemma wrap32_mod : forall k c, (k <= 31)%nat ->
  wrap 32 c mod 2 ^ Z.of_nat k = c mod 2 ^ Z.of_nat k.
Proof.
  intros k c Hk. unfold wrap.
  rewrite (pow2_split (Z.of_nat k) 32) by lia.
  assert (0 < 2 ^ Z.of_nat k) by (apply pow2_pos; lia).
  assert (0 < 2 ^ (32 - Z.of_nat k)) by (apply pow2_pos; lia).
  rewrite Z.rem_mul_r by lia.
  rewrite (Z.mul_comm (2 ^ Z.of_nat k)), Z.mod_add by lia. apply Z.mod_mod. lia.
Qed.

Lemma min32_mod : forall k, (k <= 31)%nat -> (- 2 ^ 31) mod 2 ^ Z.of_nat k = 0.
Proof.
  intros k Hk. assert (0 < 2 ^ Z.of_nat k) by (apply pow2_pos; lia).
  rewrite (pow2_split (Z.of_nat k) 31) by lia.
  rewrite Z.mod_opp_l_z; try lia.
  all: rewrite Z.mul_comm; apply Z.mod_mul; lia.
Qed.

Lemma rotr_spec : forall k t cnt, (k <= 31)%nat ->
  inU (2 ^ Z.of_nat k) t -> inS 32 cnt ->
  exists r, rotr (2 ^ Z.of_nat k) t cnt = Some r /\
            rotated_left (2 ^ Z.of_nat k) t (- cnt) r.
Proof.
  intros k t cnt Hk Ht Hc. unfold rotr. rewrite wrap32_mod by auto.
  pose proof (min32_mod k Hk) as Hmin.
  pose proof (fun c => wrap32_mod k c Hk) as Hwm.
  set (w := 2 ^ Z.of_nat k) in *.
  assert (Hw : 0 < w) by (apply pow2_pos; lia).
  destruct (Z.eqb_spec (cnt mod w) 0) as [E|E].
  - exists t. split; auto. rewrite <- rotated_left_mod by auto.
    rewrite Z.mod_opp_l_z by (auto; lia). apply rotated_left_0; auto.
  - pose proof (Z.mod_pos_bound cnt w Hw) as Hm.
    unfold inS in Hc. change (32 - 1) with 31 in Hc.
    destruct (Z.ltb_spec cnt 0).
    + assert (cnt <> - 2 ^ 31) by (intros ->; auto).
      unfold sarith. replace (inSb 32 (cnt * -1)) with true.
      2:{ symmetry. apply inSb_spec. unfold inS. change (32 - 1) with 31. lia. }
      cbn [bindo]. rewrite Hwm.
      assert (Hneg : (cnt * -1) mod w = w - cnt mod w).
      { replace (cnt * -1) with (- cnt) by lia. apply Z.mod_opp_l_nz; lia. }
      pose proof (Z.mod_pos_bound (cnt * -1) w Hw).
      unfold ushl, ushr.
      replace ((0 <=? (cnt * -1) mod w) && ((cnt * -1) mod w <? w)) with true by lia.
      replace ((0 <=? w - (cnt * -1) mod w) && (w - (cnt * -1) mod w <? w)) with true by lia.
      cbn [bindo]. eexists. split; [reflexivity|].
      rewrite <- rotated_left_mod by auto.
      replace (- cnt) with (cnt * -1) by lia.
      apply rot_core; [lia|auto].
    + unfold ushl, ushr.
      replace ((0 <=? cnt mod w) && (cnt mod w <? w)) with true by lia.
      replace ((0 <=? w - cnt mod w) && (w - cnt mod w <? w)) with true by lia.
      cbn [bindo]. eexists. split; [reflexivity|].
      rewrite <- rotated_left_mod by auto.
      rewrite Z.mod_opp_l_nz by lia.
      rewrite Z.lor_comm.
      replace (Z.shiftr t (cnt mod w)) with (Z.shiftr t (w - (w - cnt mod w))) by (f_equal; lia).
      apply rot_core; [lia|auto].
Qed.

Lemma rotl_spec : forall k t cnt, (k <= 31)%nat ->
  inU (2 ^ Z.of_nat k) t -> inS 32 cnt -> cnt <> - 2 ^ 31 ->
  exists r, rotl (2 ^ Z.of_nat k) t cnt = Some r /\
            rotated_left (2 ^ Z.of_nat k) t cnt r.
Proof.
  intros k t cnt Hk Ht Hc Hne. unfold rotl, sarith, inS in *.
  change (32 - 1) with 31 in *.
  replace (inSb 32 (- cnt)) with true.
  2:{ symmetry. apply inSb_spec. unfold inS. change (32 - 1) with 31. lia. }
  cbn [bindo].
  destruct (rotr_spec k t (- cnt) Hk Ht) as (r & H1 & H2).
  { unfold inS. change (32 - 1) with 31. lia. }
  exists r. rewrite Z.opp_involutive in H2. auto.
Qed.

Lemma rotl_min_undefined : forall w t, rotl w t (- 2 ^ 31) = None.
Proof. intros. reflexivity. Qed.

Lemma rotated_left_unique : forall w v c r r', 0 < w ->
  rotated_left w v c r -> rotated_left w v c r' -> r = r'.
Proof.
  intros w v c r r' Hw [H1 H2] [H3 H4]. apply Z.bits_inj'. intros i Hi.
  destruct (Z_lt_le_dec i w).
  - rewrite H2, H4 by lia. reflexivity.
  - rewrite !(testbit_high w) by (auto; unfold inU; lia). reflexivity.
Qed.

Lemma rotated_left_inv : forall w v c r r', 0 < w -> inU w v ->
  rotated_left w v c r -> rotated_left w r (- c) r' -> r' = v.
Proof.
  intros w v c r r' Hw Hv [H1 H2] [H3 H4]. apply Z.bits_inj'. intros i Hi.
  destruct (Z_lt_le_dec i w).
  - rewrite H4 by lia. rewrite H2 by (apply Z.mod_pos_bound; lia).
    f_equal. rewrite Zminus_mod_idemp_l.
    replace (i - - c - c) with i by lia. apply Z.mod_small. lia.
  - rewrite !(testbit_high w) by (auto; unfold inU; lia). reflexivity.
Qed.

Lemma rotl_rotr_id : forall k t cnt, (k <= 31)%nat ->
  inU (2 ^ Z.of_nat k) t -> inS 32 cnt -> cnt <> - 2 ^ 31 ->
  (do r <- rotr (2 ^ Z.of_nat k) t cnt; rotl (2 ^ Z.of_nat k) r cnt) = Some t.
Proof.
  intros k t cnt Hk Ht Hc Hne.
  destruct (rotr_spec k t cnt Hk Ht Hc) as (r & H1 & H2).
  rewrite H1. cbn [bindo].
  assert (Hr : inU (2 ^ Z.of_nat k) r) by (destruct H2; auto).
  destruct (rotl_spec k r cnt Hk Hr Hc Hne) as (r' & H3 & H4).
  rewrite H3. f_equal.
  apply (rotated_left_inv (2 ^ Z.of_nat k) t (- cnt) r r'); auto.
  - apply pow2_pos; lia.
  - rewrite Z.opp_involutive. auto.
Qed.

(* ------------------------------------------------------------------ *)
(** ** popcount *)

Lemma land1_testbit : forall v i, 0 <= i ->
  negb (Z.land (Z.shiftr v i) 1 =? 0) = Z.testbit v i.
Proof.
  intros v i Hi. change 1 with (2 ^ 1 - 1). rewrite land_ones_mod by lia.
  change (2 ^ 1) with 2. rewrite <- Z.bit0_mod, Z.shiftr_spec, Z.add_0_l by lia.
  destruct (Z.testbit v i); reflexivity.
Qed.

Lemma popcount_loop_spec : forall k i v c, 0 <= i ->
  popcount_loop k i v c = c + bit_sum k (Z.shiftr v i).
Proof.
  assert (Hs : forall k v, bit_sum (S k) v = b2z (Z.testbit v 0) + bit_sum k (Z.shiftr v 1)).
  { induction k; intros.
    - simpl. destruct (Z.testbit v 0); reflexivity.
    - change (bit_sum (S (S k)) v) with
        ((if Z.testbit v (Z.of_nat (S k)) then 1 else 0) + bit_sum (S k) v).
      rewrite IHk. change (bit_sum (S k) (Z.shiftr v 1)) with
        ((if Z.testbit (Z.shiftr v 1) (Z.of_nat k) then 1 else 0) + bit_sum k (Z.shiftr v 1)).
      rewrite Z.shiftr_spec by lia. replace (Z.of_nat k + 1) with (Z.of_nat (S k)) by lia. lia. }
  induction k; intros i v c Hi.
  - simpl. lia.
  - cbn [popcount_loop]. rewrite land1_testbit by auto. rewrite IHk by lia.
    rewrite Hs, Z.shiftr_spec, Z.add_0_l, Z.shiftr_shiftr by lia.
    destruct (Z.testbit v i); simpl b2z; lia.
Qed.

Lemma popcount_generic_spec : forall w v, 0 <= w ->
  popcount_generic w v = bit_sum (Z.to_nat w) v.
Proof. intros. unfold popcount_generic. rewrite popcount_loop_spec by lia. reflexivity. Qed.

(** Explicit decomposition of a value into its low [k] bits. *)
Fixpoint of_bits (l : list bool) : Z :=
  match l with nil => 0 | b :: t => b2z b + 2 * of_bits t end.

Fixpoint to_bits (k : nat) (v : Z) : list bool :=
  match k with O => nil | S k' => Z.odd v :: to_bits k' (Z.div2 v) end.

Lemma of_to_bits : forall k v, inU (Z.of_nat k) v -> of_bits (to_bits k v) = v.
Proof.
  induction k; intros v Hv.
  - unfold inU in Hv. simpl in *. change (2 ^ Z.of_nat 0) with 1 in Hv. lia.
  - cbn [to_bits of_bits]. rewrite IHk.
    + rewrite (Z.div2_odd v) at 3. destruct (Z.odd v); simpl b2z; simpl Z.b2z; lia.
    + unfold inU in *. rewrite Nat2Z.inj_succ, Z.pow_succ_r in Hv by lia.
      rewrite Z.div2_div. zlia.
Qed.

(** SWAR step on a pair of adjacent fields of [s] bits each. *)
Lemma bit_sum_high : forall a k v, inU (Z.of_nat k) v -> bit_sum (k + a) v = bit_sum k v.
Proof.
  induction a; intros k v Hv.
  - f_equal. lia.
  - rewrite <- plus_n_Sm. cbn [bit_sum].
    rewrite (testbit_high (Z.of_nat k) v) by (auto; lia). rewrite IHa by auto. lia.
Qed.

Lemma bit_sum_split : forall a b v,
  bit_sum (a + b) v = bit_sum a v + bit_sum b (Z.shiftr v (Z.of_nat a)).
Proof.
  induction b; intros v.
  - rewrite <- plus_n_O. simpl. lia.
  - rewrite <- plus_n_Sm. cbn [bit_sum]. rewrite IHb, Z.shiftr_spec by lia.
    replace (Z.of_nat b + Z.of_nat a) with (Z.of_nat (a + b)) by lia. lia.
Qed.

Lemma bit_sum_bounds : forall k v, 0 <= bit_sum k v <= Z.of_nat k.
Proof.
  induction k; intros; [simpl; lia|]. cbn [bit_sum]. specialize (IHk v).
  destruct (Z.testbit v (Z.of_nat k)); lia.
Qed.

Lemma bit_sum_mod : forall k v m, (Z.of_nat k <= m) ->
  bit_sum k (v mod 2 ^ m) = bit_sum k v.
Proof.
  induction k; intros; [reflexivity|]. cbn [bit_sum].
  rewrite Z.mod_pow2_bits_low by lia. rewrite IHk by lia. reflexivity.
Qed.

(* ------------------------------------------------------------------ *)
(** ** Carry arithmetic *)

Lemma add_overflow_u_spec : forall w a b, inU w a -> inU w b ->
  let '(r, c) := add_overflow_u w a b in
  inU w r /\ a + b = r + 2 ^ w * b2z c /\ (c = true <-> ~ inU w (a + b)).
Proof.
  intros w a b Ha Hb. unfold add_overflow_u, inU in *.
  destruct (Z_lt_le_dec (a + b) (2 ^ w)).
  - rewrite wrap_small by (unfold inU; lia).
    destruct (Z.ltb_spec (a + b) a); simpl b2z; [lia|].
    repeat split; try lia; try discriminate.
  - rewrite (wrap_unique w (a + b) (a + b - 2 ^ w) 1) by (unfold inU; lia).
    destruct (Z.ltb_spec (a + b - 2 ^ w) a); simpl b2z; [|lia].
    repeat split; try lia.
Qed.

Lemma sub_overflow_u_spec : forall w a b, inU w a -> inU w b ->
  let '(r, c) := sub_overflow_u w a b in
  inU w r /\ a - b = r - 2 ^ w * b2z c /\ (c = true <-> ~ inU w (a - b)).
Proof.
  intros w a b Ha Hb. unfold sub_overflow_u, inU in *.
  destruct (Z.ltb_spec a b); simpl b2z.
  - rewrite (wrap_unique w (a - b) (a - b + 2 ^ w) (-1)) by (unfold inU; lia).
    repeat split; try lia.
  - rewrite wrap_small by (unfold inU; lia).
    repeat split; try lia; discriminate.
Qed.

Lemma add_with_carry_spec : forall w a b c, inU w a -> inU w b -> 0 <= c <= 1 -> 1 <= w ->
  let '(r, c') := add_with_carry w a b c in
  inU w r /\ 0 <= c' <= 1 /\ a + b + c = r + 2 ^ w * c'.
Proof.
  intros w a b c Ha Hb Hc Hw. unfold add_with_carry.
  pose proof (add_overflow_u_spec w a b Ha Hb) as H1.
  destruct (add_overflow_u w a b) as [s c1]. destruct H1 as (Hs & E1 & _).
  assert (Hcw : inU w c). { unfold inU in *. pose proof (pow2_half w Hw). pose proof (pow2_pos (w - 1)). lia. }
  pose proof (add_overflow_u_spec w s c Hs Hcw) as H2.
  destruct (add_overflow_u w s c) as [s2 c2]. destruct H2 as (Hs2 & E2 & _).
  split; auto. unfold inU in *.
  destruct c1, c2; simpl b2z in *; simpl Z.lor; split; try lia.
Qed.

Lemma sub_with_borrow_spec : forall w a b c, inU w a -> inU w b -> 0 <= c <= 1 -> 1 <= w ->
  let '(r, c') := sub_with_borrow w a b c in
  inU w r /\ 0 <= c' <= 1 /\ a - b - c = r - 2 ^ w * c'.
Proof.
  intros w a b c Ha Hb Hc Hw. unfold sub_with_borrow.
  pose proof (sub_overflow_u_spec w a b Ha Hb) as H1.
  destruct (sub_overflow_u w a b) as [s c1]. destruct H1 as (Hs & E1 & _).
  assert (Hcw : inU w c). { unfold inU in *. pose proof (pow2_half w Hw). pose proof (pow2_pos (w - 1)). lia. }
  pose proof (sub_overflow_u_spec w s c Hs Hcw) as H2.
  destruct (sub_overflow_u w s c) as [s2 c2]. destruct H2 as (Hs2 & E2 & _).
  split; auto. unfold inU in *.
  destruct c1, c2; simpl b2z in *; simpl Z.lor; split; try lia.
Qed.

(** Sign bit of a [w]-bit pattern. *)
Lemma testbit_top : forall w x, 1 <= w -> inU w x ->
  Z.testbit x (w - 1) = (2 ^ (w - 1) <=? x).
Proof.
  intros w x Hw Hx. pose proof (pow2_half w Hw). unfold inU in Hx.
  destruct (Z.leb_spec (2 ^ (w - 1)) x).
  - replace x with (1 * 2 ^ (w - 1) + (x - 2 ^ (w - 1))) by lia.
    rewrite <- lor_add by lia. rewrite Z.lor_spec, Z.mul_1_l.
    rewrite Z.pow2_bits_true by lia. reflexivity.
  - apply testbit_high with (w := w - 1); unfold inU; lia.
Qed.

Lemma land_pow2_test : forall x i, 0 <= i -> 
  negb (Z.land x (2 ^ i) =? 0) = Z.testbit x i.
Proof.
  intros x i Hi.
  destruct (Z.testbit x i) eqn:E.
  - destruct (Z.eqb_spec (Z.land x (2 ^ i)) 0) as [H|H]; auto.
    assert (Z.testbit (Z.land x (2 ^ i)) i = true).
    { rewrite Z.land_spec, E, Z.pow2_bits_true by lia. reflexivity. }
    rewrite H, Z.bits_0 in H0. discriminate.
  - replace (Z.land x (2 ^ i)) with 0; auto.
    symmetry. apply Z.bits_inj'. intros j Hj. rewrite Z.land_spec, Z.bits_0.
    destruct (Z.eq_dec i j) as [<-|].
    + rewrite E. reflexivity.
    + rewrite Z.pow2_bits_false by lia. apply andb_false_r.
Qed.

Lemma wrap_signed_cases : forall w a, 1 <= w -> inS w a ->
  wrap w a = if a <? 0 then a + 2 ^ w else a.
Proof.
  intros w a Hw Ha. unfold inS in Ha. pose proof (pow2_half w Hw).
  destruct (Z.ltb_spec a 0).
  - apply wrap_unique with (k := -1); unfold inU; lia.
  - apply wrap_small. unfold inU. lia.
Qed.

Lemma add_overflow_s_spec : forall w a b old, 1 <= w -> inS w a -> inS w b ->
  let '(r, ovf) := add_overflow_s w a b old in
  (ovf = true <-> ~ inS w (a + b)) /\ (ovf = false -> r = a + b) /\ (ovf = true -> r = old).
Proof.
  intros w a b old Hw Ha Hb. unfold add_overflow_s.
  assert (HP := pow2_half w Hw). assert (HP0 := pow2_pos (w - 1) ltac:(lia)).
  assert (Hua := wrap_range w a ltac:(lia)). assert (Hub := wrap_range w b ltac:(lia)).
  assert (Hus := wrap_range w (wrap w a + wrap w b) ltac:(lia)).
  assert (Ea := wrap_signed_cases w a Hw Ha). assert (Eb := wrap_signed_cases w b Hw Hb).
  rewrite land_pow2_test by lia.
  rewrite Z.land_spec, testbit_unot by (try apply inU_lxor; auto; lia).
  rewrite !Z.lxor_spec, !testbit_top by (auto; lia).
  replace (w - 1 <? w) with true by lia. cbn [andb].
  rewrite wrap_add_l, wrap_add_r by lia.
  assert (Es : wrap w (a + b) = a + b \/ wrap w (a + b) = a + b + 2 ^ w \/
               wrap w (a + b) = a + b - 2 ^ w).
  { unfold inS in *.
    destruct (Z_lt_le_dec (a + b) 0); [right; left|].
    - apply wrap_unique with (k := -1); unfold inU; lia.
    - left. apply wrap_small. unfold inU; lia. }
  rewrite wrap_add_l, wrap_add_r in Hus by lia.
  unfold inU, inS, to_signed in *.
  set (s := wrap w (a + b)) in *.
  rewrite Ea, Eb. clear Ea Eb.
  destruct (Z.ltb_spec a 0), (Z.ltb_spec b 0);
  repeat match goal with |- context [2 ^ (w - 1) <=? ?x] =>
    destruct (Z.leb_spec (2 ^ (w - 1)) x) end; cbn [xorb negb andb];
  repeat match goal with |- context [?x <? 2 ^ (w - 1)] =>
    destruct (Z.ltb_spec x (2 ^ (w - 1))) end;
  (split; [split; intros; first [discriminate | lia ] | split; intros; first [discriminate | reflexivity | lia]]).
Qed.

Lemma sub_overflow_s_spec : forall w a b old, 1 <= w -> inS w a -> inS w b ->
  let '(r, ovf) := sub_overflow_s w a b old in
  (ovf = true <-> ~ inS w (a - b)) /\ (ovf = false -> r = a - b) /\ (ovf = true -> r = old).
Proof.
  intros w a b old Hw Ha Hb. unfold sub_overflow_s.
  assert (HP := pow2_half w Hw). assert (HP0 := pow2_pos (w - 1) ltac:(lia)).
  assert (Hua := wrap_range w a ltac:(lia)). assert (Hub := wrap_range w b ltac:(lia)).
  assert (Hus := wrap_range w (wrap w a - wrap w b) ltac:(lia)).
  assert (Ea := wrap_signed_cases w a Hw Ha). assert (Eb := wrap_signed_cases w b Hw Hb).
  rewrite land_pow2_test by lia.
  rewrite Z.land_spec.
  rewrite !Z.lxor_spec, !testbit_top by (auto; lia).
  rewrite wrap_sub_l, wrap_sub_r by lia.
  assert (Es : wrap w (a - b) = a - b \/ wrap w (a - b) = a - b + 2 ^ w \/
               wrap w (a - b) = a - b - 2 ^ w).
  { unfold inS in *.
    destruct (Z_lt_le_dec (a - b) 0); [right; left|].
    - apply wrap_unique with (k := -1); unfold inU; lia.
    - left. apply wrap_small. unfold inU; lia. }
  rewrite wrap_sub_l, wrap_sub_r in Hus by lia.
  unfold inU, inS, to_signed in *.
  set (s := wrap w (a - b)) in *.
  rewrite Ea, Eb. clear Ea Eb.
  destruct (Z.ltb_spec a 0), (Z.ltb_spec b 0);
  repeat match goal with |- context [2 ^ (w - 1) <=? ?x] =>
    destruct (Z.leb_spec (2 ^ (w - 1)) x) end; cbn [xorb negb andb];
  repeat match goal with |- context [?x <? 2 ^ (w - 1)] =>
    destruct (Z.ltb_spec x (2 ^ (w - 1))) end;
  (split; [split; intros; first [discriminate | lia ] | split; intros; first [discriminate | reflexivity | lia]]).
Qed.

(* ------------------------------------------------------------------ *)
(** ** Masks *)

Lemma mask_trailing_ones_spec : forall w n, 0 <= n <= w -> 1 <= w ->
  mask_trailing_ones w n = Some (2 ^ n - 1).
Proof.
  intros w n Hn Hw. unfold mask_trailing_ones.
  destruct (Z.eqb_spec n 0) as [->|]; auto.
  unfold ushr. replace ((0 <=? w - n) && (w - n <? w)) with true by lia.
  f_equal. unfold unot. rewrite Z.sub_0_r, Z.shiftr_div_pow2 by lia.
  rewrite (pow2_split (w - n) w) by lia. replace (w - (w - n)) with n by lia.
  assert (0 < 2 ^ (w - n)) by (apply pow2_pos; lia).
  symmetry. apply Z.div_unique with (r := 2 ^ (w - n) - 1); lia.
Qed.

Lemma mask_leading_ones_spec : forall w n, 0 <= n <= w -> 1 <= w ->
  mask_leading_ones w n = Some (2 ^ w - 2 ^ (w - n)).
Proof.
  intros w n Hn Hw. unfold mask_leading_ones.
  rewrite mask_trailing_ones_spec by lia. cbn [bindo]. f_equal. unfold unot. lia.
Qed.

Lemma mask_trailing_zeros_spec : forall w n, 0 <= n <= w -> 1 <= w ->
  mask_trailing_zeros w n = Some (2 ^ w - 2 ^ n).
Proof.
  intros. unfold mask_trailing_zeros. rewrite mask_leading_ones_spec by lia.
  do 3 f_equal. lia.
Qed.

Lemma mask_leading_zeros_spec : forall w n, 0 <= n <= w -> 1 <= w ->
  mask_leading_zeros w n = Some (2 ^ (w - n) - 1).
Proof. intros. unfold mask_leading_zeros. apply mask_trailing_ones_spec; lia. Qed.

Lemma bit_ceil_narrow_spec : forall k x, inU (2 ^ Z.of_nat k) x -> (1 <= k <= 5)%nat ->
  match bit_ceil_narrow (2 ^ Z.of_nat k) x with
  | Some r => power_of_two r /\ x <= r < 2 ^ (2 ^ Z.of_nat k) /\
              (forall q, power_of_two q -> x <= q -> r <= q)
  | None => 2 ^ (2 ^ Z.of_nat k - 1) < x
  end.
Proof.
  intros k x Hx Hk. pose proof (bit_ceil_spec k x Hx ltac:(lia)) as H.
  unfold bit_ceil_narrow, bit_ceil in *.
  assert (Hw : 2 <= 2 ^ Z.of_nat k <= 32).
  { split; [apply (pow2_le 1); lia | apply (pow2_le _ 5); lia]. }
  destruct (x <? 2); auto.
  set (w := 2 ^ Z.of_nat k) in *.
  destruct (countl_zero w (wrap w (x - 1))) as [c|] eqn:E; cbn [bindo] in *; auto.
  unfold ushl in *. 
  destruct (Z.leb_spec 0 (w - c)) as [H0|H0].
  - replace (0 <=? w - c + (32 - w)) with true by lia.
    destruct (Z.ltb_spec (w - c) w) as [H1|H1].
    + replace (w - c + (32 - w) <? 32) with true by lia.
      simpl andb in *; cbv iota in *; cbn [bindo].
      enough (Er : wrap w (Z.shiftr (wrap 32 (Z.shiftl 1 (w - c + (32 - w)))) (32 - w))
              = wrap w (Z.shiftl 1 (w - c))) by (rewrite Er; exact H).
      f_equal. rewrite Z.shiftl_1_l. rewrite wrap_small.
      * rewrite Z.shiftr_div_pow2, Z.shiftl_1_l, Z.pow_add_r by lia.
        apply Z.div_mul. pose proof (pow2_pos (32 - w)). lia.
      * unfold inU. split; [apply Z.pow_nonneg; lia|apply pow2_lt; lia].
    + replace (w - c + (32 - w) <? 32) with false by lia. simpl in *. exact H.
  - exfalso. unfold w in E. rewrite countl_zero_val in E by (apply wrap_range; fold w; lia).
    fold w in E. destruct (_ =? 0).
    + injection E as <-. lia.
    + injection E as <-. pose proof (Z.log2_nonneg (wrap w (x - 1))). lia.
Qed.
