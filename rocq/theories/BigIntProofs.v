(** * Proofs about the multiword integer model *)
From Coq Require Import ZArith Lia Bool List.
From Verif Require Import MachInt Bits BitsSpec BitsProofs BigInt.
Import ListNotations.
Open Scope Z_scope.

(** All words are in range. *)
Definition wf (w : Z) (l : words) : Prop := Forall (inU w) l.
Definition bits (w : Z) (l : words) : Z := w * Z.of_nat (length l).

Lemma wf_cons : forall w d l, wf w (d :: l) <-> inU w d /\ wf w l.
Proof. intros; split; intros H; [inversion H; auto|destruct H; constructor; auto]. Qed.

Lemma bits_cons : forall w d l, bits w (d :: l) = w + bits w l.
Proof. intros. unfold bits. cbn [length]. lia. Qed.
Lemma bits_nonneg : forall w l, 0 <= w -> 0 <= bits w l.
Proof. intros. unfold bits. nia. Qed.

Lemma bval_range : forall w l, 0 <= w -> wf w l -> 0 <= bval w l < 2 ^ bits w l.
Proof.
  intros w l Hw. induction l; intros H.
  - unfold bits. simpl. rewrite Z.mul_0_r. simpl. lia.
  - apply wf_cons in H. destruct H as [H1 H2]. specialize (IHl H2).
    rewrite bits_cons, Z.pow_add_r by (auto using bits_nonneg). cbn [bval].
    unfold inU in H1. pose proof (pow2_pos w Hw). nia.
Qed.

Lemma bval_app : forall w a b, 0 <= w -> bval w (a ++ b) = bval w a + 2 ^ bits w a * bval w b.
Proof.
  intros w a b Hw. induction a.
  - unfold bits. simpl. rewrite Z.mul_0_r. cbn [Z.pow]. lia.
  - cbn [app bval]. rewrite IHa, bits_cons, Z.pow_add_r by (auto using bits_nonneg). ring.
Qed.

Lemma wf_app : forall w a b, wf w (a ++ b) <-> wf w a /\ wf w b.
Proof. intros. apply Forall_app. Qed.

Lemma words_of_len : forall w n v, length (words_of w n v) = n.
Proof. intros w n. induction n; intros; simpl; auto. Qed.

Lemma words_of_wf : forall w n v, 0 <= w -> wf w (words_of w n v).
Proof.
  intros w n v Hw. revert v. induction n; intros; simpl; constructor.
  - apply wrap_range; auto.
  - apply IHn.
Qed.

Lemma words_of_val : forall w n v, 0 <= w ->
  bval w (words_of w n v) = v mod 2 ^ (w * Z.of_nat n).
Proof.
  intros w n v Hw. revert v. induction n; intros.
  - simpl. rewrite Z.mul_0_r. simpl. rewrite Z.mod_1_r. reflexivity.
  - cbn [words_of bval]. rewrite IHn.
    replace (w * Z.of_nat (S n)) with (w + w * Z.of_nat n) by lia.
    rewrite Z.pow_add_r by nia.
    pose proof (pow2_pos w Hw). assert (0 <= w * Z.of_nat n) by nia.
    pose proof (pow2_pos _ H0).
    rewrite Z.rem_mul_r by lia. lia.
Qed.

(** A well-formed list is determined by its length and value. *)
Lemma words_of_bval : forall w l, 0 <= w -> wf w l -> words_of w (length l) (bval w l) = l.
Proof.
  intros w l Hw. induction l; intros H; auto.
  apply wf_cons in H. destruct H as [H1 H2]. cbn [length words_of bval].
  pose proof (pow2_pos w Hw). unfold inU in H1.
  f_equal.
  - rewrite Z.mul_comm, Z.mod_add, Z.mod_small by lia. reflexivity.
  - rewrite Z.mul_comm, Z.div_add, Z.div_small, Z.add_0_l by lia. auto.
Qed.

Lemma bval_inj : forall w a b, 0 <= w -> wf w a -> wf w b -> length a = length b ->
  bval w a = bval w b -> a = b.
Proof.
  intros. rewrite <- (words_of_bval w a), <- (words_of_bval w b) by auto.
  congruence.
Qed.

Lemma bval_repeat0 : forall w n, bval w (repeat 0 n) = 0.
Proof. intros. induction n; simpl; auto. rewrite IHn. lia. Qed.
Lemma wf_repeat : forall w x n, inU w x -> wf w (repeat x n).
Proof. intros. induction n; simpl; constructor; auto. Qed.
Lemma bval_repeat_max : forall w n, 0 <= w ->
  bval w (repeat (2 ^ w - 1) n) = 2 ^ (w * Z.of_nat n) - 1.
Proof.
  intros w n Hw. induction n.
  - simpl. rewrite Z.mul_0_r. reflexivity.
  - cbn [repeat bval]. rewrite IHn.
    replace (w * Z.of_nat (S n)) with (w + w * Z.of_nat n) by lia.
    rewrite Z.pow_add_r by nia. ring.
Qed.

Lemma wget_range : forall w l i, 0 <= w -> wf w l -> inU w (wget l i).
Proof.
  intros w l i Hw H. unfold wget. destruct (nth_in_or_default i l 0) as [Hi| ->].
  - unfold wf in H. rewrite Forall_forall in H. auto.
  - apply inU_0. auto.
Qed.

(** Word [i] read off the value. *)
Lemma wget_val : forall w l i, 0 <= w -> wf w l ->
  wget l i = bval w l / 2 ^ (w * Z.of_nat i) mod 2 ^ w.
Proof.
  intros w l i Hw H. revert i. induction l; intros i.
  - unfold wget. simpl. rewrite Z.div_0_l, Z.mod_0_l.
    + destruct i; reflexivity.
    + pose proof (pow2_pos w Hw). lia.
    + assert (0 <= w * Z.of_nat i) by nia. pose proof (pow2_pos _ H0). lia.
  - apply wf_cons in H. destruct H as [H1 H2].
    pose proof (pow2_pos w Hw) as HP. unfold inU in H1. destruct i.
    + unfold wget. cbn [nth bval]. change (Z.of_nat 0) with 0. rewrite Z.mul_0_r.
      change (2 ^ 0) with 1. rewrite Z.div_1_r, Z.mul_comm, Z.mod_add, Z.mod_small by lia.
      reflexivity.
    + unfold wget in *. cbn [nth bval]. rewrite IHl by auto.
      replace (w * Z.of_nat (S i)) with (w + w * Z.of_nat i) by lia.
      assert (0 <= w * Z.of_nat i) by nia. pose proof (pow2_pos _ H).
      rewrite Z.pow_add_r, <- Z.div_div by lia.
      rewrite (Z.mul_comm (2 ^ w)), Z.div_add, (Z.div_small a), Z.add_0_l by lia. reflexivity.
Qed.

(** Bits of a value by word. *)
Lemma bval_testbit : forall w l i, 1 <= w -> wf w l -> 0 <= i ->
  Z.testbit (bval w l) i = Z.testbit (wget l (Z.to_nat (i / w))) (i mod w).
Proof.
  intros w l i Hw H Hi.
  rewrite (wget_val w) by (auto; lia).
  rewrite Z.mod_pow2_bits_low by (apply Z.mod_pos_bound; lia).
  assert (0 <= i / w) by (apply Z.div_pos; lia).
  rewrite Z2Nat.id by auto.
  pose proof (Z.mod_pos_bound i w).
  rewrite Z.div_pow2_bits by nia. f_equal. rewrite (Z.div_mod i w) at 1 by lia. lia.
Qed.

Lemma bval_testbit_high : forall w l i, 0 <= w -> wf w l -> bits w l <= i ->
  Z.testbit (bval w l) i = false.
Proof.
  intros w l i Hw H Hi. apply (testbit_high (bits w l)); auto.
  - apply bval_range; auto.
Qed.

(* ------------------------------------------------------------------ *)
(** ** Addition and subtraction *)

(** Abstract view of a carry operation: [d (+/-) r (+/-) c = v (+/-) B*c']. *)
Lemma binop_add : forall w dst rhs c, 1 <= w -> wf w dst -> wf w rhs ->
  0 <= c <= 1 -> (length rhs <= length dst)%nat ->
  let '(r, c') := inplace_binop (add_with_carry w) dst rhs c in
  wf w r /\ length r = length dst /\ 0 <= c' <= 1 /\
  bval w dst + bval w rhs + c = bval w r + 2 ^ bits w dst * c'.
Proof.
  intros w dst. induction dst as [|d dst IH]; intros rhs c Hw Hd Hr Hc Hl.
  - destruct rhs; [|simpl in Hl; lia]. cbn [inplace_binop bval]. unfold bits. simpl.
    rewrite Z.mul_0_r. change (2 ^ 0) with 1. repeat split; auto; try lia.
  - apply wf_cons in Hd. destruct Hd as [Hd1 Hd2].
    pose proof (bits_nonneg w dst ltac:(lia)) as Hb.
    assert (HE : 2 ^ bits w (d :: dst) = 2 ^ w * 2 ^ bits w dst)
      by (rewrite bits_cons, Z.pow_add_r by lia; reflexivity).
    destruct rhs as [|r rhs].
    + cbn [inplace_binop].
      pose proof (add_with_carry_spec w d 0 c Hd1 ltac:(apply inU_0; lia) Hc Hw) as H.
      destruct (add_with_carry w d 0 c) as [v c1]. destruct H as (Hv & Hc1 & E).
      destruct (Z.eqb_spec c1 0) as [->|Hne].
      * cbn [bval]. repeat split; auto; try lia. constructor; auto.
      * specialize (IH nil c1 Hw Hd2 Hr Hc1 ltac:(simpl; lia)).
        destruct (inplace_binop (add_with_carry w) dst nil c1) as [rest c2].
        destruct IH as (I1 & I2 & I3 & I4). cbn [bval length] in *.
        repeat split; try lia. { constructor; auto. }
        all: rewrite HE; nia.
    + cbn [inplace_binop]. apply wf_cons in Hr. destruct Hr as [Hr1 Hr2].
      pose proof (add_with_carry_spec w d r c Hd1 Hr1 Hc Hw) as H.
      destruct (add_with_carry w d r c) as [v c1]. destruct H as (Hv & Hc1 & E).
      specialize (IH rhs c1 Hw Hd2 Hr2 Hc1 ltac:(simpl in Hl; lia)).
      destruct (inplace_binop (add_with_carry w) dst rhs c1) as [rest c2].
      destruct IH as (I1 & I2 & I3 & I4). cbn [bval length] in *.
      repeat split; try lia. { constructor; auto. }
      all: rewrite HE; nia.
Qed.

Lemma binop_sub : forall w dst rhs c, 1 <= w -> wf w dst -> wf w rhs ->
  0 <= c <= 1 -> (length rhs <= length dst)%nat ->
  let '(r, c') := inplace_binop (sub_with_borrow w) dst rhs c in
  wf w r /\ length r = length dst /\ 0 <= c' <= 1 /\
  bval w dst - bval w rhs - c = bval w r - 2 ^ bits w dst * c'.
Proof.
  intros w dst. induction dst as [|d dst IH]; intros rhs c Hw Hd Hr Hc Hl.
  - destruct rhs; [|simpl in Hl; lia]. cbn [inplace_binop bval]. unfold bits. simpl.
    rewrite Z.mul_0_r. change (2 ^ 0) with 1. repeat split; auto; try lia.
  - apply wf_cons in Hd. destruct Hd as [Hd1 Hd2].
    pose proof (bits_nonneg w dst ltac:(lia)) as Hb.
    assert (HE : 2 ^ bits w (d :: dst) = 2 ^ w * 2 ^ bits w dst)
      by (rewrite bits_cons, Z.pow_add_r by lia; reflexivity).
    destruct rhs as [|r rhs].
    + cbn [inplace_binop].
      pose proof (sub_with_borrow_spec w d 0 c Hd1 ltac:(apply inU_0; lia) Hc Hw) as H.
      destruct (sub_with_borrow w d 0 c) as [v c1]. destruct H as (Hv & Hc1 & E).
      destruct (Z.eqb_spec c1 0) as [->|Hne].
      * cbn [bval]. repeat split; auto; try lia. constructor; auto.
      * specialize (IH nil c1 Hw Hd2 Hr Hc1 ltac:(simpl; lia)).
        destruct (inplace_binop (sub_with_borrow w) dst nil c1) as [rest c2].
        destruct IH as (I1 & I2 & I3 & I4). cbn [bval length] in *.
        repeat split; try lia. { constructor; auto. }
        all: rewrite HE; nia.
    + cbn [inplace_binop]. apply wf_cons in Hr. destruct Hr as [Hr1 Hr2].
      pose proof (sub_with_borrow_spec w d r c Hd1 Hr1 Hc Hw) as H.
      destruct (sub_with_borrow w d r c) as [v c1]. destruct H as (Hv & Hc1 & E).
      specialize (IH rhs c1 Hw Hd2 Hr2 Hc1 ltac:(simpl in Hl; lia)).
      destruct (inplace_binop (sub_with_borrow w) dst rhs c1) as [rest c2].
      destruct IH as (I1 & I2 & I3 & I4). cbn [bval length] in *.
      repeat split; try lia. { constructor; auto. }
      all: rewrite HE; nia.
Qed.

(** A range statement turned into a [mod] statement. *)
Lemma val_mod : forall w r x k, 0 <= w -> wf w r -> x = bval w r + 2 ^ bits w r * k ->
  bval w r = x mod 2 ^ bits w r.
Proof.
  intros w r x k Hw Hr ->. rewrite Z.mul_comm, Z.mod_add, Z.mod_small; auto.
  - apply bval_range; auto.
  - pose proof (pow2_pos _ (bits_nonneg w r Hw)). lia.
Qed.

Lemma bits_eq : forall w a b, length a = length b -> bits w a = bits w b.
Proof. intros. unfold bits. congruence. Qed.

(** Full specification of addition: the words are those of the sum modulo
    [2^Bits]; the carry is the overflow. *)
Lemma mw_add_spec : forall w a b, 1 <= w -> wf w a -> wf w b -> (length b <= length a)%nat ->
  let '(r, c) := mw_add w a b in
  wf w r /\ length r = length a /\ 0 <= c <= 1 /\
  bval w a + bval w b = bval w r + 2 ^ bits w a * c.
Proof.
  intros. pose proof (binop_add w a b 0 H H0 H1 ltac:(lia) H2) as E.
  unfold mw_add. destruct (inplace_binop _ _ _ _). destruct E as (? & ? & ? & ?).
  repeat split; auto; lia.
Qed.

Lemma mw_sub_spec : forall w a b, 1 <= w -> wf w a -> wf w b -> (length b <= length a)%nat ->
  let '(r, c) := mw_sub w a b in
  wf w r /\ length r = length a /\ 0 <= c <= 1 /\
  bval w a - bval w b = bval w r - 2 ^ bits w a * c.
Proof.
  intros. pose proof (binop_sub w a b 0 H H0 H1 ltac:(lia) H2) as E.
  unfold mw_sub. destruct (inplace_binop _ _ _ _). destruct E as (? & ? & ? & ?).
  repeat split; auto; lia.
Qed.

Lemma bi_add_spec : forall w a b, 1 <= w -> wf w a -> wf w b -> (length b <= length a)%nat ->
  wf w (bi_add w a b) /\ length (bi_add w a b) = length a /\
  bval w (bi_add w a b) = (bval w a + bval w b) mod 2 ^ bits w a.
Proof.
  intros w a b Hw Ha Hb Hl. pose proof (mw_add_spec w a b Hw Ha Hb Hl) as H. unfold bi_add.
  destruct (mw_add w a b) as [r c]. destruct H as (H1 & H2 & H3 & H4). cbn [fst].
  split; auto. split; auto. rewrite <- (bits_eq w r a) in * by auto.
  apply (val_mod w r _ c); auto; lia.
Qed.

Lemma bi_sub_spec : forall w a b, 1 <= w -> wf w a -> wf w b -> (length b <= length a)%nat ->
  wf w (bi_sub w a b) /\ length (bi_sub w a b) = length a /\
  bval w (bi_sub w a b) = (bval w a - bval w b) mod 2 ^ bits w a.
Proof.
  intros w a b Hw Ha Hb Hl. pose proof (mw_sub_spec w a b Hw Ha Hb Hl) as H. unfold bi_sub.
  destruct (mw_sub w a b) as [r c]. destruct H as (H1 & H2 & H3 & H4). cbn [fst].
  split; auto. split; auto. rewrite <- (bits_eq w r a) in * by auto.
  apply (val_mod w r _ (-c)); auto; lia.
Qed.

Lemma bi_not_spec : forall w a, 0 <= w -> wf w a ->
  wf w (bi_not w a) /\ length (bi_not w a) = length a /\
  bval w (bi_not w a) = 2 ^ bits w a - 1 - bval w a.
Proof.
  intros w a Hw. induction a; intros H.
  - unfold bits. simpl. rewrite Z.mul_0_r. repeat split. constructor.
  - apply wf_cons in H. destruct H as [H1 H2]. destruct (IHa H2) as (I1 & I2 & I3).
    cbn [bi_not map length bval]. fold (bi_not w a0). repeat split.
    + constructor; auto. apply unot_range; auto.
    + congruence.
    + rewrite I3, bits_cons, Z.pow_add_r by (auto using bits_nonneg). unfold unot. ring.
Qed.

Lemma pow2_bits_ge : forall w a, 0 <= w -> a <> nil -> 2 ^ w <= 2 ^ bits w a.
Proof.
  intros. destruct a; [congruence|]. rewrite bits_cons. apply pow2_le.
  pose proof (bits_nonneg w a H). lia.
Qed.

Lemma wf_one : forall w, 1 <= w -> wf w [1].
Proof. intros. constructor; [|constructor]. unfold inU. pose proof (pow2_lt 0 w). change (2^0) with 1 in *. lia. Qed.

Lemma increment_spec : forall w a, 1 <= w -> wf w a -> a <> nil ->
  wf w (increment w a) /\ length (increment w a) = length a /\
  bval w (increment w a) = (bval w a + 1) mod 2 ^ bits w a.
Proof.
  intros w a Hw Ha Hn. pose proof (bi_add_spec w a [1] Hw Ha (wf_one w Hw)) as H.
  unfold bi_add in H. unfold increment.
  destruct a; [congruence|]. specialize (H ltac:(simpl; lia)).
  replace (bval w [1]) with 1 in H by (cbn [bval]; ring). exact H.
Qed.

Lemma decrement_spec : forall w a, 1 <= w -> wf w a -> a <> nil ->
  wf w (decrement w a) /\ length (decrement w a) = length a /\
  bval w (decrement w a) = (bval w a - 1) mod 2 ^ bits w a.
Proof.
  intros w a Hw Ha Hn. pose proof (bi_sub_spec w a [1] Hw Ha (wf_one w Hw)) as H.
  unfold bi_sub in H. unfold decrement.
  destruct a; [congruence|]. specialize (H ltac:(simpl; lia)).
  replace (bval w [1]) with 1 in H by (cbn [bval]; ring). exact H.
Qed.

Lemma negate_spec : forall w a, 1 <= w -> wf w a -> a <> nil ->
  wf w (negate w a) /\ length (negate w a) = length a /\
  bval w (negate w a) = (- bval w a) mod 2 ^ bits w a.
Proof.
  intros w a Hw Ha Hn. destruct (bi_not_spec w a ltac:(lia) Ha) as (H1 & H2 & H3).
  assert (Hn' : bi_not w a <> nil).
  { intros E. rewrite E in H2. destruct a; [congruence|discriminate]. }
  destruct (increment_spec w _ Hw H1 Hn') as (I1 & I2 & I3).
  unfold negate. split; auto. split; [congruence|].
  rewrite I3, H3, (bits_eq w _ a H2).
  replace (2 ^ bits w a - 1 - bval w a + 1) with (- bval w a + 1 * 2 ^ bits w a) by ring.
  rewrite Z.mod_add; auto. pose proof (pow2_pos _ (bits_nonneg w a ltac:(lia))). lia.
Qed.
