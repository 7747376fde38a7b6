(** * Machine integers

    C++ fixed-width unsigned integers are modelled by [Z] values in
    [0 <= x < 2^w]; wrap-around is an explicit reduction [wrap w].  Undefined
    behaviour is the outcome [None] of an [option].

    This file models no ccmath function; it fixes the reading of the C++
    language operators (wrapping of unsigned arithmetic, [std::int32_t] range,
    shift preconditions) which all other model files use. *)

From Coq Require Import ZArith Lia Bool List.
Import ListNotations.
Open Scope Z_scope.

(** Unsigned reduction to [w] bits: C++ conversion to an unsigned type. *)
Definition wrap (w z : Z) : Z := z mod 2 ^ w.

(** Membership in the unsigned [w]-bit type. *)
Definition inU (w z : Z) : Prop := 0 <= z < 2 ^ w.
Definition inUb (w z : Z) : bool := (0 <=? z) && (z <? 2 ^ w).

(** Membership in the signed (two's complement) [w]-bit type. *)
Definition inS (w z : Z) : Prop := - 2 ^ (w - 1) <= z < 2 ^ (w - 1).
Definition inSb (w z : Z) : bool := (- 2 ^ (w - 1) <=? z) && (z <? 2 ^ (w - 1)).

(** Two's complement reading of a [w]-bit pattern. *)
Definition to_signed (w z : Z) : Z :=
  if z <? 2 ^ (w - 1) then z else z - 2 ^ w.

(** Signed arithmetic result: undefined behaviour when out of range. *)
Definition sarith (w z : Z) : option Z := if inSb w z then Some z else None.

(** Left / right shift of an unsigned [w]-bit value; the shift amount must be
    below the width, otherwise undefined behaviour. *)
Definition ushl (w x s : Z) : option Z :=
  if (0 <=? s) && (s <? w) then Some (wrap w (Z.shiftl x s)) else None.
Definition ushr (w x s : Z) : option Z :=
  if (0 <=? s) && (s <? w) then Some (Z.shiftr x s) else None.

(** Bitwise complement of an unsigned [w]-bit value. *)
Definition unot (w x : Z) : Z := 2 ^ w - 1 - x.

Definition bindo {A B} (a : option A) (f : A -> option B) : option B :=
  match a with Some x => f x | None => None end.
Notation "'do' x <- a ; b" := (bindo a (fun x => b))
  (at level 200, x pattern, a at level 100, b at level 200).

Definition b2z (b : bool) : Z := if b then 1 else 0.

(* ------------------------------------------------------------------ *)
(** ** Facts *)

Lemma pow2_pos : forall w, 0 <= w -> 0 < 2 ^ w.
Proof. intros. apply Z.pow_pos_nonneg; lia. Qed.

Lemma pow2_nonneg : forall w, 0 <= 2 ^ w.
Proof. intros. apply Z.pow_nonneg; lia. Qed.

Lemma pow2_ge1 : forall w, 0 <= w -> 1 <= 2 ^ w.
Proof. intros. pose proof (pow2_pos w H). lia. Qed.

Lemma pow2_succ : forall w, 0 <= w -> 2 ^ (w + 1) = 2 * 2 ^ w.
Proof. intros. rewrite Z.pow_add_r by lia. lia. Qed.

Lemma pow2_half : forall w, 1 <= w -> 2 ^ w = 2 * 2 ^ (w - 1).
Proof. intros. replace w with (w - 1 + 1) at 1 by lia. rewrite pow2_succ; lia. Qed.

Lemma pow2_split : forall a b, 0 <= a <= b -> 2 ^ b = 2 ^ a * 2 ^ (b - a).
Proof. intros. rewrite <- Z.pow_add_r by lia. f_equal. lia. Qed.

Lemma pow2_le : forall a b, a <= b -> 2 ^ a <= 2 ^ b.
Proof. intros. apply Z.pow_le_mono_r; lia. Qed.

Lemma pow2_lt : forall a b, 0 <= b -> a < b -> 2 ^ a < 2 ^ b.
Proof. intros. apply Z.pow_lt_mono_r; lia. Qed.

Lemma wrap_range : forall w z, 0 <= w -> inU w (wrap w z).
Proof. intros. unfold inU, wrap. apply Z.mod_pos_bound. apply pow2_pos; auto. Qed.

Lemma wrap_small : forall w z, inU w z -> wrap w z = z.
Proof. intros w z H. apply Z.mod_small. exact H. Qed.

Lemma wrap_idem : forall w z, 0 <= w -> wrap w (wrap w z) = wrap w z.
Proof. intros. apply wrap_small. apply wrap_range; auto. Qed.

Lemma inU_0 : forall w, 0 <= w -> inU w 0.
Proof. intros. unfold inU. pose proof (pow2_pos w H). lia. Qed.

Lemma inU_le : forall a b x, a <= b -> inU a x -> inU b x.
Proof. unfold inU. intros. pose proof (pow2_le a b H). lia. Qed.

Lemma wrap_add_l : forall w a b, 0 <= w -> wrap w (wrap w a + b) = wrap w (a + b).
Proof. intros. unfold wrap. apply Z.add_mod_idemp_l. pose proof (pow2_pos w H); lia. Qed.

Lemma wrap_add_r : forall w a b, 0 <= w -> wrap w (a + wrap w b) = wrap w (a + b).
Proof. intros. unfold wrap. apply Z.add_mod_idemp_r. pose proof (pow2_pos w H); lia. Qed.

Lemma wrap_mul_l : forall w a b, 0 <= w -> wrap w (wrap w a * b) = wrap w (a * b).
Proof. intros. unfold wrap. apply Z.mul_mod_idemp_l. pose proof (pow2_pos w H); lia. Qed.

Lemma wrap_mul_r : forall w a b, 0 <= w -> wrap w (a * wrap w b) = wrap w (a * b).
Proof. intros. unfold wrap. apply Z.mul_mod_idemp_r. pose proof (pow2_pos w H); lia. Qed.

Lemma wrap_sub_l : forall w a b, 0 <= w -> wrap w (wrap w a - b) = wrap w (a - b).
Proof. intros. unfold wrap. apply Zminus_mod_idemp_l. Qed.

Lemma wrap_sub_r : forall w a b, 0 <= w -> wrap w (a - wrap w b) = wrap w (a - b).
Proof. intros. unfold wrap. apply Zminus_mod_idemp_r. Qed.

Lemma wrap_shift : forall w z k, 0 <= w -> wrap w (z + k * 2 ^ w) = wrap w z.
Proof. intros. unfold wrap. apply Z.mod_add. pose proof (pow2_pos w H). lia. Qed.

(** [wrap] determined by a witness. *)
Lemma wrap_unique : forall w z r k, inU w r -> z = r + k * 2 ^ w -> wrap w z = r.
Proof.
  intros w z r k Hr ->. unfold wrap.
  destruct (Z_lt_le_dec w 0) as [Hw|Hw].
  - unfold inU in Hr. rewrite Z.pow_neg_r in Hr by lia. lia.
  - rewrite Z.mod_add by (pose proof (pow2_pos w Hw); lia).
    apply Z.mod_small. exact Hr.
Qed.

Lemma testbit_high : forall w x i, inU w x -> w <= i -> Z.testbit x i = false.
Proof.
  intros w x i [H0 H1] Hi.
  destruct (Z_lt_le_dec i 0). { apply Z.testbit_neg_r; lia. }
  destruct (Z.eq_dec x 0) as [->|]. { apply Z.bits_0. }
  apply Z.bits_above_log2; [lia|].
  destruct (Z_lt_le_dec w 0) as [Hw|Hw].
  - rewrite Z.pow_neg_r in H1 by lia. lia.
  - assert (Z.log2 x < w) by (apply Z.log2_lt_pow2; lia). lia.
Qed.

Lemma testbit_wrap : forall w x i, 0 <= w -> 0 <= i ->
  Z.testbit (wrap w x) i = (i <? w) && Z.testbit x i.
Proof.
  intros w x i Hw Hi. unfold wrap.
  destruct (Z.ltb_spec i w); simpl.
  - apply Z.mod_pow2_bits_low. lia.
  - apply Z.mod_pow2_bits_high. lia.
Qed.

Lemma testbit_unot : forall w x i, 0 <= w -> inU w x -> 0 <= i ->
  Z.testbit (unot w x) i = (i <? w) && negb (Z.testbit x i).
Proof.
  intros w x i Hw Hx Hi. unfold unot.
  replace (2 ^ w - 1 - x) with (wrap w (Z.lnot x)).
  - rewrite testbit_wrap by lia. destruct (i <? w); auto. simpl.
    apply Z.lnot_spec. auto.
  - apply wrap_unique with (k := -1).
    + unfold inU in *. lia.
    + unfold Z.lnot. lia.
Qed.

Lemma unot_range : forall w x, inU w x -> inU w (unot w x).
Proof. unfold inU, unot. intros; lia. Qed.

Lemma inU_bits : forall w x, 0 <= w -> 0 <= x ->
  (forall i, w <= i -> Z.testbit x i = false) -> inU w x.
Proof.
  intros w x Hw Hx Hb. unfold inU. split; auto.
  destruct (Z.eq_dec x 0) as [->|]. { apply pow2_pos; lia. }
  apply Z.log2_lt_pow2; [lia|].
  destruct (Z_lt_le_dec (Z.log2 x) w); auto.
  specialize (Hb (Z.log2 x) l). rewrite Z.bit_log2 in Hb by lia. discriminate.
Qed.

Lemma land_ones_mod : forall x n, 0 <= n -> Z.land x (2 ^ n - 1) = x mod 2 ^ n.
Proof. intros. rewrite <- Z.land_ones by auto. rewrite Z.ones_equiv. f_equal. Qed.

Lemma inU_land : forall w x y, 0 <= w -> inU w x -> 0 <= y -> inU w (Z.land x y).
Proof.
  intros w x y Hw Hx Hy. apply inU_bits; auto.
  - apply Z.land_nonneg. unfold inU in Hx; lia.
  - intros. rewrite Z.land_spec, (testbit_high w x) by auto. reflexivity.
Qed.

Lemma inU_lor : forall w x y, 0 <= w -> inU w x -> inU w y -> inU w (Z.lor x y).
Proof.
  intros w x y Hw Hx Hy. apply inU_bits; auto.
  - apply Z.lor_nonneg. unfold inU in *; lia.
  - intros. rewrite Z.lor_spec, (testbit_high w x), (testbit_high w y) by auto. reflexivity.
Qed.

Lemma inU_lxor : forall w x y, 0 <= w -> inU w x -> inU w y -> inU w (Z.lxor x y).
Proof.
  intros w x y Hw Hx Hy. apply inU_bits; auto.
  - apply Z.lxor_nonneg. unfold inU in *; lia.
  - intros. rewrite Z.lxor_spec, (testbit_high w x), (testbit_high w y) by auto. reflexivity.
Qed.

(** Disjoint [or] is addition. *)
Lemma lor_add : forall a b n, 0 <= n -> 0 <= b < 2 ^ n ->
  Z.lor (a * 2 ^ n) b = a * 2 ^ n + b.
Proof.
  intros a b n Hn Hb. rewrite <- Z.shiftl_mul_pow2 by lia.
  rewrite <- Z.lxor_lor.
  - symmetry. apply Z.add_nocarry_lxor.
    apply Z.bits_inj'. intros i Hi. rewrite Z.land_spec, Z.bits_0.
    destruct (Z_lt_le_dec i n).
    + rewrite Z.shiftl_spec_low by lia. reflexivity.
    + rewrite (testbit_high n b i) by (unfold inU; lia). apply andb_false_r.
  - apply Z.bits_inj'. intros i Hi. rewrite Z.land_spec, Z.bits_0.
    destruct (Z_lt_le_dec i n).
    + rewrite Z.shiftl_spec_low by lia. reflexivity.
    + rewrite (testbit_high n b i) by (unfold inU; lia). apply andb_false_r.
Qed.

Lemma inUb_spec : forall w z, inUb w z = true <-> inU w z.
Proof. intros. unfold inUb, inU. rewrite andb_true_iff, Z.leb_le, Z.ltb_lt. tauto. Qed.

Lemma inSb_spec : forall w z, inSb w z = true <-> inS w z.
Proof. intros. unfold inSb, inS. rewrite andb_true_iff, Z.leb_le, Z.ltb_lt. tauto. Qed.

Lemma to_signed_range : forall w z, 1 <= w -> inU w z -> inS w (to_signed w z).
Proof.
  intros w z Hw Hz. unfold inU, inS, to_signed in *.
  pose proof (pow2_half w Hw). destruct (Z.ltb_spec z (2 ^ (w - 1))); lia.
Qed.

Lemma to_signed_wrap : forall w z, 1 <= w -> wrap w (to_signed w z) = wrap w z.
Proof.
  intros w z Hw. unfold to_signed. destruct (z <? 2 ^ (w - 1)); auto.
  replace (z - 2 ^ w) with (z + (-1) * 2 ^ w) by lia. apply wrap_shift. lia.
Qed.

Lemma to_signed_of_S : forall w z, 1 <= w -> inS w z -> to_signed w (wrap w z) = z.
Proof.
  intros w z Hw Hz. unfold inS in Hz. pose proof (pow2_half w Hw).
  unfold to_signed.
  destruct (Z_lt_le_dec z 0).
  - rewrite (wrap_unique w z (z + 2 ^ w) (-1)) by (unfold inU; lia).
    destruct (Z.ltb_spec (z + 2 ^ w) (2 ^ (w - 1))); lia.
  - rewrite wrap_small by (unfold inU; lia).
    destruct (Z.ltb_spec z (2 ^ (w - 1))); lia.
Qed.

Lemma testbit_ge : forall x i, 0 <= i -> 0 <= x -> Z.testbit x i = true -> 2 ^ i <= x.
Proof.
  intros x i Hi Hx Ht.
  destruct (Z_lt_le_dec x (2 ^ i)); auto.
  rewrite (testbit_high i x i) in Ht by (unfold inU; lia). discriminate.
Qed.
