(** * Payne-Hanek: the integer accumulator *)
From Coq Require Import ZArith Lia List Bool Arith.
From Verif Require Import MachInt Fmt FOps Trig.
Import ListNotations.
Open Scope Z_scope.

Fixpoint aval (l : list Z) : Z := match l with [] => 0 | a :: l => a + 2 ^ 64 * aval l end.
Definition limbs (l : list Z) : Prop := Forall (fun a => 0 <= a < 2 ^ 64) l.

Lemma aval_range : forall l, limbs l -> 0 <= aval l < 2 ^ (64 * Z.of_nat (length l)).
Proof.
  induction 1 as [|a l Ha Hl IH]; [cbn; lia|]. cbn [aval length]. replace (64 * Z.of_nat (S (length l))) with (64 + 64 * Z.of_nat (length l)) by lia.
  rewrite Z.pow_add_r by lia. nia.
Qed.

Lemma mul64_spec : forall a b, 0 <= a < 2 ^ 64 -> 0 <= b < 2 ^ 64 ->
  exists hi lo, mul64 a b = (hi, lo) /\ 0 <= hi < 2 ^ 64 /\ 0 <= lo < 2 ^ 64 /\ hi * 2 ^ 64 + lo = a * b.
Proof.
  intros a b Ha Hb. unfold mul64.
  set (a0 := Z.land a 0xffffffff). set (a1 := Z.shiftr a 32). set (b0 := Z.land b 0xffffffff). set (b1 := Z.shiftr b 32).
  assert (L : forall z, Z.land z 0xffffffff = z mod 2 ^ 32) by (intros z; change 0xffffffff with (Z.ones 32); apply Z.land_ones; lia).
  assert (S : forall z, Z.shiftr z 32 = z / 2 ^ 32) by (intros z; apply Z.shiftr_div_pow2; lia).
  assert (D : forall z, z = 2 ^ 32 * (z / 2 ^ 32) + z mod 2 ^ 32 /\ 0 <= z mod 2 ^ 32 < 2 ^ 32) by (intros z; split; [apply Z.div_mod; lia|apply Z.mod_pos_bound; lia]).
  assert (Ea : a = 2 ^ 32 * a1 + a0 /\ 0 <= a0 < 2 ^ 32) by (unfold a0, a1; rewrite L, S; apply D).
  assert (Eb : b = 2 ^ 32 * b1 + b0 /\ 0 <= b0 < 2 ^ 32) by (unfold b0, b1; rewrite L, S; apply D).
  clearbody a0 a1 b0 b1. destruct Ea as (Ea & Ra0), Eb as (Eb & Rb0).
  assert (Ra1 : 0 <= a1 < 2 ^ 32) by lia. assert (Rb1 : 0 <= b1 < 2 ^ 32) by lia.
  rewrite (wrap_small 64 (a0 * b0)), (wrap_small 64 (a0 * b1)), (wrap_small 64 (a1 * b0)), (wrap_small 64 (a1 * b1)) by (unfold inU; nia).
  rewrite !L, !S.
  set (ll := a0 * b0). set (lh := a0 * b1). set (hl := a1 * b0). set (hh := a1 * b1).
  assert (0 <= ll <= (2 ^ 32 - 1) * (2 ^ 32 - 1)) by (unfold ll; nia).
  assert (0 <= lh <= (2 ^ 32 - 1) * (2 ^ 32 - 1)) by (unfold lh; nia).
  assert (0 <= hl <= (2 ^ 32 - 1) * (2 ^ 32 - 1)) by (unfold hl; nia).
  assert (0 <= hh <= (2 ^ 32 - 1) * (2 ^ 32 - 1)) by (unfold hh; nia).
  destruct (D ll) as (E1 & Q1), (D lh) as (E2 & Q2), (D hl) as (E3 & Q3).
  set (ll1 := ll / 2 ^ 32) in *. set (ll0 := ll mod 2 ^ 32) in *. set (lh1 := lh / 2 ^ 32) in *. set (lh0 := lh mod 2 ^ 32) in *.
  set (hl1 := hl / 2 ^ 32) in *. set (hl0 := hl mod 2 ^ 32) in *.
  assert (Eab : a * b = 2 ^ 64 * hh + 2 ^ 32 * (lh + hl) + ll) by (unfold ll, lh, hl, hh; rewrite Ea, Eb; ring).
  clearbody ll lh hl hh ll1 ll0 lh1 lh0 hl1 hl0.
  rewrite (wrap_small 64 (ll1 + lh0 + hl0)) by (unfold inU; lia).
  set (mid := ll1 + lh0 + hl0). destruct (D mid) as (E4 & Q4).
  assert (Em : mid = ll1 + lh0 + hl0) by reflexivity. set (m1 := mid / 2 ^ 32) in *. set (m0 := mid mod 2 ^ 32) in *.
  assert (EL : Z.lor ll0 (wrap 64 (Z.shiftl mid 32)) = 2 ^ 32 * m0 + ll0).
  { assert (EW : wrap 64 (Z.shiftl mid 32) = 2 ^ 32 * m0).
    { unfold wrap. rewrite Z.shiftl_mul_pow2 by lia. symmetry. apply (Z.mod_unique _ _ m1); [left|]; lia. }
    rewrite EW, Z.lor_comm, (Z.mul_comm (2 ^ 32) m0). apply lor_add; lia. }
  clearbody mid m1 m0. rewrite EL.
  rewrite wrap_small by (unfold inU; nia).
  eexists _, _. split; [reflexivity|]. split; [nia|]. split; lia.
Qed.

Lemma add_at_len : forall acc v w, length (add_at_word acc v w) = length acc.
Proof. induction acc as [|a acc IH]; intros v [|w]; cbn [add_at_word length]; auto. destruct (v =? 0); cbn [length]; rewrite ?IH; auto. Qed.
Lemma add_at_spec : forall acc v w, limbs acc -> 0 <= v < 2 ^ 64 ->
  limbs (add_at_word acc v w) /\
  exists n, aval (add_at_word acc v w) = aval acc + v * 2 ^ (64 * Z.of_nat w) - n * 2 ^ (64 * Z.of_nat (length acc)).
Proof.
  induction acc as [|a acc IH]; intros v w HL Hv.
  - split; [exact HL|]. exists (v * 2 ^ (64 * Z.of_nat w)). cbn [add_at_word aval length]. change (64 * Z.of_nat 0) with 0. lia.
  - inversion HL as [|? ? Ha HL']; subst. destruct w as [|w]; cbn [add_at_word].
    + change (64 * Z.of_nat 0) with 0. destruct (Z.eqb_spec v 0) as [->|V0]; [split; [exact HL|exists 0; lia]|].
      assert (W : exists c, (c = 0 \/ c = 1) /\ (if wrap 64 (a + v) <? a then 1 else 0) = c /\ a + v = wrap 64 (a + v) + 2 ^ 64 * c /\ 0 <= wrap 64 (a + v) < 2 ^ 64).
      { unfold wrap. pose proof (Z.mod_pos_bound (a + v) (2 ^ 64) ltac:(lia)) as M. pose proof (Z.div_mod (a + v) (2 ^ 64) ltac:(lia)) as E.
        assert (0 <= (a + v) / 2 ^ 64 < 2) by (split; [apply Z.div_pos; lia|apply Z.div_lt_upper_bound; lia]).
        assert (Q : (a + v) / 2 ^ 64 = 0 \/ (a + v) / 2 ^ 64 = 1) by lia. destruct Q as [Q|Q]; rewrite Q in E.
        - exists 0. split; [auto|]. destruct (Z.ltb_spec ((a + v) mod 2 ^ 64) a); [lia|]. repeat split; lia.
        - exists 1. split; [auto|]. destruct (Z.ltb_spec ((a + v) mod 2 ^ 64) a); [|lia]. repeat split; lia. }
      destruct W as (c & C & EC & EW & RW). rewrite EC. destruct (IH c 0%nat HL' ltac:(destruct C; subst; lia)) as (I1 & n & I2).
      split; [constructor; auto|]. exists n. cbn [aval length]. rewrite I2. change (64 * Z.of_nat 0) with 0.
      replace (64 * Z.of_nat (S (length acc))) with (64 + 64 * Z.of_nat (length acc)) by lia. rewrite Z.pow_add_r by lia. nia.
    + destruct (IH v w HL' Hv) as (I1 & n & I2). split; [constructor; auto|]. exists n. cbn [aval length]. rewrite I2.
      replace (64 * Z.of_nat (S (length acc))) with (64 + 64 * Z.of_nat (length acc)) by lia.
      replace (64 * Z.of_nat (S w)) with (64 + 64 * Z.of_nat w) by lia. rewrite !Z.pow_add_r by lia. ring.
Qed.

Definition acc4 (l : list Z) : Prop := limbs l /\ length l = 4%nat.
Lemma add_at4 : forall acc v w, acc4 acc -> 0 <= v < 2 ^ 64 ->
  acc4 (add_at_word acc v w) /\ exists n, aval (add_at_word acc v w) = aval acc + v * 2 ^ (64 * Z.of_nat w) - n * 2 ^ 256.
Proof.
  intros acc v w (L & E) Hv. destruct (add_at_spec acc v w L Hv) as (A & n & B). rewrite E in B. change (64 * Z.of_nat 4) with 256 in B.
  split; [split; [exact A|rewrite add_at_len; exact E]|exists n; exact B].
Qed.

Lemma add_pos4 : forall acc w p, acc4 acc -> 0 <= w < 2 ^ 64 -> 0 <= p ->
  acc4 (add_word_pos acc w p) /\ exists n, aval (add_word_pos acc w p) = aval acc + w * 2 ^ p - n * 2 ^ 256.
Proof.
  intros acc w p HA Hw Hp. unfold add_word_pos. destruct (Z.leb_spec 256 p) as [P|P].
  - split; [exact HA|]. exists (w * 2 ^ (p - 256)). assert (E : 2 ^ p = 2 ^ (p - 256) * 2 ^ 256) by (rewrite <- Z.pow_add_r by lia; f_equal; lia). rewrite E. ring.
  - change 63 with (Z.ones 6). rewrite (Z.land_ones p 6), (Z.shiftr_div_pow2 p 6) by lia.
    pose proof (Z.div_mod p (2 ^ 6) ltac:(lia)) as E. pose proof (Z.mod_pos_bound p (2 ^ 6) ltac:(lia)) as M.
    set (wd := p / 2 ^ 6) in *. set (off := p mod 2 ^ 6) in *. change (2 ^ 6) with 64 in *.
    assert (Rwd : 0 <= wd < 4) by lia. clearbody wd off.
    assert (HS : exists h, 0 <= h < 2 ^ 64 /\ 0 <= wrap 64 (Z.shiftl w off) < 2 ^ 64 /\ w * 2 ^ off = wrap 64 (Z.shiftl w off) + 2 ^ 64 * h /\
      (if negb (off =? 0) then Z.shiftr w (64 - off) else 0) = h).
    { rewrite Z.shiftl_mul_pow2 by lia. unfold wrap. pose proof (Z.mod_pos_bound (w * 2 ^ off) (2 ^ 64) ltac:(lia)).
      pose proof (Z.div_mod (w * 2 ^ off) (2 ^ 64) ltac:(lia)) as DM.
      assert (2 ^ off <= 2 ^ 63) by (apply Z.pow_le_mono_r; lia). assert (0 < 2 ^ off) by (apply Z.pow_pos_nonneg; lia).
      destruct (Z.eqb_spec off 0) as [->|N]; cbn [negb].
      - exists 0. rewrite Z.pow_0_r, Z.mul_1_r, Z.mod_small by lia. repeat split; lia.
      - exists (w * 2 ^ off / 2 ^ 64). rewrite Z.shiftr_div_pow2 by lia. split; [|split; [lia|split; [lia|]]].
        + split; [apply Z.div_pos; nia|]. apply Z.div_lt_upper_bound; nia.
        + replace (2 ^ 64) with (2 ^ (64 - off) * 2 ^ off) by (rewrite <- Z.pow_add_r by lia; f_equal; lia).
          rewrite Z.div_mul_cancel_r by (try (apply Z.pow_nonzero; lia); lia). reflexivity. }
    destruct HS as (h & Rh & Rl & Ew & ->). set (low := wrap 64 (Z.shiftl w off)) in *. clearbody low.
    destruct (add_at4 acc low (Z.to_nat wd) HA Rl) as (A1 & n1 & B1). rewrite Z2Nat.id in B1 by lia.
    assert (E2 : w * 2 ^ p = low * 2 ^ (64 * wd) + h * 2 ^ (64 * (wd + 1))).
    { rewrite E. rewrite Z.pow_add_r by lia. replace (64 * (wd + 1)) with (64 * wd + 64) by lia. rewrite Z.pow_add_r by lia.
      transitivity (w * 2 ^ off * 2 ^ (64 * wd)); [ring|]. rewrite Ew. ring. }
    destruct (Z.eqb_spec h 0) as [->|H0]; cbn [negb andb].
    + split; [exact A1|]. exists n1. rewrite B1, E2. ring.
    + destruct (Nat.ltb_spec (Z.to_nat wd + 1) 4) as [K|K].
      * destruct (add_at4 _ h (Z.to_nat wd + 1) A1 Rh) as (A2 & n2 & B2). split; [exact A2|]. exists (n1 + n2). rewrite B2, B1, E2.
        replace (64 * Z.of_nat (Z.to_nat wd + 1)) with (64 * (wd + 1)) by lia. ring.
      * split; [exact A1|]. assert (wd = 3) by lia. subst wd. exists (n1 + h). rewrite B1, E2. change (64 * (3 + 1)) with 256. ring.
Qed.

(** adding w * 2^p, p possibly negative: the fraction is dropped *)
Lemma add_word4 : forall acc w p, acc4 acc -> 0 <= w < 2 ^ 64 ->
  acc4 (add_word_at acc w p) /\ exists n, aval (add_word_at acc w p) = aval acc + (if p <? 0 then w / 2 ^ (- p) else w * 2 ^ p) - n * 2 ^ 256.
Proof.
  intros acc w p HA Hw. unfold add_word_at. destruct (Z.eqb_spec w 0) as [->|W0].
  - split; [exact HA|]. exists 0. destruct (p <? 0); [rewrite Zdiv_0_l|]; lia.
  - destruct (Z.ltb_spec p 0) as [P|P].
    + destruct (Z.leb_spec 64 (- p)) as [Q|Q].
      * split; [exact HA|]. exists 0. rewrite Z.div_small; [lia|]. assert (2 ^ 64 <= 2 ^ (- p)) by (apply Z.pow_le_mono_r; lia). lia.
      * rewrite Z.shiftr_div_pow2 by lia. assert (0 < 2 ^ (- p)) by (apply Z.pow_pos_nonneg; lia).
        assert (R : 0 <= w / 2 ^ (- p) < 2 ^ 64) by (split; [apply Z.div_pos; lia|apply Z.div_lt_upper_bound; nia]).
        destruct (Z.eqb_spec (w / 2 ^ (- p)) 0) as [E|E]; [split; [exact HA|exists 0; lia]|].
        destruct (add_pos4 acc _ 0 HA R ltac:(lia)) as (A & n & B). split; [exact A|]. exists n. rewrite B. change (2 ^ 0) with 1. ring.
    + apply add_pos4; auto.
Qed.
