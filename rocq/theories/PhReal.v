(** * Payne-Hanek: the accumulator holds x * 8/pi modulo 16 *)
From Coq Require Import ZArith Lia List Bool Reals Lra.
From Flocq Require Import Core.
From Interval Require Import Tactic.
From Verif Require Import MachInt Fmt FOps Trig PhInt.
Import ListNotations.
Open Scope Z_scope.
Notation bp := (bpow radix2).

Fixpoint fracv (ws : list Z) : R := match ws with [] => 0%R | w :: ws => (IZR w + fracv ws * bp (-64))%R end.
Fixpoint wnum (ws : list Z) (a : Z) : Z := match ws with [] => a | w :: ws => wnum ws (a * 2 ^ 64 + w) end.
Lemma bpZ : forall k, 0 <= k -> bp k = IZR (2 ^ k). Proof. intros k Hk. rewrite <- (IZR_Zpower radix2) by auto. reflexivity. Qed.
Lemma wnum_fracv : forall ws a, IZR (wnum ws a) = ((IZR a + fracv ws * bp (-64)) * bp (64 * Z.of_nat (length ws)))%R.
Proof.
  induction ws as [|w ws IH]; intros a; cbn [wnum fracv length]; [change (64 * Z.of_nat 0) with 0; change (bp 0) with 1%R; ring|].
  rewrite IH. replace (64 * Z.of_nat (S (length ws))) with (64 + 64 * Z.of_nat (length ws)) by lia. rewrite bpow_plus, plus_IZR, mult_IZR, <- (bpZ 64) by lia.
  assert (E : (bp (-64) * bp 64 = 1)%R) by (rewrite <- bpow_plus; reflexivity).
  transitivity ((IZR a * bp 64 + (IZR w + fracv ws * bp (-64)) * (bp (-64) * bp 64)) * bp (64 * Z.of_nat (length ws)))%R; [rewrite E|]; ring.
Qed.

Definition pi_words : Z := Eval vm_compute in wnum frac_8_over_pi 0.
Lemma pi_words_eq : wnum frac_8_over_pi 0 = pi_words. Proof. vm_compute. reflexivity. Qed.
Lemma pi_words_lo : (PI * IZR (2 ^ 2049 + pi_words) <= IZR (2 ^ 2051))%R.
Proof. let a := eval vm_compute in (2 ^ 2049 + pi_words) in change (2 ^ 2049 + pi_words) with a. let a := eval vm_compute in (2 ^ 2051) in change (2 ^ 2051) with a. interval with (i_prec 2140). Qed.
Lemma pi_words_hi : (IZR (2 ^ 2051) <= PI * IZR (2 ^ 2049 + pi_words + 1))%R.
Proof. let a := eval vm_compute in (2 ^ 2049 + pi_words + 1) in change (2 ^ 2049 + pi_words + 1) with a. let a := eval vm_compute in (2 ^ 2051) in change (2 ^ 2051) with a. interval with (i_prec 2140). Qed.

Lemma words_pi : exists t, (8 / PI = 2 + fracv frac_8_over_pi * bp (-64) + t)%R /\ (0 <= t <= bp (-2048))%R.
Proof.
  pose proof PI_RGT_0 as HP. exists (8 / PI - (2 + fracv frac_8_over_pi * bp (-64)))%R. split; [ring|].
  assert (E : (2 + fracv frac_8_over_pi * bp (-64) = IZR (2 ^ 2049 + pi_words) * bp (-2048))%R).
  { pose proof (wnum_fracv frac_8_over_pi 0) as W. rewrite pi_words_eq in W. change (64 * Z.of_nat (length frac_8_over_pi)) with 2048 in W.
    rewrite plus_IZR, W, <- bpZ by lia. replace 2049 with (1 + 2048) by lia. rewrite bpow_plus. change (bp 1) with 2%R.
    assert (Q : (bp 2048 * bp (-2048) = 1)%R) by (rewrite <- bpow_plus; reflexivity).
    transitivity (2 * (bp 2048 * bp (-2048)) + (0 + fracv frac_8_over_pi * bp (-64)) * (bp 2048 * bp (-2048)))%R; [rewrite Q; ring|ring]. }
  rewrite E. pose proof pi_words_lo as L. pose proof pi_words_hi as H. rewrite plus_IZR in H. set (N := IZR (2 ^ 2049 + pi_words)) in *. clearbody N.
  rewrite <- bpZ in L, H by lia. replace 2051 with (3 + 2048) in L, H by lia. rewrite bpow_plus in L, H. change (bp 3) with 8%R in L, H.
  assert (Q : (bp 2048 * bp (-2048) = 1)%R) by (rewrite <- bpow_plus; reflexivity). set (p := bp 2048) in *. set (q := bp (-2048)) in *.
  assert (0 < q)%R by apply bpow_gt_0. clearbody p q.
  assert (D1 : (PI * (N * q) <= 8)%R) by nra. assert (D2 : (8 <= PI * ((N + 1) * q))%R) by nra.
  assert (D0 : (8 / PI * PI = 8)%R) by (field; lra). set (d := (8 / PI)%R) in *. clearbody d.
  split; nra.
Qed.

(** one word *)
Lemma add_word_R : forall acc w p, acc4 acc -> 0 <= w < 2 ^ 64 ->
  acc4 (add_word_at acc w p) /\ exists n e, (IZR (aval (add_word_at acc w p)) = IZR (aval acc) + IZR w * bp p - e - IZR n * bp 256)%R /\ (0 <= e <= 1)%R.
Proof.
  intros acc w p HA Hw. destruct (add_word4 acc w p HA Hw) as (A & n & B). split; [exact A|]. exists n. rewrite B, minus_IZR, plus_IZR, mult_IZR, <- (bpZ 256) by lia.
  destruct (Z.ltb_spec p 0) as [P|P].
  - exists (IZR w * bp p - IZR (w / 2 ^ (- p)))%R. split; [ring|].
    assert (P0 : 0 < 2 ^ (- p)) by (apply Z.pow_pos_nonneg; lia).
    pose proof (Z.div_mod w (2 ^ (- p)) ltac:(lia)) as E. pose proof (Z.mod_pos_bound w (2 ^ (- p)) ltac:(lia)) as M.
    set (q := w / 2 ^ (- p)) in *. set (r := w mod 2 ^ (- p)) in *. clearbody q r. rewrite E, plus_IZR, mult_IZR, <- bpZ by lia.
    assert (Q : (bp (- p) * bp p = 1)%R) by (rewrite <- bpow_plus; replace (- p + p) with 0 by lia; reflexivity).
    assert (R : (0 <= IZR r <= bp (- p))%R) by (rewrite bpZ by lia; split; apply IZR_le; lia).
    pose proof (bpow_gt_0 radix2 p). set (x := bp p) in *. set (y := bp (- p)) in *. clearbody x y.
    replace ((y * IZR q + IZR r) * x - IZR q)%R with (IZR q * (y * x - 1) + IZR r * x)%R by ring. rewrite Q. split; nra.
  - exists 0%R. split; [|lra]. rewrite mult_IZR, <- bpZ by lia. ring.
Qed.

Lemma ph_loop_R : forall ws acc m shift, acc4 acc -> 0 <= m < 2 ^ 53 -> limbs ws ->
  acc4 (ph_loop acc m ws shift) /\
  exists n e, (IZR (aval (ph_loop acc m ws shift)) = IZR (aval acc) + IZR m * fracv ws * bp shift - e - IZR n * bp 256)%R /\ (0 <= e <= 2 * INR (length ws))%R.
Proof.
  induction ws as [|w ws IH]; intros acc m shift HA Hm HW.
  - split; [exact HA|]. exists 0, 0%R. cbn [ph_loop fracv length INR]. split; [ring|lra].
  - inversion HW as [|? ? Rw HW']; subst. cbn [ph_loop].
    match goal with |- context [ph_loop ?a m ws _] => set (acc' := a) end.
    assert (ST : acc4 acc' /\ exists n e, (IZR (aval acc') = IZR (aval acc) + IZR m * IZR w * bp shift - e - IZR n * bp 256)%R /\ (0 <= e <= 2)%R).
    { unfold acc'. destruct (Z.leb_spec shift (-128)) as [S1|S1]; cbn [orb].
      - split; [exact HA|]. exists 0, (IZR m * IZR w * bp shift)%R. split; [ring|].
        assert (0 <= IZR m <= bp 53)%R by (rewrite bpZ by lia; split; apply IZR_le; lia).
        assert (0 <= IZR w <= bp 64)%R by (rewrite bpZ by lia; split; apply IZR_le; lia).
        assert (0 <= IZR m * IZR w <= bp 117)%R. { split; [apply Rmult_le_pos; lra|]. replace 117 with (53 + 64) by lia. rewrite bpow_plus. apply Rmult_le_compat; lra. }
        split; [apply Rmult_le_pos; [lra|apply bpow_ge_0]|]. apply Rle_trans with (bp 117 * bp (-117))%R.
        + apply Rmult_le_compat; try lra; [apply bpow_ge_0|apply bpow_le; lia].
        + rewrite <- bpow_plus. change (bp (117 + -117)) with 1%R. lra.
      - destruct (Z.leb_spec 256 shift) as [S2|S2].
        + split; [exact HA|]. exists (m * w * 2 ^ (shift - 256)), 0%R. split; [|lra]. rewrite !mult_IZR, <- bpZ by lia.
          replace shift with (shift - 256 + 256) at 1 by lia. rewrite bpow_plus. ring.
        + destruct (mul64_spec m w) as (hi & lo & E & Rh & Rl & EP); try lia. rewrite E.
          destruct (add_word_R acc lo shift HA Rl) as (A1 & n1 & e1 & B1 & C1).
          destruct (add_word_R _ hi (shift + 64) A1 Rh) as (A2 & n2 & e2 & B2 & C2). split; [exact A2|].
          exists (n1 + n2), (e1 + e2)%R. split; [|lra]. rewrite B2, B1. rewrite <- (mult_IZR m w), <- EP, plus_IZR, mult_IZR, <- bpZ, plus_IZR, bpow_plus by lia. ring. }
    destruct ST as (HA' & n1 & e1 & B1 & C1). clearbody acc'. destruct (IH acc' m (shift - 64) HA' Hm HW') as (A2 & n2 & e2 & B2 & C2).
    split; [exact A2|]. exists (n1 + n2), (e1 + e2)%R. split.
    + rewrite B2, B1. cbn [fracv]. rewrite plus_IZR. unfold Zminus. rewrite bpow_plus. change (- (64)) with (-64). ring.
    + cbn [length]. rewrite S_INR. lra.
Qed.

Lemma limbs_table : limbs frac_8_over_pi.
Proof. unfold limbs, frac_8_over_pi. repeat constructor; lia. Qed.

(** the accumulator: x * 8/pi scaled by 2^252, modulo 16 * 2^252, up to 66 units *)
Lemma ph_acc_R : forall m be, 0 <= m < 2 ^ 53 -> be <= 971 ->
  acc4 (ph_acc m be) /\
  exists n e, (IZR m * bp be * (8 / PI) * bp 252 = IZR (aval (ph_acc m be)) + e + IZR n * bp 256)%R /\ (0 <= e <= 66)%R.
Proof.
  intros m be Hm Hbe. unfold ph_acc.
  assert (A0 : acc4 [0; 0; 0; 0]). { split; [repeat constructor; lia|reflexivity]. }
  destruct (add_word_R _ m (be + 1 + 252) A0 ltac:(lia)) as (A1 & n1 & e1 & B1 & C1).
  destruct (ph_loop_R frac_8_over_pi _ m (be - 64 + 252) A1 Hm limbs_table) as (A2 & n2 & e2 & B2 & C2). split; [exact A2|].
  destruct words_pi as (t & T1 & T2). exists (n1 + n2), (e1 + e2 + IZR m * bp be * bp 252 * t)%R. split.
  - rewrite B2, B1, T1, plus_IZR. change (aval [0; 0; 0; 0]) with 0. replace (be + 1 + 252) with (be + 252 + 1) by lia. replace (be - 64 + 252) with (be + 252 + -64) by lia.
    rewrite !bpow_plus. change (bp 1) with 2%R. ring.
  - change (INR (length frac_8_over_pi)) with (INR 32) in C2. rewrite INR_IZR_INZ in C2. change (IZR (Z.of_nat 32)) with 32%R in C2.
    assert (0 <= IZR m <= bp 53)%R by (rewrite bpZ by lia; split; apply IZR_le; lia).
    assert (0 <= IZR m * bp be <= bp 1024)%R.
    { split; [apply Rmult_le_pos; [lra|apply bpow_ge_0]|]. replace 1024 with (53 + 971) by lia. rewrite bpow_plus. apply Rmult_le_compat; try lra; [apply bpow_ge_0|apply bpow_le; lia]. }
    assert (0 <= bp 252 * t <= bp (-1796))%R.
    { split; [apply Rmult_le_pos; [apply bpow_ge_0|lra]|]. replace (-1796) with (252 + -2048) by lia. rewrite bpow_plus. apply Rmult_le_compat_l; [apply bpow_ge_0|lra]. }
    assert (0 <= IZR m * bp be * (bp 252 * t) <= 1)%R.
    { split; [apply Rmult_le_pos; lra|]. apply Rle_trans with (bp 1024 * bp (-1796))%R; [apply Rmult_le_compat; lra|]. rewrite <- bpow_plus.
      apply Rle_trans with (bp 0); [apply bpow_le; lia|apply Rle_refl]. }
    rewrite <- Rmult_assoc in *. lra.
Qed.
