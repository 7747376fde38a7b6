(** * DyadicFloat multiply_add *)
From Coq Require Import ZArith Lia Bool Reals Lra.
From Flocq Require Import Core.
From Verif Require Import MachInt Fmt FloatSpec FOps Dyadic DyadicSpec FmtProofs BigIntMul FmanipWide DyadicProofs DyadicFast DyadicArith DyadicQuick.
Open Scope Z_scope.

Section MA.
Context (native : bool) (w : Z) (n : nat).
Context (Hw : 2 <= w) (Hm : mul2_width native w) (Hn : (1 <= n)%nat) (HK : Z.of_nat n < 2 ^ w).
Notation B := (w * Z.of_nat n).

Lemma unit_le : forall d, 0 <= dmant d < 2 ^ B -> dy_norm B d -> dmant d <> 0 -> (bpow radix2 (dexp d) <= bpow radix2 (1 - B) * Rabs (dyval d))%R.
Proof.
  intros d D N NZ. assert (HB2 : 2 <= B) by nia. destruct N as [N|N]; [lia|]. rewrite Rabs_dyval by lia.
  pose proof (bpow_gt_0 radix2 (dexp d)) as P. pose proof (bpow_gt_0 radix2 (1 - B)) as Q.
  assert (I : (bpow radix2 (B - 1) <= IZR (dmant d))%R) by (rewrite (bpow_IZR (B - 1)) by lia; apply IZR_le; auto).
  assert (E : (bpow radix2 (1 - B) * bpow radix2 (B - 1) = 1)%R) by (rewrite <- bpow_plus; replace (1 - B + (B - 1)) with 0 by lia; reflexivity).
  rewrite <- Rmult_assoc. rewrite <- (Rmult_1_l (bpow radix2 (dexp d))) at 1. apply Rmult_le_compat_r; [lra|]. rewrite <- E. apply Rmult_le_compat_l; lra.
Qed.
Lemma quick_add_sum : forall a b, 0 <= dmant a < 2 ^ B -> 0 <= dmant b < 2 ^ B -> dy_norm B a -> dy_norm B b ->
  (dsign a = dsign b -> dmant a <> 0 -> dexp b - dexp a < B) ->
  (Rabs (dyval (quick_add B a b) - (dyval a + dyval b)) <= bpow radix2 (2 - B) * (Rabs (dyval a) + Rabs (dyval b)))%R.
Proof.
  intros a b Ha Hb Na Nb HS. assert (HB2 : 2 <= B) by nia.
  assert (P0 : (0 <= bpow radix2 (2 - B) * (Rabs (dyval a) + Rabs (dyval b)))%R).
  { apply Rmult_le_pos; [apply bpow_ge_0|]. pose proof (Rabs_pos (dyval a)). pose proof (Rabs_pos (dyval b)). lra. }
  assert (Z0 : forall d, dmant d = 0 -> dyval d = 0%R) by (intros d D; rewrite dyval_sg, D; ring).
  destruct (Z.eq_dec (dmant a) 0) as [A0|A0].
  { unfold quick_add. rewrite A0. cbn [Z.eqb]. rewrite (Z0 a A0) in *. replace (dyval b - (0 + dyval b))%R with 0%R by ring. rewrite Rabs_R0 in *. exact P0. }
  destruct (Z.eq_dec (dmant b) 0) as [B0|B0].
  { unfold quick_add. rewrite B0. destruct (Z.eqb_spec (dmant a) 0); [lia|]. cbn [Z.eqb]. rewrite (Z0 b B0) in *. replace (dyval a - (dyval a + 0))%R with 0%R by ring. rewrite Rabs_R0 in *. exact P0. }
  assert (E2 : bpow radix2 (2 - B) = (2 * bpow radix2 (1 - B))%R) by (change 2%R with (bpow radix2 1); rewrite <- bpow_plus; f_equal; lia).
  destruct (Bool.bool_dec (dsign a) (dsign b)) as [S|S].
  - assert (X0 : (dyval a + dyval b <> 0)%R).
    { intros H. apply (f_equal Rabs) in H. rewrite Rabs_R0, Rabs_same_sign in H by (auto; lia).
      assert (0 < IZR (dmant a) * bpow radix2 (dexp a))%R by (apply Rmult_lt_0_compat; [apply IZR_lt; lia|apply bpow_gt_0]).
      assert (0 < IZR (dmant b) * bpow radix2 (dexp b))%R by (apply Rmult_lt_0_compat; [apply IZR_lt; lia|apply bpow_gt_0]). lra. }
    pose proof (quick_add_bound B HB2 a b Ha Hb Na Nb X0 HS ltac:(congruence)) as Q. apply Rlt_le. eapply Rlt_le_trans; [exact Q|].
    pose proof (bpow_mag_le radix2 (dyval a + dyval b) X0) as ML.
    replace (mag radix2 (dyval a + dyval b) - 1 + 2 - B) with ((2 - B) + (mag radix2 (dyval a + dyval b) - 1)) by lia. rewrite bpow_plus.
    apply Rmult_le_compat_l; [apply bpow_ge_0|]. eapply Rle_trans; [exact ML|]. apply Rabs_triang.
  - destruct (quick_add_opposite B HB2 a b Ha Hb Na Nb S) as (_ & _ & Q & _). specialize (Q A0 B0). apply Rlt_le. eapply Rlt_le_trans; [exact Q|].
    pose proof (unit_le a Ha Na A0) as UA. pose proof (unit_le b Hb Nb B0) as UB. pose proof (bpow_gt_0 radix2 (1 - B)) as P1.
    assert (0 <= bpow radix2 (1 - B) * Rabs (dyval a))%R by (apply Rmult_le_pos; [lra|apply Rabs_pos]).
    assert (0 <= bpow radix2 (1 - B) * Rabs (dyval b))%R by (apply Rmult_le_pos; [lra|apply Rabs_pos]).
    rewrite E2. destruct (Z.max_spec (dexp a) (dexp b)) as [[_ ->]|[_ ->]]; lra.
Qed.
Theorem multiply_add_spec : forall a b c, 0 <= dmant a < 2 ^ B -> 0 <= dmant b < 2 ^ B -> 0 <= dmant c < 2 ^ B -> dy_norm B a -> dy_norm B b -> dy_norm B c ->
  (dsign c = xorb (dsign a) (dsign b) -> dmant c <> 0 -> dexp a + dexp b < dexp c) ->
  (Rabs (dyval (dy_multiply_add native w n a b c) - (dyval c + dyval a * dyval b)) <=
   IZR (4 * Z.of_nat n + 4) * bpow radix2 (- B) * (Rabs (dyval c) + Rabs (dyval a * dyval b)))%R.
Proof.
  intros a b c Ha Hb Hc Na Nb Nc HS. destruct (quick_mul_spec native w n Hw Hm Hn HK a b Ha Hb Na Nb) as (P1 & P2 & P3 & P4 & _).
  destruct (quick_mul_rel native w n Hw Hm Hn HK a b (conj Ha Na) (conj Hb Nb)) as (_ & t & Ht & Et).
  unfold dy_multiply_add. set (p := quick_mul native w n a b) in *.
  pose proof (quick_add_sum c p Hc P2 Nc P3) as Q. rewrite P1 in Q.
  assert (HS' : dsign c = xorb (dsign a) (dsign b) -> dmant c <> 0 -> dexp p - dexp c < B) by (intros S1 S2; specialize (HS S1 S2); lia).
  specialize (Q HS'). set (X := (dyval a * dyval b)%R) in *.
  assert (UE : ulp_mul w n = (IZR (4 * Z.of_nat n) * bpow radix2 (- B))%R).
  { unfold ulp_mul. replace (1 - B) with (1 + - B) by lia. rewrite bpow_plus. change (bpow radix2 1) with 2%R. rewrite !mult_IZR. ring. }
  assert (E4 : bpow radix2 (2 - B) = (4 * bpow radix2 (- B))%R) by (change 4%R with (bpow radix2 2); rewrite <- bpow_plus; f_equal; lia).
  rewrite UE in Ht. rewrite E4 in Q. pose proof (bpow_gt_0 radix2 (- B)) as BP. set (v := bpow radix2 (- B)) in *.
  pose proof (Rabs_pos X) as XP. pose proof (Rabs_pos (dyval c)) as CP.
  assert (N0 : (4 <= IZR (4 * Z.of_nat n))%R) by (apply IZR_le; lia). rewrite plus_IZR. set (k := IZR (4 * Z.of_nat n)) in *.
  assert (HB2 : 2 <= B) by nia.
  assert (T0 : (0 <= t)%R \/ (t < 0)%R) by lra.
  assert (D : (Rabs (dyval p - X) <= k * v * Rabs X)%R).
  { rewrite Et. replace (t * X - X)%R with ((t - 1) * X)%R by ring. rewrite Rabs_mult. apply Rmult_le_compat_r; [auto|]. apply Rabs_le. lra. }
  assert (AP : (Rabs (dyval p) <= Rabs X)%R).
  { pose proof (quick_mul_spec native w n Hw Hm Hn HK a b Ha Hb Na Nb) as (_ & _ & _ & _ & L & _). fold p in L. fold X in L. lra. }
  replace (dyval (quick_add B c p) - (dyval c + X))%R with ((dyval (quick_add B c p) - (dyval c + dyval p)) + (dyval p - X))%R by ring.
  eapply Rle_trans; [apply Rabs_triang|].
  assert (4 * v * (Rabs (dyval c) + Rabs (dyval p)) <= 4 * v * (Rabs (dyval c) + Rabs X))%R by (apply Rmult_le_compat_l; lra).
  assert (0 <= k * v * Rabs (dyval c))%R by (apply Rmult_le_pos; [apply Rmult_le_pos|]; lra).
  replace ((k + 4) * v * (Rabs (dyval c) + Rabs X))%R with (4 * v * (Rabs (dyval c) + Rabs X) + k * v * Rabs (dyval c) + k * v * Rabs X)%R by ring. lra.
Qed.
End MA.
