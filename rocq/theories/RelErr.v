(** * Relative errors of double operations, counted in rounding units *)
From Coq Require Import ZArith Lia Bool Reals Lra List.
From Flocq Require Import Core Relative.
From Verif Require Import MachInt Fmt FloatSpec FmtProofs RoundProofs FOps FOpsProofs ExactOps ExtFloatSpec ExtFloatProofs ExtInterp FmanipWide ErrLib ExpM1 Exp2fProofs ExpoFWrap Expm1Proofs HypotProofs.
Import ListNotations.
Open Scope Z_scope.

Section Rel.
Context (rm : rmode).
Notation u := (uF D rm).
(** x is y up to c rounding units. *)
Definition rel (c x y : R) : Prop := (Rabs (x - y) <= c * u * Rabs y)%R.
Lemma uD : (0 < u <= bp (-52))%R.
Proof. destruct rm; (split; [apply bpow_gt_0|apply bpow_le; vm_compute; congruence]). Qed.
Lemma uD' : (0 < u <= / 1000000000000000)%R. Proof. pose proof uD as H. bpn_in H. lra. Qed.
Lemma rel_refl : forall x, rel 0 x x. Proof. intros x. unfold rel. rewrite Rminus_eq_0, Rabs_R0. lra. Qed.
Lemma rel_weak : forall c d x y, rel c x y -> (c <= d)%R -> rel d x y.
Proof. intros c d x y H L. unfold rel in *. apply Rle_trans with (1 := H). apply Rmult_le_compat_r; [apply Rabs_pos|]. apply Rmult_le_compat_r; [|auto]. pose proof uD. lra. Qed.
Lemma rel_abs : forall c x y, (0 <= c <= 1000)%R -> rel c x y -> ((1 - / 1000000) * Rabs y <= Rabs x <= (1 + / 1000000) * Rabs y)%R.
Proof.
  intros c x y Hc H. unfold rel in H. pose proof uD' as U. pose proof (Rabs_pos y) as Y. assert (B : (Rabs (x - y) <= / 1000000 * Rabs y)%R).
  { apply Rle_trans with (1 := H). apply Rmult_le_compat_r; [auto|]. apply Rle_trans with (1000 * / 1000000000000000)%R; [apply Rmult_le_compat; lra|lra]. }
  split.
  - assert (Rabs y <= Rabs x + Rabs (x - y))%R; [|lra]. replace y with (x + - (x - y))%R at 1 by ring. eapply Rle_trans; [apply Rabs_triang|]. rewrite Rabs_Ropp. lra.
  - replace x with (y + (x - y))%R by ring. eapply Rle_trans; [apply Rabs_triang|]. lra.
Qed.
Lemma rel_mul : forall c1 c2 a a' b b', (0 <= c1 <= 1000)%R -> (0 <= c2 <= 1000)%R -> rel c1 a a' -> rel c2 b b' -> rel (c1 + c2 + / 1000) (a * b) (a' * b').
Proof.
  intros c1 c2 a a' b b' H1 H2 Ha Hb. unfold rel in *. pose proof uD' as U. pose proof (Rabs_pos a') as PA. pose proof (Rabs_pos b') as PB.
  replace (a * b - a' * b')%R with ((a - a') * b' + a' * (b - b') + (a - a') * (b - b'))%R by ring.
  assert (P : (0 <= Rabs a' * Rabs b')%R) by (apply Rmult_le_pos; auto).
  eapply Rle_trans; [apply Rabs_triang|]. eapply Rle_trans; [apply Rplus_le_compat_r, Rabs_triang|]. rewrite !Rabs_mult.
  assert (T1 : (Rabs (a - a') * Rabs b' <= c1 * u * Rabs a' * Rabs b')%R) by (apply Rmult_le_compat_r; auto).
  assert (T2 : (Rabs a' * Rabs (b - b') <= Rabs a' * (c2 * u * Rabs b'))%R) by (apply Rmult_le_compat_l; auto).
  assert (T3 : (Rabs (a - a') * Rabs (b - b') <= c1 * u * Rabs a' * (c2 * u * Rabs b'))%R) by (apply Rmult_le_compat; auto; apply Rabs_pos).
  assert (T4 : (c1 * u * Rabs a' * (c2 * u * Rabs b') <= / 1000 * u * (Rabs a' * Rabs b'))%R).
  { replace (c1 * u * Rabs a' * (c2 * u * Rabs b'))%R with (c1 * c2 * u * (u * (Rabs a' * Rabs b')))%R by ring. rewrite (Rmult_assoc (/ 1000)). apply Rmult_le_compat_r; [apply Rmult_le_pos; lra|].
    apply Rle_trans with (1000 * 1000 * / 1000000000000000)%R; [|lra]. apply Rmult_le_compat; try lra; [apply Rmult_le_pos; lra|apply Rmult_le_compat; lra]. }
  lra.
Qed.
Lemma rel_inv : forall c a a', (0 <= c <= 900)%R -> a' <> 0%R -> rel c a a' -> rel (c + / 1000) (/ a) (/ a') /\ a <> 0%R.
Proof.
  intros c a a' Hc N H. pose proof (rel_abs c a a' ltac:(lra) H) as B. pose proof uD' as U. assert (PA : (0 < Rabs a')%R) by (apply Rabs_pos_lt; auto).
  assert (PA' : (0 < Rabs a)%R) by lra. assert (N' : a <> 0%R) by (intros ->; rewrite Rabs_R0 in PA'; lra). split; [|auto]. unfold rel in *.
  replace (/ a - / a')%R with (- (a - a') * / a * / a')%R by (field; auto). rewrite !Rabs_mult, Rabs_Ropp. apply Rmult_le_compat_r; [apply Rabs_pos|]. rewrite (Rabs_inv a).
  apply Rmult_le_reg_r with (Rabs a); [auto|]. rewrite Rmult_assoc, Rinv_l, Rmult_1_r by lra. apply Rle_trans with (1 := H).
  apply Rle_trans with (((c + / 1000) * u) * ((1 - / 1000000) * Rabs a'))%R. 2: { apply Rmult_le_compat_l; [|lra]. apply Rmult_le_pos; lra. }
  rewrite <- Rmult_assoc. apply Rmult_le_compat_r; [lra|]. replace ((c + / 1000) * u * (1 - / 1000000))%R with (((c + / 1000) * (1 - / 1000000)) * u)%R by ring. apply Rmult_le_compat_r; lra.
Qed.
Lemma rel_div : forall c1 c2 a a' b b', (0 <= c1 <= 1000)%R -> (0 <= c2 <= 900)%R -> b' <> 0%R -> rel c1 a a' -> rel c2 b b' -> rel (c1 + c2 + 2 / 1000) (a / b) (a' / b').
Proof.
  intros c1 c2 a a' b b' H1 H2 N Ha Hb. destruct (rel_inv c2 b b' ltac:(lra) N Hb) as [I _]. unfold Rdiv. eapply rel_weak; [apply (rel_mul c1 (c2 + / 1000)); auto; lra|lra].
Qed.
(** Sums of numbers of the same sign. *)
Lemma rel_add : forall c a a' b b', (0 <= a')%R -> (0 <= b')%R -> rel c a a' -> rel c b b' -> rel c (a + b) (a' + b').
Proof.
  intros c a a' b b' PA PB Ha Hb. unfold rel in *. rewrite (Rabs_pos_eq a') in Ha by auto. rewrite (Rabs_pos_eq b') in Hb by auto. rewrite (Rabs_pos_eq (a' + b')) by lra.
  replace (a + b - (a' + b'))%R with ((a - a') + (b - b'))%R by ring. eapply Rle_trans; [apply Rabs_triang|]. lra.
Qed.
Lemma rel_rnd : forall c x y, (0 <= c <= 1000)%R -> rel c x y -> (bp (-1000) <= Rabs y <= 4)%R -> rel (c + 1 + / 1000) (fround D rm x) y /\ (Rabs (fround D rm x) < bp (bias D + 1))%R.
Proof.
  intros c x y Hc H HY. pose proof (rel_abs c x y Hc H) as B. pose proof uD' as U. split.
  - assert (E : (Rabs (fround D rm x - x) <= u * Rabs x)%R).
    { apply (rel_n D good64 ltac:(vm_compute; congruence)). change (emin D + prec D - 1) with (-1022). apply Rle_trans with (/ 2 * bp (-1000))%R; [change (/ 2)%R with (bp (-1)); rewrite <- bpow_plus; apply bpow_le; lia|]. lra. }
    unfold rel in *. replace (fround D rm x - y)%R with ((fround D rm x - x) + (x - y))%R by ring. eapply Rle_trans; [apply Rabs_triang|].
    assert (u * Rabs x <= u * ((1 + / 1000000) * Rabs y))%R by (apply Rmult_le_compat_l; lra). assert (0 <= u * Rabs y)%R by (apply Rmult_le_pos; [lra|apply Rabs_pos]). lra.
  - apply (bound_big rm x 3); [lia|]. change (bp 3) with 8%R. lra.
Qed.
Lemma mulN : forall c1 c2 a b A B A' B', (0 <= c1 <= 400)%R -> (0 <= c2 <= 400)%R -> is_real D a A -> is_real D b B -> rel c1 A A' -> rel c2 B B' -> (bp (-1000) <= Rabs (A' * B') <= 4)%R ->
  exists C, is_real D (f_mul D rm a b) C /\ rel (c1 + c2 + 1 + 2 / 1000) C (A' * B').
Proof.
  intros c1 c2 a b A B A' B' H1 H2 Ha Hb RA RB HB. pose proof (rel_mul c1 c2 A A' B B' ltac:(lra) ltac:(lra) RA RB) as M.
  destruct (rel_rnd (c1 + c2 + / 1000) _ _ ltac:(lra) M HB) as [R1 R2]. eexists. split; [apply (mul_r D good64); eauto|]. eapply rel_weak; [exact R1|lra].
Qed.
Lemma divN : forall c1 c2 a b A B A' B', (0 <= c1 <= 400)%R -> (0 <= c2 <= 400)%R -> B' <> 0%R -> is_real D a A -> is_real D b B -> rel c1 A A' -> rel c2 B B' -> (bp (-1000) <= Rabs (A' / B') <= 4)%R ->
  exists C, is_real D (f_div D rm a b) C /\ rel (c1 + c2 + 1 + 3 / 1000) C (A' / B').
Proof.
  intros c1 c2 a b A B A' B' H1 H2 N Ha Hb RA RB HB. pose proof (rel_div c1 c2 A A' B B' ltac:(lra) ltac:(lra) N RA RB) as M. destruct (rel_inv c2 B B' ltac:(lra) N RB) as [_ NB].
  destruct (rel_rnd (c1 + c2 + 2 / 1000) _ _ ltac:(lra) M HB) as [R1 R2]. eexists. split; [apply (div_r D good64); eauto|]. eapply rel_weak; [exact R1|lra].
Qed.
Lemma addN : forall c a b A B A' B', (0 <= c <= 400)%R -> is_real D a A -> is_real D b B -> (0 <= A')%R -> (0 <= B')%R -> rel c A A' -> rel c B B' -> (bp (-1000) <= A' + B' <= 4)%R ->
  exists C, is_real D (f_add D rm a b) C /\ rel (c + 1 + / 1000) C (A' + B').
Proof.
  intros c a b A B A' B' H1 Ha Hb PA PB RA RB HB. pose proof (rel_add c A A' B B' PA PB RA RB) as M.
  destruct (rel_rnd c _ _ ltac:(lra) M ltac:(rewrite Rabs_pos_eq; lra)) as [R1 R2]. eexists. split; [apply (add_r D good64); eauto|exact R1].
Qed.
(** Nested sums c0 + w (c1 + w (...)) for a small w: about one unit whatever the length. *)
Lemma hr_pos : forall w cs, (0 <= w <= / 1000)%R -> List.Forall (fun c => / 8 <= c <= 1)%R cs -> cs <> [] -> (/ 8 <= hr w cs <= 1.01)%R.
Proof.
  intros w cs Hw. induction cs as [|c cs IH]; intros H NE; [congruence|]. inversion H; subst. cbn [hr]. destruct cs as [|c' cs'].
  - cbn [hr]. lra.
  - specialize (IH ltac:(auto) ltac:(congruence)). set (q := hr w (c' :: cs')) in *. assert (0 <= w * q <= / 1000 * 1.01)%R by (split; [apply Rmult_le_pos; lra|apply Rmult_le_compat; lra]). lra.
Qed.
Lemma hornerN : forall cw w W W', (0 <= cw <= 20)%R -> is_real D w W -> rel cw W W' -> (bp (-900) <= W' <= / 1000)%R ->
  forall cs Cs, List.Forall2 (is_real D) cs Cs -> cs <> [] -> List.Forall (fun c => / 8 <= c <= 1)%R Cs ->
  exists Q, is_real D (horner D rm w cs) Q /\ rel 1.3 Q (hr W' Cs).
Proof.
  intros cw w W W' Hc Hw RW HW cs Cs H2. induction H2 as [|c C cs Cs Hc' H2 IH]; intros NE HB; [congruence|]. inversion HB as [|? ? BC BCs]; subst.
  assert (W0 : (0 < W')%R) by (pose proof (bpow_gt_0 radix2 (-900)); lra).
  destruct cs as [|c' cs'].
  - inversion H2; subst. exists C. split; [exact Hc'|]. cbn [hr]. rewrite Rmult_0_r, Rplus_0_r. eapply rel_weak; [apply rel_refl|lra].
  - destruct (IH ltac:(congruence) BCs) as (Q & RQ & EQ).
    assert (NEs : Cs <> []) by (intros ->; inversion H2). pose proof (hr_pos W' Cs ltac:(lra) BCs NEs) as HP.
    change (horner D rm w (c :: c' :: cs')) with (f_add D rm c (f_mul D rm w (horner D rm w (c' :: cs')))). cbn [hr]. set (q := hr W' Cs) in *.
    assert (WQ : (bp (-1000) <= W' * q <= / 900)%R).
    { split; [|apply Rle_trans with (/ 1000 * 1.01)%R; [apply Rmult_le_compat; lra|lra]]. apply Rle_trans with (bp (-900) * / 8)%R; [change (/ 8)%R with (bp (-3)); rewrite <- bpow_plus; apply bpow_le; lia|].
      apply Rmult_le_compat; try lra. apply bpow_ge_0. }
    pose proof (bpow_gt_0 radix2 (-1000)) as B1000.
    destruct (mulN cw 1.3 w _ W Q W' q ltac:(lra) ltac:(lra) Hw RQ RW EQ) as (T & RT & ET). { rewrite Rabs_pos_eq; lra. }
    assert (CT : rel 0.25 (C + T) (C + W' * q)).
    { unfold rel in *. rewrite (Rabs_pos_eq (C + W' * q)) by lra. replace (C + T - (C + W' * q))%R with (T - W' * q)%R by ring. apply Rle_trans with (1 := ET). rewrite Rabs_pos_eq by lra.
      pose proof uD' as U. apply Rle_trans with (23 * u * (/ 900))%R. { apply Rmult_le_compat; try lra; [apply Rmult_le_pos; lra|apply Rmult_le_compat_r; lra]. }
      apply Rle_trans with (0.25 * u * / 8)%R; [lra|]. apply Rmult_le_compat_l; lra. }
    destruct (rel_rnd 0.25 _ _ ltac:(lra) CT) as [R1 R2]. { rewrite Rabs_pos_eq by lra. split; [|lra]. apply Rle_trans with (bp (-3)); [apply bpow_le; lia|change (bp (-3)) with (/ 8)%R; lra]. }
    eexists. split; [apply (add_r D good64); eauto|]. eapply rel_weak; [exact R1|lra].
Qed.
End Rel.
