(** * log1p: the polynomials of the two kernels *)
From Coq Require Import ZArith Lia Bool Reals Lra List.
From Coquelicot Require Import Coquelicot.
From Flocq Require Import Core.
From Interval Require Import Tactic.
From Verif Require Import ErrLib Exp2fProofs Expm1Proofs TaylorExp.
Import ListNotations.
Open Scope Z_scope.

(** The values of the constants of log1p_impl.hpp:30-41. *)
Definition f_odd : list R := [ IZR 0x1555556 * bp (-25); IZR 0x124924a * bp (-26) ]%R.
Definition f_even : list R := [ IZR 0x199999a * bp (-26); IZR 0x1f0a3d8 * bp (-27) ]%R.
Definition d_odd : list R := [ IZR 0x15555555555555 * bp (-53); IZR 0x12492492492492 * bp (-54); IZR 0x1745d1745d0a63 * bp (-55); IZR 0x1111111111126e * bp (-55) ]%R.
Definition d_even : list R := [ IZR 0x19999999999999 * bp (-54); IZR 0x1c71c71c71c6d6 * bp (-55); IZR 0x13b13b13b0ff6e * bp (-55) ]%R.

(** r of the kernels as a function of z = s^2. *)
Definition Rz (odd even : list R) (z : R) : R := (z * hr (z * z) odd + z * z * hr (z * z) even)%R.
Definition Es (odd even : list R) (s : R) : R := (s * (2 + Rz odd even (s * s)) - (ln (1 + s) - ln (1 - s)))%R.
Lemma Es_odd : forall o e s, Es o e (- s) = (- Es o e s)%R.
Proof. intros o e s. unfold Es. replace (- s * - s)%R with (s * s)%R by ring. replace (1 + - s)%R with (1 - s)%R by ring. replace (1 - - s)%R with (1 + s)%R by ring. ring. Qed.

Definition dEd (s : R) : R := let z := (s * s)%R in
  ((3 * nth 0 d_odd 0 - 2) * z + (5 * nth 0 d_even 0 - 2) * z ^ 2 + (7 * nth 1 d_odd 0 - 2) * z ^ 3 + (9 * nth 1 d_even 0 - 2) * z ^ 4 + (11 * nth 2 d_odd 0 - 2) * z ^ 5
   + (13 * nth 2 d_even 0 - 2) * z ^ 6 + (15 * nth 3 d_odd 0 - 2) * z ^ 7 - 2 * z ^ 8 / (1 - z))%R.
Lemma Ed_small : forall s, (0 <= s <= / 20)%R -> (Rabs (Es d_odd d_even s) <= bp (-60) * s)%R.
Proof.
  intros s H. replace (Es d_odd d_even s) with (Es d_odd d_even s - Es d_odd d_even 0)%R. 2: { unfold Es. rewrite Rplus_0_r, Rminus_0_r, ln_1. ring. }
  replace s with (Rabs (s - 0)) at 2 by (rewrite Rminus_0_r; apply Rabs_pos_eq; lra).
  apply (bounded_variation (Es d_odd d_even) dEd). intros t Ht. rewrite !Rminus_0_r, (Rabs_pos_eq s) in Ht by lra. assert (T : (- / 20 <= t <= / 20)%R) by (apply Rabs_le_inv; lra). clear Ht H. split.
  - unfold Es, Rz, dEd, d_odd, d_even. cbn [hr nth].
    repeat match goal with |- context [(IZR ?m * bp ?e)%R] => let c := fresh "c" in set (c := (IZR m * bp e)%R) end.
    auto_derive; [lra|]. field. split; nra.
  - unfold dEd, d_odd, d_even. cbn [nth]. bpn. cbv zeta. interval with (i_prec 80, i_bisect t).
Qed.
Lemma Ed_mid : forall s, (/ 20 <= s <= 1112 / 10000)%R -> (Rabs (Es d_odd d_even s) <= 13 / 10 * bp (-54) * s)%R.
Proof.
  intros s H. unfold Es, Rz, d_odd, d_even. cbn [hr]. bpn. apply Rabs_le; split; apply Rminus_le; interval with (i_prec 90, i_bisect s, i_taylor s, i_degree 20, i_depth 10).
Qed.
Lemma Ed_far : forall s, (1112 / 10000 <= s <= 1716 / 10000)%R -> (Rabs (Es d_odd d_even s) <= 13 / 10 * bp (-44) * s)%R.
Proof.
  intros s H. unfold Es, Rz, d_odd, d_even. cbn [hr]. bpn. apply Rabs_le; split; apply Rminus_le; interval with (i_prec 90, i_bisect s, i_taylor s, i_degree 16, i_depth 12).
Qed.
Definition dEf (s : R) : R := let z := (s * s)%R in
  ((3 * nth 0 f_odd 0 - 2) * z + (5 * nth 0 f_even 0 - 2) * z ^ 2 + (7 * nth 1 f_odd 0 - 2) * z ^ 3 + (9 * nth 1 f_even 0 - 2) * z ^ 4 - 2 * z ^ 5 / (1 - z))%R.
Lemma Ef_small : forall s, (0 <= s <= / 20)%R -> (Rabs (Es f_odd f_even s) <= bp (-29) * s)%R.
Proof.
  intros s H. replace (Es f_odd f_even s) with (Es f_odd f_even s - Es f_odd f_even 0)%R. 2: { unfold Es. rewrite Rplus_0_r, Rminus_0_r, ln_1. ring. }
  replace s with (Rabs (s - 0)) at 2 by (rewrite Rminus_0_r; apply Rabs_pos_eq; lra).
  apply (bounded_variation (Es f_odd f_even) dEf). intros t Ht. rewrite !Rminus_0_r, (Rabs_pos_eq s) in Ht by lra. assert (T : (- / 20 <= t <= / 20)%R) by (apply Rabs_le_inv; lra). clear Ht H. split.
  - unfold Es, Rz, dEf, f_odd, f_even. cbn [hr nth].
    repeat match goal with |- context [(IZR ?m * bp ?e)%R] => let c := fresh "c" in set (c := (IZR m * bp e)%R) end.
    auto_derive; [lra|]. field. split; nra.
  - unfold dEf, f_odd, f_even. cbn [nth]. bpn. cbv zeta. interval with (i_prec 60, i_bisect t, i_depth 14).
Qed.
Lemma Ef_far : forall s, (/ 20 <= s <= 1716 / 10000)%R -> (Rabs (Es f_odd f_even s) <= 7 * bp (-29) * s)%R.
Proof.
  intros s H. unfold Es, Rz, f_odd, f_even. cbn [hr]. bpn. apply Rabs_le; split; apply Rminus_le; interval with (i_prec 60, i_bisect s, i_taylor s, i_degree 12, i_depth 12).
Qed.

(** In terms of x = 2 s / (1 - s): s = x / (2 + x). *)
Definition sx (X : R) : R := (X / (2 + X))%R.
Lemma sx_eq : forall X, (-1 < X)%R -> ((1 + sx X) / (1 - sx X) = 1 + X)%R. Proof. intros X H. unfold sx. field. lra. Qed.
Lemma sx_b : forall X, (-1 < X)%R -> (-1 < sx X < 1)%R.
Proof.
  intros X H. unfold sx. assert (0 < / (2 + X))%R by (apply Rinv_0_lt_compat; lra). assert (E : ((2 + X) * / (2 + X) = 1)%R) by (apply Rinv_r; lra). unfold Rdiv. split; nra.
Qed.
Lemma sx_ln : forall X, (-1 < X)%R -> (ln (1 + X) = ln (1 + sx X) - ln (1 - sx X))%R.
Proof. intros X H. pose proof (sx_b X H). rewrite <- sx_eq at 1 by auto. unfold Rdiv. rewrite ln_mult, ln_Rinv; try lra. apply Rinv_0_lt_compat. lra. Qed.
(** The exact value of what the kernels compute. *)
Definition Gx (o e : list R) (X : R) : R := (sx X * (X * X / 2 + Rz o e (sx X * sx X)) - X * X / 2 + X)%R.
Lemma Gx_E : forall o e X, (-1 < X)%R -> (Gx o e X - ln (1 + X) = Es o e (sx X))%R.
Proof. intros o e X H. rewrite sx_ln by auto. unfold Gx, Es. set (r := Rz o e (sx X * sx X)). replace (sx X * (X * X / 2 + r) - X * X / 2 + X)%R with (sx X * (2 + r))%R; [ring|]. unfold sx. field. lra. Qed.
Lemma sx_abs : forall X, (- 293 / 1000 <= X <= 415 / 1000)%R -> (41 / 100 * Rabs X <= Rabs (sx X) <= 59 / 100 * Rabs X)%R.
Proof.
  intros X H. unfold sx, Rdiv. rewrite Rabs_mult, (Rabs_pos_eq (/ (2 + X))) by (apply Rlt_le, Rinv_0_lt_compat; lra). pose proof (Rabs_pos X).
  assert (41 / 100 <= / (2 + X) <= 59 / 100)%R by interval with (i_prec 40). split; [|]; rewrite (Rmult_comm _ (Rabs X)); apply Rmult_le_compat_l; lra.
Qed.
Lemma abs_Es : forall o e s, Rabs (Es o e s) = Rabs (Es o e (Rabs s)).
Proof. intros o e s. destruct (Rle_or_lt 0 s); [rewrite (Rabs_pos_eq s) by auto; auto|rewrite (Rabs_left s), Es_odd, Rabs_Ropp by auto; auto]. Qed.
(** The logarithm is at least 2 |s|. *)
Lemma ln_s : forall s, (0 <= s < 1)%R -> (2 * s <= ln (1 + s) - ln (1 - s))%R.
Proof.
  intros s H. assert (A : forall s, (0 <= s < 1)%R -> (0 <= (ln (1 + s) - ln (1 - s)) - 2 * s)%R); [|specialize (A s H); lra]. clear s H. intros s H.
  destruct (Req_dec s 0) as [->|N]. { rewrite Rplus_0_r, Rminus_0_r, ln_1. lra. }
  destruct (MVT_gen (fun s => ln (1 + s) - ln (1 - s) - 2 * s)%R 0 s (fun s => / (1 + s) + / (1 - s) - 2)%R) as (c & Hc & E).
  - intros t Ht. rewrite Rmin_left, Rmax_right in Ht by lra. auto_derive; [lra|]. field. lra.
  - intros t Ht. rewrite Rmin_left, Rmax_right in Ht by lra. apply continuity_pt_filterlim. apply (@ex_derive_continuous R_AbsRing R_NormedModule (fun s : R => ln (1 + s) - ln (1 - s) - 2 * s)%R t). auto_derive. lra.
  - rewrite Rmin_left, Rmax_right in Hc by lra. rewrite Rplus_0_r, Rminus_0_r, ln_1 in E. replace (ln (1 + s) - ln (1 - s) - 2 * s)%R with ((/ (1 + c) + / (1 - c) - 2) * (s - 0))%R by (rewrite <- E; ring).
    apply Rmult_le_pos; [|lra]. replace (/ (1 + c) + / (1 - c) - 2)%R with (2 * (c * c) * / ((1 + c) * (1 - c)))%R by (field; lra). apply Rmult_le_pos; [nra|]. apply Rlt_le, Rinv_0_lt_compat. nra.
Qed.
Lemma ln1p_s : forall X, (-1 < X)%R -> (2 * Rabs (sx X) <= Rabs (ln (1 + X)))%R.
Proof.
  intros X H. pose proof (sx_b X H) as B. rewrite (sx_ln X H). set (s := sx X) in *. destruct (Rle_or_lt 0 s) as [P|P].
  - pose proof (ln_s s ltac:(lra)). rewrite (Rabs_pos_eq s), Rabs_pos_eq by lra. lra.
  - pose proof (ln_s (- s) ltac:(lra)) as L. replace (1 + - s)%R with (1 - s)%R in L by ring. replace (1 - - s)%R with (1 + s)%R in L by ring. rewrite (Rabs_left s), Rabs_left by lra. lra.
Qed.
Lemma Gd_rel : forall X, (- 2929 / 10000 <= X <= 41429 / 100000)%R -> (Rabs (Gx d_odd d_even X - ln (1 + X)) <= 13 / 10 * bp (-44) * Rabs (sx X))%R /\ ((- 2 / 10 <= X <= 2 / 10)%R -> (Rabs (Gx d_odd d_even X - ln (1 + X)) <= 13 / 10 * bp (-54) * Rabs (sx X))%R).
Proof.
  intros X H. rewrite Gx_E, abs_Es by lra. assert (B : (-1716 / 10000 <= sx X <= 1716 / 10000)%R) by (unfold sx; replace (X / (2 + X))%R with (1 - 2 / (2 + X))%R by (field; lra); split; interval with (i_prec 60)).
  assert (B' : (0 <= Rabs (sx X) <= 1716 / 10000)%R) by (split; [apply Rabs_pos|apply Rabs_le; lra]).
  assert (Q : (Rabs (sx X) <= / 20 -> Rabs (Es d_odd d_even (Rabs (sx X))) <= 13 / 10 * bp (-54) * Rabs (sx X))%R).
  { intros C. apply Rle_trans with (1 := Ed_small (Rabs (sx X)) ltac:(lra)). apply Rmult_le_compat_r; [lra|]. bpn. lra. }
  assert (Q' : (Rabs (sx X) <= 1112 / 10000 -> Rabs (Es d_odd d_even (Rabs (sx X))) <= 13 / 10 * bp (-54) * Rabs (sx X))%R).
  { intros C. destruct (Rle_or_lt (Rabs (sx X)) (/ 20)); [auto|apply Ed_mid; lra]. }
  split.
  - destruct (Rle_or_lt (Rabs (sx X)) (1112 / 10000)) as [C|C].
    + apply Rle_trans with (1 := Q' C). apply Rmult_le_compat_r; [lra|]. bpn. lra.
    + apply Ed_far. lra.
  - intros HX. apply Q'. apply Rabs_le. unfold sx. replace (X / (2 + X))%R with (1 - 2 / (2 + X))%R by (field; lra). split; interval with (i_prec 60).
Qed.
Lemma Gf_rel : forall X, (- 2929 / 10000 <= X <= 41429 / 100000)%R -> (Rabs (Gx f_odd f_even X - ln (1 + X)) <= 7 * bp (-29) * Rabs (sx X))%R.
Proof.
  intros X H. rewrite Gx_E, abs_Es by lra. assert (B : (-1716 / 10000 <= sx X <= 1716 / 10000)%R) by (unfold sx; replace (X / (2 + X))%R with (1 - 2 / (2 + X))%R by (field; lra); split; interval with (i_prec 60)).
  assert (B' : (0 <= Rabs (sx X) <= 1716 / 10000)%R) by (split; [apply Rabs_pos|apply Rabs_le; lra]).
  destruct (Rle_or_lt (Rabs (sx X)) (/ 20)).
  - apply Rle_trans with (1 := Ef_small (Rabs (sx X)) ltac:(lra)). apply Rmult_le_compat_r; [lra|]. bpn. lra.
  - apply Ef_far. lra.
Qed.
