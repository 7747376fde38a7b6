(** * The polynomials of the double logarithms *)
From Coq Require Import ZArith Lia Reals Lra List Bool.
From Flocq Require Import Core.
From Coquelicot Require Import Coquelicot.
From Interval Require Import Tactic.
From Verif Require Import MachInt Fmt FloatSpec ExtFloatSpec ErrLib ExpoData LogDataD ExpoF Exp2fProofs LogfNum.
Import ListNotations.
Open Scope Z_scope.

(** log_data.hpp:74 as real numbers. *)
Definition ld0 : R := (- IZR 0x10000000000001 * bp (-53))%R.
Definition ld1 : R := (IZR 0x1555555551305b * bp (-54))%R.
Definition ld2 : R := (- IZR 0x1fffffffeb459 * bp (-51))%R.
Definition ld3 : R := (IZR 0x1999b324f10111 * bp (-55))%R.
Definition ld4 : R := (- IZR 0x155575e506c89f * bp (-55))%R.
Definition ldQ (r : R) : R := (ld1 + r * ld2 + r * r * (ld3 + r * ld4))%R.
Definition ldP (r : R) : R := (r + r * r * ld0 + r * r * r * ldQ r)%R.
Lemma ldP_abs : forall r, (Rabs r <= 39 / 10000)%R -> (Rabs (ldP r - ln (1 + r)) <= 9 / 8 * bp (-63))%R.
Proof. intros r H. unfold ldP, ldQ, ld0, ld1, ld2, ld3, ld4. bpn. interval with (i_prec 100, i_bisect r, i_taylor r, i_degree 8). Qed.

(** log_data.hpp:80-90. *)
Definition lm1 : R := (IZR 0x15555555555577 * bp (-54))%R.
Definition lm2 : R := (- IZR 0x1ffffffffffdcb * bp (-55))%R.
Definition lm3 : R := (IZR 0x1999999995dd0c * bp (-55))%R.
Definition lm4 : R := (- IZR 0x155555556745a7 * bp (-55))%R.
Definition lm5 : R := (IZR 0x124924a344de3 * bp (-51))%R.
Definition lm6 : R := (- IZR 0x1fffffa4423d65 * bp (-56))%R.
Definition lm7 : R := (IZR 0x1c7184282ad6ca * bp (-56))%R.
Definition lm8 : R := (- IZR 0x1999eb43b068ff * bp (-56))%R.
Definition lm9 : R := (IZR 0x178182f7afd085 * bp (-56))%R.
Definition lm10 : R := (- IZR 0x15521375d145cd * bp (-56))%R.
Definition lmB (r c c' c'' t : R) : R := (c + r * c' + r * r * c'' + r * r * r * t)%R.
Definition lmP (r : R) : R := (r - r * r / 2 + r * r * r * lmB r lm1 lm2 lm3 (lmB r lm4 lm5 lm6 (lmB r lm7 lm8 lm9 lm10)))%R.
Definition dlmP (r : R) : R := (1 - r + 3 * lm1 * r ^ 2 + 4 * lm2 * r ^ 3 + 5 * lm3 * r ^ 4 + 6 * lm4 * r ^ 5 + 7 * lm5 * r ^ 6 + 8 * lm6 * r ^ 7 + 9 * lm7 * r ^ 8 + 10 * lm8 * r ^ 9 + 11 * lm9 * r ^ 10 + 12 * lm10 * r ^ 11)%R.
Ltac ulm := unfold lm1, lm2, lm3, lm4, lm5, lm6, lm7, lm8, lm9, lm10.
Lemma lmP_small : forall r, (Rabs r <= / 64)%R -> (Rabs (lmP r - ln (1 + r)) <= bp (-61) * Rabs r)%R.
Proof.
  intros r H. replace (lmP r - ln (1 + r))%R with ((lmP r - ln (1 + r)) - (lmP 0 - ln (1 + 0)))%R.
  2: { rewrite Rplus_0_r, ln_1. unfold lmP, lmB. field. }
  replace (Rabs r) with (Rabs (r - 0)) by (f_equal; ring).
  apply (bounded_variation (fun r => lmP r - ln (1 + r))%R (fun r => dlmP r - / (1 + r))%R).
  intros t Ht. rewrite !Rminus_0_r in Ht. assert (T : (Rabs t <= / 64)%R) by lra. split.
  - apply Rabs_le_inv in T. unfold lmP, lmB, dlmP. auto_derive; [lra|]. field. lra.
  - unfold dlmP. ulm. bpn. interval with (i_prec 100, i_bisect t, i_taylor t, i_degree 13).
Qed.
Lemma lmP_rel : forall r, (Rabs r <= / 16)%R -> (Rabs (lmP r - ln (1 + r)) <= bp (-61) * Rabs r)%R.
Proof.
  intros r H. destruct (Rle_or_lt (Rabs r) (/ 64)) as [S|S]; [apply lmP_small; auto|].
  apply Rabs_le_inv in H. destruct (Rle_or_lt 0 r) as [Hr|Hr].
  - rewrite Rabs_pos_eq in * by auto. assert (H' : (/ 64 <= r <= / 16)%R) by lra. clear H S Hr. unfold lmP, lmB. ulm. bpn. apply Rabs_le; split; apply Rminus_le;
    interval with (i_prec 100, i_bisect r, i_taylor r, i_degree 14, i_depth 12).
  - rewrite (Rabs_left r) in * by auto. assert (H' : (- / 16 <= r <= - / 64)%R) by lra. clear H S Hr. unfold lmP, lmB. ulm. bpn. apply Rabs_le; split; apply Rminus_le;
    interval with (i_prec 100, i_bisect r, i_taylor r, i_degree 14, i_depth 12).
Qed.

(** log2_data.hpp:65-66, 72 and 78-79. *)
Definition ivh : R := (IZR 0x17154765200000 * bp (-52))%R.
Definition ivl : R := (IZR 0x1705fc2eefa200 * bp (-85))%R.
Definition lq0 : R := (- IZR 0x171547652b8339 * bp (-53))%R.
Definition lq1 : R := (IZR 0x1ec709dc3a04be * bp (-54))%R.
Definition lq2 : R := (- IZR 0x17154764702ffb * bp (-54))%R.
Definition lq3 : R := (IZR 0x12776c50034c48 * bp (-54))%R.
Definition lq4 : R := (- IZR 0x1ec7b328ea92bc * bp (-55))%R.
Definition lq5 : R := (IZR 0x1a6225e117f92e * bp (-55))%R.
Definition lqQ (r : R) : R := ((lq0 + r * lq1) + r * r * (lq2 + r * lq3) + (r * r) * (r * r) * (lq4 + r * lq5))%R.
Definition lqP (r : R) : R := (r * (ivh + ivl) + r * r * lqQ r)%R.
Lemma lqP_abs : forall r, (Rabs r <= 78 / 10000)%R -> (Rabs (lqP r - ln (1 + r) / ln 2) <= bp (-64))%R.
Proof. intros r H. unfold lqP, lqQ, ivh, ivl, lq0, lq1, lq2, lq3, lq4, lq5. bpn. interval with (i_prec 100, i_bisect r, i_taylor r, i_degree 9). Qed.

Definition ln0 : R := (- IZR 0x171547652b82fe * bp (-53))%R.
Definition ln1 : R := (IZR 0x1ec709dc3a03f7 * bp (-54))%R.
Definition ln2_ : R := (- IZR 0x171547652b7c3f * bp (-54))%R.
Definition ln3 : R := (IZR 0x12776c50f05be4 * bp (-54))%R.
Definition ln4 : R := (- IZR 0x1ec709dd768fe5 * bp (-55))%R.
Definition ln5 : R := (IZR 0x1a61761ec4e736 * bp (-55))%R.
Definition ln6 : R := (- IZR 0x17153fbc64a79b * bp (-55))%R.
Definition ln7 : R := (IZR 0x1484d154f01b4a * bp (-55))%R.
Definition ln8 : R := (- IZR 0x1289e4a72c383c * bp (-55))%R.
Definition ln9 : R := (IZR 0x10b32f285aee66 * bp (-55))%R.
Definition lnq (r a b c d : R) : R := ((a + r * b) + r * r * (c + r * d))%R.
Definition lnT (r : R) : R := (lnq r ln2_ ln3 ln4 ln5 + (r * r) * (r * r) * lnq r ln6 ln7 ln8 ln9)%R.
Definition lnN (r : R) : R := (r * (ivh + ivl) + r * r * (ln0 + r * ln1) + (r * r) * (r * r) * lnT r)%R.
Definition dlnN (r : R) : R := (ivh + ivl + 2 * ln0 * r + 3 * ln1 * r ^ 2 + 4 * ln2_ * r ^ 3 + 5 * ln3 * r ^ 4 + 6 * ln4 * r ^ 5 + 7 * ln5 * r ^ 6 + 8 * ln6 * r ^ 7 + 9 * ln7 * r ^ 8 + 10 * ln8 * r ^ 9 + 11 * ln9 * r ^ 10)%R.
Ltac uln := unfold ivh, ivl, ln0, ln1, ln2_, ln3, ln4, ln5, ln6, ln7, ln8, ln9.
Lemma lnN_small : forall r, (Rabs r <= / 64)%R -> (Rabs (lnN r - ln (1 + r) / ln 2) <= bp (-61) * Rabs r)%R.
Proof.
  intros r H. replace (lnN r - ln (1 + r) / ln 2)%R with ((lnN r - ln (1 + r) / ln 2) - (lnN 0 - ln (1 + 0) / ln 2))%R.
  2: { rewrite Rplus_0_r, ln_1. unfold lnN, lnT, lnq. unfold Rdiv. ring. }
  replace (Rabs r) with (Rabs (r - 0)) by (f_equal; ring). assert (L2 : (ln 2 <> 0)%R) by (intros E; assert (0 < ln 2)%R by interval with (i_prec 40); lra).
  apply (bounded_variation (fun r => lnN r - ln (1 + r) / ln 2)%R (fun r => dlnN r - / (1 + r) / ln 2)%R).
  intros t Ht. rewrite !Rminus_0_r in Ht. assert (T : (Rabs t <= / 64)%R) by lra. split.
  - apply Rabs_le_inv in T. unfold lnN, lnT, lnq, dlnN. auto_derive; [lra|]. field. split; [lra|auto].
  - unfold dlnN. uln. bpn. interval with (i_prec 100, i_bisect t, i_taylor t, i_degree 13).
Qed.
Lemma lnN_rel : forall r, (-424 / 10000 <= r <= 443 / 10000)%R -> (Rabs (lnN r - ln (1 + r) / ln 2) <= bp (-61) * Rabs r)%R.
Proof.
  intros r H. destruct (Rle_or_lt (Rabs r) (/ 64)) as [S|S]; [apply lnN_small; auto|]. destruct (Rle_or_lt 0 r) as [Hr|Hr].
  - rewrite Rabs_pos_eq in * by auto. assert (H' : (/ 64 <= r <= 443 / 10000)%R) by lra. clear H S Hr. unfold lnN, lnT, lnq. uln. bpn. apply Rabs_le; split; apply Rminus_le;
    interval with (i_prec 100, i_bisect r, i_taylor r, i_degree 14, i_depth 12).
  - rewrite (Rabs_left r) in * by auto. assert (H' : (-424 / 10000 <= r <= - / 64)%R) by lra. clear H S Hr. unfold lnN, lnT, lnq. uln. bpn. apply Rabs_le; split; apply Rminus_le;
    interval with (i_prec 100, i_bisect r, i_taylor r, i_degree 14, i_depth 12).
Qed.
