(** * The polynomial of asin: real facts *)
From Coq Require Import ZArith Lia Reals Lra Ratan.
From Coquelicot Require Import Coquelicot.
From Flocq Require Import Core.Raux.
From Interval Require Import Tactic.
Local Open Scope R_scope.

(** the coefficients of inv_trig_data.hpp:21-24 *)
Definition rr (q : R) : R :=
  6004799503160192 / 36028797018963968 + q * (5404319553092955 / 72057594037927936 + q * (6433713707345084 / 144115188075855872 + q * (8757003558622942
  / 288230376151711744 + q * (6448219253556811 / 288230376151711744 + q * (5003607134847092 / 288230376151711744 + q * (8004067957053868 /
  576460752303423488 + q * (7016398763515161 / 576460752303423488 + q * (7515851594203209 / 1152921504606846976 + q * (5635139846664006 /
  288230376151711744 + q * (- 4685721306087269 / 288230376151711744 + q * (4602030130368581 / 144115188075855872))))))))))).

Definition pa (x : R) : R := x + x * x * x * rr (x * x).
Lemma asin_a : forall x, -1 < x < 1 -> asin x = atan (x / sqrt (1 - x * x)).
Proof. intros x H. rewrite asin_atan by exact H. reflexivity. Qed.
Lemma tm1 : forall x, 0.25 <= x <= 0.5 -> Rabs (pa x - atan (x / sqrt (1 - x * x))) <= / 72057594037927936.
Proof. intros x H. unfold pa, rr. interval with (i_prec 70, i_taylor x, i_degree 9, i_bisect x, i_depth 14). Qed.
Lemma tm2 : forall x, 0.125 <= x <= 0.25 -> Rabs (pa x - atan (x / sqrt (1 - x * x))) <= / 144115188075855872.
Proof. intros x H. unfold pa, rr. interval with (i_prec 70, i_taylor x, i_degree 10, i_bisect x, i_depth 14). Qed.
Lemma tm3 : forall x, 0.0625 <= x <= 0.125 -> Rabs (pa x - atan (x / sqrt (1 - x * x))) <= / 288230376151711744.
Proof. intros x H. unfold pa, rr. interval with (i_prec 70, i_taylor x, i_degree 10, i_bisect x, i_depth 14). Qed.
Lemma tm4 : forall x, 0.03125 <= x <= 0.0625 -> Rabs (pa x - atan (x / sqrt (1 - x * x))) <= / 576460752303423488.
Proof. intros x H. unfold pa, rr. interval with (i_prec 70, i_taylor x, i_degree 10, i_bisect x, i_depth 14). Qed.
Lemma tm5 : forall x, 0.015625 <= x <= 0.03125 -> Rabs (pa x - atan (x / sqrt (1 - x * x))) <= / 1152921504606846976.
Proof. intros x H. unfold pa, rr. interval with (i_prec 75, i_taylor x, i_degree 10, i_bisect x, i_depth 14). Qed.

Lemma d_asin : forall x, -1 < x < 1 -> is_derive asin x (/ sqrt (1 - x * x)).
Proof.
  intros x H. apply is_derive_Reals. pose proof (derive_pt_asin x H) as E.
  apply derive_pt_eq_1 in E. replace (/ sqrt (1 - x * x)) with (1 / sqrt (1 - x²)) by (unfold Rsqr; field; apply Rgt_not_eq; apply sqrt_lt_R0; nra). exact E.
Qed.
(** from a bound on the derivative of the difference *)
Lemma mvt0 : forall (f g : R -> R) b c x, 0 <= x <= b -> f 0 = 0 -> (forall t, 0 <= t <= b -> is_derive f t (g t)) -> (forall t, 0 <= t <= b -> Rabs (g t) <= c) -> Rabs (f x) <= c * x.
Proof.
  intros f g b c x Hx F0 D B. destruct (MVT_gen f 0 x g) as (t & Ht & E).
  - intros t Ht. rewrite Rmin_left, Rmax_right in Ht by lra. apply D. lra.
  - intros t Ht. rewrite Rmin_left, Rmax_right in Ht by lra. apply continuity_pt_filterlim. apply (ex_derive_continuous f). exists (g t). apply D. lra.
  - rewrite Rmin_left, Rmax_right in Ht by lra. rewrite F0, !Rminus_0_r in E. rewrite E, Rabs_mult, (Rabs_pos_eq x) by lra. apply Rmult_le_compat_r; [lra|]. apply B. lra.
Qed.
Definition rr' (q : R) : R :=
  1 * (5404319553092955 / 72057594037927936) + q * (2 * (6433713707345084 / 144115188075855872) + q * (3 * (8757003558622942 / 288230376151711744) + q *
  (4 * (6448219253556811 / 288230376151711744) + q * (5 * (5003607134847092 / 288230376151711744) + q * (6 * (8004067957053868 / 576460752303423488) + q
  * (7 * (7016398763515161 / 576460752303423488) + q * (8 * (7515851594203209 / 1152921504606846976) + q * (9 * (5635139846664006 / 288230376151711744)
  + q * (10 * (- 4685721306087269 / 288230376151711744) + q * (11 * (4602030130368581 / 144115188075855872))))))))))).
Lemma tm6 : forall x, 0 <= x <= 0.015625 -> Rabs (pa x - asin x) <= / 18014398509481984 * x.
Proof.
  intros x H. apply (mvt0 (fun x => pa x - asin x) (fun t => (1 + t * t * (3 * rr (t * t) + 2 * (t * t) * rr' (t * t))) - / sqrt (1 - t * t)) 0.015625 (/ 18014398509481984)); auto.
  - unfold pa. rewrite asin_0. ring.
  - intros t Ht. apply (is_derive_minus pa asin); [|apply d_asin; lra]. unfold pa, rr, rr'. auto_derive; [exact I|]. field.
  - intros t Ht. unfold rr, rr'. interval with (i_prec 70, i_taylor t, i_degree 8, i_bisect t, i_depth 14).
Qed.
Theorem num_asin : forall x, Rabs x <= / 2 -> Rabs (pa x - asin x) <= / 18014398509481984 * Rabs x.
Proof.
  assert (P : forall x, 0 <= x <= / 2 -> Rabs (pa x - asin x) <= / 18014398509481984 * x).
  { intros x H. destruct (Rle_lt_dec x 0.015625); [apply tm6; lra|]. rewrite asin_a by lra.
    destruct (Rle_lt_dec x 0.03125); [pose proof (tm5 x); lra|]. destruct (Rle_lt_dec x 0.0625); [pose proof (tm4 x); lra|].
    destruct (Rle_lt_dec x 0.125); [pose proof (tm3 x); lra|]. destruct (Rle_lt_dec x 0.25); [pose proof (tm2 x); lra|]. pose proof (tm1 x); lra. }
  intros x H. destruct (Rle_lt_dec 0 x) as [L|L].
  - rewrite Rabs_pos_eq in * by lra. rewrite (Rabs_pos_eq x) by lra. apply P. lra.
  - rewrite (Rabs_left x) in * by lra. replace (pa x - asin x) with (- (pa (- x) - asin (- x))). { rewrite Rabs_Ropp. apply P. lra. }
    rewrite asin_opp. unfold pa. replace (- x * - x) with (x * x) by ring. ring.
Qed.

(** the short polynomials near 0 *)
Lemma tiny_asin : forall x, Rabs x <= / 16384 -> Rabs (x + x * x * x / 6 - asin x) <= / 100000000000000000 * Rabs x.
Proof.
  assert (P : forall x, 0 <= x <= / 16384 -> Rabs (x + x * x * x / 6 - asin x) <= / 100000000000000000 * x).
  { intros x H. apply (mvt0 (fun x => x + x * x * x / 6 - asin x) (fun t => 1 + t * t / 2 - / sqrt (1 - t * t)) (/ 16384)); auto.
    - rewrite asin_0. field.
    - intros t Ht. apply (is_derive_minus (fun x => x + x * x * x / 6) asin); [|apply d_asin; lra]. auto_derive; [exact I|]. field.
    - intros t Ht. interval with (i_prec 90, i_taylor t, i_degree 8, i_bisect t, i_depth 10). }
  intros x H. destruct (Rle_lt_dec 0 x) as [L|L].
  - rewrite (Rabs_pos_eq x) in * by lra. apply P. lra.
  - rewrite (Rabs_left x) in * by lra. replace (x + x * x * x / 6 - asin x) with (- (- x + - x * - x * - x / 6 - asin (- x))). { rewrite Rabs_Ropp. apply P. lra. }
    rewrite asin_opp. field.
Qed.
Lemma small_asin : forall x, Rabs x <= / 1024 -> Rabs (x + x * x * x / 6 - asin x) <= / 13500000000000000.
Proof.
  assert (P : forall x, 0 <= x <= / 1024 -> Rabs (x + x * x * x / 6 - asin x) <= / 13500000000000000).
  { intros x H. destruct (Rle_lt_dec x (/ 1048576)) as [L|L].
    - pose proof (tiny_asin x) as T. rewrite (Rabs_pos_eq x) in T by lra. lra.
    - rewrite asin_a by lra. interval with (i_prec 90, i_taylor x, i_degree 10, i_bisect x, i_depth 10). }
  intros x H. destruct (Rle_lt_dec 0 x) as [L|L].
  - rewrite (Rabs_pos_eq x) in * by lra. apply P. lra.
  - rewrite (Rabs_left x) in * by lra. replace (x + x * x * x / 6 - asin x) with (- (- x + - x * - x * - x / 6 - asin (- x))). { rewrite Rabs_Ropp. apply P. lra. }
    rewrite asin_opp. field.
Qed.
Lemma tiny_atan : forall x, 0 <= x <= / 16384 -> Rabs (x - x * x * x / 3 - atan x) <= / 70000000000000000 * x.
Proof.
  intros x H. apply (mvt0 (fun x => x - x * x * x / 3 - atan x) (fun t => 1 - t * t - / (1 + t * t)) (/ 16384)); auto.
  - rewrite atan_0. field.
  - intros t Ht. auto_derive; [exact I|]. field. nra.
  - intros t Ht. replace (1 - t * t - / (1 + t * t)) with (- (t * t * t * t) / (1 + t * t)) by (field; nra). interval with (i_prec 90).
Qed.

(** ** asin and acos *)
Lemma asin_pos : forall x, 0 < x < 1 -> 0 < asin x.
Proof.
  intros x H. rewrite asin_a by lra. rewrite <- atan_0. apply atan_increasing. apply Rdiv_lt_0_compat; [lra|]. apply sqrt_lt_R0. nra.
Qed.
Lemma asin_ge : forall x, 0 <= x <= 1 -> x <= asin x.
Proof.
  intros x H. destruct (Req_dec x 0) as [->|N]; [rewrite asin_0; lra|]. destruct (Req_dec x 1) as [->|N1]; [rewrite asin_1; interval with (i_prec 30)|].
  rewrite <- (sin_asin x) at 1 by lra. apply Rlt_le, sin_lt_x. apply asin_pos. lra.
Qed.
Lemma asin_abs : forall x, Rabs (asin x) = asin (Rabs x) \/ 1 < Rabs x.
Proof.
  intros x. destruct (Rlt_dec 1 (Rabs x)) as [L|L]; [right; exact L|left]. destruct (Rle_lt_dec 0 x) as [P|P].
  - rewrite (Rabs_pos_eq x) in * by lra. pose proof (asin_ge x). apply Rabs_pos_eq. lra.
  - rewrite (Rabs_left x) in * by lra. pose proof (asin_ge (- x)) as G. rewrite asin_opp in *. rewrite <- Rabs_Ropp. apply Rabs_pos_eq. lra.
Qed.
Lemma asin_abs1 : forall x, Rabs x <= 1 -> Rabs x <= Rabs (asin x).
Proof. intros x H. destruct (asin_abs x) as [E|E]; [|lra]. rewrite E. apply asin_ge. pose proof (Rabs_pos x). lra. Qed.
Lemma asin_lip : forall s L a b, 0 <= s < 1 -> 0 < L -> 1 <= L * L * (1 - s * s) -> Rabs a <= s -> Rabs b <= s -> Rabs (asin a - asin b) <= L * Rabs (a - b).
Proof.
  intros s L a b Hs HL H Ha Hb. apply Rabs_le_inv in Ha. apply Rabs_le_inv in Hb.
  assert (W : forall t, Rmin b a <= t <= Rmax b a -> -s <= t <= s). { intros t Ht. unfold Rmin, Rmax in Ht. destruct (Rle_dec b a); lra. }
  destruct (MVT_gen asin b a (fun t => / sqrt (1 - t * t))) as (t & Ht & E).
  - intros t Ht. apply d_asin. pose proof (W t). lra.
  - intros t Ht. apply continuity_pt_filterlim. apply (ex_derive_continuous asin). eexists. apply d_asin. pose proof (W t). lra.
  - rewrite E, Rabs_mult. apply Rmult_le_compat_r; [apply Rabs_pos|]. pose proof (W t Ht) as B. assert (P : 0 < 1 - t * t) by nra.
    rewrite Rabs_pos_eq by (apply Rlt_le, Rinv_0_lt_compat, sqrt_lt_R0; auto).
    rewrite <- (Rinv_inv L). apply Rinv_le_contravar; [apply Rinv_0_lt_compat; lra|].
    rewrite <- (sqrt_Rsqr (/ L)) by (apply Rlt_le, Rinv_0_lt_compat; lra). apply sqrt_le_1_alt. unfold Rsqr. rewrite <- Rinv_mult.
    assert (LL : 0 < L * L) by nra. apply Rmult_le_reg_l with (1 := LL). rewrite Rinv_r by lra.
    assert (TS : t * t <= s * s) by nra. apply Rle_trans with (1 := H). apply Rmult_le_compat_l; lra.
Qed.
Lemma rr_b : forall q, 0 <= q <= 0.26 -> 0.1666 <= rr q <= 0.1907.
Proof. intros q H. unfold rr. split; interval with (i_prec 40, i_bisect q, i_depth 8). Qed.
Lemma asin_hi : forall x, 0 <= x <= / 2 -> asin x <= 1.0473 * x.
Proof.
  intros x H. pose proof (num_asin x) as N. rewrite (Rabs_pos_eq x) in N by lra. specialize (N ltac:(lra)). apply Rabs_le_inv in N.
  assert (B : pa x <= 1.04725 * x); [|lra]. unfold pa. replace (x + x * x * x * rr (x * x)) with (x * (1 + x * x * rr (x * x))) by ring. rewrite (Rmult_comm 1.04725). apply Rmult_le_compat_l; [lra|].
  assert (Q : 0 <= x * x <= 0.25) by nra. set (q := x * x) in *. clearbody q. unfold rr. interval with (i_prec 40, i_bisect q, i_depth 10).
Qed.
Lemma acos_half : forall x, / 2 <= x <= 1 -> acos x = 2 * asin (sqrt ((1 - x) / 2)).
Proof.
  intros x H. set (s := sqrt ((1 - x) / 2)). assert (S0 : 0 <= s) by apply sqrt_pos. assert (S2 : s * s = (1 - x) / 2) by (unfold s; apply sqrt_sqrt; lra).
  assert (S1 : s <= / 2) by nra. rewrite <- (acos_cos (2 * asin s)).
  - f_equal. rewrite cos_2a_sin, sin_asin by lra. lra.
  - pose proof (asin_ge s). pose proof (asin_hi s). assert (3 <= PI) by (interval with (i_prec 30)). lra.
Qed.
Lemma asin_of_atan : forall x, asin (x / sqrt (1 + x * x)) = atan x.
Proof.
  intros x. replace (x / sqrt (1 + x * x)) with (sin (atan x)) by (rewrite sin_atan; reflexivity). apply asin_sin. pose proof (atan_bound x). lra.
Qed.
Lemma d_rr : forall q, is_derive rr q (rr' q).
Proof. intros q. unfold rr, rr'. auto_derive; [exact I|]. field. Qed.
Lemma rr_lip : forall a b, 0 <= a <= 0.26 -> 0 <= b <= 0.26 -> Rabs (rr a - rr b) <= 0.14 * Rabs (a - b).
Proof.
  intros a b Ha Hb. assert (W : forall t, Rmin b a <= t <= Rmax b a -> 0 <= t <= 0.26). { intros t Ht. unfold Rmin, Rmax in Ht. destruct (Rle_dec b a); lra. }
  destruct (MVT_gen rr b a rr') as (t & Ht & E).
  - intros t Ht. apply d_rr.
  - intros t Ht. apply continuity_pt_filterlim. apply (ex_derive_continuous rr). eexists. apply d_rr.
  - rewrite E, Rabs_mult. apply Rmult_le_compat_r; [apply Rabs_pos|]. pose proof (W t Ht) as B. unfold rr'. interval with (i_prec 40, i_bisect t, i_depth 8).
Qed.
