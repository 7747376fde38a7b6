(** * The remainder of the exponential series *)
From Coq Require Import Reals Lra.
From Coquelicot Require Import Coquelicot.
From Interval Require Import Tactic.

Lemma dexp : forall X n t, is_derive_n (fun t => exp (X * t)) n t (X ^ n * exp (X * t)).
Proof.
  intros X n. induction n as [|n IH]; intros t.
  - cbn. ring.
  - cbn [is_derive_n]. apply is_derive_ext with (f := fun t => (X ^ n * exp (X * t))%R).
    + intros s. symmetry. apply is_derive_n_unique. apply IH.
    + auto_derive; [exact I|]. cbn [pow]. ring.
Qed.
Lemma taylor_exp : forall n X, exists z, (0 < z < 1)%R /\ exp X = (sum_f_R0 (fun m => X ^ m / INR (fact m)) n + X ^ (S n) / INR (fact (S n)) * exp (X * z))%R.
Proof.
  intros n X. destruct (Taylor_Lagrange (fun t => exp (X * t)) n 0 1 Rlt_0_1) as (z & Hz & E).
  - intros t _ k _. destruct k; [exact I|]. exists (X ^ (S k) * exp (X * t))%R. apply (dexp X (S k) t).
  - exists z. split; [exact Hz|]. rewrite Rmult_1_r in E. rewrite E. f_equal.
    + apply sum_eq. intros i _. rewrite Rminus_0_r, pow1, (is_derive_n_unique _ _ _ _ (dexp X i 0)), Rmult_0_r, exp_0. unfold Rdiv. ring.
    + rewrite Rminus_0_r, pow1, (is_derive_n_unique _ _ _ _ (dexp X (S n) z)). unfold Rdiv. ring.
Qed.
Lemma taylor_err : forall n X, (Rabs X <= / 8)%R -> (Rabs (exp X - sum_f_R0 (fun m => X ^ m / INR (fact m)) n) <= 8 / 7 * (Rabs X ^ (S n) / INR (fact (S n))))%R.
Proof.
  intros n X HX. destruct (taylor_exp n X) as (z & Hz & ->).
  replace (sum_f_R0 (fun m => X ^ m / INR (fact m)) n + X ^ S n / INR (fact (S n)) * exp (X * z) - sum_f_R0 (fun m => X ^ m / INR (fact m)) n)%R with (exp (X * z) * (X ^ S n / INR (fact (S n))))%R by ring.
  pose proof (INR_fact_lt_0 (S n)) as FP. rewrite Rabs_mult, (Rabs_pos_eq (exp _)) by (left; apply exp_pos). unfold Rdiv at 1. rewrite Rabs_mult, <- RPow_abs, (Rabs_pos_eq (/ _)) by (left; apply Rinv_0_lt_compat; auto).
  apply Rmult_le_compat_r. { apply Rmult_le_pos; [apply pow_le, Rabs_pos|left; apply Rinv_0_lt_compat; auto]. }
  assert (X * z <= / 8)%R. { apply Rle_trans with (1 := Rle_abs _). rewrite Rabs_mult, (Rabs_pos_eq z) by lra. rewrite <- (Rmult_1_r (/ 8)). apply Rmult_le_compat; try lra. apply Rabs_pos. }
  apply Rle_trans with (exp (/ 8)); [|interval with (i_prec 40)]. destruct (Req_dec (X * z) (/ 8)) as [->|N]; [lra|left; apply exp_increasing; lra].
Qed.
