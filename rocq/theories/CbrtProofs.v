(** * cbrt: accuracy *)
From Coq Require Import ZArith Lia Bool Reals Lra Psatz.
From Flocq Require Import Core Relative.
From Interval Require Import Tactic.
From Verif Require Import MachInt Fmt FloatSpec FmtProofs RoundProofs FPBits FPBitsProofs FOps FOpsProofs GenOpsProofs FmanipProofs ExactOps BasicProofs NextProofs Compare CompareProofs ExtFloatSpec ExtFloatProofs ExtInterp RemProofs Power Expm1Proofs HypotProofs ErrLib Exp2fProofs ExpoF ExpD LogD ExpoFWrap ExpDWrap LogfWrap LogDWrap LerpProofs FmanipWide.
Open Scope Z_scope.

(** The Newton step, scaled to a root of 1. *)
Lemma newton_num : forall u d e1 e2 e3, (0 < u <= / 8000000)%R -> (Rabs d <= / 10000)%R -> (d * d <= u / 500)%R -> (Rabs e1 <= u)%R -> (Rabs e2 <= u)%R -> (Rabs e3 <= u)%R ->
  (Rabs ((2 * (1 + d) + 1 / ((1 + d) * (1 + d) * (1 + e1)) * (1 + e2)) * (1 + e3) / 3 - 1) <= 17 / 10 * u)%R.
Proof.
  intros u d e1 e2 e3 Hu Hd Hdd H1 H2 H3. apply Rabs_le_inv in Hd, H1, H2, H3.
  set (w := (/ ((1 + d) * (1 + d)))%R). set (g := ((1 + e2) / (1 + e1))%R).
  assert (W : (0 <= w - 1 + 2 * d <= 3.1 * (d * d))%R).
  { replace (w - 1 + 2 * d)%R with (d * d * ((3 + 2 * d) / ((1 + d) * (1 + d))))%R by (unfold w; field; lra).
    assert (0 <= (3 + 2 * d) / ((1 + d) * (1 + d)) <= 3.1)%R by interval with (i_prec 40). nra. }
  assert (G : (Rabs (g - 1) <= 2.01 * u)%R).
  { replace (g - 1)%R with ((e2 - e1) * / (1 + e1))%R by (unfold g; field; lra). rewrite Rabs_mult. apply Rle_trans with (2 * u * 1.001)%R; [|lra].
    apply Rmult_le_compat; try apply Rabs_pos; [apply Rabs_le; lra|]. assert (-/ 8000000 <= e1 <= / 8000000)%R by lra. apply Rabs_le. split; interval with (i_prec 40). }
  apply Rabs_le_inv in G. replace (1 / ((1 + d) * (1 + d) * (1 + e1)) * (1 + e2))%R with (w * g)%R by (unfold w, g; field; lra).
  assert (DD : (0 <= d * d)%R) by nra. assert (wb : (0.999 <= w <= 1.001)%R) by lra. clearbody w g.
  assert (S : (Rabs (2 * (1 + d) + w * g - 3) <= 2.03 * u)%R).
  { replace (2 * (1 + d) + w * g - 3)%R with ((w - 1 + 2 * d) + w * (g - 1))%R by ring. apply Rle_trans with (1 := Rabs_triang _ _). rewrite Rabs_mult, (Rabs_pos_eq w), (Rabs_pos_eq (w - 1 + 2 * d)) by lra.
    assert (w * Rabs (g - 1) <= 1.001 * (2.01 * u))%R by (apply Rmult_le_compat; try apply Rabs_pos; try lra; apply Rabs_le; lra). lra. }
  apply Rabs_le_inv in S. set (s := (2 * (1 + d) + w * g)%R) in *. clearbody s.
  assert (Rabs (s * e3) <= 3.001 * u)%R. { rewrite Rabs_mult. apply Rmult_le_compat; try apply Rabs_pos; apply Rabs_le; lra. } apply Rabs_le_inv in H.
  apply Rabs_le. lra.
Qed.

(** A relative error as a factor. *)
Lemma as_factor : forall x y u, (0 < y)%R -> (Rabs (x - y) <= u * y)%R -> exists e, (Rabs e <= u)%R /\ (x = y * (1 + e))%R.
Proof.
  intros x y u Hy H. exists ((x - y) / y)%R. split; [|field; lra]. unfold Rdiv. rewrite Rabs_mult, (Rabs_pos_eq (/ y)) by (left; apply Rinv_0_lt_compat; auto).
  apply Rmult_le_reg_r with y; auto. rewrite Rmult_assoc, Rinv_l by lra. lra.
Qed.

Section Root.
Context (F : fmt) (HF : good_fmt F) (H24 : 24 <= prec F) (Hem : emin F <= - 2 * prec F) (Hb : 4 <= bias F) (rm : rmode) (exp_ log_ : Z -> Z) (m : Z) (M : R).
Notation u := (uF F rm).
Context (Hm : 4 <= m /\ emin F + prec F + 4 <= - 2 * m /\ 2 * m + 4 <= bias F) (HM : (0 <= M)%R) (HM1 : ((M + 2) * u <= / 20000)%R) (HM2 : ((M + 2) * (M + 2) * u <= / 500)%R).
Context (Hlog : forall a A, is_real F a A -> (0 < A)%R -> exists L, is_real F (log_ a) L /\ (Rabs (L - ln A) <= 1.6 * u * Rabs (ln A))%R).
Context (Hexp : forall q Q, is_real F q Q -> (Rabs Q <= M / 3 + 1)%R -> exists Y, is_real F (exp_ q) Y /\ (Rabs (Y - exp Q) <= 1.3 * u * exp Q)%R).

Lemma fpow : forall e, emin F <= e -> generic_format radix2 (FLT_exp (emin F) (prec F)) (bpow radix2 e).
Proof. intros e H. apply generic_format_bpow. unfold FLT_exp. lia. Qed.
Lemma fdbl : forall Y, generic_format radix2 (FLT_exp (emin F) (prec F)) Y -> generic_format radix2 (FLT_exp (emin F) (prec F)) (2 * Y).
Proof.
  intros Y G. assert (PP : Prec_gt_0 (prec F)) by (unfold Prec_gt_0; lia). apply FLT_format_generic in G; auto. destruct G as [f E1 E2 E3]. apply generic_format_FLT. exists (Float radix2 (Fnum f) (Fexp f + 1)); [|exact E2|cbn [Fexp]; lia].
  rewrite E1. unfold F2R. cbn [Fnum Fexp]. rewrite bpow_plus. change (bpow radix2 1) with 2%R. ring.
Qed.
(** Products and quotients of moderate numbers. *)
Lemma mod_bounds : forall z, (bpow radix2 (- 2 * m - 2) <= z <= bpow radix2 (2 * m + 2))%R -> (Rabs (fround F rm z) < bpow radix2 (bias F + 1))%R /\ (Rabs (fround F rm z - z) <= u * z)%R /\ (0 < z)%R.
Proof.
  intros z Hz. pose proof (bpow_gt_0 radix2 (- 2 * m - 2)) as BP. split; [|split; [|lra]].
  - rewrite Rabs_pos_eq. 2: { apply (fround_ge_gen F HF); [apply generic_format_0|lra]. }
    apply Rle_lt_trans with (bpow radix2 (2 * m + 2)); [apply (fround_le_gen F HF); [apply fpow; lia|lra]|apply bpow_lt; lia].
  - rewrite <- (Rabs_pos_eq z) at 3 by lra. apply (rel_n F HF H24). rewrite Rabs_pos_eq by lra. apply Rle_trans with (2 := proj1 Hz). apply bpow_le. lia.
Qed.

Lemma cbrt_core : forall a A, is_real F a A -> (0 < A)%R -> (Rabs (ln A) <= M)%R -> (bpow radix2 (- m) <= exp (ln A / 3) <= bpow radix2 m)%R -> forall zs,
  let y := exp_ (f_div F rm (log_ a) (f_of_Z F rm 3)) in
  let r := f_div F rm (f_add F rm (f_mul F rm (f_of_Z F rm 2) y) (f_div F rm a (f_mul F rm y y))) (f_of_Z F rm 3) in
  exists v, (Rabs (v - exp (ln A / 3)) <= 17 / 10 * u * exp (ln A / 3))%R /\ rounded F rm v zs r.
Proof.
  intros a A Ha HA HlnA Hc zs y r. set (c := exp (ln A / 3)) in *. pose proof (u_pos F rm) as U0. pose proof (u_le F H24 rm) as UL. change (bpow radix2 (-23)) with (/ 8388608)%R in UL.
  assert (C0 : (0 < c)%R) by apply exp_pos. assert (C3 : (c * c * c = A)%R). { unfold c. rewrite <- !exp_plus. replace (ln A / 3 + ln A / 3 + ln A / 3)%R with (ln A) by field. apply exp_ln; auto. }
  assert (P2 : Z.abs 3 <= 2 ^ prec F) by (apply Z.le_trans with (2 ^ 24); [lia|apply Z.pow_le_mono_r; lia]).
  pose proof (ofz_r F HF rm 3 P2) as H3. pose proof (ofz_r F HF rm 2 ltac:(lia)) as H2.
  (* the logarithm *)
  destruct (Hlog a A Ha HA) as (L & HL & EL). set (l := ln A) in *.
  assert (UM : (0 <= u * Rabs l <= u * M)%R) by (pose proof (Rabs_pos l); split; [apply Rmult_le_pos; lra|apply Rmult_le_compat_l; lra]).
  assert (LB : (Rabs L <= M + 1)%R). { replace L with (l + (L - l))%R by ring. apply Rle_trans with (1 := Rabs_triang _ _). lra. }
  assert (MU : (M <= bpow radix2 (bias F - 2))%R).
  { apply Rle_trans with (bpow radix2 (prec F)); [|apply bpow_le; unfold emin, prec in *; lia].
    apply Rmult_le_reg_r with u; auto. apply Rle_trans with (/ 20000)%R; [lra|]. apply Rle_trans with 1%R; [lra|].
    apply Rle_trans with (bpow radix2 (prec F) * bpow radix2 (- prec F))%R; [rewrite <- bpow_plus, Z.add_opp_diag_r; apply Rle_refl|]. apply Rmult_le_compat_l; [apply bpow_ge_0|]. destruct rm; apply bpow_le; lia. }
  assert (QR : is_real F (f_div F rm (log_ a) (f_of_Z F rm 3)) (fround F rm (L / 3))).
  { apply (div_r F HF); [exact HL|exact H3|lra|]. apply Rle_lt_trans with (bpow radix2 (bias F)); [|apply bpow_lt; lia]. apply Rabs_le_inv in LB. pose proof (bpow_ge_0 radix2 (bias F)) as BN.
    assert (BB : (1 + bpow radix2 (bias F - 2) <= bpow radix2 (bias F))%R).
    { replace (bpow radix2 (bias F)) with (4 * bpow radix2 (bias F - 2))%R by (unfold Z.sub; rewrite bpow_plus; change (bpow radix2 (- (2))) with (/ 4)%R; field).
      assert (1 <= bpow radix2 (bias F - 2))%R by (change 1%R with (bpow radix2 0); apply bpow_le; lia). lra. }
    pose proof (fpow (bias F) ltac:(lia)) as GB. apply Rabs_le. split; [apply (fround_ge_gen F HF); [apply generic_format_opp; auto|lra]|apply (fround_le_gen F HF); auto; lra]. }
  set (Q := fround F rm (L / 3)) in *. set (eta := bpow radix2 (emin F)).
  assert (ET : (0 <= eta <= / 1000000 * u)%R) by (split; [apply bpow_ge_0|apply (eta_le F H24 Hem)]).
  assert (UU : (u * (u * Rabs l) <= / 8388608 * (u * Rabs l))%R) by (apply Rmult_le_compat_r; lra).
  assert (EQ : (Rabs (Q - l / 3) <= 0.88 * (u * M) + eta)%R).
  { pose proof (rel_e F HF H24 rm (L / 3)) as K. fold Q eta in K.
    assert (K2 : (Rabs (L / 3) <= Rabs l / 3 * (1 + 1.6 * u))%R).
    { unfold Rdiv at 1. rewrite Rabs_mult, (Rabs_pos_eq (/ 3)) by lra. apply Rabs_le_inv in EL. assert (Rabs L <= Rabs l * (1 + 1.6 * u))%R; [|lra].
      replace L with (l + (L - l))%R by ring. apply Rle_trans with (1 := Rabs_triang _ _). assert (Rabs (L - l) <= 1.6 * u * Rabs l)%R by (apply Rabs_le; lra). lra. }
    assert (K3 : (u * Rabs (L / 3) <= u * (Rabs l / 3 * (1 + 1.6 * u)))%R) by (apply Rmult_le_compat_l; lra).
    replace (Q - l / 3)%R with ((Q - L / 3) + (L - l) / 3)%R by field. apply Rle_trans with (1 := Rabs_triang _ _). unfold Rdiv at 2. rewrite (Rabs_mult (L - l)), (Rabs_pos_eq (/ 3)) by lra. lra. }
  assert (MUs : (0 <= u * M <= / 20000)%R) by lra.
  (* the exponential *)
  destruct (Hexp _ Q QR) as (Y & HY & EY).
  { replace Q with (l / 3 + (Q - l / 3))%R by ring. apply Rle_trans with (1 := Rabs_triang _ _). unfold Rdiv at 1. rewrite Rabs_mult, (Rabs_pos_eq (/ 3)) by lra. lra. }
  fold y in HY.
  set (eps := (Q - l / 3)%R) in *. assert (EQc : exp Q = (c * exp eps)%R) by (unfold c; rewrite <- exp_plus; f_equal; unfold eps; ring).
  assert (EX : (Rabs (exp eps - 1) <= 1.001 * Rabs eps)%R).
  { apply Rabs_le_inv in EQ. assert (B : (- / 10000 <= eps <= / 10000)%R) by lra.
    assert (B2 : (0 <= Rabs eps <= / 10000)%R) by (split; [apply Rabs_pos|apply Rabs_le; lra]). clear - B. pose proof (exp_ineq1_le eps) as E1. pose proof (exp_ineq1_le (- eps)) as E2. rewrite exp_Ropp in E2.
    pose proof (exp_pos eps) as EP. assert (E3 : (exp eps * (1 - eps) <= 1)%R). { apply Rmult_le_reg_r with (/ exp eps)%R; [apply Rinv_0_lt_compat; auto|]. rewrite (Rmult_comm (exp eps)), Rmult_assoc, Rinv_r by lra. lra. }
    assert (E4 : (exp eps - 1 <= 1.001 * Rabs eps)%R).
    { assert ((exp eps - 1) * (1 - eps) <= eps)%R by lra. destruct (Rle_lt_dec eps 0).
      - assert (exp eps - 1 <= 0)%R by nra. pose proof (Rabs_pos eps). lra.
      - rewrite Rabs_pos_eq by lra. assert (0 <= exp eps - 1)%R by lra. nra. }
    apply Rabs_le. split; [|exact E4]. unfold Rabs. destruct (Rcase_abs eps); lra. }
  assert (DY : (Rabs (Y - c) <= (M + 2) * u * c)%R).
  { rewrite EQc in EY. replace (Y - c)%R with ((Y - c * exp eps) + c * (exp eps - 1))%R by ring. apply Rle_trans with (1 := Rabs_triang _ _). rewrite (Rabs_mult c), (Rabs_pos_eq c) by lra.
    assert (X1 : (exp eps <= 1.001)%R) by (apply Rabs_le_inv in EX, EQ; assert (Rabs eps <= / 10000)%R by (apply Rabs_le; lra); lra).
    assert (X2 : (c * Rabs (exp eps - 1) <= c * (1.001 * (0.88 * (u * M) + eta)))%R) by (apply Rmult_le_compat_l; lra).
    assert (X3 : (1.3 * u * (c * exp eps) <= 1.3 * u * (c * 1.001))%R) by (apply Rmult_le_compat_l; [lra|apply Rmult_le_compat_l; lra]).
    assert (X4 : (c * eta <= c * (/ 1000000 * u))%R) by (apply Rmult_le_compat_l; lra). assert (X5 : (0 <= c * (u * M))%R) by (apply Rmult_le_pos; lra). assert (X6 : (0 <= c * u)%R) by (apply Rmult_le_pos; lra). lra. }
  destruct (as_factor Y c _ C0 DY) as (d & Hd & EYd). assert (Hd' : (Rabs d <= / 10000)%R) by lra.
  assert (Hdd : (d * d <= u / 500)%R).
  { rewrite <- (Rabs_pos_eq (d * d)) by nra. rewrite Rabs_mult. apply Rle_trans with ((M + 2) * u * ((M + 2) * u))%R; [apply Rmult_le_compat; auto; apply Rabs_pos|].
    replace ((M + 2) * u * ((M + 2) * u))%R with ((M + 2) * (M + 2) * u * u)%R by ring. apply Rle_trans with (/ 500 * u)%R; [apply Rmult_le_compat_r; lra|lra]. }
  apply Rabs_le_inv in Hd'. assert (Y0 : (0.999 * c <= Y <= 1.001 * c)%R) by (rewrite EYd; nra).
  assert (bm : (bpow radix2 (- 2 * m - 2) * 4 = bpow radix2 (- m) * bpow radix2 (- m))%R). { rewrite <- bpow_plus. change 4%R with (bpow radix2 2). rewrite <- bpow_plus. f_equal. lia. }
  assert (bM : (bpow radix2 (2 * m + 2) = 4 * (bpow radix2 m * bpow radix2 m))%R). { rewrite <- bpow_plus. change 4%R with (bpow radix2 2). rewrite <- bpow_plus. f_equal. lia. }
  pose proof (bpow_gt_0 radix2 (- m)) as bm0. assert (bm1 : (bpow radix2 (- m) <= 1)%R) by (change 1%R with (bpow radix2 0); apply bpow_le; lia). assert (bM1 : (1 <= bpow radix2 m)%R) by (change 1%R with (bpow radix2 0); apply bpow_le; lia).
  assert (ccl : (bpow radix2 (- m) * bpow radix2 (- m) <= c * c)%R) by (apply Rmult_le_compat; lra). assert (ccu : (c * c <= bpow radix2 m * bpow radix2 m)%R) by (apply Rmult_le_compat; lra).
  assert (bml : (bpow radix2 (- m) * bpow radix2 (- m) <= bpow radix2 (- m))%R) by (rewrite <- (Rmult_1_r (bpow radix2 (- m))) at 3; apply Rmult_le_compat_l; lra).
  assert (bMl : (bpow radix2 m <= bpow radix2 m * bpow radix2 m)%R) by (rewrite <- (Rmult_1_r (bpow radix2 m)) at 1; apply Rmult_le_compat_l; lra).
  (* the square *)
  assert (YYb : (0.998 * (c * c) <= Y * Y <= 1.003 * (c * c))%R).
  { split; [apply Rle_trans with ((0.999 * c) * (0.999 * c))%R; [nra|apply Rmult_le_compat; nra]|apply Rle_trans with ((1.001 * c) * (1.001 * c))%R; [apply Rmult_le_compat; nra|nra]]. }
  destruct (mod_bounds (Y * Y)) as (B1 & E1 & Z1); [lra|]. pose proof (mul_r F HF rm y y Y Y HY HY B1) as HS. destruct (as_factor _ _ _ Z1 E1) as (e1 & He1 & Ee1). set (S := fround F rm (Y * Y)) in *.
  assert (Hs1 : (-0.001 <= e1 <= 0.001)%R) by (apply Rabs_le_inv in He1; lra).
  assert (S0 : (0.99 * (c * c) <= S <= 1.01 * (c * c))%R) by (rewrite Ee1; nra). assert (cc0 : (0 < c * c)%R) by nra.
  (* the quotient *)
  assert (QB : (0.98 * c <= A / S <= 1.02 * c)%R).
  { split.
    - apply Rmult_le_reg_r with S; [lra|]. replace (A / S * S)%R with A by (field; lra). rewrite <- C3. apply Rle_trans with (0.98 * c * (1.01 * (c * c)))%R; [apply Rmult_le_compat_l; lra|]. assert (0 < c * (c * c))%R by nra. lra.
    - apply Rmult_le_reg_r with S; [lra|]. replace (A / S * S)%R with A by (field; lra). rewrite <- C3. apply Rle_trans with (1.02 * c * (0.99 * (c * c)))%R; [|apply Rmult_le_compat_l; lra]. assert (0 < c * (c * c))%R by nra. lra. }
  destruct (mod_bounds (A / S)) as (B2 & E2 & Z2); [lra|]. pose proof (div_r F HF rm _ _ _ _ Ha HS ltac:(lra) B2) as HQ. destruct (as_factor _ _ _ Z2 E2) as (e2 & He2 & Ee2). set (q := fround F rm (A / S)) in *.
  assert (Hs2 : (-0.001 <= e2 <= 0.001)%R) by (apply Rabs_le_inv in He2; lra). assert (q0 : (0.97 * c <= q <= 1.03 * c)%R) by (rewrite Ee2; nra).
  (* twice y, exactly *)
  assert (HT : is_real F (f_mul F rm (f_of_Z F rm 2) y) (2 * Y)).
  { apply (mul_x F HF rm _ _ 2 Y); auto.
    - apply fdbl. apply (real_fmt F HF) with y. exact HY.
    - rewrite Rabs_pos_eq by lra. apply Rle_lt_trans with (bpow radix2 (2 * m + 2)); [lra|apply bpow_lt; lia]. }
  destruct (mod_bounds (2 * Y + q)) as (B3 & E3 & Z3); [lra|]. pose proof (add_r F HF rm _ _ _ _ HT HQ B3) as HA3. destruct (as_factor _ _ _ Z3 E3) as (e3 & He3 & Ee3). set (s := fround F rm (2 * Y + q)) in *.
  assert (s0 : (0 < s)%R) by (rewrite Ee3; apply Rmult_lt_0_compat; [lra|apply Rabs_le_inv in He3; lra]).
  exists (s / 3)%R. split.
  - replace (s / 3 - c)%R with (c * ((2 * (1 + d) + 1 / ((1 + d) * (1 + d) * (1 + e1)) * (1 + e2)) * (1 + e3) / 3 - 1))%R.
    2: { rewrite Ee3, Ee2, Ee1, EYd, <- C3. field. repeat split; try lra. }
    rewrite Rabs_mult, (Rabs_pos_eq c) by lra. rewrite (Rmult_comm (17 / 10 * u)). apply Rmult_le_compat_l; [lra|]. apply newton_num; auto; [lra|apply Rabs_le; lra].
  - destruct HA3 as (P3 & F3 & V3). destruct H3 as (P33 & F33 & V33). pose proof (f_div_spec F HF rm _ _ F3 F33 ltac:(lra)) as K. rewrite V3, V33 in K. eapply rounded_sgn; [exact K|]. lra.
Qed.
End Root.

Lemma cube_root_exp : forall r A, (0 < A)%R -> (r * r * r = A)%R -> r = exp (ln A / 3).
Proof.
  intros r A HA H. assert (R0 : (0 < r)%R). { destruct (Rlt_le_dec 0 r); auto. exfalso. assert (0 <= r * r)%R by nra. nra. }
  rewrite <- H. rewrite !ln_mult by nra. replace ((ln r + ln r + ln r) / 3)%R with (ln r) by field. symmetry. apply exp_ln. auto.
Qed.
Lemma cbrt_odd : forall F rm e l x, good_fmt F -> el F <= 16 -> is_pattern F x -> is_nan F x = false -> sign_of F x = false -> cbrt_impl F rm e l (f_neg F x) = f_neg F (cbrt_impl F rm e l x).
Proof.
  intros F rm e l x HF Hel P N S. unfold cbrt_impl. destruct (f_neg_props F HF x P) as (Pn & Mn & Sn & _).
  rewrite !(fp_is_nan_eq F HF Hel), !(fp_is_inf_eq F HF Hel), !(fp_is_zero_eq F HF), !(fp_sign_eq F HF), !(abs_eq F HF Hel) by auto.
  unfold is_nan, is_inf in *. rewrite Mn, Sn, S, N. cbn [negb]. destruct (mag_of F x =? inf_mag F); [reflexivity|]. destruct (mag_of F x =? 0); reflexivity.
Qed.
Lemma cbrt_special : forall F rm e l x, good_fmt F -> el F <= 16 -> is_pattern F x -> is_nan F x = true \/ is_inf F x = true \/ mag_of F x = 0 -> cbrt_impl F rm e l x = x.
Proof.
  intros F rm e l x HF Hel P H. unfold cbrt_impl. rewrite !(fp_is_nan_eq F HF Hel), !(fp_is_inf_eq F HF Hel), !(fp_is_zero_eq F HF) by auto.
  destruct H as [H|[H|H]]; rewrite H, ?Z.eqb_refl; destruct (is_nan F x); try reflexivity; destruct (is_inf F x); reflexivity.
Qed.

(** The body on a positive finite argument. *)
Lemma cbrt_body : forall F rm e l x, good_fmt F -> el F <= 16 -> is_pattern F x -> is_fin F x = true -> (0 < fval F x)%R -> cbrt_impl F rm e l x =
  let y := e (f_div F rm (l x) (f_of_Z F rm 3)) in f_div F rm (f_add F rm (f_mul F rm (f_of_Z F rm 2) y) (f_div F rm x (f_mul F rm y y))) (f_of_Z F rm 3).
Proof.
  intros F rm e l x HF Hel P Fi H0. unfold cbrt_impl. rewrite (fp_is_nan_eq F HF Hel), (fp_is_inf_eq F HF Hel), (fp_is_zero_eq F HF), (fp_sign_eq F HF), (abs_eq F HF Hel) by auto.
  rewrite (fin_nan F x Fi), (fin_inf F x Fi). pose proof (sign_fval F HF x Fi ltac:(lra)) as S. rewrite Rlt_bool_false in S by lra. rewrite S.
  assert (M : mag_of F x <> 0) by (intros K; apply (proj2 (fval_zero F HF x Fi)) in K; lra). apply Z.eqb_neq in M. rewrite M.
  replace (mag_of F x) with x; [reflexivity|]. rewrite (pattern_split F HF x P) at 1. rewrite S. reflexivity.
Qed.
(** The exact result of a rounding close to a number. *)
Lemma rounded_rel : forall F rm v w k b zs, good_fmt F -> 24 <= prec F -> rounded F rm v zs b -> (0 < Rabs w)%R -> (Rabs (v - w) <= k * Rabs w)%R -> (0 <= k <= / 100)%R ->
  (bpow radix2 (emin F + prec F) <= Rabs w <= bpow radix2 (bias F - 1))%R -> 4 <= bias F -> exists L, is_real F b L /\ (Rabs (L - w) <= (k + uF F rm * (1 + k)) * Rabs w)%R.
Proof.
  intros F rm v w k b zs HF H24 (P & _ & V & _) W0 H Hk HB B4. pose proof (u_pos F rm) as U0. pose proof (u_le F H24 rm) as UL. change (bpow radix2 (-23)) with (/ 8388608)%R in UL.
  assert (VL : (Rabs v <= (1 + k) * Rabs w)%R). { replace v with (w + (v - w))%R by ring. apply Rle_trans with (1 := Rabs_triang _ _). lra. }
  assert (VG : (/ 2 * Rabs w <= Rabs v)%R). { assert (Rabs w <= Rabs v + Rabs (w - v))%R. { replace w with (v + (w - v))%R at 1 by ring. apply Rabs_triang. } rewrite (Rabs_minus_sym w v) in H0. assert (k * Rabs w <= / 100 * Rabs w)%R by (apply Rmult_le_compat_r; lra). lra. }
  assert (NB : (bpow radix2 (emin F + prec F - 1) <= Rabs v)%R). { apply Rle_trans with (2 := VG). replace (bpow radix2 (emin F + prec F - 1)) with (/ 2 * bpow radix2 (emin F + prec F))%R by (unfold Z.sub; rewrite (bpow_plus radix2 (emin F + prec F)); change (bpow radix2 (- (1))) with (/ 2)%R; field). lra. }
  pose proof (rel_n F HF H24 rm v NB) as E. assert (UV : (uF F rm * Rabs v <= uF F rm * ((1 + k) * Rabs w))%R) by (apply Rmult_le_compat_l; lra).
  assert (KW : (k * Rabs w <= / 100 * Rabs w)%R) by (apply Rmult_le_compat_r; lra). assert (UW : (uF F rm * ((1 + k) * Rabs w) <= / 8388608 * ((1 + k) * Rabs w))%R) by (apply Rmult_le_compat_r; [apply Rmult_le_pos|]; lra).
  assert (FB : (Rabs (fround F rm v) < bpow radix2 (bias F + 1))%R).
  { replace (fround F rm v) with (v + (fround F rm v - v))%R by ring. apply Rle_lt_trans with (1 := Rabs_triang _ _).
    replace (bpow radix2 (bias F + 1)) with (4 * bpow radix2 (bias F - 1))%R. 2: { change 4%R with (bpow radix2 2). rewrite <- bpow_plus. f_equal. lia. } pose proof (bpow_gt_0 radix2 (bias F - 1)). lra. }
  destruct (V FB) as (Fb & Vb). exists (fround F rm v). split; [split; auto|]. replace (fround F rm v - w)%R with ((fround F rm v - v) + (v - w))%R by ring. apply Rle_trans with (1 := Rabs_triang _ _). lra.
Qed.

Lemma ln_bp : forall k, ln (bpow radix2 k) = (IZR k * ln 2)%R.
Proof. intros k. rewrite <- Rpower2_Z. unfold Rpower. apply ln_exp. Qed.
Lemma ln_mono : forall a b, (0 < a)%R -> (a <= b)%R -> (ln a <= ln b)%R.
Proof. intros a b H [K| ->]; [left; apply ln_increasing; auto|right; reflexivity]. Qed.
Lemma ln_range : forall F a A M, good_fmt F -> is_real F a A -> (0 < A)%R -> (IZR (bias F + 1) * ln 2 <= M)%R -> (IZR (- emin F) * ln 2 <= M)%R -> (Rabs (ln A) <= M)%R.
Proof.
  intros F a A M HF (P & Fi & V) HA H1 H2. pose proof (fin_bound F HF a Fi) as B. rewrite V, Rabs_pos_eq in B by lra.
  apply Rabs_le. split.
  - assert (bpow radix2 (emin F) <= A)%R by (apply (generic_format_ge_bpow radix2 (FLT_exp (emin F) (prec F))); [intros e; unfold FLT_exp; lia|auto|rewrite <- V; apply (fval_format F HF)]). assert (ln (bpow radix2 (emin F)) <= ln A)%R by (apply ln_mono; [apply bpow_gt_0|auto]). rewrite ln_bp in H0. rewrite opp_IZR in H2. lra.
  - assert (ln A < ln (bpow radix2 (bias F + 1)))%R by (apply ln_increasing; auto). rewrite ln_bp in H. lra.
Qed.

Lemma exp_mon : forall a b, (a <= b)%R -> (exp a <= exp b)%R.
Proof. intros a b [K| ->]; [left; apply exp_increasing; auto|right; reflexivity]. Qed.
(** The root of a number of the format is moderate. *)
Lemma root_range : forall l m, (0.693 <= ln 2 <= 0.6932)%R -> (Rabs l <= 2 * IZR m)%R -> (bpow radix2 (- m) <= exp (l / 3) <= bpow radix2 m)%R.
Proof.
  intros l m L2 H. apply Rabs_le_inv in H. assert (E : forall k, bpow radix2 k = exp (IZR k * ln 2)) by (intros k; rewrite <- ln_bp, exp_ln by apply bpow_gt_0; reflexivity).
  assert (M0 : (0 <= IZR m)%R) by lra. assert (M1 : (0.693 * IZR m <= IZR m * ln 2)%R) by (rewrite Rmult_comm; apply Rmult_le_compat_l; lra).
  rewrite !E, opp_IZR. split; apply exp_mon; lra.
Qed.

Section Inst.
Context (F : fmt) (HF : good_fmt F) (H24 : 24 <= prec F) (Hem : emin F <= - 2 * prec F) (Hb : 12 <= bias F) (Hel : el F <= 16) (rm : rmode).
Notation u := (uF F rm).
Lemma log_real : forall a A v b zs, is_real F a A -> (0 < A)%R -> A <> 1%R -> (bpow radix2 (emin F + prec F) <= Rabs (ln A) <= 1000)%R ->
  (Rabs (v - ln A) <= / 2 * u * Rabs (ln A))%R -> rounded F rm v zs b -> exists L, is_real F b L /\ (Rabs (L - ln A) <= 1.6 * u * Rabs (ln A))%R.
Proof.
  intros a A v b zs Ha HA N1 LB EV RV. pose proof (u_pos F rm) as U0. pose proof (u_le F H24 rm) as UL. change (bpow radix2 (-23)) with (/ 8388608)%R in UL. pose proof (bpow_gt_0 radix2 (emin F + prec F)) as BP.
  destruct (rounded_rel F rm v (ln A) (/ 2 * u) b zs HF H24 RV) as (L & HL & EL); [lra|exact EV|lra| |lia|].
  - split; [lra|]. apply Rle_trans with (bpow radix2 11); [change (bpow radix2 11) with 2048%R; lra|apply bpow_le; lia].
  - exists L. split; auto. assert (UA : (0 <= u * Rabs (ln A))%R) by (apply Rmult_le_pos; lra). assert (UUA : (u * (u * Rabs (ln A)) <= / 8388608 * (u * Rabs (ln A)))%R) by (apply Rmult_le_compat_r; lra). lra.
Qed.
Lemma exp_real : forall Q v b zs, (bpow radix2 (emin F + prec F) <= exp Q <= bpow radix2 (bias F - 1))%R -> (Rabs (v - exp Q) <= 0.26 * u * exp Q)%R -> rounded F rm v zs b ->
  exists Y, is_real F b Y /\ (Rabs (Y - exp Q) <= 1.3 * u * exp Q)%R.
Proof.
  intros Q v b zs LB EV RV. pose proof (u_pos F rm) as U0. pose proof (u_le F H24 rm) as UL. change (bpow radix2 (-23)) with (/ 8388608)%R in UL. pose proof (bpow_gt_0 radix2 (emin F + prec F)) as BP.
  assert (EA : Rabs (exp Q) = exp Q) by (apply Rabs_pos_eq; lra).
  destruct (rounded_rel F rm v (exp Q) (0.26 * u) b zs HF H24 RV) as (L & HL & EL); rewrite ?EA; [lra|exact EV|lra|exact LB|lia|].
  exists L. split; auto. rewrite EA in EL. assert (UA : (0 <= u * exp Q)%R) by (apply Rmult_le_pos; lra). assert (UUA : (u * (u * exp Q) <= / 8388608 * (u * exp Q))%R) by (apply Rmult_le_compat_r; lra). lra.
Qed.
End Inst.

Theorem cbrt_d_accuracy : forall rm x r zs, is_pattern D x -> is_fin D x = true -> (0 < fval D x)%R -> (r * r * r = fval D x)%R ->
  exists v, (Rabs (v - r) <= 17 / 10 * uF D rm * r)%R /\ rounded D rm v zs (cbrt_d rm x).
Proof.
  intros rm x r zs P Fi H0 Hr. unfold cbrt_d. rewrite (cbrt_body D rm _ _ x good64 ltac:(vm_compute; congruence) P Fi H0). rewrite (cube_root_exp _ _ H0 Hr).
  assert (L2 : (0.693 <= ln 2 <= 0.6932)%R) by (split; interval with (i_prec 40)).
  assert (U : (0 < uF D rm <= / 4503599627370496)%R) by (split; [apply u_pos|destruct rm; cbn [uF]; change (- prec D) with (-53); change (1 - prec D) with (-52); bpn; lra]).
  assert (UR : uF D rm = bp (match rm with RNE => -53 | _ => -52 end)) by (destruct rm; reflexivity).
  assert (HLN : forall a A, is_real D a A -> (0 < A)%R -> (Rabs (ln A) <= 745)%R).
  { intros a A Ha HA. apply (ln_range D a A 745 good64 Ha HA); [change (bias D + 1) with 1024|change (- emin D) with 1074]; lra. }
  set (X := fval D x) in *. assert (Hx : is_real D x X) by (split; auto).
  assert (p24 : 24 <= prec D) by (vm_compute; congruence). assert (pe : emin D <= - 2 * prec D) by (vm_compute; congruence).
  apply (cbrt_core D good64 p24 pe ltac:(vm_compute; congruence) rm (exp_d rm) (log_d rm) 373 745 ltac:(split; [|split]; vm_compute; congruence) ltac:(lra) ltac:(lra) ltac:(lra)); [| |exact Hx|exact H0|exact (HLN x X Hx H0)|].
  - intros a A Ha HA. pose proof (HLN a A Ha HA) as LB. destruct (Req_dec A 1) as [->|N1].
    + exists 0%R. destruct Ha as (Pa & Fa & Va). destruct (log_wrapper_spec D good64 (logd_impl rm) a Pa) as (_ & _ & _ & _ & E & _). unfold log_d. rewrite (E Fa Va). split; [apply (zero_r D good64)|]. rewrite ln_1, Rminus_0_r, Rabs_R0. lra.
    + pose proof Ha as (Pa & Fa & Va). destruct (log_d_accuracy rm a false Pa Fa) as (v & EV & RV); [rewrite Va; auto|rewrite Va; auto|]. rewrite Va in EV.
      pose proof (ln_ge_d a A ltac:(split; auto) HA N1) as LG. assert (BB : (bp (emin D + prec D) <= bp (-54))%R) by (apply bpow_le; vm_compute; congruence).
      apply (log_real D good64 p24 ltac:(vm_compute; congruence) rm a A v _ false); auto; [lra|]. apply Rle_trans with (1 := EV). apply Rmult_le_compat_r; [apply Rabs_pos|]. rewrite UR. change (/ 2)%R with (bp (-1)). rewrite <- bpow_plus. apply bpow_le. destruct rm; lia.
  - intros q Q Hq HQ. destruct (exp_d_gen rm q Q Hq ltac:(lra)) as (v & RV & V0 & _ & EV). specialize (EV ltac:(lra)).
    destruct (root_range (3 * Q) 400 L2) as (Q1 & Q2). { rewrite Rabs_mult, (Rabs_pos_eq 3) by lra. lra. } replace (3 * Q / 3)%R with Q in Q1, Q2 by field.
    apply (exp_real D good64 p24 ltac:(vm_compute; congruence) rm Q v _ false); auto.
    + split; [apply Rle_trans with (2 := Q1)|apply Rle_trans with (1 := Q2)]; apply bpow_le; vm_compute; congruence.
    + apply Rle_trans with (1 := EV). assert (TT : (bp (-1124) <= bp (-100) * bp (- (400)))%R) by (rewrite <- bpow_plus; apply bpow_le; lia).
      assert (T2 : (bp (-100) * bp (- (400)) <= bp (-100) * exp Q)%R) by (apply Rmult_le_compat_l; [apply bpow_ge_0|exact Q1]).
      assert (T3 : (bp (eD rm) + bp (-100) <= 0.26 * uF D rm)%R).
      { rewrite UR. destruct rm; cbn [eD]; bpn; lra. }
      assert (T4 : ((bp (eD rm) + bp (-100)) * exp Q <= 0.26 * uF D rm * exp Q)%R) by (apply Rmult_le_compat_r; [left; apply exp_pos|exact T3]). lra.
  - apply root_range; auto. pose proof (HLN x X Hx H0). lra.
Qed.

Theorem cbrtf_accuracy : forall rm x r zs, is_pattern F32 x -> is_fin F32 x = true -> (0 < fval F32 x)%R -> (r * r * r = fval F32 x)%R ->
  exists v, (Rabs (v - r) <= 17 / 10 * uF F32 rm * r)%R /\ rounded F32 rm v zs (cbrtf rm x).
Proof.
  intros rm x r zs P Fi H0 Hr. unfold cbrtf. rewrite (cbrt_body F32 rm _ _ x good32 ltac:(vm_compute; congruence) P Fi H0). rewrite (cube_root_exp _ _ H0 Hr).
  assert (L2 : (0.693 <= ln 2 <= 0.6932)%R) by (split; interval with (i_prec 40)).
  assert (U : (0 < uF F32 rm <= / 8388608)%R) by (split; [apply u_pos|destruct rm; cbn [uF]; change (- prec F32) with (-24); change (1 - prec F32) with (-23); bpn; lra]).
  assert (UR : uF F32 rm = bp (match rm with RNE => -24 | _ => -23 end)) by (destruct rm; reflexivity).
  assert (HLN : forall a A, is_real F32 a A -> (0 < A)%R -> (Rabs (ln A) <= 103.4)%R).
  { intros a A Ha HA. apply (ln_range F32 a A 103.4 good32 Ha HA); [change (bias F32 + 1) with 128|change (- emin F32) with 149]; lra. }
  set (X := fval F32 x) in *. assert (Hx : is_real F32 x X) by (split; auto).
  assert (p24 : 24 <= prec F32) by (vm_compute; congruence). assert (pe : emin F32 <= - 2 * prec F32) by (vm_compute; congruence).
  apply (cbrt_core F32 good32 p24 pe ltac:(vm_compute; congruence) rm (expf rm) (logf rm) 52 103.4 ltac:(split; [|split]; vm_compute; congruence) ltac:(lra) ltac:(lra) ltac:(lra)); [| |exact Hx|exact H0|exact (HLN x X Hx H0)|].
  - intros a A Ha HA. pose proof (HLN a A Ha HA) as LB. destruct (Req_dec A 1) as [->|N1].
    + exists 0%R. destruct Ha as (Pa & Fa & Va). destruct (log_wrapper_spec F32 good32 (logf_impl rm) a Pa) as (_ & _ & _ & _ & E & _). unfold logf. rewrite (E Fa Va). split; [apply (zero_r F32 good32)|]. rewrite ln_1, Rminus_0_r, Rabs_R0. lra.
    + pose proof Ha as (Pa & Fa & Va). destruct (logf_accuracy rm a false Pa Fa) as (v & EV & RV); [rewrite Va; auto|rewrite Va; auto|]. rewrite Va in EV.
      pose proof (ln_ge a A ltac:(split; auto) HA N1) as LG. assert (BB : (bp (emin F32 + prec F32) <= bp (-25))%R) by (apply bpow_le; vm_compute; congruence).
      apply (log_real F32 good32 p24 ltac:(vm_compute; congruence) rm a A v _ false); auto; [lra|]. apply Rle_trans with (1 := EV). apply Rmult_le_compat_r; [apply Rabs_pos|]. rewrite UR. change (/ 2)%R with (bp (-1)). rewrite <- bpow_plus. apply bpow_le. destruct rm; lia.
  - intros q Q Hq HQ. pose proof (Rabs_le_inv _ _ HQ) as HQ'. pose proof Hq as (Pq & Fq & Vq). destruct (expf_accuracy rm q Pq Fq) as (v & EV & RV). { rewrite Vq. unfold Xlo, Xhi. bpn. lra. } rewrite Vq in EV.
    destruct (root_range (3 * Q) 60 L2) as (Q1 & Q2). { rewrite Rabs_mult, (Rabs_pos_eq 3) by lra. lra. } replace (3 * Q / 3)%R with Q in Q1, Q2 by field.
    apply (exp_real F32 good32 p24 ltac:(vm_compute; congruence) rm Q v _ false); auto.
    + split; [apply Rle_trans with (2 := Q1)|apply Rle_trans with (1 := Q2)]; apply bpow_le; vm_compute; congruence.
    + apply Rle_trans with (1 := EV). apply Rmult_le_compat_r; [left; apply exp_pos|]. rewrite UR. destruct rm; bpn; lra.
  - apply root_range; auto. pose proof (HLN x X Hx H0). lra.
Qed.
