(** * acos and asin: the error of the kernels *)
From Coq Require Import ZArith Lia List Bool Reals Lra Ratan.
From Flocq Require Import Core Mult_error.
From Interval Require Import Tactic.
From Verif Require Import MachInt Fmt FloatSpec FmtProofs RoundProofs FPBits FPBitsProofs FOps FOpsProofs ExactOps Compare CompareProofs ExtFloatSpec ExtFloatProofs ExtInterp FmanipWide RemProofs ErrLib Exp2fProofs ExpoFWrap Expm1Proofs Expm1Wrap HypotProofs Log1pWrap Sqrt SqrtProofs SinPoly InvTrig InvNum InvPoly.
Import ListNotations.
Open Scope Z_scope.
Notation bp := (bpow radix2).

Section Acc.
Context (F : fmt) (HF : good_fmt F) (Hel : 3 <= el F <= 16) (H24 : 24 <= prec F) (H53 : prec F <= 53) (Hem : emin F <= - 5 * prec F) (Hb : 4 <= bias F) (k : nat) (Hk : width F = 2 ^ Z.of_nat k) (rm : rmode).
Local Notation u := (uF F rm).
Local Notation eta := (bpow radix2 (emin F)).
Let Hem2 : emin F <= - 2 * prec F. Proof. lia. Qed.

Lemma u_lo : (bp (-53) <= u)%R.
Proof. destruct rm; cbn [uF]; apply bpow_le; lia. Qed.
Lemma etax : forall X, (bp (-2 * prec F) <= Rabs X)%R -> (eta <= / 1000000 * u * Rabs X)%R.
Proof.
  intros X H. apply Rle_trans with (/ 1000000 * u * bp (-2 * prec F))%R.
  - assert (E : (eta <= bp (- 20) * bp (- prec F) * bp (- 2 * prec F))%R) by (rewrite <- !bpow_plus; apply bpow_le; lia).
    assert (U : (bp (- prec F) <= u)%R) by (destruct rm; cbn [uF]; apply bpow_le; lia). pose proof (bpow_gt_0 radix2 (- prec F)) as P. pose proof (bpow_gt_0 radix2 (-2 * prec F)) as P2.
    assert (B : (bp (-20) <= / 1000000)%R) by (bpn; lra).
    apply Rle_trans with (1 := E). apply Rmult_le_compat_r; [lra|]. apply Rmult_le_compat; try lra. apply bpow_ge_0.
  - apply Rmult_le_compat_l; [|exact H]. pose proof (u_pos F rm). lra.
Qed.
Lemma etac : forall X, (/ 281474976710656 <= Rabs X)%R -> (eta <= / 1000000 * u * Rabs X)%R.
Proof. intros X H. apply etax. apply Rle_trans with (2 := H). change (/ 281474976710656)%R with (bp (-48)). apply bpow_le. lia. Qed.
Lemma lt_r : forall a b A B, is_real F a A -> is_real F b B -> f_lt F a b = Rlt_bool A B.
Proof. intros a b A B (_ & Fa & <-) (_ & Fb & <-). apply (f_lt_fin F HF); auto. Qed.
Lemma le_r : forall a b A B, is_real F a A -> is_real F b B -> f_le F a b = Rle_bool A B.
Proof. intros a b A B (_ & Fa & <-) (_ & Fb & <-). apply (f_le_fin F HF); auto. Qed.
Lemma eq_r : forall a b A B, is_real F a A -> is_real F b B -> f_eq F a b = Req_bool A B.
Proof. intros a b A B (_ & Fa & <-) (_ & Fb & <-). apply (f_eq_fin F HF); auto. Qed.
Lemma gt_r : forall a b A B, is_real F a A -> is_real F b B -> f_gt F a b = Rlt_bool B A.
Proof. intros a b A B (_ & Fa & <-) (_ & Fb & <-). apply (f_gt_fin F HF); auto. Qed.
Lemma abs_rl : forall a A, is_real F a A -> is_real F (cc_abs F a) (Rabs A).
Proof. intros a A (P & Fa & <-). apply (abs_r F HF Hel); auto. Qed.
Lemma neg_r : forall a A, is_real F a A -> is_real F (f_neg F a) (- A).
Proof. exact (neg_rl F HF). Qed.
Lemma mul_e : forall a b A B M, is_real F a A -> is_real F b B -> (Rabs (A * B) <= M)%R -> (M <= 4)%R -> exists V, is_real F (f_mul F rm a b) V /\ (Rabs (V - A * B) <= u * M + eta)%R.
Proof.
  intros a b A B M Ha Hb' H HM. destruct (mul_s F HF H24 Hem2 Hb rm _ _ _ _ Ha Hb') as (V & RV & EV); [lra|]. exists V. split; [exact RV|]. pose proof (u_pos F rm).
  assert (u * Rabs (A * B) <= u * M)%R by (apply Rmult_le_compat_l; lra). lra.
Qed.
Lemma add_e : forall a b A B M, is_real F a A -> is_real F b B -> (Rabs (A + B) <= M)%R -> (M <= 4)%R -> exists V, is_real F (f_add F rm a b) V /\ (Rabs (V - (A + B)) <= u * M + eta)%R.
Proof.
  intros a b A B M Ha Hb' H HM. destruct (add_s F HF H24 Hem2 Hb rm _ _ _ _ Ha Hb') as (V & RV & EV); [lra|]. exists V. split; [exact RV|]. pose proof (u_pos F rm).
  assert (u * Rabs (A + B) <= u * M)%R by (apply Rmult_le_compat_l; lra). lra.
Qed.
Lemma sub_e : forall a b A B M, is_real F a A -> is_real F b B -> (Rabs (A - B) <= M)%R -> (M <= 4)%R -> exists V, is_real F (f_sub F rm a b) V /\ (Rabs (V - (A - B)) <= u * M + eta)%R.
Proof.
  intros a b A B M Ha Hb' H HM. exists (fround F rm (A - B)). split; [apply (sub_r F HF); auto; apply (small_big F HF H24 Hem2 Hb); lra|].
  pose proof (rel_e F HF H24 rm (A - B)). pose proof (u_pos F rm). assert (u * Rabs (A - B) <= u * M)%R by (apply Rmult_le_compat_l; lra). lra.
Qed.
Lemma sqrt_e : forall w W, is_real F w W -> (0 < W <= 4)%R -> exists s T, cc_sqrt F rm w = Some s /\ is_real F s T /\ (0 <= T)%R /\ (Rabs (T - sqrt W) <= u * sqrt W + eta)%R.
Proof.
  intros w W (P & Fi & V) HW. assert (S : sign_of F w = false). { rewrite (sign_fval F HF) by (auto; rewrite V; lra). rewrite V. apply Rlt_bool_false. lra. }
  destruct (cc_sqrt_fin F HF Hel rm k _ Hk P Fi S) as (s & E & RS). rewrite V in RS. assert (B : (0 <= sqrt W <= 4)%R).
  { split; [apply sqrt_pos|]. replace 4%R with (sqrt 16) by (replace 16%R with (4 * 4)%R by ring; apply sqrt_square; lra). apply sqrt_le_1_alt. lra. }
  destruct RS as (Ps & _ & Vs & _). destruct (Vs (small_big F HF H24 Hem2 Hb rm (sqrt W) ltac:(rewrite Rabs_pos_eq; lra))) as (Fs & VS).
  exists s, (fround F rm (sqrt W)). split; [exact E|]. split; [split; auto|]. split.
  - apply (fround_ge_gen F HF); [apply generic_format_0|lra].
  - pose proof (rel_e F HF H24 rm (sqrt W)) as K. rewrite (Rabs_pos_eq (sqrt W)) in K by lra. exact K.
Qed.
Lemma zc : is_real F (cst F 0 0) 0. Proof. pose proof (cst_x F HF H24 Hem2 Hb 0 0) as H. rewrite Rmult_0_l in H. apply H; try lia. rewrite Rabs_R0; lra. Qed.
Lemma hc : is_real F (cst F 1 (-1)) (/ 2). Proof. pose proof (cst_x F HF H24 Hem2 Hb 1 (-1)) as H. replace (IZR 1 * bp (-1))%R with (/ 2)%R in H by (bpn; lra). apply H; try lia. apply Rabs_le; lra. Qed.
Lemma mhc : is_real F (cst F (-1) (-1)) (- / 2). Proof. pose proof (cst_x F HF H24 Hem2 Hb (-1) (-1)) as H. replace (IZR (-1) * bp (-1))%R with (- / 2)%R in H by (bpn; lra). apply H; try lia. apply Rabs_le; lra. Qed.
Lemma oc : is_real F (cst F 1 0) 1. Proof. pose proof (cst_x F HF H24 Hem2 Hb 1 0) as H. replace (IZR 1 * bp 0)%R with 1%R in H by (bpn; lra). apply H; try lia. apply Rabs_le; lra. Qed.
Lemma tc : is_real F (cst F 2 0) 2. Proof. pose proof (cst_x F HF H24 Hem2 Hb 2 0) as H. replace (IZR 2 * bp 0)%R with 2%R in H by (bpn; lra). apply H; try lia. apply Rabs_le; lra. Qed.
Lemma c10 : is_real F (cst F 1 (-10)) (/ 1024). Proof. pose proof (cst_x F HF H24 Hem2 Hb 1 (-10)) as H. replace (IZR 1 * bp (-10))%R with (/ 1024)%R in H by (bpn; lra). apply H; try lia. apply Rabs_le; lra. Qed.
Lemma c14 : is_real F (cst F 1 (-14)) (/ 16384). Proof. pose proof (cst_x F HF H24 Hem2 Hb 1 (-14)) as H. replace (IZR 1 * bp (-14))%R with (/ 16384)%R in H by (bpn; lra). apply H; try lia. apply Rabs_le; lra. Qed.

(** the square of x and the polynomial at it *)
Lemma poly_x : forall x X, is_real F x X -> (/ 16384 <= Rabs X <= / 2)%R -> exists Q R, is_real F (f_mul F rm x x) Q /\ is_real F (asin_eval F rm (f_mul F rm x x)) R /\
  (Rabs (Q - X * X) <= 1.0001 * u * (X * X))%R /\ (Rabs (R - rr (X * X)) <= 0.84 * u)%R /\ (/ 300000000 <= X * X <= / 4)%R.
Proof.
  intros x X Hx BX. destruct (ueta F H24 Hem2 rm) as (U & E). assert (XX : (/ 300000000 <= X * X <= / 4)%R).
  { rewrite <- (Rabs_pos_eq (X * X)) by nra. rewrite Rabs_mult. pose proof (Rabs_pos X). nra. }
  destruct (mul_e x x X X (X * X) Hx Hx) as (Q & RQ & EQ); [rewrite Rabs_pos_eq; lra|lra|].
  assert (EE : (eta <= 0.0001 * u * (X * X))%R).
  { pose proof (etac (X * X)) as EX. rewrite Rabs_pos_eq in EX by lra. specialize (EX ltac:(lra)). assert (0 <= u * (X * X))%R by (apply Rmult_le_pos; lra). lra. }
  assert (EQ' : (Rabs (Q - X * X) <= 1.0001 * u * (X * X))%R) by lra. assert (B : (u * (X * X) <= u * / 4)%R) by (apply Rmult_le_compat_l; lra). assert (B2 : (u * (X * X) <= / 8000000 * (X * X))%R) by (apply Rmult_le_compat_r; lra).
  pose proof EQ' as EI. apply Rabs_le_inv in EI.
  destruct (asin_eval_e F HF H24 Hem2 Hb rm _ Q RQ) as (R & RR & ER); [lra|]. exists Q, R. do 3 (split; [assumption|]). split; [|exact XX].
  pose proof (rr_lip Q (X * X) ltac:(lra) ltac:(lra)) as L. replace (R - rr (X * X))%R with ((R - rr Q) + (rr Q - rr (X * X)))%R by ring. pose proof (Rabs_triang (R - rr Q) (rr Q - rr (X * X))). lra.
Qed.
Lemma half_u : (/ 18014398509481984 <= / 2 * u)%R.
Proof. pose proof u_lo as L. bpn_in L. lra. Qed.
Lemma asin_mid : forall x X, is_real F x X -> (/ 16384 <= Rabs X <= / 2)%R -> exists V, 
  is_real F (f_add F rm x (f_mul F rm (f_mul F rm x (f_mul F rm x x)) (asin_eval F rm (f_mul F rm x x)))) V /\ (Rabs (V - asin X) <= 1.92 * u * Rabs X)%R.
Proof.
  intros x X Hx BX. destruct (ueta F H24 Hem2 rm) as (U & E). destruct (poly_x x X Hx BX) as (Q & R & RQ & RR & EQ & ER & XX).
  pose proof (etac X ltac:(lra)) as EA. set (a := Rabs X) in *. set (q := (X * X)%R) in *. pose proof (rr_b q ltac:(lra)) as BR.
  assert (UQ : (u * q <= u * / 4)%R) by (apply Rmult_le_compat_l; lra). assert (U2 : (u * q <= / 8000000 * q)%R) by (apply Rmult_le_compat_r; lra).
  assert (BQ : (Rabs Q <= 0.25001)%R). { replace Q with ((Q - q) + q)%R by ring. pose proof (Rabs_triang (Q - q) q). rewrite (Rabs_pos_eq q) in * by lra. lra. }
  assert (BRR : (Rabs R <= 0.1908)%R). { replace R with ((R - rr q) + rr q)%R by ring. pose proof (Rabs_triang (R - rr q) (rr q)). rewrite (Rabs_pos_eq (rr q)) in * by lra. lra. }
  assert (A0 : (0 < a <= / 2)%R) by lra. assert (AX : (Rabs X <= a)%R) by (unfold a; lra).
  pose proof (rm_le _ _ _ _ AX BQ) as B1. destruct (mul_e _ _ X Q _ Hx RQ B1) as (T1 & RT1 & ET1); [lra|].
  assert (UA : (0 < u * a)%R) by (apply Rmult_lt_0_compat; lra).
  assert (E1 : (Rabs (T1 - X * q) <= 0.5002 * (u * a))%R).
  { replace (T1 - X * q)%R with ((T1 - X * Q) + X * (Q - q))%R by ring. assert (EQ4 : (Rabs (Q - q) <= 0.250025 * u)%R) by lra. pose proof (rm_le _ _ _ _ AX EQ4). pose proof (Rabs_triang (T1 - X * Q) (X * (Q - q))). lra. }
  assert (Bq : (Rabs q <= / 4)%R) by (rewrite Rabs_pos_eq; lra). pose proof (rm_le _ _ _ _ AX Bq) as BXq. assert (U3 : (u * a <= / 8000000 * a)%R) by (apply Rmult_le_compat_r; lra).
  assert (BT1 : (Rabs T1 <= 0.25001 * a)%R). { replace T1 with ((T1 - X * q) + X * q)%R by ring. pose proof (Rabs_triang (T1 - X * q) (X * q)). lra. }
  pose proof (rm_le _ _ _ _ BT1 BRR) as B2. destruct (mul_e _ _ T1 R _ RT1 RR B2) as (T2 & RT2 & ET2); [lra|].
  assert (E2 : (Rabs (T2 - X * q * rr q) <= 0.36 * (u * a))%R).
  { replace (T2 - X * q * rr q)%R with ((T2 - T1 * R) + ((T1 - X * q) * R + X * q * (R - rr q)))%R by ring. pose proof (rm_le _ _ _ _ E1 BRR). pose proof (rm_le _ _ _ _ BXq ER).
    pose proof (Rabs_triang (T2 - T1 * R) ((T1 - X * q) * R + X * q * (R - rr q))). pose proof (Rabs_triang ((T1 - X * q) * R) (X * q * (R - rr q))). lra. }
  assert (Brr : (Rabs (rr q) <= 0.1907)%R) by (rewrite Rabs_pos_eq; lra). pose proof (rm_le _ _ _ _ BXq Brr) as BP.
  assert (B3 : (Rabs (X + T2) <= 1.048 * a)%R). { replace (X + T2)%R with (X + ((T2 - X * q * rr q) + X * q * rr q))%R by ring. pose proof (Rabs_triang X ((T2 - X * q * rr q) + X * q * rr q)). pose proof (Rabs_triang (T2 - X * q * rr q) (X * q * rr q)). lra. }
  destruct (add_e _ _ X T2 _ Hx RT2 B3) as (V & RV & EV); [lra|]. exists V. split; [exact RV|].
  pose proof (num_asin X ltac:(fold a; lra)) as N. fold a in N. pose proof half_u as HU. assert (NN : (/ 18014398509481984 * a <= / 2 * u * a)%R) by (apply Rmult_le_compat_r; lra).
  replace (V - asin X)%R with ((V - (X + T2)) + ((T2 - X * q * rr q) + (pa X - asin X)))%R by (unfold pa, q; ring).
  pose proof (Rabs_triang (V - (X + T2)) ((T2 - X * q * rr q) + (pa X - asin X))). pose proof (Rabs_triang (T2 - X * q * rr q) (pa X - asin X)). lra.
Qed.
Lemma asin_tiny : forall x X, is_real F x X -> (Rabs X <= / 16384)%R -> exists V, 
  is_real F (f_add F rm x (f_mul F rm (f_mul F rm (f_mul F rm x x) x) (cst F 0x15555555555555 (-55)))) V /\ (Rabs (V - asin X) <= 1.11 * u * Rabs X + 3 * eta)%R.
Proof.
  intros x X Hx BX. destruct (ueta F H24 Hem2 rm) as (U & E). assert (XX : (0 <= X * X <= / 268435456)%R). { rewrite <- (Rabs_pos_eq (X * X)) by nra. rewrite Rabs_mult. pose proof (Rabs_pos X). nra. }
  destruct (cst_r F HF H24 Hem2 Hb rm 0x15555555555555 (-55)) as (C & RC & EC); [apply Rabs_le; bpn; lra|].
  assert (C6 : (Rabs (IZR 0x15555555555555 * bp (-55) - / 6) <= / 10000000000000000)%R) by (apply Rabs_le; bpn; lra). assert (CB : (Rabs (IZR 0x15555555555555 * bp (-55)) <= 0.1667)%R) by (apply Rabs_le; bpn; lra).
  set (c := (IZR 0x15555555555555 * bp (-55))%R) in *. clearbody c. assert (UC : (u * Rabs c <= u * 0.1667)%R) by (apply Rmult_le_compat_l; lra).
  pose proof u_lo as UL. bpn_in UL.
  assert (EC' : (Rabs (C - / 6) <= 1.2 * u)%R). { replace (C - / 6)%R with ((C - c) + (c - / 6))%R by ring. pose proof (Rabs_triang (C - c) (c - / 6)). lra. }
  assert (BC : (Rabs C <= 0.167)%R). { replace C with ((C - / 6) + / 6)%R by ring. pose proof (Rabs_triang (C - / 6) (/ 6)). rewrite (Rabs_pos_eq (/ 6)) in * by lra. lra. }
  set (a := Rabs X) in *. set (q := (X * X)%R) in *. assert (A0 : (0 <= a)%R) by apply Rabs_pos. assert (Bq : (Rabs q <= / 268435456)%R) by (rewrite Rabs_pos_eq; lra). assert (AX : (Rabs X <= a)%R) by (unfold a; lra).
  assert (UA : (0 <= u * a)%R) by (apply Rmult_le_pos; lra). assert (U3 : (u * a <= / 8000000 * a)%R) by (apply Rmult_le_compat_r; lra).
  destruct (mul_e x x X X (/ 268435456) Hx Hx) as (T1 & R1_ & E1); [exact Bq|lra|]. fold q in E1.
  assert (BT1 : (Rabs T1 <= 0.000001)%R). { replace T1 with ((T1 - q) + q)%R by ring. pose proof (Rabs_triang (T1 - q) q). lra. }
  pose proof (rm_le _ _ _ _ BT1 AX) as B2. destruct (mul_e _ _ T1 X _ R1_ Hx B2) as (T2 & R2_ & E2); [lra|].
  assert (BT2 : (Rabs T2 <= 0.000002 * a + eta)%R). { replace T2 with ((T2 - T1 * X) + T1 * X)%R by ring. pose proof (Rabs_triang (T2 - T1 * X) (T1 * X)). lra. }
  assert (E2' : (Rabs (T2 - q * X) <= 0.000003 * (u * a) + 1.001 * eta)%R).
  { replace (T2 - q * X)%R with ((T2 - T1 * X) + (T1 - q) * X)%R by ring. assert (E1' : (Rabs (T1 - q) <= 0.00000101 * u)%R) by lra. pose proof (rm_le _ _ _ _ E1' AX). pose proof (Rabs_triang (T2 - T1 * X) ((T1 - q) * X)). lra. }
  pose proof (rm_le _ _ _ _ BT2 BC) as B3. destruct (mul_e _ _ T2 C _ R2_ RC B3) as (T3 & R3_ & E3); [lra|].
  pose proof (rm_le _ _ _ _ Bq AX) as BqX.
  assert (UE : (u * eta <= / 8000000 * eta)%R) by (apply Rmult_le_compat_r; lra).
  assert (E3' : (Rabs (T3 - q * X / 6) <= 0.001 * (u * a) + 1.5 * eta)%R).
  { replace (T3 - q * X / 6)%R with ((T3 - T2 * C) + ((T2 - q * X) * C + q * X * (C - / 6)))%R by field. pose proof (rm_le _ _ _ _ E2' BC). pose proof (rm_le _ _ _ _ BqX EC').
    pose proof (Rabs_triang (T3 - T2 * C) ((T2 - q * X) * C + q * X * (C - / 6))). pose proof (Rabs_triang ((T2 - q * X) * C) (q * X * (C - / 6))). lra. }
  assert (B4 : (Rabs (X + T3) <= 1.001 * a + 2 * eta)%R).
  { replace (X + T3)%R with (X + ((T3 - q * X / 6) + q * X / 6))%R by ring. pose proof (Rabs_triang X ((T3 - q * X / 6) + q * X / 6)). pose proof (Rabs_triang (T3 - q * X / 6) (q * X / 6)).
    assert (Rabs (q * X / 6) <= 0.0001 * a)%R. { unfold Rdiv. rewrite Rabs_mult, (Rabs_pos_eq (/ 6)) by lra. lra. } lra. }
  destruct (add_e _ _ X T3 _ Hx R3_ B4) as (V & RV & EV); [lra|]. exists V. split; [exact RV|].
  pose proof (tiny_asin X ltac:(fold a; lra)) as N. fold a in N. assert (NN : (/ 100000000000000000 * a <= 0.1 * u * a)%R) by (apply Rmult_le_compat_r; lra).
  replace (V - asin X)%R with ((V - (X + T3)) + ((T3 - q * X / 6) + (X + X * X * X / 6 - asin X)))%R by (unfold q; field).
  pose proof (Rabs_triang (V - (X + T3)) ((T3 - q * X / 6) + (X + X * X * X / 6 - asin X))). pose proof (Rabs_triang (T3 - q * X / 6) (X + X * X * X / 6 - asin X)). lra.
Qed.

(** ** acos *)
Context (K : R) (HK1 : is_real F (k_pi_over_2 F) K) (HK2 : is_real F (k_pi F) (2 * K)) (HKe : (Rabs (K - PI / 2) <= 0.74 * u)%R).
Lemma pib : (1.5707 <= PI / 2 <= 1.5708)%R. Proof. split; interval with (i_prec 40). Qed.
Lemma acos_tiny : forall x X, is_real F x X -> (Rabs X <= / 1024)%R -> exists V, 
  is_real F (f_add F rm (k_pi_over_2 F) (mad F rm (f_mul F rm (cst F (-0x15555555555555) (-55)) x) (f_mul F rm x x) (f_neg F x))) V /\ (Rabs (V - acos X) <= 3 * u)%R.
Proof.
  intros x X Hx BX. destruct (ueta F H24 Hem2 rm) as (U & E). assert (XX : (0 <= X * X <= / 1048576)%R). { rewrite <- (Rabs_pos_eq (X * X)) by nra. rewrite Rabs_mult. pose proof (Rabs_pos X). nra. }
  destruct (cst_r F HF H24 Hem2 Hb rm (-0x15555555555555) (-55)) as (C & RC & EC); [apply Rabs_le; bpn; lra|].
  assert (C6 : (Rabs (IZR (-0x15555555555555) * bp (-55) + / 6) <= / 10000000000000000)%R) by (apply Rabs_le; bpn; lra). assert (CB : (Rabs (IZR (-0x15555555555555) * bp (-55)) <= 0.1667)%R) by (apply Rabs_le; bpn; lra).
  set (c := (IZR (-0x15555555555555) * bp (-55))%R) in *. clearbody c. assert (UC : (u * Rabs c <= u * 0.1667)%R) by (apply Rmult_le_compat_l; lra).
  pose proof u_lo as UL. bpn_in UL.
  assert (EC' : (Rabs (C + / 6) <= 1.2 * u)%R). { replace (C + / 6)%R with ((C - c) + (c + / 6))%R by ring. pose proof (Rabs_triang (C - c) (c + / 6)). lra. }
  assert (BC : (Rabs C <= 0.167)%R). { replace C with ((C + / 6) + - / 6)%R by ring. pose proof (Rabs_triang (C + / 6) (- / 6)). rewrite Rabs_Ropp, (Rabs_pos_eq (/ 6)) in * by lra. lra. }
  set (q := (X * X)%R) in *. assert (Bq : (Rabs q <= / 1048576)%R) by (rewrite Rabs_pos_eq; lra).
  pose proof (rm_le _ _ _ _ BC BX) as B1. destruct (mul_e _ _ C X _ RC Hx B1) as (P1 & RP1 & EP1); [lra|].
  destruct (mul_e x x X X (/ 1048576) Hx Hx) as (P2 & RP2 & EP2); [exact Bq|lra|]. fold q in EP2.
  assert (EP1' : (Rabs (P1 - - / 6 * X) <= 0.002 * u)%R). { replace (P1 - - / 6 * X)%R with ((P1 - C * X) + (C + / 6) * X)%R by ring. pose proof (rm_le _ _ _ _ EC' BX). pose proof (Rabs_triang (P1 - C * X) ((C + / 6) * X)). lra. }
  assert (B6 : (Rabs (- / 6 * X) <= 0.0002)%R). { rewrite Rabs_mult, Rabs_Ropp, (Rabs_pos_eq (/ 6)) by lra. lra. }
  assert (BP1 : (Rabs P1 <= 0.0003)%R) by (pose proof (tri _ _ _ _ EP1' B6); lra). assert (EP2' : (Rabs (P2 - q) <= 0.0001 * u)%R) by lra.
  assert (BP2 : (Rabs P2 <= 0.0001)%R) by (pose proof (tri _ _ _ _ EP2' Bq); lra).
  pose proof (neg_r _ _ Hx) as HN. 
  destruct (ma_e F HF H24 Hem2 Hb rm _ _ _ P1 P2 (- X) (- / 6 * X) q (- X) 0.0003 0.0001 0.001 (/ 1048576) (0.002 * u) (0.0001 * u) (0 * u) 0.0012 RP1 RP2 HN) as (T & RT & ET); try assumption; try lra.
  { rewrite Rminus_eq_0, Rabs_R0. lra. } { rewrite Rabs_Ropp. lra. }
  assert (BT' : (Rabs (- / 6 * X * q + - X) <= 0.00098)%R). { pose proof (rm_le _ _ _ _ B6 Bq). pose proof (Rabs_triang (- / 6 * X * q) (- X)). rewrite (Rabs_Ropp X) in *. lra. }
  pose proof (tri _ _ _ _ ET BT') as BT. pose proof pib as PB. pose proof HKe as KE. apply Rabs_le_inv in KE.
  assert (BK : (Rabs (K + T) <= 1.572)%R). { pose proof (Rabs_triang K T). rewrite (Rabs_pos_eq K) in * by lra. lra. }
  destruct (add_e _ _ K T _ HK1 RT BK) as (V & RV & EV); [lra|]. exists V. split; [exact RV|].
  pose proof (small_asin X BX) as N. apply Rabs_le_inv in BX. rewrite acos_asin by lra.
  replace (V - (PI / 2 - asin X))%R with ((V - (K + T)) + ((T - (- / 6 * X * q + - X)) + ((K - PI / 2) + - (X + X * X * X / 6 - asin X))))%R by (unfold q; field).
  pose proof (Rabs_triang (V - (K + T)) ((T - (- / 6 * X * q + - X)) + ((K - PI / 2) + - (X + X * X * X / 6 - asin X)))). pose proof (Rabs_triang (T - (- / 6 * X * q + - X)) ((K - PI / 2) + - (X + X * X * X / 6 - asin X))).
  pose proof (Rabs_triang (K - PI / 2) (- (X + X * X * X / 6 - asin X))) as T3. rewrite Rabs_Ropp in T3. lra.
Qed.
Lemma acos_mid : forall x X, is_real F x X -> (/ 1024 <= Rabs X <= / 2)%R -> exists V, 
  is_real F (mad F rm (f_neg F (f_mul F rm x (f_mul F rm x x))) (asin_eval F rm (f_mul F rm x x)) (f_sub F rm (k_pi_over_2 F) x)) V /\ (Rabs (V - acos X) <= 3.2 * u * acos X)%R.
Proof.
  intros x X Hx BX. destruct (ueta F H24 Hem2 rm) as (U & E). destruct (poly_x x X Hx) as (Q & R & RQ & RR & EQ & ER & XX); [lra|].
  set (q := (X * X)%R) in *. pose proof (rr_b q ltac:(lra)) as BR. assert (AX : (Rabs X <= / 2)%R) by lra.
  assert (UQ : (u * q <= u * / 4)%R) by (apply Rmult_le_compat_l; lra). assert (U2 : (u * q <= / 8000000 * q)%R) by (apply Rmult_le_compat_r; lra).
  assert (BQ : (Rabs Q <= 0.25001)%R). { replace Q with ((Q - q) + q)%R by ring. pose proof (Rabs_triang (Q - q) q). rewrite (Rabs_pos_eq q) in * by lra. lra. }
  assert (Brr : (Rabs (rr q) <= 0.1907)%R) by (rewrite Rabs_pos_eq; lra).
  assert (BRR : (Rabs R <= 0.1908)%R) by (pose proof (tri _ _ _ _ ER Brr); lra).
  pose proof (rm_le _ _ _ _ AX BQ) as B1. destruct (mul_e _ _ X Q _ Hx RQ B1) as (T1 & RT1 & ET1); [lra|].
  assert (E1 : (Rabs (- T1 - - (X * q)) <= 0.2502 * u)%R).
  { replace (- T1 - - (X * q))%R with (- ((T1 - X * Q) + X * (Q - q)))%R by ring. rewrite Rabs_Ropp. assert (EQ4 : (Rabs (Q - q) <= 0.250025 * u)%R) by lra. pose proof (rm_le _ _ _ _ AX EQ4). pose proof (Rabs_triang (T1 - X * Q) (X * (Q - q))). lra. }
  assert (Bq : (Rabs q <= / 4)%R) by (rewrite Rabs_pos_eq; lra). pose proof (rm_le _ _ _ _ AX Bq) as BXq. rewrite <- Rabs_Ropp in BXq.
  assert (BT1 : (Rabs (- T1) <= 0.1251)%R) by (pose proof (tri _ _ _ _ E1 BXq); lra). pose proof pib as PB. pose proof HKe as KE. apply Rabs_le_inv in KE.
  pose proof AX as AX'. apply Rabs_le_inv in AX'. 
  set (A := acos X). assert (HA : (1.04 <= A /\ 0 <= PI / 2 - X <= A + 0.0237)%R).
  { unfold A. rewrite acos_asin by lra. destruct (Rle_lt_dec 0 X) as [L|L].
    - pose proof (asin_ge X ltac:(lra)). pose proof (asin_hi X ltac:(lra)). lra.
    - pose proof (asin_ge (- X) ltac:(lra)). pose proof (asin_hi (- X) ltac:(lra)). rewrite asin_opp in *. lra. }
  destruct HA as (A0 & A1).
  pose proof (sub_r F HF rm _ _ _ _ HK1 Hx (small_big F HF H24 Hem2 Hb rm (K - X) ltac:(apply Rabs_le; lra))) as RS. pose proof (rel_e F HF H24 rm (K - X)) as ES. rewrite (Rabs_pos_eq (K - X)) in ES by lra. set (S := fround F rm (K - X)) in *. clearbody S.
  pose proof (Rabs_le_inv _ _ ES) as ES'.
  assert (UK : (u * (K - X) <= u * (A + 0.0238))%R) by (apply Rmult_le_compat_l; lra). assert (UK2 : (u * (K - X) <= / 8000000 * (K - X))%R) by (apply Rmult_le_compat_r; lra).
  pose proof (neg_r _ _ RT1) as RN1. pose proof (rm_le _ _ _ _ BT1 BRR) as B2. destruct (mul_e _ _ (- T1) R _ RN1 RR B2) as (T2 & RT2 & ET2); [lra|].
  assert (E2 : (Rabs (T2 - - (X * q) * rr q) <= 0.178 * u)%R).
  { replace (T2 - - (X * q) * rr q)%R with ((T2 - - T1 * R) + ((- T1 - - (X * q)) * R + - (X * q) * (R - rr q)))%R by ring. pose proof (rm_le _ _ _ _ E1 BRR). pose proof (rm_le _ _ _ _ BXq ER).
    pose proof (Rabs_triang (T2 - - T1 * R) ((- T1 - - (X * q)) * R + - (X * q) * (R - rr q))). pose proof (Rabs_triang ((- T1 - - (X * q)) * R) (- (X * q) * (R - rr q))). lra. }
  assert (EP : (Rabs (pa X - asin X) <= 0.25 * u)%R). { pose proof (num_asin X AX) as N. pose proof half_u as HU. assert (/ 18014398509481984 * Rabs X <= / 2 * u * / 2)%R by (apply Rmult_le_compat; lra). lra. }
  assert (E3 : (Rabs (T2 + S - A) <= (A + 1.2) * u)%R).
  { unfold A at 1. rewrite acos_asin by lra. replace (T2 + S - (PI / 2 - asin X))%R with ((T2 - - (X * q) * rr q) + ((S - (K - X)) + ((K - PI / 2) + - (pa X - asin X))))%R by (unfold pa, q; ring).
    pose proof (Rabs_triang (T2 - - (X * q) * rr q) ((S - (K - X)) + ((K - PI / 2) + - (pa X - asin X)))). pose proof (Rabs_triang (S - (K - X)) ((K - PI / 2) + - (pa X - asin X))).
    pose proof (Rabs_triang (K - PI / 2) (- (pa X - asin X))) as T3. rewrite (Rabs_Ropp (pa X - asin X)) in T3. lra. }
  assert (AM : (A <= 2.2)%R). { unfold A. rewrite acos_asin by lra. destruct (Rle_lt_dec 0 X) as [L|L]; [pose proof (asin_ge X ltac:(lra)); lra|]. pose proof (asin_hi (- X) ltac:(lra)). rewrite asin_opp in *. lra. }
  assert (UA : (u * A <= u * 2.2)%R) by (apply Rmult_le_compat_l; lra). assert (UA1 : (u * 1.04 <= u * A)%R) by (apply Rmult_le_compat_l; lra). pose proof (Rabs_le_inv _ _ E3) as E3'.
  assert (BS : (Rabs (T2 + S) <= A + 3.5 * u)%R) by (apply Rabs_le; lra).
  destruct (add_e _ _ T2 S _ RT2 RS BS) as (V & RV & EV); [lra|]. exists V. split; [exact RV|].
  assert (UU : (u * u <= / 8000000 * u)%R) by (apply Rmult_le_compat_r; lra).
  replace (V - A)%R with ((V - (T2 + S)) + (T2 + S - A))%R by ring. pose proof (Rabs_triang (V - (T2 + S)) (T2 + S - A)). lra.
Qed.
Lemma acos_w : forall x X, is_real F x X -> (/ 2 <= X < 1)%R -> is_real F (mad F rm (cst F (-1) (-1)) x (cst F 1 (-1))) ((1 - X) / 2) /\ (bp (- prec F - 1) <= (1 - X) / 2)%R.
Proof.
  intros x X Hx BX. destruct (multF F X (-1) (real_fmt F HF _ _ Hx)) as (m & Em); [lia|rewrite Rabs_pos_eq by lra; bpn; lra|].
  replace (-1 - prec F + 1) with (- prec F) in Em by ring.
  assert (H2 : (bp (- prec F) = 2 * bp (- prec F - 1))%R). { replace (- prec F) with ((- prec F - 1) + 1) at 1 by ring. rewrite bpow_plus. change (bp 1) with 2%R. ring. }
  assert (H1 : (1 = IZR (2 ^ prec F) * bp (- prec F))%R). { replace (IZR (2 ^ prec F)) with (bp (prec F)) by (symmetry; apply (IZR_Zpower radix2); lia). rewrite <- bpow_plus. replace (prec F + - prec F) with 0 by ring. reflexivity. }
  pose proof (bpow_gt_0 radix2 (- prec F - 1)) as BP0.
  assert (EW : ((1 - X) / 2 = IZR (2 ^ prec F - m) * bp (- prec F - 1))%R). { rewrite minus_IZR. rewrite Em, H1 at 1. rewrite H2. field. }
  assert (EM : (- / 2 * X = IZR (- m) * bp (- prec F - 1))%R). { rewrite opp_IZR. rewrite Em, H2. field. }
  assert (PB : (bp (- prec F - 1 + prec F) = / 2)%R) by (replace (- prec F - 1 + prec F) with (-1) by ring; bpn; lra).
  assert (BB : forall z, (Rabs z <= 1)%R -> (Rabs z < bpow radix2 (bias F + 1))%R). { intros z Hz. apply Rle_lt_trans with (1 := Hz). change 1%R with (bp 0). apply bpow_lt. lia. }
  assert (G1 : generic_format radix2 (FLT_exp (emin F) (prec F)) (- / 2 * X)). { rewrite EM. apply (gfxF F H24); [lia|]. rewrite <- EM, PB. apply Rabs_def1; lra. }
  assert (G2 : generic_format radix2 (FLT_exp (emin F) (prec F)) ((1 - X) / 2)). { rewrite EW. apply (gfxF F H24); [lia|]. rewrite <- EW, PB. apply Rabs_def1; lra. }
  split.
  - unfold mad. assert (R1_ : is_real F (f_mul F rm (cst F (-1) (-1)) x) (- / 2 * X)). { apply (mul_x F HF rm _ _ (- / 2) X); auto; [apply mhc|]. apply BB. apply Rabs_le. lra. }
    apply (add_x F HF rm _ _ (- / 2 * X) (/ 2)); auto; [apply hc|field|]. apply BB. apply Rabs_le. lra.
  - rewrite EW. rewrite <- (Rmult_1_l (bp (- prec F - 1))) at 1. apply Rmult_le_compat_r; [lra|]. apply IZR_le. assert (0 < 2 ^ prec F - m); [|lia]. apply lt_IZR. apply Rmult_lt_reg_r with (bp (- prec F - 1)); [lra|]. rewrite <- EW. lra.
Qed.
Lemma acos_pos : forall x X, is_real F x X -> (/ 2 <= X < 1)%R -> exists s V,
  let w := mad F rm (cst F (-1) (-1)) x (cst F 1 (-1)) in cc_sqrt F rm w = Some s /\
  is_real F (mad F rm (f_mul F rm (f_mul F rm (cst F 2 0) s) w) (asin_eval F rm w) (f_mul F rm (cst F 2 0) s)) V /\ (Rabs (V - acos X) <= 2.92 * u * acos X)%R.
Proof.
  intros x X Hx BX. destruct (ueta F H24 Hem2 rm) as (U & E). destruct (acos_w x X Hx BX) as (RW & LW). set (w := mad F rm (cst F (-1) (-1)) x (cst F 1 (-1))) in *.
  set (W := ((1 - X) / 2)%R) in *. assert (BW : (0 < W <= / 4)%R) by (pose proof (bpow_gt_0 radix2 (- prec F - 1)); unfold W in *; lra).
  destruct (sqrt_e w W RW ltac:(lra)) as (s & T & ES & RT & T0 & ET). exists s. set (g := sqrt W) in *.
  assert (G0 : (0 <= g)%R) by apply sqrt_pos. assert (G2 : (g * g = W)%R) by (unfold g; apply sqrt_sqrt; lra). assert (GB : (W <= g <= / 2)%R) by nra.
  assert (GE : (eta <= / 1000000 * u * g)%R). { pose proof (etax g) as EX. rewrite (Rabs_pos_eq g) in EX by lra. apply EX. apply Rle_trans with (2 := proj1 GB). apply Rle_trans with (2 := LW). apply bpow_le. lia. }
  assert (UG : (0 < u * g)%R) by (apply Rmult_lt_0_compat; lra). assert (U3 : (u * g <= / 8000000 * g)%R) by (apply Rmult_le_compat_r; lra).
  pose proof (Rabs_le_inv _ _ ET) as ET'.
  assert (GT : generic_format radix2 (FLT_exp (emin F) (prec F)) (2 * T)).
  { pose proof (VE F HF) as VE'. pose proof (real_fmt F HF _ _ RT) as GT. rewrite Rmult_comm. replace (T * 2)%R with (T * bp 1)%R by (change (bp 1) with 2%R; ring). apply mult_bpow_pos_exact_FLT; [exact GT|lia]. }
  assert (RC : is_real F (f_mul F rm (cst F 2 0) s) (2 * T)). { apply (mul_x F HF rm _ _ 2 T); auto; [apply tc|]. apply Rle_lt_trans with (bp 2); [bpn; rewrite Rabs_pos_eq; lra|apply bpow_lt; lia]. }
  set (C := (2 * T)%R) in *. assert (EC : (Rabs (C - 2 * g) <= 2.0001 * (u * g))%R) by (unfold C; apply Rabs_le; lra). assert (BC : (Rabs C <= 2.0001 * g)%R) by (unfold C; rewrite Rabs_pos_eq; lra). clearbody C.
  destruct (asin_eval_e F HF H24 Hem2 Hb rm w W RW ltac:(lra)) as (R & RR & ER). pose proof (rr_b W ltac:(lra)) as BR.
  assert (Brr : (Rabs (rr W) <= 0.1907)%R) by (rewrite Rabs_pos_eq; lra). assert (BRR : (Rabs R <= 0.1908)%R) by (pose proof (tri _ _ _ _ ER Brr); lra).
  assert (BWa : (Rabs W <= / 4)%R) by (rewrite Rabs_pos_eq; lra).
  pose proof (rm_le _ _ _ _ BC BWa) as B1. destruct (mul_e _ _ C W _ RC RW B1) as (P1 & RP1 & EP1); [lra|].
  assert (BP1 : (Rabs P1 <= 0.5001 * g)%R) by (pose proof (tri _ _ _ _ EP1 B1); lra).
  pose proof (rm_le _ _ _ _ BP1 BRR) as B2. destruct (mul_e _ _ P1 R _ RP1 RR B2) as (P2 & RP2 & EP2); [lra|].
  assert (E2 : (Rabs (P2 - C * W * rr W) <= 0.592 * (u * g))%R).
  { replace (P2 - C * W * rr W)%R with ((P2 - P1 * R) + ((P1 - C * W) * R + C * W * (R - rr W)))%R by ring. pose proof (rm_le _ _ _ _ EP1 BRR). pose proof (rm_le _ _ _ _ B1 ER).
    pose proof (Rabs_triang (P2 - P1 * R) ((P1 - C * W) * R + C * W * (R - rr W))). pose proof (Rabs_triang ((P1 - C * W) * R) (C * W * (R - rr W))). lra. }
  pose proof (rm_le _ _ _ _ B1 Brr) as B3. pose proof (tri _ _ _ _ E2 B3) as BP2.
  assert (BS : (Rabs (P2 + C) <= 2.0961 * g)%R) by (pose proof (Rabs_triang P2 C); lra).
  destruct (add_e _ _ P2 C _ RP2 RC BS) as (V & RV & EV); [lra|]. exists V. cbv zeta. split; [exact ES|]. split; [exact RV|].
  rewrite (acos_half X) by lra. fold W. fold g. assert (AG : (Rabs g = g)%R) by (apply Rabs_pos_eq; lra).
  pose proof (num_asin g ltac:(rewrite AG; lra)) as N. rewrite AG in N. pose proof half_u as HU. assert (NN : (/ 18014398509481984 * g <= / 2 * u * g)%R) by (apply Rmult_le_compat_r; lra).
  pose proof (asin_ge g ltac:(lra)) as AGE. assert (UAG : (u * g <= u * asin g)%R) by (apply Rmult_le_compat_l; lra).
  assert (BF : (Rabs (1 + W * rr W) <= 1.0477)%R). { pose proof (rm_le _ _ _ _ BWa Brr). pose proof (Rabs_triang 1 (W * rr W)). rewrite Rabs_R1 in *. lra. }
  replace (V - 2 * asin g)%R with ((V - (P2 + C)) + ((P2 - C * W * rr W) + ((C - 2 * g) * (1 + W * rr W) + 2 * (pa g - asin g))))%R by (unfold pa; rewrite G2; ring).
  pose proof (rm_le _ _ _ _ EC BF) as T1. pose proof (Rabs_triang (V - (P2 + C)) ((P2 - C * W * rr W) + ((C - 2 * g) * (1 + W * rr W) + 2 * (pa g - asin g)))).
  pose proof (Rabs_triang (P2 - C * W * rr W) ((C - 2 * g) * (1 + W * rr W) + 2 * (pa g - asin g))). pose proof (Rabs_triang ((C - 2 * g) * (1 + W * rr W)) (2 * (pa g - asin g))) as T3. rewrite (Rabs_mult 2), (Rabs_pos_eq 2) in T3 by lra. lra.
Qed.
Lemma acos_le : forall X, (/ 2 <= X <= 1)%R -> (0 <= acos X <= 1.0473)%R.
Proof.
  intros X H. pose proof (acos_bound X) as B. split; [lra|]. rewrite acos_half by lra. set (g := sqrt ((1 - X) / 2)). assert (G0 : (0 <= g)%R) by apply sqrt_pos.
  assert (G2 : (g * g = (1 - X) / 2)%R) by (unfold g; apply sqrt_sqrt; lra). assert (g <= / 2)%R by nra. pose proof (asin_hi g). lra.
Qed.
Theorem acos_fin : forall x X, is_real F x X -> (Rabs X <= 1)%R -> exists a V, acos_impl F rm x = Some a /\ is_real F a V /\ (Rabs (V - acos X) <= 3.3 * u * acos X)%R /\ (/ 2 < X -> Rabs (V - acos X) <= 2.92 * u * acos X)%R.
Proof.
  intros x X Hx BX. destruct (ueta F H24 Hem2 rm) as (U & E). pose proof Hx as (P & Fi & VX). unfold acos_impl. rewrite (fp_is_nan_eq F HF ltac:(lia)), (fp_is_inf_eq F HF ltac:(lia)) by auto. rewrite (fin_nan F), (fin_inf F) by auto.
  pose proof (abs_rl _ _ Hx) as RA. rewrite (gt_r _ _ _ _ RA oc), Rlt_bool_false by lra. rewrite (eq_r _ _ _ _ RA oc). pose proof pib as PB. pose proof HKe as KE. apply Rabs_le_inv in KE.
  destruct (Req_dec (Rabs X) 1) as [E1|N1].
  { rewrite Req_bool_true by exact E1. rewrite (lt_r _ _ _ _ Hx zc). destruct (Rle_lt_dec 0 X) as [L|L].
    - rewrite Rlt_bool_false by exact L. rewrite Rabs_pos_eq in E1 by exact L. exists (cst F 0 0), 0%R. rewrite E1, acos_1. split; [reflexivity|]. split; [exact zc|]. rewrite Rminus_eq_0, Rabs_R0. split; intros; lra.
    - rewrite Rlt_bool_true by exact L. rewrite Rabs_left in E1 by exact L. assert (EX : X = (- (1))%R) by lra. exists (pi_v F), (2 * K)%R. split; [reflexivity|]. split; [exact HK2|]. rewrite EX, acos_opp, acos_1, Rminus_0_r. split; [|intros; lra].
      assert (u * 3 <= u * PI)%R by (apply Rmult_le_compat_l; lra). apply Rabs_le. lra. }
  rewrite Req_bool_false by exact N1. assert (B1 : (Rabs X < 1)%R) by lra. unfold acos_kernel. rewrite (le_r _ _ _ _ RA hc).
  destruct (Rle_lt_dec (Rabs X) (/ 2)) as [L|L].
  - rewrite Rle_bool_true by exact L. rewrite (lt_r _ _ _ _ RA c10). pose proof (Rabs_le_inv _ _ L) as LI. destruct (Rlt_le_dec (Rabs X) (/ 1024)) as [L2|L2].
    + rewrite Rlt_bool_true by exact L2. destruct (acos_tiny x X Hx ltac:(lra)) as (V & RV & EV). eexists _, V. split; [reflexivity|]. split; [exact RV|]. split; [|intros; lra].
      assert (A : (1.5 <= acos X)%R). { apply Rabs_lt_inv in L2. rewrite acos_asin by lra. destruct (Rle_lt_dec 0 X); [pose proof (asin_hi X); lra|pose proof (asin_ge (- X)) as G; rewrite asin_opp in G; lra]. }
      assert (u * 1.5 <= u * acos X)%R by (apply Rmult_le_compat_l; lra). lra.
    + rewrite Rlt_bool_false by exact L2. destruct (acos_mid x X Hx ltac:(lra)) as (V & RV & EV). eexists _, V. split; [reflexivity|]. split; [exact RV|]. split; [|intros; lra].
      pose proof (acos_bound X). assert (0 <= u * acos X)%R by (apply Rmult_le_pos; lra). lra.
  - rewrite Rle_bool_false by exact L. destruct (acos_pos _ _ RA) as (s & V & HS & RV & EV); [lra|]. cbv zeta in HS. cbv zeta. rewrite HS. cbv beta iota. rewrite (lt_r _ _ _ _ Hx zc).
    destruct (Rle_lt_dec 0 X) as [S|S].
    + rewrite Rlt_bool_false by exact S. rewrite (Rabs_pos_eq X) in * by exact S. eexists _, V. split; [reflexivity|]. split; [exact RV|]. pose proof (acos_bound X). assert (0 <= u * acos X)%R by (apply Rmult_le_pos; lra). split; intros; lra.
    + rewrite Rlt_bool_true by exact S. rewrite (Rabs_left X) in * by exact S. pose proof (acos_le (- X) ltac:(lra)) as AB. rewrite acos_opp in *. set (A := acos X) in *. 
      assert (UB : (u * (PI - A) <= u * 1.0473)%R) by (apply Rmult_le_compat_l; lra). assert (UA : (u * 2.0939 <= u * A)%R) by (apply Rmult_le_compat_l; lra). assert (UA2 : (u * A <= u * 3.1417)%R) by (apply Rmult_le_compat_l; lra).
      pose proof (Rabs_le_inv _ _ EV) as EI.
      assert (B2 : (Rabs (2 * K - V) <= A + 5 * u)%R) by (apply Rabs_le; lra). destruct (sub_e _ _ (2 * K) V _ HK2 RV B2) as (Z & RZ & EZ); [lra|]. eexists _, Z. split; [reflexivity|]. split; [exact RZ|]. split; [|intros; lra].
      assert (UU : (u * u <= / 8000000 * u)%R) by (apply Rmult_le_compat_r; lra). apply Rabs_le_inv in EZ. apply Rabs_le. lra.
Qed.
Lemma add_nan : forall a b, is_nan F b = true -> f_add F rm a b = qnan F.
Proof. intros a b H. unfold f_add. rewrite (decode_nan F b H). destruct (decode F a); reflexivity. Qed.
Lemma qn : is_nan F (qnan F) = true. Proof. apply (qnan_props F HF). Qed.
Lemma gt1 : forall x, is_pattern F x -> is_fin F x = true -> (1 < Rabs (fval F x))%R -> acos_impl F rm x = Some (qnan F).
Proof.
  intros x P Fi H. assert (Hx : is_real F x (fval F x)) by (split; auto). unfold acos_impl. rewrite (fp_is_nan_eq F HF ltac:(lia)), (fp_is_inf_eq F HF ltac:(lia)) by auto. rewrite (fin_nan F), (fin_inf F) by auto.
  rewrite (gt_r _ _ _ _ (abs_rl _ _ Hx) oc), Rlt_bool_true by exact H. rewrite add_nan by exact qn. reflexivity.
Qed.
Theorem acos_special : forall x, is_pattern F x -> (is_nan F x = true -> acos_impl F rm x = Some x) /\ (is_inf F x = true -> acos_impl F rm x = Some (qnan F)) /\ (is_fin F x = true -> (1 < Rabs (fval F x))%R -> acos_impl F rm x = Some (qnan F)).
Proof.
  intros x P. split; [|split].
  - intros N. unfold acos_impl. rewrite (fp_is_nan_eq F HF ltac:(lia)), N by auto. reflexivity.
  - intros I. assert (N : is_nan F x = false) by (unfold is_nan, is_inf in *; lia). unfold acos_impl. rewrite (fp_is_nan_eq F HF ltac:(lia)), (fp_is_inf_eq F HF ltac:(lia)), N, I by auto. rewrite add_nan by exact qn. reflexivity.
  - intros Fi H. apply gt1; auto.
Qed.

(** ** asin *)
Context (HM : forall x X, is_real F x X -> (/ 16384 <= Rabs X <= / 2)%R -> exists V, is_real F (asin_small F rm x) V /\ (Rabs (V - asin X) <= 2 * u * Rabs (asin X))%R).
Lemma half_pi : is_real F (f_div F rm (pi_v F) (cst F 2 0)) K.
Proof. apply (div_x F HF rm _ _ (2 * K) 2); [exact HK2|exact tc|lra|field|exact (real_fmt F HF _ _ HK1)|exact (real_bound F HF _ _ HK1)]. Qed.
Theorem asin_fin : forall x X, is_real F x X -> (Rabs X <= 1)%R -> exists a V, asin_impl F rm x = Some a /\ is_real F a V /\
  (Rabs X <= / 2 -> Rabs (V - asin X) <= 2 * u * Rabs (asin X) + 3 * eta)%R /\ (/ 2 < X -> Rabs (V - asin X) <= 9 * u * Rabs (asin X))%R /\ (X < - / 2 -> Rabs (V - asin X) <= 16 * u * Rabs (asin X))%R.
Proof.
  intros x X Hx BX. destruct (ueta F H24 Hem2 rm) as (U & E). unfold asin_impl. rewrite (eq_r _ _ _ _ Hx zc). pose proof (abs_rl _ _ Hx) as RA. pose proof (asin_abs1 X BX) as AA. assert (UA : (u * Rabs X <= u * Rabs (asin X))%R) by (apply Rmult_le_compat_l; lra). pose proof (Rabs_pos X) as AP. assert (UP : (0 <= u * Rabs X)%R) by (apply Rmult_le_pos; lra).
  destruct (Req_dec X 0) as [Z|NZ].
  { rewrite Req_bool_true by exact Z. exists x, X. split; [reflexivity|]. split; [exact Hx|]. rewrite Z, asin_0, Rminus_eq_0, !Rabs_R0. repeat split; intros; lra. }
  rewrite Req_bool_false by exact NZ. rewrite (le_r _ _ _ _ RA hc). destruct (Rle_lt_dec (Rabs X) (/ 2)) as [L|L].
  { rewrite Rle_bool_true by exact L. pose proof (Rabs_le_inv _ _ L) as LI. destruct (Rlt_le_dec (Rabs X) (/ 16384)) as [L2|L2].
    - destruct (asin_tiny x X Hx ltac:(lra)) as (V & RV & EV). exists (asin_small F rm x), V. split; [reflexivity|]. split; [|split; [|split]; intros; lra].
      unfold asin_small. rewrite (lt_r _ _ _ _ RA c14), Rlt_bool_true by exact L2. exact RV.
    - destruct (HM x X Hx ltac:(lra)) as (V & RV & EV). exists (asin_small F rm x), V. split; [reflexivity|]. split; [exact RV|]. split; [|split]; intros; lra. }
  rewrite Rle_bool_false by exact L. destruct (acos_fin x X Hx BX) as (a & V & HA & RV & EV & EV2). rewrite HA. cbv beta iota. pose proof pib as PB. pose proof HKe as KE. apply Rabs_le_inv in KE. pose proof (Rabs_le_inv _ _ BX) as BI.
  rewrite acos_asin in EV, EV2 by lra. set (S := asin X) in *.
  destruct (Rle_lt_dec 0 X) as [SX|SX].
  - rewrite (Rabs_pos_eq X) in * by lra. specialize (EV2 L). pose proof (acos_le X ltac:(lra)) as AB. rewrite acos_asin in AB by lra. fold S in AB.
    rewrite (Rabs_pos_eq S) in * by lra. assert (S0 : (u * 0.5234 <= u * S)%R) by (apply Rmult_le_compat_l; lra). assert (S1 : (u * S <= u * 1.5708)%R) by (apply Rmult_le_compat_l; lra).
    assert (S2 : (u * (PI / 2) <= u * 1.5708)%R) by (apply Rmult_le_compat_l; lra). apply Rabs_le_inv in EV2.
    assert (B : (Rabs (K - V) <= S + 6 * u)%R) by (apply Rabs_le; lra). destruct (sub_e _ _ K V _ half_pi RV B) as (Y & RY & EY); [lra|]. eexists _, Y. split; [reflexivity|]. split; [exact RY|].
    split; [intros; lra|]. split; [|intros; lra]. intros _. assert (UU : (u * u <= / 8000000 * u)%R) by (apply Rmult_le_compat_r; lra). apply Rabs_le_inv in EY. apply Rabs_le. lra.
  - rewrite (Rabs_left X) in * by lra. pose proof (acos_le (- X) ltac:(lra)) as AB. rewrite acos_opp, acos_asin in AB by lra. fold S in AB.
    rewrite (Rabs_left S) in * by lra. assert (S0 : (u * 0.5233 <= u * - S)%R) by (apply Rmult_le_compat_l; lra). assert (S1 : (u * - S <= u * 1.5709)%R) by (apply Rmult_le_compat_l; lra).
    assert (S2 : (u * (PI / 2) <= u * 1.5708)%R) by (apply Rmult_le_compat_l; lra). apply Rabs_le_inv in EV.
    assert (B : (Rabs (K - V) <= - S + 12 * u)%R) by (apply Rabs_le; lra). destruct (sub_e _ _ K V _ half_pi RV B) as (Y & RY & EY); [lra|]. eexists _, Y. split; [reflexivity|]. split; [exact RY|].
    split; [intros; lra|]. split; [intros; lra|]. intros _. assert (UU : (u * u <= / 8000000 * u)%R) by (apply Rmult_le_compat_r; lra). apply Rabs_le_inv in EY. apply Rabs_le. lra.
Qed.
End Acc.
