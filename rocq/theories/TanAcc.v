(** * tan from the sin and cos kernels *)
From Coq Require Import ZArith Lia List Bool Reals Lra.
From Flocq Require Import Core.
From Interval Require Import Tactic.
From Verif Require Import FPBits MachInt Fmt FloatSpec FmtProofs RoundProofs FOps FOpsProofs ExactOps ExtFloatSpec ExtFloatProofs ExtInterp FmanipWide RemProofs ErrLib Exp2fProofs ExpoFWrap Expm1Proofs ExpoData ExpoF Trig PhFin SinNum SinPoly SinRec SinRed SinRedF SinD SinF.
Open Scope Z_scope.

Section Q.
Open Scope R_scope.
Context (u eta eps s c S C T : R) (U : 0 < u <= / 8000000) (E : 0 <= eps <= / 1000000 * Rabs c) (Hc : 0 < Rabs c)
  (HS : Rabs (S - s) <= 13 * u * Rabs s + eps) (HC : Rabs (C - c) <= 13 * u * Rabs c + eps).
Lemma tan_c : 0.99999 * Rabs c <= Rabs C.
Proof. pose proof (Rabs_triang (c - C) C) as H. replace (c - C + C) with c in H by ring. rewrite Rabs_minus_sym in H. nra. Qed.
Lemma tan_q : C <> 0 /\ Rabs (S / C) <= 1.0001 * (Rabs (s / c) + eps / Rabs c) /\ Rabs (S / C - s / c) <= 26.01 * u * Rabs (s / c) + 1.0001 * (eps / Rabs c) * (1 + Rabs (s / c)).
Proof.
  pose proof tan_c as TC. assert (CN : C <> 0). { intros ->. rewrite Rabs_R0 in TC. lra. } assert (cN : c <> 0). { intros ->. rewrite Rabs_R0 in Hc. lra. }
  assert (AC : 0 < Rabs C) by lra. set (t := Rabs (s / c)). assert (As : Rabs s = t * Rabs c). { unfold t, Rdiv. rewrite Rabs_mult, Rabs_inv. field. lra. }
  assert (T0 : 0 <= t) by apply Rabs_pos. assert (IC : / Rabs C <= 1.00002 * / Rabs c).
  { replace (1.00002 * / Rabs c) with (/ (Rabs c / 1.00002)) by (field; lra). apply Rinv_le_contravar; [|lra]. apply Rmult_lt_0_compat; lra. }
  set (k := eps / Rabs c). assert (K0 : 0 <= k) by (apply Rmult_le_pos; [lra|left; apply Rinv_0_lt_compat; lra]). assert (EK : eps = k * Rabs c) by (unfold k; field; lra).
  assert (IC0 : 0 < / Rabs C) by (apply Rinv_0_lt_compat; lra).
  assert (CI : Rabs c * / Rabs C <= 1.00002). { apply Rle_trans with (Rabs c * (1.00002 * / Rabs c)); [apply Rmult_le_compat_l; lra|]. right. field. lra. }
  assert (CI0 : 0 <= Rabs c * / Rabs C) by (apply Rmult_le_pos; lra).
  split; [exact CN|]. assert (UT : 0 <= u * t <= / 8000000 * t) by (split; [apply Rmult_le_pos; lra|apply Rmult_le_compat_r; lra]).
  assert (KT : 0 <= k * t) by (apply Rmult_le_pos; lra).
  assert (D : Rabs (S / C - s / c) <= (26 * u * t + k * (1 + t)) * 1.00002).
  { replace (S / C - s / c) with (((S - s) - (s / c) * (C - c)) * / C) by (field; auto). rewrite Rabs_mult, Rabs_inv.
    assert (N : Rabs ((S - s) - (s / c) * (C - c)) <= (26 * u * t + k * (1 + t)) * Rabs c).
    { pose proof (Rabs_triang (S - s) (- ((s / c) * (C - c)))) as TR. rewrite Rabs_Ropp, Rabs_mult in TR. fold t in TR. unfold Rminus at 1. rewrite As in HS.
      assert (t * Rabs (C - c) <= t * (13 * u * Rabs c + eps)) by (apply Rmult_le_compat_l; lra). rewrite EK in *.
      replace ((26 * u * t + k * (1 + t)) * Rabs c) with (13 * u * (t * Rabs c) + k * Rabs c + t * (13 * u * Rabs c + k * Rabs c)) by ring. lra. }
    apply Rle_trans with ((26 * u * t + k * (1 + t)) * Rabs c * / Rabs C); [apply Rmult_le_compat_r; lra|]. rewrite Rmult_assoc. apply Rmult_le_compat_l; [lra|exact CI]. }
  assert (D2 : Rabs (S / C - s / c) <= 26.01 * u * t + 1.0001 * k * (1 + t)) by lra. split; [|exact D2].
  replace (S / C) with ((S / C - s / c) + s / c) by ring. pose proof (Rabs_triang (S / C - s / c) (s / c)) as TR. fold t in TR.
  assert (KB : k <= / 1000000). { unfold k. apply Rmult_le_reg_r with (Rabs c); [lra|]. replace (eps / Rabs c * Rabs c) with eps by (field; lra). lra. }
  assert (k * t <= / 1000000 * t) by (apply Rmult_le_compat_r; lra). lra.
Qed.
Lemma tan_acc : 0 <= eta -> Rabs (T - S / C) <= u * Rabs (S / C) + eta -> Rabs (T - s / c) <= 28 * u * Rabs (s / c) + 1.001 * (eps / Rabs c) * (1 + Rabs (s / c)) + eta.
Proof.
  intros E0 HT. destruct tan_q as (_ & B & D). pose proof (Rabs_triang (T - S / C) (S / C - s / c)) as TR. replace (T - S / C + (S / C - s / c)) with (T - s / c) in TR by ring.
  set (t := Rabs (s / c)) in *. set (k := eps / Rabs c) in *. assert (T0 : 0 <= t) by apply Rabs_pos.
  assert (K0 : 0 <= k) by (apply Rmult_le_pos; [lra|left; apply Rinv_0_lt_compat; lra]).
  assert (u * Rabs (S / C) <= u * (1.0001 * (t + k))) by (apply Rmult_le_compat_l; lra).
  assert (0 <= u * t) by (apply Rmult_le_pos; lra). assert (u * k <= / 8000000 * k) by (apply Rmult_le_compat_r; lra). assert (0 <= k * t) by (apply Rmult_le_pos; lra). lra.
Qed.
End Q.

Lemma tan_gen_r : forall F rm sg cg x s c Vs Vc, good_fmt F -> sg x = Some s -> cg x = Some c -> is_real F s Vs -> is_real F c Vc -> (Vc <> 0)%R -> tan_gen F rm sg cg x = Some (f_div F rm s c).
Proof.
  intros F rm sg cg x s c Vs Vc HF E1 E2 RS RC NZ. pose proof RC as (PC & FC & VC). destruct (zero_r F HF) as (PZ & FZ & VZ). unfold tan_gen. rewrite E1, E2, (f_eq_fin F HF c _ FC FZ), VC, VZ, Req_bool_false by exact NZ. reflexivity.
Qed.

Lemma tan_le : forall X k, (bp (- k) <= Rabs (cos X))%R -> (Rabs (sin X / cos X) <= bp k)%R.
Proof.
  intros X k H. pose proof (bpow_gt_0 radix2 (- k)). unfold Rdiv. rewrite Rabs_mult, Rabs_inv. rewrite <- (Rmult_1_l (bp k)). apply Rmult_le_compat; [apply Rabs_pos|left; apply Rinv_0_lt_compat; lra|apply Rabs_le; apply SIN_bound|].
  replace (bp k) with (/ bp (- k))%R by (rewrite <- bpow_opp, Z.opp_involutive; reflexivity). apply Rinv_le_contravar; auto.
Qed.

Lemma tan_gen_acc : forall F rm sg cg x s c Vs Vc X eps k, good_fmt F -> 24 <= prec F -> 0 <= k -> k + 2 <= bias F -> (emin F <= - 2 * prec F)%Z ->
  sg x = Some s -> cg x = Some c -> is_real F s Vs -> is_real F c Vc -> (0 <= eps <= / 1000000 * Rabs (cos X))%R -> (bp (- k) <= Rabs (cos X))%R ->
  (Rabs (Vs - sin X) <= 13 * uF F rm * Rabs (sin X) + eps)%R -> (Rabs (Vc - cos X) <= 13 * uF F rm * Rabs (cos X) + eps)%R ->
  exists r T, tan_gen F rm sg cg x = Some r /\ is_real F r T /\ (Rabs (T - tan X) <= 28 * uF F rm * Rabs (tan X) + 1.001 * (eps / Rabs (cos X)) * (1 + Rabs (tan X)) + bp (emin F))%R.
Proof.
  intros F rm sg cg x s c Vs Vc X eps k HF H24 Hk Hk2 Hem Es Ec RS RC HE HC DS DC. destruct (ueta F H24 Hem rm) as (U & _). pose proof (bpow_gt_0 radix2 (- k)) as BK.
  destruct (tan_q (uF F rm) eps (sin X) (cos X) Vs Vc U HE ltac:(lra) DS DC) as (NZ & BQ & _). pose proof (tan_le X k HC) as TL.
  assert (EK : (eps / Rabs (cos X) <= / 1000000)%R). { apply Rmult_le_reg_r with (Rabs (cos X)); [lra|]. replace (eps / Rabs (cos X) * Rabs (cos X))%R with eps by (field; lra). lra. }
  assert (K1 : (1 <= bp k)%R) by (change 1%R with (bp 0); apply bpow_le; exact Hk).
  assert (BQ2 : (Rabs (Vs / Vc) <= bp (k + 1))%R) by (rewrite bpow_plus; change (bp 1) with 2%R; lra).
  assert (BIG : (Rabs (fround F rm (Vs / Vc)) < bp (bias F + 1))%R).
  { apply Rle_lt_trans with (bp (k + 1)); [|apply bpow_lt; lia]. assert (G : generic_format radix2 (FLT_exp (emin F) (prec F)) (bp (k + 1))) by (apply generic_format_bpow; unfold FLT_exp; lia).
    apply Rabs_le_inv in BQ2. apply Rabs_le. split; [apply (fround_ge_gen F HF); [apply generic_format_opp; auto|lra]|apply (fround_le_gen F HF); [auto|lra]]. }
  eexists _, _. split; [apply (tan_gen_r F rm sg cg x s c Vs Vc HF Es Ec RS RC NZ)|]. split; [apply (div_r F HF rm _ _ _ _ RS RC NZ BIG)|].
  unfold tan. apply (tan_acc (uF F rm) (bp (emin F)) eps (sin X) (cos X) Vs Vc); auto; try lra; [apply bpow_ge_0|]. apply (rel_e F HF H24 rm).
Qed.

Lemma tand_accuracy : forall rm ct x X, (ct = true -> rm = RNE) -> is_real D x X -> (bp (-70) <= Rabs (cos X))%R ->
  exists r T, cc_tan rm ct x = Some r /\ is_real D r T /\
    (Rabs (T - tan X) <= 28 * uF D rm * Rabs (tan X) + 1.001 * ((red_err X + bp (-1070)) / Rabs (cos X)) * (1 + Rabs (tan X)) + bp (-1074))%R.
Proof.
  intros rm ct x X HC HX HK. destruct (sincosd_accuracy rm ct true x X HC HX) as (s & Vs & Es & RS & DS). destruct (sincosd_accuracy rm ct false x X HC HX) as (c & Vc & Ec & RC & DC).
  cbn [trig] in DS, DC. rewrite Rplus_assoc in DS, DC.
  assert (HE : (0 <= red_err X + bp (-1070) <= / 1000000 * Rabs (cos X))%R).
  { assert (0 <= red_err X <= bp (-93))%R. { unfold red_err. destruct (Rlt_bool_spec (Rabs X) (bp 20)) as [L|L]; [|bpn; lra]. split; [apply Rmult_le_pos; [apply Rabs_pos|apply bpow_ge_0]|].
      apply Rle_trans with (bp 20 * bp (-113))%R; [apply Rmult_le_compat_r; [apply bpow_ge_0|lra]|rewrite <- bpow_plus; apply bpow_le; lia]. }
    assert (0 < bp (-1070) <= bp (-93))%R by (split; [apply bpow_gt_0|apply bpow_le; lia]). split; [lra|]. revert H H0 HK. bpn. intros. lra. }
  destruct (tan_gen_acc D rm (cc_sin rm ct) (cc_cos rm ct) x s c Vs Vc X _ 70 good64 ltac:(vm_compute; discriminate) ltac:(lia) ltac:(vm_compute; discriminate) ltac:(vm_compute; discriminate) Es Ec RS RC HE HK DS DC) as (r & T & E & R & B).
  exists r, T. split; [exact E|]. split; [exact R|]. exact B.
Qed.

(** The absolute part of the float error outside [25, 2^18) *)
Definition red_errF (X : R) : R := if Rle_bool (Rabs X) 25 then (Rabs X * bp (-57))%R else bp (-98).
Lemma tanf_accuracy : forall rm ct x X, (ct = true -> rm = RNE) -> is_real S32 x X -> (Rabs X <= 25 \/ bp 18 <= Rabs X)%R -> (bp (-32) <= Rabs (cos X))%R ->
  exists r T, cc_tanf rm ct x = Some r /\ is_real S32 r T /\
    (Rabs (T - tan X) <= 28 * uF S32 rm * Rabs (tan X) + 1.001 * ((red_errF X + bp (-145)) / Rabs (cos X)) * (1 + Rabs (tan X)) + bp (-149))%R.
Proof.
  intros rm ct x X HC HX HR HK. destruct (sincosf_accuracy rm ct true x X HC HX) as (s & Vs & Es & RS & DS). destruct (sincosf_accuracy rm ct false x X HC HX) as (c & Vc & Ec & RC & DC).
  cbn [trig] in DS, DC.
  assert (EF : forall t, errF (uF S32 rm) X t = (13 * uF S32 rm * Rabs t + (red_errF X + bp (-145)))%R).
  { intros t. unfold errF, red_errF. destruct (Rle_bool_spec (Rabs X) 25) as [L|L]; [ring|]. rewrite Rlt_bool_false by (destruct HR; lra). ring. }
  rewrite EF in DS, DC.
  assert (HE : (0 <= red_errF X + bp (-145) <= / 1000000 * Rabs (cos X))%R).
  { assert (0 <= red_errF X <= bp (-52))%R. { unfold red_errF. destruct (Rle_bool_spec (Rabs X) 25) as [L|L]; [|bpn; lra]. split; [apply Rmult_le_pos; [apply Rabs_pos|apply bpow_ge_0]|].
      apply Rle_trans with (25 * bp (-57))%R; [apply Rmult_le_compat_r; [apply bpow_ge_0|lra]|bpn; lra]. }
    revert H HK. bpn. intros. lra. }
  destruct (tan_gen_acc S32 rm (cc_sinf rm ct) (cc_cosf rm ct) x s c Vs Vc X _ 32 good32 h24 ltac:(lia) ltac:(vm_compute; discriminate) ltac:(vm_compute; discriminate) Es Ec RS RC HE HK DS DC) as (r & T & E & R & B).
  exists r, T. split; [exact E|]. split; [exact R|]. exact B.
Qed.

Lemma tan_special : forall rm ct x,
  (is_pattern D x -> is_fin D x = false -> cc_tan rm ct x = Some (qnan D)) /\ (is_pattern S32 x -> is_fin S32 x = false -> cc_tanf rm ct x = Some (qnan S32)) /\
  (is_pattern D x -> mag_of D x = 0 -> cc_tan rm ct x = Some x) /\ (is_pattern S32 x -> mag_of S32 x = 0 -> cc_tanf rm ct x = Some x).
Proof.
  intros rm ct x. split; [|split; [|split]]; intros P H.
  - unfold cc_tan, tan_gen, cc_sin, cc_cos. rewrite !(proj2 (sincosd_special rm ct _ x P) H). replace (f_eq F64 (qnan D) (f_zero F64 false)) with false by (vm_compute; reflexivity).
    unfold f_div. replace (decode F64 (qnan D)) with DNaN by (vm_compute; reflexivity). reflexivity.
  - unfold cc_tanf, tan_gen, cc_sinf, cc_cosf. rewrite !(proj2 (sincosf_special rm ct _ x P) H). replace (f_eq F32 (qnan S32) (f_zero F32 false)) with false by (vm_compute; reflexivity).
    unfold f_div. replace (decode F32 (qnan S32)) with DNaN by (vm_compute; reflexivity). reflexivity.
  - unfold cc_tan, tan_gen, cc_sin, cc_cos. rewrite !(proj1 (sincosd_special rm ct _ x P) H). replace (f_eq F64 (lit 1 0) (f_zero F64 false)) with false by (vm_compute; reflexivity).
    assert (C : x = 0 \/ x = 2 ^ 63). { unfold mag_of in H. pose proof (Z.div_mod x (2 ^ 63) ltac:(lia)) as Q. change (sign_unit F64) with (2 ^ 63) in H. change (is_pattern D x) with (0 <= x < 2 ^ 64) in P. rewrite H in Q. assert (x / 2 ^ 63 = 0 \/ x / 2 ^ 63 = 1) by (pose proof (Z.div_pos x (2 ^ 63)); pose proof (Z.div_lt_upper_bound x (2 ^ 63) 2); lia). lia. }
    destruct C as [-> | ->]; destruct rm; vm_compute; reflexivity.
  - unfold cc_tanf, tan_gen, cc_sinf, cc_cosf. rewrite !(proj1 (sincosf_special rm ct _ x P) H). replace (f_eq F32 (litf 1 0) (f_zero F32 false)) with false by (vm_compute; reflexivity).
    assert (C : x = 0 \/ x = 2 ^ 31). { unfold mag_of in H. pose proof (Z.div_mod x (2 ^ 31) ltac:(lia)) as Q. change (sign_unit F32) with (2 ^ 31) in H. change (is_pattern S32 x) with (0 <= x < 2 ^ 32) in P. rewrite H in Q. assert (x / 2 ^ 31 = 0 \/ x / 2 ^ 31 = 1) by (pose proof (Z.div_pos x (2 ^ 31)); pose proof (Z.div_lt_upper_bound x (2 ^ 31) 2); lia). lia. }
    destruct C as [-> | ->]; destruct rm; vm_compute; reflexivity.
Qed.
