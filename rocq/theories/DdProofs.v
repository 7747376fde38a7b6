(** * Double-double arithmetic *)
From Coq Require Import ZArith Lia Bool Reals Lra.
From Flocq Require Import Core Plus_error Mult_error Sterbenz Relative.
From Verif Require Import MachInt Bits Fmt FloatSpec FmtProofs RoundProofs FOps FOpsProofs ExactOps BasicProofs LerpProofs RemProofs ExtFloatSpec ExtFloatProofs ExtInterp Eft EftProofs.
Open Scope Z_scope.

Section Dd.
Context (F : fmt) (HF : good_fmt F) (HelF : el F <= 16) (H3 : 3 <= fl F).
Notation fexp := (FLT_exp (emin F) (prec F)).
Notation fmt := (generic_format radix2 fexp).
Notation big := (bpow radix2 (bias F + 1)).
Notation u := (bpow radix2 (bias F - 3)).
Notation e := (bpow radix2 (- prec F)).
Notation eta := (bpow radix2 (emin F - 1)).

Lemma e_bound : (0 < e <= / 16)%R.
Proof. split; [apply bpow_gt_0|]. change (/ 16)%R with (bpow radix2 (-4)). apply bpow_le. unfold prec. lia. Qed.
Lemma half_eps : (/ 2 * bpow radix2 (- prec F + 1) = e)%R.
Proof. rewrite bpow_plus. change (bpow radix2 1) with 2%R. field. Qed.
Lemma half_emin : (/ 2 * bpow radix2 (emin F) = eta)%R.
Proof. replace (emin F - 1) with (emin F + -1) by lia. rewrite bpow_plus. change (bpow radix2 (-1)) with (/ 2)%R. ring. Qed.
Lemma round_err : forall x, (Rabs (fround F RNE x - x) <= e * Rabs x + eta)%R.
Proof.
  intros x. pose proof (pp F HF) as PP. destruct (error_N_FLT radix2 (emin F) (prec F) PP (fun z => negb (Z.even z)) x) as (eps & et & E1 & E2 & _ & E).
  change (round radix2 (FLT_exp (emin F) (prec F)) (Znearest (fun z => negb (Z.even z))) x) with (fround F RNE x) in E. rewrite half_eps in E1. rewrite half_emin in E2.
  rewrite E. replace (x * (1 + eps) + et - x)%R with (eps * x + et)%R by ring. apply Rle_trans with (1 := Rabs_triang _ _). rewrite Rabs_mult.
  pose proof (Rabs_pos x). apply Rplus_le_compat; [apply Rmult_le_compat_r|]; auto.
Qed.
Lemma norm_err : forall x, (bpow radix2 (emin F + prec F - 1) <= Rabs x)%R -> (Rabs (fround F RNE x - x) <= e * Rabs x)%R.
Proof.
  intros x H. pose proof (pp F HF) as PP. rewrite <- half_eps. apply (relative_error_N_FLT radix2 (emin F) (prec F) PP (fun z => negb (Z.even z)) x); auto.
Qed.
Lemma plus_err : forall x y, fmt x -> fmt y -> (Rabs (fround F RNE (x + y) - (x + y)) <= e * Rabs (x + y))%R.
Proof.
  intros x y Gx Gy. pose proof (pp F HF) as PP. destruct (Rle_or_lt (bpow radix2 (emin F + prec F - 1)) (Rabs (x + y))) as [L|L]; [apply norm_err; auto|].
  rewrite (fround_exact F RNE); [rewrite Rminus_diag_eq, Rabs_R0 by auto; apply Rmult_le_pos; [apply bpow_ge_0|apply Rabs_pos]|].
  apply FLT_format_plus_small; auto. left. apply Rlt_le_trans with (1 := L). apply bpow_le. lia.
Qed.
Lemma fma_r : forall a b c A B C, is_real F a A -> is_real F b B -> is_real F c C -> (Rabs (fround F RNE (A * B + C)) < big)%R ->
  is_real F (f_fma F RNE a b c) (fround F RNE (A * B + C)).
Proof. intros a b c A B C (Pa & Fa & <-) (Pb & Fb & <-) (Pc & Fc & <-) H. destruct (f_fma_spec F HF RNE a b c Fa Fb Fc) as (P & _ & V & _). destruct (V H). split; auto. Qed.

(** ** quick_mult *)
Let s := prec F - Z.div2 (prec F).
(** The product of the high parts as an exact pair. *)
Lemma mult_pair : forall a b A B, is_real F a A -> is_real F b B ->
  (Rabs A <= bpow radix2 (bias F - s - 4))%R -> (Rabs B <= bpow radix2 (bias F - s - 4))%R -> (Rabs (A * B) <= u)%R ->
  (A * B = 0 \/ bpow radix2 (emin F + 2 * prec F - 1) <= Rabs (A * B))%R ->
  let (hi, lo) := exact_mult F RNE s a b in exists L, is_real F hi (fround F RNE (A * B)) /\ is_real F lo L /\ (fround F RNE (A * B) + L = A * B)%R /\ (Rabs L <= e * Rabs (A * B))%R.
Proof.
  intros a b A B Ha Hb BA BB BP HU. pose proof (exact_mult_spec F HF a b A B H3 Ha Hb BA BB BP) as M. fold s in M.
  destruct (exact_mult F RNE s a b) as (hi, lo). destruct M as (L & M1 & M2 & M3 & _). specialize (M3 HU). exists L. split; [auto|]. split; [auto|]. split; [auto|].
  destruct HU as [Z|HU].
  - rewrite Z, (fround_0 F) in M3. assert (L = 0%R) by lra. rewrite H, Z, Rabs_R0. lra.
  - replace L with (- (fround F RNE (A * B) - A * B))%R by lra. rewrite Rabs_Ropp. apply norm_err. apply Rle_trans with (2 := HU). apply bpow_le. unfold prec. lia.
Qed.
Lemma eta_u : (eta <= / 4 * u)%R.
Proof.
  change (/ 4)%R with (bpow radix2 (-2)). rewrite <- bpow_plus. apply bpow_le. unfold emin. pose proof (gf_fl F HF). pose proof (bias_ge2 F HF). lia.
Qed.
Lemma le_u : forall x, (Rabs x <= u)%R -> (Rabs (fround F RNE x) < big)%R.
Proof. intros x H. apply (step_bound F HF RNE x 1 H3); [lia|lra]. Qed.
Theorem quick_mult_d_spec : forall a bh bl A BH BL, is_real F a A -> is_real F bh BH -> is_real F bl BL -> (Rabs BL <= e * Rabs BH)%R ->
  (Rabs A <= bpow radix2 (bias F - s - 4))%R -> (Rabs BH <= bpow radix2 (bias F - s - 4))%R -> (Rabs (A * BH) <= u)%R ->
  (A * BH = 0 \/ bpow radix2 (emin F + 2 * prec F - 1) <= Rabs (A * BH))%R ->
  let (hi, lo) := quick_mult_d F RNE s a (bh, bl) in exists L, is_real F hi (fround F RNE (A * BH)) /\ is_real F lo L /\
  (Rabs (fround F RNE (A * BH) + L - A * (BH + BL)) <= 2 * (e * e) * Rabs (A * BH) + eta)%R.
Proof.
  intros a bh bl A BH BL Ha Hh Hl HN BA BB BP HU. unfold quick_mult_d. cbn [fst snd]. pose proof (mult_pair a bh A BH Ha Hh BA BB BP HU) as M.
  destruct (exact_mult F RNE s a bh) as (hi, lo). destruct M as (L & M1 & M2 & M3 & M4). pose proof e_bound as EB.
  assert (P1 : (Rabs (A * BL) <= e * Rabs (A * BH))%R).
  { rewrite !Rabs_mult. replace (e * (Rabs A * Rabs BH))%R with (Rabs A * (e * Rabs BH))%R by ring. apply Rmult_le_compat_l; [apply Rabs_pos|auto]. }
  assert (P2 : (Rabs (A * BL + L) <= 2 * e * Rabs (A * BH))%R) by (pose proof (Rabs_triang (A * BL) L); lra).
  pose proof (Rabs_pos (A * BH)) as P0. pose proof (bpow_gt_0 radix2 (bias F - 3)) as U0.
  assert (P3 : (2 * e * Rabs (A * BH) <= u)%R) by nra.
  exists (fround F RNE (A * BL + L)). split; [auto|]. split; [apply fma_r; auto; apply le_u; lra|].
  pose proof (round_err (A * BL + L)) as RE. replace (fround F RNE (A * BH) + fround F RNE (A * BL + L) - A * (BH + BL))%R with (fround F RNE (A * BL + L) - (A * BL + L))%R by lra.
  apply Rle_trans with (1 := RE). apply Rplus_le_compat_r. replace (2 * (e * e) * Rabs (A * BH))%R with (e * (2 * e * Rabs (A * BH)))%R by ring. apply Rmult_le_compat_l; lra.
Qed.
Theorem quick_mult_spec : forall ah al bh bl AH AL BH BL, is_real F ah AH -> is_real F al AL -> is_real F bh BH -> is_real F bl BL ->
  (Rabs AL <= e * Rabs AH)%R -> (Rabs BL <= e * Rabs BH)%R ->
  (Rabs AH <= bpow radix2 (bias F - s - 4))%R -> (Rabs BH <= bpow radix2 (bias F - s - 4))%R -> (Rabs (AH * BH) <= u)%R ->
  (AH * BH = 0 \/ bpow radix2 (emin F + 2 * prec F - 1) <= Rabs (AH * BH))%R ->
  let (hi, lo) := quick_mult F RNE s (ah, al) (bh, bl) in exists L, is_real F hi (fround F RNE (AH * BH)) /\ is_real F lo L /\
  (Rabs (fround F RNE (AH * BH) + L - (AH + AL) * (BH + BL)) <= 7 * (e * e) * Rabs (AH * BH) + 3 * eta)%R.
Proof.
  intros ah al bh bl AH AL BH BL Hah Hal Hbh Hbl NA NB BA BB BP HU. unfold quick_mult. cbn [fst snd]. pose proof (mult_pair ah bh AH BH Hah Hbh BA BB BP HU) as M.
  destruct (exact_mult F RNE s ah bh) as (hi, lo). destruct M as (L & M1 & M2 & M3 & M4). pose proof e_bound as EB. pose proof eta_u as EU. pose proof (bpow_gt_0 radix2 (emin F - 1)) as ET.
  pose proof (Rabs_pos AH) as A0. pose proof (Rabs_pos BH) as B0. set (P := Rabs (AH * BH)) in *. pose proof (Rabs_mult AH BH) as PE. fold P in PE.
  assert (P1 : (Rabs (AH * BL) <= e * P)%R).
  { rewrite Rabs_mult, PE. replace (e * (Rabs AH * Rabs BH))%R with (Rabs AH * (e * Rabs BH))%R by ring. apply Rmult_le_compat_l; auto. }
  assert (P2 : (Rabs (AL * BH) <= e * P)%R).
  { rewrite Rabs_mult, PE. replace (e * (Rabs AH * Rabs BH))%R with ((e * Rabs AH) * Rabs BH)%R by ring. apply Rmult_le_compat_r; auto. }
  assert (P3 : (Rabs (AL * BL) <= (e * e) * P)%R).
  { rewrite Rabs_mult, PE. replace (e * e * (Rabs AH * Rabs BH))%R with ((e * Rabs AH) * (e * Rabs BH))%R by ring. apply Rmult_le_compat; auto; apply Rabs_pos. }
  assert (P0 : (0 <= P)%R) by apply Rabs_pos. pose proof (bpow_gt_0 radix2 (bias F - 3)) as U0. clear PE.
  assert (EP : (e * P <= / 16 * u)%R) by (apply Rmult_le_compat; lra).
  assert (EEP : (0 <= (e * e) * P <= / 16 * (e * P))%R) by (split; [apply Rmult_le_pos; nra|rewrite Rmult_assoc; apply Rmult_le_compat_r; nra]).
  assert (EN : (0 <= e * eta <= / 16 * eta)%R) by (split; [nra|apply Rmult_le_compat_r; lra]).
  set (x1 := (AH * BL + L)%R). assert (X1 : (Rabs x1 <= 2 * (e * P))%R) by (unfold x1; pose proof (Rabs_triang (AH * BL) L); lra).
  pose proof (round_err x1) as R1. pose proof (fma_r ah bl lo AH BL L Hah Hbl M2) as F1. fold x1 in F1. specialize (F1 (le_u x1 ltac:(lra))).
  set (t1 := fround F RNE x1) in *. assert (D1 : (Rabs (t1 - x1) <= 2 * (e * e * P) + eta)%R) by nra.
  set (x2 := (AL * BH + t1)%R). assert (X2 : (Rabs x2 <= 3 * (e * P) + 2 * (e * e * P) + eta)%R).
  { unfold x2. replace (AL * BH + t1)%R with (AL * BH + x1 + (t1 - x1))%R by ring. pose proof (Rabs_triang (AL * BH + x1) (t1 - x1)). pose proof (Rabs_triang (AL * BH) x1). lra. }
  pose proof (round_err x2) as R2. pose proof (fma_r al bh _ AL BH t1 Hal Hbh F1) as F2. fold x2 in F2. specialize (F2 (le_u x2 ltac:(lra))).
  set (t2 := fround F RNE x2) in *.
  assert (D2 : (Rabs (t2 - x2) <= 3 * (e * e * P) + / 8 * (e * e * P) + / 16 * eta + eta)%R).
  { assert (e * Rabs x2 <= e * (3 * (e * P) + 2 * (e * e * P) + eta))%R by (apply Rmult_le_compat_l; lra).
    assert (e * (e * e * P) <= / 16 * (e * e * P))%R by (apply Rmult_le_compat_r; lra). lra. }
  exists t2. split; [auto|]. split; [auto|].
  replace (fround F RNE (AH * BH) + t2 - (AH + AL) * (BH + BL))%R with ((t2 - x2) + (t1 - x1) + - (AL * BL))%R by (unfold x1, x2; lra).
  pose proof (Rabs_triang ((t2 - x2) + (t1 - x1)) (- (AL * BL))) as T1. rewrite Rabs_Ropp in T1. pose proof (Rabs_triang (t2 - x2) (t1 - x1)) as T2. lra.
Qed.

(** ** add *)
Theorem dd_add_spec : forall ah al bh bl AH AL BH BL, is_real F ah AH -> is_real F al AL -> is_real F bh BH -> is_real F bl BL ->
  (Rabs BH <= Rabs AH)%R -> (Rabs AL <= e * Rabs AH)%R -> (Rabs BL <= e * Rabs BH)%R -> (Rabs AH <= / 4 * u)%R ->
  (8 * e * Rabs AH <= Rabs (fround F RNE (AH + BH)))%R ->
  let (hi, lo) := dd_add F RNE (ah, al) (bh, bl) in exists H L, is_real F hi H /\ is_real F lo L /\ H = fround F RNE (H + L) /\
  (Rabs (H + L - ((AH + AL) + (BH + BL))) <= 7 * (e * e) * Rabs AH)%R.
Proof.
  intros ah al bh bl AH AL BH BL Hah Hal Hbh Hbl HAB NA NB BA HC. unfold dd_add. cbn [fst snd]. pose proof e_bound as EB.
  pose proof (Rabs_pos AH) as A0. pose proof (bpow_gt_0 radix2 (bias F - 3)) as U0. pose proof (unit_big F 1 ltac:(lia)) as UB.
  pose proof (real_fmt F HF _ _ Hah) as GAH. pose proof (real_fmt F HF _ _ Hal) as GAL. pose proof (real_fmt F HF _ _ Hbh) as GBH. pose proof (real_fmt F HF _ _ Hbl) as GBL.
  pose proof (Rabs_triang AH BH) as T1. pose proof (fast_two_sum_spec F HF RNE ah bh AH BH Hah Hbh HAB (le_u (AH + BH)%R ltac:(lra))) as FT.
  destruct (fast_two_sum F RNE ah bh) as (rh, rl). destruct FT as (Hrh & Hrl & FE). specialize (FE eq_refl).
  pose proof (plus_err AH BH GAH GBH) as PE1. set (RH := fround F RNE (AH + BH)) in *. set (RL := fround F RNE (AH + BH - RH)) in *.
  set (P := Rabs AH) in *. clearbody P.
  assert (EPP : (0 <= e * P <= / 16 * P)%R) by (split; [apply Rmult_le_pos; lra|apply Rmult_le_compat_r; lra]).
  assert (EEP : (0 <= (e * e) * P <= / 16 * (e * P))%R) by (split; [apply Rmult_le_pos; nra|rewrite Rmult_assoc; apply Rmult_le_compat_r; lra]).
  assert (BRL : (Rabs RL <= 2 * (e * P))%R).
  { replace RL with (- (RH - (AH + BH)))%R by lra. rewrite Rabs_Ropp. apply Rle_trans with (1 := PE1). replace (2 * (e * P))%R with (e * (2 * P))%R by ring. apply Rmult_le_compat_l; lra. }
  assert (NB2 : (Rabs BL <= e * P)%R) by (apply Rle_trans with (1 := NB); apply Rmult_le_compat_l; lra).
  pose proof (Rabs_triang AL BL) as T2. pose proof (add_r F HF RNE al bl AL BL Hal Hbl (le_u (AL + BL)%R ltac:(lra))) as HLO. pose proof (plus_err AL BL GAL GBL) as PE2.
  set (LO := fround F RNE (AL + BL)) in *.
  assert (PE2' : (Rabs (LO - (AL + BL)) <= 2 * (e * e * P))%R).
  { apply Rle_trans with (1 := PE2). replace (2 * (e * e * P))%R with (e * (2 * (e * P)))%R by ring. apply Rmult_le_compat_l; lra. }
  assert (BLO : (Rabs LO <= 2 * (e * P) + 2 * (e * e * P))%R).
  { replace LO with ((LO - (AL + BL)) + (AL + BL))%R by ring. pose proof (Rabs_triang (LO - (AL + BL)) (AL + BL)). lra. }
  pose proof (Rabs_triang RL LO) as T3. pose proof (add_r F HF RNE _ _ RL LO Hrl HLO (le_u (RL + LO)%R ltac:(lra))) as HV.
  pose proof (plus_err RL LO (real_fmt F HF _ _ Hrl) (real_fmt F HF _ _ HLO)) as PE3. set (V := fround F RNE (RL + LO)) in *.
  assert (PE3' : (Rabs (V - (RL + LO)) <= 4 * (e * e * P) + / 8 * (e * e * P))%R).
  { apply Rle_trans with (1 := PE3). apply Rle_trans with (e * (4 * (e * P) + 2 * (e * e * P)))%R; [apply Rmult_le_compat_l; lra|].
    assert (e * (e * e * P) <= / 16 * (e * e * P))%R by (apply Rmult_le_compat_r; lra). lra. }
  assert (BV : (Rabs V <= 8 * (e * P))%R).
  { replace V with ((V - (RL + LO)) + (RL + LO))%R by ring. pose proof (Rabs_triang (V - (RL + LO)) (RL + LO)). lra. }
  assert (BRH : (Rabs RH <= 2 * P + 2 * (e * P))%R).
  { replace RH with ((RH - (AH + BH)) + (AH + BH))%R by ring. pose proof (Rabs_triang (RH - (AH + BH)) (AH + BH)).
    assert (e * Rabs (AH + BH) <= e * (2 * P))%R by (apply Rmult_le_compat_l; lra). lra. }
  pose proof (Rabs_triang RH V) as T4. pose proof (fast_two_sum_spec F HF RNE _ _ RH V Hrh HV ltac:(lra) (le_u (RH + V)%R ltac:(lra))) as FT2.
  destruct (fast_two_sum F RNE rh _) as (hi, lo). destruct FT2 as (Hhi & Hlo & FE2). specialize (FE2 eq_refl).
  exists (fround F RNE (RH + V)), (fround F RNE (RH + V - fround F RNE (RH + V))). split; [auto|]. split; [auto|]. rewrite FE2. split; [auto|].
  replace (RH + V - (AH + AL + (BH + BL)))%R with ((V - (RL + LO)) + (LO - (AL + BL)))%R by lra.
  pose proof (Rabs_triang (V - (RL + LO)) (LO - (AL + BL))). lra.
Qed.
Theorem dd_add_d_spec : forall ah al b AH AL B, is_real F ah AH -> is_real F al AL -> is_real F b B ->
  (Rabs B <= Rabs AH)%R -> (Rabs AL <= e * Rabs AH)%R -> (Rabs AH <= / 4 * u)%R ->
  (8 * e * Rabs AH <= Rabs (fround F RNE (AH + B)))%R ->
  let (hi, lo) := dd_add_d F RNE (ah, al) b in exists H L, is_real F hi H /\ is_real F lo L /\ H = fround F RNE (H + L) /\
  (Rabs (H + L - ((AH + AL) + B)) <= 3 * (e * e) * Rabs AH)%R.
Proof.
  intros ah al b AH AL B Hah Hal Hb HAB NA BA HC. unfold dd_add_d. cbn [fst snd]. pose proof e_bound as EB.
  pose proof (Rabs_pos AH) as A0. pose proof (bpow_gt_0 radix2 (bias F - 3)) as U0. pose proof (unit_big F 1 ltac:(lia)) as UB.
  pose proof (real_fmt F HF _ _ Hah) as GAH. pose proof (real_fmt F HF _ _ Hal) as GAL. pose proof (real_fmt F HF _ _ Hb) as GBH.
  pose proof (Rabs_triang AH B) as T1. pose proof (fast_two_sum_spec F HF RNE ah b AH B Hah Hb HAB (le_u (AH + B)%R ltac:(lra))) as FT.
  destruct (fast_two_sum F RNE ah b) as (rh, rl). destruct FT as (Hrh & Hrl & FE). specialize (FE eq_refl).
  pose proof (plus_err AH B GAH GBH) as PE1. set (RH := fround F RNE (AH + B)) in *. set (RL := fround F RNE (AH + B - RH)) in *.
  set (P := Rabs AH) in *. clearbody P.
  assert (EPP : (0 <= e * P <= / 16 * P)%R) by (split; [apply Rmult_le_pos; lra|apply Rmult_le_compat_r; lra]).
  assert (EEP : (0 <= (e * e) * P <= / 16 * (e * P))%R) by (split; [apply Rmult_le_pos; nra|rewrite Rmult_assoc; apply Rmult_le_compat_r; lra]).
  assert (BRL : (Rabs RL <= 2 * (e * P))%R).
  { replace RL with (- (RH - (AH + B)))%R by lra. rewrite Rabs_Ropp. apply Rle_trans with (1 := PE1). replace (2 * (e * P))%R with (e * (2 * P))%R by ring. apply Rmult_le_compat_l; lra. }
  pose proof (Rabs_triang RL AL) as T3. pose proof (add_r F HF RNE _ _ RL AL Hrl Hal (le_u (RL + AL)%R ltac:(lra))) as HV.
  pose proof (plus_err RL AL (real_fmt F HF _ _ Hrl) GAL) as PE3. set (V := fround F RNE (RL + AL)) in *.
  assert (PE3' : (Rabs (V - (RL + AL)) <= 3 * (e * e * P))%R).
  { apply Rle_trans with (1 := PE3). replace (3 * (e * e * P))%R with (e * (3 * (e * P)))%R by ring. apply Rmult_le_compat_l; lra. }
  assert (BV : (Rabs V <= 8 * (e * P))%R).
  { replace V with ((V - (RL + AL)) + (RL + AL))%R by ring. pose proof (Rabs_triang (V - (RL + AL)) (RL + AL)). lra. }
  assert (BRH : (Rabs RH <= 2 * P + 2 * (e * P))%R).
  { replace RH with ((RH - (AH + B)) + (AH + B))%R by ring. pose proof (Rabs_triang (RH - (AH + B)) (AH + B)).
    assert (e * Rabs (AH + B) <= e * (2 * P))%R by (apply Rmult_le_compat_l; lra). lra. }
  pose proof (Rabs_triang RH V) as T4. pose proof (fast_two_sum_spec F HF RNE _ _ RH V Hrh HV ltac:(lra) (le_u (RH + V)%R ltac:(lra))) as FT2.
  destruct (fast_two_sum F RNE rh _) as (hi, lo). destruct FT2 as (Hhi & Hlo & FE2). specialize (FE2 eq_refl).
  exists (fround F RNE (RH + V)), (fround F RNE (RH + V - fround F RNE (RH + V))). split; [auto|]. split; [auto|]. rewrite FE2. split; [auto|].
  replace (RH + V - (AH + AL + B))%R with (V - (RL + AL))%R by lra. lra.
Qed.
End Dd.

(** ** split of an unsigned integer *)
Theorem number_split_spec : forall w x, 0 < w -> w mod 8 = 0 -> inU w x ->
  let (hi, lo) := number_split w x in x = hi * 2 ^ (w / 2) + lo /\ 0 <= hi < 2 ^ (w / 2) /\ 0 <= lo < 2 ^ (w / 2).
Proof.
  intros w x Hw Hm Hx. unfold number_split. cbv zeta. assert (E : w / 8 * 4 = w / 2) by (pose proof (Z.div_mod w 8 ltac:(lia)); assert (w = (w / 8 * 4) * 2) by lia; rewrite H0 at 2; rewrite Z.div_mul; lia).
  rewrite E. assert (H2 : 0 <= w / 2) by (apply Z.div_pos; lia). assert (WE : w = w / 2 + w / 2) by (pose proof (Z.div_mod w 8 ltac:(lia)); lia).
  pose proof (pow2_pos (w / 2) H2) as PP. unfold inU in Hx. rewrite WE, Z.pow_add_r in Hx by lia.
  rewrite Z.shiftr_div_pow2 by auto. replace (2 ^ (w / 2) - 1) with (Z.ones (w / 2)) by (rewrite Z.ones_equiv; lia). rewrite Z.land_ones by auto.
  pose proof (Z.div_mod x (2 ^ (w / 2)) ltac:(lia)). pose proof (Z.mod_pos_bound x (2 ^ (w / 2)) PP).
  split; [lia|]. split; [|auto]. split; [apply Z.div_pos; lia|apply Z.div_lt_upper_bound; lia].
Qed.
