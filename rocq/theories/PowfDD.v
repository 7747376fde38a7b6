(** * Coarse error bounds for double-double arithmetic in every rounding mode *)
From Coq Require Import ZArith Lia Reals Lra List.
From Flocq Require Import Core.
From Verif Require Import MachInt Fmt FloatSpec RoundProofs ExtFloatSpec FOps FOpsProofs RemProofs FmanipWide ErrLib LogfNum ExtInterp Expm1Proofs Exp2fProofs Eft Powf.
Import ListNotations.
Open Scope Z_scope.

Definition v : R := bp (-51).
Definition rng (M : R) : Prop := (bp (-1000) <= M <= bp 1000)%R.
Lemma v_pos : (0 < v <= / 1000000000000000)%R. Proof. unfold v. split; [apply bpow_gt_0|bpn; lra]. Qed.
Lemma rng_pos : forall M, rng M -> (0 < M)%R. Proof. intros M (H & _). eapply Rlt_le_trans; [apply (bpow_gt_0 radix2 (-1000))|exact H]. Qed.

Section Ops.
Context (rm : rmode).
Lemma fr_g : forall z M, (Rabs z <= M)%R -> rng M -> (Rabs (fround D rm z - z) <= v * M)%R /\ (Rabs (fround D rm z) < bpow radix2 (bias D + 1))%R.
Proof.
  intros z M H (L & U).
  assert (E : (Rabs (fround D rm z - z) <= v * M)%R).
  { eapply Rle_trans; [apply (rel_e D good64 ltac:(vm_compute; congruence))|]. pose proof (Rabs_pos z). pose proof (u_pos D rm).
    assert (uF D rm <= bp (-52))%R by (destruct rm; apply bpow_le; vm_compute; congruence).
    assert (bpow radix2 (emin D) <= bp (-52) * M)%R. { apply Rle_trans with (bp (-52) * bp (-1000))%R; [rewrite <- bpow_plus; apply bpow_le; vm_compute; congruence|apply Rmult_le_compat_l; [apply bpow_ge_0|exact L]]. }
    assert (uF D rm * Rabs z <= bp (-52) * M)%R by (apply Rmult_le_compat; lra). replace (v * M)%R with (bp (-52) * M + bp (-52) * M)%R; [lra|]. unfold v. replace (bp (-51)) with (2 * bp (-52))%R by (bpn; lra). ring. }
  split; [exact E|]. pose proof v_pos. pose proof (Rabs_pos z). assert (0 < M)%R by (apply rng_pos; split; auto).
  apply Rle_lt_trans with (2 * M)%R. 2: { apply Rle_lt_trans with (bp 1 * bp 1000)%R; [change (bp 1) with 2%R; lra|rewrite <- bpow_plus; apply bpow_lt; reflexivity]. }
  replace (fround D rm z) with ((fround D rm z - z) + z)%R by ring. eapply Rle_trans; [apply Rabs_triang|]. assert (v * M <= 1 * M)%R by (apply Rmult_le_compat_r; lra). lra.
Qed.
Lemma add_g : forall a b A B M, is_real D a A -> is_real D b B -> (Rabs (A + B) <= M)%R -> rng M -> exists V, is_real D (f_add D rm a b) V /\ (Rabs (V - (A + B)) <= v * M)%R.
Proof. intros a b A B M Ha Hb H R. destruct (fr_g _ _ H R) as (E & F). eexists. split; [apply (add_r D good64); eauto|exact E]. Qed.
Lemma sub_g : forall a b A B M, is_real D a A -> is_real D b B -> (Rabs (A - B) <= M)%R -> rng M -> exists V, is_real D (f_sub D rm a b) V /\ (Rabs (V - (A - B)) <= v * M)%R.
Proof. intros a b A B M Ha Hb H R. destruct (fr_g _ _ H R) as (E & F). eexists. split; [apply (sub_r D good64); eauto|exact E]. Qed.
Lemma mul_g : forall a b A B M, is_real D a A -> is_real D b B -> (Rabs (A * B) <= M)%R -> rng M -> exists V, is_real D (f_mul D rm a b) V /\ (Rabs (V - A * B) <= v * M)%R.
Proof. intros a b A B M Ha Hb H R. destruct (fr_g _ _ H R) as (E & F). eexists. split; [apply (mul_r D good64); eauto|exact E]. Qed.
Lemma fma_g : forall a b c A B C M, is_real D a A -> is_real D b B -> is_real D c C -> (Rabs (A * B + C) <= M)%R -> rng M -> exists V, is_real D (f_fma D rm a b c) V /\ (Rabs (V - (A * B + C)) <= v * M)%R.
Proof.
  intros a b c A B C M (Pa & Fa & <-) (Pb & Fb & <-) (Pc & Fc & <-) H R. destruct (fr_g _ _ H R) as (E & F). eexists. split; [|exact E].
  destruct (f_fma_spec D good64 rm a b c Fa Fb Fc) as (P & _ & V & _). destruct (V F). split; auto.
Qed.

Lemma tri : forall a b x y, (Rabs a <= x -> Rabs b <= y -> Rabs (a + b) <= x + y)%R.
Proof. intros. eapply Rle_trans; [apply Rabs_triang|lra]. Qed.
Lemma mulb : forall a b x y, (Rabs a <= x -> Rabs b <= y -> Rabs (a * b) <= x * y)%R.
Proof. intros. rewrite Rabs_mult. apply Rmult_le_compat; auto using Rabs_pos. Qed.
Lemma near_b : forall V z e M, (Rabs (V - z) <= e -> Rabs z <= M -> Rabs V <= M + e)%R.
Proof. intros V z e M H1 H2. replace V with ((V - z) + z)%R by ring. eapply Rle_trans; [apply Rabs_triang|lra]. Qed.

Lemma fts_g : forall a b A B x y, is_real D a A -> is_real D b B -> (Rabs A <= x)%R -> (Rabs B <= y)%R -> (bp (-900) <= x + y <= bp 900)%R ->
  exists H L, is_real D (fst (fast_two_sum D rm a b)) H /\ is_real D (snd (fast_two_sum D rm a b)) L /\ (Rabs (H - (A + B)) <= v * (x + y))%R /\ (Rabs L <= 4 * v * (x + y))%R.
Proof.
  intros a b A B x y Ha Hb HA HB (R1 & R2). set (m := (x + y)%R) in *. pose proof v_pos. pose proof (Rabs_pos A). pose proof (Rabs_pos B).
  assert (MP : (0 < m)%R) by (pose proof (bpow_gt_0 radix2 (-900)); lra). assert (vm : (0 < v * m <= / 1000000 * m)%R) by (split; [apply Rmult_lt_0_compat; lra|apply Rmult_le_compat_r; lra]).
  assert (RN : rng m). { split; [eapply Rle_trans; [|exact R1]; apply bpow_le; lia|eapply Rle_trans; [exact R2|]; apply bpow_le; lia]. }
  unfold fast_two_sum. cbn [fst snd].
  destruct (add_g a b A B m Ha Hb ltac:(unfold m; apply tri; auto) RN) as (H' & RH & EH). exists H'.
  destruct (sub_g _ _ H' A (2 * m)%R RH Ha) as (E' & RE & EE).
  { apply Rabs_le. apply Rabs_le_inv in EH. apply Rabs_le_inv in HB. pose proof (Rabs_le_inv _ _ HA). unfold m in *. lra. }
  { destruct RN as (N1 & N2). split; [lra|]. apply Rle_trans with (bp 1 * bp 900)%R; [change (bp 1) with 2%R; lra|rewrite <- bpow_plus; apply bpow_le; lia]. }
  assert (BE : (Rabs (B - E') <= 3 * v * m)%R). { apply Rabs_le. apply Rabs_le_inv in EH. apply Rabs_le_inv in EE. replace (v * (2 * m))%R with (2 * (v * m))%R in EE by ring. replace (3 * v * m)%R with (3 * (v * m))%R by ring. lra. }
  destruct (sub_g _ _ B E' m Hb RE) as (L' & RL & EL). { eapply Rle_trans; [exact BE|]. replace (3 * v * m)%R with (3 * (v * m))%R by ring. lra. } exact RN.
  exists L'. split; [exact RH|]. split; [exact RL|]. split; [exact EH|]. replace (4 * v * m)%R with (3 * v * m + v * m)%R by ring. exact (near_b _ _ _ _ EL BE).
Qed.

Lemma dd_add_g : forall a b AH AL BH BL x y l, is_real D (fst a) AH -> is_real D (snd a) AL -> is_real D (fst b) BH -> is_real D (snd b) BL ->
  (Rabs AH <= x)%R -> (Rabs BH <= y)%R -> (Rabs AL + Rabs BL <= l)%R -> (l <= x + y)%R -> (bp (-900) <= x + y <= bp 890)%R ->
  exists H L, is_real D (fst (dd_add D rm a b)) H /\ is_real D (snd (dd_add D rm a b)) L /\ (Rabs (H - (AH + BH)) <= 12 * v * (x + y) + l)%R /\ (Rabs L <= 16 * v * (x + y))%R.
Proof.
  intros a b AH AL BH BL x y l Ha Hal Hb Hbl HA HB HL HLM (R1 & R2). pose proof v_pos. pose proof (Rabs_pos AL). pose proof (Rabs_pos BL).
  assert (MP : (0 < x + y)%R) by (pose proof (bpow_gt_0 radix2 (-900)); lra). assert (vm : (0 < v * (x + y) <= / 1000000 * (x + y))%R) by (split; [apply Rmult_lt_0_compat; lra|apply Rmult_le_compat_r; lra]).
  assert (BB : (bp 10 * bp 890 <= bp 900)%R) by (rewrite <- bpow_plus; apply bpow_le; lia). assert (B10 : bp 10 = 1024%R) by (bpn; lra). rewrite B10 in BB. pose proof (bpow_gt_0 radix2 890).
  assert (B9 : (bp 900 <= bp 1000)%R) by (apply bpow_le; lia). assert (B91 : (bp (-1000) <= bp (-900))%R) by (apply bpow_le; lia).
  unfold dd_add. destruct (fast_two_sum D rm (fst a) (fst b)) as (rh, rl) eqn:ES.
  destruct (fts_g (fst a) (fst b) AH BH x y Ha Hb HA HB ltac:(lra)) as (RH & RL & Q1 & Q2 & E1 & E2). rewrite ES in Q1, Q2. cbn [fst snd] in Q1, Q2.
  assert (RN : rng (x + y)) by (split; lra).
  destruct (add_g _ _ AL BL (x + y)%R Hal Hbl ltac:(eapply Rle_trans; [apply Rabs_triang|lra]) RN) as (LO & Q3 & E3).
  pose proof (near_b _ _ _ _ E3 ltac:(eapply Rle_trans; [apply Rabs_triang|exact HL])) as B3.
  assert (B4 : (Rabs (RL + LO) <= 5 * (v * (x + y)) + l)%R) by (replace (5 * (v * (x + y)) + l)%R with (4 * v * (x + y) + (l + v * (x + y)))%R by ring; apply tri; auto).
  destruct (add_g _ _ RL LO (2 * (x + y))%R Q2 Q3) as (S & Q4 & E4). { lra. } { split; lra. }
  assert (B5 : (Rabs S <= 7 * (v * (x + y)) + l)%R). { pose proof (near_b _ _ _ _ E4 B4). replace (v * (2 * (x + y)))%R with (2 * (v * (x + y)))%R in * by ring. lra. }
  assert (B6 : (Rabs RH <= 1.1 * (x + y))%R). { pose proof (near_b _ _ _ _ E1 ltac:(apply tri; [exact HA|exact HB])). lra. }
  destruct (fts_g rh (f_add D rm rl (f_add D rm (snd a) (snd b))) RH S (1.1 * (x + y)) (7 * (v * (x + y)) + l) Q1 Q4 B6 B5) as (H' & L' & K1 & K2 & K3 & K4). { pose proof (Rle_trans _ _ _ (Rabs_pos _) HA). lra. }
  exists H', L'. split; [exact K1|]. split; [exact K2|].
  assert (VV : (v * (1.1 * (x + y) + (7 * (v * (x + y)) + l)) <= 3 * (v * (x + y)))%R). { replace (3 * (v * (x + y)))%R with (v * (3 * (x + y)))%R by ring. apply Rmult_le_compat_l; lra. }
  split.
  - apply Rabs_le. apply Rabs_le_inv in K3, E1, B5. replace (12 * v * (x + y))%R with (12 * (v * (x + y)))%R by ring. lra.
  - eapply Rle_trans; [exact K4|]. replace (16 * v * (x + y))%R with (16 * (v * (x + y)))%R by ring. lra.
Qed.

Lemma c27 : is_real D (f_of_Z D rm (2 ^ 27 + 1)) 134217729.
Proof. replace 134217729%R with (1 * IZR 0x10000002000000 * bp (-25))%R by (bpn; lra). destruct rm; apply (real_dec D _ false 0x10000002000000 (-25)); (split; vm_compute; congruence) || (vm_compute; reflexivity). Qed.
Lemma split_g : forall a A x, is_real D a A -> (Rabs A <= x)%R -> (bp (-900) <= x <= bp 900)%R ->
  exists H L, is_real D (fst (split D rm 27 a)) H /\ is_real D (snd (split D rm 27 a)) L /\ (Rabs (H - A) <= / 1000 * x)%R /\ (Rabs (L - (A - H)) <= v * x)%R.
Proof.
  intros a A x Ha HA (R1 & R2). pose proof v_pos as VP. pose proof (Rabs_pos A).
  assert (XP : (0 < x)%R) by (pose proof (bpow_gt_0 radix2 (-900)); lra).
  assert (BB : (bp 30 * bp 900 <= bp 1000)%R) by (rewrite <- bpow_plus; apply bpow_le; lia). assert (B10 : bp 30 = 1073741824%R) by (bpn; lra). rewrite B10 in BB. pose proof (bpow_gt_0 radix2 900).
  assert (B91 : (bp (-1000) <= bp (-900))%R) by (apply bpow_le; lia).
  assert (vx : (0 < v * x <= / 1000000000000000 * x)%R) by (split; [apply Rmult_lt_0_compat; lra|apply Rmult_le_compat_r; lra]).
  unfold split. cbn [fst snd].
  destruct (mul_g _ _ _ A (134217730 * x)%R c27 Ha) as (T1 & H1 & E1). { eapply Rle_trans; [apply mulb; [rewrite Rabs_pos_eq; [apply Rle_refl|lra]|exact HA]|lra]. } { split; lra. }
  assert (B1 := near_b _ _ _ _ E1 ltac:(apply mulb; [rewrite Rabs_pos_eq; [apply Rle_refl|lra]|exact HA])).
  destruct (sub_g _ _ A T1 (134217732 * x)%R Ha H1) as (T2 & H2 & E2). { apply Rabs_le. apply Rabs_le_inv in B1, HA. lra. } { split; lra. }
  destruct (add_g _ _ T1 T2 (2 * x)%R H1 H2) as (AH & H3 & E3). { apply Rabs_le. apply Rabs_le_inv in E2, HA. lra. } { split; lra. }
  exists AH. assert (B3 : (Rabs (AH - A) <= / 1000 * x)%R) by (apply Rabs_le; apply Rabs_le_inv in E2, E3; lra).
  destruct (sub_g _ _ A AH x Ha H3) as (AL & H4 & E4). { rewrite Rabs_minus_sym. lra. } { split; lra. }
  exists AL. repeat split; try apply H3; try apply H4; auto.
Qed.
Lemma em_g : forall a b A B x y, is_real D a A -> is_real D b B -> (Rabs A <= x)%R -> (Rabs B <= y)%R -> (bp (-900) <= x <= bp 900)%R -> (bp (-900) <= y <= bp 900)%R -> (bp (-990) <= x * y <= bp 900)%R ->
  exists H L, is_real D (fst (exact_mult D rm 27 a b)) H /\ is_real D (snd (exact_mult D rm 27 a b)) L /\ (Rabs (H - A * B) <= v * (x * y))%R /\ (Rabs L <= 40 * (v * (x * y)))%R.
Proof.
  intros a b A B x y Ha Hb HA HB Rx Ry (R1 & R2). pose proof v_pos as VP.
  assert (XP : (0 < x)%R) by (pose proof (bpow_gt_0 radix2 (-900)); lra). assert (YP : (0 < y)%R) by (pose proof (bpow_gt_0 radix2 (-900)); lra).
  unfold exact_mult. destruct (split D rm 27 a) as (ah, al) eqn:Ea. destruct (split D rm 27 b) as (bh, bl) eqn:Eb.
  destruct (split_g a A x Ha HA Rx) as (AH & AL & H1 & H2 & A1 & A2). rewrite Ea in H1, H2. destruct (split_g b B y Hb HB Ry) as (BH & BL & H3 & H4 & B1 & B2). rewrite Eb in H3, H4. cbn [fst snd] in *.
  set (P := (x * y)%R) in *. assert (PP : (0 < P)%R) by (apply Rmult_lt_0_compat; auto).
  assert (vP : (0 < v * P <= / 1000000000000000 * P)%R) by (split; [apply Rmult_lt_0_compat; lra|apply Rmult_le_compat_r; lra]).
  assert (vx : (0 < v * x <= / 1000000000000000 * x)%R) by (split; [apply Rmult_lt_0_compat; lra|apply Rmult_le_compat_r; lra]).
  assert (vy : (0 < v * y <= / 1000000000000000 * y)%R) by (split; [apply Rmult_lt_0_compat; lra|apply Rmult_le_compat_r; lra]).
  assert (BB : (bp 30 * bp 900 <= bp 1000)%R) by (rewrite <- bpow_plus; apply bpow_le; lia). assert (B10 : bp 30 = 1073741824%R) by (bpn; lra). rewrite B10 in BB. pose proof (bpow_gt_0 radix2 900).
  assert (B91 : (bp (-1000) <= / 1000 * bp (-990))%R). { replace (-1000) with (-10 + -990) by ring. rewrite bpow_plus. apply Rmult_le_compat_r; [apply bpow_ge_0|bpn; lra]. }
  assert (CA : (Rabs AH <= 1.001 * x)%R) by (apply Rabs_le; apply Rabs_le_inv in A1, HA; lra). assert (CB : (Rabs BH <= 1.001 * y)%R) by (apply Rabs_le; apply Rabs_le_inv in B1, HB; lra).
  assert (DA : (Rabs AL <= 0.002 * x)%R) by (apply Rabs_le; apply Rabs_le_inv in A1, A2; lra). assert (DB : (Rabs BL <= 0.002 * y)%R) by (apply Rabs_le; apply Rabs_le_inv in B1, B2; lra).
  pose proof (mulb _ _ _ _ HA HB) as M0. fold P in M0.
  assert (M1 := mulb _ _ _ _ CA CB). replace (1.001 * x * (1.001 * y))%R with (1.002001 * P)%R in M1 by (unfold P; lra).
  assert (M2 := mulb _ _ _ _ CA DB). replace (1.001 * x * (0.002 * y))%R with (0.002002 * P)%R in M2 by (unfold P; lra).
  assert (M3 := mulb _ _ _ _ DA CB). replace (0.002 * x * (1.001 * y))%R with (0.002002 * P)%R in M3 by (unfold P; lra).
  assert (M4 := mulb _ _ _ _ DA DB). replace (0.002 * x * (0.002 * y))%R with (0.000004 * P)%R in M4 by (unfold P; lra).
  assert (RG : forall c, (1 <= c <= 100)%R -> rng (c * P)). { intros c Hc. pose proof (bpow_gt_0 radix2 (-990)). split; [apply Rle_trans with (1 * P)%R; [lra|apply Rmult_le_compat_r; lra]|apply Rle_trans with (100 * P)%R; [apply Rmult_le_compat_r; lra|lra]]. }
  destruct (mul_g a b A B (1 * P)%R Ha Hb ltac:(lra) ltac:(apply RG; lra)) as (R & K0 & E0).
  destruct (mul_g ah bh AH BH (2 * P)%R H1 H3 ltac:(lra) ltac:(apply RG; lra)) as (V1 & K1 & E1).
  destruct (mul_g ah bl AH BL (1 * P)%R H1 H4 ltac:(lra) ltac:(apply RG; lra)) as (V2 & K2 & E2).
  destruct (mul_g al bh AL BH (1 * P)%R H2 H3 ltac:(lra) ltac:(apply RG; lra)) as (V3 & K3 & E3).
  destruct (mul_g al bl AL BL (1 * P)%R H2 H4 ltac:(lra) ltac:(apply RG; lra)) as (V4 & K4 & E4).
  rewrite Rmult_1_l in E0, E2, E3, E4. replace (v * (2 * P))%R with (2 * (v * P))%R in E1 by ring.
  pose proof (Rabs_le_inv _ _ M0). apply Rabs_le_inv in M1, M2, M3, M4, E1, E2, E3, E4. pose proof (Rabs_le_inv _ _ E0).
  destruct (sub_g _ _ V1 R (3 * P)%R K1 K0 ltac:(apply Rabs_le; lra) ltac:(apply RG; lra)) as (S1 & K5 & E5). replace (v * (3 * P))%R with (3 * (v * P))%R in E5 by ring. apply Rabs_le_inv in E5.
  destruct (add_g _ _ V2 S1 (4 * P)%R K2 K5 ltac:(apply Rabs_le; lra) ltac:(apply RG; lra)) as (S2 & K6 & E6). replace (v * (4 * P))%R with (4 * (v * P))%R in E6 by ring. apply Rabs_le_inv in E6.
  destruct (add_g _ _ V3 S2 (5 * P)%R K3 K6 ltac:(apply Rabs_le; lra) ltac:(apply RG; lra)) as (S3 & K7 & E7). replace (v * (5 * P))%R with (5 * (v * P))%R in E7 by ring. apply Rabs_le_inv in E7.
  destruct (add_g _ _ V4 S3 (6 * P)%R K4 K7 ltac:(apply Rabs_le; lra) ltac:(apply RG; lra)) as (S4 & K8 & E8). replace (v * (6 * P))%R with (6 * (v * P))%R in E8 by ring. apply Rabs_le_inv in E8.
  exists R, S4. split; [exact K0|]. split; [exact K8|]. split; [exact E0|].
  (* (AH + AL) (BH + BL) - A B *)
  assert (Q1 : (Rabs ((AH + AL - A) * (BH + BL)) <= 1.1 * (v * P))%R).
  { eapply Rle_trans; [apply mulb; [|apply tri; [exact CB|exact DB]]|]. { replace (AH + AL - A)%R with (AL - (A - AH))%R by ring. exact A2. } replace (v * x * (1.001 * y + 0.002 * y))%R with (1.003 * (v * P))%R by (unfold P; lra). lra. }
  assert (Q2 : (Rabs (A * (BH + BL - B)) <= v * P)%R). { eapply Rle_trans; [apply mulb; [exact HA|]|]. { replace (BH + BL - B)%R with (BL - (B - BH))%R by ring. exact B2. } right. unfold P. ring. }
  apply Rabs_le_inv in Q1, Q2.
  assert (ID : (AH * BH + AH * BL + AL * BH + AL * BL = A * B + (AH + AL - A) * (BH + BL) + A * (BH + BL - B))%R) by ring.
  apply Rabs_le. lra.
Qed.
(** The lower parts are at most [l] and [m]. *)
Lemma qmd_g : forall a b A BH BL x y m, is_real D a A -> is_real D (fst b) BH -> is_real D (snd b) BL -> (Rabs A <= x)%R -> (Rabs BH <= y)%R -> (Rabs BL <= m)%R -> (m <= y)%R -> (bp (-900) <= x <= bp 900)%R -> (bp (-900) <= y <= bp 900)%R -> (bp (-990) <= x * y <= bp 900)%R ->
  exists H L, is_real D (fst (quick_mult_d D rm 27 a b)) H /\ is_real D (snd (quick_mult_d D rm 27 a b)) L /\ (Rabs (H - A * BH) <= v * (x * y))%R /\ (Rabs L <= 42 * (v * (x * y)) + x * m)%R.
Proof.
  intros a b A BH BL x y m Ha Hb Hl HA HB HL LM Rx Ry RP. pose proof v_pos as VP. destruct (em_g a (fst b) A BH x y Ha Hb HA HB Rx Ry RP) as (H & L & K1 & K2 & E1 & E2).
  unfold quick_mult_d. destruct (exact_mult D rm 27 a (fst b)) as (rh, rl). cbn [fst snd] in *.
  assert (XP : (0 < x)%R) by (pose proof (bpow_gt_0 radix2 (-900)); lra). pose proof (mulb _ _ _ _ HA HL) as M1. assert (M2 : (x * m <= x * y)%R) by (apply Rmult_le_compat_l; lra).
  set (P := (x * y)%R) in *. assert (PP : (0 < P)%R) by (pose proof (bpow_gt_0 radix2 (-990)); lra).
  assert (vP : (0 < v * P <= / 1000000000000000 * P)%R) by (split; [apply Rmult_lt_0_compat; lra|apply Rmult_le_compat_r; lra]).
  destruct (fma_g a (snd b) rl A BL L (2 * P)%R Ha Hl K2) as (S & K3 & E3). { eapply Rle_trans; [apply tri; [exact M1|exact E2]|lra]. }
  { destruct RP as (R1 & R2). split; [apply Rle_trans with (bp (-990)); [apply bpow_le; lia|lra]|]. apply Rle_trans with (bp 1 * bp 900)%R; [change (bp 1) with 2%R; lra|rewrite <- bpow_plus; apply bpow_le; lia]. }
  exists H, S. split; [exact K1|]. split; [exact K3|]. split; [exact E1|]. pose proof (near_b _ _ _ _ E3 ltac:(apply tri; [exact M1|exact E2])). replace (v * (2 * P))%R with (2 * (v * P))%R in * by ring. lra.
Qed.
Lemma qm_g : forall a b AH AL BH BL x y l m, is_real D (fst a) AH -> is_real D (snd a) AL -> is_real D (fst b) BH -> is_real D (snd b) BL -> (Rabs AH <= x)%R -> (Rabs BH <= y)%R -> (Rabs AL <= l)%R -> (Rabs BL <= m)%R -> (l <= x)%R -> (m <= y)%R ->
  (bp (-900) <= x <= bp 900)%R -> (bp (-900) <= y <= bp 900)%R -> (bp (-990) <= x * y <= bp 900)%R ->
  exists H L, is_real D (fst (quick_mult D rm 27 a b)) H /\ is_real D (snd (quick_mult D rm 27 a b)) L /\ (Rabs (H - AH * BH) <= v * (x * y))%R /\ (Rabs L <= 45 * (v * (x * y)) + x * m + l * y)%R.
Proof.
  intros a b AH AL BH BL x y l m Ha Hal Hb Hl HA HB HAL HL LX LM Rx Ry RP. pose proof v_pos as VP. destruct (em_g (fst a) (fst b) AH BH x y Ha Hb HA HB Rx Ry RP) as (H & L & K1 & K2 & E1 & E2).
  unfold quick_mult. destruct (exact_mult D rm 27 (fst a) (fst b)) as (rh, rl). cbn [fst snd] in *.
  assert (XP : (0 < x)%R) by (pose proof (bpow_gt_0 radix2 (-900)); lra). assert (YP : (0 < y)%R) by (pose proof (bpow_gt_0 radix2 (-900)); lra). pose proof (mulb _ _ _ _ HA HL) as M1. assert (M2 : (x * m <= x * y)%R) by (apply Rmult_le_compat_l; lra).
  pose proof (mulb _ _ _ _ HAL HB) as M3. assert (M4 : (l * y <= x * y)%R) by (apply Rmult_le_compat_r; lra).
  set (P := (x * y)%R) in *. assert (PP : (0 < P)%R) by (pose proof (bpow_gt_0 radix2 (-990)); lra).
  assert (vP : (0 < v * P <= / 1000000000000000 * P)%R) by (split; [apply Rmult_lt_0_compat; lra|apply Rmult_le_compat_r; lra]).
  destruct RP as (R1 & R2).
  assert (RG : forall c, (1 <= c <= 3)%R -> rng (c * P)). { intros c Hc. split; [apply Rle_trans with (bp (-990)); [apply bpow_le; lia|apply Rle_trans with (1 * P)%R; [lra|apply Rmult_le_compat_r; lra]]|]. apply Rle_trans with (bp 2 * bp 900)%R; [change (bp 2) with 4%R; apply Rmult_le_compat; lra|rewrite <- bpow_plus; apply bpow_le; lia]. }
  destruct (fma_g (fst a) (snd b) rl AH BL L (2 * P)%R Ha Hl K2) as (S & K3 & E3). { eapply Rle_trans; [apply tri; [exact M1|exact E2]|lra]. } { apply RG; lra. }
  pose proof (near_b _ _ _ _ E3 ltac:(apply tri; [exact M1|exact E2])) as B3. replace (v * (2 * P))%R with (2 * (v * P))%R in * by ring.
  destruct (fma_g (snd a) (fst b) _ AL BH S (3 * P)%R Hal Hb K3) as (S' & K4 & E4). { eapply Rle_trans; [apply tri; [exact M3|exact B3]|lra]. } { apply RG; lra. }
  exists H, S'. split; [exact K1|]. split; [exact K4|]. split; [exact E1|]. pose proof (near_b _ _ _ _ E4 ltac:(apply tri; [exact M3|exact B3])). replace (v * (3 * P))%R with (3 * (v * P))%R in * by ring. lra.
Qed.

(** ** dd_poly: [gs] are the upper parts of the coefficients with bounds of their absolute values. *)
Definition cf (c : Z * Z) (g : R * R) : Prop := exists CL, is_real D (fst c) (fst g) /\ is_real D (snd c) CL /\ (Rabs (fst g) <= snd g)%R /\ (Rabs CL <= v * snd g)%R /\ (bp (-300) <= snd g)%R.
Definition hv (X : R) (gs : list (R * R)) : R := hr X (map fst gs).
Definition hb (X : R) (gs : list (R * R)) : R := hr X (map snd gs).
Fixpoint dec (xi k : R) (gs : list (R * R)) : Prop :=
  match gs with [] => True | [_] => True | g :: l => (hb xi l <= k * hb xi gs)%R /\ (hb xi l <= 1024)%R /\ dec xi k l end.
Lemma hb_pos : forall xi cs gs, Forall2 cf cs gs -> (0 < xi)%R -> gs <> [] -> (bp (-300) <= hb xi gs)%R.
Proof.
  intros xi cs gs H X. induction H as [|c g cs gs C F IH]; [congruence|]. intros _. destruct C as (CL & _ & _ & _ & _ & B). unfold hb in *. cbn [map hr].
  destruct gs as [|g' gs]; [cbn [map hr]; rewrite Rmult_0_r, Rplus_0_r; exact B|]. specialize (IH ltac:(discriminate)). assert (0 < xi * hr xi (map snd (g' :: gs)))%R; [|lra]. apply Rmult_lt_0_compat; [auto|]. pose proof (bpow_gt_0 radix2 (-300)). lra.
Qed.
Lemma dd_poly_g : forall x XH XL xi w k, is_real D (fst x) XH -> is_real D (snd x) XL -> (Rabs XH <= xi)%R -> (Rabs XL <= w)%R -> (bp (-100) <= xi <= bp 10)%R -> (w <= xi)%R -> (0 <= k)%R -> (20 * (300 * v + 4 * (w * k)) <= 1)%R ->
  forall cs gs, Forall2 cf cs gs -> gs <> [] -> dec xi k gs -> (hb xi gs <= 1024)%R -> (INR (length gs) <= 20)%R ->
  exists H L, is_real D (fst (dd_poly rm x cs)) H /\ is_real D (snd (dd_poly rm x cs)) L /\
    (Rabs (H - hv XH gs) <= INR (length gs) * (300 * v + 4 * (w * k)) * hb xi gs)%R /\ (Rabs L <= 48 * v * hb xi gs)%R /\ (Rabs (hv XH gs) <= hb xi gs)%R.
Proof.
  intros x XH XL xi w k Hx Hl BX BL RX WX KP SM cs gs F. pose proof v_pos as VP. assert (WP : (0 <= w)%R) by (pose proof (Rabs_pos XL); lra). assert (WK : (0 <= w * k)%R) by (apply Rmult_le_pos; auto).
  assert (XP : (0 < xi)%R) by (pose proof (bpow_gt_0 radix2 (-100)); lra).
  set (q := (300 * v + 4 * (w * k))%R) in *. assert (QP : (0 < q)%R) by (unfold q; lra).
  induction F as [|c g cs gs C F IH]; [congruence|]. intros _ DC GB LN. pose proof (hb_pos xi (c :: cs) (g :: gs) ltac:(constructor; auto) XP ltac:(discriminate)) as GP.
  destruct C as (CL & C1 & C2 & C3 & C4 & C5). assert (P3 := bpow_gt_0 radix2 (-300)).
  destruct gs as [|g' gs].
  - inversion F; subst. exists (fst g), CL. unfold hb, hv in *. cbn [map hr length dd_poly INR] in *. rewrite Rmult_0_r, Rplus_0_r in *. rewrite Rmult_0_r, Rplus_0_r.
    split; [exact C1|]. split; [exact C2|]. split; [rewrite Rminus_diag_eq, Rabs_R0 by reflexivity; apply Rmult_le_pos; lra|]. split; [|exact C3]. assert (v * snd g <= 48 * v * snd g)%R; [|lra]. apply Rmult_le_compat_r; lra.
  - inversion F as [|c' g0 cs' gs0 C' F' E1 E2]; subst. set (l := g' :: gs) in *. destruct DC as (DK & GB1 & DC). fold l in DC.
    assert (GE : hb xi (g :: l) = (snd g + xi * hb xi l)%R) by reflexivity. assert (VE0 : hv XH (g :: l) = (fst g + XH * hv XH l)%R) by reflexivity.
    pose proof (hb_pos xi (c' :: cs') l F XP ltac:(discriminate)) as GP'.
    assert (N0 : INR (length (g :: l)) = (INR (length l) + 1)%R) by (unfold l; cbn [length]; rewrite !S_INR; ring). rewrite N0 in *. pose proof (pos_INR (length l)) as NP.
    set (G' := hb xi l) in *. set (G := hb xi (g :: l)) in *. set (Q := (xi * G')%R) in *.
    assert (QP' : (0 < Q)%R) by (apply Rmult_lt_0_compat; lra).
    assert (QX : (bp (-400) <= Q)%R) by (apply Rle_trans with (bp (-100) * bp (-300))%R; [rewrite <- bpow_plus; apply bpow_le; lia|apply Rmult_le_compat; try apply bpow_ge_0; lra]).
    assert (T10 : bp 10 = 1024%R) by (bpn; lra). assert (T100 : (bp 10 * bp 100 <= bp 890)%R) by (rewrite <- bpow_plus; apply bpow_le; lia). rewrite T10 in *. pose proof (bpow_gt_0 radix2 100). assert (T1 : (1 <= bp 100)%R) by (change 1%R with (bp 0); apply bpow_le; lia).
    assert (T9 : (bp 890 <= bp 900)%R) by (apply bpow_le; lia).
    destruct (IH ltac:(discriminate) DC GB1 ltac:(lra)) as (H0 & L0 & K1 & K2 & E1 & E2 & E3). fold G' in E1, E2, E3. change (dd_poly rm x (c' :: cs')) with (dd_poly rm x (c' :: cs')) in K1, K2.
    change (dd_poly rm x (c :: c' :: cs')) with (dd_multiply_add D rm 27 x (dd_poly rm x (c' :: cs')) c). unfold dd_multiply_add. set (acc := dd_poly rm x (c' :: cs')) in *.
    assert (E1' : (INR (length l) * q * G' <= G')%R). { replace G' with (1 * G')%R at 2 by ring. apply Rmult_le_compat_r; [lra|]. apply Rle_trans with (20 * q)%R; [apply Rmult_le_compat_r; lra|lra]. }
    assert (HB : (Rabs H0 <= 2 * G')%R). { pose proof (near_b _ _ _ _ E1 E3). lra. }
    assert (vG : (0 < v * G' <= / 1000000000000000 * G')%R) by (split; [apply Rmult_lt_0_compat; lra|apply Rmult_le_compat_r; lra]).
    assert (vQ : (0 < v * Q <= / 1000000000000000 * Q)%R) by (split; [apply Rmult_lt_0_compat; lra|apply Rmult_le_compat_r; lra]).
    assert (GPOS : (0 < G)%R) by lra. assert (vGG : (0 < v * G <= / 1000000000000000 * G)%R) by (split; [apply Rmult_lt_0_compat; lra|apply Rmult_le_compat_r; lra]).
    assert (QM : (Q <= 1048576)%R). { unfold Q. replace 1048576%R with (1024 * 1024)%R by ring. apply Rmult_le_compat; lra. }
    assert (B91 : (bp (-900) <= bp (-300))%R) by (apply bpow_le; lia). assert (B92 : (bp (-900) <= bp (-100))%R) by (apply bpow_le; lia). assert (B93 : (bp (-990) <= bp (-400))%R) by (apply bpow_le; lia).
    assert (T30 : (bp 30 <= bp 890)%R) by (apply bpow_le; lia). replace (bp 30) with 1073741824%R in T30 by (bpn; lra).
    destruct (qm_g x acc XH XL H0 L0 xi (2 * G') w (48 * v * G') Hx Hl K1 K2 BX HB BL E2 WX ltac:(lra) ltac:(lra) ltac:(lra)) as (PH & PL & M1 & M2 & A1 & A2).
    { replace (xi * (2 * G'))%R with (2 * Q)%R by (unfold Q; ring). lra. }
    replace (v * (xi * (2 * G')))%R with (2 * (v * Q))%R in A1, A2 by (unfold Q; ring). replace (xi * (48 * v * G'))%R with (48 * (v * Q))%R in A2 by (unfold Q; ring).
    assert (WG : (w * G' <= w * k * G)%R) by (rewrite Rmult_assoc; apply Rmult_le_compat_l; auto).
    assert (WQ : (w * (2 * G') <= 2 * Q)%R). { replace (w * (2 * G'))%R with (2 * (w * G'))%R by ring. assert (w * G' <= Q)%R; [|lra]. unfold Q. apply Rmult_le_compat_r; lra. }
    assert (PB : (Rabs PH <= 2.1 * Q)%R). { pose proof (near_b _ _ _ _ A1 (mulb _ _ _ _ BX HB)) as N. replace (xi * (2 * G'))%R with (2 * Q)%R in N by (unfold Q; ring). lra. }
    assert (VG1 : (v * snd g <= v * G)%R) by (apply Rmult_le_compat_l; lra). assert (VQ1 : (v * Q <= v * G)%R) by (apply Rmult_le_compat_l; lra).
    assert (SG : (0 < snd g)%R) by lra. assert (vg : (v * snd g <= / 1000000000000000 * snd g)%R) by (apply Rmult_le_compat_r; lra).
    destruct (dd_add_g c (quick_mult D rm 27 x acc) (fst g) CL PH PL (snd g) (2.1 * Q) (v * snd g + (138 * (v * Q) + w * (2 * G'))) C1 C2 M1 M2 C3 PB) as (H' & L' & N1 & N2 & N3 & N4).
    { lra. } { lra. } { lra. }
    exists H', L'. split; [exact N1|]. split; [exact N2|].
    assert (SUM : (v * (snd g + 2.1 * Q) <= 2.1 * (v * G))%R). { replace (2.1 * (v * G))%R with (v * (2.1 * G))%R by lra. apply Rmult_le_compat_l; lra. }
    split; [|split].
    + rewrite VE0. replace (H' - (fst g + XH * hv XH l))%R with ((H' - (fst g + PH)) + ((PH - XH * H0) + XH * (H0 - hv XH l)))%R by ring.
      eapply Rle_trans; [apply tri; [exact N3|apply tri; [exact A1|apply mulb; [exact BX|exact E1]]]|].
      assert (QQ : (xi * (INR (length l) * q * G') <= INR (length l) * q * G)%R). { replace (xi * (INR (length l) * q * G'))%R with (INR (length l) * q * Q)%R by (unfold Q; ring). apply Rmult_le_compat_l; [apply Rmult_le_pos; lra|lra]. }
      replace ((INR (length l) + 1) * q * G)%R with (INR (length l) * q * G + q * G)%R by ring. assert (q * G = 300 * (v * G) + 4 * (w * k * G))%R by (unfold q; ring). assert (WKG : (0 <= w * k * G)%R) by (apply Rmult_le_pos; lra). lra.
    + eapply Rle_trans; [exact N4|]. lra.
    + rewrite VE0, GE. apply tri; [exact C3|]. apply mulb; auto.
Qed.
End Ops.
