(** * The double logarithms: the remainder *)
From Coq Require Import ZArith Lia Bool Reals Lra List.
From Flocq Require Import Core Relative.
From Interval Require Import Tactic.
From Verif Require Import MachInt Fmt FloatSpec FmtProofs RoundProofs FOps FOpsProofs ExactOps ExtFloatSpec ExtFloatProofs ExtInterp FmanipWide ErrLib ExpoData LogDataD ExpoF LogD Exp2fProofs ExpoFWrap LogRed LogfNum LogfProofs LogDTab LogDNum LogDRed.
Import ListNotations.
Open Scope Z_scope.

Lemma ln_move : forall A e, (99 / 100 <= A)%R -> (Rabs e <= / 100000)%R -> (Rabs (ln (A - e) - ln A) <= Rabs e * (1 + / 10000) / A)%R.
Proof.
  intros A e HA He. set (q := (- e / A)%R). assert (QA : (Rabs q = Rabs e / A)%R). { unfold q, Rdiv. rewrite Rabs_mult, Rabs_Ropp, Rabs_inv, (Rabs_pos_eq A) by lra. reflexivity. }
  assert (QB : (Rabs q <= / 20000)%R). { rewrite QA. apply Rmult_le_reg_r with A; [lra|]. replace (Rabs e / A * A)%R with (Rabs e) by (field; lra). lra. }
  assert (QB' := QB). apply Rabs_le_inv in QB'.
  replace (ln (A - e) - ln A)%R with (ln (1 + q)).
  2: { replace (A - e)%R with (A * (1 + q))%R by (unfold q; field; lra). rewrite ln_mult by lra. ring. }
  replace (Rabs e * (1 + / 10000) / A)%R with (Rabs q * (1 + / 10000))%R by (rewrite QA; field; lra).
  pose proof (ln1p_upper q ltac:(lra)) as U. pose proof (ln1p_lower q ltac:(lra)) as L.
  assert (G : (- (Rabs q * (1 + / 10000)) <= q / (1 + q))%R).
  { apply Rmult_le_reg_r with (1 + q)%R; [lra|]. replace (q / (1 + q) * (1 + q))%R with q by (field; lra). unfold Rabs in *. destruct (Rcase_abs q); nra. }
  apply Rabs_le. split; [lra|]. pose proof (Rle_abs q). pose proof (Rabs_pos q). lra.
Qed.
Lemma rem_d : forall rm b z invc chi clo Z IV CH CL k, b = 6 \/ b = 7 -> is_real D z Z -> is_real D invc IV -> is_real D chi CH -> is_real D clo CL ->
  (exists m, Z = IZR m * bp (-53))%R -> (exists n, CH = IZR n * bp (-53))%R -> (Rabs CL <= bp (-53))%R -> (11 / 16 <= Z <= 11 / 8)%R ->
  (Rabs ((CH + CL) * IV - 1) <= bp (-106))%R -> (1 / 2 <= IV <= 3 / 2)%R -> (1 / 2 <= CH + CL <= 2)%R -> - b - 1 <= k <= - b -> (bp k * IV <= bp (- b))%R ->
  (Rabs (Z - (CH + CL)) <= bp k)%R -> (Rabs ((Z - (CH + CL)) * IV) <= 3895 / 1000000 * bp (7 - b))%R ->
  exists R, is_real D (f_mul D rm (f_sub D rm (f_sub D rm z chi) clo) invc) R /\ (Rabs R <= 39 / 10000 * bp (7 - b))%R /\
   (Rabs (ln Z - (ln (CH + CL) + ln (1 + R))) <= 1513 / 1000 * bp (- b) * hD rm + bp (-99))%R.
Proof.
  intros rm b z invc chi clo Z IV CH CL k Hb Hz Hi Hh Hc (m & MZ) (n & MC) BL BZ TI BI BC Hk BK ZK ZR.
  pose proof (hD_b rm) as HH. set (h := hD rm) in *. set (C := (CH + CL)%R) in *.
  assert (KB : (0 < bp k <= / 64)%R). { split; [apply bpow_gt_0|]. change (/ 64)%R with (bp (-6)). apply bpow_le. lia. }
  assert (H1 : is_real D (f_sub D rm z chi) (Z - CH)).
  { apply (sub_x D good64) with (1 := Hz) (2 := Hh); [reflexivity| |].
    - assert (E : (Z - CH = IZR (m - n) * bp (-53))%R) by (rewrite MZ, MC, minus_IZR; ring). rewrite E. apply gfx; [lia|]. rewrite <- E.
      replace (Z - CH)%R with ((Z - C) + CL)%R by (unfold C; ring). change (bp (-53 + 53)) with 1%R. bpn_in BL. pose proof (Rabs_triang (Z - C) CL). lra.
    - apply bigD with 0; [lia|]. replace (Z - CH)%R with ((Z - C) + CL)%R by (unfold C; ring). change (bp 0) with 1%R. bpn_in BL. pose proof (Rabs_triang (Z - C) CL). lra. }
  destruct (sub_h rm _ _ _ _ k H1 Hc ltac:(lia)) as (e1 & E1 & H2). { replace (Z - CH - CL)%R with (Z - C)%R by (unfold C; ring). exact ZK. }
  replace (Z - CH - CL)%R with (Z - C)%R in H2 by (unfold C; ring). fold h in E1.
  assert (E1' : (Rabs (e1 * IV) <= bp (- b) * h)%R).
  { rewrite Rabs_mult, (Rabs_pos_eq IV) by lra. apply Rle_trans with (bp k * h * IV)%R; [apply Rmult_le_compat_r; lra|]. replace (bp k * h * IV)%R with (bp k * IV * h)%R by ring. apply Rmult_le_compat_r; lra. }
  assert (QB : (0 < bp (- b) /\ bp (- b) <= / 64 /\ bp (7 - b) = 128 * bp (- b) /\ bp (- b - 1) = / 2 * bp (- b))%R).
  { split; [apply bpow_gt_0|]. split; [change (/ 64)%R with (bp (-6)); apply bpow_le; lia|]. split; [change 128%R with (bp 7); rewrite <- bpow_plus; f_equal; ring|].
    unfold Zminus. rewrite bpow_plus. change (bp (- (1))) with (/ 2)%R. ring. }
  destruct QB as (QP & QL & Q7 & Q1). rewrite Q7 in *. set (q := bp (- b)) in *. clearbody q. bpn_in HH.
  assert (HQ : (0 <= q * h <= / 9007199254740992 * q)%R) by (split; [apply Rmult_le_pos; lra|rewrite Rmult_comm; apply Rmult_le_compat_r; lra]).
  destruct (mul_h rm _ _ _ _ (- b - 1) H2 Hi ltac:(lia)) as (e2 & E2 & H3).
  { rewrite Q1. rewrite Rmult_plus_distr_r. pose proof (Rabs_triang ((Z - C) * IV) (e1 * IV)). lra. }
  rewrite Q1 in E2. fold h in E2. eexists. split; [exact H3|]. set (R := ((Z - C + e1) * IV + e2)%R).
  assert (RB : (Rabs R <= 39 / 10000 * (128 * q))%R).
  { unfold R. replace ((Z - C + e1) * IV + e2)%R with ((Z - C) * IV + (e1 * IV + e2))%R by ring. pose proof (Rabs_triang ((Z - C) * IV) (e1 * IV + e2)). pose proof (Rabs_triang (e1 * IV) e2). lra. }
  split; [exact RB|]. set (e := (R - (Z / C - 1))%R).
  assert (EB : (Rabs e <= 3 / 2 * (q * h) + bp (-110))%R).
  { replace e with (e1 * IV + (e2 + (Z - C) * / C * (C * IV - 1)))%R by (unfold e, R; field; lra).
    pose proof (Rabs_triang (e1 * IV) (e2 + (Z - C) * / C * (C * IV - 1))). pose proof (Rabs_triang e2 ((Z - C) * / C * (C * IV - 1))) as T.
    assert (W : (Rabs ((Z - C) * / C * (C * IV - 1)) <= / 64 * 2 * bp (-106))%R).
    { rewrite !Rabs_mult. apply Rmult_le_compat; [apply Rmult_le_pos; apply Rabs_pos|apply Rabs_pos| |exact TI]. apply Rmult_le_compat; [apply Rabs_pos|apply Rabs_pos|lra|].
      rewrite Rabs_pos_eq by (apply Rlt_le, Rinv_0_lt_compat; lra). replace 2%R with (/ (/ 2))%R by field. apply Rinv_le; lra. }
    replace (bp (-110)) with (/ 16 * bp (-106))%R by (change (-110) with (-4 + -106); rewrite (bpow_plus radix2 (-4)); bpn; lra). assert (0 < bp (-106))%R by apply bpow_gt_0. lra. }
  assert (T110 : (0 < bp (-110) <= / 1000000000000)%R). { split; [apply bpow_gt_0|]. apply Rle_trans with (bp (-40)); [apply bpow_le; lia|bpn; lra]. }
  assert (T99 : (bp (-99) = 2048 * bp (-110))%R) by (change 2048%R with (bp 11); rewrite <- bpow_plus; reflexivity).
  set (t := bp (-110)) in *. clearbody t.
  replace (ln Z) with (ln C + ln (1 + R - e))%R.
  2: { rewrite <- ln_mult; [|lra|]. - f_equal. unfold e. field. lra. - replace (1 + R - e)%R with (Z / C)%R by (unfold e; ring). apply Rdiv_lt_0_compat; lra. }
  replace (ln C + ln (1 + R - e) - (ln C + ln (1 + R)))%R with (ln (1 + R - e) - ln (1 + R))%R by ring.
  assert (RB' := RB). apply Rabs_le_inv in RB'.
  apply Rle_trans with (1 := ln_move (1 + R) e ltac:(lra) ltac:(lra)).
  apply Rmult_le_reg_r with (1 + R)%R; [lra|]. replace (Rabs e * (1 + / 10000) / (1 + R) * (1 + R))%R with (Rabs e * (1 + / 10000))%R by (field; lra).
  rewrite T99. apply Rle_trans with ((1513 / 1000 * q * h + 2048 * t) * (9921 / 10000))%R.
  - apply Rle_trans with ((3 / 2 * (q * h) + t) * (1 + / 10000))%R; [apply Rmult_le_compat_r; lra|]. lra.
  - apply Rmult_le_compat_l; [|lra]. lra.
Qed.
