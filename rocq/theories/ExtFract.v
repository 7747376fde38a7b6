(** * ccm::ext on floating-point numbers: fract, repeat, delta_angle, ping_pong *)
From Coq Require Import ZArith Lia Bool Reals Lra.
From Flocq Require Import Core Plus_error Mult_error.
From Verif Require Import MachInt Bits Fmt FloatSpec FmtProofs RoundProofs FOps FOpsProofs ExactOps FPBits FPBitsProofs
  Compare CompareProofs Nearest NearestProofs FmanipProofs Basic BasicProofs LerpProofs RemProofs ExtFloatSpec ExtFloat ExtFloatProofs ExtInterp.
Open Scope Z_scope.

Section Fract.
Context (F : fmt) (HF : good_fmt F) (HelF : el F <= 16).
Notation fexp := (FLT_exp (emin F) (prec F)).
Notation big := (bpow radix2 (bias F + 1)).

Lemma floor_r : forall rm x X, is_real F x X -> is_real F (cc_floor F rm x) (IZR (Zfloor X)).
Proof. intros rm x X (P & Fi & <-). destruct (floor_fin F HF HelF rm x P Fi) as (A & B & _ & C). split; auto. Qed.

(** ** fract *)
Theorem fract_spec : forall rm x X, is_real F x X ->
  is_real F (fract F rm x) (fround F rm (X - IZR (Zfloor X))) /\ (0 <= fround F rm (X - IZR (Zfloor X)) <= 1)%R /\
  ((0 <= X \/ X <= - / 2)%R -> is_real F (fract F rm x) (X - IZR (Zfloor X)) /\ (0 <= X - IZR (Zfloor X) < 1)%R).
Proof.
  intros rm x X Hx. pose proof (floor_r rm x X Hx) as HL. pose proof (Zfloor_lb X) as L1. pose proof (Zfloor_ub X) as L2.
  assert (R : (0 <= fround F rm (X - IZR (Zfloor X)) <= 1)%R).
  { split; [apply (fround_ge_gen F HF); [apply generic_format_0|lra]|apply (fround_le_gen F HF); [apply (one_fmt F HF)|lra]]. }
  pose proof (one_big F HF) as OB.
  assert (RR : is_real F (fract F rm x) (fround F rm (X - IZR (Zfloor X)))) by (apply (sub_r F HF); auto; apply Rabs_def1; lra).
  split; [auto|]. split; [auto|]. intros HX.
  assert (G : generic_format radix2 fexp (X - IZR (Zfloor X))).
  { destruct Hx as (P & Fi & E). rewrite <- E in *.
    assert (D : (Rabs (fval F x - IZR (Zfloor (fval F x))) <= Rabs (fval F x))%R).
    2:{ destruct (format_frac F HF x _ Fi D) as [[Z|G]|(k & Z)]; auto.
        - rewrite Z at 1. replace (IZR _ - IZR _)%R with 0%R by ring. apply generic_format_0.
        - rewrite Z, Zfloor_IZR. replace (IZR _ - IZR _)%R with 0%R by ring. apply generic_format_0. }
    rewrite (Rabs_pos_eq (fval F x - _)) by lra.
    destruct HX as [HX|HX].
    - rewrite Rabs_pos_eq by auto. assert (0 <= IZR (Zfloor (fval F x)))%R by (apply IZR_le; apply Zfloor_lub; auto). lra.
    - rewrite Rabs_left by lra. destruct (Rle_or_lt (fval F x) (-1)) as [H|H]; [lra|].
      assert (E1 : Zfloor (fval F x) = -1) by (apply Zfloor_imp; cbn; lra). rewrite E1. lra. }
  rewrite (fround_exact F rm _ G) in RR. split; [auto|lra].
Qed.
Theorem fract_special : forall rm x, is_pattern F x -> is_fin F x = false -> is_nan F (fract F rm x) = true.
Proof.
  intros rm x P H. unfold fract. rewrite (floor_special F HF HelF rm x H). destruct (qnan_props F HF) as (_ & QN & _).
  destruct (f_neg_props F HF x P) as (_ & SN & MN & _). destruct (class_cases F x) as [C|[C|C]]; [congruence| |].
  - unfold f_sub, f_add. rewrite (decode_isinf F x C), (decode_isinf F (f_neg F x)) by (unfold is_inf in *; rewrite MN; auto). rewrite SN. destruct (sign_of F x); auto.
  - unfold f_sub, f_add. rewrite (decode_nan F x C). auto.
Qed.

(** ** repeat *)
Lemma gap_pos : forall N y, 0 <= N -> 0 < y -> (N + 1) * y <= 2 ^ fl F ->
  exists g1 g2, generic_format radix2 fexp g1 /\ generic_format radix2 fexp g2 /\
    (IZR N < g1 <= IZR N + / IZR y)%R /\ (IZR N + 1 - / IZR y <= g2 < IZR N + 1)%R.
Proof.
  intros N y HN Hy HB. pose proof (gf_fl F HF) as Hf. pose proof (bias_ge2 F HF) as Hb.
  destruct (gap_format F HF HelF (N + 1) ltac:(nia)) as (g2 & G2 & L2 & U2). rewrite plus_IZR in L2, U2. specialize (U2 y Hy HB).
  set (k := if N =? 0 then 0 else Z.log2 N).
  assert (Hk : 0 <= k < fl F /\ 2 ^ k * y <= 2 ^ fl F /\ N < 2 ^ (k + 1) /\ (N <> 0 -> 2 ^ k <= N)).
  { unfold k. destruct (Z.eqb_spec N 0) as [->|NZ]; [change (2 ^ 0) with 1; change (2 ^ (0 + 1)) with 2; lia|]. pose proof (Z.log2_spec N ltac:(lia)) as LS. pose proof (Z.log2_nonneg N). rewrite <- Z.add_1_r in LS.
    assert (2 ^ Z.log2 N * y <= 2 ^ fl F) by nia. split; [|lia]. split; [auto|]. apply (Z.pow_lt_mono_r_iff 2); nia. }
  destruct Hk as (Hk & KY & KU & KL). pose proof (pow2_pos (fl F - k) ltac:(lia)) as PP.
  assert (PS : 2 ^ fl F = 2 ^ k * 2 ^ (fl F - k)) by (rewrite <- Z.pow_add_r by lia; f_equal; lia).
  assert (E : (IZR (N * 2 ^ (fl F - k) + 1) * bpow radix2 (k - fl F) = IZR N + bpow radix2 (k - fl F))%R).
  { rewrite plus_IZR, mult_IZR, <- bpow_IZR by lia. rewrite Rmult_plus_distr_r, Rmult_assoc, <- bpow_plus. replace (fl F - k + (k - fl F)) with 0 by lia. cbn [bpow]. ring. }
  exists (IZR (N * 2 ^ (fl F - k) + 1) * bpow radix2 (k - fl F))%R, g2. split; [|split; [auto|split; [|lra]]].
  - apply (fmt_scaled F); [|unfold emin; lia]. rewrite Z.abs_eq by nia. unfold prec. rewrite pow2_succ by lia. rewrite pow2_succ in KU by lia.
    assert (N * 2 ^ (fl F - k) + 1 <= (2 * 2 ^ k - 1) * 2 ^ (fl F - k) + 1) by nia.
    pose proof (Z.pow_le_mono_r 2 1 (fl F - k) ltac:(lia) ltac:(lia)). nia.
  - rewrite E. pose proof (bpow_gt_0 radix2 (k - fl F)). split; [lra|]. assert (bpow radix2 (k - fl F) <= / IZR y)%R; [|lra].
    assert (Y0 : (0 < IZR y)%R) by (apply IZR_lt; lia).
    apply Rmult_le_reg_r with (IZR y); [auto|]. rewrite Rinv_l by lra.
    replace (k - fl F) with (- (fl F - k)) by lia. rewrite bpow_opp. apply Rmult_le_reg_l with (bpow radix2 (fl F - k)); [apply bpow_gt_0|].
    rewrite <- Rmult_assoc, Rinv_r, Rmult_1_l, Rmult_1_r by (pose proof (bpow_gt_0 radix2 (fl F - k)); lra).
    rewrite bpow_IZR by lia. apply IZR_le. nia.
Qed.
Lemma floor_quot_int : forall rm X Y, Y <> 0 -> Z.abs X + Z.abs Y <= 2 ^ fl F ->
  Zfloor (fround F rm (IZR X / IZR Y)) = X / Y.
Proof.
  intros rm X Y HY HB. pose proof (gf_fl F HF) as Hf. pose proof (Z.div_mod X Y HY) as DM. pose proof (Z.mod_pos_bound X Y) as MB1. pose proof (Z.mod_neg_bound X Y) as MB2.
  set (m := X / Y) in *. set (r := X mod Y) in *.
  assert (Y0 : (IZR Y <> 0)%R) by (apply not_0_IZR; auto).
  assert (Q : (IZR X / IZR Y = IZR m + IZR r / IZR Y)%R) by (rewrite DM, plus_IZR, mult_IZR; field; auto).
  assert (EA : (IZR r / IZR Y = IZR (Z.abs r) / IZR (Z.abs Y))%R).
  { destruct (Z.lt_ge_cases Y 0); [rewrite !Z.abs_neq by lia; rewrite !opp_IZR; field; auto|rewrite !Z.abs_eq by lia; auto]. }
  rewrite EA in Q. set (y := Z.abs Y) in *. set (s := Z.abs r) in *.
  assert (Hs : 0 <= s < y) by (unfold s, y; lia). assert (YP : (0 < IZR y)%R) by (apply IZR_lt; lia).
  destruct (Z.eq_dec s 0) as [S0|S0].
  - unfold Rdiv in Q. rewrite S0, Rmult_0_l, Rplus_0_r in Q. unfold Rdiv. rewrite Q, (fround_exact F rm), Zfloor_IZR; auto.
    apply (format_int F HF). unfold prec. pose proof (pow2_lt (fl F) (fl F + 1) ltac:(lia) ltac:(lia)). assert (r = 0) by (unfold s in S0; lia). assert (Z.abs m <= Z.abs X) by nia. lia.
  - assert (B1 : (/ IZR y <= IZR s / IZR y)%R). { unfold Rdiv. rewrite <- (Rmult_1_l (/ IZR y)) at 1. apply Rmult_le_compat_r; [left; apply Rinv_0_lt_compat; auto|apply IZR_le; lia]. }
    assert (B2 : (IZR s / IZR y <= 1 - / IZR y)%R). { replace (1 - / IZR y)%R with (IZR (y - 1) / IZR y)%R by (rewrite minus_IZR; field; lra). unfold Rdiv. apply Rmult_le_compat_r; [left; apply Rinv_0_lt_compat; auto|apply IZR_le; lia]. }
    apply Zfloor_imp. destruct (Z.le_gt_cases 0 m) as [M|M].
    + destruct (gap_pos m y M ltac:(lia)) as (g1 & g2 & G1 & G2 & H1 & H2). { unfold y in *; clear - DM HB MB1 MB2 M HY. clearbody m r. nia. }
      pose proof (fround_ge_gen F HF rm (IZR X / IZR Y) g1 G1 ltac:(lra)). pose proof (fround_le_gen F HF rm (IZR X / IZR Y) g2 G2 ltac:(lra)). rewrite plus_IZR. lra.
    + destruct (gap_pos (- m - 1) y ltac:(lia) ltac:(lia)) as (g1 & g2 & G1 & G2 & H1 & H2). { unfold y in *; clear - DM HB MB1 MB2 M HY. clearbody m r. nia. }
      rewrite minus_IZR, opp_IZR in H1, H2. apply generic_format_opp in G1, G2.
      pose proof (fround_le_gen F HF rm (IZR X / IZR Y) (- g1) G1 ltac:(lra)). pose proof (fround_ge_gen F HF rm (IZR X / IZR Y) (- g2) G2 ltac:(lra)). rewrite plus_IZR. lra.
Qed.

Theorem repeat_spec : forall rm x y X Y e, Y <> 0 -> Z.abs X + Z.abs Y <= 2 ^ fl F -> emin F <= e -> e + fl F <= bias F ->
  is_real F x (IZR X * bpow radix2 e) -> is_real F y (IZR Y * bpow radix2 e) ->
  is_real F (repeatf F rm x y) (IZR (X mod Y) * bpow radix2 e).
Proof.
  intros rm x y X Y e HY HB He1 He2 Hx Hy. pose proof (gf_fl F HF) as Hf. pose proof (bpow_gt_0 radix2 e) as PE.
  pose proof (pow2_lt (fl F) (prec F) ltac:(unfold prec; lia) ltac:(unfold prec; lia)) as PL.
  assert (SB : forall k, Z.abs k <= 2 ^ fl F -> generic_format radix2 fexp (IZR k * bpow radix2 e) /\ (Rabs (IZR k * bpow radix2 e) < big)%R).
  { intros k Hk. split; [apply (fmt_scaled F); auto; lia|]. rewrite Rabs_mult, (Rabs_pos_eq (bpow _ _)) by lra. rewrite <- abs_IZR.
    apply Rle_lt_trans with (bpow radix2 (fl F) * bpow radix2 e)%R; [apply Rmult_le_compat_r; [lra|]; rewrite bpow_IZR by lia; apply IZR_le; auto|].
    rewrite <- bpow_plus. apply bpow_lt. lia. }
  assert (Y0 : (IZR Y <> 0)%R) by (apply not_0_IZR; auto).
  assert (Q : ((IZR X * bpow radix2 e) / (IZR Y * bpow radix2 e) = IZR X / IZR Y)%R) by (field; split; auto; lra).
  assert (QB : (Rabs (IZR X / IZR Y) <= IZR (2 ^ fl F))%R).
  { unfold Rdiv. rewrite Rabs_mult, Rabs_inv, <- !abs_IZR by auto. assert (1 <= IZR (Z.abs Y))%R by (apply IZR_le; lia).
    assert (/ IZR (Z.abs Y) <= 1)%R by (rewrite <- Rinv_1; apply Rinv_le_contravar; lra).
    assert (IZR (Z.abs X) <= IZR (2 ^ fl F))%R by (apply IZR_le; lia). assert (0 <= IZR (Z.abs X))%R by (apply IZR_le; lia). nra. }
  assert (IF : generic_format radix2 fexp (IZR (2 ^ fl F))) by (apply (format_int F HF); rewrite Z.abs_eq; pose proof (pow2_nonneg (fl F)); lia).
  assert (QR : is_real F (f_div F rm x y) (fround F rm (IZR X / IZR Y))).
  { rewrite <- Q. apply (div_r F HF); auto; [nra|]. rewrite Q. apply Rabs_le_inv in QB.
    apply Rle_lt_trans with (IZR (2 ^ fl F)).
    - apply Rabs_le. split; [apply (fround_ge_gen F HF); [apply generic_format_opp; auto|lra]|apply (fround_le_gen F HF); [auto|lra]].
    - pose proof (int_bound F HF (2 ^ fl F)) as IB. rewrite Rabs_pos_eq in IB by (apply IZR_le; apply pow2_nonneg). apply IB. rewrite Z.abs_eq by apply pow2_nonneg. lia. }
  pose proof (floor_r rm _ _ QR) as FR. rewrite (floor_quot_int rm X Y HY HB) in FR.
  pose proof (Z.div_mod X Y HY) as DM. pose proof (Z.mod_pos_bound X Y) as MB1. pose proof (Z.mod_neg_bound X Y) as MB2.
  assert (A1 : Z.abs (X mod Y) <= 2 ^ fl F) by lia. assert (A2 : Z.abs (X / Y * Y) <= 2 ^ fl F).
  { replace (X / Y * Y) with (X - X mod Y) by lia. lia. }
  destruct (SB _ A1) as (G1 & B1). destruct (SB _ A2) as (G2 & B2). unfold repeatf.
  eapply (sub_x F HF); [exact Hx| | |exact G1|exact B1].
  - eapply (mul_x F HF); [exact FR|exact Hy| |exact G2|exact B2]. rewrite mult_IZR. ring.
  - replace (X mod Y) with (X - X / Y * Y) by lia. rewrite minus_IZR. ring.
Qed.
Theorem safe_repeat_zero : forall rm x y, is_real F y 0 -> safe_repeatf F rm x y = f_zero F false.
Proof.
  intros rm x y (P & Fi & V). unfold safe_repeatf. destruct (zero_r F HF) as (Pz & Fz & Vz). rewrite (f_eq_fin F HF) by auto. rewrite V, Vz, Req_bool_true; auto.
Qed.
Theorem safe_repeat_nonzero : forall rm x y Y, is_real F y Y -> Y <> 0%R -> safe_repeatf F rm x y = repeatf F rm x y.
Proof.
  intros rm x y Y (P & Fi & V) N. unfold safe_repeatf. destruct (zero_r F HF) as (Pz & Fz & Vz). rewrite (f_eq_fin F HF) by auto. rewrite V, Vz, Req_bool_false; auto.
Qed.

(** ** delta_angle *)
Theorem delta_angle_spec : forall rm c t C T e, emin F <= e <= 0 -> Z.abs (T - C) + 360 * 2 ^ (- e) <= 2 ^ fl F ->
  is_real F c (IZR C * bpow radix2 e) -> is_real F t (IZR T * bpow radix2 e) ->
  exists r k, is_real F (delta_angle F rm c t) r /\ (r = IZR T * bpow radix2 e - IZR C * bpow radix2 e - 360 * IZR k)%R /\ (-180 < r <= 180)%R.
Proof.
  intros rm c t C T e He HB Hc Ht. pose proof (gf_fl F HF) as Hf. pose proof (bpow_gt_0 radix2 e) as PE. pose proof (bias_ge2 F HF) as Hb2.
  set (u := 2 ^ (- e)) in *. assert (U1 : 1 <= u) by (apply pow2_ge1; lia).
  assert (UE : (IZR u * bpow radix2 e = 1)%R) by (unfold u; rewrite <- bpow_IZR, <- bpow_plus by lia; replace (- e + e) with 0 by lia; reflexivity).
  pose proof (pow2_lt (fl F) (prec F) ltac:(unfold prec; lia) ltac:(unfold prec; lia)) as PL.
  assert (SB : forall k, Z.abs k <= 2 ^ fl F -> generic_format radix2 fexp (IZR k * bpow radix2 e) /\ (Rabs (IZR k * bpow radix2 e) < big)%R).
  { intros k Hk. split; [apply (fmt_scaled F); auto; lia|]. rewrite Rabs_mult, (Rabs_pos_eq (bpow _ _)) by lra. rewrite <- abs_IZR.
    apply Rle_lt_trans with (bpow radix2 (fl F) * bpow radix2 e)%R; [apply Rmult_le_compat_r; [lra|]; rewrite bpow_IZR by lia; apply IZR_le; auto|].
    rewrite <- bpow_plus. apply bpow_lt. pose proof (gf_bias F HF). lia. }
  destruct (SB (T - C) ltac:(lia)) as (G0 & B0).
  assert (D : is_real F (f_sub F rm t c) (IZR (T - C) * bpow radix2 e)).
  { eapply (sub_x F HF); [exact Ht|exact Hc| |exact G0|exact B0]. rewrite minus_IZR. ring. }
  assert (S3 : is_real F (f_of_Z F rm 360) (IZR (360 * u) * bpow radix2 e)).
  { rewrite mult_IZR, Rmult_assoc, UE, Rmult_1_r. apply (ofz_r F HF). lia. }
  assert (S1 : is_real F (f_of_Z F rm 180) 180%R) by (apply (ofz_r F HF); lia).
  pose proof (repeat_spec rm _ _ (T - C) (360 * u) e ltac:(lia) ltac:(lia) ltac:(lia) ltac:(pose proof (gf_bias F HF); lia) D S3) as R.
  pose proof (Z.mod_pos_bound (T - C) (360 * u) ltac:(lia)) as MB. pose proof (Z.div_mod (T - C) (360 * u) ltac:(lia)) as DM.
  set (m := (T - C) mod (360 * u)) in *. set (q := (T - C) / (360 * u)) in *. clearbody m q.
  assert (DR : (IZR T * bpow radix2 e - IZR C * bpow radix2 e = 360 * IZR q + IZR m * bpow radix2 e)%R).
  { rewrite <- Rmult_minus_distr_r, <- minus_IZR, DM, plus_IZR, !mult_IZR. replace (360 * IZR u * IZR q + IZR m)%R with (360 * IZR q * IZR u + IZR m)%R by ring. rewrite Rmult_plus_distr_r, (Rmult_assoc _ (IZR u)), UE. ring. }
  assert (M0 : (0 <= IZR m * bpow radix2 e)%R) by (apply Rmult_le_pos; [apply IZR_le; lia|lra]).
  assert (M1 : (IZR m * bpow radix2 e < 360)%R).
  { replace 360%R with (IZR (360 * u) * bpow radix2 e)%R by (rewrite mult_IZR, Rmult_assoc, UE; ring). apply Rmult_lt_compat_r; [lra|]. apply IZR_lt. lia. }
  unfold delta_angle. pose proof R as (RP & RF & RV). pose proof S1 as (SP & SF & SV).
  rewrite (f_gt_fin F HF) by auto. rewrite RV, SV.
  destruct (Rlt_bool_spec 180 (IZR m * bpow radix2 e)) as [L|L].
  - exists (IZR (m - 360 * u) * bpow radix2 e)%R, (q + 1). assert (EM : (IZR (m - 360 * u) * bpow radix2 e = IZR m * bpow radix2 e - 360)%R).
    { rewrite minus_IZR, mult_IZR, Rmult_minus_distr_r, (Rmult_assoc 360), UE. ring. }
    destruct (SB (m - 360 * u) ltac:(lia)) as (G1 & B1).
    split; [eapply (sub_x F HF); [exact R|exact S3| |exact G1|exact B1]; rewrite minus_IZR; ring|].
    rewrite plus_IZR. split; lra.
  - exists (IZR m * bpow radix2 e)%R, q. split; [auto|]. split; lra.
Qed.

(** ** ping_pong *)
Theorem ping_pong_zero : forall rm a b, is_real F b 0 -> ping_pong F rm a b = f_zero F false.
Proof.
  intros rm a b (P & Fi & V). unfold ping_pong. destruct (zero_r F HF) as (Pz & Fz & Vz). rewrite (f_eq_fin F HF) by auto. rewrite V, Vz, Req_bool_true; auto.
Qed.
Theorem ping_pong_range : forall rm a b A B, is_real F a A -> is_real F b B -> B <> 0%R -> (2 * Rabs B < big)%R ->
  (Rabs (fround F rm (A - B)) < big)%R -> (Rabs (fround F rm (fround F rm (A - B) / (2 * B))) < big)%R ->
  exists r, is_real F (ping_pong F rm a b) r /\ (0 <= r <= Rabs B)%R.
Proof.
  intros rm a b A B Ha Hb NB H2 H3 H4. pose proof Hb as (PB & FB & VB). unfold ping_pong. destruct (zero_r F HF) as (Pz & Fz & Vz).
  rewrite (f_eq_fin F HF) by auto. rewrite VB, Vz, Req_bool_false by auto. cbv zeta.
  pose proof (prec_ge F HF) as PG. assert (T2 : is_real F (f_of_Z F rm 2) 2) by (apply (ofz_r F HF); lia).
  assert (D2 : forall C, generic_format radix2 fexp C -> generic_format radix2 fexp (C * 2)).
  { intros C GC. change 2%R with (bpow radix2 1). apply mult_bpow_pos_exact_FLT; auto; lia. }
  assert (GB := real_fmt F HF _ _ Hb).
  assert (L : is_real F (f_mul F rm b (f_of_Z F rm 2)) (2 * B)).
  { eapply (mul_x F HF); [exact Hb|exact T2|ring| |]. { rewrite Rmult_comm. auto. } rewrite Rabs_mult, (Rabs_pos_eq 2) by lra. auto. }
  pose proof (div_r F HF rm _ _ _ _ (sub_r F HF rm a b A B Ha Hb H3) L ltac:(lra) H4) as Q.
  destruct (fract_spec rm _ _ Q) as (FR & FB1 & _). set (f := fround F rm (fround F rm (fround F rm (A - B) / (2 * B)) - _)) in *. clearbody f.
  set (fb := fract F rm _) in *. clearbody fb.
  assert (RB : (Rmin 0 B <= f * B <= Rmax 0 B)%R).
  { unfold Rmin, Rmax. destruct (Rle_dec 0 B); nra. }
  assert (GM : generic_format radix2 fexp (Rmin 0 B) /\ generic_format radix2 fexp (Rmax 0 B)).
  { pose proof (generic_format_0 radix2 fexp). unfold Rmin, Rmax. destruct (Rle_dec 0 B); auto. }
  assert (RP : (Rmin 0 B <= fround F rm (f * B) <= Rmax 0 B)%R).
  { split; [apply (fround_ge_gen F HF)|apply (fround_le_gen F HF)]; tauto. }
  assert (RBB : (Rabs (fround F rm (f * B)) <= Rabs B)%R).
  { unfold Rmin, Rmax in RP. destruct (Rle_dec 0 B); [rewrite !Rabs_pos_eq by lra|rewrite (Rabs_left B) by lra; rewrite Rabs_left1 by lra]; lra. }
  pose proof (Rabs_pos B) as AB.
  pose proof (mul_r F HF rm _ _ _ _ FR Hb ltac:(lra)) as M1. set (p := fround F rm (f * B)) in *.
  assert (M2 : is_real F (f_mul F rm (f_mul F rm fb b) (f_of_Z F rm 2)) (p * 2)).
  { eapply (mul_x F HF); [exact M1|exact T2|reflexivity| |]. { apply D2. apply (real_fmt F HF _ _ M1). } rewrite Rabs_mult, (Rabs_pos_eq 2) by lra. lra. }
  assert (RS : (Rabs (fround F rm (p * 2 - B)) <= Rabs B)%R).
  { assert (GO := generic_format_opp _ _ _ GB). unfold Rmin, Rmax in RP. destruct (Rle_dec 0 B).
    - rewrite (Rabs_pos_eq B) by lra. apply Rabs_le. split; [apply (fround_ge_gen F HF)|apply (fround_le_gen F HF)]; auto; lra.
    - rewrite (Rabs_left B) by lra. apply Rabs_le. rewrite Ropp_involutive. split; [apply (fround_ge_gen F HF)|apply (fround_le_gen F HF)]; auto; lra. }
  pose proof (sub_r F HF rm _ _ _ _ M2 Hb ltac:(lra)) as S. destruct S as (SP & SF & SV).
  destruct (abs_fin F HF HelF _ SP SF) as (AP & AF & AV). exists (Rabs (fround F rm (p * 2 - B))). rewrite <- SV in *. rewrite AP. split; [split; [apply (fabs_pat F); auto|auto]|].
  split; [apply Rabs_pos|auto].
Qed.
End Fract.
