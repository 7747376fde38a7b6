(** * log2f: the computed value against the real logarithm *)
From Coq Require Import ZArith Lia Bool Reals Lra List.
From Flocq Require Import Core.
From Interval Require Import Tactic.
From Verif Require Import MachInt Fmt FloatSpec FmtProofs RoundProofs FOps FOpsProofs ExactOps ExtFloatSpec ExtFloatProofs ExtInterp FmanipWide ErrLib ExpoData ExpoF Exp2fProofs ExpoFWrap LogRed LogfNum Log2fNum LogfProofs.
Import ListNotations.
Open Scope Z_scope.

Definition lg (x : R) : R := (ln x / ln 2)%R.
Lemma ln2_b : (693147 / 1000000 <= ln 2 <= 693148 / 1000000)%R. Proof. split; interval with (i_prec 40). Qed.
Lemma div_ln2 : forall a, (Rabs (a / ln 2) = Rabs a / ln 2)%R.
Proof. intros a. pose proof ln2_b. unfold Rdiv. rewrite Rabs_mult, Rabs_inv, (Rabs_pos_eq (ln 2)) by lra. reflexivity. Qed.
Lemma div_ln2_le : forall a b, (a <= b -> a / ln 2 <= b / ln 2)%R.
Proof. intros a b H. pose proof ln2_b. apply Rmult_le_compat_r; [apply Rlt_le, Rinv_0_lt_compat; lra|auto]. Qed.
Lemma inv_ln2 : (14426 / 10000 <= / ln 2 <= 14428 / 10000)%R. Proof. split; interval with (i_prec 40). Qed.

Lemma log2f_pos : forall x X, is_real F32 x X -> (0 < X)%R ->
  ((0x7f800000 - 0x00800000) <=? wrap 32 (x - 0x00800000)) && (negb (Z.land x 0x80000000 =? 0) || (0xff000000 <=? wrap 32 (x * 2))) = false.
Proof.
  intros x X Hx HX. pose proof good32 as HF. destruct Hx as ([P1 P2] & Fi & V). assert (S : sign_of F32 x = false).
  { rewrite (sign_fval F32 HF x Fi) by lra. apply Rlt_bool_false. lra. }
  rewrite (sign_of_eq F32 HF) in S by (split; auto). apply Z.leb_gt in S. change (sign_unit F32) with (2 ^ 31) in S.
  unfold is_fin in Fi. apply Z.ltb_lt in Fi. unfold mag_of in Fi. rewrite Z.mod_small in Fi by (change (sign_unit F32) with (2 ^ 31); lia).
  change (inf_mag F32) with 0x7f800000 in Fi.
  replace (Z.land x 2147483648) with 0.
  2: { symmetry. change 2147483648 with (Z.shiftl 1 31). apply Z.bits_inj'. intros n Hn. rewrite Z.land_spec, Z.bits_0. destruct (Z.ltb_spec n 31).
       - rewrite Z.shiftl_spec_low, andb_false_r by lia. reflexivity.
       - replace (Z.testbit x n) with false; [reflexivity|]. symmetry. destruct (Z.eq_dec x 0) as [->|]; [apply Z.bits_0|]. apply Z.bits_above_log2; [lia|]. apply Z.log2_lt_pow2; [lia|]. apply Z.lt_le_trans with (2 ^ 31); [lia|apply Z.pow_le_mono_r; lia]. }
  rewrite (wrap_small 32 (x * 2)) by (unfold inU; lia). change (0 =? 0) with true. cbn [negb orb]. replace (4278190080 <=? x * 2) with false by (symmetry; apply Z.leb_gt; lia). apply andb_false_r.
Qed.
Lemma lg_split : forall X Z k, (0 < Z)%R -> X = (Z * bp k)%R -> lg X = (IZR k + lg Z)%R.
Proof.
  intros X Z k ZP ->. pose proof ln2_b. unfold lg. rewrite ln_mult by (auto; apply bpow_gt_0). rewrite <- Rpower2_Z. unfold Rpower. rewrite ln_exp. field. lra.
Qed.

Lemma log2f_core : forall rm x X, is_real F32 x X -> (0 < X)%R -> X <> 1%R -> exists y W, log2f_impl rm x = f_cast F64 F32 rm y /\ is_real D y W /\
  (Rabs (W - lg X) <= bp (-25) * Rabs (lg X))%R /\ (forall n, X = bp n -> W = IZR n).
Proof.
  intros rm x X Hx HX N1. destruct (logf_reduce_spec rm x X Hx HX) as (i & k & z & Z & E & Hi & Hk & Hz & XE & ZI & ZB & ZM).
  unfold log2f_impl. replace (x =? 0x3f800000) with false.
  2: { symmetry. apply Z.eqb_neq. intros ->. apply N1. destruct Hx as (_ & _ & <-). fvalof F32 0x3f800000. bpn. lra. }
  rewrite (log2f_pos x X Hx HX).
  rewrite E. destruct (log2f_table i Hi) as (IV & LV & RI & RL & TL & BI & BZ & T9 & T1 & TN).
  destruct (at2 log2f_tab i) as [invc logc]. cbn [fst snd] in *.
  assert (ZP : (0 < Z)%R) by (rewrite zl_0 in ZB; lra).
  destruct (rem_spec rm i z invc Z IV Hz RI (BZ Z ZI) ltac:(intros; apply T9; auto) ZM) as (R & RR & RE & RB & R9).
  pose proof (ln_shift Z IV R ZP ltac:(lra) RE RB) as LS.
  realof D (at_ log2f_poly 0) H0. realof D (at_ log2f_poly 1) H1. realof D (at_ log2f_poly 2) H2. realof D (at_ log2f_poly 3) H3.
  pose proof (lg_split X Z k ZP XE) as XL.
  match type of H0 with is_real _ _ ?v => replace v with gA0 in H0 by (unfold gA0; ring) end.
  match type of H1 with is_real _ _ ?v => replace v with gA1 in H1 by (unfold gA1; ring) end.
  match type of H2 with is_real _ _ ?v => replace v with gA2 in H2 by (unfold gA2; ring) end.
  match type of H3 with is_real _ _ ?v => replace v with gA3 in H3 by (unfold gA3; ring) end.
  assert (A0 : (Rabs gA0 <= 1 / 2)%R) by (unfold gA0; bpn; apply Rabs_le; lra).
  assert (A1 : (Rabs gA1 <= 1 / 2)%R) by (unfold gA1; bpn; apply Rabs_le; lra).
  assert (A2 : (Rabs gA2 <= 3 / 4)%R) by (unfold gA2; bpn; apply Rabs_le; lra).
  assert (A3 : (14 / 10 <= gA3 <= 15 / 10)%R) by (unfold gA3; bpn; lra).
  set (rem := f_sub F64 rm (f_mul F64 rm z invc) (f_of_Z F64 rm 1)) in *.
  assert (PE : forall m, -100 <= m <= -5 -> (Rabs R <= bp m)%R -> exists e, (Rabs e <= bp m * bp m * bp (-50))%R /\
    is_real D (f_mul F64 rm (f_add F64 rm (f_mul F64 rm (at_ log2f_poly 0) (f_mul F64 rm rem rem)) (f_add F64 rm (f_mul F64 rm (at_ log2f_poly 1) rem) (at_ log2f_poly 2))) (f_mul F64 rm rem rem)) (R * R * gQ R + e)).
  { intros m Hm HB. exact (log_poly_eval rm _ _ _ rem gA0 gA1 gA2 R m H0 H1 H2 RR A0 A1 A2 Hm HB). }
  set (pol := f_mul F64 rm (f_add F64 rm (f_mul F64 rm (at_ log2f_poly 0) (f_mul F64 rm rem rem)) (f_add F64 rm (f_mul F64 rm (at_ log2f_poly 1) rem) (at_ log2f_poly 2))) (f_mul F64 rm rem rem)) in *.
  set (y0 := f_add F64 rm logc (f_of_Z F64 rm k)) in *.
  set (lin := f_mul F64 rm (at_ log2f_poly 3) rem) in *.
  pose proof (ofZ_r rm k ltac:(lia)) as RK. clear H0 H1 H2 A0 A1 A2 E.
  assert (P5 : (Rabs R <= bp (-5))%R) by (bpn; lra).
  pose proof inv_ln2 as IL. pose proof ln2_b as LB2.
  assert (LS2 : (Rabs (lg Z - (ln (1 + R) - ln IV) / ln 2) <= bp (-48))%R).
  { unfold lg. replace (ln Z / ln 2 - (ln (1 + R) - ln IV) / ln 2)%R with ((ln Z - (ln (1 + R) - ln IV)) / ln 2)%R by (field; lra). rewrite div_ln2. unfold Rdiv. bpn_in LS. bpn.
    pose proof (Rabs_pos (ln Z - (ln (1 + R) - ln IV))). nra. }
  exists (f_add F64 rm pol (f_add F64 rm lin y0)).
  (* an exact power of two *)
  destruct (Req_dec Z 1) as [Z1|Z1].
  { destruct (Z.eq_dec i 9) as [I9|I9]; [|exfalso; apply (T1 I9); subst Z; exact ZI].
    destruct (T9 I9) as (-> & -> & _). specialize (R9 I9). subst R Z. clear TN LS LS2 RE.
    assert (KB : (-150 <= IZR k <= 128)%R) by (split; apply IZR_le; lia).
    assert (R0 : is_real D rem 0) by (replace 0%R with (1 - 1)%R by ring; exact RR).
    assert (RY : is_real D y0 (IZR k)) by (refine (proj2 (add_zero rm _ _ _ RK _)); exact RL).
    assert (RLi : is_real D lin 0). { unfold lin. apply (mul_x D good64) with (1 := H3) (2 := R0); [ring|apply generic_format_0|rewrite Rabs_R0; apply bpow_gt_0]. }
    assert (RP : is_real D (f_add F64 rm lin y0) (IZR k)) by (refine (proj2 (add_zero rm _ _ _ RY RLi))).
    assert (R2 : is_real D (f_mul F64 rm rem rem) 0) by (apply (mul_zero rm _ _ _ R0 R0)).
    assert (RPol : is_real D pol 0).
    { assert (Q := R2). unfold pol. match goal with |- is_real _ (f_mul _ _ ?a ?b) _ => assert (QA : exists v, is_real D a v) end.
      { realof D (at_ log2f_poly 0) HC0. realof D (at_ log2f_poly 1) HC1. realof D (at_ log2f_poly 2) HC2. eexists.
        refine (proj2 (add_zero rm _ _ _ (proj2 (add_zero rm _ _ _ HC2 _)) _)); (apply (mul_x D good64) with (1 := HC1) (2 := R0) || apply (mul_x D good64) with (1 := HC0) (2 := R2)); try ring; try apply generic_format_0; rewrite Rabs_R0; apply bpow_gt_0. }
      destruct QA as (v & QA). apply (mul_x D good64) with (1 := QA) (2 := Q); [ring|apply generic_format_0|rewrite Rabs_R0; apply bpow_gt_0]. }
    exists (IZR k). split; [reflexivity|]. split; [refine (proj2 (add_zero rm _ _ _ RP RPol))|].
    replace (lg X) with (IZR k). 2: { rewrite XL. unfold lg. rewrite ln_1. field. lra. }
    split; [rewrite Rminus_diag_eq, Rabs_R0 by reflexivity; apply Rmult_le_pos; [apply bpow_ge_0|apply Rabs_pos]|].
    intros n En. rewrite En, Rmult_1_l in XE. apply bpow_inj in XE. rewrite XE. reflexivity. }
  assert (NP : forall n, X <> bp n).
  { intros n En. apply Z1. assert (EZ : Z = bp (n - k)). { unfold Zminus. rewrite bpow_plus, <- En, XE, Rmult_assoc, <- bpow_plus, Z.add_opp_diag_r. cbn. ring. }
    rewrite zl_0, zl_16 in ZB. assert (n - k = 0); [|rewrite EZ, H; reflexivity].
    assert (-1 < n - k). { apply (lt_bpow radix2). rewrite <- EZ. bpn. lra. }
    assert (n - k < 1). { apply (lt_bpow radix2). rewrite <- EZ. bpn. lra. } lia. }
  cut (exists W, log2f_impl rm x = log2f_impl rm x /\ is_real D (f_add F64 rm pol (f_add F64 rm lin y0)) W /\ (Rabs (W - lg X) <= bp (-25) * Rabs (lg X))%R).
  { intros (W & _ & C2 & C3). exists W. split; [reflexivity|]. split; [exact C2|]. split; [exact C3|]. intros n En. exfalso. exact (NP n En). }
  destruct (Z.eq_dec k 0) as [K0|K0].
  - subst k. assert (Y0 : is_real D y0 LV) by (refine (proj1 (add_zero rm _ _ _ RL RK))).
    rewrite Rplus_0_l in XL. rewrite Rmult_1_r in XE. subst Z.
    destruct (Z.eq_dec i 9) as [I9|I9].
    + destruct (T9 I9) as (-> & -> & BX). specialize (BX X ZI). specialize (R9 I9). subst R. clear TN LS LS2 RE.
      destruct (mag_bound (X - 1)) as (m & Hm & M1 & M2). { lra. } { lra. }
      { destruct ZM as (n & ->). replace (IZR n * bp (-24) - 1)%R with (IZR (n - 2 ^ 24) * bp (-24))%R.
        2: { rewrite minus_IZR. change (IZR (2 ^ 24)) with (bp 24). rewrite Rmult_minus_distr_r, <- bpow_plus. reflexivity. }
        rewrite Rabs_mult, (Rabs_pos_eq (bp (-24))) by apply bpow_ge_0. rewrite <- (Rmult_1_l (bp (-24))) at 1. apply Rmult_le_compat_r; [apply bpow_ge_0|].
        rewrite <- abs_IZR. apply (IZR_le 1). assert (n <> 2 ^ 24); [|lia]. intros ->. apply N1. change (IZR (2 ^ 24)) with (bp 24). rewrite <- bpow_plus. reflexivity. }
      destruct (PE m Hm M1) as (e6 & E6 & R6).
      assert (MP := bpow_gt_0 radix2 m). assert (ML : (bp m <= / 32)%R) by (change (/ 32)%R with (bp (-5)); apply bpow_le; lia).
      assert (E6' : (Rabs e6 <= bp (-55) * bp m)%R). { eapply Rle_trans; [exact E6|]. assert (bp m * bp m <= bp m * / 32)%R by (apply Rmult_le_compat_l; lra). bpn. lra. }
      destruct (mul_e rm _ _ _ _ (m + 1) H3 RR ltac:(lia)) as (e1 & E1 & R1).
      { rewrite Rabs_mult, (Rabs_pos_eq gA3) by lra. rewrite bpow_plus. change (bp 1) with 2%R. pose proof (Rabs_pos (X - 1)). nra. }
      fold lin in R1. pose proof (proj1 (add_zero rm lin y0 _ R1 Y0)) as RS.
      replace (m + 1 - 53) with (m + -52) in E1 by ring. rewrite bpow_plus in E1.
      assert (S1 : (Rabs (ln (1 + (X - 1))) <= 3 / 2 * bp m)%R).
      { pose proof (ln1p_upper (X - 1)). pose proof (ln1p_lower (X - 1)). apply Rabs_le_inv in BX. apply Rabs_le_inv in M1.
        assert (- (3 / 2 * bp m) <= (X - 1) / (1 + (X - 1)))%R; [|apply Rabs_le; lra].
        replace ((X - 1) / (1 + (X - 1)))%R with (1 - / X)%R by (field; lra).
        apply Rmult_le_reg_r with X; [lra|]. replace ((1 - / X) * X)%R with (X - 1)%R by (field; lra). nra. }
      pose proof (gP_rel (X - 1) BX) as LR. replace (1 + (X - 1))%R with X in * by ring. fold (lg X) in LR.
      assert (S2 : (Rabs (lg X) <= 25 / 10 * bp m)%R). { unfold lg. rewrite div_ln2. unfold Rdiv. pose proof (Rabs_pos (ln X)). nra. }
      assert (LA : (135 / 100 * Rabs (X - 1) <= Rabs (lg X))%R).
      { assert (LA := ln1p_abs (X - 1) ltac:(lra)). replace (1 + (X - 1))%R with X in LA by ring. unfold lg. rewrite div_ln2. unfold Rdiv. pose proof (Rabs_pos (X - 1)). nra. }
      destruct (add_e rm _ _ _ _ (m + 2) R6 RS ltac:(lia)) as (e7 & E7 & R7).
      { replace ((X - 1) * (X - 1) * gQ (X - 1) + e6 + (gA3 * (X - 1) + e1))%R with ((gP (X - 1) - lg X) + (lg X + (e6 + e1)))%R by (unfold gP; ring).
        eapply Rle_trans; [apply Rabs_triang|]. assert (Rabs (lg X + (e6 + e1)) <= Rabs (lg X) + Rabs (e6 + e1))%R by apply Rabs_triang. assert (Rabs (e6 + e1) <= Rabs e6 + Rabs e1)%R by apply Rabs_triang.
        rewrite bpow_plus. change (bp 2) with 4%R. bpn_in LR. bpn_in E6'. bpn_in E1. lra. }
      replace (m + 2 - 53) with (m + -51) in E7 by ring. rewrite bpow_plus in E7.
      eexists. split; [reflexivity|]. split; [exact R7|].
      match goal with |- (Rabs (?a - _) <= _)%R => replace (a - lg X)%R with ((gP (X - 1) - lg X) + ((e6 + e1) + e7))%R by (unfold gP; ring) end.
      eapply Rle_trans; [apply Rabs_triang|]. assert (Rabs (e6 + e1 + e7) <= Rabs (e6 + e1) + Rabs e7)%R by apply Rabs_triang. assert (Rabs (e6 + e1) <= Rabs e6 + Rabs e1)%R by apply Rabs_triang.
      bpn_in LR. bpn_in E6'. bpn_in E7. bpn_in E1. bpn. lra.
    + specialize (TN I9 X R ZI RE). destruct (PE (-5) ltac:(lia) P5) as (e6 & E6 & R6). bpn_in E6. apply Rabs_le_inv in E6.
      assert (LB : (Rabs LV <= 8 / 10)%R). { bpn_in TL. assert (-75 / 100 <= ln IV / ln 2 <= 62 / 100)%R by (split; interval with (i_prec 40)). apply Rabs_le_inv in TL. apply Rabs_le. lra. }
      apply Rabs_le_inv in LB. assert (RB' := RB). apply Rabs_le_inv in RB'.
      destruct (mul_e rm _ _ _ _ (-4) H3 RR ltac:(lia) ltac:(bpn; apply Rabs_le; nra)) as (e1 & E1 & R1). bpn_in E1. apply Rabs_le_inv in E1. fold lin in R1.
      assert (GR : (-5 / 100 <= gA3 * R <= 5 / 100)%R) by nra.
      destruct (add_e rm _ _ _ _ 0 R1 Y0 ltac:(lia) ltac:(bpn; apply Rabs_le; lra)) as (e7 & E7 & R7). bpn_in E7. apply Rabs_le_inv in E7.
      assert (QB : (Rabs (R * R * gQ R) <= / 1000)%R) by (unfold gQ, gA0, gA1, gA2; bpn; interval with (i_prec 40)). apply Rabs_le_inv in QB.
      destruct (add_e rm _ _ _ _ 0 R6 R7 ltac:(lia) ltac:(bpn; apply Rabs_le; lra)) as (e8 & E8 & R8). bpn_in E8. apply Rabs_le_inv in E8.
      eexists. split; [reflexivity|]. split; [exact R8|].
      match goal with |- (Rabs (?a - _) <= _)%R => replace (a - lg X)%R with ((gP R - ln (1 + R) / ln 2) + ((LV + ln IV / ln 2) - (lg X - (ln (1 + R) - ln IV) / ln 2) + e1 + e6 + e7 + e8))%R by (unfold gP; field; lra) end.
      eapply Rle_trans; [apply Rabs_triang|]. bpn_in TL. apply Rabs_le_inv in TL.
      assert (TR : (Rabs ((ln (1 + R) - ln IV) / ln 2) <= Rabs (lg X) + Rabs (lg X - (ln (1 + R) - ln IV) / ln 2))%R).
      { replace ((ln (1 + R) - ln IV) / ln 2)%R with (lg X + - (lg X - (ln (1 + R) - ln IV) / ln 2))%R at 1 by ring. eapply Rle_trans; [apply Rabs_triang|]. rewrite Rabs_Ropp. lra. }
      bpn_in LS2. assert (LS' := LS2). apply Rabs_le_inv in LS'.
      match goal with |- (_ + Rabs ?t <= _)%R => assert (TT : (Rabs t <= / 100000000000000)%R) by (apply Rabs_le; lra) end. bpn_in TN. bpn. lra.
  - assert (LF : (47 / 100 <= Rabs (lg X))%R).
    { pose proof (ln_far Z k ZB K0) as LF. rewrite XL. unfold lg. replace (IZR k + ln Z / ln 2)%R with ((IZR k * ln 2 + ln Z) / ln 2)%R by (field; lra). rewrite div_ln2. unfold Rdiv. nra. }
    pose proof (gP_abs R RB) as LA. bpn_in LA. apply Rabs_le_inv in LA.
    assert (KB : (-150 <= IZR k <= 128)%R) by (split; apply IZR_le; lia).
    destruct (PE (-5) ltac:(lia) P5) as (e6 & E6 & R6). bpn_in E6. apply Rabs_le_inv in E6.
    assert (LB : (Rabs LV <= 8 / 10)%R). { bpn_in TL. assert (-75 / 100 <= ln IV / ln 2 <= 62 / 100)%R by (split; interval with (i_prec 40)). apply Rabs_le_inv in TL. apply Rabs_le. lra. }
    apply Rabs_le_inv in LB. assert (RB' := RB). apply Rabs_le_inv in RB'.
    destruct (mul_e rm _ _ _ _ (-4) H3 RR ltac:(lia) ltac:(bpn; apply Rabs_le; nra)) as (e1 & E1 & R1). bpn_in E1. apply Rabs_le_inv in E1. fold lin in R1.
    assert (GR : (-5 / 100 <= gA3 * R <= 5 / 100)%R) by nra.
    destruct (add_e rm _ _ _ _ 8 RL RK ltac:(lia) ltac:(bpn; apply Rabs_le; lra)) as (e2 & E2 & R2). bpn_in E2. apply Rabs_le_inv in E2. fold y0 in R2.
    destruct (add_e rm _ _ _ _ 8 R1 R2 ltac:(lia) ltac:(bpn; apply Rabs_le; lra)) as (e7 & E7 & R7). bpn_in E7. apply Rabs_le_inv in E7.
    assert (QB : (Rabs (R * R * gQ R) <= / 1000)%R) by (unfold gQ, gA0, gA1, gA2; bpn; interval with (i_prec 40)). apply Rabs_le_inv in QB.
    destruct (add_e rm _ _ _ _ 8 R6 R7 ltac:(lia) ltac:(bpn; apply Rabs_le; lra)) as (e8 & E8 & R8). bpn_in E8. apply Rabs_le_inv in E8.
    eexists. split; [reflexivity|]. split; [exact R8|].
    rewrite XL at 1.
    match goal with |- (Rabs (?a - ?b) <= _)%R => replace (a - b)%R with ((gP R - ln (1 + R) / ln 2) + ((LV + ln IV / ln 2) - (lg Z - (ln (1 + R) - ln IV) / ln 2) + e1 + e2 + e6 + e7 + e8))%R by (unfold gP; field; lra) end.
    bpn_in TL. apply Rabs_le_inv in TL. bpn_in LS2. apply Rabs_le_inv in LS2.
    match goal with |- (Rabs ?t <= _)%R => assert (TT : (Rabs t <= / 250000000)%R) by (apply Rabs_le; lra) end. bpn. lra.
Qed.
