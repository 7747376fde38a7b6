(** * log2 for double away from 1 *)
From Coq Require Import ZArith Lia Bool Reals Lra List.
From Flocq Require Import Core Relative.
From Interval Require Import Tactic.
From Verif Require Import MachInt Fmt FloatSpec FmtProofs RoundProofs FOps FOpsProofs ExactOps ExtFloatSpec ExtFloatProofs ExtInterp FmanipWide ErrLib ExpoData LogDataD ExpoF LogD Exp2fProofs ExpoFWrap LogRed LogfNum LogfProofs LogfWrap LogDTab LogDNum LogDRed LogDRem LogDFar LogDNear LogDCore.
Import ListNotations.
Open Scope Z_scope.

(** ** Clearing the low 32 bits *)
Lemma clear32_eq : forall x, 0 <= x < 2 ^ 64 -> clear32 x = x / 2 ^ 32 * 2 ^ 32.
Proof.
  intros x H. unfold clear32. replace (wrap 64 (Z.shiftl (2 ^ 64 - 1) 32)) with (Z.land (2 ^ 64 - 1) (Z.lnot (2 ^ 32 - 1))) by (vm_compute; reflexivity).
  rewrite Z.land_assoc, land_ones_mod, Z.mod_small by lia. rewrite <- Z.ldiff_land. change (2 ^ 32 - 1) with (Z.ones 32). rewrite Z.ldiff_ones_r, Z.shiftl_mul_pow2, Z.shiftr_div_pow2 by lia. reflexivity.
Qed.
Lemma clear32_spec : forall r V, is_real D r V -> exists n l e, -1074 <= e /\ Z.abs n < 2 ^ 21 /\ Z.abs l < 2 ^ 32 /\
  is_real D (clear32 r) (IZR n * bp (e + 32)) /\ V = (IZR n * bp (e + 32) + IZR l * bp e)%R /\ (Rabs (IZR l * bp e) <= bp (-20) * Rabs V + bp (-1042))%R.
Proof.
  intros r V (P & Fi & HV). pose proof good64 as HF. rewrite clear32_eq by exact P.
  pose proof (split_pat D HF r P) as SP. pose proof (mag_range D HF r) as MR. change (sign_unit D) with (2 ^ 63) in MR.
  set (m := mag_of D r) in *. assert (ML : m < 0x7ff0000000000000) by (unfold is_fin in Fi; apply Z.ltb_lt in Fi; exact Fi).
  set (lo := m mod 2 ^ 32). assert (LB : 0 <= lo < 2 ^ 32) by (apply Z.mod_pos_bound; lia). set (s := sign_of D r) in *.
  assert (ME : m = 2 ^ 32 * (m / 2 ^ 32) + lo) by (apply Z.div_mod; lia).
  assert (C : r / 2 ^ 32 * 2 ^ 32 = sbit D s + (m - lo)).
  { rewrite SP. unfold sbit. destruct s.
    - change (sign_unit D) with (2 ^ 31 * 2 ^ 32). rewrite Z.add_comm, Z.div_add by lia. lia.
    - rewrite Z.add_0_l. lia. }
  rewrite C. set (q := m - lo) in *. assert (QB : 0 <= q <= m) by (unfold q; lia). assert (QE : q = 2 ^ 32 * (m / 2 ^ 32)) by lia.
  assert (MQ : mag_of D (sbit D s + q) = q). { unfold mag_of, sbit. destruct s; [rewrite <- Z.add_mod_idemp_l, Z.mod_same, Z.add_0_l by (vm_compute; congruence)|rewrite Z.add_0_l]; apply Z.mod_small; change (sign_unit D) with (2 ^ 63); lia. }
  assert (PQ : is_pattern D (sbit D s + q)). { unfold is_pattern, sbit. change (width D) with 64. destruct s; change (sign_unit D) with (2 ^ 63); lia. }
  assert (SQ : sign_of D (sbit D s + q) = s). { rewrite (sign_of_eq D HF) by exact PQ. unfold sbit. change (sign_unit D) with (2 ^ 63). destruct s; [apply Z.leb_le|apply Z.leb_gt]; lia. }
  assert (FQ : is_fin D (sbit D s + q) = true). { unfold is_fin. rewrite MQ. apply Z.ltb_lt. change (inf_mag D) with 0x7ff0000000000000. lia. }
  assert (SG : sig_of D q = sig_of D m - lo /\ exp_of D q = exp_of D m /\ (2 ^ 32 | sig_of D q)).
  { unfold sig_of, exp_of. change (fl D) with 52. destruct (Z.ltb_spec m (2 ^ 52)).
    - replace (q <? 2 ^ 52) with true by (symmetry; apply Z.ltb_lt; lia). split; [reflexivity|split; [reflexivity|]]. rewrite QE. apply Z.divide_factor_l.
    - assert (2 ^ 52 <= q). { rewrite QE. change (2 ^ 52) with (2 ^ 32 * 2 ^ 20). apply Z.mul_le_mono_nonneg_l; [lia|]. apply Z.div_le_lower_bound; lia. }
      replace (q <? 2 ^ 52) with false by (symmetry; apply Z.ltb_ge; lia).
      pose proof (Z.div_mod m (2 ^ 52) ltac:(lia)) as DM. pose proof (Z.mod_pos_bound m (2 ^ 52) ltac:(lia)) as BM.
      assert (LM : lo <= m mod 2 ^ 52). { unfold lo. assert (E : m mod 2 ^ 32 = (m mod 2 ^ 52) mod 2 ^ 32).
        { rewrite DM at 1. change (2 ^ 52) with (2 ^ 32 * 2 ^ 20) at 1. rewrite <- Z.mul_assoc, Z.add_comm, Z.mul_comm, Z.mod_add by lia. reflexivity. }
        rewrite E. apply Z.mod_le; lia. }
      assert (DQ : q / 2 ^ 52 = m / 2 ^ 52) by (symmetry; apply Z.div_unique with (m mod 2 ^ 52 - lo); lia).
      assert (RQ : q mod 2 ^ 52 = m mod 2 ^ 52 - lo) by (symmetry; apply Z.mod_unique with (m / 2 ^ 52); lia).
      rewrite DQ. split; [lia|split; [reflexivity|]]. rewrite RQ.
      replace (2 ^ 52 + (m mod 2 ^ 52 - lo)) with (2 ^ 52 + (q - 2 ^ 52 * (m / 2 ^ 52))) by lia. apply Z.divide_add_r; [exists (2 ^ 20); reflexivity|].
      apply Z.divide_sub_r; [rewrite QE; apply Z.divide_factor_l|]. apply Z.divide_mul_l. exists (2 ^ 20). reflexivity. }
  destruct SG as (S1 & S2 & (n & S3)). set (e := exp_of D m) in *. set (sg := (if s then -1 else 1)).
  assert (ES : sig_of D m = n * 2 ^ 32 + lo) by lia.
  assert (SB : 0 <= sig_of D m < 2 ^ 53).
  { unfold sig_of. change (fl D) with 52. pose proof (Z.mod_pos_bound m (2 ^ 52) ltac:(lia)). destruct (Z.ltb_spec m (2 ^ 52)); lia. }
  assert (N0 : 0 <= n < 2 ^ 21). { assert (0 <= sig_of D q) by (unfold sig_of; change (fl D) with 52; pose proof (Z.mod_pos_bound q (2 ^ 52) ltac:(lia)); destruct (Z.ltb_spec q (2 ^ 52)); lia). lia. }
  assert (SR : (if s then -1 else 1)%R = IZR sg) by (unfold sg; destruct s; reflexivity). assert (SA : Z.abs sg = 1) by (unfold sg; destruct s; reflexivity).
  assert (VE : V = (IZR sg * IZR (sig_of D m) * bp e)%R).
  { rewrite <- HV. unfold fval, decode. fold m s. replace (m <? inf_mag D) with true by (symmetry; apply Z.ltb_lt; exact ML). cbn [dval]. rewrite SR. reflexivity. }
  exists (sg * n), (sg * lo), e. split; [|split; [|split; [|split; [|split]]]].
  - unfold e, exp_of. change (emin D) with (-1074). change (fl D) with 52. destruct (Z.ltb_spec m (2 ^ 52)); [lia|]. pose proof (Z.div_le_lower_bound m (2 ^ 52) 1 ltac:(lia) ltac:(lia)). lia.
  - rewrite Z.abs_mul, SA. lia.
  - rewrite Z.abs_mul, SA. lia.
  - split; [exact PQ|split; [exact FQ|]]. unfold fval, decode. rewrite MQ, SQ. replace (q <? inf_mag D) with true by (symmetry; apply Z.ltb_lt; change (inf_mag D) with 0x7ff0000000000000; lia).
    cbn [dval]. rewrite SR, S2, S3, !mult_IZR, (IZR_pow2 32), bpow_plus by lia. ring.
  - rewrite VE, ES, plus_IZR, !mult_IZR, (IZR_pow2 32), bpow_plus by lia. ring.
  - rewrite mult_IZR, Rmult_assoc, Rabs_mult, <- abs_IZR, SA, Rmult_1_l, Rabs_pos_eq by (apply Rmult_le_pos; [apply IZR_le; lia|apply bpow_ge_0]).
    assert (L1 : (IZR lo * bp e <= bp 32 * bp e)%R). { apply Rmult_le_compat_r; [apply bpow_ge_0|]. rewrite <- (IZR_pow2 32) by lia. apply IZR_le. lia. }
    pose proof (bpow_ge_0 radix2 (-1042)). apply Rle_trans with (1 := L1). rewrite VE, Rmult_assoc, Rabs_mult, <- abs_IZR, SA, Rmult_1_l, Rabs_pos_eq by (apply Rmult_le_pos; [apply IZR_le; lia|apply bpow_ge_0]).
    destruct (Z_lt_le_dec m (2 ^ 52)) as [Q|Q].
    + assert (e = -1074) by (unfold e, exp_of; change (fl D) with 52; replace (m <? 2 ^ 52) with true by (symmetry; apply Z.ltb_lt; lia); reflexivity).
      rewrite H0, <- bpow_plus. change (32 + -1074) with (-1042). assert (0 <= bp (-20) * (IZR (sig_of D m) * bp (-1074)))%R by (repeat apply Rmult_le_pos; try apply bpow_ge_0; apply IZR_le; lia). lra.
    + assert (B : 2 ^ 52 <= sig_of D m). { unfold sig_of. change (fl D) with 52. replace (m <? 2 ^ 52) with false by (symmetry; apply Z.ltb_ge; lia). pose proof (Z.mod_pos_bound m (2 ^ 52) ltac:(lia)). lia. }
      apply IZR_le in B. rewrite (IZR_pow2 52) in B by lia. apply Rle_trans with (bp (-20) * (bp 52 * bp e))%R; [rewrite <- !bpow_plus; apply bpow_le; lia|].
      assert (bp (-20) * (bp 52 * bp e) <= bp (-20) * (IZR (sig_of D m) * bp e))%R; [|lra]. apply Rmult_le_compat_l; [apply bpow_ge_0|]. apply Rmult_le_compat_r; [apply bpow_ge_0|exact B].
Qed.
Lemma split_lg : forall rm r V, is_real D r V -> (Rabs V <= / 2)%R -> exists RH RL, V = (RH + RL)%R /\ (Rabs RL <= bp (-20) * Rabs V + bp (-1042))%R /\
  is_real D (f_sub D rm r (clear32 r)) RL /\ is_real D (f_mul D rm (clear32 r) log2d_invln2hi) (RH * ivh).
Proof.
  intros rm r V Hr HV. destruct (clear32_spec r V Hr) as (n & l & e & He & Hn & Hl & RC & VE & LB).
  assert (B1 : (bp (-1042) <= bp (-20))%R) by (apply bpow_le; lia). pose proof (Rabs_pos V) as V0.
  assert (L1 : (Rabs (IZR l * bp e) <= / 1000)%R). { apply Rle_trans with (1 := LB). set (t := bp (-1042)) in *. clearbody t. bpn_in B1. bpn. lra. }
  assert (H1 : (Rabs (IZR n * bp (e + 32)) <= 1)%R). { replace (IZR n * bp (e + 32))%R with (V + - (IZR l * bp e))%R by lra. apply Rle_trans with (1 := Rabs_triang _ _). rewrite Rabs_Ropp. lra. }
  exists (IZR n * bp (e + 32))%R, (IZR l * bp e)%R. split; [exact VE|]. split; [exact LB|]. split.
  - apply (sub_x D good64) with (1 := Hr) (2 := RC); [lra| |].
    + apply gfD; [lia|exact He].
    + apply bigD with 0; [lia|]. change (bp 0) with 1%R. lra.
  - realof D log2d_invln2hi HI. match type of HI with is_real _ _ ?v => replace v with ivh in HI by (unfold ivh; bpn; lra) end.
    assert (IE : ivh = (IZR 0xB8AA3B29 * bp (-31))%R) by (unfold ivh; bpn; lra).
    apply (mul_x D good64) with (1 := RC) (2 := HI); [reflexivity| |].
    + replace (IZR n * bp (e + 32) * ivh)%R with (IZR (n * 0xB8AA3B29) * bp (e + 1))%R. 2: { rewrite IE, mult_IZR. replace (e + 1) with (e + 32 + -31) by ring. rewrite (bpow_plus _ (e + 32)). ring. }
      apply gfD; [|lia]. rewrite Z.abs_mul. change (Z.abs 0xB8AA3B29) with 0xB8AA3B29. lia.
    + apply bigD with 1; [lia|]. rewrite Rabs_mult. change (bp 1) with 2%R. assert (0 <= ivh <= 1.5)%R by (unfold ivh; bpn; lra). rewrite (Rabs_pos_eq ivh) by lra. pose proof (Rabs_pos (IZR n * bp (e + 32))). nra.
Qed.

(** ** The polynomial *)
Lemma log2d_poly_e : forall rm r lo R L h, is_real D r R -> is_real D lo L -> (Rabs R <= 78 / 10000)%R -> (Rabs L <= bp (-25))%R -> h = hD rm ->
  let r2 := f_mul D rm r r in let r4 := f_mul D rm r2 r2 in let P := at_ log2d_poly in
  let p := f_add D rm (f_add D rm (f_add D rm (P 0) (f_mul D rm r (P 1))) (f_mul D rm r2 (f_add D rm (P 2) (f_mul D rm r (P 3))))) (f_mul D rm r4 (f_add D rm (P 4) (f_mul D rm r (P 5)))) in
  exists s, (Rabs s <= 36 / 100000)%R /\ is_real D (f_add D rm lo (f_mul D rm r2 p)) (L + R * R * lqQ R + h * s).
Proof.
  intros rm r lo R L h Hr HL HB LB Hh r2 r4 P p. pose proof (hD_b rm) as HH. rewrite <- Hh in HH. bpn_in HH. bpn_in LB.
  realof D (at_ log2d_poly 0) H0. realof D (at_ log2d_poly 1) H1. realof D (at_ log2d_poly 2) H2. realof D (at_ log2d_poly 3) H3. realof D (at_ log2d_poly 4) H4. realof D (at_ log2d_poly 5) H5. fold P in H0, H1, H2, H3, H4, H5.
  match type of H0 with is_real _ _ ?v => replace v with lq0 in H0 by (unfold lq0; bpn; lra) end.
  match type of H1 with is_real _ _ ?v => replace v with lq1 in H1 by (unfold lq1; bpn; lra) end.
  match type of H2 with is_real _ _ ?v => replace v with lq2 in H2 by (unfold lq2; bpn; lra) end.
  match type of H3 with is_real _ _ ?v => replace v with lq3 in H3 by (unfold lq3; bpn; lra) end.
  match type of H4 with is_real _ _ ?v => replace v with lq4 in H4 by (unfold lq4; bpn; lra) end.
  match type of H5 with is_real _ _ ?v => replace v with lq5 in H5 by (unfold lq5; bpn; lra) end.
  assert (B0 : (-0.7214 <= lq0 <= -0.7213)%R) by (unfold lq0; bpn; lra).
  assert (B1 : (0.4808 <= lq1 <= 0.481)%R) by (unfold lq1; bpn; lra).
  assert (B2 : (-0.361 <= lq2 <= -0.3606)%R) by (unfold lq2; bpn; lra).
  assert (B3 : (0.2885 <= lq3 <= 0.2886)%R) by (unfold lq3; bpn; lra).
  assert (B4 : (-0.241 <= lq4 <= -0.24)%R) by (unfold lq4; bpn; lra).
  assert (B5 : (0.206 <= lq5 <= 0.2063)%R) by (unfold lq5; bpn; lra).
  destruct (mulS rm _ _ _ _ (-14) Hr Hr ltac:(lia) ltac:(iv)) as (s2 & E2 & R2). rewrite <- Hh in R2. fold r2 in R2. bpn_in E2.
  destruct (mulS rm _ _ _ _ (-28) R2 R2 ltac:(lia) ltac:(iv)) as (s4 & E4 & R4). rewrite <- Hh in R4. fold r4 in R4. bpn_in E4.
  destruct (mulS rm _ _ _ _ (-8) Hr H1 ltac:(lia) ltac:(iv)) as (s5 & E5 & R5). rewrite <- Hh in R5. bpn_in E5.
  destruct (addS rm _ _ _ _ 0 H0 R5 ltac:(lia) ltac:(iv)) as (s6 & E6 & R6). rewrite <- Hh in R6. bpn_in E6.
  destruct (mulS rm _ _ _ _ (-8) Hr H3 ltac:(lia) ltac:(iv)) as (s7 & E7 & R7). rewrite <- Hh in R7. bpn_in E7.
  destruct (addS rm _ _ _ _ (-1) H2 R7 ltac:(lia) ltac:(iv)) as (s8 & E8 & R8). rewrite <- Hh in R8. bpn_in E8.
  destruct (mulS rm _ _ _ _ (-15) R2 R8 ltac:(lia) ltac:(iv)) as (s9 & E9 & R9). rewrite <- Hh in R9. bpn_in E9.
  destruct (addS rm _ _ _ _ 0 R6 R9 ltac:(lia) ltac:(iv)) as (s10 & E10 & R10). rewrite <- Hh in R10. bpn_in E10.
  destruct (mulS rm _ _ _ _ (-9) Hr H5 ltac:(lia) ltac:(iv)) as (s11 & E11 & R11). rewrite <- Hh in R11. bpn_in E11.
  destruct (addS rm _ _ _ _ (-2) H4 R11 ltac:(lia) ltac:(iv)) as (s12 & E12 & R12). rewrite <- Hh in R12. bpn_in E12.
  destruct (mulS rm _ _ _ _ (-29) R4 R12 ltac:(lia) ltac:(iv)) as (s13 & E13 & R13). rewrite <- Hh in R13. bpn_in E13.
  destruct (addS rm _ _ _ _ 0 R10 R13 ltac:(lia) ltac:(iv)) as (s14 & E14 & R14). rewrite <- Hh in R14. bpn_in E14. fold p in R14.
  destruct (mulS rm _ _ _ _ (-14) R2 R14 ltac:(lia) ltac:(iv)) as (s15 & E15 & R15). rewrite <- Hh in R15. bpn_in E15.
  destruct (addS rm _ _ _ _ (-14) HL R15 ltac:(lia) ltac:(iv)) as (s16 & E16 & R16). rewrite <- Hh in R16. bpn_in E16.
  clear R2 R4 R5 R6 R7 R8 R9 R10 R11 R12 R13 R14 R15 H0 H1 H2 H3 H4 H5.
  set (E4' := (2 * R * R * s2 + h * s2 * s2 + s4)%R).
  set (Ep := (s5 + s6 + s2 * (lq2 + R * lq3) + (R * R + h * s2) * (s7 + s8) + s9 + s10 + E4' * (lq4 + R * lq5) + (R * R * (R * R) + h * E4') * (s11 + s12) + s13 + s14)%R).
  exists (s2 * (lqQ R + h * Ep) + R * R * Ep + s15 + s16)%R.
  split; [unfold Ep, E4', lqQ; iv|]. match type of R16 with is_real _ _ ?v => match goal with |- is_real _ _ ?w => replace w with v by (unfold Ep, E4', lqQ; ring) end end. exact R16.
Qed.
Lemma lg_away : forall X, (0 < X)%R -> (X <= 9577 / 10000 \/ 10442 / 10000 <= X)%R -> (61 / 1000 <= Rabs (ln X / ln 2))%R.
Proof.
  intros X HX H. assert (L2 : (0.693 <= ln 2 <= 0.694)%R) by interval with (i_prec 40). unfold Rdiv. rewrite Rabs_mult, (Rabs_pos_eq (/ ln 2)) by (apply Rlt_le, Rinv_0_lt_compat; lra).
  assert (43 / 1000 <= Rabs (ln X))%R.
  { destruct H as [H|H].
    - assert (ln X <= ln (9577 / 10000))%R by (apply Rcomplements.ln_le; auto). assert (ln (9577 / 10000) <= - (432 / 10000))%R by interval with (i_prec 40). rewrite Rabs_left1; lra.
    - assert (ln (10442 / 10000) <= ln X)%R by (apply Rcomplements.ln_le; lra). assert (432 / 10000 <= ln (10442 / 10000))%R by interval with (i_prec 40). rewrite Rabs_pos_eq; lra. }
  apply Rmult_le_reg_r with (ln 2); [lra|]. replace (Rabs (ln X) * / ln 2 * ln 2)%R with (Rabs (ln X)) by (field; lra). lra.
Qed.

Theorem log2d_far_core : forall rm x X, is_real D x X -> (0 < X)%R -> (X <= 9577 / 10000 \/ 10442 / 10000 <= X)%R ->
  exists a b S H, log2d_far rm x = f_add D rm a b /\ is_real D a S /\ is_real D b H /\ (Rabs (S + H - ln X / ln 2) <= 5 * bp (match rm with RNE => -61 | _ => -60 end))%R.
Proof.
  intros rm x X Hx HX FX. destruct (logd_reduce_spec 6 rm x X ltac:(auto) Hx HX) as (i & k & z & Z & E & Hi & Hk & Hz & XE & ZI & ZB & ZM).
  change (2 ^ 6) with 64 in Hi. unfold log2d_far. change F64 with D. rewrite E.
  destruct (tab_spec log2d_tab log2d_tab2 6 42 i ltac:(auto) ltac:(lia) (tab_ok_at _ _ _ _ _ i log2d_tab_ok Hi)) as (IV & LV & CH & CL & kk & RI & RL & RH & RC & TI & BI & BC & (n & ML) & BL & MC & BCL & Hkk & BK & TZ & EL & EC).
  destruct (TZ Z ZI) as [TZ1 TZ2]. clear TZ.
  pose proof (tab_ln_at _ _ _ _ i log2d_tab_ln Hi) as TL. cbn [fst snd] in TL. rewrite <- EL, <- EC in TL. clear EL EC.
  destruct (at2 log2d_tab i) as [invc logc]. destruct (at2 log2d_tab2 i) as [chi clo]. cbn [fst snd] in *.
  destruct (rem_d rm 6 z invc chi clo Z IV CH CL kk ltac:(auto) Hz RI RH RC ZM MC BCL ZB TI BI BC Hkk BK TZ1 TZ2) as (R & RR & RB & RE).
  change (bp (7 - 6)) with 2%R in RB. assert (RB' : (Rabs R <= 78 / 10000)%R) by lra. clear TZ1 TZ2 RB. rename RB' into RB.
  set (r := f_mul D rm (f_sub D rm (f_sub D rm z chi) clo) invc) in *.
  assert (LN2 : (0.693 <= ln 2 <= 0.694)%R) by interval with (i_prec 40). assert (LI : (1.44 <= / ln 2 <= 1.443)%R) by interval with (i_prec 40).
  assert (XL : (ln X / ln 2 = IZR k + ln Z / ln 2)%R). { rewrite XE, ln_mult by (try lra; apply bpow_gt_0). rewrite <- Rpower2_Z. unfold Rpower. rewrite ln_exp. field. lra. }
  pose proof (lg_away X HX FX) as LA. pose proof (hD_b rm) as HH. assert (HB := HH). bpn_in HB.
  assert (KB : (-1075 <= IZR k <= 1024)%R) by (split; apply IZR_le; lia).
  pose proof (ofZ_r rm k ltac:(lia)) as RK. change F64 with D in RK. set (kd := f_of_Z D rm k) in *.
  set (W := (IZR k + LV)%R). assert (MW42 : W = (IZR (k * 2 ^ 42 + n) * bp (-42))%R).
  { unfold W. rewrite ML, plus_IZR, mult_IZR, (IZR_pow2 42) by lia. change (- (42)) with (-42). rewrite Rmult_plus_distr_r, Rmult_assoc, <- bpow_plus. change (bp (42 + -42)) with 1%R. ring. }
  assert (MW : W = (IZR (2 * (k * 2 ^ 42 + n)) * bp (-43))%R). { rewrite MW42, (mult_IZR 2). change (bp (-42)) with (bp (1 + -43)). rewrite bpow_plus. change (bp 1) with 2%R. ring. }
  assert (WU : (Rabs W <= 1077)%R) by (unfold W; apply Rabs_le_inv in BL; apply Rabs_le; lra).
  assert (RW : is_real D (f_add D rm kd logc) W).
  { apply (add_x D good64) with (1 := RK) (2 := RL); [reflexivity| |].
    - rewrite MW42. apply gfx; [lia|]. rewrite <- MW42. apply Rle_lt_trans with (1 := WU). change (-42 + 53) with 11. bpn. lra.
    - apply bigD with 11; [lia|]. apply Rle_lt_trans with (1 := WU). bpn. lra. }
  set (w := f_add D rm kd logc) in *.
  set (lr := (ln (1 + R) / ln 2)%R). assert (LR : (Rabs lr <= 12 / 1000)%R) by (unfold lr; interval with (i_prec 40)).
  set (lz := ((ln Z - (ln (CH + CL) + ln (1 + R))) * / ln 2)%R). 
  set (lc := (LV - ln (CH + CL) / ln 2)%R) in *.
  assert (WX : (W + lr - ln X / ln 2 = lc - lz)%R) by (rewrite XL; unfold W, lc, lz, lr; field; lra).
  assert (LZ : (Rabs lz <= 1.443 * (1513 / 1000 * bp (-6) * hD rm + bp (-99)))%R).
  { unfold lz. rewrite Rabs_mult, (Rabs_pos_eq (/ ln 2)) by lra. rewrite Rmult_comm. apply Rmult_le_compat; [lra|apply Rabs_pos|lra|exact RE]. }
  assert (B99 : (bp (-99) <= bp (-70))%R) by (apply bpow_le; lia).
  assert (REb : (Rabs lz <= / 100000)%R). { apply Rle_trans with (1 := LZ). change (bp (-6)) with (/ 64)%R. set (t99 := bp (-99)) in *. clearbody t99. bpn_in B99. lra. }
  assert (WB : (48 / 1000 <= Rabs W <= 1100)%R).
  { split; [|lra]. assert (Rabs (ln X / ln 2) <= Rabs W + (Rabs lr + Rabs lc + Rabs lz))%R.
    { replace (ln X / ln 2)%R with (W + (lr + (- lc + lz)))%R by lra.
      pose proof (Rabs_triang W (lr + (- lc + lz))). pose proof (Rabs_triang lr (- lc + lz)). pose proof (Rabs_triang (- lc) lz). rewrite !Rabs_Ropp in *. lra. }
    bpn_in TL. lra. }
  destruct (split_lg rm r R RR ltac:(lra)) as (HR & LO & RS & LOB & RLO & RT1).
  realof D log2d_invln2hi HI. match type of HI with is_real _ _ ?v => replace v with ivh in HI by (unfold ivh; bpn; lra) end.
  realof D log2d_invln2lo HJ. match type of HJ with is_real _ _ ?v => replace v with ivl in HJ by (unfold ivl; bpn; lra) end.
  assert (BH : (1.442 <= ivh <= 1.443)%R) by (unfold ivh; bpn; lra). assert (BJ : (0 <= ivl <= / 4000000000)%R) by (unfold ivl; bpn; lra).
  assert (LO8 : (Rabs LO <= / 130000000)%R). { assert (B42 : (bp (-1042) <= bp (-70))%R) by (apply bpow_le; lia). apply Rle_trans with (1 := LOB). set (t := bp (-1042)) in *. clearbody t. bpn_in B42. bpn. lra. }
  assert (HRB : (Rabs HR <= 7801 / 1000000)%R). { replace HR with (R + - LO)%R by lra. apply Rle_trans with (1 := Rabs_triang _ _). rewrite Rabs_Ropp. lra. }
  destruct (hilo rm w _ W _ _ RW RT1 MW WB) as (d & s5 & Ed & E5 & RHI & R5). { iv. }
  set (t1 := f_mul D rm (clear32 r) log2d_invln2hi) in *. set (hi := f_add D rm w t1) in *. set (h := hD rm) in *.
  assert (DB : (Rabs d <= bp (-42))%R). { apply Rle_trans with (1 := Ed). change (bp (-42)) with (bp (11 + -53)). rewrite bpow_plus. apply Rmult_le_compat_l; [apply bpow_ge_0|apply HH]. }
  bpn_in DB. bpn_in E5.
  destruct (mulS rm _ _ _ _ (-26) RLO HI ltac:(lia) ltac:(iv)) as (s6 & E6 & R6). fold h in R6. bpn_in E6.
  destruct (mulS rm _ _ _ _ (-38) RR HJ ltac:(lia) ltac:(iv)) as (s7 & E7 & R7). fold h in R7. bpn_in E7.
  destruct (addS rm _ _ _ _ (-26) R6 R7 ltac:(lia)) as (s8 & E8 & R8). { clear - E6 E7 HB LO8 BH BJ RB. clearbody h. iv. } fold h in R8. bpn_in E8.
  destruct (addS rm _ _ _ _ (-26) R5 R8 ltac:(lia)) as (s9 & E9 & R9). { clear - DB E5 E6 E7 E8 HB LO8 BH BJ RB. clearbody h. iv. } fold h in R9. bpn_in E9.
  match type of R9 with is_real _ ?v _ => set (lo := v) in * end.
  destruct (log2d_poly_e rm r lo R _ h RR R9 RB) as (s & Es & RS'); [|reflexivity|].
  { clear - DB E5 E6 E7 E8 E9 HB LO8 BH BJ RB. clearbody h. iv. }
  eexists _, _, _, _. split; [reflexivity|]. split; [exact RS'|]. split; [exact RHI|].
  pose proof (lqP_abs R RB) as PA. fold lr in PA.
  match goal with |- (Rabs ?t <= _)%R => replace t with ((lqP R - lr) + (lc - lz) + h * (s5 + s6 + s7 + s8 + s9 + s))%R by (rewrite <- WX; unfold lqP; replace (R * (ivh + ivl))%R with (HR * ivh + LO * ivh + R * ivl)%R by (rewrite RS; ring); ring) end.
  assert (T : (Rabs (s5 + s6 + s7 + s8 + s9 + s) <= 37 / 100000)%R) by (clear - E5 E6 E7 E8 E9 Es; iv).
  assert (T' : (Rabs (h * (s5 + s6 + s7 + s8 + s9 + s)) <= h * (37 / 100000))%R) by (rewrite Rabs_mult, (Rabs_pos_eq h) by lra; apply Rmult_le_compat_l; lra).
  apply Rabs_le_inv in T'. apply Rabs_le_inv in PA. apply Rabs_le_inv in TL. apply Rabs_le_inv in LZ. change (bp (-6)) with (/ 64)%R in LZ.
  assert (HV : h = bp (match rm with RNE => -54 | _ => -53 end)) by reflexivity. clearbody h lc lz lr. set (t99 := bp (-99)) in *. clearbody t99. clear - T' PA TL LZ B99 HV.
  apply Rabs_le. destruct rm; rewrite HV in *; bpn_in T'; bpn_in PA; bpn_in TL; bpn_in LZ; bpn_in B99; bpn; lra.
Qed.
