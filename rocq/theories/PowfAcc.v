(** * powf: the accuracy of the general case *)
From Coq Require Import ZArith Lia Reals Lra List Bool.
From Flocq Require Import Core Mult_error.
From Interval Require Import Tactic.
From Verif Require Import MachInt Fmt FloatSpec RoundProofs FmtProofs ExtFloatSpec FOps FOpsProofs ExactOps RemProofs FmanipWide ErrLib LogfNum ExtInterp Expm1Proofs Exp2fProofs ExtFloatProofs Eft NearestProofs SinRedF ExpoData ExpoF ExpoFWrap PowfData Powf PowfSpecial PowfTab PowfNum PowfDD PowfRed PowfFast PowfScale PowfPat PowfSlow PowfExp PowfKer.
Import ListNotations.
Open Scope Z_scope.

(** ** The base *)
Lemma base_ok : forall u, is_pattern S32 u -> is_fin S32 u = true -> 2 ^ 23 <= mag_of S32 u ->
  (IZR (-127 + Z.shiftr (mag_of S32 u) 23) + log2 (IZR (2 ^ 23 + mant (mag_of S32 u)) * bp (-23)) = log2 (Rabs (fval S32 u)))%R.
Proof.
  intros u P Fu H. set (z := mag_of S32 u) in *. assert (ZU : z < 0x7f800000) by (apply Z.ltb_lt; exact Fu).
  assert (M : mant z = z mod 2 ^ 23) by (apply (Z.land_ones z 23); lia). pose proof (Z.mod_pos_bound z (2 ^ 23) ltac:(lia)) as MB. pose proof (Z.div_mod z (2 ^ 23) ltac:(lia)) as DM.
  rewrite Z.shiftr_div_pow2 by lia. rewrite M.
  assert (EB : 1 <= z / 2 ^ 23 < 255) by (split; [apply Z.div_le_lower_bound; lia|apply Z.div_lt_upper_bound; lia]).
  destruct (normal_val S32 good32 u (z / 2 ^ 23) (z mod 2 ^ 23)) as (_ & V). { exact EB. } { exact MB. } { fold z. change (fl S32) with 23. lia. }
  rewrite V, Rabs_sg. change (fl S32) with 23. change (bias S32) with 127. set (m := 2 ^ 23 + z mod 2 ^ 23) in *.
  assert (MP : (0 < IZR m)%R) by (apply IZR_lt; unfold m; lia). pose proof (bpow_gt_0 radix2 (z / 2 ^ 23 - 127 - 23)) as B1. pose proof (bpow_gt_0 radix2 (-23)) as B2.
  rewrite Rabs_pos_eq by (apply Rmult_le_pos; lra). rewrite !log2_mult, !log2_bp by auto. rewrite !minus_IZR, plus_IZR. lra.
Qed.

Lemma exc_x_go : forall dm x X y0 y' o0 i o, is_real S32 x X -> X <> 0%R -> mag_of S32 x <> 0x3f800000 -> x <> 0x40000000 -> x <> 0x41200000 ->
  pf_odd y0 = Some o0 -> pf_integer y' = Some i -> pf_odd y' = Some o -> ((X < 0)%R -> i = true) ->
  exists z ex, pf_exc_x dm RNE x y0 y' (-127) = Some (PF_go z y' ex (if Rlt_bool X 0 && o then 0x8000000000000000 else 0)) /\ 0 <= z < 2 ^ 31 /\ Z.abs (ex + Z.shiftr z 23) <= 200 /\
    f_lt S32 z (f_zero S32 false) = false /\ (IZR (ex + Z.shiftr z 23) + log2 (IZR (2 ^ 23 + mant z) * bp (-23)) = log2 (Rabs X))%R.
Proof.
  intros dm x X y0 y' o0 i o Hx NZ N1 N2 N3 E0 Ei Eo XI. pose proof Hx as (Px & Fx & Vx).
  assert (XZ : mag_of S32 x <> 0) by (intros E; apply (fval_zero S32 good32 x Fx) in E; lra). assert (XF : mag_of S32 x < 0x7f800000) by (apply Z.ltb_lt; exact Fx).
  pose proof (mag_range S32 good32 x) as MR. change (sign_unit S32) with (2 ^ 31) in MR.
  assert (NN : fval S32 x <> 0%R) by (rewrite Vx; exact NZ). pose proof (sign_fval S32 good32 x Fx NN) as SX. rewrite Vx in SX.
  pose proof (pattern_split S32 good32 x Px) as SP.
  set (sub := mag_of S32 x <? 0x00800000). set (u := if sub then f_mul S32 RNE x (litf 1 64) else x). set (k := if sub then 64 else 0).
  assert (XU : (Rabs X < bp 128)%R) by (rewrite <- Vx, (Rabs_fval S32 good32) by auto; exact (proj1 (mval_lt_inf S32 good32 _ (proj1 MR)) XF)).
  assert (Hu : is_real S32 u (X * bp k) /\ 2 ^ 23 <= mag_of S32 u).
  { unfold u, k, sub. destruct (Z.ltb_spec (mag_of S32 x) 0x00800000) as [SB|SB]; [|split; [replace (X * bp 0)%R with X by (simpl; ring); exact Hx|exact SB]].
    assert (XS : (Rabs X < bp (-126))%R). { rewrite <- Vx, (Rabs_fval S32 good32) by auto. replace (bp (-126)) with (mval S32 0x00800000). { apply (mval_lt S32 good32); lia. } unfold mval. cval (sig_of S32 0x800000). cval (exp_of S32 0x800000). replace 8388608%R with (bp 23) by (bpn; lra). rewrite <- bpow_plus. reflexivity. }
    assert (XL : (bp (-149) <= Rabs X)%R). { rewrite <- Vx, (Rabs_fval S32 good32) by auto. replace (bp (-149)) with (mval S32 1). { apply (mval_le S32 good32); lia. } unfold mval. cval (sig_of S32 1). cval (exp_of S32 1). ring. }
    assert (RU : is_real S32 (f_mul S32 RNE x (litf 1 64)) (X * bp 64)).
    { apply (mul_x S32 good32 RNE x (litf 1 64) X (bp 64) (X * bp 64) Hx).
      - replace (bp 64) with ((if false then -1 else 1) * IZR (2 ^ 23) * bp 41)%R by (cbv iota; change (IZR (2 ^ 23)) with 8388608%R; replace 8388608%R with (bp 23) by (bpn; lra); rewrite Rmult_1_l, <- bpow_plus; reflexivity). apply (real_dec S32 (litf 1 64) false (2 ^ 23) 41); [split; vm_compute; congruence|vm_compute; reflexivity].
      - reflexivity.
      - apply mult_bpow_pos_exact_FLT; [|lia]. exact (real_fmt S32 good32 x X Hx).
      - rewrite Rabs_mult, (Rabs_pos_eq (bp 64)) by apply bpow_ge_0. apply Rle_lt_trans with (bp (-126) * bp 64)%R; [apply Rmult_le_compat_r; [apply bpow_ge_0|lra]|]. rewrite <- bpow_plus. apply bpow_lt. vm_compute; reflexivity. }
    split; [exact RU|]. apply (mag_ge S32 _ (2 ^ 23) _ good32 RU); [lia|]. apply Rle_trans with (bp (-149) * bp 64)%R; [|rewrite Rabs_mult, (Rabs_pos_eq (bp 64)) by apply bpow_ge_0; apply Rmult_le_compat_r; [apply bpow_ge_0|lra]].
    unfold mval. cval (sig_of S32 (2 ^ 23)). cval (exp_of S32 (2 ^ 23)). replace 8388608%R with (bp 23) by (bpn; lra). rewrite <- !bpow_plus. apply bpow_le. lia. }
  destruct Hu as (Hu & UM). pose proof Hu as (Pu & Fu & Vu). set (z := mag_of S32 u) in *. pose proof (mag_range S32 good32 u) as ZR. fold z in ZR. change (sign_unit S32) with (2 ^ 31) in ZR.
  assert (UF : z < 0x7f800000) by (apply Z.ltb_lt; exact Fu). pose proof (bpow_gt_0 radix2 k) as KP.
  assert (SU : sign_of S32 u = Rlt_bool X 0). { rewrite (sign_fval S32 good32 u Fu) by (rewrite Vu; apply Rmult_integral_contrapositive; lra). rewrite Vu. destruct (Rlt_bool_spec X 0) as [A|A]; [apply Rlt_bool_true; nra|apply Rlt_bool_false; nra]. }
  pose proof (pattern_split S32 good32 u Pu) as SPU. fold z in SPU.
  exists z, (-127 - k). split; [|split; [exact ZR|split; [|split]]].
  - unfold pf_exc_x. fold sub. fold u.
    assert (NEG : (0x80000000 <=? x) = Rlt_bool X 0) by (rewrite <- SX; rewrite (sign_of_eq S32 good32) by auto; reflexivity).
    destruct ((Z.land x 0x801fffff =? 0) || (0x7f800000 <=? x) || (x <? 0x00800000)) eqn:T.
    + destruct (Z.eqb_spec x 0x3f800000) as [->|_]; [exfalso; apply N1; reflexivity|]. destruct (Z.eqb_spec x 0x40000000) as [C|_]; [contradiction|]. destruct (Z.eqb_spec x 0x41200000) as [C|_]; [contradiction|].
      rewrite E0. cbn [bindo]. change (f_zero S32 false) with 0. rewrite (f_eq_zero S32 good32). destruct (Z.eqb_spec (mag_of S32 x) 0); [contradiction|]. destruct (Z.eqb_spec (mag_of S32 x) 0x7f800000); [lia|]. destruct (Z.ltb_spec 0x7f800000 (mag_of S32 x)); [lia|].
      rewrite NEG. replace (if sub then -127 - 64 else -127) with (-127 - k) by (unfold k; destruct sub; reflexivity).
      destruct (Rlt_bool_spec X 0) as [A|A]; cbn [andb].
      * rewrite Ei. cbn [bindo]. rewrite (XI A), Eo. cbn [bindo]. do 2 f_equal. unfold f_neg. rewrite SU. unfold z. cbn [negb]. unfold sbit. ring.
      * do 2 f_equal. rewrite SPU at 1. rewrite SU. unfold sbit. ring.
    + apply orb_false_iff in T. destruct T as (T & T3). apply orb_false_iff in T. destruct T as (_ & T2). apply Z.leb_gt in T2. apply Z.ltb_ge in T3.
      assert (A : Rlt_bool X 0 = false) by (rewrite <- NEG; apply Z.leb_gt; lia). rewrite A in *. cbn [andb]. rewrite SX in SP. unfold sbit in SP.
      assert (ES : sub = false) by (apply Z.ltb_ge; lia). assert (EU : u = x) by (unfold u; rewrite ES; reflexivity). assert (EK : k = 0) by (unfold k; rewrite ES; reflexivity). rewrite EK. unfold z. rewrite EU. rewrite SP at 1. reflexivity.
  - rewrite Z.shiftr_div_pow2 by lia. assert (EB : 1 <= z / 2 ^ 23 < 255) by (split; [apply Z.div_le_lower_bound; lia|apply Z.div_lt_upper_bound; lia]). unfold k. destruct sub; lia.
  - assert (PZ : is_pattern S32 z) by (split; [lia|change (2 ^ width S32) with (2 ^ 32); lia]). assert (MZ : mag_of S32 z = z) by (apply Z.mod_small; exact ZR). change (f_zero S32 false) with 0. rewrite (f_lt_zero S32 good32). { rewrite (sign_of_eq S32 good32) by exact PZ. replace (sign_unit S32 <=? z) with false by (symmetry; apply Z.leb_gt; change (sign_unit S32) with (2 ^ 31); lia). reflexivity. } apply fin_nan. unfold is_fin. rewrite MZ. apply Z.ltb_lt. exact UF.
  - pose proof (base_ok u Pu Fu UM) as BO. fold z in BO. rewrite Vu, Rabs_mult, (Rabs_pos_eq (bp k)) in BO by lra. rewrite (log2_mult (Rabs X)), log2_bp in BO by (auto; apply Rabs_pos_lt; exact NZ).
    replace (-127 - k + Z.shiftr z 23) with ((-127 + Z.shiftr z 23) - k) by ring. rewrite minus_IZR. lra.
Qed.

Lemma log2_x : forall x X, is_real S32 x X -> X <> 0%R -> mag_of S32 x <> 0x3f800000 -> (0.000000085 <= Rabs (log2 (Rabs X)) <= 150)%R.
Proof.
  intros x X (Px & Fx & Vx) NZ N1. assert (XZ : mag_of S32 x <> 0) by (intros E; apply (fval_zero S32 good32 x Fx) in E; lra). assert (XF : mag_of S32 x < 0x7f800000) by (apply Z.ltb_lt; exact Fx).
  pose proof (mag_range S32 good32 x) as MR.
  assert (XU : (Rabs X < bp 128)%R) by (rewrite <- Vx, (Rabs_fval S32 good32) by auto; exact (proj1 (mval_lt_inf S32 good32 _ (proj1 MR)) XF)).
  assert (XL : (bp (-149) <= Rabs X)%R). { rewrite <- Vx, (Rabs_fval S32 good32) by auto. replace (bp (-149)) with (mval S32 1). { apply (mval_le S32 good32); lia. } unfold mval. cval (sig_of S32 1). cval (exp_of S32 1). ring. }
  assert (P0 : (0 < Rabs X)%R) by (apply Rabs_pos_lt; exact NZ).
  assert (B : (Rabs X <= 16777215 * bp (-24) \/ 8388609 * bp (-23) <= Rabs X)%R).
  { rewrite <- Vx, (Rabs_fval S32 good32) by auto. destruct (Z.lt_ge_cases (mag_of S32 x) 0x3f800000) as [C|C]; [left|right].
    - change (16777215 * bp (-24))%R with (mval S32 0x3f7fffff). apply (mval_le S32 good32); lia.
    - change (8388609 * bp (-23))%R with (mval S32 0x3f800001). apply (mval_le S32 good32); lia. }
  assert (LU : (log2 (Rabs X) <= 128)%R) by (rewrite <- (log2_bp 128); apply log2_incr; lra). assert (LL : (-149 <= log2 (Rabs X))%R) by (rewrite <- (log2_bp (-149)); apply log2_incr; [apply bpow_gt_0|exact XL]).
  split; [|apply Rabs_le; lra]. destruct B as [B|B].
  - apply log2_incr in B; [|exact P0]. assert (K : (log2 (16777215 * bp (-24)) <= - 0.000000085)%R) by (replace (16777215 * bp (-24))%R with (1 - / 16777216)%R by (bpn; lra); unfold log2; interval with (i_prec 80)). rewrite Rabs_left by lra. lra.
  - apply log2_incr in B; [|bpn; lra]. assert (K : (0.000000085 <= log2 (8388609 * bp (-23)))%R) by (replace (8388609 * bp (-23))%R with (1 + / 8388608)%R by (bpn; lra); unfold log2; interval with (i_prec 80)). rewrite Rabs_pos_eq by lra. lra.
Qed.

(** ** The exponent *)
Lemma land_sign : forall y, is_pattern S32 y -> Z.land y 0x80000000 = sbit S32 (sign_of S32 y).
Proof.
  intros y P. pose proof (sign_of_eq S32 good32 y P) as E. change (sign_unit S32) with (2 ^ 31) in E. destruct P as (P0 & P1). change (2 ^ width S32) with (2 ^ 32) in P1.
  change 0x80000000 with (2 ^ 31). apply Z.bits_inj'. intros n Hn. rewrite Z.land_spec, Z.pow2_bits_eqb by lia.
  assert (B : Z.testbit y 31 = sign_of S32 y). { rewrite E. destruct (Z.leb_spec (2 ^ 31) y). - apply Z.testbit_true; [lia|]. replace (y / 2 ^ 31) with 1; [reflexivity|]. apply Z.div_unique with (y - 2 ^ 31); lia. - apply Z.testbit_false; [lia|]. rewrite Z.div_small by lia. reflexivity. }
  destruct (Z.eqb_spec 31 n) as [<-|N].
  - rewrite andb_true_r, B. destruct (sign_of S32 y); reflexivity.
  - rewrite andb_false_r. symmetry. destruct (sign_of S32 y); unfold sbit; [change (sign_unit S32) with (2 ^ 31); rewrite Z.pow2_bits_eqb by lia; apply Z.eqb_neq; exact N|apply Z.bits_0].
Qed.
Lemma exc_y_go : forall dm x y Y, is_real S32 y Y -> Y <> 0%R -> y <> 0x3f000000 -> y <> 0x3f800000 -> y <> 0x40000000 -> pf_small RNE x y = Some None ->
  pf_exc_y dm RNE x y = Some (inr (if 0x4f170000 <? mag_of S32 y then Z.land y 0x80000000 + 0x4f800000 else y)).
Proof.
  intros dm x y Y (Py & Fy & Vy) NZ N1 N2 N3 SM.
  assert (MN : mag_of S32 y <> 0) by (intros E; apply (fval_zero S32 good32 y Fy) in E; lra). assert (MF : mag_of S32 y < 0x7f800000) by (apply Z.ltb_lt; exact Fy).
  unfold pf_exc_y. change (f_zero S32 false) with 0. rewrite (f_eq_zero S32 good32 y). apply Z.eqb_neq in MN, N1, N2, N3. rewrite MN, N1, N2, N3, SM. cbn [bindo].
  destruct (Z.eqb_spec (mag_of S32 y) 0x7f800000); [lia|]. destruct (Z.ltb_spec 0x7f800000 (mag_of S32 y)); [lia|]. destruct (0x4f170000 <? mag_of S32 y).
  - rewrite orb_true_r. reflexivity.
  - rewrite orb_false_r. destruct (Z.land (mag_of S32 y) 0x7ffff =? 0); reflexivity.
Qed.

(** ** The general case *)
Theorem powf_acc : forall ct dm x y X Y o zs, is_real S32 x X -> is_real S32 y Y -> X <> 0%R -> Y <> 0%R -> mag_of S32 x <> 0x3f800000 -> x <> 0x40000000 -> x <> 0x41200000 ->
  y <> 0x3f000000 -> y <> 0x3f800000 -> y <> 0x40000000 -> pf_small RNE x y = Some None -> (0 < X \/ intval Y)%R -> (o = true <-> oddval Y) ->
  exists r W, powf false ct dm RNE x y = Some r /\ (Rabs (W - pm (Rlt_bool X 0 && o) * Rpower (Rabs X) Y) <= bp (-28) * Rpower (Rabs X) Y)%R /\ rounded S32 RNE W zs r.
Proof.
  intros ct dm x y X Y o zs Hx Hy XZ YZ X1 X2 X3 Y1 Y2 Y3 SM PI HO. pose proof Hy as (Py & Fy & Vy).
  pose proof (log2_x x X Hx XZ X1) as LB. set (L := log2 (Rabs X)) in *. assert (PX : (0 < Rabs X)%R) by (apply Rabs_pos_lt; exact XZ).
  rewrite (Rpower_log2 (Rabs X) Y PX). fold L.
  assert (NY : fval S32 y <> 0%R) by (rewrite Vy; exact YZ). destruct (pf_tests y Py Fy NY) as ((i & Ei & Hi) & (o' & Eo & Ho)). rewrite Vy in Hi, Ho. assert (o' = o) by (destruct o, o'; intuition). subst o'.
  assert (MF : mag_of S32 y < 0x7f800000) by (apply Z.ltb_lt; exact Fy). pose proof (mag_range S32 good32 y) as MR.
  assert (MN : mag_of S32 y <> 0) by (intros E; apply (fval_zero S32 good32 y Fy) in E; lra).
  unfold powf, pf_exceptional. rewrite (exc_y_go dm x y Y Hy YZ Y1 Y2 Y3 SM). cbn [bindo].
  set (y' := if 0x4f170000 <? mag_of S32 y then Z.land y 0x80000000 + 0x4f800000 else y).
  assert (B31 : (bp (-30) <= 0.000000085)%R) by (bpn; lra).
  assert (HY : exists Y', is_real S32 y' Y' /\ (bp (-150) <= Rabs Y' <= bp 32)%R /\ (exists i', pf_integer y' = Some i' /\ ((X < 0)%R -> i' = true)) /\ pf_odd y' = Some o /\ (Y' = Y \/ (2500000000 <= Y' /\ 2500000000 <= Y) \/ (Y' <= - 2500000000 /\ Y <= - 2500000000))%R).
  { unfold y'. destruct (Z.ltb_spec 0x4f170000 (mag_of S32 y)) as [BG|BG].
    - rewrite (land_sign y Py).
      assert (YA : (2500000000 <= Rabs Y)%R). { rewrite <- Vy, (Rabs_fval S32 good32) by auto. apply Rle_trans with (mval S32 0x4f170000). { unfold mval. cval (sig_of S32 0x4f170000). cval (exp_of S32 0x4f170000). bpn; lra. } apply (mval_le S32 good32); lia. }
      assert (OF : o = false). { unfold pf_odd in Eo. destruct (ctz_sig y Py) as (t & ET & TB & _). rewrite ET in Eo. cbn [bindo] in Eo. apply some_inj in Eo. rewrite exp_land in Eo by auto. assert (158 <= mag_of S32 y / 2 ^ 23) by (apply Z.div_le_lower_bound; lia). rewrite <- Eo. apply Z.eqb_neq. lia. }
      subst o. pose proof (sign_fval S32 good32 y Fy NY) as SY. rewrite Vy in SY. exists (pm (sign_of S32 y) * bp 32)%R. split; [|split; [|split; [|split]]].
      + destruct (sign_of S32 y); unfold sbit, pm.
        * replace (-1 * bp 32)%R with ((if true then -1 else 1) * IZR (2 ^ 23) * bp 9)%R by (cbv iota; bpn; lra). apply (real_dec S32 _ true (2 ^ 23) 9); [split; vm_compute; congruence|vm_compute; reflexivity].
        * replace (1 * bp 32)%R with ((if false then -1 else 1) * IZR (2 ^ 23) * bp 9)%R by (cbv iota; bpn; lra). apply (real_dec S32 _ false (2 ^ 23) 9); [split; vm_compute; congruence|vm_compute; reflexivity].
      + rewrite pm_abs, Rabs_pos_eq by apply bpow_ge_0. split; [apply bpow_le; lia|lra].
      + exists true. split; [|reflexivity]. destruct (sign_of S32 y); vm_compute; reflexivity.
      + destruct (sign_of S32 y); vm_compute; reflexivity.
      + right. assert (B32 : (2500000000 <= bp 32)%R) by (bpn; lra). destruct (Rlt_bool_spec Y 0) as [A|A]; rewrite SY; unfold pm; [right; rewrite Rabs_left in YA by auto; lra|left; rewrite Rabs_pos_eq in YA by auto; lra].
    - exists Y. split; [exact Hy|]. split; [|split; [|split; [exact Eo|left; reflexivity]]].
      + rewrite <- Vy, (Rabs_fval S32 good32) by auto. split.
        * apply Rle_trans with (mval S32 1); [|apply (mval_le S32 good32); lia]. unfold mval. cval (sig_of S32 1). cval (exp_of S32 1). rewrite Rmult_1_l. apply bpow_le; lia.
        * apply Rle_trans with (mval S32 0x4f170000); [apply (mval_le S32 good32); lia|]. unfold mval. cval (sig_of S32 0x4f170000). cval (exp_of S32 0x4f170000). bpn; lra.
      + exists i. split; [exact Ei|]. intros XN. apply Hi. destruct PI as [C|C]; [lra|exact C]. }
  destruct HY as (Y' & HY' & YB & (i' & Ei' & Hi') & Eo' & YY). clearbody y'.
  destruct (exc_x_go dm x X y y' o i' o Hx XZ X1 X2 X3 Eo Ei' Eo' Hi') as (z & ex & EG & ZR & EE & LT & LE). fold L in LE.
  rewrite EG. cbn [bindo]. rewrite Ei'. cbn [bindo]. rewrite LT. cbn [andb].
  set (s := Rlt_bool X 0 && o) in *. 
  pose proof (ker ct z y' ex Y' s ZR HY' YB EE) as KR. cbv zeta in KR. rewrite LE in KR. destruct KR as (res & ER & CASES); [lra|]. rewrite ER. exists res.
  assert (SL : forall t, Rlt_bool (pm s * Rpower 2 t) 0 = s) by (intros t; apply pm_lt; assert (0 < Rpower 2 t)%R by (unfold Rpower; apply exp_pos); destruct s; unfold pm; lra).
  assert (AV : forall t, Rabs (pm s * Rpower 2 t) = Rpower 2 t) by (intros t; rewrite pm_abs; apply Rabs_pos_eq, Rlt_le; unfold Rpower; apply exp_pos).
  assert (UP : (12800 < 64 * Y * L)%R -> res = f_inf S32 s -> exists W, Some res = Some res /\ (Rabs (W - pm s * Rpower 2 (Y * L)) <= bp (-28) * Rpower 2 (Y * L))%R /\ rounded S32 RNE W zs res).
  { intros C ->. exists (pm s * Rpower 2 (Y * L))%R. split; [reflexivity|]. split; [rewrite Rminus_diag_eq, Rabs_R0 by reflexivity; apply Rmult_le_pos; [apply bpow_ge_0|apply Rlt_le; unfold Rpower; apply exp_pos]|]. apply big_rounded; [rewrite AV; apply Rp2_bp; lra|]. rewrite SL. reflexivity. }
  assert (DN : (64 * Y * L < - 12800)%R -> res = f_zero S32 s -> exists W, Some res = Some res /\ (Rabs (W - pm s * Rpower 2 (Y * L)) <= bp (-28) * Rpower 2 (Y * L))%R /\ rounded S32 RNE W zs res).
  { intros C ->. exists (pm s * Rpower 2 (Y * L))%R. split; [reflexivity|]. split; [rewrite Rminus_diag_eq, Rabs_R0 by reflexivity; apply Rmult_le_pos; [apply bpow_ge_0|apply Rlt_le; unfold Rpower; apply exp_pos]|]. apply tiny_rounded; [rewrite AV; split; [unfold Rpower; apply exp_pos|apply Rle_lt_trans with (bp (-151)); [apply Rp2_bp'; lra|apply bpow_lt; lia]]|]. rewrite SL. reflexivity. }
  destruct YY as [->|YY].
  - destruct CASES as [(_ & d & W & -> & Rd & EW)|[(C & E)|(C & E)]]; [|apply UP; auto|apply DN; auto].
    exists W. split; [reflexivity|]. split; [exact EW|]. apply narrow_s; [exact Rd|]. intros ->. rewrite Rminus_0_l, Rabs_Ropp, AV in EW. assert (0 < Rpower 2 (Y * L))%R by (unfold Rpower; apply exp_pos). assert (bp (-28) < 1)%R by (bpn; lra). nra.
  - assert (LS : (0.000000085 <= L \/ L <= - 0.000000085)%R) by (destruct (Rle_or_lt 0 L); [rewrite Rabs_pos_eq in LB by auto; lra|rewrite Rabs_left in LB by auto; lra]).
    assert (K : (0.000000085 * 2500000000 > 205)%R) by lra.
    assert (SS : ((12800 < 64 * Y' * L /\ 12800 < 64 * Y * L) \/ (64 * Y' * L < - 12800 /\ 64 * Y * L < - 12800))%R).
    { destruct YY as [(A & B)|(A & B)], LS as [C|C]; [left|right|right|left]; split; nra. }
    destruct SS as [(A & B)|(A & B)]; destruct CASES as [(C & _)|[(C & E)|(C & E)]]; try (apply UP; auto; fail); try (apply DN; auto; fail); try lra; apply Rabs_le_inv in C; lra.
Qed.

Lemma small_none : forall rm x y Y, is_real S32 y Y -> Y <> 0%R -> (forall n, 3 <= n <= 24 -> Y <> IZR n) -> pf_small rm x y = Some None.
Proof.
  intros rm x y Y (Py & Fy & Vy) YZ NI. assert (NY : fval S32 y <> 0%R) by (rewrite Vy; exact YZ). destruct (pf_tests y Py Fy NY) as ((i & Ei & Hi) & _).
  unfold pf_small. pose proof Ei as Ei'. rewrite Ei. cbn [bindo]. destruct i; [|reflexivity]. cbn [andb].
  destruct (Z.ltb_spec 0x40000000 y) as [B1|B1]; [|reflexivity]. destruct (Z.leb_spec y 0x41c00000) as [B2|B2]; [|reflexivity]. exfalso.
  destruct (small_y y Py Fy NY ltac:(lia) Ei') as (n & EN & NB & _). apply (NI n); [lia|]. rewrite <- Vy. exact EN.
Qed.
Theorem powf_general : forall ct dm x y X Y (s : bool), is_real binary32 x X -> is_real binary32 y Y ->
  X <> 0%R -> Rabs X <> 1%R -> X <> 2%R -> X <> 10%R -> Y <> 0%R -> Y <> (/ 2)%R -> (forall n, 1 <= n <= 24 -> Y <> IZR n) ->
  (0 < X)%R \/ (exists n, Y = IZR n) -> (s = true <-> (X < 0)%R /\ exists n, Y = IZR (2 * n + 1)) ->
  exists r W, powf false ct dm RNE x y = Some r /\ rounded binary32 RNE W false r /\
    (Rabs (W - (if s then - Rpower (Rabs X) Y else Rpower (Rabs X) Y)) <= bpow radix2 (-28) * Rpower (Rabs X) Y)%R.
Proof.
  intros ct dm x y X Y s Hx Hy X0 X1 X2 X3 Y0 YH NI PI HS. pose proof Hx as (Px & Fx & Vx). pose proof Hy as (Py & Fy & Vy).
  assert (NY : fval S32 y <> 0%R) by (rewrite Vy; exact Y0). destruct (proj2 (pf_tests y Py Fy NY)) as (o & _ & Ho). rewrite Vy in Ho.
  destruct (powf_acc ct dm x y X Y o false Hx Hy X0 Y0) as (r & W & E & EW & HR); auto.
  - intros C. apply X1. rewrite <- Vx, (Rabs_fval S32 good32) by auto. rewrite C. unfold mval. cval (sig_of S32 0x3f800000). cval (exp_of S32 0x3f800000). bpn; lra.
  - intros ->. apply X2. rewrite <- Vx. fvalof S32 0x40000000. bpn; lra.
  - intros ->. apply X3. rewrite <- Vx. fvalof S32 0x41200000. bpn; lra.
  - intros ->. apply YH. rewrite <- Vy. fvalof S32 0x3f000000. bpn; lra.
  - intros ->. apply (NI 1); [lia|]. rewrite <- Vy. fvalof S32 0x3f800000. bpn; lra.
  - intros ->. apply (NI 2); [lia|]. rewrite <- Vy. fvalof S32 0x40000000. bpn; lra.
  - apply (small_none RNE x y Y Hy Y0). intros n Hn. apply NI. lia.
  - exists r, W. split; [exact E|]. split; [exact HR|].
    replace (if s then - Rpower (Rabs X) Y else Rpower (Rabs X) Y)%R with (pm (Rlt_bool X 0 && o) * Rpower (Rabs X) Y)%R; [exact EW|].
    replace (Rlt_bool X 0 && o) with s; [destruct s; unfold pm; ring|].
    destruct (Rlt_bool_spec X 0) as [A|A]; cbn [andb].
    + destruct s, o; auto; [destruct (proj1 HS eq_refl) as (_ & B); symmetry; apply Ho; exact B|apply HS; split; [exact A|apply Ho; reflexivity]].
    + destruct s; auto. destruct (proj1 HS eq_refl). lra.
Qed.
