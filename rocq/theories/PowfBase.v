(** * powf: the bases 2 and 10 *)
From Coq Require Import ZArith Lia Reals Lra List Bool.
From Flocq Require Import Core.
From Interval Require Import Tactic.
From Verif Require Import MachInt Bits Fmt FloatSpec RoundProofs FmtProofs ExtFloatSpec FOps FOpsProofs ExactOps RemProofs FmanipWide ErrLib LogfNum ExtInterp Expm1Proofs Exp2fProofs ExtFloatProofs Eft EftProofs NearestProofs SinRedF ExpoData ExpoF ExpoFWrap ExpD ExpDNum ExpDWrap LogD PowfData Powf PowfSpecial PowfTab PowfNum PowfDD PowfRed PowfFast PowfScale PowfPat PowfSlow PowfExp PowfKer PowfAcc.
Import ListNotations.
Open Scope Z_scope.

Lemma big128 : forall W zs, (bp 128 <= W)%R -> rounded S32 RNE W zs (f_inf S32 false).
Proof.
  intros W zs H. pose proof (bpow_gt_0 radix2 128) as B0. assert (A : (bp 128 <= Rabs W)%R) by (rewrite Rabs_pos_eq; lra).
  assert (FB : (bp 128 <= Rabs (fround S32 RNE W))%R) by (pose proof (VE S32 good32) as VE'; apply (abs_round_ge_generic radix2 (FLT_exp (emin S32) (prec S32)) ZnearestE); [|exact A]; apply generic_format_FLT_bpow; [reflexivity|vm_compute; congruence]).
  unfold rounded. rewrite Req_bool_false by lra. rewrite Rlt_bool_false by lra. change (bias S32 + 1) with 128. split; [split; vm_compute; congruence|]. split; [vm_compute; reflexivity|]. split; [intros C; lra|]. intros _. vm_compute. reflexivity.
Qed.

(** The exponent left by the first tests. *)
Lemma exc_y_val : forall y Y, is_real S32 y Y -> Y <> 0%R -> let y' := if 0x4f170000 <? mag_of S32 y then Z.land y 0x80000000 + 0x4f800000 else y in
  exists Y', is_real S32 y' Y' /\ (bp (-150) <= Rabs Y' <= bp 32)%R /\ (Y' = Y \/ (2500000000 <= Y' /\ 2500000000 <= Y) \/ (Y' <= - 2500000000 /\ Y <= - 2500000000))%R.
Proof.
  intros y Y Hy YZ y'. pose proof Hy as (Py & Fy & Vy). assert (NY : fval S32 y <> 0%R) by (rewrite Vy; exact YZ). pose proof (mag_range S32 good32 y) as MR.
  assert (MN : mag_of S32 y <> 0) by (intros E; apply (fval_zero S32 good32 y Fy) in E; lra).
  unfold y'. destruct (Z.ltb_spec 0x4f170000 (mag_of S32 y)) as [BG|BG].
  - rewrite (land_sign y Py).
    assert (YA : (2500000000 <= Rabs Y)%R). { rewrite <- Vy, (Rabs_fval S32 good32) by auto. apply Rle_trans with (mval S32 0x4f170000). { unfold mval. cval (sig_of S32 0x4f170000). cval (exp_of S32 0x4f170000). bpn; lra. } apply (mval_le S32 good32); lia. }
    pose proof (sign_fval S32 good32 y Fy NY) as SY. rewrite Vy in SY. exists (pm (sign_of S32 y) * bp 32)%R. split; [|split].
    + destruct (sign_of S32 y); unfold sbit, pm.
      * replace (-1 * bp 32)%R with ((if true then -1 else 1) * IZR (2 ^ 23) * bp 9)%R by (cbv iota; bpn; lra). apply (real_dec S32 _ true (2 ^ 23) 9); [split; vm_compute; congruence|vm_compute; reflexivity].
      * replace (1 * bp 32)%R with ((if false then -1 else 1) * IZR (2 ^ 23) * bp 9)%R by (cbv iota; bpn; lra). apply (real_dec S32 _ false (2 ^ 23) 9); [split; vm_compute; congruence|vm_compute; reflexivity].
    + rewrite pm_abs, Rabs_pos_eq by apply bpow_ge_0. split; [apply bpow_le; lia|lra].
    + right. assert (B32 : (2500000000 <= bp 32)%R) by (bpn; lra). destruct (Rlt_bool_spec Y 0) as [A|A]; rewrite SY; unfold pm; [right; rewrite Rabs_left in YA by auto; lra|left; rewrite Rabs_pos_eq in YA by auto; lra].
  - exists Y. split; [exact Hy|]. split; [|left; reflexivity]. rewrite <- Vy, (Rabs_fval S32 good32) by auto. split.
    + apply Rle_trans with (mval S32 1); [|apply (mval_le S32 good32); lia]. unfold mval. cval (sig_of S32 1). cval (exp_of S32 1). rewrite Rmult_1_l. apply bpow_le; lia.
    + apply Rle_trans with (mval S32 0x4f170000); [apply (mval_le S32 good32); lia|]. unfold mval. cval (sig_of S32 0x4f170000). cval (exp_of S32 0x4f170000). bpn; lra.
Qed.

Lemma plain_y : forall y Y, is_real S32 y Y -> Y <> (/ 2)%R -> (forall n, 1 <= n <= 24 -> Y <> IZR n) -> y <> 0x3f000000 /\ y <> 0x3f800000 /\ y <> 0x40000000.
Proof.
  intros y Y (Py & Fy & Vy) YH NI. split; [|split]; intros ->.
  - apply YH. rewrite <- Vy. fvalof S32 0x3f000000. bpn; lra.
  - apply (NI 1); [lia|]. rewrite <- Vy. fvalof S32 0x3f800000. bpn; lra.
  - apply (NI 2); [lia|]. rewrite <- Vy. fvalof S32 0x40000000. bpn; lra.
Qed.

Theorem powf_two : forall ct y Y, is_real S32 y Y -> Y <> 0%R -> Y <> (/ 2)%R -> (forall n, 1 <= n <= 24 -> Y <> IZR n) -> (Y <= -150 \/ -149 <= Y)%R ->
  exists r W, powf false ct RNE RNE 0x40000000 y = Some r /\ rounded S32 RNE W false r /\ (Rabs (W - Rpower 2 Y) <= bp (-28) * Rpower 2 Y)%R.
Proof.
  intros ct y Y Hy Y0 YH NI GAP. destruct (plain_y y Y Hy YH NI) as (N1 & N2 & N3).
  assert (SM : pf_small RNE 0x40000000 y = Some None) by (apply (small_none RNE _ y Y Hy Y0); intros n Hn; apply NI; lia).
  unfold powf, pf_exceptional. rewrite (exc_y_go RNE _ y Y Hy Y0 N1 N2 N3 SM). cbn [bindo].
  destruct (exc_y_val y Y Hy Y0) as (Y' & HY' & YB & YY). set (y' := if _ <? _ then _ else _) in *. clearbody y'.
  change (pf_exc_x RNE RNE 0x40000000 y y' (-127)) with (Some (PF_ret (exp2f RNE RNE y'))). cbn [bindo]. pose proof HY' as (P' & F' & V').
  assert (PP : (0 < Rpower 2 Y)%R) by apply exp_pos.
  assert (EX : forall t, (0 < t)%R -> (Rabs (t - t) <= bp (-28) * t)%R) by (intros t Ht; rewrite Rminus_diag_eq, Rabs_R0 by reflexivity; apply Rmult_le_pos; [apply bpow_ge_0|lra]).
  assert (OV : (128 <= Y')%R -> (128 <= Y)%R -> exists r W, Some (exp2f RNE RNE y') = Some r /\ rounded S32 RNE W false r /\ (Rabs (W - Rpower 2 Y) <= bp (-28) * Rpower 2 Y)%R).
  { intros A B. rewrite (exp2f_over RNE RNE y' P' F') by (rewrite V'; exact A). eexists _, (Rpower 2 Y). split; [reflexivity|]. split; [|apply EX; exact PP]. apply (big128 (Rpower 2 Y)). apply Rp2_bp. exact B. }
  assert (UN : (Y' <= -150)%R -> (Y <= -150)%R -> exists r W, Some (exp2f RNE RNE y') = Some r /\ rounded S32 RNE W false r /\ (Rabs (W - Rpower 2 Y) <= bp (-28) * Rpower 2 Y)%R).
  { intros A B. pose proof (exp2f_outside RNE RNE y' P' F') as O. cbv zeta in O. rewrite V' in O. specialize (O ltac:(lra) ltac:(intros _; lra)).
    destruct (Req_dec Y' Y) as [E|E]; [rewrite E in O; eexists _, (Rpower 2 Y); split; [reflexivity|]; split; [exact O|apply EX; exact PP]|].
    destruct YY as [C|[C|C]]; [contradiction|lra|]. rewrite (exp2f_under RNE RNE y' P' F') by (rewrite V'; lra). eexists _, (Rpower 2 Y). split; [reflexivity|]. split; [|apply EX; exact PP].
    apply tiny_rounded; [rewrite Rabs_pos_eq by lra; split; [exact PP|apply Rle_lt_trans with (bp (-151)); [apply Rp2_bp'; lra|apply bpow_lt; lia]]|]. rewrite Rlt_bool_false by lra. reflexivity. }
  destruct YY as [->|[C|C]]; [|apply OV; lra|apply UN; lra]. destruct GAP as [G|G]; [apply UN; exact G|]. destruct (Rle_or_lt 128 Y) as [H|H]; [apply OV; exact H|].
  destruct (exp2f_accuracy RNE RNE y' P' F') as (W & E & R); [rewrite V'; lra|]. rewrite V' in E. eexists _, W. split; [reflexivity|]. split; [exact R|]. eapply Rle_trans; [exact E|]. apply Rmult_le_compat_r; [lra|]. apply bpow_le. lia.
Qed.

(** ** The base 10 *)
Lemma log10_r : is_real D pf_LOG2_10 (IZR 0x1A934F0979A371 * bp (-51)).
Proof.
  assert (E : pf_LOG2_10 = 0x400A934F0979A371) by (vm_compute; reflexivity). rewrite E.
  replace (IZR 0x1A934F0979A371 * bp (-51))%R with ((if false then -1 else 1) * IZR 0x1A934F0979A371 * bp (-51))%R by (cbv iota; ring). apply (real_dec D _ false 0x1A934F0979A371 (-51)); [split; vm_compute; congruence|vm_compute; reflexivity].
Qed.
Lemma log10_v : (Rabs (IZR 0x1A934F0979A371 * bp (-51) - log2 10) <= v)%R /\ (3.32 <= log2 10 <= 3.322)%R.
Proof. unfold log2, v. split; [bpn; interval with (i_prec 100)|split; interval with (i_prec 60)]. Qed.

Theorem powf_ten : forall ct y Y, is_real S32 y Y -> Y <> 0%R -> Y <> (/ 2)%R -> (forall n, 1 <= n <= 24 -> Y <> IZR n) -> (Y <= -45.25 \/ -44.85 <= Y)%R ->
  exists r W, powf false ct RNE RNE 0x41200000 y = Some r /\ rounded S32 RNE W false r /\ (Rabs (W - Rpower 10 Y) <= bp (-28) * Rpower 10 Y)%R.
Proof.
  intros ct y Y Hy Y0 YH NI GAP. destruct (plain_y y Y Hy YH NI) as (N1 & N2 & N3).
  assert (SM : pf_small RNE 0x41200000 y = Some None) by (apply (small_none RNE _ y Y Hy Y0); intros n Hn; apply NI; lia).
  unfold powf, pf_exceptional. rewrite (exc_y_go RNE _ y Y Hy Y0 N1 N2 N3 SM). cbn [bindo].
  destruct (exc_y_val y Y Hy Y0) as (Y' & HY' & YB & YY). set (y' := if _ <? _ then _ else _) in *. clearbody y'.
  change (pf_exc_x RNE RNE 0x41200000 y y' (-127)) with (Some (PF_ret (exp10f RNE RNE y'))). cbn [bindo].
  rewrite (Rpower_log2 10 Y) by lra. destruct log10_v as (EC & LB). pose proof log10_r as RC. set (C := (IZR 0x1A934F0979A371 * bp (-51))%R) in *. set (l := log2 10) in *. pose proof v_pos as VP.
  assert (PP : (0 < Rpower 2 (Y * l))%R) by apply exp_pos.
  assert (EX : forall t, (0 < t)%R -> (Rabs (t - t) <= bp (-28) * t)%R) by (intros t Ht; rewrite Rminus_diag_eq, Rabs_R0 by reflexivity; apply Rmult_le_pos; [apply bpow_ge_0|lra]).
  assert (CB : (3.3 <= C <= 3.33)%R) by (apply Rabs_le_inv in EC; lra).
  pose proof (Rabs_pos Y') as YP. pose proof (bpow_gt_0 radix2 (-150)) as B150. set (M := (4 * Rabs Y')%R).
  assert (MB : rng M) by (unfold rng, M; split; [apply Rle_trans with (bp (-150)); [apply bpow_le; lia|lra]|apply Rle_trans with (bp 34); [replace (bp 34) with (4 * bp 32)%R by (bpn; lra); lra|apply bpow_le; lia]]).
  destruct (mul_g RNE (f_cast S32 D RNE y') pf_LOG2_10 Y' C M (widen RNE y' Y' HY') RC) as (T & RT & ET). { rewrite Rabs_mult, (Rabs_pos_eq C) by lra. unfold M. rewrite Rmult_comm. apply Rmult_le_compat_r; lra. } { exact MB. }
  unfold exp10f. set (t := f_mul D RNE (f_cast S32 D RNE y') pf_LOG2_10) in *.
  assert (ETL : (Rabs (T - Y' * l) <= 5 * (v * Rabs Y'))%R). { replace (T - Y' * l)%R with ((T - Y' * C) + Y' * (C - l))%R by ring. eapply Rle_trans; [apply Rabs_triang|]. rewrite (Rabs_mult Y'). assert (Rabs Y' * Rabs (C - l) <= Rabs Y' * v)%R by (apply Rmult_le_compat_l; lra). unfold M in ET. lra. }
  assert (VY : (0 <= v * Rabs Y' <= / 1000000000000000 * Rabs Y')%R) by (split; [apply Rmult_le_pos; lra|apply Rmult_le_compat_r; lra]).
  assert (L128 : is_real D (lit 128 0) 128). { replace 128%R with (IZR 128 * bp 0)%R by (simpl; lra). apply (lit_r false 128 0); lia. }
  assert (L149 : is_real D (lit (-149) 0) (-149)). { replace (-149)%R with (IZR (-149) * bp 0)%R by (simpl; lra). apply (lit_r false (-149) 0); lia. }
  pose proof RT as (Pt & Ft & Vt). destruct L128 as (_ & F1 & V1). destruct L149 as (_ & F2 & V2).
  rewrite (f_ge_fin D good64) by auto. rewrite (f_lt_fin D good64) by auto. rewrite Vt, V1, V2.
  assert (TB : (Rabs T <= bp 34)%R). { replace T with ((T - Y' * l) + Y' * l)%R by ring. eapply Rle_trans; [apply Rabs_triang|]. rewrite (Rabs_mult Y' l), (Rabs_pos_eq l) by lra. replace (bp 34) with (4 * bp 32)%R by (bpn; lra). nra. }
  assert (CAST : T <> 0%R -> is_real S32 (f_cast D S32 RNE t) (fround S32 RNE T)).
  { intros TN. destruct (narrow_s t T false RT TN) as (P1 & _ & M1 & _). destruct M1 as (F3 & V3). { apply Rle_lt_trans with (bp 34); [apply (fround_abs_le S32 good32); [apply generic_format_FLT_bpow; [reflexivity|vm_compute; congruence]|exact TB]|apply bpow_lt; vm_compute; reflexivity]. } split; auto. }
  destruct (Rle_bool_spec 128 T) as [A|A]; [|destruct (Rlt_bool_spec T (-149)) as [B|B]]; cbn [orb].
  - destruct (CAST ltac:(lra)) as (P3 & F3 & V3). assert (R3 : (128 <= fround S32 RNE T)%R) by (apply (fround_ge_gen S32 good32); [replace 128%R with (bp 7) by (bpn; lra); apply generic_format_FLT_bpow; [reflexivity|vm_compute; congruence]|exact A]).
    rewrite (exp2f_over RNE RNE _ P3 F3) by (rewrite V3; exact R3). eexists.
    assert (TL : (127.9999999999 <= Y * l)%R).
    { destruct YY as [<-|[(U1 & U2)|(U1 & U2)]]; [|nra|exfalso; rewrite (Rabs_left Y') in * by lra; apply Rabs_le_inv in ETL; nra].
      assert (Y'P : (0 < Y')%R) by (apply Rnot_le_lt; intros N; rewrite (Rabs_left1 Y') in * by lra; apply Rabs_le_inv in ETL; nra). rewrite (Rabs_pos_eq Y') in * by lra.
      apply Rabs_le_inv in ETL. destruct (Rle_or_lt 128 (Y' * l)) as [Q|Q]; [lra|]. assert (Y' < 39)%R by (apply Rnot_le_lt; intros N; assert (39 * 3.32 <= Y' * l)%R by (apply Rmult_le_compat; lra); lra). lra. }
    destruct (Rle_or_lt 128 (Y * l)) as [Q|Q].
    + exists (Rpower 2 (Y * l)). split; [reflexivity|]. split; [apply (big128 (Rpower 2 (Y * l))); apply Rp2_bp; exact Q|apply EX; exact PP].
    + exists (bp 128). split; [reflexivity|]. split; [apply (big128 (bp 128)); lra|]. set (V := Rpower 2 (Y * l)) in *.
      assert (V2' : (Rpower 2 (-0.0000000001) * bp 128 <= V <= bp 128)%R). { unfold V. split; [rewrite <- Rpower2_Z, <- Rpower_plus; apply Rle_Rpower; lra|apply Rp2_bp'; lra]. }
      assert (V3' : (0.9999999999 <= Rpower 2 (-0.0000000001))%R) by (unfold Rpower; interval with (i_prec 80)). pose proof (bpow_gt_0 radix2 128) as B0. assert (0.9999999999 * bp 128 <= V)%R by (eapply Rle_trans; [apply Rmult_le_compat_r; [lra|exact V3']|apply V2']).
      rewrite Rabs_pos_eq by lra. assert (/ 300000000 <= bp (-28))%R by (bpn; lra). assert (/ 300000000 * V <= bp (-28) * V)%R by (apply Rmult_le_compat_r; lra). lra.
  - assert (YN : (Y' < 0)%R) by (apply Rnot_le_lt; intros N; rewrite (Rabs_pos_eq Y') in * by lra; apply Rabs_le_inv in ETL; nra). rewrite (Rabs_left Y') in * by lra. apply Rabs_le_inv in ETL.
    assert (YL : (Y <= -45.25 /\ Y' <= -45.25)%R). { destruct YY as [->|[(U1 & U2)|(U1 & U2)]]; [|lra|lra]. destruct GAP as [G|G]; [lra|]. exfalso. nra. }
    assert (TL : (T <= -150)%R) by nra. destruct (CAST ltac:(lra)) as (P3 & F3 & V3).
    assert (R3 : (fround S32 RNE T <= -150)%R). { apply (fround_le_gen S32 good32); [|exact TL]. replace (-150)%R with (IZR (-150) * bp 0)%R by (simpl; lra). apply (fmt_scaled S32); vm_compute; congruence. }
    rewrite (exp2f_under RNE RNE _ P3 F3) by (rewrite V3; lra). eexists _, (Rpower 2 (Y * l)). split; [reflexivity|]. split; [|apply EX; exact PP].
    apply tiny_rounded; [rewrite Rabs_pos_eq by lra; split; [exact PP|apply Rle_lt_trans with (Rpower 2 (-150.1)); [apply Rle_Rpower; [lra|nra]|rewrite <- Rpower2_Z; apply Rpower_lt; lra]]|]. rewrite Rlt_bool_false by lra. reflexivity.
  - assert (YE : Y' = Y). { destruct YY as [E|[(U1 & U2)|(U1 & U2)]]; [exact E|exfalso|exfalso]; [rewrite (Rabs_pos_eq Y') in * by lra|rewrite (Rabs_left Y') in * by lra]; apply Rabs_le_inv in ETL; nra. } rewrite YE in *.
    assert (YS : (Rabs Y <= 46)%R). { destruct (Rle_or_lt 0 Y); [rewrite (Rabs_pos_eq Y) in * by lra|rewrite (Rabs_left Y) in * by lra]; apply Rabs_le_inv in ETL; nra. }
    assert (EE : (Rabs (T - Y * l) <= 230 * v)%R) by (assert (v * Rabs Y <= v * 46)%R by (apply Rmult_le_compat_l; lra); lra).
    set (V := Rpower 2 (Y * l)) in *. set (VT := Rpower 2 T). assert (VTE : VT = (V * Rpower 2 (T - Y * l))%R) by (unfold VT, V; rewrite <- Rpower_plus; f_equal; ring).
    assert (PS : (Rabs (Rpower 2 (T - Y * l) - 1) <= 200 * v)%R). { pose proof (pow_shift (64 * (T - Y * l)) 0 (14720 * v)) as X. replace (64 * (T - Y * l) / 64)%R with (T - Y * l)%R in X by field. replace (0 / 64)%R with 0%R in X by field. rewrite Rpower_O in X by lra. eapply Rle_trans; [apply X|lra]; [rewrite Rminus_0_r, Rabs_mult, (Rabs_pos_eq 64) by lra; lra|lra|rewrite Rabs_R0; lra]. }
    assert (VV : (Rabs (VT - V) <= 200 * (v * V))%R). { rewrite VTE. replace (V * Rpower 2 (T - Y * l) - V)%R with (V * (Rpower 2 (T - Y * l) - 1))%R by ring. rewrite Rabs_mult, (Rabs_pos_eq V) by lra. assert (V * Rabs (Rpower 2 (T - Y * l) - 1) <= V * (200 * v))%R by (apply Rmult_le_compat_l; lra). lra. }
    assert (VVS : (0 < v * V <= / 1000000000000 * V)%R) by (split; [apply Rmult_lt_0_compat; lra|apply Rmult_le_compat_r; lra]).
    assert (VTB : (bp (-149) <= VT <= bp 128)%R) by (unfold VT; split; [apply Rp2_bp; lra|apply Rp2_bp'; lra]).
    destruct (exp2_d_gen RNE t T RT ltac:(lra)) as (w & RW & W0 & EW).
    assert (TY : (bp (-1124) <= v * VT)%R). { apply Rle_trans with (v * bp (-149))%R; [unfold v; rewrite <- bpow_plus; apply bpow_le; lia|apply Rmult_le_compat_l; lra]. }
    assert (E57 : (bp (eD RNE) * VT <= v * VT)%R) by (apply Rmult_le_compat_r; [pose proof (bpow_gt_0 radix2 (-149)); lra|unfold v; apply bpow_le; vm_compute; congruence]). fold VT in EW.
    pose proof (Rabs_le_inv _ _ VV) as VV1. assert (v * VT <= v * (2 * V))%R by (apply Rmult_le_compat_l; lra).
    assert (EW' : (Rabs (w - VT) <= 4 * (v * V))%R) by lra. pose proof (Rabs_le_inv _ _ EW') as EW1. pose proof (bpow_gt_0 radix2 (-149)) as B149.
    assert (WB : (Rabs w <= 2 * V)%R) by (rewrite Rabs_pos_eq; lra).
    assert (RG : rng (2 * V)). { split; [apply Rle_trans with (bp (-149)); [apply bpow_le; lia|lra]|apply Rle_trans with (bp 130); [replace (bp 130) with (4 * bp 128)%R by (change 4%R with (bp 2); rewrite <- bpow_plus; reflexivity); lra|apply bpow_le; lia]]. }
    destruct (fr_g RNE w (2 * V) WB RG) as (E1 & E2). destruct RW as (Pd & _ & Md & _). destruct (Md E2) as (Fd & Vd).
    eexists _, (fround D RNE w). split; [reflexivity|].
    assert (FIN : (Rabs (fround D RNE w - V) <= 210 * (v * V))%R). { replace (fround D RNE w - V)%R with ((fround D RNE w - w) + ((w - VT) + (VT - V)))%R by ring. eapply Rle_trans; [apply tri; [exact E1|apply tri; [exact EW'|exact VV]]|]. lra. }
    split.
    + apply narrow_s; [split; [exact Pd|split; [exact Fd|exact Vd]]|]. intros E. rewrite E, Rminus_0_l, Rabs_Ropp, Rabs_pos_eq in FIN by lra. lra.
    + eapply Rle_trans; [exact FIN|]. rewrite <- Rmult_assoc. apply Rmult_le_compat_r; [lra|]. unfold v; bpn; lra.
Qed.
