(** * log for double: the two branches together *)
From Coq Require Import ZArith Lia Bool Reals Lra List.
From Flocq Require Import Core Relative.
From Interval Require Import Tactic.
From Verif Require Import MachInt Fmt FloatSpec FmtProofs RoundProofs FOps FOpsProofs ExactOps ExtFloatSpec ExtFloatProofs ExtInterp FmanipWide ErrLib ExpoData LogDataD ExpoF LogD Exp2fProofs ExpoFWrap LogRed LogfNum LogfProofs LogfWrap LogDTab LogDNum LogDRed LogDRem LogDFar LogDNear Expm1Proofs.
Import ListNotations.
Open Scope Z_scope.

Lemma ln1p_abs6 : forall r, (Rabs r <= / 16 -> 94 / 100 * Rabs r <= Rabs (ln (1 + r)))%R.
Proof.
  intros r H. apply Rabs_le_inv in H. destruct (Rle_or_lt 0 r) as [Hr|Hr].
  - rewrite (Rabs_pos_eq r) by auto. pose proof (ln1p_lower r ltac:(lra)) as L.
    assert (94 / 100 * r <= r / (1 + r))%R. { apply Rmult_le_reg_r with (1 + r)%R; [lra|]. replace (r / (1 + r) * (1 + r))%R with r by (field; lra). nra. }
    rewrite Rabs_pos_eq; nra.
  - rewrite (Rabs_left r) by auto. pose proof (ln1p_upper r ltac:(lra)). rewrite Rabs_left1 by lra. lra.
Qed.

(** ** The remainder x - 1 of an argument close to 1 *)
Lemma one_rem : forall rm x X, is_real D x X -> (Rabs (X - 1) <= / 16)%R -> X <> 1%R ->
  exists e, is_real D (f_sub D rm x (lit 1 0)) (X - 1) /\ -53 <= e <= -4 /\ (bp e <= Rabs (X - 1) < bp (e + 1))%R /\ exists m, (X - 1 = IZR m * bp (-53))%R.
Proof.
  intros rm x X Hx HB N. pose proof (Rabs_le_inv _ _ HB) as [B1 B2]. assert (N0 : (X - 1)%R <> 0%R) by lra.
  assert (G : generic_format radix2 fexpD X) by (destruct Hx as (P & Fi & <-); apply (fval_format D good64); auto).
  destruct (fmt_mult X (-1) G ltac:(lia)) as (m & HM). { rewrite Rabs_pos_eq by lra. change (bp (-1)) with (/ 2)%R. lra. } change (-1 - 52) with (-53) in HM.
  assert (EM : (X - 1 = IZR (m - 2 ^ 53) * bp (-53))%R). { rewrite HM, minus_IZR, (IZR_pow2 53) by lia. rewrite Rmult_minus_distr_r, <- bpow_plus. reflexivity. }
  assert (LB : (bp (-53) <= Rabs (X - 1))%R).
  { rewrite EM, Rabs_mult, (Rabs_pos_eq (bp (-53))) by apply bpow_ge_0. rewrite <- abs_IZR. rewrite <- (Rmult_1_l (bp (-53))) at 1. apply Rmult_le_compat_r; [apply bpow_ge_0|].
    apply IZR_le. assert (m - 2 ^ 53 <> 0); [|lia]. intros C. apply N0. rewrite EM, C. ring. }
  destruct (mag radix2 (X - 1)) as (e & He). specialize (He N0). cbn in He. exists (e - 1). replace (e - 1 + 1) with e by ring.
  split; [|split; [|split; [exact He|exists (m - 2 ^ 53); exact EM]]].
  - assert (L1 : is_real D (lit 1 0) 1) by (pose proof (lit_r false 1 0 ltac:(lia) ltac:(lia)) as L; rewrite Rmult_1_l in L; exact L).
    apply (sub_x D good64) with (1 := Hx) (2 := L1); [reflexivity| |].
    + rewrite EM. apply gfx; [lia|]. rewrite <- EM. apply Rle_lt_trans with (1 := HB). change (bp (-53 + 53)) with 1%R. lra.
    + apply bigD with 0; [lia|]. change (bp 0) with 1%R. lra.
  - assert (-53 < e) by (apply lt_bpow with radix2; lra). assert (e - 1 <= -4); [|lia]. apply le_bpow with radix2. change (bp (-4)) with (/ 16)%R. lra.
Qed.
Lemma sign_dec : forall x : R, x <> 0%R -> exists p, (p = 1 \/ p = -1)%R /\ x = (Rabs x * p)%R.
Proof.
  intros x H. destruct (Rle_or_lt 0 x); [exists 1%R; rewrite Rabs_pos_eq by auto|exists (-1)%R; rewrite Rabs_left by auto]; split; auto; ring.
Qed.

(** ** The branch on the bit pattern *)
Lemma pat_range : forall low high x X, is_real D x X -> (0 < X)%R -> 0 < low -> low < high -> high < 0x7ff0000000000000 ->
  if wrap 64 (x - low) <? wrap 64 (high - low) then (fval D low <= X < fval D high)%R else (X < fval D low \/ fval D high <= X)%R.
Proof.
  intros low high x X Hx HX L1 L2 L3. pose proof good64 as HF. destruct (pos_D x X Hx HX) as [B _]. destruct Hx as (P & Fi & <-).
  assert (ML : forall a, 0 <= a < 0x7ff0000000000000 -> fval D a = mval D a) by (intros a Ha; symmetry; apply mval_c; [exact HF|exact Ha]).
  rewrite !ML by lia. unfold wrap. rewrite (Z.mod_small (high - low)) by lia. destruct (Z_lt_le_dec x low) as [C|C].
  - replace (x - low) with (x - low + 2 ^ 64 + -1 * 2 ^ 64) by ring. rewrite Z.mod_add, Z.mod_small by lia. destruct (Z.ltb_spec (x - low + 2 ^ 64) (high - low)); [lia|]. left. apply (mval_lt D HF); lia.
  - rewrite Z.mod_small by lia. destruct (Z.ltb_spec (x - low) (high - low)).
    + split; [apply (mval_le D HF); lia|apply (mval_lt D HF); lia].
    + right. apply (mval_le D HF); lia.
Qed.

(** ** log *)
Theorem logd_near_core : forall rm x X, is_real D x X -> (Rabs (X - 1) <= / 16)%R -> X <> 1%R ->
  exists a b S H, logd_near rm x = f_add D rm a b /\ is_real D a S /\ is_real D b H /\ (Rabs (S + H - ln X) <= bp (match rm with RNE => -59 | _ => -58 end) * Rabs (ln X))%R.
Proof.
  intros rm x X Hx HB N. destruct (one_rem rm x X Hx HB N) as (e & Hr & He & RB & _).
  destruct (sign_dec (X - 1) ltac:(lra)) as (p & Hp & EP).
  rewrite EP in Hr. destruct (logd_near_e rm _ (Rabs (X - 1)) p e Hp Hr He RB HB) as (a & b & S & H & E & RS & RH & HE).
  exists a, b, S, H. split; [exact E|]. split; [exact RS|]. split; [exact RH|]. rewrite <- EP in HE.
  pose proof (lmP_rel (X - 1) HB) as L. pose proof (ln1p_abs6 (X - 1) HB) as A. replace (1 + (X - 1))%R with X in * by ring.
  pose proof (hD_b rm) as HH. assert (0 <= Rabs (X - 1))%R by apply Rabs_pos. set (M := Rabs (X - 1)) in *.
  replace (S + H - ln X)%R with (S + H - lmP (X - 1) + (lmP (X - 1) - ln X))%R by ring. apply Rle_trans with (1 := Rabs_triang _ _).
  assert (19 / 1000 * hD rm * M + bp (-61) * M <= bp (match rm with RNE => -59 | _ => -58 end) * (94 / 100 * M))%R by (unfold hD; destruct rm; bpn; lra).
  assert (bp (match rm with RNE => -59 | _ => -58 end) * (94 / 100 * M) <= bp (match rm with RNE => -59 | _ => -58 end) * Rabs (ln X))%R by (apply Rmult_le_compat_l; [apply bpow_ge_0|exact A]). lra.
Qed.
Theorem logd_core : forall rm x X, is_real D x X -> (0 < X)%R -> X <> 1%R ->
  exists a b S H, logd_impl rm x = f_add D rm a b /\ is_real D a S /\ is_real D b H /\ (Rabs (S + H - ln X) <= bp (match rm with RNE => -55 | _ => -54 end) * Rabs (ln X))%R.
Proof.
  intros rm x X Hx HX N. unfold logd_impl.
  replace (f_sub F64 RNE (lit 1 0) (lit 1 (-4))) with 0x3fee000000000000 by (vm_compute; reflexivity). replace (f_add F64 RNE (lit 1 0) (lit 1 (-4))) with 0x3ff1000000000000 by (vm_compute; reflexivity). cbv zeta.
  pose proof (pat_range 0x3fee000000000000 0x3ff1000000000000 x X Hx HX ltac:(lia) ltac:(lia) ltac:(lia)) as PR.
  replace (fval D 0x3fee000000000000) with (15 / 16)%R in PR. 2: { realof D 0x3fee000000000000 H. destruct H as (_ & _ & ->). bpn. lra. }
  replace (fval D 0x3ff1000000000000) with (17 / 16)%R in PR. 2: { realof D 0x3ff1000000000000 H. destruct H as (_ & _ & ->). bpn. lra. }
  destruct (wrap 64 (x - 0x3fee000000000000) <? wrap 64 (0x3ff1000000000000 - 0x3fee000000000000)).
  - destruct (Z.eqb_spec x (lit 1 0)) as [->|_].
    + exfalso. apply N. pose proof (lit_r false 1 0 ltac:(lia) ltac:(lia)) as (_ & _ & L). destruct Hx as (_ & _ & <-). rewrite Rmult_1_l in L. exact L.
    + destruct (logd_near_core rm x X Hx ltac:(apply Rabs_le; lra) N) as (a & b & S & H & E & RS & RH & HE). exists a, b, S, H. repeat (split; [assumption|]).
      apply Rle_trans with (1 := HE). apply Rmult_le_compat_r; [apply Rabs_pos|]. apply bpow_le. destruct rm; lia.
  - assert (FX : (X <= 15 / 16 \/ 17 / 16 <= X)%R) by (destruct PR; [left; lra|right; lra]).
    destruct (logd_far_core rm x X Hx HX FX) as (a & b & S & H & E & RS & RH & HE). exists a, b, S, H. repeat (split; [assumption|]).
    pose proof (ln_away X HX FX) as LA. apply Rle_trans with (1 := HE). apply Rle_trans with (bp (match rm with RNE => -55 | _ => -54 end) * (6 / 100))%R; [destruct rm; bpn; lra|].
    apply Rmult_le_compat_l; [apply bpow_ge_0|exact LA].
Qed.
