(** * sin and cos for double *)
From Coq Require Import ZArith Lia List Bool Reals Lra.
From Flocq Require Import Core.
From Interval Require Import Tactic.
From Verif Require Import FPBits MachInt Fmt FloatSpec FmtProofs RoundProofs FOps FOpsProofs ExactOps ExtFloatSpec ExtFloatProofs ExtInterp FmanipWide RemProofs ErrLib Exp2fProofs ExpoFWrap Expm1Proofs Expm1Wrap ExpoData ExpoF Trig PhFin SinNum SinPoly SinRec SinRed Log1pWrap.
Import ListNotations.
Open Scope Z_scope.

Lemma sin_shift : forall n x, sin (x + 2 * IZR n * PI) = sin x /\ cos (x + 2 * IZR n * PI) = cos x.
Proof.
  assert (P : forall n x, sin (x + 2 * INR n * PI) = sin x /\ cos (x + 2 * INR n * PI) = cos x) by (intros; split; [apply sin_period|apply cos_period]).
  intros n x. destruct (Z_le_gt_dec 0 n) as [H|H].
  - destruct (P (Z.to_nat n) x) as (A & B). rewrite INR_IZR_INZ, Z2Nat.id in A, B by lia. auto.
  - destruct (P (Z.to_nat (- n)) (x + 2 * IZR n * PI)%R) as (A & B). rewrite INR_IZR_INZ, Z2Nat.id, opp_IZR in A, B by lia.
    replace (x + 2 * IZR n * PI + 2 * - IZR n * PI)%R with x in A, B by ring. auto.
Qed.

Definition skv (i : Z) : R := (
  let a := IZR 0x187de2a6aea963 * bp (-54) in let b := IZR 0x16a09e667f3bcd * bp (-53) in let c := IZR 0x1d906bcf328d46 * bp (-53) in
  let a' := IZR (-0x187de2a6aea963) * bp (-54) in let b' := IZR (-0x16a09e667f3bcd) * bp (-53) in let c' := IZR (-0x1d906bcf328d46) * bp (-53) in
  nth (Z.to_nat i) [ 0; a; b; c; 1; c; b; a; 0; a'; b'; c'; -1; c'; b'; a' ] 0)%R.
Ltac enum16 i := zenum i 16%nat.
Lemma skv_r : forall i, 0 <= i < 16 -> is_real D (at_ sin_k_d i) (skv i).
Proof.
  assert (L : forall m e v, (v = IZR m * bp e)%R -> Z.abs m < 2 ^ 53 -> -1074 <= e <= 900 -> is_real D (lit m e) v) by (intros m e v -> H1 H2; apply (lit_r false); auto).
  intros i Hi. enum16 i; cbv [at_ nth sin_k_d skv Z.to_nat Pos.to_nat Pos.iter_op Nat.add]; apply L; try lia; try reflexivity; bpn; lra.
Qed.
Ltac skred := repeat match goal with |- context [?a mod 16] => let v := eval vm_compute in (a mod 16) in change (a mod 16) with v end;
  cbv [skv nth Z.to_nat Pos.to_nat Pos.iter_op Nat.add].
Lemma skv_tab : forall u i, (bp (-53) <= u)%R -> 0 <= i < 16 -> tab_ok u (sin (IZR i * (PI / 8))) (cos (IZR i * (PI / 8))) (skv i) (skv ((i + 4) mod 16)).
Proof.
  intros u i Hu Hi. assert (Q : (bp (-55) <= / 4 * u)%R) by (revert Hu; bpn; intros; lra). assert (Q2 : (bp (-54) <= / 2 * u)%R) by (revert Hu; bpn; intros; lra).
  assert (T1 : forall a b, (Rabs (a - b) <= bp (-55) -> Rabs (a - b) <= / 4 * u)%R) by (intros; lra). assert (T2 : forall a b, (Rabs (a - b) <= bp (-54) -> Rabs (a - b) <= / 2 * u)%R) by (intros; lra).
  unfold tab_ok. destruct (Z.eq_dec i 0) as [->|N0].
  { left. rewrite Rmult_0_l, sin_0, cos_0. skred. repeat split; try reflexivity. apply Rabs_R1. }
  destruct (Z.eq_dec i 8) as [->|N8].
  { left. replace (8 * (PI / 8))%R with PI by field. rewrite sin_PI, cos_PI. skred. repeat split; try reflexivity. rewrite Rabs_left; lra. }
  right. assert (C : (i = 1 \/ i = 7 \/ i = 9 \/ i = 15) \/ (i <> 1 /\ i <> 7 /\ i <> 9 /\ i <> 15)) by lia. destruct C as [C|C].
  - left. destruct C as [-> | [-> | [-> | -> ]]]; skred; (split; [split; interval with (i_prec 60)|]); (split; [split; interval with (i_prec 60)|]); (split; [apply T1|apply T2]); bpn; interval with (i_prec 80).
  - right. enum16 i; try lia; skred; (split; [split; [|apply Rabs_le; apply SIN_bound]; interval with (i_prec 60)|]); (split; [interval with (i_prec 60)|]); (split; apply T2); bpn; interval with (i_prec 80).
Qed.

Definition trig (is_sin : bool) : R -> R := if is_sin then sin else cos.
Lemma trig_add : forall is_sin j w, let i := (if is_sin : bool then j mod 16 else (j + 4) mod 16) in
  trig is_sin (IZR j * (PI / 8) + w) = (sin (IZR i * (PI / 8)) * cos w + cos (IZR i * (PI / 8)) * sin w)%R.
Proof.
  intros is_sin j w. cbv zeta.
  assert (S : forall a b : Z, sin (IZR a * (PI / 8) + w) = (sin (IZR (a mod 16) * (PI / 8)) * cos w + cos (IZR (a mod 16) * (PI / 8)) * sin w)%R).
  { intros a _. rewrite <- sin_plus. rewrite <- (proj1 (sin_shift (a / 16) (IZR (a mod 16) * (PI / 8) + w))). f_equal.
    rewrite (Z.div_mod a 16) at 1 by lia. rewrite plus_IZR, mult_IZR. field. }
  destruct is_sin; cbn [trig].
  - apply (S j 0).
  - rewrite <- (S (j + 4) 0). rewrite plus_IZR. rewrite cos_sin. f_equal. field.
Qed.

Lemma sin_poly_r : List.Forall2 (is_real D) sin_poly sinC.
Proof. repeat constructor; try apply (lit_r false); lia. Qed.
Lemma cos_poly_r : List.Forall2 (is_real D) cos_poly cosC.
Proof. repeat constructor; try apply (lit_r false); lia. Qed.

Lemma sck_d : forall rm is_sin k j y Y w tau, is_real D y Y -> (Rabs w <= 0.1964)%R -> (0 <= tau <= / 100000)%R ->
  (Rabs (Y - w) <= 2.002 * uF D rm * Rabs w + tau)%R -> Z.land k 15 = j mod 16 -> Z.land (wrap 32 (k + 4)) 15 = (j + 4) mod 16 ->
  exists V, is_real D (sincosd_poly rm is_sin k y) V /\
    (let t := trig is_sin (IZR j * (PI / 8) + w) in Rabs (V - t) <= 13 * uF D rm * Rabs t + 2 * tau + 9 * etaD)%R.
Proof.
  intros rm is_sin k j y Y w tau HY HW HT EY K1 K2.
  assert (H24 : 24 <= prec D) by (vm_compute; discriminate). assert (Hem : emin D <= - 2 * prec D) by (vm_compute; discriminate). assert (Hb : 4 <= bias D) by (vm_compute; discriminate).
  destruct (ueta D H24 Hem rm) as (U & E). change (bp (emin D)) with etaD in E.
  assert (U53 : (bp (-53) <= uF D rm)%R) by (destruct rm; cbn [uF]; apply bpow_le; vm_compute; discriminate).
  assert (BY : (Rabs Y <= 0.1965)%R). { replace Y with ((Y - w) + w)%R by ring. pose proof (Rabs_triang (Y - w) w). pose proof (Rabs_pos w). assert (uF D rm * Rabs w <= / 8000000 * 0.1964)%R by (apply Rmult_le_compat; lra). lra. }
  assert (YY : (0 <= Y * Y <= 0.0387)%R). { pose proof (rm_le _ _ _ _ BY BY) as Q. pose proof (Rle_abs (Y * Y)). pose proof (Rle_0_sqr Y) as Q2. unfold Rsqr in Q2. lra. }
  assert (B1 : List.Forall (fun c => Rabs c <= / 2)%R sinC) by (unfold sinC; repeat (apply Forall_cons; [bpn; apply Rabs_le; lra|]); apply Forall_nil).
  assert (B2 : List.Forall (fun c => Rabs c <= / 2)%R cosC) by (unfold cosC; repeat (apply Forall_cons; [bpn; apply Rabs_le; lra|]); apply Forall_nil).
  assert (ONE : is_real D (lit 1 0) 1). { replace 1%R with (IZR 1 * bp 0)%R by (change (bp 0) with 1%R; ring). apply (lit_r false); lia. }
  destruct (s1_e D good64 H24 Hem Hb rm y Y HY ltac:(lra) sin_poly sinC sin_poly_r ltac:(discriminate) B1) as (S & RS & ES).
  { set (q := (Y * Y)%R) in *. clearbody q. unfold sinC. cbn [hr]. bpn. apply Rabs_le. split; interval with (i_prec 60). }
  destruct (c1_e D good64 H24 Hem Hb rm y Y HY ltac:(lra) cos_poly cosC (lit 1 0) ONE cos_poly_r ltac:(discriminate) B2) as (C & RC & EC).
  { set (q := (Y * Y)%R) in *. clearbody q. unfold cosC. cbn [hr]. bpn. split; interval with (i_prec 60). }
  pose proof (sin_poly_err Y ltac:(lra)) as PS. pose proof (cos_poly_err Y BY) as PC.
  replace (Y ^ 2)%R with (Y * Y)%R in PS, PC by ring. replace (Y ^ 3)%R with (Y * Y * Y)%R in PS by ring.
  assert (DS : (Rabs (S - sin Y) <= 1.35 * uF D rm * Rabs Y + 4 * etaD)%R).
  { replace (S - sin Y)%R with ((S - (Y + Y * Y * Y * hr (Y * Y) sinC)) - (sin Y - (Y + Y * Y * Y * hr (Y * Y) sinC)))%R by ring. change (bp (emin D)) with etaD in ES.
    pose proof (Rabs_triang (S - (Y + Y * Y * Y * hr (Y * Y) sinC)) (- (sin Y - (Y + Y * Y * Y * hr (Y * Y) sinC)))) as TR. rewrite Rabs_Ropp in TR. fold (Rminus (S - (Y + Y * Y * Y * hr (Y * Y) sinC)) (sin Y - (Y + Y * Y * Y * hr (Y * Y) sinC))) in TR.
    assert (bp (-58) * Rabs Y <= 0.1 * uF D rm * Rabs Y)%R by (apply Rmult_le_compat_r; [apply Rabs_pos|revert U53; bpn; intros; lra]). pose proof (Rabs_pos Y). assert (0 <= uF D rm * Rabs Y)%R by (apply Rmult_le_pos; lra). lra. }
  assert (DC : (Rabs (C - cos Y) <= 1.25 * uF D rm)%R).
  { replace (C - cos Y)%R with ((C - (1 + Y * Y * hr (Y * Y) cosC)) - (cos Y - (1 + Y * Y * hr (Y * Y) cosC)))%R by ring.
    pose proof (Rabs_triang (C - (1 + Y * Y * hr (Y * Y) cosC)) (- (cos Y - (1 + Y * Y * hr (Y * Y) cosC)))) as TR. rewrite Rabs_Ropp in TR. fold (Rminus (C - (1 + Y * Y * hr (Y * Y) cosC)) (cos Y - (1 + Y * Y * hr (Y * Y) cosC))) in TR.
    assert (bp (-60) <= 0.1 * uF D rm)%R by (revert U53; bpn; intros; lra). lra. }
  assert (BS : (Rabs S <= 1)%R). { replace S with ((S - sin Y) + (sin Y - sin 0))%R by (rewrite sin_0; ring). pose proof (Rabs_triang (S - sin Y) (sin Y - sin 0)). pose proof (sin_lip Y 0) as L. rewrite Rminus_0_r in L. pose proof (Rabs_pos Y). assert (uF D rm * Rabs Y <= / 8000000 * 0.1965)%R by (apply Rmult_le_compat; lra). lra. }
  assert (BC : (Rabs C <= 1.1)%R). { replace C with ((C - cos Y) + cos Y)%R by ring. pose proof (Rabs_triang (C - cos Y) (cos Y)). assert (Rabs (cos Y) <= 1)%R by (apply Rabs_le; apply COS_bound). lra. }
  unfold sincosd_poly. cbv zeta. rewrite K1, K2.
  pose proof (Z.mod_pos_bound j 16 ltac:(lia)) as J1. pose proof (Z.mod_pos_bound (j + 4) 16 ltac:(lia)) as J2.
  pose proof (skv_r _ J1) as RJ1. pose proof (skv_r _ J2) as RJ2.
  assert (SB : forall i, 0 <= i < 16 -> (Rabs (skv i) <= 1)%R).
  { intros i Hi. enum16 i; cbv [skv nth Z.to_nat Pos.to_nat Pos.iter_op Nat.add]; bpn; apply Rabs_le; lra. }
  pose proof (SB _ J1) as SB1. pose proof (SB _ J2) as SB2.
  set (s1 := f_add D rm (f_mul D rm (f_mul D rm (f_mul D rm y y) y) (horner_ma D rm (f_mul D rm y y) sin_poly)) y) in *.
  set (c1 := f_add D rm (f_mul D rm (f_mul D rm y y) (horner_ma D rm (f_mul D rm y y) cos_poly)) (lit 1 0)) in *. clearbody s1 c1.
  rewrite (trig_add is_sin j w). destruct is_sin.
  - destruct (mulD rm _ _ _ _ RJ2 RS) as (A & RA & EA); [pose proof (rm_le _ _ _ _ SB2 BS); lra|].
    destruct (mulD rm _ _ _ _ RJ1 RC) as (B & RB & EB); [pose proof (rm_le _ _ _ _ SB1 BC); lra|].
    pose proof (skv_tab (uF D rm) (j mod 16) U53 J1) as TB. rewrite Zplus_mod_idemp_l in TB.
    destruct (recon (uF D rm) etaD tau w Y S C _ _ _ _ A B (fround D rm (A + B)) U E HT HW EY DS DC TB EA EB (rel_e D good64 H24 rm (A + B))) as (AB & EV).
    exists (fround D rm (A + B)). split; [|exact EV]. apply (add_r D good64 rm _ _ _ _ RA RB). apply (small_big D good64 H24 Hem Hb). lra.
  - assert (NEG : is_real D (f_neg D (at_ sin_k_d (j mod 16))) (skv ((j + 4 + 4) mod 16))).
    { replace (skv ((j + 4 + 4) mod 16)) with (- skv (j mod 16))%R; [apply (neg_rl D good64); exact RJ1|].
      replace (j + 4 + 4) with (j + 8) by ring. rewrite <- Zplus_mod_idemp_l. set (i := j mod 16) in *. clearbody i. clear - J1.
      enum16 i; skred; bpn; lra. }
    pose proof (Z.mod_pos_bound (j + 4 + 4) 16 ltac:(lia)) as J3. pose proof (SB _ J3) as SB3.
    destruct (mulD rm _ _ _ _ RJ2 RC) as (B & RB & EB); [pose proof (rm_le _ _ _ _ SB2 BC); lra|].
    destruct (mulD rm _ _ _ _ NEG RS) as (A & RA & EA); [pose proof (rm_le _ _ _ _ SB3 BS); lra|].
    pose proof (skv_tab (uF D rm) ((j + 4) mod 16) U53 J2) as TB. rewrite Zplus_mod_idemp_l in TB.
    destruct (recon (uF D rm) etaD tau w Y S C _ _ _ _ A B (fround D rm (A + B)) U E HT HW EY DS DC TB EA EB (rel_e D good64 H24 rm (A + B))) as (AB & EV).
    exists (fround D rm (A + B)). split; [|exact EV]. rewrite (Rplus_comm A B) in *. apply (add_r D good64 rm _ _ _ _ RB RA). apply (small_big D good64 H24 Hem Hb). lra.
Qed.

Lemma abs_mag : forall x, Z.land x 0x7fffffffffffffff = mag_of D x.
Proof. intros x. change 0x7fffffffffffffff with (Z.ones 63). rewrite Z.land_ones by lia. reflexivity. Qed.

(** The error left by the range reduction *)
Definition red_err (X : R) : R := if Rlt_bool (Rabs X) (bp 20) then (Rabs X * bp (-113))%R else bp (-99).
Lemma sincosd_accuracy : forall rm ct is_sin x X, (ct = true -> rm = RNE) -> is_real D x X ->
  exists r V, sincosd_eval rm ct is_sin x = Some r /\ is_real D r V /\
    (Rabs (V - trig is_sin X) <= 13 * uF D rm * Rabs (trig is_sin X) + red_err X + bp (-1070))%R.
Proof.
  intros rm ct is_sin x X HC HX. pose proof HX as (PX & FX & VX). unfold sincosd_eval. rewrite abs_mag.
  pose proof (uD2 rm) as U. assert (EB : (9 * etaD <= bp (-1070))%R). { unfold etaD. replace (bp (-1070)) with (bp (4 + -1074)) by reflexivity. rewrite bpow_plus. change (bp 4) with 16%R. pose proof (bpow_gt_0 radix2 (-1074)). lra. }
  assert (RE : (0 <= red_err X)%R). { unfold red_err. destruct (Rlt_bool _ _); [apply Rmult_le_pos; [apply Rabs_pos|apply bpow_ge_0]|apply bpow_ge_0]. }
  pose proof (bpow_gt_0 radix2 (-1070)) as B1070.
  cbv zeta. destruct (Z.eqb_spec (mag_of D x) 0) as [M0|M0].
  { assert (X0 : X = 0%R). { apply Rabs_eq_R0. rewrite <- VX. rewrite (Rabs_fval D good64 x FX), M0. rewrite (mval_c D 0 good64) by (vm_compute; split; [discriminate|reflexivity]). unfold fval. change (decode D 0) with (DFin false 0 (-1074)). cbn [dval]. ring. }
    clear VX.
    subst X. destruct is_sin; cbn [trig].
    - exists x, 0%R. split; [reflexivity|]. split; [exact HX|]. rewrite sin_0, Rminus_0_r, Rabs_R0, Rmult_0_r. lra.
    - exists (lit 1 0), 1%R. split; [reflexivity|]. split; [replace 1%R with (IZR 1 * bp 0)%R by (change (bp 0) with 1%R; ring); apply (lit_r false); lia|]. rewrite cos_0, Rminus_eq_0, Rabs_R0, Rabs_R1. lra. }
  assert (B20 : fval D 0x4130000000000000 = bp 20).
  { destruct (pos_pat 0x4130000000000000 ltac:(lia)) as (_ & _ & ->). replace (0x4130000000000000 mod 2 ^ 52) with 0 by reflexivity. replace (0x4130000000000000 / 2 ^ 52 - 1075) with (-32) by reflexivity. rewrite Z.add_0_r. change (IZR (2 ^ 52)) with (bp 52). rewrite <- bpow_plus. reflexivity. }
  pose proof (mag_lt D x 0x4130000000000000 X good64 HX ltac:(vm_compute; split; [discriminate|reflexivity])) as ML. rewrite B20 in ML.
  destruct (Z.ltb_spec (mag_of D x) 0x4130000000000000) as [LT|GE].
  - apply ML in LT. destruct (red_d rm ct x X HC HX ltac:(lra)) as (z & y & Y & ER & RY & BW & EW). rewrite ER.
    set (w := (X - IZR z * (PI / 8))%R) in *.
    assert (HT : (0 <= Rabs X * bp (-114) <= / 100000)%R). { split; [apply Rmult_le_pos; [apply Rabs_pos|apply bpow_ge_0]|]. apply Rle_trans with (bp 20 * bp (-114))%R; [apply Rmult_le_compat_r; [apply bpow_ge_0|lra]|bpn; lra]. }
    assert (HW : (Rabs w <= 0.1964)%R). { apply Rle_trans with (1 := BW). bpn. interval with (i_prec 60). }
    destruct (sck_d rm is_sin (wrap 32 z) z y Y w _ RY HW HT EW (land15 z)) as (V & RV & EV).
    { rewrite land15. unfold wrap. rewrite <- Zplus_mod_idemp_l, <- (Zplus_mod_idemp_l z). f_equal. f_equal. symmetry. apply Znumtheory.Zmod_div_mod; try lia. exists (2 ^ 28). reflexivity. }
    eexists _, V. split; [reflexivity|]. split; [exact RV|]. replace (IZR z * (PI / 8) + w)%R with X in EV by (unfold w; ring). cbv zeta in EV.
    assert (ED : (2 * (Rabs X * bp (-114)) = Rabs X * bp (-113))%R) by (bpn; lra). unfold red_err. rewrite Rlt_bool_true by exact LT. lra.
  - assert (G : (bp 20 <= Rabs X)%R). { apply Rnot_lt_le. intros C. apply ML in C. lia. }
    replace (0x7ff0000000000000 <=? mag_of D x) with false by (symmetry; apply Z.leb_gt; unfold is_fin in FX; apply Z.ltb_lt in FX; exact FX).
    destruct (ph_reduce rm x X HX) as (k & y & Y & n & ER & Hk & RY & BW & EW). { apply Rle_trans with (2 := G). apply bpow_le. lia. }
    rewrite ER. set (w := (X - IZR (16 * n + k) * (PI / 8))%R) in *.
    assert (HT : (0 <= bp (-100) <= / 100000)%R) by (bpn; lra).
    assert (HW : (Rabs w <= 0.1964)%R). { apply Rle_trans with (1 := BW). bpn. interval with (i_prec 60). }
    destruct (sck_d rm is_sin k (16 * n + k) y Y w _ RY HW HT EW) as (V & RV & EV).
    { change 15 with (Z.ones 4). rewrite Z.land_ones by lia. change (2 ^ 4) with 16. rewrite Z.add_comm, (Z.mul_comm 16 n), Z.mod_add by lia. reflexivity. }
    { rewrite land15. replace (16 * n + k + 4) with (k + 4 + n * 16) by ring. rewrite Z.mod_add by lia. reflexivity. }
    eexists _, V. split; [reflexivity|]. split; [exact RV|]. replace (IZR (16 * n + k) * (PI / 8) + w)%R with X in EV by (unfold w; ring). cbv zeta in EV.
    assert (ED : (2 * bp (-100) = bp (-99))%R) by (bpn; lra). unfold red_err. rewrite Rlt_bool_false by exact G. lra.
Qed.

Lemma sincosd_special : forall rm ct is_sin x, is_pattern D x ->
  (mag_of D x = 0 -> sincosd_eval rm ct is_sin x = Some (if is_sin then x else lit 1 0)) /\
  (is_fin D x = false -> sincosd_eval rm ct is_sin x = Some (qnan D)).
Proof.
  intros rm ct is_sin x P. unfold sincosd_eval. rewrite abs_mag. cbv zeta. split.
  - intros ->. reflexivity.
  - unfold is_fin. intros H. apply Z.ltb_ge in H. change (inf_mag D) with 0x7ff0000000000000 in H.
    replace (mag_of D x =? 0) with false by (symmetry; apply Z.eqb_neq; lia). replace (mag_of D x <? 0x4130000000000000) with false by (symmetry; apply Z.ltb_ge; lia).
    replace (0x7ff0000000000000 <=? mag_of D x) with true by (symmetry; apply Z.leb_le; lia). destruct (FPBits.fp_is_signaling_nan D x); [reflexivity|].
    f_equal. unfold f_add. replace (decode D (qnan D)) with DNaN by (vm_compute; reflexivity). destruct (decode D x); reflexivity.
Qed.
