(** * expf: the computed value against the real exponential *)
From Coq Require Import ZArith Lia Bool Reals Lra List.
From Flocq Require Import Core.
From Interval Require Import Tactic.
From Verif Require Import MachInt Fmt FloatSpec FmtProofs RoundProofs FOps FOpsProofs ExactOps ExtFloatSpec ExtFloatProofs ExtInterp FmanipWide ErrLib ExpoData ExpoF Exp2fProofs.
Import ListNotations.
Open Scope Z_scope.

Lemma tab_eq : expf_tab = exp2f_tab. Proof. reflexivity. Qed.
Lemma shift_expf : expf_shift = (1075 - 0) * 2 ^ 52 + 2 ^ 51. Proof. vm_compute. reflexivity. Qed.
Lemma inv_real : is_real D expf_invln2N (IZR 0x171547652b82fe * bp (-47)).
Proof. replace expf_invln2N with (lit 0x171547652b82fe (-47)) by (vm_compute; reflexivity). apply lit_r; lia. Qed.
Lemma c0_real : is_real D (at_ expf_polys 0) (IZR 0x1c6af84b912394 * bp (-72)).
Proof. replace (at_ expf_polys 0) with (lit 0x1c6af84b912394 (-72)) by (vm_compute; reflexivity). apply lit_r; lia. Qed.
Lemma c1_real : is_real D (at_ expf_polys 1) (IZR 0x1ebfce50fac4f3 * bp (-65)).
Proof. replace (at_ expf_polys 1) with (lit 0x1ebfce50fac4f3 (-65)) by (vm_compute; reflexivity). apply lit_r; lia. Qed.
Lemma c2_real : is_real D (at_ expf_polys 2) (IZR 0x162e42ff0c52d6 * bp (-58)).
Proof. replace (at_ expf_polys 2) with (lit 0x162e42ff0c52d6 (-58)) by (vm_compute; reflexivity). apply lit_r; lia. Qed.

Lemma poly_eval_s : forall rm rem r, is_real D rem r -> (Rabs r <= 1 + bp (-50))%R ->
  exists Y, is_real D (f_add F64 rm (f_mul F64 rm (f_add F64 rm (f_mul F64 rm (at_ expf_polys 0) rem) (at_ expf_polys 1)) (f_mul F64 rm rem rem))
     (f_add F64 rm (f_mul F64 rm (at_ expf_polys 2) rem) (f_of_Z F64 rm 1))) Y /\ (Rabs (Y - P3 (r / 32)) <= bp (-50))%R.
Proof.
  intros rm rem r Hr HB. bpn_in HB. pose proof c0_real as H0. pose proof c1_real as H1. pose proof c2_real as H2.
  assert (HO : is_real D (f_of_Z F64 rm 1) 1) by (apply (ofz_r D good64 rm 1); vm_compute; congruence).
  destruct (mul_e rm _ _ _ _ (-19) H0 Hr ltac:(lia) ltac:(bpn; interval with (i_prec 60))) as (e1 & E1 & R1).
  destruct (add_e rm _ _ _ _ (-10) R1 H1 ltac:(lia) ltac:(bpn_in E1; bpn; interval with (i_prec 60))) as (e2 & E2 & R2).
  destruct (mul_e rm _ _ _ _ 1 Hr Hr ltac:(lia) ltac:(bpn; interval with (i_prec 60))) as (e3 & E3 & R3).
  destruct (mul_e rm _ _ _ _ (-5) H2 Hr ltac:(lia) ltac:(bpn; interval with (i_prec 60))) as (e4 & E4 & R4).
  destruct (add_e rm _ _ _ _ 1 R4 HO ltac:(lia) ltac:(bpn_in E4; bpn; interval with (i_prec 60))) as (e5 & E5 & R5).
  destruct (mul_e rm _ _ _ _ (-9) R2 R3 ltac:(lia) ltac:(bpn_in E1; bpn_in E2; bpn_in E3; bpn; interval with (i_prec 60))) as (e6 & E6 & R6).
  destruct (add_e rm _ _ _ _ 1 R6 R5 ltac:(lia) ltac:(bpn_in E1; bpn_in E2; bpn_in E3; bpn_in E4; bpn_in E5; bpn_in E6; bpn; interval with (i_prec 60))) as (e7 & E7 & R7).
  eexists. split; [exact R7|].
  match goal with |- (Rabs ?t <= _)%R => replace t with ((C0 / 32 / 32 / 32 * r + C1 / 32 / 32 + e1 + e2) * e3 + (e1 + e2) * (r * r) + e6 + e4 + e5 + e7)%R by (unfold P3, C0, C1, C2; bpn; field) end.
  unfold C0, C1. bpn_in E1; bpn_in E2; bpn_in E3; bpn_in E4; bpn_in E5; bpn_in E6; bpn_in E7; bpn. interval with (i_prec 60).
Qed.

(** scale and result of exp_float_impl: their product against exp. *)
Lemma expf_kernel_spec : forall rm x X, is_real F32 x X -> (Rabs X <= 110)%R -> exists V T j Y G,
  is_real D (fst (expf_kernel rm x)) (V * bp j) /\ is_real D (snd (expf_kernel rm x)) Y /\ -1000 <= j <= 1000 /\
  (Rabs (V - T) <= bp (-53))%R /\ (1 <= T < 2)%R /\ exp X = (T * bp j * G)%R /\ (97 / 100 <= G <= 3 / 2)%R /\
  (Rabs (Y - G) <= 76 / 10000000000 + bp (-43))%R /\ (rm = RNE -> (Rabs (Y - G) <= 100 / 1000000000000 + bp (-43))%R /\ (989 / 1000 <= G)%R).
Proof.
  intros rm x X Hx HX. pose proof (widen rm x X Hx) as Hd. unfold expf_kernel. rewrite tab_eq. cbv zeta. cbn [fst snd].
  set (xd := f_cast F32 F64 rm x) in *.
  destruct (mul_e rm _ _ _ _ 13 inv_real Hd ltac:(lia) ltac:(bpn; interval with (i_prec 60))) as (ez & EZ & RZ).
  set (zd := f_mul F64 rm expf_invln2N xd) in *. set (Z := (IZR 6497320848556798 * bp (-47) * X + ez)%R) in *.
  assert (ZB : (Rabs Z <= 5200)%R) by (unfold Z; bpn_in EZ; bpn; interval with (i_prec 60)).
  destruct (shift_trick rm 0 _ Z ltac:(lia) RZ) as (k & K1 & K2 & K3 & K4 & K5 & _).
  { change (50 - 0) with 50. bpn. lra. }
  change (- 0) with 0 in *. change (0 - 1) with (-1) in *. change (bp 0) with 1%R in *. change (bp (-1)) with (/ 2)%R in *. rewrite Rmult_1_r in *. rewrite <- shift_expf in *.
  set (kd := f_sub F64 rm (f_add F64 rm zd expf_shift) expf_shift) in *.
  assert (KB : -32000 <= k <= 32000).
  { apply Rabs_le_inv in K4. apply Rabs_le_inv in ZB. split; apply le_IZR; lra. }
  destruct (sub_e rm _ _ _ _ 1 RZ K3 ltac:(lia)) as (e0 & E0 & R0).
  { bpn. lra. }
  set (rem := f_sub F64 rm zd kd) in *. set (r := (Z - IZR k + e0)%R) in *.
  assert (RB : (Rabs r <= 1 + bp (-50))%R).
  { unfold r. apply Rle_trans with (1 := Rabs_triang _ _). bpn. bpn_in E0. lra. }
  destruct (poly_eval_s rm rem _ R0 RB) as (Y & RY & EY).
  destruct (scale32 expf_shift k) as (V & T & RV & EV & TB & TE); [exists (1075 * 2 ^ 35 + 2 ^ 34); vm_compute; reflexivity|exact KB|].
  rewrite K1. set (sc := wrap 64 _) in *. set (yp := f_add F64 rm (f_mul F64 rm _ _) _) in *.
  set (j := k / 32) in *.
  assert (JB : -1000 <= j <= 1000) by (unfold j; split; [apply Z.div_le_lower_bound|apply Z.div_le_upper_bound]; lia).
  assert (L2 : (0 < ln 2)%R) by interval with (i_prec 60).
  set (d := (X / ln 2 - IZR k / 32)%R).
  assert (DR : (Rabs (r / 32 - d) <= bp (-44))%R).
  { unfold r, d, Z. replace ((IZR 6497320848556798 * bp (-47) * X + ez - IZR k + e0) / 32 - (X / ln 2 - IZR k / 32))%R with (X * (IZR 6497320848556798 * bp (-47) / 32 - / ln 2) + (ez + e0) / 32)%R by (field; lra).
    bpn_in EZ. bpn_in E0. bpn. interval with (i_prec 80). }
  assert (DB : (Rabs d <= / 31)%R).
  { bpn_in DR. bpn_in RB. replace d with (r / 32 - (r / 32 - d))%R by ring. apply Rabs_le_inv in DR. apply Rabs_le_inv in RB. apply Rabs_le. lra. }
  set (G := exp (d * ln 2)).
  assert (XE : (exp X = T * bp j * G)%R).
  { rewrite TE. unfold G. fold (Rpower 2 d). rewrite <- Rpower_plus. unfold Rpower. f_equal. unfold d. field. lra. }
  assert (GE : (Rabs (exp (r / 32 * ln 2) - G) <= bp (-44))%R).
  { unfold G. replace (r / 32 * ln 2)%R with (d * ln 2 + (r / 32 - d) * ln 2)%R by ring. rewrite exp_plus. set (u := (r / 32 - d)%R) in *.
    replace (exp (d * ln 2) * exp (u * ln 2) - exp (d * ln 2))%R with (exp (d * ln 2) * (exp (u * ln 2) - 1))%R by ring.
    bpn_in DR. bpn. interval with (i_prec 80). }
  assert (GB : (97 / 100 <= G <= 3 / 2)%R) by (unfold G; interval with (i_prec 60)).
  exists V, T, j, Y, G. split; [exact RV|]. split; [exact RY|]. split; [exact JB|]. split; [exact EV|]. split; [exact TB|]. split; [exact XE|]. split; [exact GB|].
  assert (RB1 : (Rabs (r / 32) <= / 32 + bp (-50))%R).
  { unfold Rdiv. rewrite Rabs_mult, (Rabs_pos_eq (/ 32)) by lra. bpn_in RB. bpn. lra. }
  split.
  - pose proof (P3_far _ RB1) as PF. replace (Y - G)%R with (Y - P3 (r / 32) + (P3 (r / 32) - exp (r / 32 * ln 2)) + (exp (r / 32 * ln 2) - G))%R by ring. bpn_in EY. bpn_in GE.
    repeat match goal with HH : (Rabs _ <= _)%R |- _ => apply Rabs_le_inv in HH end. apply Rabs_le. bpn. lra.
  - intros EM. specialize (K5 EM).
    assert (RB2 : (Rabs (r / 32) <= / 64 + bp (-50))%R).
    { unfold Rdiv. rewrite Rabs_mult, (Rabs_pos_eq (/ 32)) by lra. unfold r. apply Rle_trans with ((Rabs (Z - IZR k) + Rabs e0) * / 32)%R.
      - apply Rmult_le_compat_r; [lra|apply Rabs_triang]. - bpn_in E0. bpn. lra. }
    pose proof (P3_near _ RB2) as PF. split.
    + replace (Y - G)%R with (Y - P3 (r / 32) + (P3 (r / 32) - exp (r / 32 * ln 2)) + (exp (r / 32 * ln 2) - G))%R by ring. bpn_in EY. bpn_in GE.
      repeat match goal with HH : (Rabs _ <= _)%R |- _ => apply Rabs_le_inv in HH end. apply Rabs_le. bpn. lra.
    + assert (D2 : (Rabs d <= / 63)%R).
      { bpn_in DR. bpn_in RB2. replace d with (r / 32 - (r / 32 - d))%R by ring. apply Rabs_le_inv in DR. apply Rabs_le_inv in RB2. apply Rabs_le. lra. }
      unfold G. interval with (i_prec 60).
Qed.

Lemma expf_core : forall rm x X, is_real F32 x X -> (Rabs X <= 110)%R -> exists y W, expf_main rm x = f_cast F64 F32 rm y /\ is_real D y W /\
  (Rabs (W - exp X) <= bp (-26) * exp X)%R /\ (rm = RNE -> (Rabs (W - exp X) <= bp (-33) * exp X)%R).
Proof.
  intros rm x X Hx HX. destruct (expf_kernel_spec rm x X Hx HX) as (V & T & j & Y & G & RV & RY & JB & EV & TB & XE & GB & Y1 & Y2).
  unfold expf_main. destruct (expf_kernel rm x) as [sc yp]. cbn [fst snd] in RV, RY.
  destruct (mul_e rm _ _ _ _ (j + 2) RV RY ltac:(lia)) as (e8 & E8 & R8).
  { rewrite Z.add_comm, bpow_plus. change (bp 2) with 4%R. replace (V * bp j * Y)%R with (V * Y * bp j)%R by ring. rewrite !Rabs_mult, (Rabs_pos_eq (bp j)) by apply bpow_ge_0. apply Rmult_le_compat_r; [apply bpow_ge_0|].
    assert (Rabs V <= 21 / 10)%R by (bpn_in EV; apply Rabs_le_inv in EV; apply Rabs_le; lra).
    assert (Rabs Y <= 16 / 10)%R by (bpn_in Y1; apply Rabs_le_inv in Y1; apply Rabs_le; lra).
    apply Rle_trans with (21 / 10 * (16 / 10))%R; [|lra]. apply Rmult_le_compat; auto; apply Rabs_pos. }
  replace (j + 2 - 53) with (j - 51) in E8 by ring.
  eexists _, _. split; [reflexivity|]. split; [exact R8|]. rewrite XE. split.
  - apply combine with (dl := (76 / 10000000000 + bp (-43))%R) (g := (97 / 100)%R); auto; try (bpn; lra).
  - intros EM. destruct (Y2 EM) as [Y3 G3]. apply combine with (dl := (100 / 1000000000000 + bp (-43))%R) (g := (989 / 1000)%R); auto; try (bpn; lra).
Qed.
