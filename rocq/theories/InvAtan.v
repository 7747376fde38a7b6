(** * asin, acos and atan of double and float *)
From Coq Require Import ZArith Lia List Bool Reals Lra Ratan.
From Coquelicot Require Import Coquelicot.
From Flocq Require Import Core.
From Interval Require Import Tactic.
From Verif Require Import MachInt Fmt FloatSpec FmtProofs RoundProofs FPBits FPBitsProofs FOps FOpsProofs ExactOps Compare CompareProofs ExtFloatSpec ExtFloatProofs ExtInterp FmanipWide RemProofs ErrLib Exp2fProofs ExpoData ExpoF ExpoFWrap Expm1Proofs Expm1Wrap HypotProofs Log1pWrap Sqrt SqrtProofs SinPoly SinRedF SinF InvTrig InvNum InvPoly InvAcc.
Import ListNotations.
Open Scope Z_scope.
Notation bp := (bpow radix2).

(** ** the real function *)
Lemma d_atan : forall x : R, is_derive atan x (/ (1 + x * x)).
Proof. intros x. auto_derive; [exact I|]. field. nra. Qed.
Lemma atan_mvt : forall a b : R, exists t, ((Rmin b a <= t <= Rmax b a) /\ atan a - atan b = / (1 + t * t) * (a - b))%R.
Proof.
  intros a b. destruct (MVT_gen atan b a (fun t => / (1 + t * t))%R) as (t & Ht & E).
  - intros t Ht. apply d_atan.
  - intros t Ht. apply continuity_pt_filterlim. apply (ex_derive_continuous atan). eexists. apply d_atan.
  - exists t. split; assumption.
Qed.
Lemma inv1 : forall t : R, (0 < / (1 + t * t) <= 1)%R.
Proof. intros t. split; [apply Rinv_0_lt_compat; nra|]. rewrite <- Rinv_1 at 2. apply Rinv_le_contravar; nra. Qed.
Lemma atan_lip : forall a b : R, (Rabs (atan a - atan b) <= Rabs (a - b))%R.
Proof. intros a b. destruct (atan_mvt a b) as (t & _ & E). rewrite E, Rabs_mult. pose proof (inv1 t). rewrite (Rabs_pos_eq (/ _)) by lra. pose proof (Rabs_pos (a - b)). nra. Qed.
Lemma atan_abs : forall x : R, Rabs (atan x) = atan (Rabs x).
Proof.
  intros x. destruct (Rle_lt_dec 0 x) as [L|L].
  - rewrite (Rabs_pos_eq x) by lra. apply Rabs_pos_eq. rewrite <- atan_0. destruct (Req_dec x 0) as [->|N]; [lra|]. apply Rlt_le, atan_increasing. lra.
  - rewrite (Rabs_left x) by lra. rewrite atan_opp. apply Rabs_left. rewrite <- atan_0. apply atan_increasing. lra.
Qed.
Lemma atan_nn : forall x : R, (0 <= x -> 0 <= atan x <= x)%R.
Proof.
  intros x H. split. { rewrite <- (Rabs_pos_eq x) by lra. rewrite <- atan_abs. apply Rabs_pos. }
  pose proof (atan_lip x 0) as L. rewrite atan_0, !Rminus_0_r in L. rewrite (Rabs_pos_eq x) in L by lra. pose proof (Rle_abs (atan x)). lra.
Qed.
Lemma atan_lo : forall x : R, (0 <= x -> x / (1 + x * x) <= atan x)%R.
Proof.
  intros x H. destruct (atan_mvt x 0) as (t & Ht & E). rewrite Rmin_left, Rmax_right in Ht by lra. rewrite atan_0, !Rminus_0_r in E. rewrite E. unfold Rdiv. rewrite Rmult_comm. apply Rmult_le_compat_r; [lra|].
  apply Rinv_le_contravar; nra.
Qed.
(** a small relative change of the argument is a relative change of the value that is not much larger *)
Lemma atan_rel : forall a b d : R, (0 <= d <= / 1000000 -> Rabs (b - a) <= d * Rabs a -> Rabs (atan b - atan a) <= 1.0001 * d * Rabs (atan a))%R.
Proof.
  assert (P : forall a b d : R, (0 < a -> 0 <= d <= / 1000000 -> Rabs (b - a) <= d * a -> Rabs (atan b - atan a) <= 1.0001 * d * atan a)%R).
  { intros a b d A0 D H. destruct (atan_mvt b a) as (t & Ht & E). pose proof (Rabs_le_inv _ _ H) as HI. assert (DA : (d * a <= / 1000000 * a)%R) by (apply Rmult_le_compat_r; lra).
    assert (T : (0.999999 * a <= t)%R). { unfold Rmin, Rmax in Ht. destruct (Rle_dec a b); lra. } 
    rewrite E, Rabs_mult. pose proof (inv1 t) as I. rewrite (Rabs_pos_eq (/ _)) by lra. pose proof (atan_lo a ltac:(lra)) as LO.
    assert (J : (/ (1 + t * t) <= 1.0001 * / (1 + a * a))%R).
    { assert (P1 : (0 < 1 + a * a)%R) by nra. assert (P2 : (0 < 1 + t * t)%R) by nra. assert (TT : (0.999999 * 0.999999 * (a * a) <= t * t)%R) by nra.
      apply Rmult_le_reg_l with (1 := P2). rewrite Rinv_r by lra. replace ((1 + t * t) * (1.0001 * / (1 + a * a)))%R with (1.0001 * (1 + t * t) * / (1 + a * a))%R by ring.
      apply Rmult_le_reg_r with (1 := P1). rewrite Rmult_assoc, Rinv_l by lra. nra. }
    apply Rle_trans with (1.0001 * / (1 + a * a) * (d * a))%R; [apply Rmult_le_compat; try lra; apply Rabs_pos|].
    replace (1.0001 * / (1 + a * a) * (d * a))%R with (1.0001 * d * (a / (1 + a * a)))%R by (unfold Rdiv; ring). apply Rmult_le_compat_l; [lra|exact LO]. }
  intros a b d D H. destruct (Rtotal_order 0 a) as [A|[A|A]].
  - rewrite (Rabs_pos_eq a) in H by lra. rewrite (atan_abs a), (Rabs_pos_eq a) by lra. apply P; assumption.
  - subst a. rewrite Rabs_R0, Rmult_0_r, Rminus_0_r in H. assert (b = 0%R). { pose proof (Rabs_pos b). destruct (Req_dec b 0); auto. apply Rabs_pos_lt in H1. lra. } subst b. rewrite Rminus_eq_0, atan_0, !Rabs_R0. lra.
  - rewrite (Rabs_left a) in H by lra. rewrite (atan_abs a), (Rabs_left a) by lra. replace (atan b - atan a)%R with (- (atan (- b) - atan (- a)))%R by (rewrite !atan_opp; ring). rewrite Rabs_Ropp. apply P; try lra. replace (- b - - a)%R with (- (b - a))%R by ring. rewrite Rabs_Ropp. lra.
Qed.

(** ** the instances *)
Lemma pi64 : is_real D (k_pi_over_2 D) (IZR 0x1921fb54442d18 * bp (-52)) /\ is_real D (k_pi D) (2 * (IZR 0x1921fb54442d18 * bp (-52))).
Proof. split; [apply (lit_r false); lia|]. replace (2 * (IZR 0x1921fb54442d18 * bp (-52)))%R with (IZR 0x1921fb54442d18 * bp (-51))%R by (bpn; lra). apply (lit_r false); lia. Qed.
Lemma pi32 : is_real S32 (k_pi_over_2 S32) (IZR 13176795 * bp (-23)) /\ is_real S32 (k_pi S32) (2 * (IZR 13176795 * bp (-23))).
Proof.
  split. { replace (k_pi_over_2 S32) with (litf 13176795 (-23)) by (vm_compute; reflexivity). apply litf_r; lia. }
  replace (2 * (IZR 13176795 * bp (-23)))%R with (IZR 13176795 * bp (-22))%R by (bpn; lra). replace (k_pi S32) with (litf 13176795 (-22)) by (vm_compute; reflexivity). apply litf_r; lia.
Qed.
Lemma pe64 : forall rm, (Rabs (IZR 0x1921fb54442d18 * bp (-52) - PI / 2) <= 0.74 * uF D rm)%R.
Proof. intros rm. assert (bp (-53) <= uF D rm)%R by (destruct rm; cbn [uF]; apply bpow_le; vm_compute; discriminate). apply Rle_trans with (0.74 * bp (-53))%R; [|lra]. bpn. interval with (i_prec 80). Qed.
Lemma pe32 : forall rm, (Rabs (IZR 13176795 * bp (-23) - PI / 2) <= 0.74 * uF S32 rm)%R.
Proof. intros rm. pose proof (uF24 rm). apply Rle_trans with (0.74 * bp (-24))%R; [|lra]. bpn. interval with (i_prec 80). Qed.
Lemma d24 : 24 <= prec D. Proof. vm_compute. discriminate. Qed.
Lemma d53 : prec D <= 53. Proof. vm_compute. discriminate. Qed.
Lemma dem : emin D <= -5 * prec D. Proof. vm_compute. discriminate. Qed.
Lemma db : 4 <= bias D. Proof. vm_compute. discriminate. Qed.
Lemma del : 3 <= el D <= 16. Proof. vm_compute. split; discriminate. Qed.
Lemma dw : width D = 2 ^ Z.of_nat 6. Proof. reflexivity. Qed.
Lemma s53 : prec S32 <= 53. Proof. vm_compute. discriminate. Qed.
Lemma sem : emin S32 <= -5 * prec S32. Proof. vm_compute. discriminate. Qed.
Lemma sel : 3 <= el S32 <= 16. Proof. vm_compute. split; discriminate. Qed.
Lemma sw : width S32 = 2 ^ Z.of_nat 5. Proof. reflexivity. Qed.

Lemma small64 : forall rm x X, is_real D x X -> (/ 16384 <= Rabs X <= / 2)%R -> exists V, is_real D (asin_small D rm x) V /\ (Rabs (V - asin X) <= 2 * uF D rm * Rabs (asin X))%R.
Proof.
  intros rm x X Hx B. destruct (asin_mid D good64 d24 d53 dem db 6%nat rm x X Hx B) as (V & RV & EV). exists V. split.
  - unfold asin_small. rewrite (lt_r D good64 _ _ _ _ (abs_rl D good64 del 6%nat _ _ Hx) (c14 D good64 d24 dem db 6%nat)), Rlt_bool_false by lra. exact RV.
  - pose proof (asin_abs1 X ltac:(lra)). pose proof (u_pos D rm). assert (uF D rm * Rabs X <= uF D rm * Rabs (asin X))%R by (apply Rmult_le_compat_l; lra). pose proof (Rabs_pos X). assert (0 <= uF D rm * Rabs X)%R by (apply Rmult_le_pos; lra). lra.
Qed.
Lemma small32 : forall rm x X, is_real S32 x X -> (/ 16384 <= Rabs X <= / 2)%R -> exists V, is_real S32 (asin_small S32 rm x) V /\ (Rabs (V - asin X) <= 1.001 * uF S32 rm * Rabs (asin X))%R.
Proof.
  intros rm x X Hx B. pose proof (widen rm x X Hx) as HW. destruct (asin_mid D good64 d24 d53 dem db 6%nat rm _ X HW B) as (V & RV & EV). pose proof (asin_abs1 X ltac:(lra)) as AA. pose proof (Rabs_pos X) as AP.
  assert (UD : (0 < uF D rm <= bp (-52))%R) by (split; [apply (u_pos D rm)|destruct rm; cbn [uF]; apply bpow_le; vm_compute; discriminate]). pose proof (uF24 rm) as U. pose proof etaF_s as ES.
  assert (S1 : (Rabs (asin X) <= 0.53)%R). { destruct (asin_abs X) as [E|E]; [|lra]. rewrite E. pose proof (asin_hi (Rabs X) ltac:(lra)). lra. }
  assert (UX : (1.92 * uF D rm * Rabs X <= 1.92 * bp (-52) * Rabs (asin X))%R) by (apply Rmult_le_compat; lra).
  assert (BV : (Rabs V <= (1 + 2 * bp (-52)) * Rabs (asin X))%R). { replace V with ((V - asin X) + asin X)%R by ring. pose proof (Rabs_triang (V - asin X) (asin X)). pose proof (bpow_gt_0 radix2 (-52)). assert (0 <= bp (-52) * Rabs (asin X))%R by (apply Rmult_le_pos; lra). lra. }
  destruct (narrow_r rm _ V RV) as (RN & EN). { revert BV. bpn. intros. lra. }
  exists (fround S32 rm V). split.
  - unfold asin_small. rewrite (lt_r S32 good32 _ _ _ _ (abs_rl S32 good32 sel 5%nat _ _ Hx) (c14 S32 good32 h24 sem hbs 5%nat)), Rlt_bool_false by lra. exact RN.
  - assert (UV : (uF S32 rm * Rabs V <= uF S32 rm * ((1 + 2 * bp (-52)) * Rabs (asin X)))%R) by (apply Rmult_le_compat_l; [pose proof (bpow_gt_0 radix2 (-24)); lra|exact BV]).
    assert (P : (bp (-24) * Rabs (asin X) <= uF S32 rm * Rabs (asin X))%R) by (apply Rmult_le_compat_r; lra).
    replace (fround S32 rm V - asin X)%R with ((fround S32 rm V - V) + (V - asin X))%R by ring. pose proof (Rabs_triang (fround S32 rm V - V) (V - asin X)). revert UX UV P ES. bpn. intros. lra.
Qed.

Theorem acos64 : forall rm x X, is_real D x X -> (Rabs X <= 1)%R -> exists a V, cc_acos rm x = Some a /\ is_real D a V /\ (Rabs (V - acos X) <= 3.3 * uF D rm * acos X)%R.
Proof. intros rm x X Hx B. destruct (acos_fin D good64 del d24 d53 dem db 6%nat dw rm _ (proj1 pi64) (proj2 pi64) (pe64 rm) x X Hx B) as (a & V & A1 & A2 & A3 & _). exists a, V. auto. Qed.
Theorem acos32 : forall rm x X, is_real S32 x X -> (Rabs X <= 1)%R -> exists a V, cc_acosf rm x = Some a /\ is_real S32 a V /\ (Rabs (V - acos X) <= 3.3 * uF S32 rm * acos X)%R.
Proof. intros rm x X Hx B. destruct (acos_fin S32 good32 sel h24 s53 sem hbs 5%nat sw rm _ (proj1 pi32) (proj2 pi32) (pe32 rm) x X Hx B) as (a & V & A1 & A2 & A3 & _). exists a, V. auto. Qed.
Theorem asin64 : forall rm x X, is_real D x X -> (Rabs X <= 1)%R -> exists a V, cc_asin rm x = Some a /\ is_real D a V /\
  (Rabs X <= / 2 -> Rabs (V - asin X) <= 2 * uF D rm * Rabs (asin X) + 3 * bp (emin D))%R /\ (/ 2 < X -> Rabs (V - asin X) <= 9 * uF D rm * Rabs (asin X))%R /\ (X < - / 2 -> Rabs (V - asin X) <= 16 * uF D rm * Rabs (asin X))%R.
Proof. intros rm x X Hx B. exact (asin_fin D good64 del d24 d53 dem db 6%nat dw rm _ (proj1 pi64) (proj2 pi64) (pe64 rm) (small64 rm) x X Hx B). Qed.
Theorem asin32 : forall rm x X, is_real S32 x X -> (Rabs X <= 1)%R -> exists a V, cc_asinf rm x = Some a /\ is_real S32 a V /\
  (Rabs X <= / 2 -> Rabs (V - asin X) <= 2 * uF S32 rm * Rabs (asin X) + 3 * bp (emin S32))%R /\ (/ 2 < X -> Rabs (V - asin X) <= 9 * uF S32 rm * Rabs (asin X))%R /\ (X < - / 2 -> Rabs (V - asin X) <= 16 * uF S32 rm * Rabs (asin X))%R.
Proof.
  intros rm x X Hx B. apply (asin_fin S32 good32 sel h24 s53 sem hbs 5%nat sw rm _ (proj1 pi32) (proj2 pi32) (pe32 rm)); auto.
  intros x' X' H' B'. destruct (small32 rm x' X' H' B') as (V & RV & EV). exists V. split; [exact RV|]. pose proof (u_pos S32 rm). assert (0 <= uF S32 rm * Rabs (asin X'))%R by (apply Rmult_le_pos; [lra|apply Rabs_pos]). lra.
Qed.

(** ** atan for double *)
Section Atan.
Context (rm : rmode).
Local Notation u := (uF D rm).
Local Notation eta := (bpow radix2 (emin D)).
Let dem2 : emin D <= -2 * prec D. Proof. vm_compute. discriminate. Qed.
Let mule := mul_e D good64 d24 dem db 6%nat rm.
Let adde := add_e D good64 d24 dem db 6%nat rm.
Let sube := sub_e D good64 d24 dem db 6%nat rm.
Let ltd := lt_r D good64.
Let gtd := gt_r D good64.
Let eqd := eq_r D good64.
Let z0 := zc D good64 d24 dem db 6%nat.
Let o1 := oc D good64 d24 dem db 6%nat.
Let t2 := tc D good64 d24 dem db 6%nat.
Let k14 := c14 D good64 d24 dem db 6%nat.
Let absd := abs_rl D good64 del 6%nat.
Local Notation K := (IZR 0x1921fb54442d18 * bp (-52))%R.
Lemma hpi : is_real D (f_div D rm (pi_v D) (cst D 2 0)) K.
Proof. exact (half_pi D good64 d24 dem db 6%nat rm _ (proj1 pi64) (proj2 pi64)). Qed.
Lemma uu : (0 < u <= / 4503599627370496)%R /\ (0 < eta <= / 1000000 * u)%R.
Proof.
  destruct (ueta D d24 dem2 rm) as (U & E). split; [|exact E]. split; [lra|]. apply Rle_trans with (bp (-52)); [destruct rm; cbn [uF]; apply bpow_le; vm_compute; discriminate|]. bpn. lra.
Qed.

Lemma atan_tiny : forall x X, is_real D x X -> (0 <= X <= / 16384)%R -> exists V, 
  is_real D (f_add D rm x (f_mul D rm (f_mul D rm (f_mul D rm x x) x) (cst D (-0x15555555555555) (-54)))) V /\ (Rabs (V - atan X) <= 1.2 * u * X + 3 * eta)%R.
Proof.
  intros x X Hx BX. destruct uu as (U & E). pose proof (u_lo D d53 6%nat rm) as UL. bpn_in UL. assert (XX : (0 <= X * X <= / 268435456)%R) by nra.
  destruct (cst_r D good64 d24 dem2 db rm (-0x15555555555555) (-54)) as (C & RC & EC); [apply Rabs_le; bpn; lra|].
  assert (C6 : (Rabs (IZR (-0x15555555555555) * bp (-54) + / 3) <= / 10000000000000000)%R) by (apply Rabs_le; bpn; lra). assert (CB : (Rabs (IZR (-0x15555555555555) * bp (-54)) <= 0.3334)%R) by (apply Rabs_le; bpn; lra).
  set (c := (IZR (-0x15555555555555) * bp (-54))%R) in *. clearbody c. assert (UC : (u * Rabs c <= u * 0.3334)%R) by (apply Rmult_le_compat_l; lra).
  assert (EC' : (Rabs (C + / 3) <= 1.4 * u)%R). { replace (C + / 3)%R with ((C - c) + (c + / 3))%R by ring. pose proof (Rabs_triang (C - c) (c + / 3)). lra. }
  assert (BC : (Rabs C <= 0.334)%R). { replace C with ((C + / 3) + - / 3)%R by ring. pose proof (Rabs_triang (C + / 3) (- / 3)). rewrite Rabs_Ropp, (Rabs_pos_eq (/ 3)) in * by lra. lra. }
  set (q := (X * X)%R) in *. assert (Bq : (Rabs q <= / 268435456)%R) by (rewrite Rabs_pos_eq; lra). assert (AX : (Rabs X <= X)%R) by (rewrite Rabs_pos_eq; lra).
  assert (UA : (0 <= u * X)%R) by (apply Rmult_le_pos; lra). assert (U3 : (u * X <= / 8000000 * X)%R) by (apply Rmult_le_compat_r; lra).
  destruct (mule x x X X (/ 268435456)%R Hx Hx) as (T1 & R1_ & E1); [exact Bq|lra|]. fold q in E1.
  assert (BT1 : (Rabs T1 <= 0.000001)%R). { replace T1 with ((T1 - q) + q)%R by ring. pose proof (Rabs_triang (T1 - q) q). lra. }
  pose proof (rm_le _ _ _ _ BT1 AX) as B2. destruct (mule _ _ T1 X _ R1_ Hx B2) as (T2 & R2_ & E2); [lra|].
  assert (BT2 : (Rabs T2 <= 0.000002 * X + eta)%R). { replace T2 with ((T2 - T1 * X) + T1 * X)%R by ring. pose proof (Rabs_triang (T2 - T1 * X) (T1 * X)). lra. }
  assert (E2' : (Rabs (T2 - q * X) <= 0.000003 * (u * X) + 1.001 * eta)%R).
  { replace (T2 - q * X)%R with ((T2 - T1 * X) + (T1 - q) * X)%R by ring. assert (E1' : (Rabs (T1 - q) <= 0.00000101 * u)%R) by lra. pose proof (rm_le _ _ _ _ E1' AX). pose proof (Rabs_triang (T2 - T1 * X) ((T1 - q) * X)). lra. }
  pose proof (rm_le _ _ _ _ BT2 BC) as B3. destruct (mule _ _ T2 C _ R2_ RC B3) as (T3 & R3_ & E3); [lra|].
  pose proof (rm_le _ _ _ _ Bq AX) as BqX. assert (UE : (u * eta <= / 8000000 * eta)%R) by (apply Rmult_le_compat_r; lra).
  assert (E3' : (Rabs (T3 - - (q * X / 3)) <= 0.001 * (u * X) + 1.5 * eta)%R).
  { replace (T3 - - (q * X / 3))%R with ((T3 - T2 * C) + ((T2 - q * X) * C + q * X * (C + / 3)))%R by field. pose proof (rm_le _ _ _ _ E2' BC). pose proof (rm_le _ _ _ _ BqX EC').
    pose proof (Rabs_triang (T3 - T2 * C) ((T2 - q * X) * C + q * X * (C + / 3))). pose proof (Rabs_triang ((T2 - q * X) * C) (q * X * (C + / 3))). lra. }
  assert (B4 : (Rabs (X + T3) <= 1.001 * X + 2 * eta)%R).
  { replace (X + T3)%R with (X + ((T3 - - (q * X / 3)) + - (q * X / 3)))%R by ring. pose proof (Rabs_triang X ((T3 - - (q * X / 3)) + - (q * X / 3))). pose proof (Rabs_triang (T3 - - (q * X / 3)) (- (q * X / 3))) as T4. rewrite (Rabs_Ropp (q * X / 3)) in T4.
    assert (Rabs (q * X / 3) <= 0.0001 * X)%R. { unfold Rdiv. rewrite Rabs_mult, (Rabs_pos_eq (/ 3)) by lra. lra. } lra. }
  destruct (adde _ _ X T3 _ Hx R3_ B4) as (V & RV & EV); [lra|]. exists V. split; [exact RV|].
  pose proof (tiny_atan X BX) as N. assert (NN : (/ 70000000000000000 * X <= 0.15 * u * X)%R) by (apply Rmult_le_compat_r; lra).
  replace (V - atan X)%R with ((V - (X + T3)) + ((T3 - - (q * X / 3)) + (X - X * X * X / 3 - atan X)))%R by (unfold q; field).
  pose proof (Rabs_triang (V - (X + T3)) ((T3 - - (q * X / 3)) + (X - X * X * X / 3 - atan X))). pose proof (Rabs_triang (T3 - - (q * X / 3)) (X - X * X * X / 3 - atan X)). lra.
Qed.

Definition cneg (b : bool) (v : R) : R := if b then (- v)%R else v.
Lemma cneg_abs : forall b v, Rabs (cneg b v) = Rabs v.
Proof. intros [] v; cbn [cneg]; [apply Rabs_Ropp|reflexivity]. Qed.
(** the quotient x / sqrt (1 + x^2) *)
Lemma quot_e : forall a A, is_real D a A -> (/ 16384 <= A <= 1)%R -> exists s T, cc_sqrt D rm (f_add D rm (cst D 1 0) (f_mul D rm a a)) = Some s /\ is_real D s T /\ (1 <= T)%R /\
  forall b : bool, (Rabs (fround D rm (cneg b (A / T)) - cneg b (A / sqrt (1 + A * A))) <= 3.32 * u * (A / sqrt (1 + A * A)))%R.
Proof.
  intros a A Ha BA. destruct uu as (U & E).
  assert (G0 : generic_format radix2 (FLT_exp (emin D) (prec D)) 0) by apply generic_format_0.
  assert (G1 : generic_format radix2 (FLT_exp (emin D) (prec D)) 1) by (apply (real_fmt D good64 _ _ o1)). assert (G2 : generic_format radix2 (FLT_exp (emin D) (prec D)) 2) by (apply (real_fmt D good64 _ _ t2)).
  assert (SB : forall z, (0 <= z <= 4)%R -> (Rabs (fround D rm z) < bp (bias D + 1))%R) by (intros z Hz; apply (small_big D good64 d24 dem2 db); rewrite Rabs_pos_eq; lra).
  assert (AA : (0 <= A * A <= 1)%R) by nra.
  pose proof (mul_r D good64 rm _ _ _ _ Ha Ha (SB (A * A)%R ltac:(lra))) as H2. set (Q := fround D rm (A * A)) in *.
  assert (HQ : (0 <= Q <= 1)%R) by (split; [apply (fround_ge_gen D good64)|apply (fround_le_gen D good64)]; auto; lra).
  pose proof (add_r D good64 rm _ _ _ _ o1 H2 (SB (1 + Q)%R ltac:(lra))) as H3. set (S := fround D rm (1 + Q)) in *.
  assert (HS : (1 <= S <= 2)%R) by (split; [apply (fround_ge_gen D good64)|apply (fround_le_gen D good64)]; auto; lra).
  pose proof H3 as (P3 & F3 & V3). assert (S3 : sign_of D (f_add D rm (cst D 1 0) (f_mul D rm a a)) = false). { rewrite (sign_fval D good64) by (auto; rewrite V3; lra). rewrite V3. apply Rlt_bool_false. lra. }
  destruct (cc_sqrt_fin D good64 del rm 6%nat _ dw P3 F3 S3) as (s & ES & RS). rewrite V3 in RS.
  assert (S1 : (1 <= sqrt S <= 2)%R). { split; [rewrite <- sqrt_1; apply sqrt_le_1_alt; lra|]. replace 2%R with (sqrt (2 * 2)) by (apply sqrt_square; lra). apply sqrt_le_1_alt; lra. }
  destruct RS as (Ps & _ & Vs & _). destruct (Vs (SB (sqrt S) ltac:(lra))) as (Fs & VS). set (T := fround D rm (sqrt S)) in *.
  assert (HT : (1 <= T)%R) by (apply (fround_ge_gen D good64); auto; lra).
  exists s, T. split; [exact ES|]. split; [split; auto|]. split; [exact HT|].
  assert (N1 : forall z, (1 <= z)%R -> (bpow radix2 (emin D + prec D - 1) <= Rabs z)%R).
  { intros z Hz. rewrite Rabs_pos_eq by lra. apply Rle_trans with (2 := Hz). change 1%R with (bpow radix2 0). apply bpow_le. vm_compute. discriminate. }
  assert (HN : (Rabs (T - sqrt (1 + A * A)) <= 23 / 10 * u * sqrt (1 + A * A))%R).
  { apply (hypot_num u eta A A Q S T); auto; try lra.
    - rewrite Rminus_eq_0, Rabs_R0. assert (0 <= u * A)%R by (apply Rmult_le_pos; lra). lra.
    - pose proof (rel_e D good64 d24 rm (A * A)) as J. rewrite (Rabs_pos_eq (A * A)) in J by lra. exact J.
    - pose proof (rel_n D good64 d24 rm (1 + Q) (N1 (1 + Q)%R ltac:(lra))) as J. rewrite (Rabs_pos_eq (1 + Q)) in J by lra. exact J.
    - pose proof (rel_n D good64 d24 rm (sqrt S) (N1 (sqrt S) ltac:(lra))) as J. rewrite (Rabs_pos_eq (sqrt S)) in J by lra. exact J. }
  set (t := sqrt (1 + A * A)) in *. assert (TT : (t * t = 1 + A * A)%R) by (unfold t; apply sqrt_sqrt; lra). assert (T0 : (0 <= t)%R) by apply sqrt_pos. assert (T1 : (1 <= t)%R) by (clear - TT T0 AA; nra). assert (T2 : (t <= 2)%R) by (clear - TT T0 AA; nra). clearbody t.
  intros b. clear - U E BA HT HN T1 T2. pose proof (Rabs_le_inv _ _ HN) as HI. assert (UT : (u * t <= / 8000000 * t)%R) by (apply Rmult_le_compat_r; lra).
  set (g := (A / t)%R). assert (G : (A = g * t)%R) by (unfold g; field; lra). assert (G0 : (0 < g)%R) by (unfold g; apply Rdiv_lt_0_compat; lra). assert (UG : (0 < u * g)%R) by (apply Rmult_lt_0_compat; lra).
  assert (UG2 : (u * g <= / 8000000 * g)%R) by (apply Rmult_le_compat_r; lra).
  assert (EG : (Rabs (A / T - g) <= 2.3001 * (u * g))%R).
  { replace (A / T - g)%R with (g * ((t - T) / T))%R by (rewrite G; field; lra). rewrite Rabs_mult, (Rabs_pos_eq g) by lra. replace (2.3001 * (u * g))%R with (g * (2.3001 * u))%R by ring. apply Rmult_le_compat_l; [lra|].
    unfold Rdiv. rewrite Rabs_mult, (Rabs_pos_eq (/ T)) by (left; apply Rinv_0_lt_compat; lra). apply Rmult_le_reg_r with T; [lra|]. rewrite Rmult_assoc, Rinv_l, Rmult_1_r by lra. rewrite Rabs_minus_sym. apply Rle_trans with (1 := HN).
    replace (23 / 10 * u * t)%R with (u * (2.3 * t))%R by lra. replace (2.3001 * u * T)%R with (u * (2.3001 * T))%R by ring. apply Rmult_le_compat_l; lra. }
  pose proof (Rabs_le_inv _ _ EG) as EI. pose proof (rel_e D good64 d24 rm (cneg b (A / T))) as ER. rewrite cneg_abs, (Rabs_pos_eq (A / T)) in ER by lra.
  assert (UA : (u * (A / T) <= u * (1.0001 * g))%R) by (apply Rmult_le_compat_l; lra).
  assert (LG : (/ 32768 <= g)%R) by nra.
  pose proof (etac D d24 dem 6%nat rm g) as EE. rewrite (Rabs_pos_eq g) in EE by lra. specialize (EE ltac:(lra)).
  replace (fround D rm (cneg b (A / T)) - cneg b g)%R with ((fround D rm (cneg b (A / T)) - cneg b (A / T)) + cneg b (A / T - g))%R by (unfold cneg; destruct b; ring).
  pose proof (Rabs_triang (fround D rm (cneg b (A / T)) - cneg b (A / T)) (cneg b (A / T - g))) as TR. rewrite cneg_abs in TR. lra.
Qed.

Lemma half_root : forall A, (0 <= A <= 1)%R -> (0 <= A / sqrt (1 + A * A) <= 0.7072 /\ (A <= / 2 -> A / sqrt (1 + A * A) <= 0.45))%R.
Proof.
  intros A H. set (t := sqrt (1 + A * A)). assert (TT : (t * t = 1 + A * A)%R) by (unfold t; apply sqrt_sqrt; nra). assert (T0 : (0 <= t)%R) by apply sqrt_pos. assert (T1 : (1 <= t)%R) by nra.
  set (g := (A / t)%R). assert (G : (A = g * t)%R) by (unfold g; field; lra). assert (G0 : (0 <= g)%R) by (unfold g; apply Rmult_le_pos; [lra|left; apply Rinv_0_lt_compat; lra]). split; [split; [exact G0|]|intros HA]; apply Rnot_lt_le; intros L; assert (GG : (g * g * (t * t) = A * A)%R) by (rewrite G; ring).
  - assert (0.5 < g * g)%R by nra. nra.
  - assert (0.2025 < g * g)%R by nra. nra.
Qed.
Lemma atan_low : forall rec x X, is_real D x X -> (0 < Rabs X <= 1)%R -> exists a V, atan_body rm rec x = Some a /\ is_real D a V /\
  (Rabs (V - atan X) <= (if Rle_bool (Rabs X) (/ 2) then 7 else if Rlt_bool X 0 then 21 else 14) * u * Rabs (atan X) + 4 * eta)%R.
Proof.
  intros rec x X Hx BX. destruct uu as (U & E). pose proof Hx as (P & Fi & VX). assert (NZ : X <> 0%R) by (intros ->; rewrite Rabs_R0 in BX; lra).
  unfold atan_body. rewrite (isnan_eq D good64 ltac:(vm_compute; discriminate)), (fin_nan D) by auto. rewrite (eqd _ _ _ _ Hx z0), Req_bool_false by exact NZ. cbv zeta.
  pose proof (absd _ _ Hx) as RA. set (A := Rabs X) in *. rewrite (isinf_eq D good64 ltac:(vm_compute; discriminate)). rewrite (fin_inf D) by apply RA. rewrite (gtd _ _ _ _ RA o1), Rlt_bool_false by lra. rewrite (ltd _ _ _ _ RA k14), (ltd _ _ _ _ Hx z0).
  assert (AT : Rabs (atan X) = atan A) by apply atan_abs. pose proof (atan_nn A ltac:(lra)) as AN. pose proof (atan_lo A ltac:(lra)) as AL.
  assert (SG : forall v V B, is_real D v V -> (Rabs (V - atan A) <= B)%R -> exists W, is_real D (if Rlt_bool X 0 then f_neg D v else v) W /\ (Rabs (W - atan X) <= B)%R).
  { intros v V B RV EV. destruct (Rle_lt_dec 0 X) as [S|S].
    - rewrite Rlt_bool_false by exact S. exists V. split; [exact RV|]. unfold A in EV. rewrite (Rabs_pos_eq X) in EV by lra. exact EV.
    - rewrite Rlt_bool_true by exact S. exists (- V)%R. split; [apply (neg_r D good64); exact RV|]. unfold A in EV. rewrite (Rabs_left X) in EV by lra. rewrite atan_opp in EV. replace (- V - atan X)%R with (- (V - - atan X))%R by ring. rewrite Rabs_Ropp. exact EV. }
  rewrite AT. set (kk := (if Rle_bool A (/ 2) then 7 else if Rlt_bool X 0 then 21 else 14)%R). assert (KB : (7 <= kk)%R) by (unfold kk; destruct (Rle_bool A (/ 2)); [lra|]; destruct (Rlt_bool X 0); lra).
  destruct (Rlt_le_dec A (/ 16384)) as [L|L].
  - rewrite Rlt_bool_true by exact L. destruct (atan_tiny _ _ RA) as (V & RV & EV); [lra|]. destruct (SG _ _ _ RV EV) as (W & RW & EW). eexists _, W. split; [reflexivity|]. split; [exact RW|].
    apply Rle_trans with (1 := EW). assert (A2 : (0.9 * A <= atan A)%R). { apply Rle_trans with (2 := AL). unfold Rdiv. rewrite (Rmult_comm A). apply Rmult_le_compat_r; [lra|]. apply Rmult_le_reg_r with (1 + A * A)%R; [nra|]. rewrite Rinv_l by nra. nra. }
    assert (B1 : (u * (0.9 * A) <= u * atan A)%R) by (apply Rmult_le_compat_l; lra). assert (B2 : (7 * (u * atan A) <= kk * (u * atan A))%R) by (apply Rmult_le_compat_r; [apply Rmult_le_pos; lra|exact KB]). assert (0 <= u * A)%R by (apply Rmult_le_pos; lra). lra.
  - rewrite Rlt_bool_false by exact L. destruct (quot_e _ _ RA ltac:(lra)) as (s & T & ES & RT & T1 & EQ). rewrite ES. cbv beta iota.
    pose proof (half_root A ltac:(lra)) as (HG & HG2). set (g := (A / sqrt (1 + A * A))%R) in *. assert (AG : asin g = atan A) by (unfold g; apply asin_of_atan).
    set (b := Rlt_bool X 0) in *. specialize (EQ b).
    assert (RQ : is_real D (if b then f_div D rm (f_neg D (cc_abs D x)) s else f_div D rm (cc_abs D x) s) (fround D rm (cneg b (A / T)))).
    { pose proof (bpow_gt_0 radix2 (bias D)) as _. assert (SB : (Rabs (fround D rm (cneg b (A / T))) < bp (bias D + 1))%R).
      { apply (small_big D good64 d24 dem2 db). rewrite cneg_abs. unfold Rdiv. rewrite Rabs_mult, (Rabs_pos_eq A), (Rabs_pos_eq (/ T)) by (try lra; left; apply Rinv_0_lt_compat; lra). assert (/ T <= 1)%R by (rewrite <- Rinv_1; apply Rinv_le_contravar; lra). assert (0 < / T)%R by (apply Rinv_0_lt_compat; lra). nra. }
      destruct b; cbn [cneg] in *.
      - replace (- (A / T))%R with (- A / T)%R in * by (field; lra). apply (div_r D good64); auto; [apply (neg_r D good64); exact RA|lra].
      - apply (div_r D good64); auto. lra. }
    set (Q := fround D rm (cneg b (A / T))) in *. clearbody Q.
    assert (UG : (u * g <= u * 0.7072)%R) by (apply Rmult_le_compat_l; lra). assert (AGE : (g <= atan A)%R) by (rewrite <- AG; apply asin_ge; lra). assert (UGA : (u * g <= u * atan A)%R) by (apply Rmult_le_compat_l; lra).
    assert (UA0 : (0 <= u * atan A)%R) by (apply Rmult_le_pos; lra).
    assert (Bg : (Rabs (cneg b g) <= 0.7072)%R) by (rewrite cneg_abs, Rabs_pos_eq; lra).
    assert (BQ : (Rabs Q <= 0.7075)%R). { pose proof (Rabs_triang (Q - cneg b g) (cneg b g)) as TR. replace (Q - cneg b g + cneg b g)%R with Q in TR by ring. lra. }
    assert (EA : (Rabs (asin Q - atan X) <= 4.7 * (u * atan A))%R).
    { replace (atan X) with (asin (cneg b g)). 2: { unfold b, cneg. destruct (Rle_lt_dec 0 X) as [S|S].
        - rewrite Rlt_bool_false by exact S. rewrite AG. unfold A. rewrite Rabs_pos_eq by exact S. reflexivity.
        - rewrite Rlt_bool_true by exact S. rewrite asin_opp, AG. unfold A. rewrite Rabs_left by exact S. rewrite atan_opp. ring. }
      apply Rle_trans with (1 := asin_lip 0.7075 1.4152 Q (cneg b g) ltac:(lra) ltac:(lra) ltac:(lra) BQ ltac:(lra)). lra. }
    assert (BA : (Rabs (asin Q) <= atan A + 4.7 * (u * atan A))%R). { replace (asin Q) with ((asin Q - atan X) + atan X)%R by ring. pose proof (Rabs_triang (asin Q - atan X) (atan X)). lra. }
    assert (UA : (u * (u * atan A) <= / 8000000 * (u * atan A))%R) by (apply Rmult_le_compat_r; [apply Rmult_le_pos; lra|lra]).
    assert (UB : (u * Rabs (asin Q) <= u * (atan A + 4.7 * (u * atan A)))%R) by (apply Rmult_le_compat_l; lra).
    destruct (asin64 rm _ Q RQ) as (a & V & EV & RV & C1 & C2 & C3); [lra|]. unfold cc_asin in EV. exists a, V. split; [exact EV|]. split; [exact RV|].
    assert (TR : (Rabs (V - atan X) <= Rabs (V - asin Q) + Rabs (asin Q - atan X))%R). { replace (V - atan X)%R with ((V - asin Q) + (asin Q - atan X))%R by ring. apply Rabs_triang. }
    pose proof (Rabs_le_inv _ _ EQ) as EQI. pose proof (bpow_gt_0 radix2 (emin D)) as E0. rewrite (Rmult_assoc kk u).
    destruct (Rle_lt_dec (Rabs Q) (/ 2)) as [q1|q1].
    { specialize (C1 q1). assert (7 * (u * atan A) <= kk * (u * atan A))%R by (apply Rmult_le_compat_r; lra). lra. }
    assert (A2 : (/ 2 < A)%R). { apply Rnot_le_lt. intros HA. specialize (HG2 HA). assert (Rabs (cneg b g) <= 0.45)%R by (rewrite cneg_abs, Rabs_pos_eq; lra). pose proof (Rabs_triang (Q - cneg b g) (cneg b g)) as TQ. replace (Q - cneg b g + cneg b g)%R with Q in TQ by ring. lra. }
    unfold kk. rewrite Rle_bool_false by exact A2. fold b. destruct (Rle_lt_dec 0 Q) as [q2|q2].
    + rewrite (Rabs_pos_eq Q) in q1 by lra. specialize (C2 q1). destruct b; lra.
    + rewrite (Rabs_left Q) in q1 by lra. specialize (C3 ltac:(lra)). unfold b, cneg in *. destruct (Rle_lt_dec 0 X) as [S|S].
      * rewrite Rlt_bool_false in EQI by exact S. lra.
      * rewrite Rlt_bool_true in * by exact S. lra.
Qed.
Lemma pi_K : (Rabs (K - PI / 2) <= 0.6 * u)%R.
Proof. pose proof (u_lo D d53 6%nat rm) as UL. apply Rle_trans with (0.6 * bp (-53))%R; [|lra]. clear. bpn. interval with (i_prec 120). Qed.
Lemma pi4 : forall A, (1 <= A)%R -> (0.785 <= atan A <= 1.571)%R.
Proof.
  intros A H. split; [|pose proof (atan_bound A) as [_ B]; left; apply Rlt_le_trans with (1 := B); interval with (i_prec 40)].
  apply Rle_trans with (atan 1); [rewrite atan_1; interval with (i_prec 40)|]. destruct H as [H| <-]; [left; apply atan_increasing; exact H|lra].
Qed.
Lemma atan_high : forall y x X, is_real D x X -> (1 < Rabs X)%R -> exists a V, atan_body rm (atan_body rm y) x = Some a /\ is_real D a V /\
  (Rabs (V - atan X) <= 17.5 * u * Rabs (atan X))%R.
Proof.
  intros y x X Hx BX. destruct uu as (U & E). pose proof Hx as (P & Fi & VX). assert (NZ : X <> 0%R) by (intros ->; rewrite Rabs_R0 in BX; lra).
  unfold atan_body at 1. rewrite (isnan_eq D good64 ltac:(vm_compute; discriminate)), (fin_nan D) by auto. rewrite (eqd _ _ _ _ Hx z0), Req_bool_false by exact NZ. cbv zeta.
  pose proof (absd _ _ Hx) as RA. assert (AT : Rabs (atan X) = atan (Rabs X)) by apply atan_abs. rewrite (ltd _ _ _ _ Hx z0).
  assert (SX : atan X = cneg (Rlt_bool X 0) (atan (Rabs X))).
  { unfold cneg. destruct (Rle_lt_dec 0 X) as [S|S]; [rewrite Rlt_bool_false, Rabs_pos_eq by exact S; reflexivity|]. rewrite Rlt_bool_true, Rabs_left by exact S. rewrite atan_opp. ring. }
  rewrite AT, SX. set (b := Rlt_bool X 0). clearbody b. clear AT SX. set (A := Rabs X) in *. rewrite (isinf_eq D good64 ltac:(vm_compute; discriminate)). rewrite (fin_inf D) by apply RA. rewrite (gtd _ _ _ _ RA o1), Rlt_bool_true by exact BX.
  pose proof (pi4 A ltac:(lra)) as BA. set (r := (/ A)%R). assert (Br : (0 < r <= 1)%R). { unfold r. split; [apply Rinv_0_lt_compat; lra|]. rewrite <- Rinv_1. apply Rinv_le_contravar; lra. }
  assert (AI : (atan r = PI / 2 - atan A)%R). { unfold r. apply atan_inv. lra. }
  pose proof (atan_nn r ltac:(lra)) as Ar.
  assert (HR : is_real D (f_div D rm (cst D 1 0) (cc_abs D x)) (fround D rm r)).
  { unfold r. replace (/ A)%R with (1 / A)%R by (unfold Rdiv; ring). apply (div_r D good64); auto; [lra|]. replace (1 / A)%R with r by (unfold r, Rdiv; ring). apply (small_big D good64 d24 dem2 db). rewrite Rabs_pos_eq; lra. }
  assert (ER : (Rabs (fround D rm r - r) <= u * r + eta)%R). { pose proof (rel_e D good64 d24 rm r) as G. rewrite (Rabs_pos_eq r) in G by lra. exact G. }
  assert (G0 : generic_format radix2 (FLT_exp (emin D) (prec D)) 0) by apply generic_format_0.
  assert (G1 : generic_format radix2 (FLT_exp (emin D) (prec D)) 1) by (apply (real_fmt D good64 _ _ o1)).
  assert (BR : (0 <= fround D rm r <= 1)%R) by (split; [apply (fround_ge_gen D good64)|apply (fround_le_gen D good64)]; auto; lra).
  set (R := fround D rm r) in *. clearbody R. pose proof (atan_nn R ltac:(lra)) as AR.
  assert (DL : (Rabs (atan R - atan r) <= u * r + eta)%R) by (apply Rle_trans with (2 := ER); apply atan_lip).
  assert (SM : exists s V, (if f_lt F64 (f_div D rm (cst D 1 0) (cc_abs D x)) (cst F64 1 (-14)) then
                     Some (f_add F64 rm (f_div D rm (cst D 1 0) (cc_abs D x)) (f_mul F64 rm (f_mul F64 rm (f_mul F64 rm (f_div D rm (cst D 1 0) (cc_abs D x)) (f_div D rm (cst D 1 0) (cc_abs D x))) (f_div D rm (cst D 1 0) (cc_abs D x))) (cst F64 (-0x15555555555555) (-54))))
                   else atan_body rm y (f_div D rm (cst D 1 0) (cc_abs D x))) = Some s /\ is_real D s V /\ (Rabs (V - atan R) <= 14 * (u * atan R) + 0.0002 * u + 4 * eta)%R).
  { rewrite (ltd _ _ _ _ HR k14). destruct (Rlt_le_dec R (/ 16384)) as [L|L].
    - rewrite Rlt_bool_true by exact L. destruct (atan_tiny _ _ HR) as (V & RV & EV); [lra|]. eexists _, V. split; [reflexivity|]. split; [exact RV|].
      assert (u * R <= u * / 16384)%R by (apply Rmult_le_compat_l; lra). assert (0 <= u * atan R)%R by (apply Rmult_le_pos; lra). lra.
    - rewrite Rlt_bool_false by exact L. destruct (atan_low y _ R HR) as (a & V & EV & RV & CV); [rewrite Rabs_pos_eq; lra|]. exists a, V. split; [exact EV|]. split; [exact RV|].
      rewrite (Rlt_bool_false R 0), (Rabs_pos_eq (atan R)) in CV by lra. assert (0 <= u * atan R)%R by (apply Rmult_le_pos; lra). destruct (Rle_bool (Rabs R) (/ 2)); lra. }
  destruct SM as (s & V & ES & RV & EV). rewrite ES. cbv beta iota. clear ES.
  assert (UA : (u * atan R <= u * (atan r + (u * r + eta)))%R). { apply Rmult_le_compat_l; [lra|]. apply Rabs_le_inv in DL. lra. }
  assert (Ur : (u * r <= u * 1)%R) by (apply Rmult_le_compat_l; lra). assert (UU : (u * (u * r + eta) <= / 1000000 * (u * 1 + eta))%R) by (apply Rmult_le_compat; try lra; assert (0 <= u * r)%R by (apply Rmult_le_pos; lra); lra).
  assert (P4 : (atan r <= 0.7859)%R). { rewrite AI. assert (PI / 2 <= 1.5708)%R by interval with (i_prec 40). lra. }
  assert (U4 : (u * atan r <= u * 0.7859)%R) by (apply Rmult_le_compat_l; lra).
  assert (EV' : (Rabs (V - atan r) <= 12.1 * u)%R). { replace (V - atan r)%R with ((V - atan R) + (atan R - atan r))%R by ring. pose proof (Rabs_triang (V - atan R) (atan R - atan r)). lra. }
  pose proof pi_K as PK. set (kk := K) in *. pose proof hpi as HK. fold kk in HK. clearbody kk.
  assert (EK : (Rabs ((kk - V) - atan A) <= 12.7 * u)%R). { replace (kk - V - atan A)%R with ((kk - PI / 2) + - (V - atan r))%R by (rewrite AI; ring). pose proof (Rabs_triang (kk - PI / 2) (- (V - atan r))) as T. rewrite Rabs_Ropp in T. lra. }
  assert (BK : (Rabs (kk - V) <= atan A + 12.7 * u)%R). { replace (kk - V)%R with ((kk - V - atan A) + atan A)%R by ring. pose proof (Rabs_triang (kk - V - atan A) (atan A)). rewrite (Rabs_pos_eq (atan A)) in * by lra. lra. }
  assert (UF : (u * 0.785 <= u * atan A)%R) by (apply Rmult_le_compat_l; lra). assert (UF2 : (u * (atan A + 12.7 * u) <= u * (atan A + 0.001))%R) by (apply Rmult_le_compat_l; lra).
  destruct b; cbn [cneg].
  - destruct (adde _ _ (- kk)%R V (atan A + 12.7 * u)%R (neg_r D good64 _ _ HK) RV) as (W & RW & EW); [replace (- kk + V)%R with (- (kk - V))%R by ring; rewrite Rabs_Ropp; exact BK|lra|].
    eexists _, W. split; [reflexivity|]. split; [exact RW|].
    replace (W - - atan A)%R with ((W - (- kk + V)) + - (kk - V - atan A))%R by ring. pose proof (Rabs_triang (W - (- kk + V)) (- (kk - V - atan A))) as T. rewrite (Rabs_Ropp (kk - V - atan A)) in T. lra.
  - destruct (sube _ _ kk V (atan A + 12.7 * u)%R HK RV BK) as (W & RW & EW); [lra|].
    eexists _, W. split; [reflexivity|]. split; [exact RW|].
    replace (W - atan A)%R with ((W - (kk - V)) + (kk - V - atan A))%R by ring. pose proof (Rabs_triang (W - (kk - V)) (kk - V - atan A)). lra.
Qed.
Theorem atan64 : forall x X, is_real D x X -> exists a V, cc_atan rm x = Some a /\ is_real D a V /\
  (Rabs (V - atan X) <= (if Rle_bool (Rabs X) (/ 2) then 7 else if Rlt_bool X 0 then 21 else 17.5) * u * Rabs (atan X) + 4 * eta)%R.
Proof.
  intros x X Hx. destruct uu as (U & E). destruct (Rle_lt_dec (Rabs X) 1) as [L|L].
  - destruct (Req_dec X 0) as [Z|NZ].
    + exists x, X. split; [|split; [exact Hx|]].
      * pose proof Hx as (P & Fi & VX). unfold cc_atan, atan_d, atan_body at 1. rewrite (isnan_eq D good64 ltac:(vm_compute; discriminate)), (fin_nan D) by auto. rewrite (eqd _ _ _ _ Hx z0), Req_bool_true by exact Z. reflexivity.
      * rewrite Z, atan_0, Rminus_0_r, Rabs_R0. lra.
    + assert (0 < Rabs X)%R by (apply Rabs_pos_lt; exact NZ). destruct (atan_low (atan_body rm (fun _ => None)) x X Hx) as (a & V & A1 & A2 & A3); [lra|]. exists a, V. split; [exact A1|]. split; [exact A2|].
      apply Rle_trans with (1 := A3). assert (0 <= u * Rabs (atan X))%R by (apply Rmult_le_pos; [lra|apply Rabs_pos]). destruct (Rle_bool (Rabs X) (/ 2)), (Rlt_bool X 0); lra.
  - destruct (atan_high (fun _ => None) x X Hx L) as (a & V & A1 & A2 & A3). exists a, V. split; [exact A1|]. split; [exact A2|].
    apply Rle_trans with (1 := A3). assert (0 <= u * Rabs (atan X))%R by (apply Rmult_le_pos; [lra|apply Rabs_pos]). rewrite Rle_bool_false by lra. destruct (Rlt_bool X 0); lra.
Qed.
End Atan.
