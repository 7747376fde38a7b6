(** * atan for float, and atan2 *)
From Coq Require Import ZArith Lia List Bool Reals Lra Ratan.
From Flocq Require Import Core.
From Interval Require Import Tactic.
From Verif Require Import MachInt Fmt FloatSpec FmtProofs RoundProofs FPBits FPBitsProofs FOps FOpsProofs ExactOps Compare CompareProofs ExtFloatSpec ExtFloatProofs ExtInterp FmanipWide RemProofs ErrLib Exp2fProofs ExpoData ExpoF ExpoFWrap Expm1Proofs Expm1Wrap HypotProofs Log1pWrap SinPoly SinRedF SinF InvTrig InvNum InvPoly InvAcc InvAtan.
Import ListNotations.
Open Scope Z_scope.

(** ** float: the double computation, rounded once *)
Theorem atan32 : forall rm x X, is_real S32 x X -> exists a V, cc_atanf rm x = Some a /\ is_real S32 a (fround S32 rm V) /\ (Rabs (V - atan X) <= 22 * bp (-52) * Rabs (atan X))%R.
Proof.
  intros rm x X Hx. destruct (atan64 rm _ X (widen rm _ _ Hx)) as (a & V & EA & RA & CV). unfold cc_atanf, atan_f. unfold cc_atan in EA. rewrite EA. cbv beta iota. exists (f_cast F64 F32 rm a), V.
  destruct (uu rm) as (U & E). pose proof (Rabs_pos (atan X)) as AP. assert (UA : (0 <= uF D rm * Rabs (atan X))%R) by (apply Rmult_le_pos; lra).
  assert (CV' : (Rabs (V - atan X) <= 21 * uF D rm * Rabs (atan X) + 4 * bp (emin D))%R) by (apply Rle_trans with (1 := CV); destruct (Rle_bool (Rabs X) (/ 2)), (Rlt_bool X 0); lra). clear CV.
  assert (B4 : (Rabs (atan X) <= 1.6)%R). { pose proof (atan_bound X) as [B1 B2]. apply Rabs_le. pose proof pib. lra. }
  assert (UB : (uF D rm * Rabs (atan X) <= / 4503599627370496 * 1.6)%R) by (apply Rmult_le_compat; lra).
  assert (BV : (Rabs V <= 4)%R). { replace V with ((V - atan X) + atan X)%R by ring. pose proof (Rabs_triang (V - atan X) (atan X)). lra. }
  destruct (narrow_r rm a V RA BV) as (RN & _). split; [reflexivity|]. split; [exact RN|].
  destruct (Req_dec X 0) as [Z|NZ].
  - subst X. rewrite atan_0, Rminus_0_r, Rabs_R0 in *. rewrite Rmult_0_r in *. (* the zero comes back *)
    pose proof (widen rm _ _ Hx) as W. assert (EA' : atan_d rm (f_cast F32 F64 rm x) = Some (f_cast F32 F64 rm x)).
    { pose proof W as (P & Fi & VX). unfold atan_d, atan_body at 1. rewrite (isnan_eq D good64 ltac:(vm_compute; discriminate)), (fin_nan D) by auto. rewrite (eq_r D good64 _ _ _ _ W (zc D good64 d24 dem db 6%nat)), Req_bool_true by reflexivity. reflexivity. }
    rewrite EA in EA'. injection EA' as ->. destruct RA as (_ & _ & <-). destruct W as (_ & _ & ->). rewrite Rabs_R0. lra.
  - assert (LX : (bp (-149) <= Rabs X)%R). { pose proof (real_fmt S32 good32 _ _ Hx) as G. apply (generic_format_ge_bpow radix2 (FLT_exp (emin S32) (prec S32))); [intros e; unfold FLT_exp; change (emin S32) with (-149); lia|apply Rabs_pos_lt; exact NZ|apply generic_format_abs; exact G]. }
    assert (LA : (bp (-150) <= Rabs (atan X))%R).
    { rewrite atan_abs. destruct (Rle_lt_dec (Rabs X) 1) as [L|L].
      - pose proof (atan_lo (Rabs X) ltac:(apply Rabs_pos)) as AL. apply Rle_trans with (2 := AL). assert (/ 2 <= / (1 + Rabs X * Rabs X))%R by (apply Rinv_le_contravar; pose proof (Rabs_pos X); nra).
        replace (bp (-150)) with (bp (-149) * / 2)%R by (bpn; lra). apply Rmult_le_compat; try lra. apply bpow_ge_0.
      - pose proof (pi4 (Rabs X) ltac:(lra)) as [P4 _]. apply Rle_trans with (2 := P4). bpn. lra. }
    apply Rle_trans with (1 := CV'). assert (E1 : (4 * bp (emin D) <= bp (-52) * bp (-150))%R). { rewrite <- bpow_plus. change 4%R with (bp 2). rewrite <- bpow_plus. apply bpow_le. vm_compute. discriminate. }
    assert (bp (-52) * bp (-150) <= bp (-52) * Rabs (atan X))%R by (apply Rmult_le_compat_l; [apply bpow_ge_0|exact LA]).
    assert (UE : (uF D rm * Rabs (atan X) <= bp (-52) * Rabs (atan X))%R) by (apply Rmult_le_compat_r; [exact AP|]; destruct rm; cbn [uF]; apply bpow_le; vm_compute; discriminate). lra.
Qed.

Theorem atan32_err : forall rm x X, is_real S32 x X -> exists a V, cc_atanf rm x = Some a /\ is_real S32 a V /\ (Rabs (V - atan X) <= 1.001 * uF S32 rm * Rabs (atan X) + bp (emin S32))%R.
Proof.
  intros rm x X Hx. destruct (atan32 rm x X Hx) as (a & V & EA & RA & CV). exists a, (fround S32 rm V). split; [exact EA|]. split; [exact RA|].
  pose proof (rel_e S32 good32 h24 rm V) as ER. pose proof (uF24 rm) as U. pose proof (u_pos S32 rm) as U0. pose proof (Rabs_pos (atan X)) as AP. assert (U1 : (uF S32 rm <= 1)%R) by (destruct rm; cbn [uF]; apply (bpow_le radix2 _ 0); vm_compute; discriminate).
  assert (BV : (Rabs V <= Rabs (atan X) + 22 * bp (-52) * Rabs (atan X))%R). { replace V with ((V - atan X) + atan X)%R by ring. pose proof (Rabs_triang (V - atan X) (atan X)). lra. }
  assert (UV : (uF S32 rm * Rabs V <= uF S32 rm * (Rabs (atan X) + 22 * bp (-52) * Rabs (atan X)))%R) by (apply Rmult_le_compat_l; lra).
  assert (CA : (22 * bp (-52) * Rabs (atan X) <= 0.0001 * bp (-24) * Rabs (atan X))%R) by (apply Rmult_le_compat_r; [exact AP|bpn; lra]).
  assert (CB : (0.0001 * bp (-24) * Rabs (atan X) <= 0.0001 * uF S32 rm * Rabs (atan X))%R) by (apply Rmult_le_compat_r; [exact AP|lra]).
  assert (CC : (uF S32 rm * (22 * bp (-52) * Rabs (atan X)) <= uF S32 rm * (0.0001 * Rabs (atan X)))%R) by (apply Rmult_le_compat_l; [lra|apply Rmult_le_compat_r; [exact AP|bpn; lra]]).
  assert (0 <= uF S32 rm * Rabs (atan X))%R by (apply Rmult_le_pos; lra). replace (fround S32 rm V - atan X)%R with ((fround S32 rm V - V) + (V - atan X))%R by ring. pose proof (Rabs_triang (fround S32 rm V - V) (V - atan X)). lra.
Qed.

(** ** the angle of a point *)
Definition polar (X Y A : R) : Prop := (- PI < A <= PI)%R /\ exists r, (0 < r)%R /\ X = (r * cos A)%R /\ Y = (r * sin A)%R.
Lemma polar_right : forall X Y A, polar X Y A -> (0 < X)%R -> A = atan (Y / X).
Proof.
  intros X Y A ((A1 & A2) & r & Hr & EX & EY) HX. assert (HC : (0 < cos A)%R) by (apply Rmult_lt_reg_l with r; lra). pose proof PI_RGT_0 as PP.
  assert (BA : (- (PI / 2) < A < PI / 2)%R).
  { split; apply Rnot_le_lt; intros L.
    - assert (cos A <= 0)%R; [|lra]. rewrite <- cos_neg. apply cos_le_0; lra.
    - assert (cos A <= 0)%R; [|lra]. apply cos_le_0; lra. }
  rewrite <- (atan_tan A BA) at 1. f_equal. unfold tan. rewrite EX, EY. field. split; lra.
Qed.
Lemma polar_left : forall X Y A, polar X Y A -> (X < 0)%R -> (0 <= Y -> A = atan (Y / X) + PI)%R /\ (Y < 0 -> A = atan (Y / X) - PI)%R.
Proof.
  intros X Y A ((A1 & A2) & r & Hr & EX & EY) HX. assert (HC : (cos A < 0)%R) by (apply Rmult_lt_reg_l with r; lra). pose proof PI_RGT_0 as PP.
  assert (T : (Y / X = tan A)%R) by (unfold tan; rewrite EX, EY; field; split; lra). split; intros HY.
  - assert (BA : (- (PI / 2) < A - PI < PI / 2)%R).
    { split; [|lra]. apply Rnot_le_lt. intros L. assert (HS : (0 <= sin A)%R) by (apply Rmult_le_reg_l with r; lra). destruct (Rle_lt_dec A (- (PI / 2))) as [q|q].
      - assert (sin A < 0)%R; [|lra]. replace A with (- - A)%R by ring. rewrite sin_neg. assert (0 < sin (- A))%R by (apply sin_gt_0; lra). lra.
      - assert (0 <= cos A)%R; [|lra]. apply cos_ge_0; lra. }
    rewrite T. replace (tan A) with (tan (A - PI)). 2: { unfold tan. rewrite sin_minus, cos_minus, sin_PI, cos_PI. field. lra. }
    rewrite (atan_tan _ BA). ring.
  - assert (BA : (- (PI / 2) < A + PI < PI / 2)%R).
    { split; [lra|]. apply Rnot_le_lt. intros L. assert (HS : (sin A < 0)%R) by (apply Rmult_lt_reg_l with r; lra). destruct (Rle_lt_dec A (PI / 2)) as [q|q].
      - assert (0 <= cos A)%R; [|lra]. apply cos_ge_0; lra.
      - assert (0 <= sin A)%R; [|lra]. apply sin_ge_0; lra. }
    rewrite T. replace (tan A) with (tan (A + PI)). 2: { unfold tan. rewrite sin_plus, cos_plus, sin_PI, cos_PI. field. lra. }
    rewrite (atan_tan _ BA). ring.
Qed.
Lemma polar_axis : forall Y A, polar 0 Y A -> (0 < Y -> A = PI / 2)%R /\ (Y < 0 -> A = - (PI / 2))%R.
Proof.
  intros Y A ((A1 & A2) & r & Hr & EX & EY). assert (HC : (cos A = 0)%R) by (apply Rmult_eq_reg_l with r; lra). pose proof PI_RGT_0 as PP.
  assert (N1 : ~ (- (PI / 2) < A < PI / 2)%R) by (intros [L1 L2]; pose proof (cos_gt_0 A L1 L2); lra). split; intros HY.
  - assert (HS : (0 < sin A)%R) by (apply Rmult_lt_reg_l with r; lra). assert (A0 : (0 < A)%R). { apply Rnot_le_lt. intros L. assert (0 <= sin (- A))%R by (apply sin_ge_0; lra). rewrite sin_neg in *. lra. }
    destruct (Rtotal_order A (PI / 2)) as [L|[L|L]]; [exfalso; apply N1; lra|exact L|exfalso]. pose proof (cos_lt_0 A L ltac:(lra)). lra.
  - assert (HS : (sin A < 0)%R) by (apply Rmult_lt_reg_l with r; lra). assert (A0 : (A < 0)%R). { apply Rnot_le_lt. intros L. assert (0 <= sin A)%R by (apply sin_ge_0; lra). lra. }
    destruct (Rtotal_order A (- (PI / 2))) as [L|[L|L]]; [exfalso|exact L|exfalso; apply N1; lra]. pose proof (cos_lt_0 (- A) ltac:(lra) ltac:(lra)) as C. rewrite cos_neg in C. lra.
Qed.

Section Atan2Acc.
Context (F : fmt) (HF : good_fmt F) (Hel : 3 <= el F <= 16) (H24 : 24 <= prec F) (H53 : prec F <= 53) (Hem : emin F <= - 5 * prec F) (Hb : 4 <= bias F) (k : nat) (Hk : width F = 2 ^ Z.of_nat k) (rm : rmode).
Local Notation u := (uF F rm).
Local Notation eta := (bpow radix2 (emin F)).
Let Hem2 : emin F <= - 2 * prec F. Proof. lia. Qed.
Context (K : R) (HK1 : is_real F (k_pi_over_2 F) K) (HK2 : is_real F (pi_v F) (2 * K)) (HKe : (Rabs (K - PI / 2) <= 0.74 * u)%R) (HBB : (bp (- bias F) <= 0.001 * u)%R).
Context (atan_ : Z -> option Z) (c e : R) (Hc : (1 <= c <= 21)%R) (He : (0 <= e <= 4)%R)
  (HA : forall r X, is_real F r X -> exists a V, atan_ r = Some a /\ is_real F a V /\ (Rabs (V - atan X) <= c * u * Rabs (atan X) + e * eta)%R)
  (HI : forall s b, is_pattern F b -> sign_of F b = s -> mag_of F b = inf_mag F \/ mag_of F b = max_mag F -> exists a V, atan_ b = Some a /\ is_real F a V /\ (Rabs (V - cneg s (PI / 2)) <= 2 * u)%R).
Lemma ue : (0 < u <= / 8000000)%R /\ (0 < eta <= / 1000000 * u)%R.
Proof. destruct (ueta F H24 Hem2 rm) as (U & E). split; [|exact E]. exact U. Qed.
Lemma sub_eta : forall z, (Rabs z < bp (emin F + prec F - 1))%R -> (Rabs (fround F rm z - z) <= eta)%R.
Proof.
  intros z L. pose proof (VEF F HF) as VE'. pose proof (VR rm) as VR'. pose proof (bpow_gt_0 radix2 (emin F)) as EP.
  unfold fround. destruct (Req_dec z 0) as [->|N]. { rewrite round_0, Rminus_0_r, Rabs_R0 by auto. lra. }
  apply Rlt_le. apply Rlt_le_trans with (ulp radix2 (FLT_exp (emin F) (prec F)) z); [apply error_lt_ulp; auto|].
  rewrite ulp_neq_0 by auto. apply bpow_le. unfold cexp, FLT_exp. assert (mag radix2 z <= emin F + prec F - 1) by (apply mag_le_bpow; auto). lia.
Qed.
Lemma ge_r : forall a b A B, is_real F a A -> is_real F b B -> f_ge F a b = Rle_bool B A.
Proof.
  intros a b A B Ha Hb'. unfold f_ge. rewrite (gt_r F HF _ _ _ _ Ha Hb'), (eq_r F HF _ _ _ _ Ha Hb'). destruct (Rtotal_order A B) as [L|[L|L]].
  - rewrite Rlt_bool_false, Req_bool_false, Rle_bool_false by lra. reflexivity.
  - rewrite Rlt_bool_false, Req_bool_true, Rle_bool_true by lra. reflexivity.
  - rewrite Rlt_bool_true, Rle_bool_true by lra. reflexivity.
Qed.
Lemma quot_big : forall Z, (bp (bias F + 1) <= Rabs (fround F rm Z))%R -> (bp (bias F) <= Rabs Z)%R.
Proof.
  intros Z H. apply Rnot_lt_le. intros L. assert (G : generic_format radix2 (FLT_exp (emin F) (prec F)) (bp (bias F))).
  { apply generic_format_bpow. unfold FLT_exp. pose proof (proj1 Hel). lia. }
  assert (Rabs (fround F rm Z) <= bp (bias F))%R.
  { apply Rabs_le. apply Rabs_def2 in L. split; [apply (fround_ge_gen F HF); [apply generic_format_opp; exact G|lra]|apply (fround_le_gen F HF); [exact G|lra]]. }
  assert (bp (bias F) < bp (bias F + 1))%R by (apply bpow_lt; lia). lra.
Qed.
Lemma atan_big : forall Z, (bp (bias F) <= Rabs Z)%R -> (Rabs (cneg (Rlt_bool Z 0) (PI / 2) - atan Z) <= 0.001 * u)%R.
Proof.
  intros Z H. assert (P : (0 < Rabs Z)%R) by (pose proof (bpow_gt_0 radix2 (bias F)); lra). apply Rle_trans with (2 := HBB).
  assert (EA : (PI / 2 - atan (Rabs Z) = atan (/ Rabs Z))%R) by (rewrite atan_inv by exact P; ring).
  assert (EB : Rabs (cneg (Rlt_bool Z 0) (PI / 2) - atan Z) = atan (/ Rabs Z)).
  { assert (PZ : (0 <= atan (/ Rabs Z))%R) by (apply atan_nn; left; apply Rinv_0_lt_compat; exact P). destruct (Rle_lt_dec 0 Z) as [S|S].
    - rewrite Rlt_bool_false by exact S. cbn [cneg]. rewrite (Rabs_pos_eq Z) in * by exact S. rewrite EA. apply Rabs_pos_eq. exact PZ.
    - rewrite Rlt_bool_true by exact S. cbn [cneg]. rewrite (Rabs_left Z) in * by exact S. rewrite atan_opp in EA. replace (- (PI / 2) - atan Z)%R with (- (PI / 2 - - atan Z))%R by ring. rewrite Rabs_Ropp, EA. apply Rabs_pos_eq. exact PZ. }
  rewrite EB. apply Rle_trans with (/ Rabs Z)%R; [apply atan_nn; left; apply Rinv_0_lt_compat; exact P|]. rewrite bpow_opp. apply Rinv_le_contravar; [apply bpow_gt_0|exact H].
Qed.
Lemma ratio_e : forall y x Y X, is_real F y Y -> is_real F x X -> X <> 0%R -> exists a V, atan_ (f_div F rm y x) = Some a /\ is_real F a V /\
  (Rabs (V - atan (Y / X)) <= (c + 1.01) * u * Rabs (atan (Y / X)) + (e + 1.01) * eta)%R.
Proof.
  intros y x Y X Hy Hx NX. destruct ue as (U & E). pose proof Hy as (Py & Fy & Vy). pose proof Hx as (Px & Fx & Vx). pose proof (f_div_spec F HF rm y x Fy Fx ltac:(congruence)) as RD. rewrite Vx, Vy in RD.
  set (Z := (Y / X)%R) in *. clearbody Z. destruct RD as (PD & SD & D1 & D2). pose proof (Rabs_pos (atan Z)) as AP. assert (UA : (0 <= u * Rabs (atan Z))%R) by (apply Rmult_le_pos; lra). assert (CU : (0 <= c * (u * Rabs (atan Z)))%R) by (apply Rmult_le_pos; lra). assert (CE : (0 <= e * eta)%R) by (apply Rmult_le_pos; lra).
  destruct (Rlt_le_dec (Rabs (fround F rm Z)) (bp (bias F + 1))) as [L|L].
  - destruct (D1 L) as (FD & VD). assert (RD : is_real F (f_div F rm y x) (fround F rm Z)) by (split; [exact PD|split; assumption]).
    destruct (HA _ _ RD) as (a & V & EA & RA & CV). exists a, V. split; [exact EA|]. split; [exact RA|].
    assert (DL : (Rabs (atan (fround F rm Z) - atan Z) <= 1.0001 * u * Rabs (atan Z) + eta)%R).
    { destruct (Rle_lt_dec (bp (emin F + prec F - 1)) (Rabs Z)) as [N|N].
      - pose proof (atan_rel Z (fround F rm Z) u ltac:(lra) (rel_n F HF H24 rm Z N)). lra.
      - pose proof (atan_lip (fround F rm Z) Z) as L1. pose proof (sub_eta Z N) as L2. lra. }
    set (R := fround F rm Z) in *. clearbody R. assert (BR : (Rabs (atan R) <= Rabs (atan Z) + (1.0001 * u * Rabs (atan Z) + eta))%R). { replace (atan R) with ((atan R - atan Z) + atan Z)%R by ring. pose proof (Rabs_triang (atan R - atan Z) (atan Z)). lra. }
    assert (CW : (c * u * (Rabs (atan R)) <= c * u * (Rabs (atan Z) + (1.0001 * u * Rabs (atan Z) + eta)))%R) by (apply Rmult_le_compat_l; [apply Rmult_le_pos; lra|exact BR]).
    assert (CX : (c * u * (1.0001 * u * Rabs (atan Z) + eta) <= 0.00001 * (1.0001 * u * Rabs (atan Z) + eta))%R).
    { apply Rmult_le_compat_r; [lra|]. apply Rle_trans with (21 * (/ 8000000))%R; [apply Rmult_le_compat; lra|lra]. }
    replace (V - atan Z)%R with ((V - atan R) + (atan R - atan Z))%R by ring. pose proof (Rabs_triang (V - atan R) (atan R - atan Z)). lra.
  - pose proof (quot_big Z L) as BZ. assert (NZ : Z <> 0%R). { intros ->. rewrite Rabs_R0 in BZ. pose proof (bpow_gt_0 radix2 (bias F)). lra. }
    rewrite Req_bool_false in SD by exact NZ. assert (MD : mag_of F (f_div F rm y x) = inf_mag F \/ mag_of F (f_div F rm y x) = max_mag F). { rewrite (D2 L). unfold overflow_mag. destruct rm; destruct (Rlt_bool Z 0); auto. }
    destruct (HI _ _ PD SD MD) as (a & V & EA & RA & CV). exists a, V. split; [exact EA|]. split; [exact RA|].
    pose proof (atan_big Z BZ) as AB. set (q := cneg (Rlt_bool Z 0) (PI / 2)) in *. assert (Q : (1.57 <= Rabs q)%R). { unfold q. rewrite cneg_abs, Rabs_pos_eq; pose proof pib; lra. }
    assert (AZ : (1.56 <= Rabs (atan Z))%R). { pose proof (Rabs_triang (q - atan Z) (atan Z)) as T. replace (q - atan Z + atan Z)%R with q in T by ring. lra. }
    assert (UZ : (u * 1.56 <= u * Rabs (atan Z))%R) by (apply Rmult_le_compat_l; lra). assert (C1 : (1 * (u * Rabs (atan Z)) <= c * (u * Rabs (atan Z)))%R) by (apply Rmult_le_compat_r; lra).
    replace (V - atan Z)%R with ((V - q) + (q - atan Z))%R by ring. pose proof (Rabs_triang (V - q) (q - atan Z)). lra.
Qed.
Let adde := add_e F HF H24 Hem Hb k rm.
Let sube := sub_e F HF H24 Hem Hb k rm.
Theorem atan2_fin : forall y x Y X A, is_real F y Y -> is_real F x X -> polar X Y A -> exists a V, atan2_impl F rm atan_ y x = Some a /\ is_real F a V /\ (Rabs (V - A) <= (c + 3) * u * Rabs A + (e + 2) * eta)%R.
Proof.
  intros y x Y X A Hy Hx PA. destruct ue as (U & E). pose proof Hy as (Py & Fy & Vy). pose proof Hx as (Px & Fx & Vx). pose proof (zc F HF H24 Hem Hb k) as z0. pose proof pib as PB.
  unfold atan2_impl. rewrite !(isnan_eq F HF ltac:(lia)), !(fin_nan F) by assumption. rewrite !(isinf_eq F HF ltac:(lia)), !(fin_inf F) by assumption. cbn [orb]. rewrite (eq_r F HF _ _ _ _ Hx z0), (lt_r F HF _ _ _ _ Hx z0). cbv zeta.
  pose proof HKe as KE. assert (HPK : is_real F (f_div F rm (pi_v F) (cst F 2 0)) K) by exact (half_pi F HF H24 Hem Hb k rm K HK1 HK2).
  pose proof (Rabs_pos A) as AP. assert (UA : (0 <= u * Rabs A)%R) by (apply Rmult_le_pos; lra). assert (CU : (1 * (u * Rabs A) <= c * (u * Rabs A))%R) by (apply Rmult_le_compat_r; lra). assert (CE : (0 <= e * eta)%R) by (apply Rmult_le_pos; lra).
  destruct (Req_dec X 0) as [Z|NZ].
  - rewrite Req_bool_true by exact Z. subst X. rewrite (gt_r F HF _ _ _ _ Hy z0), (lt_r F HF _ _ _ _ Hy z0). rewrite Z in PA. destruct (polar_axis Y A PA) as (P1 & P2). destruct (Rtotal_order Y 0) as [L|[L|L]].
    + rewrite Rlt_bool_false, Rlt_bool_true by lra. eexists _, (- K)%R. split; [reflexivity|]. split; [apply (neg_r F HF); exact HPK|]. rewrite (P2 L) in *. rewrite Rabs_Ropp in *. rewrite (Rabs_pos_eq (PI / 2)) in * by lra. replace (- K - - (PI / 2))%R with (- (K - PI / 2))%R by ring. rewrite Rabs_Ropp.
      assert (u * 1.5707 <= u * (PI / 2))%R by (apply Rmult_le_compat_l; lra). lra.
    + exfalso. subst Y. destruct PA as (_ & r & Hr & C0 & S0). pose proof (sin2_cos2 A) as SC. unfold Rsqr in SC. assert (C1 : (cos A = 0)%R) by (apply Rmult_eq_reg_l with r; lra). assert (S1 : (sin A = 0)%R) by (apply Rmult_eq_reg_l with r; lra). rewrite C1, S1 in SC. lra.
    + rewrite Rlt_bool_true by lra. eexists _, K. split; [reflexivity|]. split; [exact HPK|]. rewrite (P1 L) in *. rewrite (Rabs_pos_eq (PI / 2)) in * by lra.
      assert (u * 1.5707 <= u * (PI / 2))%R by (apply Rmult_le_compat_l; lra). lra.
  - rewrite Req_bool_false by exact NZ. destruct (ratio_e y x Y X Hy Hx NZ) as (a & V & EA & RA & CV). rewrite EA. cbv beta iota. destruct (Rtotal_order X 0) as [L|[L|L]]; [|contradiction|].
    + rewrite Rlt_bool_true by exact L. destruct (polar_left X Y A PA L) as (P1 & P2). set (z := atan (Y / X)) in *. assert (BZ : (Rabs z <= 1.5708)%R). { pose proof (atan_bound (Y / X)) as B. fold z in B. apply Rabs_le. lra. }
      pose proof (ge_r _ _ _ _ Hy z0) as GE. rewrite GE. assert (UZ : (u * Rabs z <= u * 1.5708)%R) by (apply Rmult_le_compat_l; lra). assert (CZ : ((c + 1.01) * (u * Rabs z) <= (c + 1.01) * (u * 1.5708))%R) by (apply Rmult_le_compat_l; lra).
      assert (CUb : (c * u <= 21 * u)%R) by (apply Rmult_le_compat_r; lra). assert (CEb : (e * eta <= 4 * eta)%R) by (apply Rmult_le_compat_r; lra).
      assert (SG : exists s : R, (s = 1 \/ s = -1)%R /\ A = (z + s * PI)%R /\ (1.5707 <= s * A <= 3.1416)%R /\ (if Rle_bool 0 Y then s = 1 else s = -1)%R).
      { destruct PA as ((Q1 & Q2) & r & Hr & EX & EY). destruct (Rle_lt_dec 0 Y) as [S|S].
        - exists 1%R. rewrite Rle_bool_true by exact S. specialize (P1 S). apply Rabs_le_inv in BZ. split; [auto|]. split; [lra|]. split; [|reflexivity]. pose proof (atan_bound (Y / X)) as B. fold z in B. lra.
        - exists (-1)%R. rewrite Rle_bool_false by exact S. specialize (P2 S). apply Rabs_le_inv in BZ. split; [auto|]. split; [lra|]. split; [|reflexivity]. pose proof (atan_bound (Y / X)) as B. fold z in B. lra. }
      destruct SG as (s & Hs & EqA & BA & Ss). clear P1 P2.
      assert (AA : Rabs A = (s * A)%R). { destruct Hs as [-> | ->]; [rewrite Rabs_pos_eq|rewrite Rabs_left]; lra. }
      assert (ES : (Rabs ((V + s * (2 * K)) - A) <= (c + 1.01) * (u * 1.5708) + 1.48 * u + (e + 1.01) * eta)%R).
      { rewrite EqA. replace (V + s * (2 * K) - (z + s * PI))%R with ((V - z) + s * (2 * (K - PI / 2)))%R by field. pose proof (Rabs_triang (V - z) (s * (2 * (K - PI / 2)))) as T. rewrite !Rabs_mult, (Rabs_pos_eq 2) in T by lra.
        replace (Rabs s) with 1%R in T by (destruct Hs as [-> | ->]; [rewrite Rabs_R1|rewrite Rabs_left]; lra). lra. }
      assert (BS : (Rabs (V + s * (2 * K)) <= Rabs A + 40 * u)%R). { replace (V + s * (2 * K))%R with ((V + s * (2 * K) - A) + A)%R by ring. pose proof (Rabs_triang (V + s * (2 * K) - A) A). lra. }
      assert (UB : (u * (Rabs A + 40 * u) <= u * (Rabs A + 0.00001))%R) by (apply Rmult_le_compat_l; lra). assert (U5 : (u * 1.5707 <= u * Rabs A)%R) by (apply Rmult_le_compat_l; lra). assert (C5 : ((c + 1.01) * (u * 1.5707) <= (c + 1.01) * (u * Rabs A))%R) by (apply Rmult_le_compat_l; lra).
      assert (RW : exists b W, (if Rle_bool 0 Y then Some (f_add F rm a (pi_v F)) else Some (f_sub F rm a (pi_v F))) = Some b /\ is_real F b W /\ (Rabs (W - (V + s * (2 * K))) <= u * (Rabs A + 40 * u) + eta)%R).
      { destruct (Rle_bool 0 Y).
        - destruct (adde _ _ V (2 * K)%R (Rabs A + 40 * u)%R RA HK2) as (W & RW & EW); [rewrite Ss in BS; replace (V + 2 * K)%R with (V + 1 * (2 * K))%R by ring; exact BS|lra|]. exists (f_add F rm a (pi_v F)), W. split; [reflexivity|]. split; [exact RW|]. rewrite Ss, Rmult_1_l. exact EW.
        - destruct (sube _ _ V (2 * K)%R (Rabs A + 40 * u)%R RA HK2) as (W & RW & EW); [rewrite Ss in BS; replace (V - 2 * K)%R with (V + -1 * (2 * K))%R by ring; exact BS|lra|]. exists (f_sub F rm a (pi_v F)), W. split; [reflexivity|]. split; [exact RW|]. rewrite Ss. replace (V + -1 * (2 * K))%R with (V - 2 * K)%R by ring. exact EW. }
      destruct RW as (b & W & EB & RW & EW). exists b, W. split; [exact EB|]. split; [exact RW|].
      replace (W - A)%R with ((W - (V + s * (2 * K))) + (V + s * (2 * K) - A))%R by ring. pose proof (Rabs_triang (W - (V + s * (2 * K))) (V + s * (2 * K) - A)). lra.
    + rewrite Rlt_bool_false by lra. pose proof (polar_right X Y A PA L) as PR. rewrite <- PR in CV. exists a, V. split; [reflexivity|]. split; [exact RA|]. lra.
Qed.
End Atan2Acc.
