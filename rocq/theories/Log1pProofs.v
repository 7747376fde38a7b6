(** * log1p: the kernel *)
From Coq Require Import ZArith Lia Bool Reals Lra List.
From Flocq Require Import Core Relative.
From Interval Require Import Tactic.
From Verif Require Import MachInt Fmt FloatSpec FmtProofs RoundProofs FOps FOpsProofs ExactOps ExtFloatSpec ExtFloatProofs ExtInterp FmanipWide ErrLib ExpoData LogDataD ExpoF LogD ExpM1 Log1p Exp2fProofs ExpoFWrap LogfNum Expm1Proofs HypotProofs RelErr Log1pNum.
Import ListNotations.
Open Scope Z_scope.

Lemma fold_real' : forall a V W, is_real D a V -> V = W -> is_real D a W. Proof. intros a V W H <-. exact H. Qed.
Section Front.
Context (rm : rmode) (odd even : list Z) (O E : list R).
Context (HO : List.Forall2 (is_real D) odd O) (HE : List.Forall2 (is_real D) even E) (NO : odd <> []) (NE : even <> []).
Context (BO : List.Forall (fun c => / 8 <= c <= 1)%R O) (BE : List.Forall (fun c => / 8 <= c <= 1)%R E).
Notation u := (uF D rm).

Lemma prod_b : forall a b A B k l, (bp k <= a <= A)%R -> (bp l <= b <= B)%R -> (bp (k + l) <= a * b <= A * B)%R.
Proof.
  intros a b A B k l Ha Hb. pose proof (bpow_gt_0 radix2 k). pose proof (bpow_gt_0 radix2 l). rewrite bpow_plus. split; apply Rmult_le_compat; lra.
Qed.
Lemma front : forall f X, is_real D f X -> (bp (-100) <= Rabs X)%R -> (- 2929 / 10000 <= X <= 41429 / 100000)%R ->
  let s := f_div D rm f (f_add D rm (lit 2 0) f) in
  let z := f_mul D rm s s in
  let w := f_mul D rm z z in
  let r := f_add D rm (f_mul D rm z (horner D rm w odd)) (f_mul D rm w (horner D rm w even)) in
  let h := f_mul D rm (f_mul D rm (lit 1 (-1)) f) f in
  exists A H, is_real D (f_mul D rm s (f_add D rm h r)) A /\ is_real D h H /\ rel rm 18.6 A (sx X * (X * X / 2 + Rz O E (sx X * sx X))) /\ rel rm 2.1 H (X * X / 2).
Proof.
  intros f X Hf HX HB s z w r h. pose proof (sx_abs X ltac:(lra)) as SB.
  assert (X0 : (0 < Rabs X)%R) by (pose proof (bpow_gt_0 radix2 (-100)); lra). assert (XU : (Rabs X <= 41429 / 100000)%R) by (apply Rabs_le; lra).
  pose proof (lit_r false 2 0 ltac:(lia) ltac:(lia)) as L2. rewrite Rmult_1_r in L2. change (round_int D RNE false 2 0) with (lit 2 0) in L2.
  pose proof (lit_r false 1 (-1) ltac:(lia) ltac:(lia)) as L1. change (round_int D RNE false 1 (-1)) with (lit 1 (-1)) in L1. change (bp (-1)) with (/ 2)%R in L1.
  assert (B1000 : (0 < bp (-1000) <= / 8)%R) by (split; [apply bpow_gt_0|change (/ 8)%R with (bp (-3)); apply bpow_le; lia]).
  assert (B200 : (bp (-1000) <= bp (-204))%R) by (apply bpow_le; lia). assert (B100 : (bp (-1000) <= bp (-102) / 100)%R). { apply Rle_trans with (bp (-102) * bp (-7))%R; [rewrite <- bpow_plus; apply bpow_le; lia|]. unfold Rdiv. apply Rmult_le_compat_l; [apply bpow_ge_0|]. change (bp (-7)) with (/ 128)%R. lra. }
  (* 2 + f *)
  destruct (rel_rnd rm 0 (2 + X) (2 + X) ltac:(lra) (rel_refl rm _)) as [D1 D2]. { rewrite Rabs_pos_eq; lra. }
  pose proof (add_r D good64 rm _ _ _ _ L2 Hf D2) as RD.
  (* s *)
  assert (S1 : (bp (-102) <= Rabs (sx X) <= 172 / 1000)%R).
  { split.
    - apply Rle_trans with (2 := proj1 SB). apply Rle_trans with (bp (-2) * bp (-100))%R; [rewrite <- bpow_plus; apply bpow_le; lia|]. apply Rmult_le_compat; try apply bpow_ge_0; try lra. change (bp (-2)) with (/ 4)%R. lra.
    - unfold sx. replace (X / (2 + X))%R with (1 - 2 / (2 + X))%R by (field; lra). apply Rabs_le. split; interval with (i_prec 60). }
  destruct (divN rm 0 1.001 f _ X _ X (2 + X) ltac:(lra) ltac:(lra) ltac:(lra) Hf RD (rel_refl rm _)) as (S & RS & ES). { eapply rel_weak; [exact D1|lra]. } { fold (sx X). lra. }
  fold (sx X) in ES. fold s in RS. set (s0 := sx X) in *.
  (* z *)
  assert (Z1 : (bp (-204) <= s0 * s0 <= 296 / 10000)%R).
  { replace (s0 * s0)%R with (Rabs s0 * Rabs s0)%R by (rewrite <- Rabs_mult; apply Rabs_pos_eq; nra). pose proof (prod_b _ _ _ _ _ _ S1 S1) as PB. change (-102 + -102) with (-204) in PB. lra. }
  set (z0 := (s0 * s0)%R) in *.
  assert (ES' : rel rm 2.005 S s0) by (eapply rel_weak; [exact ES|lra]).
  destruct (mulN rm 2.005 2.005 s s S S s0 s0 ltac:(lra) ltac:(lra) RS RS ES' ES') as (Z & RZ & EZ). { fold z0. rewrite Rabs_pos_eq; lra. }
  fold z in RZ. fold z0 in EZ. assert (EZ' : rel rm 5.02 Z z0) by (eapply rel_weak; [exact EZ|lra]).
  (* w *)
  assert (W1 : (bp (-408) <= z0 * z0 <= / 1000)%R) by (pose proof (prod_b _ _ _ _ _ _ Z1 Z1) as PB; change (-204 + -204) with (-408) in PB; lra).
  set (w0 := (z0 * z0)%R) in *. assert (B408 : (bp (-1000) <= bp (-408) / 8)%R). { change (bp (-408) / 8)%R with (bp (-408) * / 8)%R. change (/ 8)%R with (bp (-3)). rewrite <- bpow_plus. apply bpow_le. lia. }
  destruct (mulN rm 5.02 5.02 z z Z Z z0 z0 ltac:(lra) ltac:(lra) RZ RZ EZ' EZ') as (W & RW & EW). { fold w0. rewrite Rabs_pos_eq; lra. }
  fold w in RW. fold w0 in EW. assert (EW' : rel rm 11.05 W w0) by (eapply rel_weak; [exact EW|lra]).
  assert (W2 : (bp (-900) <= w0 <= / 1000)%R). { split; [|lra]. apply Rle_trans with (2 := proj1 W1). apply bpow_le; lia. }
  destruct (hornerN rm 11.05 w W w0 ltac:(lra) RW EW' W2 odd O HO NO BO) as (P & RP & EP).
  destruct (hornerN rm 11.05 w W w0 ltac:(lra) RW EW' W2 even E HE NE BE) as (Q & RQ & EQ).
  assert (NO' : O <> []) by (intros ->; inversion HO; subst; congruence). assert (NE' : E <> []) by (intros ->; inversion HE; subst; congruence).
  pose proof (hr_pos w0 O ltac:(lra) BO NO') as HP. pose proof (hr_pos w0 E ltac:(lra) BE NE') as HQ. set (p0 := hr w0 O) in *. set (q0 := hr w0 E) in *.
  assert (T2 : (bp (-1000) <= z0 * p0 <= 3 / 100)%R).
  { split; [|apply Rle_trans with (296 / 10000 * 1.01)%R; [apply Rmult_le_compat; lra|lra]]. apply Rle_trans with (bp (-204) * / 8)%R; [change (/ 8)%R with (bp (-3)); rewrite <- bpow_plus; apply bpow_le; lia|].
    apply Rmult_le_compat; try apply bpow_ge_0; lra. }
  assert (T1 : (bp (-1000) <= w0 * q0 <= 2 / 1000)%R).
  { split; [|apply Rle_trans with (/ 1000 * 1.01)%R; [apply Rmult_le_compat; lra|lra]]. apply Rle_trans with (1 := B408). unfold Rdiv.
    apply Rmult_le_compat; try apply bpow_ge_0; lra. }
  destruct (mulN rm 11.05 1.3 w _ W Q w0 q0 ltac:(lra) ltac:(lra) RW RQ EW' EQ) as (Y1 & RY1 & EY1). { rewrite Rabs_pos_eq; lra. }
  destruct (mulN rm 5.02 1.3 z _ Z P z0 p0 ltac:(lra) ltac:(lra) RZ RP EZ' EP) as (Y2 & RY2 & EY2). { rewrite Rabs_pos_eq; lra. }
  destruct (addN rm 13.4 _ _ Y2 Y1 (z0 * p0) (w0 * q0) ltac:(lra) RY2 RY1 ltac:(lra) ltac:(lra)) as (Rr & RR & ER). { eapply rel_weak; [exact EY2|lra]. } { eapply rel_weak; [exact EY1|lra]. } { lra. }
  fold r in RR. change (z0 * p0 + w0 * q0)%R with (Rz O E z0) in ER. assert (R1 : (bp (-1000) <= Rz O E z0 <= 4 / 100)%R) by (unfold Rz; fold w0 p0 q0; lra). set (r0 := Rz O E z0) in *.
  (* hfsq *)
  assert (H1 : (bp (-102) / 100 <= Rabs (/ 2 * X) <= 1)%R).
  { rewrite Rabs_mult, (Rabs_pos_eq (/ 2)) by lra. split; [|lra]. apply Rle_trans with (/ 4 * bp (-100))%R; [change (/ 4)%R with (bp (-2)); rewrite <- bpow_plus; change (-2 + -100) with (-102); pose proof (bpow_gt_0 radix2 (-102)); lra|]. pose proof (bpow_gt_0 radix2 (-100)). lra. }
  destruct (mulN rm 0 0 _ f _ X (/ 2) X ltac:(lra) ltac:(lra) (fold_real' _ _ _ L1 (Rmult_1_l _)) Hf (rel_refl rm _) (rel_refl rm _)) as (H0 & RH0 & EH0). { lra. }
  assert (H2 : (bp (-1000) <= / 2 * X * X <= 9 / 100)%R).
  { replace (/ 2 * X * X)%R with (/ 2 * (Rabs X * Rabs X))%R by (rewrite <- Rabs_mult, Rabs_pos_eq by nra; ring). split.
    - apply Rle_trans with (bp (-1) * (bp (-100) * bp (-100)))%R; [rewrite <- !bpow_plus; apply bpow_le; lia|]. change (bp (-1)) with (/ 2)%R. apply Rmult_le_compat_l; [lra|]. apply Rmult_le_compat; try apply bpow_ge_0; lra.
    - apply Rle_trans with (/ 2 * (0.4143 * 0.4143))%R; [|lra]. apply Rmult_le_compat_l; [lra|]. apply Rmult_le_compat; lra. }
  destruct (mulN rm 1.01 0 _ f H0 X (/ 2 * X) X ltac:(lra) ltac:(lra) RH0 Hf ltac:(eapply rel_weak; [exact EH0|lra]) (rel_refl rm _)) as (H & RH & EH). { rewrite Rabs_pos_eq; lra. }
  fold h in RH. replace (/ 2 * X * X)%R with (X * X / 2)%R in EH, H2 by field. set (h0 := (X * X / 2)%R) in *. assert (EH' : rel rm 2.1 H h0) by (eapply rel_weak; [exact EH|lra]).
  destruct (addN rm 14.5 _ _ H Rr h0 r0 ltac:(lra) RH RR ltac:(lra) ltac:(lra)) as (B & RB & EB). { eapply rel_weak; [exact EH'|lra]. } { eapply rel_weak; [exact ER|lra]. } { lra. }
  destruct (mulN rm 2.005 15.501 s _ S B s0 (h0 + r0) ltac:(lra) ltac:(lra) RS RB ES' ltac:(eapply rel_weak; [exact EB|lra])) as (A & RA & EA).
  { rewrite Rabs_mult, (Rabs_pos_eq (h0 + r0)) by lra. assert (HL : (bp (-201) <= h0)%R). { unfold h0. replace (X * X / 2)%R with (/ 2 * (Rabs X * Rabs X))%R by (rewrite <- Rabs_mult, Rabs_pos_eq by nra; field). apply Rle_trans with (bp (-1) * (bp (-100) * bp (-100)))%R; [rewrite <- !bpow_plus; apply bpow_le; lia|]. change (bp (-1)) with (/ 2)%R. apply Rmult_le_compat_l; [lra|]. apply Rmult_le_compat; try apply bpow_ge_0; lra. }
    assert (SU : (bp (-201) <= h0 + r0 <= 1)%R) by lra. pose proof (prod_b _ _ _ _ _ _ S1 SU) as PB. split; [|lra]. apply Rle_trans with (2 := proj1 PB). apply bpow_le; lia. }
  exists A, H. split; [exact RA|]. split; [exact RH|]. split; [|exact EH']. eapply rel_weak; [exact EA|lra].
Qed.

Lemma A0_b : forall X, (- 2929 / 10000 <= X <= 41429 / 100000)%R -> (0 <= Rz O E (sx X * sx X) <= 4 / 10 * (Rabs X * Rabs X))%R /\ (Rabs (sx X * (X * X / 2 + Rz O E (sx X * sx X))) <= 6 / 10 * (Rabs X * Rabs X * Rabs X))%R.
Proof.
  intros X HB. pose proof (sx_abs X ltac:(lra)) as SB. pose proof (Rabs_pos X) as X0.
  assert (NO' : O <> []) by (intros ->; inversion HO; subst; congruence). assert (NE' : E <> []) by (intros ->; inversion HE; subst; congruence).
  assert (ZZ : (sx X * sx X = Rabs (sx X) * Rabs (sx X))%R) by (rewrite <- Rabs_mult; symmetry; apply Rabs_pos_eq; nra).
  assert (XX : (X * X = Rabs X * Rabs X)%R) by (rewrite <- Rabs_mult; symmetry; apply Rabs_pos_eq; nra).
  assert (XU : (Rabs X <= 41429 / 100000)%R) by (apply Rabs_le; lra). pose proof (Rabs_pos (sx X)) as S0.
  rewrite ZZ, XX, Rabs_mult. set (M := Rabs X) in *. set (s := Rabs (sx X)) in *. set (z := (s * s)%R).
  assert (M2 : (0 <= M * M <= 172 / 1000)%R) by (split; [nra|apply Rle_trans with (41429 / 100000 * (41429 / 100000))%R; [apply Rmult_le_compat; lra|lra]]).
  assert (Z1 : (0 <= z <= 3482 / 10000 * (M * M))%R). { unfold z. split; [nra|]. apply Rle_trans with (59 / 100 * M * (59 / 100 * M))%R; [apply Rmult_le_compat; lra|lra]. }
  assert (Z2 : (0 <= z * z <= 6 / 100 * z)%R) by (split; [nra|apply Rmult_le_compat_r; lra]).
  assert (S172 : (s <= 172 / 1000)%R). { unfold s, sx. replace (X / (2 + X))%R with (1 - 2 / (2 + X))%R by (field; lra). apply Rabs_le. split; interval with (i_prec 60). }
  assert (Z3 : (z * z <= / 1000)%R). { assert (z <= 3 / 100)%R by (unfold z; apply Rle_trans with (172 / 1000 * (172 / 1000))%R; [apply Rmult_le_compat; lra|lra]). apply Rle_trans with (3 / 100 * (3 / 100))%R; [apply Rmult_le_compat; lra|lra]. }
  pose proof (hr_pos (z * z) O ltac:(lra) BO NO') as HP. pose proof (hr_pos (z * z) E ltac:(lra) BE NE') as HQ. unfold Rz. set (p0 := hr (z * z) O) in *. set (q0 := hr (z * z) E) in *.
  assert (P1 : (0 <= z * p0 <= z * 1.01)%R) by (split; [apply Rmult_le_pos; lra|apply Rmult_le_compat_l; lra]).
  assert (Q1 : (0 <= z * z * q0 <= z * z * 1.01)%R) by (split; [apply Rmult_le_pos; lra|apply Rmult_le_compat_l; lra]).
  assert (RB : (0 <= z * p0 + z * z * q0 <= 4 / 10 * (M * M))%R) by lra. split; [exact RB|]. set (r := (z * p0 + z * z * q0)%R) in *. clearbody r.
  rewrite (Rabs_pos_eq (M * M / 2 + r)) by lra. apply Rle_trans with (59 / 100 * M * (9 / 10 * (M * M)))%R; [apply Rmult_le_compat; lra|]. assert (0 <= M * M * M)%R by nra. lra.
Qed.
Lemma zero_mul : forall c C, is_real D c C -> is_real D (f_mul D rm (f_of_Z D rm 0) c) 0.
Proof.
  intros c C Hc. pose proof (ofz_r D good64 rm 0 ltac:(vm_compute; congruence)) as Z0. apply (mul_x D good64 rm _ _ _ _ 0 Z0 Hc); [ring|apply generic_format_0|]. rewrite Rabs_R0. apply bpow_gt_0.
Qed.
Lemma add_zero : forall a A z, is_real D a A -> is_real D z 0 -> is_real D (f_add D rm a z) A.
Proof.
  intros a A z Ha Hz. apply (add_x D good64 rm _ _ _ _ A Ha Hz); [ring|exact (real_fmt D good64 _ _ Ha)|]. destruct Ha as (_ & Fi & <-). apply (fin_bound D good64); auto.
Qed.
(** No reduction: k = 0 and c = 0. *)
Lemma kernel0 : forall f X hi lo HI LO zs, is_real D f X -> is_real D hi HI -> is_real D lo LO -> (bp (-100) <= Rabs X)%R -> (- 2929 / 10000 <= X <= 41429 / 100000)%R ->
  exists v, let M := Rabs X in (Rabs (v - Gx O E X) <= u * (17 / 10 * (M * M) + 12 * (M * M * M)))%R /\ (bp (-101) <= Rabs v <= 1)%R /\
    let r := log1p_kernel odd even hi lo rm f (f_zero D false) (f_of_Z D rm 0) in rounded D rm v zs r /\ is_real D r (fround D rm v).
Proof.
  intros f X hi lo HI LO zs Hf Hhi Hlo HX HB. destruct (front f X Hf HX HB) as (A & H & RA & RH & EA & EH). destruct (A0_b X HB) as [RB AB].
  pose proof (uD' rm) as U. pose proof (Rabs_pos X) as X0. assert (XU : (Rabs X <= 41429 / 100000)%R) by (apply Rabs_le; lra).
  unfold Gx. set (A0 := (sx X * (X * X / 2 + Rz O E (sx X * sx X)))%R) in *. clearbody A0. clear RB.
  assert (XX : (X * X / 2 = Rabs X * Rabs X / 2)%R) by (rewrite <- Rabs_mult; rewrite (Rabs_pos_eq (X * X)) by nra; ring).
  unfold rel in EH, EA. rewrite XX in *. set (M := Rabs X) in *. assert (M2 : (0 <= M * M <= 41429 / 100000 * M)%R) by (split; [nra|apply Rmult_le_compat_r; lra]).
  assert (M3 : (0 <= M * M * M <= 41429 / 100000 * (M * M))%R) by (split; [nra|rewrite Rmult_assoc; apply Rmult_le_compat_r; lra]).
  rewrite (Rabs_pos_eq (M * M / 2)) in EH by lra.
  assert (EA' : (Rabs (A - A0) <= 18.6 * u * (6 / 10 * (M * M * M)))%R) by (apply Rle_trans with (1 := EA); apply Rmult_le_compat_l; lra).
  assert (UM : (0 <= u * (M * M * M) <= / 1000000 * (M * M * M))%R) by (split; [apply Rmult_le_pos; lra|apply Rmult_le_compat_r; lra]).
  assert (UM2 : (0 <= u * (M * M) <= / 1000000 * (M * M))%R) by (split; [apply Rmult_le_pos; lra|apply Rmult_le_compat_r; lra]).
  assert (AH : (Rabs (A - H) <= 61 / 100 * (M * M * M) + 51 / 100 * (M * M))%R).
  { replace (A - H)%R with ((A - A0) - (H - M * M / 2) + A0 - M * M / 2)%R by ring. apply Rabs_le_inv in EA', EH, AB. apply Rabs_le. lra. }
  (* the sums *)
  assert (Z0 : is_real D (f_zero D false) 0) by exact (zero_r D good64).
  assert (R1 : is_real D (f_add D rm (f_mul D rm (f_of_Z D rm 0) lo) (f_zero D false)) 0) by (apply add_zero; [apply zero_mul with LO; auto|exact Z0]).
  pose proof (add_zero _ _ _ RA R1) as R2.
  assert (NB : (Rabs (fround D rm (A - H)) < bp (bias D + 1))%R) by (apply (bound_big rm _ 1); [lia|change (bp 1) with 2%R; lra]).
  pose proof (sub_r D good64 rm _ _ _ _ R2 RH NB) as RB. set (B := fround D rm (A - H)) in *.
  assert (EB : (Rabs (B - (A - H)) <= u * (61 / 100 * (M * M * M) + 51 / 100 * (M * M)) + / 1000 * u * (M * M))%R).
  { pose proof (rel_e D good64 ltac:(vm_compute; congruence) rm (A - H)) as RE. fold B in RE. change (emin D) with (-1074) in RE. apply Rle_trans with (1 := RE). apply Rplus_le_compat; [apply Rmult_le_compat_l; lra|].
    apply Rle_trans with (/ 1024 * bp (-53) * (bp (-100) * bp (-100)))%R; [change (/ 1024)%R with (bp (-10)); rewrite <- !bpow_plus; apply bpow_le; lia|].
    apply Rmult_le_compat; [apply Rmult_le_pos; [lra|apply bpow_ge_0]|rewrite <- bpow_plus; apply bpow_ge_0| |apply Rmult_le_compat; try apply bpow_ge_0; lra].
    apply Rmult_le_compat; [lra|apply bpow_ge_0|lra|]. destruct rm; apply bpow_le; vm_compute; congruence. }
  exists (B + X)%R. cbv zeta.
  assert (ERR : (Rabs (B + X - (A0 - M * M / 2 + X)) <= u * (17 / 10 * (M * M) + 12 * (M * M * M)))%R).
  { replace (B + X - (A0 - M * M / 2 + X))%R with ((B - (A - H)) + (A - A0) - (H - M * M / 2))%R by ring. apply Rabs_le_inv in EA', EH, EB. apply Rabs_le. lra. }
  split; [exact ERR|].
  assert (VB : (M / 2 <= Rabs (B + X) <= 1)%R).
  { assert (T : (Rabs (B + X - X) <= 42 / 100 * M)%R). { replace (B + X - X)%R with ((B + X - (A0 - M * M / 2 + X)) + A0 - M * M / 2)%R by ring. apply Rabs_le_inv in ERR, AB. apply Rabs_le. lra. }
    split.
    - assert (M <= Rabs (B + X) + Rabs (B + X - X))%R; [|lra]. unfold M. replace X with ((B + X) + - (B + X - X))%R at 1 by ring. eapply Rle_trans; [apply Rabs_triang|]. rewrite Rabs_Ropp. lra.
    - replace (B + X)%R with (X + (B + X - X))%R by ring. eapply Rle_trans; [apply Rabs_triang|]. fold M. lra. }
  assert (HM : (bp (-101) <= M / 2)%R) by (change (bp (-101)) with (bp (-100 + -1)); rewrite bpow_plus; change (bp (-1)) with (/ 2)%R; lra).
  split; [lra|].
  assert (B101 : (0 < bp (-101))%R) by apply bpow_gt_0. assert (NZ : (B + X <> 0)%R) by (intros C; rewrite C, Rabs_R0 in VB; lra).
  assert (NV : (Rabs (fround D rm (B + X)) < bp (bias D + 1))%R) by (apply (bound_big rm _ 1); [lia|change (bp 1) with 2%R; lra]).
  pose proof (add_r D good64 rm _ _ _ _ RB Hf NV) as RY. match type of RY with is_real _ ?t _ => set (y := t) in * end.
  assert (RD : rounded D rm (B + X) zs y).
  { destruct RB as (Pb & Fb & Vb). destruct Hf as (Pf & Ff & Vf). eapply rounded_sgn; [|exact NZ]. rewrite <- Vb, <- Vf at 1. apply (f_add_spec D good64); auto. }
  pose proof (add_zero _ _ _ RY (zero_mul hi HI Hhi)) as RF.
  assert (FN : fround D rm (B + X) <> 0%R).
  { pose proof (rel_n D good64 ltac:(vm_compute; congruence) rm (B + X)) as RN. change (emin D + prec D - 1) with (-1022) in RN. assert (bp (-1022) <= Rabs (B + X))%R. { apply Rle_trans with (bp (-101)); [apply bpow_le; lia|lra]. }
    specialize (RN H0). intros C. rewrite C, Rminus_0_l, Rabs_Ropp in RN. assert (u * Rabs (B + X) <= / 2 * Rabs (B + X))%R by (apply Rmult_le_compat_r; lra). lra. }
  change (log1p_kernel odd even hi lo rm f (f_zero D false) (f_of_Z D rm 0)) with (f_add D rm y (f_mul D rm (f_of_Z D rm 0) hi)).
  rewrite (real_unique _ _ _ RF RY FN). split; [exact RD|exact RY].
Qed.
Lemma rnd1 : forall z K, (Rabs z <= K)%R -> (K <= 2)%R -> (Rabs (fround D rm z - z) <= u * (K + / 1000))%R /\ (Rabs (fround D rm z) < bp (bias D + 1))%R.
Proof.
  intros z K H HK. pose proof (uD' rm) as U. split; [|apply (bound_big rm z 1); [lia|change (bp 1) with 2%R; lra]].
  pose proof (rel_e D good64 ltac:(vm_compute; congruence) rm z) as RE. pose proof (eta_le D ltac:(vm_compute; congruence) ltac:(vm_compute; congruence) rm) as EL.
  assert (u * Rabs z <= u * K)%R by (apply Rmult_le_compat_l; lra). lra.
Qed.
(** With the reduction k = 1. *)
Lemma kernel1 : forall f c X C hi lo HI LO zs, is_real D f X -> is_real D c C -> is_real D hi HI -> is_real D lo LO -> (- 2929 / 10000 <= X <= - 2928 / 10000)%R ->
  (Rabs C <= / 1000000)%R -> (Rabs LO <= / 1000000)%R -> (69 / 100 <= HI <= 70 / 100)%R ->
  exists v, (Rabs (v - (Gx O E X + LO + C + HI)) <= 2 * u)%R /\ (1 / 10 <= v <= 1)%R /\
    let r := log1p_kernel odd even hi lo rm f c (f_of_Z D rm 1) in rounded D rm v zs r /\ is_real D r (fround D rm v).
Proof.
  intros f c X C hi lo HI LO zs Hf Hc Hhi Hlo HB HC HL HH.
  assert (MX : Rabs X = (- X)%R) by (apply Rabs_left; lra).
  assert (HX : (bp (-100) <= Rabs X)%R). { rewrite MX. apply Rle_trans with (bp (-2)); [apply bpow_le; lia|change (bp (-2)) with (/ 4)%R; lra]. }
  destruct (front f X Hf HX ltac:(lra)) as (A & H & RA & RH & EA & EH). destruct (A0_b X ltac:(lra)) as [RB AB].
  pose proof (uD' rm) as U. unfold Gx. set (A0 := (sx X * (X * X / 2 + Rz O E (sx X * sx X)))%R) in *. clearbody A0. clear RB. rewrite MX in *.
  assert (X2 : (85 / 1000 <= X * X <= 86 / 1000)%R) by (split; interval with (i_prec 50)).
  assert (X3 : (- X * - X * - X <= 253 / 10000)%R) by interval with (i_prec 50).
  unfold rel in EH, EA. rewrite (Rabs_pos_eq (X * X / 2)) in EH by lra.
  assert (EA' : (Rabs (A - A0) <= 0.3 * u)%R). { apply Rle_trans with (1 := EA). apply Rle_trans with (18.6 * u * (152 / 10000))%R; [apply Rmult_le_compat_l; lra|lra]. }
  assert (EH' : (Rabs (H - X * X / 2) <= 0.1 * u)%R). { apply Rle_trans with (1 := EH). apply Rle_trans with (2.1 * u * (43 / 1000))%R; [apply Rmult_le_compat_l; lra|lra]. }
  apply Rabs_le_inv in EA', EH', AB, HC, HL.
  (* the sums *)
  pose proof (ofz_r D good64 rm 1 ltac:(vm_compute; congruence)) as K1.
  assert (RL : is_real D (f_mul D rm (f_of_Z D rm 1) lo) LO). { apply (mul_x D good64 rm _ _ _ _ LO K1 Hlo); [ring|exact (real_fmt D good64 _ _ Hlo)|]. destruct Hlo as (_ & Fi & <-). apply (fin_bound D good64); auto. }
  assert (RHI : is_real D (f_mul D rm (f_of_Z D rm 1) hi) HI). { apply (mul_x D good64 rm _ _ _ _ HI K1 Hhi); [ring|exact (real_fmt D good64 _ _ Hhi)|]. destruct Hhi as (_ & Fi & <-). apply (fin_bound D good64); auto. }
  destruct (rnd1 (LO + C) (/ 100000)) as [E1 N1]; [apply Rabs_le; lra|lra|]. pose proof (add_r D good64 rm _ _ _ _ RL Hc N1) as R1. set (L := fround D rm (LO + C)) in *. apply Rabs_le_inv in E1.
  destruct (rnd1 (A + L) (17 / 1000)) as [E2 N2]; [apply Rabs_le; lra|lra|]. pose proof (add_r D good64 rm _ _ _ _ RA R1 N2) as R2. set (A1 := fround D rm (A + L)) in *. apply Rabs_le_inv in E2.
  destruct (rnd1 (A1 - H) (7 / 100)) as [E3 N3]; [apply Rabs_le; lra|lra|]. pose proof (sub_r D good64 rm _ _ _ _ R2 RH N3) as R3. set (B := fround D rm (A1 - H)) in *. apply Rabs_le_inv in E3.
  destruct (rnd1 (B + X) (4 / 10)) as [E4 N4]; [apply Rabs_le; lra|lra|]. pose proof (add_r D good64 rm _ _ _ _ R3 Hf N4) as R4. set (Y := fround D rm (B + X)) in *. apply Rabs_le_inv in E4.
  exists (Y + HI)%R. assert (VB : (1 / 10 <= Y + HI <= 1)%R) by lra. split; [apply Rabs_le; lra|]. split; [exact VB|]. cbv zeta.
  destruct (rnd1 (Y + HI) 1) as [_ N5]; [apply Rabs_le; lra|lra|]. pose proof (add_r D good64 rm _ _ _ _ R4 RHI N5) as R5. split; [|exact R5].
  destruct R4 as (Pb & Fb & Vb). destruct RHI as (Pf & Ff & Vf). eapply rounded_sgn; [|lra].
  match goal with |- rounded _ _ _ _ ?t => match type of R5 with is_real _ ?q _ => change t with q end end.
  rewrite <- Vb, <- Vf at 1. apply (f_add_spec D good64); auto.
Unshelve. all: exact false.
Qed.
End Front.
