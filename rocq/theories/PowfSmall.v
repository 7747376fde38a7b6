(** * powf: small integer exponents *)
From Coq Require Import ZArith Lia Reals Lra List Bool.
From Flocq Require Import Core Mult_error.
From Interval Require Import Tactic.
From Verif Require Import MachInt Bits Fmt FloatSpec RoundProofs FmtProofs ExtFloatSpec FOps FOpsProofs ExactOps RemProofs FmanipWide ErrLib LogfNum ExtInterp Expm1Proofs Exp2fProofs ExtFloatProofs Eft EftProofs NearestProofs SinRedF ExpoData ExpoF ExpoFWrap PowfData Powf PowfSpecial PowfTab PowfNum PowfDD PowfRed PowfFast PowfScale PowfPat PowfSlow PowfExp PowfKer PowfAcc.
Import ListNotations.
Open Scope Z_scope.

Definition bigp (a : Z) (s : bool) : Prop := a = f_inf D s \/ (is_fin D a = true /\ is_pattern D a /\ sign_of D a = s /\ (bp 299 <= Rabs (fval D a))%R).
Definition tinyp (a : Z) (s : bool) : Prop := is_fin D a = true /\ is_pattern D a /\ sign_of D a = s /\ (Rabs (fval D a) <= bp (-299))%R.

Lemma mul_inf : forall x s, is_fin D x = true -> fval D x <> 0%R -> f_mul D RNE (f_inf D s) x = f_inf D (xorb s (sign_of D x)).
Proof.
  intros x s Fx NZ. assert (M : mag_of D x <> 0) by (intros E; apply (fval_zero D good64 x Fx) in E; lra). pose proof (mag_range D good64 x) as MR. unfold f_mul. replace (decode D (f_inf D s)) with (DInf s) by (destruct s; vm_compute; reflexivity).
  unfold decode. unfold is_fin in Fx. rewrite Fx.
  destruct (Z.eqb_spec (sig_of D (mag_of D x)) 0) as [E|E]; [exfalso|reflexivity].
  apply NZ. assert (A : Rabs (fval D x) = 0%R) by (rewrite (Rabs_fval D good64) by exact Fx; unfold mval; rewrite E; ring). apply Rabs_eq_R0. exact A.
Qed.
Lemma rb_mul : forall a b, a <> 0%R -> b <> 0%R -> Rlt_bool (a * b) 0 = xorb (Rlt_bool a 0) (Rlt_bool b 0).
Proof. intros a b A B. destruct (Rlt_bool_spec a 0), (Rlt_bool_spec b 0); cbn [xorb]; [apply Rlt_bool_false; nra|apply Rlt_bool_true|apply Rlt_bool_true|apply Rlt_bool_false]; nra. Qed.

Lemma big_step : forall a x s X, bigp a s -> is_real D x X -> (1 < Rabs X)%R -> bigp (f_mul D RNE a x) (xorb s (Rlt_bool X 0)).
Proof.
  intros a x s X HA (Px & Fx & Vx) HX. assert (XN : X <> 0%R) by (intros ->; rewrite Rabs_R0 in HX; lra). assert (XN' : fval D x <> 0%R) by (rewrite Vx; exact XN).
  pose proof (sign_fval D good64 x Fx XN') as SX. rewrite Vx in SX.
  destruct HA as [->|(Fa & Pa & Sa & Ba)]; [left; rewrite (mul_inf x s Fx XN'), SX; reflexivity|].
  pose proof (bpow_gt_0 radix2 299) as BP. assert (AN : fval D a <> 0%R) by (intros E; rewrite E, Rabs_R0 in Ba; lra). pose proof (sign_fval D good64 a Fa AN) as SA.
  destruct (f_mul_spec D good64 RNE a x Fa Fx) as (P & S & M1 & M2). rewrite Vx in *. set (W := (fval D a * X)%R) in *. assert (WN : W <> 0%R) by (apply Rmult_integral_contrapositive; auto).
  rewrite Req_bool_false in S by exact WN. rewrite <- Sa, SA, <- rb_mul by auto. fold W.
  assert (WB : (bp 299 <= Rabs W)%R) by (unfold W; rewrite Rabs_mult; nra).
  assert (RB : (bp 299 <= Rabs (fround D RNE W))%R) by (pose proof (VE D good64) as VE'; apply (abs_round_ge_generic radix2 (FLT_exp (emin D) (prec D)) ZnearestE); [|exact WB]; apply generic_format_FLT_bpow; [reflexivity|vm_compute; congruence]).
  destruct (Rlt_or_le (Rabs (fround D RNE W)) (bp (bias D + 1))) as [C|C].
  - right. destruct (M1 C) as (F1 & V1). repeat split; auto; try apply P. rewrite V1. exact RB.
  - left. specialize (M2 C). rewrite (pattern_split D good64 _ P), S, M2. reflexivity.
Qed.
Lemma tiny_step : forall a x s X, tinyp a s -> is_real D x X -> X <> 0%R -> (Rabs X < 1)%R -> tinyp (f_mul D RNE a x) (xorb s (Rlt_bool X 0)).
Proof.
  intros a x s X (Fa & Pa & Sa & Ba) (Px & Fx & Vx) XN HX. assert (XN' : fval D x <> 0%R) by (rewrite Vx; exact XN). pose proof (sign_fval D good64 x Fx XN') as SX. rewrite Vx in SX.
  destruct (f_mul_spec D good64 RNE a x Fa Fx) as (P & S & M1 & _). rewrite Vx in *. rewrite Sa, SX in S. set (W := (fval D a * X)%R) in *.
  assert (WB : (Rabs W <= bp (-299))%R) by (unfold W; rewrite Rabs_mult; pose proof (Rabs_pos X); pose proof (Rabs_pos (fval D a)); nra).
  assert (RB : (Rabs (fround D RNE W) <= bp (-299))%R) by (apply (fround_abs_le D good64); [apply generic_format_FLT_bpow; [reflexivity|vm_compute; congruence]|exact WB]).
  destruct M1 as (F1 & V1). { eapply Rle_lt_trans; [exact RB|]. apply bpow_lt. vm_compute; reflexivity. }
  split; [exact F1|]. split; [exact P|]. split; [|rewrite V1; exact RB]. rewrite S. destruct (Req_bool_spec W 0) as [E|E]; [reflexivity|].
  assert (AN : fval D a <> 0%R) by (intros C; apply E; unfold W; rewrite C; ring). rewrite <- Sa, (sign_fval D good64 a Fa AN). apply rb_mul; auto.
Qed.

(** After k factors: close to X^k, or beyond the range of the result. *)
Definition st (X : R) (k : nat) (a : Z) : Prop :=
  (exists A, is_real D a A /\ (Rabs (A - X ^ k) <= INR k * (4 * v) * Rabs (X ^ k))%R /\ (bp (-400) <= Rabs (X ^ k) <= bp 400)%R) \/
  ((1 < Rabs X)%R /\ (bp 300 <= Rabs (X ^ k))%R /\ bigp a (Rlt_bool (X ^ k) 0)) \/
  ((Rabs X < 1)%R /\ (Rabs (X ^ k) <= bp (-300))%R /\ tinyp a (Rlt_bool (X ^ k) 0)).

Lemma st_step : forall X k a x, is_real D x X -> (bp (-149) <= Rabs X <= bp 128)%R -> (1 <= k <= 30)%nat -> st X k a -> st X (S k) (f_mul D RNE a x).
Proof.
  intros X k a x Hx XB KB H. pose proof (bpow_gt_0 radix2 (-149)) as B0. assert (XN : X <> 0%R) by (intros ->; rewrite Rabs_R0 in XB; lra). assert (KN : (X ^ k <> 0)%R) by (apply pow_nonzero; exact XN).
  assert (ES : (X ^ S k = X ^ k * X)%R) by (simpl; ring). unfold st in *. rewrite ES. set (T := (X ^ k)%R) in *.
  destruct H as [(A & RA & EA & RT)|[(X1 & BT & HB)|(X1 & BT & HB)]].
  - assert (K30 : (0 <= INR k <= 30)%R) by (split; [apply pos_INR|]; replace 30%R with (INR 30) by (simpl; lra); apply le_INR; lia). rewrite S_INR. set (K := INR k) in *. pose proof v_pos as VP.
    assert (VV : (v <= / 1000000000000)%R) by (unfold v; bpn; lra). assert (T0 : (0 < Rabs T)%R) by (apply Rabs_pos_lt; exact KN). assert (X0 : (0 < Rabs X)%R) by (apply Rabs_pos_lt; exact XN).
    assert (E1 : (K * (4 * v) <= / 1000)%R) by (apply Rle_trans with (30 * (4 * v))%R; [apply Rmult_le_compat_r; lra|lra]).
    assert (AB : (Rabs A <= 1.1 * Rabs T)%R) by (apply Rle_trans with (K * (4 * v) * Rabs T + Rabs T)%R; [replace A with ((A - T) + T)%R by ring; eapply Rle_trans; [apply Rabs_triang|]; lra|assert (K * (4 * v) * Rabs T <= / 1000 * Rabs T)%R by (apply Rmult_le_compat_r; lra); lra]).
    set (P := (Rabs T * Rabs X)%R). assert (P0 : (0 < P)%R) by (apply Rmult_lt_0_compat; auto). assert (TX : Rabs (T * X) = P) by (unfold P; apply Rabs_mult).
    assert (PB : (bp (-549) <= P <= bp 528)%R) by (unfold P; change (-549) with (-400 + -149); change 528 with (400 + 128); rewrite !bpow_plus; split; apply Rmult_le_compat; try apply bpow_ge_0; lra).
    assert (AX : (Rabs (A * X) <= 1.1 * P)%R) by (rewrite Rabs_mult; unfold P; rewrite <- Rmult_assoc; apply Rmult_le_compat_r; lra).
    destruct (mul_g RNE a x A X (1.1 * P) RA Hx AX) as (V & RV & EV).
    { split; [apply Rle_trans with (bp (-549)); [apply bpow_le; lia|lra]|apply Rle_trans with (bp 529); [replace (bp 529) with (2 * bp 528)%R by (change 2%R with (bp 1) at 1; rewrite <- bpow_plus; reflexivity); lra|apply bpow_le; lia]]. }
    assert (EE : (Rabs (V - T * X) <= (K + 1) * (4 * v) * P)%R).
    { replace (V - T * X)%R with ((V - A * X) + (A - T) * X)%R by ring. eapply Rle_trans; [apply Rabs_triang|]. rewrite (Rabs_mult (A - T)). assert (Rabs (A - T) * Rabs X <= K * (4 * v) * P)%R by (unfold P; rewrite <- Rmult_assoc; apply Rmult_le_compat_r; lra). assert (0 < v * P)%R by (apply Rmult_lt_0_compat; lra). lra. }
    assert (E2 : (Rabs (V - T * X) <= / 100 * P)%R) by (eapply Rle_trans; [exact EE|]; apply Rmult_le_compat_r; [lra|]; apply Rle_trans with (31 * (4 * v))%R; [apply Rmult_le_compat_r; lra|lra]).
    assert (TN : (T * X <> 0)%R) by (apply Rmult_integral_contrapositive; auto). pose proof RV as (PV & FV & VV').
    assert (SV : sign_of D (f_mul D RNE a x) = Rlt_bool (T * X) 0). { apply Rabs_le_inv in E2. assert (VN : V <> 0%R) by (intros ->; unfold Rabs in TX; destruct (Rcase_abs (T * X)); lra). rewrite (sign_fval D good64 _ FV) by (rewrite VV'; exact VN). rewrite VV'. unfold Rabs in TX. destruct (Rcase_abs (T * X)); [rewrite !Rlt_bool_true by lra|rewrite !Rlt_bool_false by lra]; reflexivity. }
    assert (AV : (0.9 * P <= Rabs V <= 1.1 * P)%R). { rewrite <- TX in E2 |- *. split. - pose proof (Rabs_triang_inv (T * X) (T * X - V)) as TI. replace (T * X - (T * X - V))%R with V in TI by ring. rewrite (Rabs_minus_sym (T * X) V) in TI. lra. - replace V with ((V - T * X) + T * X)%R by ring. eapply Rle_trans; [apply Rabs_triang|lra]. }
    rewrite TX. assert (TP1 : (Rabs T <= bp 400)%R) by lra.
    destruct (Rle_or_lt P (bp 400)) as [C1|C1]; [destruct (Rle_or_lt (bp (-400)) P) as [C2|C2]|].
    + left. exists V. split; [exact RV|]. split; [exact EE|lra].
    + right; right. split; [|split; [apply Rle_trans with (bp (-400)); [lra|apply bpow_le; lia]|]].
      * apply Rnot_le_lt. intros C. assert (Rabs T * 1 <= P)%R by (unfold P; apply Rmult_le_compat_l; lra). lra.
      * repeat split; auto; try apply PV. rewrite VV'. apply Rle_trans with (bp (-399)); [replace (bp (-399)) with (2 * bp (-400))%R by (change 2%R with (bp 1) at 1; rewrite <- bpow_plus; reflexivity); lra|apply bpow_le; lia].
    + right; left. split; [|split; [apply Rle_trans with (bp 400); [apply bpow_le; lia|lra]|]].
      * apply Rnot_le_lt. intros C. assert (P <= Rabs T * 1)%R by (unfold P; apply Rmult_le_compat_l; lra). lra.
      * right. repeat split; auto; try apply PV. rewrite VV'. apply Rle_trans with (bp 399); [apply bpow_le; lia|replace (bp 400) with (2 * bp 399)%R in C1 by (change 2%R with (bp 1) at 1; rewrite <- bpow_plus; reflexivity); lra].
  - right; left. split; [exact X1|]. split; [rewrite Rabs_mult; pose proof (bpow_gt_0 radix2 300); nra|]. rewrite rb_mul by auto. apply big_step; auto.
  - right; right. split; [exact X1|]. split; [rewrite Rabs_mult; pose proof (Rabs_pos T); pose proof (Rabs_pos X); nra|]. rewrite rb_mul by auto. apply tiny_step; auto.
Qed.
Lemma st_loop : forall X x, is_real D x X -> (bp (-149) <= Rabs X <= bp 128)%R -> forall n k a, (1 <= k)%nat -> (k + n <= 30)%nat -> st X k a -> st X (k + n) (pf_loop n RNE x a).
Proof.
  intros X x Hx XB. induction n as [|n IH]; intros k a K1 K2 H; cbn [pf_loop]; [rewrite Nat.add_0_r; exact H|]. replace (k + S n)%nat with (S k + n)%nat by lia. apply IH; [lia|lia|]. apply st_step; auto. lia.
Qed.


Lemma small_low : forall n y, 3 <= n <= 24 -> 0 <= y -> mval S32 y = IZR n -> Z.land y 0x7ffff = 0.
Proof.
  intros n y NB Y0 MV.
  assert (C : n = 3 \/ n = 4 \/ n = 5 \/ n = 6 \/ n = 7 \/ n = 8 \/ n = 9 \/ n = 10 \/ n = 11 \/ n = 12 \/ n = 13 \/ n = 14 \/ n = 15 \/ n = 16 \/ n = 17 \/ n = 18 \/ n = 19 \/ n = 20 \/ n = 21 \/ n = 22 \/ n = 23 \/ n = 24) by lia. clear NB.
  repeat (destruct C as [C|C]; [subst n|]); [..|subst n];
  match type of MV with _ = IZR ?n => let p := eval vm_compute in (round_int S32 RNE false n 0) in let m := eval vm_compute in (sig_of S32 p) in let e := eval vm_compute in (exp_of S32 p) in
    assert (E : y = p) by (apply (mval_inj S32 good32); [lia|lia|]; rewrite MV; change (mval S32 p) with (IZR m * bp e)%R; bpn; lra); rewrite E; reflexivity end.
Qed.
Lemma odd_pow : forall X n, X <> 0%R -> Rlt_bool (X ^ n) 0 = Rlt_bool X 0 && Nat.odd n.
Proof.
  intros X n XN. induction n as [|n IH]; [simpl; rewrite andb_false_r; apply Rlt_bool_false; lra|]. change (X ^ S n)%R with (X * X ^ n)%R. rewrite rb_mul by (auto; apply pow_nonzero; exact XN). rewrite IH, Nat.odd_succ, <- Nat.negb_odd. destruct (Rlt_bool X 0), (Nat.odd n); reflexivity.
Qed.
Lemma st_fin : forall X n a, (1 <= n <= 30)%nat -> X <> 0%R -> st X n a -> exists W, rounded S32 RNE W false (f_cast D S32 RNE a) /\ (Rabs (W - X ^ n) <= bp (-28) * Rabs (X ^ n))%R.
Proof.
  intros X n a NB XN H. assert (KN : (X ^ n <> 0)%R) by (apply pow_nonzero; exact XN). unfold st in H. set (T := (X ^ n)%R) in *. assert (T0 : (0 < Rabs T)%R) by (apply Rabs_pos_lt; exact KN).
  assert (EX : (Rabs (T - T) <= bp (-28) * Rabs T)%R) by (rewrite Rminus_diag_eq, Rabs_R0 by reflexivity; apply Rmult_le_pos; [apply bpow_ge_0|lra]).
  destruct H as [(A & RA & EA & RT)|[(_ & BT & HB)|(_ & BT & HB)]].
  - assert (K30 : (0 <= INR n <= 30)%R) by (split; [apply pos_INR|]; replace 30%R with (INR 30) by (simpl; lra); apply le_INR; lia).
    assert (E : (Rabs (A - T) <= bp (-28) * Rabs T)%R). { eapply Rle_trans; [exact EA|]. apply Rmult_le_compat_r; [lra|]. pose proof v_pos. apply Rle_trans with (30 * (4 * v))%R; [apply Rmult_le_compat_r; lra|]. unfold v; bpn; lra. }
    exists A. split; [|exact E]. apply narrow_s; [exact RA|]. intros ->. rewrite Rminus_0_l, Rabs_Ropp in E. assert (bp (-28) < 1)%R by (bpn; lra). nra.
  - exists T. split; [|exact EX]. assert (B1 : (bp 130 <= bp 299)%R) by (apply bpow_le; lia). assert (B2 : (bp 299 <= bp 300)%R) by (apply bpow_le; lia). apply big_rounded; [lra|]. destruct HB as [->|(Fa & Pa & Sa & Ba)]; [exact (sp_cast' RNE true _)|].
    pose proof (bpow_gt_0 radix2 130). assert (AN : fval D a <> 0%R) by (intros E; rewrite E, Rabs_R0 in Ba; lra). pose proof (sign_fval D good64 a Fa AN) as SA. rewrite <- Sa, SA. apply (big_rounded (fval D a) false); [lra|]. apply narrow_s; [split; auto|exact AN].
  - exists T. split; [|exact EX]. assert (B1 : (bp (-299) < bp (-150))%R) by (apply bpow_lt; lia). assert (B2 : (bp (-300) <= bp (-299))%R) by (apply bpow_le; lia). apply tiny_rounded; [lra|]. destruct HB as (Fa & Pa & Sa & Ba).
    destruct (Req_dec (fval D a) 0) as [Z0|AN].
    + apply (fval_zero D good64 a Fa) in Z0. replace a with (f_zero D (Rlt_bool T 0)); [exact (sp_cast' RNE false _)|]. rewrite (pattern_split D good64 a Pa), Z0, Sa. unfold f_zero. ring.
    + pose proof (sign_fval D good64 a Fa AN) as SA. rewrite <- Sa, SA. apply (tiny_rounded (fval D a) false); [split; [apply Rabs_pos_lt; exact AN|lra]|]. apply narrow_s; [split; auto|exact AN].
Qed.

Theorem powf_small : forall ct dm x y X n, is_real S32 x X -> is_real S32 y (IZR n) -> X <> 0%R -> 3 <= n <= 24 ->
  exists r W, powf false ct dm RNE x y = Some r /\ rounded S32 RNE W false r /\ (Rabs (W - X ^ Z.to_nat n) <= bp (-28) * Rabs (X ^ Z.to_nat n))%R.
Proof.
  intros ct dm x y X n Hx Hy XN NB. pose proof Hx as (Px & Fx & Vx). pose proof Hy as (Py & Fy & Vy).
  assert (YN : IZR n <> 0%R) by (apply not_0_IZR; lia). assert (NY : fval S32 y <> 0%R) by (rewrite Vy; exact YN).
  assert (NE : forall p c, fval S32 p = IZR c -> c < 3 -> y <> p) by (intros p c E C ->; rewrite Vy in E; apply eq_IZR in E; lia).
  assert (Y2 : y <> 0x40000000) by (apply (NE _ 2); [fvalof S32 0x40000000; bpn; lra|lia]). assert (Y1 : y <> 0x3f800000) by (apply (NE _ 1); [fvalof S32 0x3f800000; bpn; lra|lia]).
  assert (YH : y <> 0x3f000000). { intros ->. assert (E : fval S32 0x3f000000 = (/ 2)%R) by (fvalof S32 0x3f000000; bpn; lra). rewrite E in Vy. assert (3 <= IZR n)%R by (apply IZR_le; lia). lra. }
  assert (YB : 0x40000000 < y <= 0x41c00000).
  { assert (SY : sign_of S32 y = false) by (rewrite (sign_fval S32 good32 y Fy NY), Vy; apply Rlt_bool_false; apply IZR_le; lia).
    assert (MY : mag_of S32 y = y) by (rewrite (pattern_split S32 good32 y Py) at 2; rewrite SY; unfold sbit; ring).
    assert (MV : mval S32 y = IZR n). { rewrite <- Vy. rewrite <- MY at 1. rewrite <- (Rabs_fval S32 good32) by auto. apply Rabs_pos_eq. rewrite Vy. apply IZR_le; lia. }
    pose proof (mag_range S32 good32 y) as MR. rewrite MY in MR. split.
    - apply (mval_lt S32 good32); [lia|lia|]. rewrite MV. unfold mval. cval (sig_of S32 0x40000000). cval (exp_of S32 0x40000000). assert (3 <= IZR n)%R by (apply IZR_le; lia). bpn; lra.
    - apply (mval_le S32 good32); [lia|lia|]. rewrite MV. unfold mval. cval (sig_of S32 0x41c00000). cval (exp_of S32 0x41c00000). assert (IZR n <= 24)%R by (apply IZR_le; lia). bpn; lra. }
  destruct (pf_tests y Py Fy NY) as ((i & Ei & Hi) & (o & Eo & Ho)). rewrite Vy in Hi, Ho. assert (i = true) by (apply Hi; exists n; reflexivity). subst i.
  assert (TI : f_to_int S32 64 y = Some n) by (apply (to_int_w S32 64 y n good32 Py Fy Vy); unfold inS; lia).
  assert (ODD : o = Nat.odd (Z.to_nat n)).
  { assert (OZ : Nat.odd (Z.to_nat n) = Z.odd n) by (rewrite <- (Z2Nat.id n) at 2 by lia; generalize (Z.to_nat n); clear; intros m; induction m as [|m IH]; [reflexivity|]; rewrite Nat.odd_succ, <- Nat.negb_odd, IH, Nat2Z.inj_succ, Z.odd_succ, <- Z.negb_odd; reflexivity).
    rewrite OZ. destruct (Z.odd n) eqn:E.
    - apply Ho. apply Z.odd_spec in E. destruct E as (m & ->). exists m. reflexivity.
    - destruct o; auto. exfalso. destruct (proj1 Ho eq_refl) as (m & Em). apply eq_IZR in Em. rewrite Em, Z.add_comm, Z.odd_add_mul_2 in E. discriminate. }
  destruct (small_some RNE x y Px Py) as (sm & ESM). destruct sm as [r|].
  - assert (EV : r = f_cast D S32 RNE (pf_loop (Z.to_nat (n - 1)) RNE (f_cast S32 D RNE x) (f_cast S32 D RNE x))).
    { revert ESM. unfold pf_small. rewrite Ei, TI. cbn [bindo]. destruct (_ && _); [|discriminate]. destruct (countl_zero _ _); cbn [bindo]; [|discriminate]. destruct (countr_zero _ _); cbn [bindo]; [|discriminate]. cbv zeta. destruct (_ <=? 25); [|discriminate]. intros E. apply some_inj in E. apply some_inj in E. symmetry. exact E. }
    assert (XF : mag_of S32 x < 0x7f800000) by (apply Z.ltb_lt; exact Fx). pose proof (mag_range S32 good32 x) as MR. assert (XZ : mag_of S32 x <> 0) by (intros E; apply (fval_zero S32 good32 x Fx) in E; lra).
    assert (XU : (Rabs X < bp 128)%R) by (rewrite <- Vx, (Rabs_fval S32 good32) by auto; exact (proj1 (mval_lt_inf S32 good32 _ (proj1 MR)) XF)).
    assert (XL : (bp (-149) <= Rabs X)%R). { rewrite <- Vx, (Rabs_fval S32 good32) by auto. replace (bp (-149)) with (mval S32 1). { apply (mval_le S32 good32); lia. } unfold mval. cval (sig_of S32 1). cval (exp_of S32 1). ring. }
    assert (S1 : st X 1 (f_cast S32 D RNE x)). { left. exists X. split; [apply widen; exact Hx|]. rewrite pow_1. split; [rewrite Rminus_diag_eq, Rabs_R0 by reflexivity; pose proof v_pos; pose proof (Rabs_pos X); simpl; nra|]. split; [apply Rle_trans with (bp (-149)); [apply bpow_le; lia|lra]|apply Rle_trans with (bp 128); [lra|apply bpow_le; lia]]. }
    pose proof (st_loop X _ (widen RNE x X Hx) ltac:(lra) (Z.to_nat (n - 1)) 1 _ ltac:(lia) ltac:(lia) S1) as SN. replace (1 + Z.to_nat (n - 1))%nat with (Z.to_nat n) in SN by lia.
    destruct (st_fin X (Z.to_nat n) _ ltac:(lia) XN SN) as (W & RW & EW). exists r, W. rewrite EV. split; [|split; [exact RW|exact EW]]. rewrite <- EV.
    unfold powf, pf_exceptional. replace (pf_exc_y dm RNE x y) with (@Some (Z + Z) (inl r)); [reflexivity|].
    unfold pf_exc_y. rewrite ESM. cbn [bindo]. change (f_zero S32 false) with 0. rewrite (f_eq_zero S32 good32 y).
    assert (MN : mag_of S32 y <> 0) by (intros E; apply (fval_zero S32 good32 y Fy) in E; lra). assert (MF : mag_of S32 y < 0x7f800000) by (apply Z.ltb_lt; exact Fy).
    apply Z.eqb_neq in MN, YH, Y1, Y2. rewrite MN, YH, Y1, Y2. destruct (Z.eqb_spec (mag_of S32 y) 0x7f800000); [lia|].
    replace (Z.land (mag_of S32 y) 0x7ffff =? 0) with true; [reflexivity|].
    symmetry. apply Z.eqb_eq. apply (small_low n); [exact NB|apply (mag_range S32 good32 y)|]. rewrite <- (Rabs_fval S32 good32) by auto. rewrite Vy. apply Rabs_pos_eq. apply IZR_le; lia.
  - assert (NS : forall a c d, mag_of S32 x = a -> (a =? 0) = false -> countl_zero 32 a = Some c -> countr_zero 32 a = Some d -> ((30 - (if 23 <? d then 23 else d) - (if 8 <? c then c else 8)) <= 1) -> False).
    { intros a c d EA Ez EC ED LE. revert ESM. unfold pf_small. rewrite Ei, TI, EA. cbn [bindo andb]. destruct (Z.ltb_spec 0x40000000 y); [|lia]. destruct (Z.leb_spec y 0x41c00000); [|lia]. cbn [andb]. rewrite EC, ED, Ez. cbn [bindo].
      set (e := 30 - (if 23 <? d then 23 else d) - (if 8 <? c then c else 8)) in *. cbv zeta. fold e. assert (T : (e * n <=? 25) = true) by (apply Z.leb_le; nia). rewrite T. discriminate. }
    assert (X1 : mag_of S32 x <> 0x3f800000) by (intros E; apply (NS _ 2 23 E); vm_compute; congruence).
    assert (X2 : x <> 0x40000000) by (intros ->; apply (NS 0x40000000 1 30); vm_compute; congruence).
    assert (X3 : x <> 0x41200000) by (intros ->; apply (NS 0x41200000 1 21); vm_compute; congruence).
    destruct (powf_acc ct dm x y X (IZR n) o false Hx Hy XN YN X1 X2 X3 YH Y1 Y2 ESM) as (r & W & E & EW & HR). { right. exists n. reflexivity. } { exact Ho. }
    assert (PX : (0 < Rabs X)%R) by (apply Rabs_pos_lt; exact XN).
    assert (EP : Rpower (Rabs X) (IZR n) = Rabs (X ^ Z.to_nat n)). { replace (IZR n) with (INR (Z.to_nat n)) by (rewrite INR_IZR_INZ, Z2Nat.id by lia; reflexivity). rewrite Rpower_pow by exact PX. apply RPow_abs. }
    rewrite EP in EW. exists r, W. split; [exact E|]. split; [exact HR|].
    replace (X ^ Z.to_nat n)%R with (pm (Rlt_bool X 0 && o) * Rabs (X ^ Z.to_nat n))%R at 1; [exact EW|].
    rewrite ODD, <- odd_pow by exact XN. destruct (Rlt_bool_spec (X ^ Z.to_nat n) 0) as [A|A]; unfold pm; [rewrite Rabs_left by exact A|rewrite Rabs_pos_eq by exact A]; ring.
Qed.
