(** * log1p(float) *)
From Coq Require Import ZArith Lia Bool Reals Lra List.
From Flocq Require Import Core.
From Interval Require Import Tactic.
From Verif Require Import MachInt Fmt FloatSpec FmtProofs RoundProofs FOps FOpsProofs ExactOps ExtFloatSpec ExtFloatProofs ExtInterp RemProofs FmanipWide ErrLib ExpoData LogDataD ExpoF LogD ExpM1 Log1p Exp2fProofs ExpoFWrap LogfNum LogRed LogfProofs LogfWrap SqrtProofs Expm1Proofs HypotProofs RelErr LogDRed LogDCore LogDWrap Log1pNum Log1pProofs Log1pWrap.
Import ListNotations.
Open Scope Z_scope.

Notation fA := (IZR 0x95f612 * bp (-25))%R.
Notation fB := (IZR 0xd41d08 * bp (-25))%R.
Notation fC := (IZR 0xd413d0 * bp (-25))%R.
Notation kernf rm f c k := (f_cast F64 F32 rm (log1p_kernel l1f_odd l1f_even l1f_ln2hi l1f_ln2lo rm f c (f_of_Z F64 rm k))).
Lemma lf_m1 : is_real F32 (f_one F32 true) (-1). Proof. realof F32 (f_one F32 true) H. replace (-1)%R with (-1 * IZR 8388608 * bp (-23))%R by (bpn; lra). exact H. Qed.
Lemma lf_max : is_real F32 (inf_mag F32 - 1) (bp (bias F32 + 1) - bp (bias F32 + 1 - prec F32)).
Proof.
  realof F32 (inf_mag F32 - 1) H. replace (bp (bias F32 + 1) - bp (bias F32 + 1 - prec F32))%R with (1 * IZR 16777215 * bp 104)%R; [exact H|].
  change (bias F32 + 1) with (24 + 104). change (24 + 104 - prec F32) with 104. rewrite bpow_plus. change (bp 24) with (IZR 16777216). lra.
Qed.

Lemma log1pf_cases : forall rm x X, is_real F32 x X -> (-1 < X)%R -> X <> 0%R ->
  ((X < - fA \/ fB < X)%R /\ log1pf_impl rm x = (let u := f_add F32 rm (litf 1 0) x in if f_eq F32 u (litf 1 0) then x else logf_impl rm u)) \/
  ((- fA <= X <= fB)%R /\ (Rabs X < bp (-24))%R /\ log1pf_impl rm x = x) \/
  ((- fA <= X < fC)%R /\ (bp (-24) <= Rabs X)%R /\ log1pf_impl rm x = kernf rm (f_cast F32 F64 rm x) (f_zero F64 false) 0) \/
  ((fC <= X <= fB)%R /\ forall f c k, log1pf_reduce rm x = (f, c, k) -> log1pf_impl rm x = kernf rm f c k).
Proof.
  intros rm x X Hx H1 N0. pose proof good32 as HF. pose proof (litf_r 0xd41d08 (-25) ltac:(lia) ltac:(lia)) as LB. pose proof (litf_r (-0x95f612) (-25) ltac:(lia) ltac:(lia)) as LA.
  replace (IZR (-0x95f612) * bp (-25))%R with (- fA)%R in LA by (bpn; lra).
  unfold log1pf_impl. set (red := log1pf_reduce rm x). destruct Hx as (Px & Fx & Vx). destruct LB as (PB & FB & VB). destruct LA as (PA & FA & VA).
  rewrite (f_gt_fin F32 HF), (f_lt_fin F32 HF), VB, VA, Vx by auto.
  destruct (Rlt_bool_spec fB X) as [L1|L1]; [left; split; [auto|reflexivity]|]. destruct (Rlt_bool_spec X (- fA)) as [L2|L2]; [left; split; [auto|reflexivity]|]. right. cbn [orb].
  assert (Hx : is_real F32 x X) by (split; auto). pose proof (mag_range F32 HF x) as MR. change (sign_unit F32) with (2 ^ 31) in MR.
  pose proof (mag_lt F32 x 0x33800000 X HF Hx ltac:(split; [lia|reflexivity])) as M1. pose proof (mag_lt F32 x 0x3ed413d0 X HF Hx ltac:(split; [lia|reflexivity])) as M2. pose proof (mag_lt F32 x 0x3e95f619 X HF Hx ltac:(split; [lia|reflexivity])) as M3.
  fvalof F32 0x33800000. fvalof F32 0x3ed413d0. fvalof F32 0x3e95f619.
  replace (1 * 8388608 * bp (-47))%R with (bp (-24)) in M1 by (bpn; lra).
  replace (1 * 13898704 * bp (-25))%R with fC in M2 by lra.
  pose proof (split_pat F32 HF x Px) as SP.
  assert (TS : (wrap 32 (Z.shiftl x 1) <? wrap 32 (Z.shiftl 0x33800000 1)) = (mag_of F32 x <? 0x33800000)).
  { rewrite !Z.shiftl_mul_pow2 by lia. change (wrap 32 (0x33800000 * 2 ^ 1)) with (2 * 0x33800000). assert (wrap 32 (x * 2 ^ 1) = 2 * mag_of F32 x).
    { unfold wrap. rewrite SP at 1. symmetry. unfold sbit. change (sign_unit F32) with (2 ^ 31). destruct (sign_of F32 x); [apply Z.mod_unique with 1; lia|apply Z.mod_unique with 0; lia]. }
    rewrite H. destruct (Z.ltb_spec (mag_of F32 x) 0x33800000); [apply Z.ltb_lt|apply Z.ltb_ge]; lia. }
  assert (SH : Z.shiftr x 31 = if sign_of F32 x then 1 else 0).
  { rewrite SP at 1. unfold sbit. change (sign_unit F32) with (2 ^ 31). rewrite Z.shiftr_div_pow2 by lia. destruct (sign_of F32 x); symmetry; [apply Z.div_unique with (mag_of F32 x)|apply Z.div_unique with (mag_of F32 x)]; lia. }
  assert (CB : (fC < fB)%R) by (bpn; lra). rewrite TS, SH. assert (SG : sign_of F32 x = Rlt_bool X 0) by (rewrite (sign_fval F32 HF x Fx), Vx by lra; reflexivity). unfold sbit in SP. change (sign_unit F32) with (2 ^ 31) in SP. clear TS SH.
  destruct (Rlt_bool_spec X 0) as [P|P]; rewrite SG in *; cbn [Z.eqb negb].
  - rewrite orb_true_r. rewrite (Rabs_left X) in * by lra. assert (M3' : mag_of F32 x < 0x3e95f619) by (apply M3; bpn; bpn_in L2; lra).
    destruct (Z.leb_spec 0xbf800000 x); [lia|]. destruct (Z.ltb_spec (mag_of F32 x) 0x33800000) as [T|T]; [left; split; [lra|split; [apply M1; auto|auto]]|]. right. left.
    destruct (Z.leb_spec x 0xbe95f619); [|lia]. split; [split; [lra|bpn; lra]|]. split; [|reflexivity]. apply Rnot_lt_le. intros C. apply M1 in C. lia.
  - rewrite orb_false_r. rewrite (Rabs_pos_eq X) in * by lra. destruct (Z.ltb_spec x 0x3ed413d0) as [T|T].
    + destruct (Z.leb_spec 0xbf800000 x); [lia|]. destruct (Z.ltb_spec (mag_of F32 x) 0x33800000) as [T'|T']; [left; split; [lra|split; [apply M1; auto|auto]]|]. right. left.
      destruct (Z.leb_spec x 0xbe95f619); [|lia]. split; [split; [lra|apply M2; lia]|]. split; [|reflexivity]. apply Rnot_lt_le. intros C. apply M1 in C. lia.
    + right. right. assert (XC : (fC <= X)%R) by (apply Rnot_lt_le; intros C; apply M2 in C; lia).
      destruct (Z.leb_spec 0x7f800000 x) as [T'|T']; [|split; [lra|]]. 2: { intros f c k ->. reflexivity. } exfalso. unfold is_fin in Fx. apply Z.ltb_lt in Fx. change (inf_mag F32) with 0x7f800000 in Fx. lia.
Qed.

Lemma pos_F : forall F, good_fmt F -> forall x X, is_real F x X -> (0 < X)%R -> mag_of F x = x.
Proof.
  intros F HF x X (P & Fi & V) HX. pose proof (split_pat F HF x P) as SP. rewrite (sign_fval F HF x Fi) in SP by lra. rewrite Rlt_bool_false in SP by lra. unfold sbit in SP. lia.
Qed.
Lemma log1pf_reduce_spec : forall rm x X, is_real F32 x X -> (fC <= X <= fB)%R -> exists f c C U, log1pf_reduce rm x = (f, c, 1) /\ is_real D f (U / 2 - 1) /\ is_real D c C /\
  (1414213 / 1000000 <= U <= 14144 / 10000)%R /\ (Rabs (1 + X - U) <= bp (-22))%R /\ (Rabs (C - (1 + X - U) / U) <= uF D rm)%R.
Proof.
  intros rm x X Hx HX. pose proof good32 as HF. bpn_in HX. pose proof (litf_r 1 0 ltac:(lia) ltac:(lia)) as H1. replace (1 * bp 0)%R with 1%R in H1 by (change (bp 0) with 1%R; lra).
  realof F32 0x3fb504f3 Q1. realof F32 0x3fb50800 Q2.
  assert (UB' : (fval F32 0x3fb504f3 <= fround F32 rm (1 + X) <= fval F32 0x3fb50800)%R).
  { split; [apply (fround_ge_gen F32 HF)|apply (fround_le_gen F32 HF)].
    - apply (real_fmt F32 HF 0x3fb504f3). destruct Q1 as (a & b & _). split; auto.
    - destruct Q1 as (_ & _ & ->). bpn. lra.
    - apply (real_fmt F32 HF 0x3fb50800). destruct Q2 as (a & b & _). split; auto.
    - destruct Q2 as (_ & _ & ->). bpn. lra. }
  assert (UB : (1414213 / 1000000 <= fround F32 rm (1 + X) <= 14144 / 10000)%R) by (destruct Q1 as (_ & _ & V1), Q2 as (_ & _ & V2); rewrite V1, V2 in UB'; bpn_in UB'; lra).
  pose proof (add_r F32 HF rm _ _ _ _ H1 Hx ltac:(rewrite Rabs_pos_eq by lra; apply Rle_lt_trans with 2%R; [lra|change 2%R with (bp 1); apply bpow_lt; vm_compute; reflexivity])) as RU.
  destruct (rem_exact F32 HF ltac:(vm_compute; congruence) ltac:(vm_compute; congruence) ltac:(vm_compute; congruence) rm x _ _ X _ Hx RU H1 eq_refl ltac:(lra)) as (RR & ER & _).
  unfold log1pf_reduce. set (u := f_add F32 rm (litf 1 0) x) in *. set (U := fround F32 rm (1 + X)) in *. cbv zeta.
  assert (PU : 0x3fb504f3 <= u <= 0x3fb50800).
  { rewrite <- (pos_F F32 HF u U RU ltac:(lra)). split.
    - apply (mag_ge F32 u 0x3fb504f3 U HF RU); [lia|]. rewrite (mval_c F32 _ HF), Rabs_pos_eq by (split; [lia|reflexivity] || lra). lra.
    - apply Z.nlt_ge. intros C. assert (C' : 0x3fb50801 <= mag_of F32 u) by lia. apply (mag_ge F32 u 0x3fb50801 U HF RU) in C'; [|lia]. rewrite Rabs_pos_eq in C' by lra. rewrite <- (mval_c F32 0x3fb50800 HF) in UB' by (split; [lia|reflexivity]).
      pose proof (proj1 (mval_lt F32 HF 0x3fb50800 0x3fb50801 ltac:(lia) ltac:(lia)) ltac:(lia)). lra. }
  assert (W1 : wrap 32 (u + (0x3f800000 - 0x3f3504f3)) = 0x40000000 + (u - 0x3fb504f3)) by (rewrite wrap_small by (unfold inU; lia); ring). rewrite W1.
  assert (K : Z.shiftr (0x40000000 + (u - 0x3fb504f3)) 23 = 128). { rewrite Z.shiftr_div_pow2 by lia. symmetry. apply Z.div_unique with (u - 0x3fb504f3); lia. }
  assert (LD : Z.land (0x40000000 + (u - 0x3fb504f3)) 0x007fffff = u - 0x3fb504f3). { change 0x007fffff with (Z.ones 23). rewrite Z.land_ones by lia. symmetry. apply Z.mod_unique with 128; lia. }
  rewrite K, LD. change (128 - 0x7f) with 1. cbn [Z.ltb Z.leb Z.compare Pos.compare Pos.compare_cont]. replace (wrap 32 (u - 0x3fb504f3 + 0x3f3504f3)) with (u + -1 * 2 ^ 23) by (rewrite wrap_small by (unfold inU; lia); lia).
  assert (RI : is_real F32 (u + -1 * 2 ^ 23) (U / 2)).
  { pose proof (scale_patF F32 HF u (-1) ltac:(change (fl F32) with 23; change (inf_mag F32) with 0x7f800000; lia) ltac:(change (fl F32) with 23; change (inf_mag F32) with 0x7f800000; lia)) as SC. change (fl F32) with 23 in SC.
    destruct (pos_patF F32 HF (u + -1 * 2 ^ 23) ltac:(change (fl F32) with 23; change (inf_mag F32) with 0x7f800000; lia)) as (a & b & _). split; [auto|split; [auto|]]. rewrite SC. destruct RU as (_ & _ & ->). change (bp (-1)) with (/ 2)%R. reflexivity. }
  assert (RF : is_real F32 (f_sub F32 rm (u + -1 * 2 ^ 23) (litf 1 0)) (U / 2 - 1)).
  { apply (sub_x F32 HF rm _ _ _ _ _ RI H1); [reflexivity| |].
    - pose proof (VE F32 HF) as VE'. apply (Sterbenz.sterbenz radix2 (FLT_exp (emin F32) (prec F32))); [exact (real_fmt F32 HF _ _ RI)|exact (real_fmt F32 HF _ _ H1)|lra].
    - rewrite Rabs_left by lra. apply Rle_lt_trans with 2%R; [lra|change 2%R with (bp 1); apply bpow_lt; vm_compute; reflexivity]. }
  assert (ER' : (Rabs (1 + X - U) <= bp (-22))%R).
  { apply Rle_trans with (1 := ER). pose proof (u_le F32 ltac:(vm_compute; congruence) rm) as UL. pose proof (u_pos F32 rm). change (bp (-22)) with (bp (-23 + 1)). rewrite bpow_plus. change (bp 1) with 2%R. apply Rmult_le_compat; lra. }
  pose proof (widen rm _ _ RR) as WR. pose proof (widen rm _ _ RU) as WU.
  assert (DB : (Rabs ((1 + X - U) / U) <= / 1000000)%R).
  { unfold Rdiv. rewrite Rabs_mult, (Rabs_pos_eq (/ U)) by (apply Rlt_le, Rinv_0_lt_compat; lra). bpn_in ER'. assert (/ U <= 1)%R by (rewrite <- Rinv_1; apply Rinv_le; lra). assert (0 < / U)%R by (apply Rinv_0_lt_compat; lra). pose proof (Rabs_pos (1 + X - U)). nra. }
  destruct (rnd1 rm _ _ DB ltac:(lra)) as [DE DO].
  pose proof (div_r D good64 rm _ _ _ _ WR WU ltac:(lra) DO) as RC.
  do 4 eexists. split; [reflexivity|]. split; [exact (widen rm _ _ RF)|]. split; [exact RC|]. split; [exact UB|]. split; [exact ER'|]. apply Rle_trans with (1 := DE). pose proof (uD' rm). lra.
Qed.

Lemma sx_half : forall X, (- 293 / 1000 <= X <= 415 / 1000)%R -> (82 / 100 * Rabs X <= Rabs (ln (1 + X)))%R.
Proof. intros X H. pose proof (sx_abs X H). pose proof (ln1p_s X ltac:(lra)). lra. Qed.
Lemma ln1p_low2 : forall X, (- / 8000000 <= X <= / 8000000)%R -> (X - 8 / 10 * (X * X) <= ln (1 + X))%R.
Proof.
  intros X H. set (y := (X / 2 - X * X / 7)%R). assert (X2 : (0 <= X * X <= / 8000000)%R) by nra. assert (YB : (- / 1000000 <= y <= / 1000000)%R) by (unfold y; lra).
  assert (XX : (Rabs (X * (X * X)) <= / 8000000 * (X * X))%R) by (rewrite Rabs_mult, (Rabs_pos_eq (X * X)) by lra; apply Rmult_le_compat_r; [lra|apply Rabs_le; lra]). apply Rabs_le_inv in XX.
  assert (X4 : (0 <= X * X * (X * X) <= / 8000000 * (X * X))%R) by nra.
  assert (S : ((1 + y) * (1 + y) <= 1 + X)%R) by (replace ((1 + y) * (1 + y))%R with (1 + X - X * X / 28 - X * (X * X) / 7 + X * X * (X * X) / 49)%R by (unfold y; field); lra).
  assert (ln ((1 + y) * (1 + y)) <= ln (1 + X))%R by (apply Rcomplements.ln_le; [apply Rmult_lt_0_compat; lra|exact S]). rewrite ln_mult in H0 by lra. pose proof (ln1p_lower y ltac:(lra)) as L.
  apply Rle_trans with (2 * (y / (1 + y)))%R; [|lra]. apply Rmult_le_reg_r with (1 + y)%R; [lra|]. replace (2 * (y / (1 + y)) * (1 + y))%R with (2 * y)%R by (field; lra).
  replace ((X - 8 / 10 * (X * X)) * (1 + y))%R with (X - 3 / 10 * (X * X) - (1 / 7 + 4 / 10) * (X * (X * X)) + 8 / 70 * (X * X * (X * X)))%R by (unfold y; field). unfold y. lra.
Qed.
Lemma tiny_err : forall X e, (Rabs X < e)%R -> (e <= / 8000000)%R -> (Rabs (X - ln (1 + X)) <= e * Rabs (ln (1 + X)))%R.
Proof.
  intros X e H He. pose proof H as H'. apply Rabs_def2 in H'. pose proof (ln1p_upper X ltac:(lra)) as L1. pose proof (ln1p_low2 X ltac:(lra)) as L2.
  pose proof (sx_half X ltac:(lra)) as L3. rewrite (Rabs_pos_eq (X - ln (1 + X))) by lra. pose proof (Rabs_pos X).
  assert (XX : (X * X = Rabs X * Rabs X)%R) by (rewrite <- Rabs_mult; symmetry; apply Rabs_pos_eq; nra).
  apply Rle_trans with (8 / 10 * (Rabs X * Rabs X))%R; [rewrite <- XX; lra|]. apply Rle_trans with (e * (82 / 100 * Rabs X))%R; [|apply Rmult_le_compat_l; lra].
  assert (Rabs X * Rabs X <= e * Rabs X)%R by (apply Rmult_le_compat_r; lra). nra.
Qed.

Lemma fo_real : List.Forall2 (is_real D) l1f_odd f_odd.
Proof. unfold l1f_odd, f_odd. repeat constructor; apply (lit_r false); lia. Qed.
Lemma fe_real : List.Forall2 (is_real D) l1f_even f_even.
Proof. unfold l1f_even, f_even. repeat constructor; apply (lit_r false); lia. Qed.
Lemma fo_b : List.Forall (fun c => / 8 <= c <= 1)%R f_odd.
Proof. unfold f_odd. repeat constructor; bpn; lra. Qed.
Lemma fe_b : List.Forall (fun c => / 8 <= c <= 1)%R f_even.
Proof. unfold f_even. repeat constructor; bpn; lra. Qed.
Lemma rel_mid : forall rm v, (bp (-101) <= Rabs v <= 1)%R -> (Rabs (fround D rm v - v) <= uF D rm * Rabs v)%R.
Proof.
  intros rm v H. apply (rel_n D good64 ltac:(vm_compute; congruence)). apply Rle_trans with (2 := proj1 H). apply bpow_le. vm_compute. congruence.
Qed.
Lemma log1pf_mid : forall rm x X, is_real F32 x X -> (- fA <= X < fC)%R -> (bp (-24) <= Rabs X)%R ->
  exists W zs, (Rabs (W - ln (1 + X)) <= bp (-26) * Rabs (ln (1 + X)))%R /\ rounded F32 rm W zs (kernf rm (f_cast F32 F64 rm x) (f_zero F64 false) 0).
Proof.
  intros rm x X Hx HX HB. pose proof (widen rm _ _ Hx) as HD. assert (XB : (- 2929 / 10000 <= X <= 41429 / 100000)%R) by (bpn_in HX; lra).
  pose proof (lit_r false 0x162e430 (-25) ltac:(lia) ltac:(lia)) as RH. pose proof (lit_r false 0x105c610 (-53) ltac:(lia) ltac:(lia)) as RL.
  destruct (kernel0 rm l1f_odd l1f_even f_odd f_even fo_real fe_real ltac:(discriminate) ltac:(discriminate) fo_b fe_b _ X l1f_ln2hi l1f_ln2lo _ _ false HD RH RL ltac:(apply Rle_trans with (2 := HB); apply bpow_le; lia) XB) as (v & EV & BV & _ & RV).
  cbv zeta in *. pose proof (rel_mid rm v BV) as ER. pose proof (uD' rm) as U. pose proof (Gf_rel X XB) as GR. pose proof (sx_half X ltac:(lra)) as SH. pose proof (ln1p_s X ltac:(lra)) as LS.
  set (L := ln (1 + X)) in *. set (M := Rabs X) in *. set (G := Gx f_odd f_even X) in *. pose proof (Rabs_pos X) as M0. fold M in M0. assert (M1 : (M <= 415 / 1000)%R) by (apply Rabs_le; lra).
  assert (EV' : (Rabs (v - G) <= / 1000000000000 * Rabs L)%R).
  { apply Rle_trans with (1 := EV). apply Rle_trans with (/ 1000000000000000 * (17 / 10 * (M * M) + 12 * (M * M * M)))%R; [apply Rmult_le_compat_r; [|lra]; apply Rplus_le_le_0_compat; repeat apply Rmult_le_pos; lra|].
    assert (17 / 10 * (M * M) + 12 * (M * M * M) <= 8 * M)%R; [|lra]. assert (M * M <= 415 / 1000 * M)%R by (apply Rmult_le_compat_r; lra). assert (M * M * M <= 415 / 1000 * (M * M))%R by (rewrite Rmult_assoc; apply Rmult_le_compat_r; [nra|lra]). lra. }
  assert (GE : (Rabs (G - L) <= 7 / 2 * bp (-29) * Rabs L)%R) by (apply Rle_trans with (1 := GR); bpn; lra).
  assert (VE' : (Rabs (v - L) <= 36 / 10 * bp (-29) * Rabs L)%R). { replace (v - L)%R with ((v - G) + (G - L))%R by ring. eapply Rle_trans; [apply Rabs_triang|]. bpn_in GE. bpn. pose proof (Rabs_pos L). lra. }
  assert (VL : (Rabs v <= 2 * Rabs L)%R). { replace v with ((v - L) + L)%R by ring. eapply Rle_trans; [apply Rabs_triang|]. bpn_in VE'. pose proof (Rabs_pos L). lra. }
  exists (fround D rm v), false. split.
  - replace (fround D rm v - L)%R with ((fround D rm v - v) + (v - L))%R by ring. eapply Rle_trans; [apply Rabs_triang|]. assert (uF D rm * Rabs v <= / 1000000000000000 * (2 * Rabs L))%R by (apply Rmult_le_compat; try lra; apply Rabs_pos). bpn_in VE'. bpn. pose proof (Rabs_pos L). lra.
  - apply narrow'; [exact RV|]. intros C. rewrite C, Rminus_0_l, Rabs_Ropp in ER. pose proof (bpow_gt_0 radix2 (-101)). assert (0 < Rabs v)%R by lra. nra.
Qed.
Lemma log1pf_sliver : forall rm x X, is_real F32 x X -> (fC <= X <= fB)%R ->
  exists f c k W zs, log1pf_reduce rm x = (f, c, k) /\ (Rabs (W - ln (1 + X)) <= bp (-25) * Rabs (ln (1 + X)))%R /\ rounded F32 rm W zs (kernf rm f c k).
Proof.
  intros rm x X Hx HX. destruct (log1pf_reduce_spec rm x X Hx HX) as (f & c & C & U & ERED & RF & RC & UB & ER & EC).
  pose proof (lit_r false 0x162e430 (-25) ltac:(lia) ltac:(lia)) as RH. pose proof (lit_r false 0x105c610 (-53) ltac:(lia) ltac:(lia)) as RL.
  pose proof (uD' rm) as U0. set (d := ((1 + X - U) / U)%R) in *.
  assert (DB : (Rabs d <= / 4000000)%R).
  { unfold d, Rdiv. rewrite Rabs_mult, (Rabs_pos_eq (/ U)) by (apply Rlt_le, Rinv_0_lt_compat; lra). bpn_in ER. assert (/ U <= 1)%R by (rewrite <- Rinv_1; apply Rinv_le; lra). assert (0 < / U)%R by (apply Rinv_0_lt_compat; lra). pose proof (Rabs_pos (1 + X - U)). nra. }
  assert (CB : (Rabs C <= / 1000000)%R). { replace C with ((C - d) + d)%R by ring. eapply Rle_trans; [apply Rabs_triang|]. lra. }
  assert (FB : (- 2929 / 10000 <= U / 2 - 1 <= - 2928 / 10000)%R) by lra.
  destruct (kernel1 rm l1f_odd l1f_even f_odd f_even fo_real fe_real ltac:(discriminate) ltac:(discriminate) fo_b fe_b _ _ _ _ l1f_ln2hi l1f_ln2lo _ _ false RF RC RH RL FB CB ltac:(bpn; rewrite Rabs_pos_eq; lra) ltac:(bpn; lra)) as (v & EV & BV & _ & RV).
  cbv zeta in *. set (r := log1p_kernel l1f_odd l1f_even l1f_ln2hi l1f_ln2lo rm f c (f_of_Z D rm 1)) in *.
  assert (BV' : (bp (-101) <= Rabs v <= 1)%R). { rewrite Rabs_pos_eq by lra. split; [|lra]. apply Rle_trans with (bp (-4)); [apply bpow_le; lia|change (bp (-4)) with (/ 16)%R; lra]. }
  pose proof (rel_mid rm v BV') as EF. rewrite (Rabs_pos_eq v) in EF by lra.
  pose proof (Gf_rel (U / 2 - 1) ltac:(lra)) as GR. pose proof (sx_abs (U / 2 - 1) ltac:(lra)) as SA. rewrite (Rabs_left (U / 2 - 1)) in SA by lra.
  assert (HXn : (414213 / 1000000 <= X <= 4143 / 10000)%R) by (bpn_in HX; lra).
  pose proof (ln_split X U ltac:(lra) ltac:(lra)) as LS. cbv zeta in LS. fold d in LS. specialize (LS ltac:(lra)).
  assert (D2 : (d * d <= / 10000000000000)%R). { replace (d * d)%R with (Rabs d * Rabs d)%R by (rewrite <- Rabs_mult; apply Rabs_pos_eq; nra). apply Rle_trans with (/ 4000000 * / 4000000)%R; [apply Rmult_le_compat; try lra; apply Rabs_pos|lra]. }
  assert (LB : (3465 / 10000 <= ln (1 + X))%R) by interval with (i_prec 50).
  assert (LN2 : (Rabs (IZR 0x162e430 * bp (-25) + IZR 0x105c610 * bp (-53) - ln 2) <= 39 / 10000000000)%R) by (bpn; interval with (i_prec 80)).
  set (G := Gx f_odd f_even (U / 2 - 1)) in *. set (l1 := ln (1 + (U / 2 - 1))) in *. set (L := ln (1 + X)) in *. set (HI := (IZR 0x162e430 * bp (-25))%R) in *. set (LO := (IZR 0x105c610 * bp (-53))%R) in *. set (l2 := ln 2) in *.
  assert (GE : (Rabs (G - l1) <= 24 / 10000000000)%R) by (apply Rle_trans with (1 := GR); bpn; lra).
  assert (UV : (uF D rm * v <= uF D rm)%R) by (rewrite <- (Rmult_1_r (uF D rm)) at 2; apply Rmult_le_compat_l; lra).
  exists f, c, 1, (fround D rm v), false. split; [exact ERED|]. split.
  - rewrite (Rabs_pos_eq L) by lra. apply Rabs_le_inv in EV, EF, GE, LN2, LS, EC. bpn. apply Rabs_le. split; lra.
  - apply narrow'; [exact RV|]. apply Rabs_le_inv in EF. intros Z0. rewrite Z0 in EF. lra.
Qed.

Lemma log1pf_out : forall rm x X, is_real F32 x X -> (-1 < X)%R -> (X < - fA \/ fB < X)%R -> (rm = RUP -> x <> inf_mag F32 - 1) ->
  exists W zs, (Rabs (W - ln (1 + X)) <= bp (match rm with RNE => -22 | _ => -21 end) * Rabs (ln (1 + X)))%R /\
    rounded F32 rm W zs (let u := f_add F32 rm (litf 1 0) x in if f_eq F32 u (litf 1 0) then x else logf_impl rm u).
Proof.
  intros rm x X Hx HX HB HU. cbv zeta. pose proof (litf_r 1 0 ltac:(lia) ltac:(lia)) as H1. replace (1 * bp 0)%R with 1%R in H1 by (change (bp 0) with 1%R; lra).
  destruct (outside F32 good32 ltac:(vm_compute; congruence) ltac:(vm_compute; congruence) ltac:(vm_compute; congruence) lf_max rm x _ X Hx H1 HX ltac:(bpn_in HB; lra) HU) as (U & RU & UP & UN & LE & LG).
  replace (f_eq F32 (f_add F32 rm (litf 1 0) x) (litf 1 0)) with false. 2: { symmetry. destruct RU as (_ & F1 & V1), H1 as (_ & F2 & V2). rewrite (f_eq_fin F32 good32), V1, V2 by auto. apply Req_bool_false. auto. }
  destruct (logf_core rm _ U RU UP UN) as (y & W & -> & RW & WE). assert (UL : (bp (-25) <= uF F32 rm / 2)%R) by (destruct rm; unfold uF; change (prec F32) with 24; bpn; lra).
  pose proof (outside_err F32 ltac:(vm_compute; congruence) rm W _ _ _ LE LG WE ltac:(split; [apply bpow_ge_0|exact UL])) as OE. exists W, false. split.
  + apply Rle_trans with (1 := OE). apply Rmult_le_compat_r; [apply Rabs_pos|]. destruct rm; unfold uF; change (prec F32) with 24; bpn; lra.
  + apply narrow'; auto. apply near_ne0 with (1 := WE). apply ln_ne0; auto.
Qed.
Definition accf rm X r := exists v zs, (Rabs (v - ln (1 + X)) <= bp (match rm with RNE => -22 | _ => -21 end) * Rabs (ln (1 + X)))%R /\
    ((- 29 / 100 <= X <= 41 / 100)%R -> (Rabs (v - ln (1 + X)) <= bp (-24) * Rabs (ln (1 + X)))%R) /\ rounded F32 rm v zs r.
Lemma accf_of : forall rm X W zs k r, k <= -24 -> (Rabs (W - ln (1 + X)) <= bp k * Rabs (ln (1 + X)))%R -> rounded F32 rm W zs r -> accf rm X r.
Proof.
  intros rm X W zs k r Hk HE HR. pose proof (Rabs_pos (ln (1 + X))) as LP. exists W, zs. split; [|split; [|exact HR]].
  - apply Rle_trans with (1 := HE). apply Rmult_le_compat_r; auto. apply bpow_le. destruct rm; lia.
  - intros _. apply Rle_trans with (1 := HE). apply Rmult_le_compat_r; auto. apply bpow_le. lia.
Qed.
Lemma log1pf_acc : forall rm x X, is_real F32 x X -> (-1 < X)%R -> X <> 0%R -> (rm = RUP -> x <> inf_mag F32 - 1) -> accf rm X (log1pf_impl rm x).
Proof.
  intros rm x X Hx HX N0 HU.
  destruct (log1pf_cases rm x X Hx HX N0) as [[HB E]|[(HB & HT & E)|[(HB & HT & E)|(HB & E)]]]; [rewrite E; clear E..|].
  - destruct (log1pf_out rm x X Hx HX HB HU) as (W & zs' & WE & WR). exists W, zs'. split; [exact WE|split; [|exact WR]].
    intros C. exfalso. bpn_in HB. lra.
  - destruct Hx as (P & Fi & V). apply (accf_of rm X X (sign_of F32 x) (-24)); [lia|apply tiny_err; [exact HT|bpn; lra]|]. rewrite <- V. apply (rounded_self F32 good32); auto.
  - destruct (log1pf_mid rm x X Hx HB HT) as (W & zs' & WE & WR). exact (accf_of rm X W zs' (-26) _ ltac:(lia) WE WR).
  - destruct (log1pf_sliver rm x X Hx HB) as (f & c & k & W & zs' & ER & WE & WR). rewrite (E _ _ _ ER). exact (accf_of rm X W zs' (-25) _ ltac:(lia) WE WR).
Qed.
Theorem log1pf_accuracy : forall rm x zs, is_pattern F32 x -> is_fin F32 x = true -> let X := fval F32 x in (-1 < X)%R -> X <> 0%R -> (rm = RUP -> x <> inf_mag F32 - 1) ->
  exists v, (Rabs (v - ln (1 + X)) <= bp (match rm with RNE => -22 | _ => -21 end) * Rabs (ln (1 + X)))%R /\
    ((- 29 / 100 <= X <= 41 / 100)%R -> (Rabs (v - ln (1 + X)) <= bp (-24) * Rabs (ln (1 + X)))%R) /\ rounded F32 rm v zs (log1pf rm x).
Proof.
  intros rm x zs P Fi X HX N0 HU. destruct (log1p_wrapper_spec F32 good32 lf_m1 (log1pf_impl rm) x P) as (_ & _ & _ & _ & _ & E). unfold log1pf. rewrite (E Fi HX N0). clear E.
  destruct (log1pf_acc rm x X ltac:(split; auto) HX N0 HU) as (v & zs' & A & B & C). exists v. split; [exact A|split; [exact B|]]. apply rounded_sgn with zs'; auto. apply rel_ne0 with (2 := A); [destruct rm; lia|]. apply ln_ne0; lra.
Qed.
