(** * log1p(double) *)
From Coq Require Import ZArith Lia Bool Reals Lra List.
From Flocq Require Import Core.
From Interval Require Import Tactic.
From Verif Require Import MachInt Fmt FloatSpec FmtProofs RoundProofs FOps FOpsProofs ExactOps ExtFloatSpec ExtFloatProofs ExtInterp RemProofs FmanipWide ErrLib ExpoData LogDataD ExpoF LogD ExpM1 Log1p Exp2fProofs ExpoFWrap LogfNum LogRed LogfProofs LogfWrap SqrtProofs Expm1Proofs HypotProofs RelErr LogDRed LogDCore LogDWrap Log1pNum Log1pProofs Log1pWrap Log1pF.
Import ListNotations.
Open Scope Z_scope.

Notation dA := (IZR 0x12bec2480e8c8b * bp (-54))%R.
Notation dB := (IZR 0x1a83a109d0635a * bp (-54))%R.
Notation dC := (IZR 0xd413d * bp (-21))%R.
Notation kernd rm f c k := (log1p_kernel l1d_odd l1d_even logd_ln2hi logd_ln2lo rm f c (f_of_Z F64 rm k)).
Lemma ld_m1 : is_real D (f_one D true) (-1). Proof. realof D (f_one D true) H. replace (-1)%R with (-1 * IZR 4503599627370496 * bp (-52))%R by (bpn; lra). exact H. Qed.
Lemma ld_max : is_real D (inf_mag D - 1) (bp (bias D + 1) - bp (bias D + 1 - prec D)).
Proof.
  realof D (inf_mag D - 1) H. replace (bp (bias D + 1) - bp (bias D + 1 - prec D))%R with (1 * IZR 9007199254740991 * bp 971)%R; [exact H|].
  change (bias D + 1) with (53 + 971). change (53 + 971 - prec D) with 971. rewrite bpow_plus. change (bp 53) with (IZR 9007199254740992). lra.
Qed.

Lemma log1pd_cases : forall rm x X, is_real D x X -> (-1 < X)%R -> X <> 0%R ->
  ((X < - dA \/ dB < X)%R /\ log1pd_impl rm x = (let u := f_add F64 rm (lit 1 0) x in if f_eq F64 u (lit 1 0) then x else logd_impl rm u)) \/
  ((- dA <= X <= dB)%R /\ (Rabs X < bp (-53))%R /\ log1pd_impl rm x = x) \/
  ((- dA <= X < dC)%R /\ (bp (-53) <= Rabs X)%R /\ log1pd_impl rm x = kernd rm x (f_zero F64 false) 0) \/
  ((dC <= X <= dB)%R /\ forall f c k, log1pd_reduce rm x = (f, c, k) -> log1pd_impl rm x = kernd rm f c k).
Proof.
  intros rm x X Hx H1 N0. pose proof good64 as HF. assert (LB : is_real D (lit 0x1a83a109d0635a (-54)) dB) by (apply (lit_r false); lia). assert (LA : is_real D (lit (-0x12bec2480e8c8b) (-54)) (IZR (-0x12bec2480e8c8b) * bp (-54))) by (apply (lit_r false); lia).
  replace (IZR (-0x12bec2480e8c8b) * bp (-54))%R with (- dA)%R in LA by (bpn; lra).
  unfold log1pd_impl. set (red := log1pd_reduce rm x). destruct Hx as (Px & Fx & Vx). destruct LB as (PB & FB & VB). destruct LA as (PA & FA & VA).
  rewrite (f_gt_fin D HF), (f_lt_fin D HF), VB, VA, Vx by auto.
  destruct (Rlt_bool_spec dB X) as [L1|L1]; [left; split; [auto|reflexivity]|]. destruct (Rlt_bool_spec X (- dA)) as [L2|L2]; [left; split; [auto|reflexivity]|]. right. cbn [orb].
  assert (Hx : is_real D x X) by (split; auto). pose proof (mag_range D HF x) as MR. change (sign_unit D) with (2 ^ 63) in MR.
  pose proof (mag_lt D x 0x3ca0000000000000 X HF Hx ltac:(split; [lia|reflexivity])) as M1. pose proof (mag_lt D x 0x3fda827a00000000 X HF Hx ltac:(split; [lia|reflexivity])) as M2. pose proof (mag_lt D x 0x3fd2bec400000000 X HF Hx ltac:(split; [lia|reflexivity])) as M3.
  fvalof D 0x3ca0000000000000. fvalof D 0x3fda827a00000000. fvalof D 0x3fd2bec400000000.
  match type of M1 with _ <-> (_ < ?v)%R => replace v with (bp (-53)) in M1 by (bpn; lra) end.
  match type of M2 with _ <-> (_ < ?v)%R => replace v with dC in M2 by (bpn; lra) end.
  pose proof (split_pat D HF x Px) as SP. unfold sbit in SP. change (sign_unit D) with (2 ^ 63) in SP.
  set (m := mag_of D x) in *. set (mh := m / 2 ^ 32). pose proof (Z.div_mod m (2 ^ 32) ltac:(lia)) as MD. pose proof (Z.mod_pos_bound m (2 ^ 32) ltac:(lia)) as MB. fold mh in MD.
  assert (MH : 0 <= mh < 2 ^ 31) by lia.
  assert (HH : Z.shiftr x 32 = if sign_of D x then 2 ^ 31 + mh else mh).
  { rewrite Z.shiftr_div_pow2 by lia. rewrite SP at 1. destruct (sign_of D x); symmetry; apply Z.div_unique with (m mod 2 ^ 32); lia. }
  rewrite HH. set (hx := if sign_of D x then 2 ^ 31 + mh else mh).
  assert (TS : (wrap 32 (Z.shiftl hx 1) <? wrap 32 (Z.shiftl 0x3ca00000 1)) = (m <? 0x3ca0000000000000)).
  { rewrite !Z.shiftl_mul_pow2 by lia. change (wrap 32 (0x3ca00000 * 2 ^ 1)) with (2 * 0x3ca00000). assert (wrap 32 (hx * 2 ^ 1) = 2 * mh).
    { unfold wrap, hx. symmetry. destruct (sign_of D x); [apply Z.mod_unique with 1; lia|apply Z.mod_unique with 0; lia]. }
    rewrite H. destruct (Z.ltb_spec m 0x3ca0000000000000); [apply Z.ltb_lt|apply Z.ltb_ge]; lia. }
  assert (SH : Z.shiftr hx 31 = if sign_of D x then 1 else 0).
  { unfold hx. rewrite Z.shiftr_div_pow2 by lia. destruct (sign_of D x); symmetry; apply Z.div_unique with mh; lia. }
  assert (CB : (dC < dB)%R) by (bpn; lra). rewrite TS, SH. assert (SG : sign_of D x = Rlt_bool X 0) by (rewrite (sign_fval D HF x Fx), Vx by lra; reflexivity). clear TS SH HH. unfold hx. clear hx.
  destruct (Rlt_bool_spec X 0) as [P|P]; rewrite SG in *; cbn [Z.eqb negb].
  - rewrite orb_true_r. rewrite (Rabs_left X) in * by lra. assert (M3' : m < 0x3fd2bec400000000) by (apply M3; bpn; bpn_in L2; lra).
    destruct (Z.leb_spec 0xbff00000 (2 ^ 31 + mh)); [lia|]. destruct (Z.ltb_spec m 0x3ca0000000000000) as [T|T]; [left; split; [lra|split; [apply M1; auto|auto]]|]. right. left.
    destruct (Z.leb_spec (2 ^ 31 + mh) 0xbfd2bec4); [|lia]. split; [split; [lra|bpn; lra]|]. split; [|reflexivity]. apply Rnot_lt_le. intros C. apply M1 in C. lia.
  - rewrite orb_false_r. rewrite (Rabs_pos_eq X) in * by lra. destruct (Z.ltb_spec mh 0x3fda827a) as [T|T].
    + destruct (Z.leb_spec 0xbff00000 mh); [lia|]. destruct (Z.ltb_spec m 0x3ca0000000000000) as [T'|T']; [left; split; [lra|split; [apply M1; auto|auto]]|]. right. left.
      destruct (Z.leb_spec mh 0xbfd2bec4); [|lia]. split; [split; [lra|apply M2; lia]|]. split; [|reflexivity]. apply Rnot_lt_le. intros C. apply M1 in C. lia.
    + right. right. assert (XC : (dC <= X)%R) by (apply Rnot_lt_le; intros C; apply M2 in C; lia).
      destruct (Z.leb_spec 0x7ff00000 mh) as [T'|T']; [|split; [lra|]]. 2: { intros f c k ->. reflexivity. } exfalso. unfold is_fin in Fx. apply Z.ltb_lt in Fx. change (inf_mag D) with 0x7ff0000000000000 in Fx. fold m in Fx. lia.
Qed.

Lemma log1pd_reduce_spec : forall rm x X, is_real D x X -> (dC <= X <= dB)%R -> exists f c C U, log1pd_reduce rm x = (f, c, 1) /\ is_real D f (U / 2 - 1) /\ is_real D c C /\
  (1414213 / 1000000 <= U <= 14144 / 10000)%R /\ (Rabs (1 + X - U) <= 2 * uF D rm)%R /\ (Rabs (C - (1 + X - U) / U) <= uF D rm)%R.
Proof.
  intros rm x X Hx HX. pose proof good64 as HF. bpn_in HX. assert (H1 : is_real D (lit 1 0) 1) by (replace 1%R with (1 * bp 0)%R by (change (bp 0) with 1%R; lra); apply (lit_r false); lia).
  realof D 0x3ff6a09e00000000 Q1. realof D 0x3ff6a10000000000 Q2.
  assert (UB' : (fval D 0x3ff6a09e00000000 <= fround D rm (1 + X) <= fval D 0x3ff6a10000000000)%R).
  { split; [apply (fround_ge_gen D HF)|apply (fround_le_gen D HF)].
    - apply (real_fmt D HF 0x3ff6a09e00000000). destruct Q1 as (a & b & _). split; auto.
    - destruct Q1 as (_ & _ & ->). bpn. lra.
    - apply (real_fmt D HF 0x3ff6a10000000000). destruct Q2 as (a & b & _). split; auto.
    - destruct Q2 as (_ & _ & ->). bpn. lra. }
  assert (UB : (1414213 / 1000000 <= fround D rm (1 + X) <= 14144 / 10000)%R) by (destruct Q1 as (_ & _ & V1), Q2 as (_ & _ & V2); rewrite V1, V2 in UB'; bpn_in UB'; lra).
  pose proof (add_r D HF rm _ _ _ _ H1 Hx ltac:(rewrite Rabs_pos_eq by lra; apply Rle_lt_trans with 2%R; [lra|change 2%R with (bp 1); apply bpow_lt; vm_compute; reflexivity])) as RU.
  destruct (rem_exact D HF ltac:(vm_compute; congruence) ltac:(vm_compute; congruence) ltac:(vm_compute; congruence) rm x _ _ X _ Hx RU H1 eq_refl ltac:(lra)) as (RR & ER & _).
  unfold log1pd_reduce. set (u := f_add D rm (lit 1 0) x) in *. set (U := fround D rm (1 + X)) in *. cbv zeta.
  assert (PU : 0x3ff6a09e00000000 <= u <= 0x3ff6a10000000000).
  { rewrite <- (pos_F D HF u U RU ltac:(lra)). split.
    - apply (mag_ge D u 0x3ff6a09e00000000 U HF RU); [lia|]. rewrite (mval_c D _ HF), Rabs_pos_eq by (split; [lia|reflexivity] || lra). lra.
    - apply Z.nlt_ge. intros C. assert (C' : 0x3ff6a10000000001 <= mag_of D u) by lia. apply (mag_ge D u 0x3ff6a10000000001 U HF RU) in C'; [|lia]. rewrite Rabs_pos_eq in C' by lra. rewrite <- (mval_c D 0x3ff6a10000000000 HF) in UB' by (split; [lia|reflexivity]).
      pose proof (proj1 (mval_lt D HF 0x3ff6a10000000000 0x3ff6a10000000001 ltac:(lia) ltac:(lia)) ltac:(lia)). lra. }
  set (h := Z.shiftr u 32). pose proof (Z.div_mod u (2 ^ 32) ltac:(lia)) as UD. pose proof (Z.mod_pos_bound u (2 ^ 32) ltac:(lia)) as UM. rewrite <- Z.shiftr_div_pow2 in UD by lia. fold h in UD.
  assert (HB : 0x3ff6a09e <= h <= 0x3ff6a100) by lia.
  assert (W1 : wrap 32 (h + (0x3ff00000 - 0x3fe6a09e)) = 0x40000000 + (h - 0x3ff6a09e)) by (rewrite wrap_small by (unfold inU; lia); ring). rewrite W1.
  assert (K : Z.shiftr (0x40000000 + (h - 0x3ff6a09e)) 20 = 1024). { rewrite Z.shiftr_div_pow2 by lia. symmetry. apply Z.div_unique with (h - 0x3ff6a09e); lia. }
  assert (LD : Z.land (0x40000000 + (h - 0x3ff6a09e)) 0x000fffff = h - 0x3ff6a09e). { change 0x000fffff with (Z.ones 20). rewrite Z.land_ones by lia. symmetry. apply Z.mod_unique with 1024; lia. }
  rewrite K, LD. change (1024 - 0x3ff) with 1. cbn [Z.ltb Z.leb Z.compare Pos.compare Pos.compare_cont].
  replace (Z.lor (Z.shiftl (wrap 32 (h - 0x3ff6a09e + 0x3fe6a09e)) 32) (Z.land u 0xffffffff)) with (u + -1 * 2 ^ 52).
  2: { rewrite wrap_small by (unfold inU; lia). change 0xffffffff with (Z.ones 32). rewrite Z.land_ones by lia. rewrite Z.shiftl_mul_pow2 by lia. rewrite (lor_add (h - 0x3ff6a09e + 0x3fe6a09e) (u mod 2 ^ 32) 32) by lia. lia. }
  assert (RI : is_real D (u + -1 * 2 ^ 52) (U / 2)).
  { pose proof (scale_patF D HF u (-1) ltac:(change (fl D) with 52; change (inf_mag D) with 0x7ff0000000000000; lia) ltac:(change (fl D) with 52; change (inf_mag D) with 0x7ff0000000000000; lia)) as SC. change (fl D) with 52 in SC.
    destruct (pos_patF D HF (u + -1 * 2 ^ 52) ltac:(change (fl D) with 52; change (inf_mag D) with 0x7ff0000000000000; lia)) as (a & b & _). split; [auto|split; [auto|]]. rewrite SC. destruct RU as (_ & _ & ->). change (bp (-1)) with (/ 2)%R. reflexivity. }
  assert (RF : is_real D (f_sub D rm (u + -1 * 2 ^ 52) (lit 1 0)) (U / 2 - 1)).
  { apply (sub_x D HF rm _ _ _ _ _ RI H1); [reflexivity| |].
    - pose proof (VE D HF) as VE'. apply (Sterbenz.sterbenz radix2 (FLT_exp (emin D) (prec D))); [exact (real_fmt D HF _ _ RI)|exact (real_fmt D HF _ _ H1)|lra].
    - rewrite Rabs_left by lra. apply Rle_lt_trans with 2%R; [lra|change 2%R with (bp 1); apply bpow_lt; vm_compute; reflexivity]. }
  pose proof (uD' rm) as U0.
  assert (ER' : (Rabs (1 + X - U) <= 2 * uF D rm)%R) by (apply Rle_trans with (1 := ER); rewrite Rmult_comm; apply Rmult_le_compat_r; lra).
  assert (DB : (Rabs ((1 + X - U) / U) <= / 1000000)%R).
  { unfold Rdiv. rewrite Rabs_mult, (Rabs_pos_eq (/ U)) by (apply Rlt_le, Rinv_0_lt_compat; lra). assert (/ U <= 1)%R by (rewrite <- Rinv_1; apply Rinv_le; lra). assert (0 < / U)%R by (apply Rinv_0_lt_compat; lra). pose proof (Rabs_pos (1 + X - U)). nra. }
  destruct (rnd1 rm _ _ DB ltac:(lra)) as [DE DO].
  pose proof (div_r D good64 rm _ _ _ _ RR RU ltac:(lra) DO) as RC.
  do 4 eexists. split; [reflexivity|]. split; [exact RF|]. split; [exact RC|]. split; [exact UB|]. split; [exact ER'|]. apply Rle_trans with (1 := DE). lra.
Qed.

Lemma do_real : List.Forall2 (is_real D) l1d_odd d_odd.
Proof. unfold l1d_odd, d_odd. repeat constructor; apply (lit_r false); lia. Qed.
Lemma de_real : List.Forall2 (is_real D) l1d_even d_even.
Proof. unfold l1d_even, d_even. repeat constructor; apply (lit_r false); lia. Qed.
Lemma do_b : List.Forall (fun c => / 8 <= c <= 1)%R d_odd.
Proof. unfold d_odd. repeat constructor; bpn; lra. Qed.
Lemma de_b : List.Forall (fun c => / 8 <= c <= 1)%R d_even.
Proof. unfold d_even. repeat constructor; bpn; lra. Qed.

Definition accd rm X r := exists v zs, (Rabs (v - ln (1 + X)) <= bp (-44) * Rabs (ln (1 + X)))%R /\
    ((- 2 / 10 <= X <= 2 / 10)%R -> (Rabs (v - ln (1 + X)) <= bp (match rm with RNE => -52 | _ => -51 end) * Rabs (ln (1 + X)))%R) /\
    ((X <= - 293 / 1000 \/ 4143 / 10000 <= X)%R -> (Rabs (v - ln (1 + X)) <= bp (match rm with RNE => -51 | _ => -50 end) * Rabs (ln (1 + X)))%R) /\ rounded D rm v zs r.
Lemma uD2 : forall rm, (2 * uF D rm = bp (match rm with RNE => -52 | _ => -51 end))%R.
Proof. intros []; unfold uF; change (prec D) with 53; bpn; lra. Qed.
Lemma uD4 : forall rm, (4 * uF D rm = bp (match rm with RNE => -51 | _ => -50 end))%R.
Proof. intros []; unfold uF; change (prec D) with 53; bpn; lra. Qed.
Lemma uDl : forall rm, (bp (-53) <= uF D rm <= bp (-52))%R.
Proof. intros []; unfold uF; change (prec D) with 53; bpn; lra. Qed.

Lemma log1pd_mid : forall rm x X, is_real D x X -> (- dA <= X < dC)%R -> (bp (-53) <= Rabs X)%R -> accd rm X (kernd rm x (f_zero F64 false) 0).
Proof.
  intros rm x X Hx HX HB. assert (XB : (- 2929 / 10000 <= X <= 41429 / 100000)%R) by (bpn_in HX; lra).
  assert (RH : is_real D logd_ln2hi (IZR 0x162e42fefa3800 * bp (-53))) by (apply (lit_r false); lia). assert (RL : is_real D logd_ln2lo (IZR 0x1ef35793c76730 * bp (-97))) by (apply (lit_r false); lia).
  destruct (kernel0 rm l1d_odd l1d_even d_odd d_even do_real de_real ltac:(discriminate) ltac:(discriminate) do_b de_b _ X logd_ln2hi logd_ln2lo _ _ false Hx RH RL ltac:(apply Rle_trans with (2 := HB); apply bpow_le; lia) XB) as (v & EV & BV & RV & _).
  cbv zeta in *. pose proof (uD' rm) as U. pose proof (uDl rm) as UL. destruct (Gd_rel X XB) as [GR GR']. pose proof (sx_half X ltac:(lra)) as SH. pose proof (ln1p_s X ltac:(lra)) as LS.
  set (L := ln (1 + X)) in *. set (M := Rabs X) in *. set (G := Gx d_odd d_even X) in *. pose proof (Rabs_pos X) as M0. fold M in M0. assert (M1 : (M <= 415 / 1000)%R) by (apply Rabs_le; lra).
  assert (TR : forall e1 e2, (Rabs (v - G) <= e1)%R -> (Rabs (G - L) <= e2)%R -> (Rabs (v - L) <= e1 + e2)%R). { intros e1 e2 H1 H2. replace (v - L)%R with ((v - G) + (G - L))%R by ring. eapply Rle_trans; [apply Rabs_triang|]. lra. }
  assert (MM : forall b, (M <= b)%R -> (b <= 1)%R -> (Rabs (v - G) <= uF D rm * ((17 / 10 * b + 12 * (b * b)) * M))%R).
  { intros b Hb B1. apply Rle_trans with (1 := EV). apply Rmult_le_compat_l; [lra|]. assert (M * M <= b * M)%R by (apply Rmult_le_compat_r; lra). assert (M * M * M <= b * b * M)%R by (apply Rmult_le_compat_r; [lra|apply Rmult_le_compat; lra]). lra. }
  exists v, false. fold L. split; [|split; [|split]].
  - eapply Rle_trans; [apply TR; [apply (MM (415 / 1000)%R); lra|exact GR]|]. assert (uF D rm * ((17 / 10 * (415 / 1000) + 12 * (415 / 1000 * (415 / 1000))) * M) <= bp (-52) * (4 * Rabs L))%R by (apply Rmult_le_compat; lra). bpn_in H. bpn. pose proof (Rabs_pos L). lra.
  - intros X2. assert (M <= 2 / 10)%R by (apply Rabs_le; lra). eapply Rle_trans; [apply TR; [apply (MM (2 / 10)%R); lra|exact (GR' X2)]|]. rewrite <- uD2. assert (uF D rm * ((17 / 10 * (2 / 10) + 12 * (2 / 10 * (2 / 10))) * M) <= uF D rm * Rabs L)%R by (apply Rmult_le_compat_l; lra).
    assert (13 / 10 * bp (-54) * Rabs (sx X) <= uF D rm * Rabs L)%R; [|lra]. apply Rle_trans with (bp (-53) * Rabs L)%R; [|apply Rmult_le_compat_r; [apply Rabs_pos|lra]]. bpn. lra.
  - intros C. exfalso. bpn_in HX. lra.
  - exact RV.
Qed.
Lemma log1pd_sliver : forall rm x X, is_real D x X -> (dC <= X <= dB)%R -> exists f c k, log1pd_reduce rm x = (f, c, k) /\ accd rm X (kernd rm f c k).
Proof.
  intros rm x X Hx HX. destruct (log1pd_reduce_spec rm x X Hx HX) as (f & c & C & U & ERED & RF & RC & UB & ER & EC). exists f, c, 1. split; [exact ERED|]. clear ERED.
  assert (RH : is_real D logd_ln2hi (IZR 0x162e42fefa3800 * bp (-53))) by (apply (lit_r false); lia). assert (RL : is_real D logd_ln2lo (IZR 0x1ef35793c76730 * bp (-97))) by (apply (lit_r false); lia).
  pose proof (uD' rm) as U0. pose proof (uDl rm) as UL. set (d := ((1 + X - U) / U)%R) in *.
  assert (DB : (Rabs d <= 2 * uF D rm)%R).
  { unfold d, Rdiv. rewrite Rabs_mult, (Rabs_pos_eq (/ U)) by (apply Rlt_le, Rinv_0_lt_compat; lra). assert (/ U <= 1)%R by (rewrite <- Rinv_1; apply Rinv_le; lra). assert (0 < / U)%R by (apply Rinv_0_lt_compat; lra). pose proof (Rabs_pos (1 + X - U)). nra. }
  assert (CB : (Rabs C <= / 1000000)%R). { replace C with ((C - d) + d)%R by ring. eapply Rle_trans; [apply Rabs_triang|]. lra. }
  assert (FB : (- 2929 / 10000 <= U / 2 - 1 <= - 2928 / 10000)%R) by lra.
  destruct (kernel1 rm l1d_odd l1d_even d_odd d_even do_real de_real ltac:(discriminate) ltac:(discriminate) do_b de_b _ _ _ _ logd_ln2hi logd_ln2lo _ _ false RF RC RH RL FB CB ltac:(bpn; rewrite Rabs_pos_eq; lra) ltac:(bpn; lra)) as (v & EV & BV & RV & _).
  cbv zeta in *.
  destruct (Gd_rel (U / 2 - 1) ltac:(lra)) as [GR _]. pose proof (sx_abs (U / 2 - 1) ltac:(lra)) as SA. rewrite (Rabs_left (U / 2 - 1)) in SA by lra.
  assert (SB : (Rabs (sx (U / 2 - 1)) <= 173 / 1000)%R) by lra.
  assert (HXn : (414213 / 1000000 <= X <= 4143 / 10000)%R) by (bpn_in HX; lra).
  pose proof (ln_split X U ltac:(lra) ltac:(lra)) as LS. cbv zeta in LS. fold d in LS. specialize (LS ltac:(lra)).
  assert (D2 : (2 * (d * d) <= uF D rm)%R). { replace (d * d)%R with (Rabs d * Rabs d)%R by (rewrite <- Rabs_mult; apply Rabs_pos_eq; nra). apply Rle_trans with (2 * (2 * uF D rm * (2 * uF D rm)))%R; [apply Rmult_le_compat_l; [lra|]; apply Rmult_le_compat; try lra; apply Rabs_pos|]. assert (uF D rm * uF D rm <= / 1000000000000000 * uF D rm)%R by (apply Rmult_le_compat_r; lra). lra. }
  assert (LB : (3465 / 10000 <= ln (1 + X))%R) by interval with (i_prec 50).
  assert (LN2 : (Rabs (IZR 0x162e42fefa3800 * bp (-53) + IZR 0x1ef35793c76730 * bp (-97) - ln 2) <= bp (-90))%R) by (bpn; interval with (i_prec 150)).
  set (G := Gx d_odd d_even (U / 2 - 1)) in *. set (l1 := ln (1 + (U / 2 - 1))) in *. set (L := ln (1 + X)) in *. set (HI := (IZR 0x162e42fefa3800 * bp (-53))%R) in *. set (LO := (IZR 0x1ef35793c76730 * bp (-97))%R) in *. set (l2 := ln 2) in *.
  assert (B90 : (bp (-90) <= uF D rm)%R) by (apply Rle_trans with (2 := proj1 UL); apply bpow_le; lia).
  assert (GE : (Rabs (G - l1) <= 225 / 1000 * bp (-44))%R) by (apply Rle_trans with (1 := GR); pose proof (bpow_gt_0 radix2 (-44)); nra).
  exists v, false. fold L. split; [|split; [|split]].
  - rewrite (Rabs_pos_eq L) by lra. apply Rabs_le_inv in EV, GE, LN2, LS, EC. bpn_in GE. bpn_in UL. bpn. apply Rabs_le. split; lra.
  - intros H. exfalso. lra.
  - intros H. exfalso. bpn_in HX. lra.
  - exact RV.
Qed.
Lemma log1pd_out : forall rm x X, is_real D x X -> (-1 < X)%R -> (X < - dA \/ dB < X)%R -> (rm = RUP -> x <> inf_mag D - 1) ->
  accd rm X (let u := f_add F64 rm (lit 1 0) x in if f_eq F64 u (lit 1 0) then x else logd_impl rm u).
Proof.
  intros rm x X Hx HX HB HU. cbv zeta. assert (H1 : is_real D (lit 1 0) 1) by (replace 1%R with (1 * bp 0)%R by (change (bp 0) with 1%R; lra); apply (lit_r false); lia).
  destruct (outside D good64 ltac:(vm_compute; congruence) ltac:(vm_compute; congruence) ltac:(vm_compute; congruence) ld_max rm x _ X Hx H1 HX ltac:(bpn_in HB; lra) HU) as (U & RU & UP & UN & LE & LG).
  replace (f_eq D (f_add D rm (lit 1 0) x) (lit 1 0)) with false. 2: { symmetry. destruct RU as (_ & F1 & V1), H1 as (_ & F2 & V2). rewrite (f_eq_fin D good64), V1, V2 by auto. apply Req_bool_false. auto. }
  destruct (logd_core rm _ U RU UP UN) as (a & b & S & H & -> & RS & RH & WE). assert (UL : (bp (match rm with RNE => -55 | _ => -54 end) <= uF D rm / 2)%R) by (destruct rm; unfold uF; change (prec D) with 53; bpn; lra).
  pose proof (outside_err D ltac:(vm_compute; congruence) rm (S + H)%R _ _ _ LE LG WE ltac:(split; [apply bpow_ge_0|exact UL])) as OE. pose proof (Rabs_pos (ln (1 + X))) as LP. exists (S + H)%R, false. split; [|split; [|split]].
  - apply Rle_trans with (1 := OE). apply Rmult_le_compat_r; [apply Rabs_pos|]. rewrite uD4. apply bpow_le. destruct rm; lia.
  - intros C. exfalso. bpn_in HB. lra.
  - intros _. rewrite uD4 in OE. exact OE.
  - apply add_rounded; auto. apply rel_ne0 with (2 := WE); [destruct rm; lia|]. apply ln_ne0; auto.
Qed.
Lemma log1pd_acc : forall rm x X, is_real D x X -> (-1 < X)%R -> X <> 0%R -> (rm = RUP -> x <> inf_mag D - 1) -> accd rm X (log1pd_impl rm x).
Proof.
  intros rm x X Hx HX N0 HU.
  destruct (log1pd_cases rm x X Hx HX N0) as [[HB E]|[(HB & HT & E)|[(HB & HT & E)|(HB & E)]]]; [rewrite E; clear E..|].
  - apply log1pd_out; auto.
  - destruct Hx as (P & Fi & V). assert (TE : (Rabs (X - ln (1 + X)) <= bp (-53) * Rabs (ln (1 + X)))%R) by (apply tiny_err; [exact HT|bpn; lra]). pose proof (Rabs_pos (ln (1 + X))) as LP.
    exists X, (sign_of D x). split; [|split; [|split]]; try intros _; try (apply Rle_trans with (1 := TE); apply Rmult_le_compat_r; [exact LP|]; apply bpow_le; try destruct rm; lia).
    rewrite <- V. apply (rounded_self D good64); auto.
  - apply log1pd_mid; auto.
  - destruct (log1pd_sliver rm x X Hx HB) as (f & c & k & ER & A). rewrite (E _ _ _ ER). exact A.
Qed.
Theorem log1p_d_accuracy : forall rm x zs, is_pattern D x -> is_fin D x = true -> let X := fval D x in (-1 < X)%R -> X <> 0%R -> (rm = RUP -> x <> inf_mag D - 1) ->
  exists v, (Rabs (v - ln (1 + X)) <= bp (-44) * Rabs (ln (1 + X)))%R /\
    ((- 2 / 10 <= X <= 2 / 10)%R -> (Rabs (v - ln (1 + X)) <= bp (match rm with RNE => -52 | _ => -51 end) * Rabs (ln (1 + X)))%R) /\
    ((X <= - 293 / 1000 \/ 4143 / 10000 <= X)%R -> (Rabs (v - ln (1 + X)) <= bp (match rm with RNE => -51 | _ => -50 end) * Rabs (ln (1 + X)))%R) /\ rounded D rm v zs (log1p_d rm x).
Proof.
  intros rm x zs P Fi X HX N0 HU. destruct (log1p_wrapper_spec D good64 ld_m1 (log1pd_impl rm) x P) as (_ & _ & _ & _ & _ & E). unfold log1p_d. rewrite (E Fi HX N0). clear E.
  destruct (log1pd_acc rm x X ltac:(split; auto) HX N0 HU) as (v & zs' & A & B & C & R). exists v. split; [exact A|split; [exact B|split; [exact C|]]]. apply rounded_sgn with zs'; auto. apply rel_ne0 with (2 := A); [lia|]. apply ln_ne0; lra.
Qed.
