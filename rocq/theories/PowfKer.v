(** * powf: the kernel *)
From Coq Require Import ZArith Lia Reals Lra List Bool.
From Flocq Require Import Core.
From Interval Require Import Tactic.
From Verif Require Import MachInt Fmt FloatSpec RoundProofs FmtProofs ExtFloatSpec FOps FOpsProofs RemProofs FmanipWide ErrLib LogfNum ExtInterp Expm1Proofs Exp2fProofs ExtFloatProofs Eft SinRedF ExpoData ExpoF ExpoFWrap PowfData Powf PowfTab PowfNum PowfDD PowfRed PowfFast PowfScale PowfPat PowfSlow PowfExp.
Import ListNotations.
Open Scope Z_scope.

(** ** Huge and tiny values round to an infinity and to a zero *)
Lemma pat_eq : forall b s m, is_pattern S32 b -> sign_of S32 b = s -> mag_of S32 b = m -> b = sbit S32 s + m.
Proof. intros b s m P <- <-. exact (pattern_split S32 good32 b P). Qed.
Lemma fr_big : forall W, (bp 130 <= Rabs W)%R -> (bp 130 <= Rabs (fround S32 RNE W))%R.
Proof.
  intros W H. pose proof (VE S32 good32) as VE'. apply (abs_round_ge_generic radix2 (FLT_exp (emin S32) (prec S32)) ZnearestE); [|exact H]. apply generic_format_FLT_bpow; [reflexivity|]. vm_compute; congruence.
Qed.
Lemma fr_tiny : forall W, (Rabs W < bp (-150))%R -> fround S32 RNE W = 0%R.
Proof.
  intros W H. pose proof (VE S32 good32) as VE'. destruct (Req_dec W 0) as [->|N]; [apply round_0; apply valid_rnd_N|].
  change (round radix2 (FLT_exp (emin S32) (prec S32)) (Znearest (fun x => negb (Z.even x))) W = 0%R). apply round_N_small with (mag radix2 W).
  - split; [apply bpow_mag_le; exact N|apply bpow_mag_gt].
  - assert (M : (mag radix2 W <= -150)%Z) by (apply mag_le_bpow; auto). unfold FLT_exp. change (emin S32) with (-149). change (prec S32) with 24. lia.
Qed.
Lemma big_rounded : forall W zs b, (bp 130 <= Rabs W)%R -> (rounded S32 RNE W zs b <-> b = f_inf S32 (Rlt_bool W 0)).
Proof.
  intros W zs b H. pose proof (fr_big W H) as FB. assert (B : (bp 128 < bp 130)%R) by (apply bpow_lt; lia). assert (N : W <> 0%R) by (intros ->; rewrite Rabs_R0 in H; pose proof (bpow_gt_0 radix2 130); lra).
  unfold rounded. rewrite Req_bool_false by exact N. change (bias S32 + 1) with 128. split.
  - intros (P & S & _ & M). apply (pat_eq b _ _ P S). apply M. lra.
  - intros ->. assert (IB : 0 <= inf_mag S32 < sign_unit S32) by (vm_compute; split; congruence). unfold f_inf. split; [apply (sbit_pattern S32 good32); exact IB|]. split; [apply (sign_of_sbit S32 good32); exact IB|]. split; [intros C; lra|]. intros _. apply (mag_of_sbit S32). exact IB.
Qed.
Lemma tiny_rounded : forall W zs b, (0 < Rabs W < bp (-150))%R -> (rounded S32 RNE W zs b <-> b = f_zero S32 (Rlt_bool W 0)).
Proof.
  intros W zs b (H0 & H). pose proof (fr_tiny W H) as FB. assert (N : W <> 0%R) by (intros ->; rewrite Rabs_R0 in H0; lra).
  unfold rounded. rewrite Req_bool_false by exact N. rewrite FB, Rabs_R0. pose proof (bpow_gt_0 radix2 (bias S32 + 1)) as BP. split.
  - intros (P & S & M & _). destruct (M BP) as (Fi & V). replace (f_zero S32 (Rlt_bool W 0)) with (sbit S32 (Rlt_bool W 0) + 0) by (unfold f_zero; ring). apply (pat_eq b _ _ P S). pose proof (Rabs_fval S32 good32 b Fi) as A. rewrite V, Rabs_R0 in A. pose proof (mag_range S32 good32 b). apply (mval_inj S32 good32); [lia|lia|]. rewrite <- A. symmetry. apply mval_0. exact good32.
  - intros ->. assert (IB : 0 <= 0 < sign_unit S32) by (vm_compute; split; congruence). unfold f_zero. split; [destruct (Rlt_bool W 0); split; vm_compute; congruence|]. split; [destruct (Rlt_bool W 0); vm_compute; reflexivity|]. split; [|intros C; lra]. intros _. assert (Fi : is_fin S32 (sbit S32 (Rlt_bool W 0)) = true) by (destruct (Rlt_bool W 0); vm_compute; reflexivity). split; [exact Fi|]. pose proof (Rabs_fval S32 good32 _ Fi) as A. replace (mag_of S32 (sbit S32 (Rlt_bool W 0))) with 0 in A by (destruct (Rlt_bool W 0); vm_compute; reflexivity). rewrite (mval_0 S32 good32) in A. revert A. apply Rabs_eq_R0.
Qed.
Lemma narrow_s : forall y W zs, is_real D y W -> W <> 0%R -> rounded S32 RNE W zs (f_cast D S32 RNE y).
Proof. intros y W zs (P & Fi & V) HW. apply rounded_sgn with (sign_of D y); [|exact HW]. rewrite <- V. apply f_cast_spec; auto; first [exact good64|exact good32]. Qed.

Lemma pm_lt : forall s W, (0 < pm s * W)%R -> Rlt_bool W 0 = s.
Proof. intros [|] W H; unfold pm in H; [apply Rlt_bool_true|apply Rlt_bool_false]; lra. Qed.
Lemma Rp2_bp : forall k x, (IZR k <= x)%R -> (bp k <= Rpower 2 x)%R.
Proof. intros k x H. rewrite <- Rpower2_Z. apply Rle_Rpower; lra. Qed.
Lemma Rp2_bp' : forall k x, (x <= IZR k)%R -> (Rpower 2 x <= bp k)%R.
Proof. intros k x H. rewrite <- Rpower2_Z. apply Rle_Rpower; lra. Qed.

Lemma ker : forall ct x y ex Y (s : bool), 0 <= x < 2 ^ 31 -> is_real S32 y Y -> (bp (-150) <= Rabs Y <= bp 32)%R -> Z.abs (ex + Z.shiftr x 23) <= 200 ->
  let L := (IZR (ex + Z.shiftr x 23) + log2 (IZR (2 ^ 23 + mant x) * bp (-23)))%R in (bp (-30) <= Rabs L <= 205)%R ->
  exists res, (do q <- pf_reduce false ct RNE x y ex; do h <- pf_scale (pr_hm q) (if s then 0x8000000000000000 else 0); pf_finish false ct RNE q h) = Some res /\
    ((Rabs (64 * Y * L) <= 12800 /\ exists d W, res = f_cast D S32 RNE d /\ is_real D d W /\ Rabs (W - pm s * Rpower 2 (Y * L)) <= bp (-28) * Rpower 2 (Y * L)) \/
     (12800 < 64 * Y * L /\ res = f_inf S32 s) \/ (64 * Y * L < - 12800 /\ res = f_zero S32 s))%R.
Proof.
  intros ct x y ex Y s Hx Hy HY HE L HL.
  destruct (red_g ct x y ex Y Hx Hy HY HE HL) as (q & EQ & RG). fold L in RG. destruct RG as [(DX & L2 & HI & MID & LO & n & HLo & W & z & tl & tm & th & EZ & AT & RN & RDX & RLO & RMID & RY6 & RHM & RHI & RW & E1 & E2 & E3 & WB)].
  rewrite EQ. cbn [bindo]. set (E := ex + Z.shiftr x 23) in *.
  pose proof v_pos as VP. destruct vk as (K38 & K40 & K45 & K60 & K37 & K50). assert (K44 : bp (-44) = (128 * v)%R) by (unfold v; bpn; lra). assert (K28 : bp (-28) = (8388608 * v)%R) by (unfold v; bpn; lra). assert (K53 : bp (-53) = (/ 4 * v)%R) by (unfold v; bpn; lra).
  assert (VV : (v <= / 2000000000000000)%R) by (unfold v; bpn; lra).
  set (Y6 := (64 * Y)%R) in *. set (T := (Y6 * L)%R) in *. assert (TA : (Rabs Y6 * Rabs L = Rabs T)%R) by (unfold T; rewrite Rabs_mult; ring). rewrite TA in *. rewrite K37 in *.
  assert (U6 : (bp (-144) <= Rabs Y6 <= bp 38)%R). { unfold Y6. rewrite Rabs_mult, (Rabs_pos_eq 64) by lra. replace (bp (-144)) with (64 * bp (-150))%R by (replace 64%R with (bp 6) by (bpn; lra); rewrite <- bpow_plus; reflexivity). replace (bp 38) with (64 * bp 32)%R by (bpn; lra). lra. }
  assert (TU : (Rabs T <= bp 46)%R). { rewrite <- TA. apply Rle_trans with (bp 38 * bp 8)%R; [apply Rmult_le_compat; try apply Rabs_pos; [lra|]; apply Rle_trans with 205%R; [lra|bpn; lra]|]. rewrite <- bpow_plus. apply bpow_le. lia. }
  assert (VT : (0 <= v * Rabs T <= / 1000000000 * Rabs T)%R) by (split; [apply Rmult_le_pos; [lra|apply Rabs_pos]|apply Rmult_le_compat_r; [apply Rabs_pos|lra]]).
  assert (NT : (Rabs (IZR n) <= 1.01 * Rabs T + / 2)%R). { replace (IZR n) with (T - (T - IZR n))%R by ring. eapply Rle_trans; [apply Rabs_triang|]. rewrite Rabs_Ropp. lra. }
  assert (NB : Z.abs n < 2 ^ 62). { apply lt_IZR. rewrite abs_IZR. eapply Rle_lt_trans; [exact NT|]. change (IZR (2 ^ 62)) with 4611686018427387904%R. replace (bp 46) with 70368744177664%R in TU by (bpn; lra). lra. }
  destruct (scale_ok (pr_hm q) n s RHM NB) as (h & l & A & B & ES & Rh & Rl & EA & EB). rewrite ES. cbn [bindo].
  set (c := clamp15 n) in *. set (G := Rpower 2 (IZR c / 64)) in *.
  assert (CB : - 2 ^ 15 <= c <= 2 ^ 15) by (unfold c, clamp15; destruct (2 ^ 15 <? n) eqn:F1; [lia|]; apply Z.ltb_ge in F1; destruct (n <? - 2 ^ 15) eqn:F2; [lia|]; apply Z.ltb_ge in F2; lia).
  assert (GB : (bp (-512) <= G <= bp 512)%R). { destruct CB as (c1 & c2). apply IZR_le in c1, c2. change (IZR (- 2 ^ 15)) with (-32768)%R in c1. change (IZR (2 ^ 15)) with 32768%R in c2. split; [apply Rp2_bp|apply Rp2_bp']; lra. }
  assert (PG : (0 < bp (-512))%R) by apply bpow_gt_0. assert (GP : (0 < G)%R) by lra. rewrite K53 in *.
  assert (VG : (0 < v * G <= / 1000000000000 * G)%R) by (split; [apply Rmult_lt_0_compat; lra|apply Rmult_le_compat_r; lra]).
  (* the first result *)
  destruct (poly_exp_g RNE (pr_lo6 q) W RW WB) as (PP & RPP & EPP). pose proof (exp_poly_far W WB) as FAR.
  assert (PB : (0.79 <= PP <= 1.21)%R) by (apply Rabs_le_inv in EPP; lra).
  assert (AB : (0.99 * G <= A <= 1.01 * G)%R) by (apply Rabs_le_inv in EA; lra).
  assert (PA : (0.7 * G <= PP * A <= 1.3 * G)%R). { split; [apply Rle_trans with (0.79 * (0.99 * G))%R; [lra|apply Rmult_le_compat; lra]|apply Rle_trans with (1.21 * (1.01 * G))%R; [apply Rmult_le_compat; lra|lra]]. }
  assert (XB : forall k, (0.5 * G <= k <= 2 * G)%R -> (bp (-1000) <= k <= bp 1000)%R). { intros k K. split; [apply Rle_trans with (bp (-513)); [apply bpow_le; lia|replace (bp (-513)) with (/ 2 * bp (-512))%R by (change (/ 2)%R with (bp (-1)); rewrite <- bpow_plus; reflexivity); lra]|apply Rle_trans with (bp 513); [replace (bp 513) with (2 * bp 512)%R by (change 2%R with (bp 1) at 1; rewrite <- bpow_plus; reflexivity); lra|apply bpow_le; lia]]. }
  destruct (mul_g RNE _ h PP (pm s * A) (1.3 * G) RPP Rh) as (R & RR & ER). { replace (PP * (pm s * A))%R with (pm s * (PP * A))%R by ring. rewrite pm_abs, Rabs_pos_eq; lra. } { apply XB; lra. }
  replace (PP * (pm s * A))%R with (pm s * (PP * A))%R in ER by ring.
  unfold pf_finish. cbn [fst]. set (r := f_mul D RNE (pf_poly RNE pf_exp (pr_lo6 q)) h) in *.
  assert (pmm : (pm s * pm s = 1)%R) by (destruct s; unfold pm; ring).
  assert (SR : (Rabs (pm s * R - PP * A) <= 2 * (v * G))%R). { replace (pm s * R - PP * A)%R with (pm s * (R - pm s * (PP * A)))%R by (transitivity (pm s * R - (pm s * pm s) * (PP * A))%R; [ring|rewrite pmm; ring]). rewrite pm_abs. lra. }
  pose proof (Rabs_le_inv _ _ SR) as SR'. assert (AR : (Rabs R = pm s * R)%R) by (rewrite <- (pm_abs s R); apply Rabs_pos_eq; lra).
  assert (RX : (bp (-1000) <= Rabs R <= bp 1000)%R) by (apply XB; lra).
  destruct (near_pat r 128 R RR RX ltac:(lia)) as (VU & RVU & EVU). destruct (near_pat r (-128) R RR RX ltac:(lia)) as (VD & RVD & EVD). rewrite K44 in *. replace (r + -128) with (r - 128) in RVD by ring.
  assert (VR : (v * Rabs R <= v * (2 * G))%R) by (apply Rmult_le_compat_l; lra).
  assert (SV : forall V, (Rabs (V - R) <= 128 * v * Rabs R)%R -> (0.6 * G <= pm s * V <= 1.4 * G /\ Rabs V = pm s * V)%R).
  { intros V EV. assert (EV' : (Rabs (pm s * V - pm s * R) <= 256 * (v * G))%R) by (replace (pm s * V - pm s * R)%R with (pm s * (V - R))%R by ring; rewrite pm_abs; lra). apply Rabs_le_inv in EV'. split; [lra|]. rewrite <- (pm_abs s V). apply Rabs_pos_eq. lra. }
  destruct (SV VU EVU) as (BU & AU). destruct (SV VD EVD) as (BD & AD).
  assert (NU : (VU <> 0)%R) by (intros ->; lra). assert (ND : (VD <> 0)%R) by (intros ->; lra).
  pose proof (narrow_s _ VU false RVU NU) as CU. pose proof (narrow_s _ VD false RVD ND) as CD.
  assert (LU : Rlt_bool VU 0 = s) by (apply pm_lt; lra). assert (LD : Rlt_bool VD 0 = s) by (apply pm_lt; lra).
  destruct (Rle_or_lt (Rabs T) 12800) as [RA|RB].
  - (* the results in range, and a little beyond *)
    assert (VT2 : (v * Rabs T <= v * 12800)%R) by (apply Rmult_le_compat_l; lra).
    assert (CN : c = n). { unfold c, clamp15. assert (NZ : Z.abs n <= 12929) by (apply le_IZR; rewrite abs_IZR; lra). destruct (2 ^ 15 <? n) eqn:F1; [apply Z.ltb_lt in F1; lia|]. destruct (n <? - 2 ^ 15) eqn:F2; [apply Z.ltb_lt in F2; lia|]. reflexivity. }
    set (t := (T - IZR n)%R) in *. assert (TB : (Rabs t <= 0.51)%R) by lra.
    set (Rt := Rpower 2 (t / 64)) in *. assert (RTB : (0.99 <= Rt <= 1.01)%R) by (unfold Rt, Rpower; split; interval with (i_prec 40)).
    assert (GT : Rpower 2 (Y * L) = (G * Rt)%R). { unfold G, Rt. rewrite <- Rpower_plus. f_equal. unfold t, T, Y6. rewrite CN. field. }
    assert (GR : (0.99 * G <= G * Rt <= 1.01 * G)%R) by (rewrite (Rmult_comm 0.99), (Rmult_comm 1.01); split; apply Rmult_le_compat_l; lra).
    assert (VGR : (v * (0.99 * G) <= v * (G * Rt))%R) by (apply Rmult_le_compat_l; lra).
    rewrite GT. destruct (f_eq S32 _ _) eqn:FE.
    + eexists. split; [reflexivity|]. left. split; [exact RA|]. exists (wrap 64 (r + 128)), VU. split; [reflexivity|]. split; [exact RVU|].
      assert (EW : (Rabs (W - t) <= 220000000 * v)%R) by lra. assert (WB1 : (Rabs W <= 1)%R) by (eapply Rle_trans; [apply (near_b _ _ _ _ EW TB)|lra]).
      pose proof (exp_poly W WB1) as XP. rewrite K40 in XP. pose proof (pow_shift W t _ EW ltac:(lra) ltac:(lra)) as PS. fold Rt in PS.
      assert (EP : (Rabs (PP - Rt) <= 2700000 * v)%R). { replace (PP - Rt)%R with ((PP - hr W re) + ((hr W re - Rpower 2 (W / 64)) + (Rpower 2 (W / 64) - Rt)))%R by ring. eapply Rle_trans; [apply tri; [exact EPP|apply tri; [exact XP|exact PS]]|]. lra. }
      assert (EPA : (Rabs (A * PP - G * Rt) <= 2800000 * (v * G))%R). { assert (X1 : (Rabs G <= G)%R) by (rewrite Rabs_pos_eq; lra). assert (X2 : (Rabs PP <= 1.21)%R) by (rewrite Rabs_pos_eq; lra). pose proof (mul_near A PP G Rt _ _ _ _ EA EP X1 X2) as MN. lra. }
      replace (VU - pm s * (G * Rt))%R with ((VU - R) + ((R - pm s * (PP * A)) + pm s * (A * PP - G * Rt)))%R by ring. rewrite K28.
      eapply Rle_trans; [apply tri; [exact EVU|apply tri; [exact ER|rewrite pm_abs; exact EPA]]|]. lra.
    + unfold pf_double_double. destruct (ddlog_g ct (pr_idx q) E L DX L2 HI MID LO z (pr_dx q) tl tm th RN EZ AT RDX RLO RMID HL) as (lg & H & Lo & ELG & RH & RLo & EH & ELo & HB). rewrite ELG. cbn [bindo].
      destruct RN as [Rd Rlw RL RS Rdd Rhh R2 Rm Ro Rz]. rewrite K60 in RL.
      assert (TT : (Rabs Y6 * Rabs L = Rabs T)%R) by exact TA.
      assert (Y5 : (Rabs (Y6 * (IZR E + HI)) <= 5 * Rabs T)%R). { eapply Rle_trans; [apply mulb; [apply Rle_refl|exact Rhh]|]. lra. }
      assert (HLB : (Rabs HLo <= 7 * (Rabs Y6 * Rabs L) + 1)%R). { rewrite TT. eapply Rle_trans; [apply (near_b _ _ _ (5 * Rabs T + (1.01 * Rabs T + / 2)) E2)|lra]. unfold Rminus. apply tri; [exact Y5|]. rewrite Rabs_Ropp. exact NT. }
      assert (G3 : (bp (-300) <= G <= bp 300)%R). { assert (NZ : (Rabs (IZR c) <= 12929)%R) by (rewrite CN; lra). apply Rabs_le_inv in NZ. split; [apply Rp2_bp|apply Rp2_bp']; lra. }
      destruct (ddexp_g lg (pr_y6 q) (pr_hi q) h l s H Lo Y6 HLo A B G (Rabs L) t RH RLo RY6 RHI Rh Rl) as (V & RV & EV); auto.
      { rewrite K53. exact EA. } { rewrite K53. exact EB. } { rewrite TT. lra. }
      { replace (Y6 * H + HLo - t)%R with (Y6 * (H - (MID + log2 (1 + DX))) + ((HLo - (Y6 * (IZR E + HI) - IZR n)) + - (Y6 * (L - (IZR E + HI + MID + log2 (1 + DX))))))%R by (unfold t, T; ring).
        assert (M1 : (Rabs (Y6 * (H - (MID + log2 (1 + DX)))) <= 12600 * (v * Rabs T))%R) by (eapply Rle_trans; [apply mulb; [apply Rle_refl|exact EH]|]; rewrite <- TT; lra).
        assert (M2 : (Rabs (- (Y6 * (L - (IZR E + HI + MID + log2 (1 + DX))))) <= v * Rabs T)%R) by (rewrite Rabs_Ropp; eapply Rle_trans; [apply mulb; [apply Rle_refl|exact RL]|]; rewrite <- TT; pose proof (Rabs_pos Y6); pose proof (Rabs_pos L); pose proof (Rmult_le_pos _ _ H0 H1); assert (0 <= v * (Rabs Y6 * Rabs L))%R by (apply Rmult_le_pos; lra); lra).
        eapply Rle_trans; [apply tri; [exact M1|apply tri; [exact E2|exact M2]]|]. lra. }
      eexists. split; [reflexivity|]. left. split; [exact RA|]. eexists _, V. split; [reflexivity|]. split; [exact RV|]. exact EV.
  - assert (BR : (12800 < T \/ T < - 12800)%R) by (destruct (Rle_or_lt 0 T); [rewrite Rabs_pos_eq in RB by auto; left; auto|rewrite Rabs_left in RB by auto; right; lra]).
    pose proof (Rabs_le_inv _ _ E1) as E1'. destruct BR as [BR|BR].
    + rewrite (Rabs_pos_eq T) in * by lra. assert (NZ : 12780 <= n) by (apply le_IZR; lra).
      assert (CZ : 12780 <= c). { unfold c, clamp15. destruct (2 ^ 15 <? n); [lia|]. destruct (n <? - 2 ^ 15) eqn:F2; [apply Z.ltb_lt in F2; lia|lia]. }
      assert (GG : (bp 199 <= G)%R) by (apply Rp2_bp; apply IZR_le in CZ; lra). assert (B2 : (bp 199 = 2 * bp 198)%R) by (change 2%R with (bp 1) at 1; rewrite <- bpow_plus; reflexivity). assert (B3 : (bp 130 <= bp 198)%R) by (apply bpow_le; lia).
      apply big_rounded in CU; [|lra]. apply big_rounded in CD; [|lra]. rewrite LU in CU. rewrite LD in CD. rewrite CU, CD.
      replace (f_eq S32 (f_inf S32 s) (f_inf S32 s)) with true by (destruct s; vm_compute; reflexivity). eexists. split; [reflexivity|]. right; left. split; [exact BR|reflexivity].
    + rewrite (Rabs_left T) in * by lra. assert (NZ : n <= -12780) by (apply le_IZR; lra).
      assert (CZ : c <= -12780). { unfold c, clamp15. destruct (2 ^ 15 <? n) eqn:F1; [apply Z.ltb_lt in F1; lia|]. destruct (n <? - 2 ^ 15); lia. }
      assert (GG : (G <= bp (-199))%R) by (apply Rp2_bp'; apply IZR_le in CZ; lra). assert (B2 : (bp (-198) = 2 * bp (-199))%R) by (change 2%R with (bp 1) at 1; rewrite <- bpow_plus; reflexivity). assert (B3 : (bp (-198) < bp (-150))%R) by (apply bpow_lt; lia).
      apply tiny_rounded in CU; [|lra]. apply tiny_rounded in CD; [|lra]. rewrite LU in CU. rewrite LD in CD. rewrite CU, CD.
      replace (f_eq S32 (f_zero S32 s) (f_zero S32 s)) with true by (destruct s; vm_compute; reflexivity). eexists. split; [reflexivity|]. right; right. split; [exact BR|reflexivity].
Qed.
