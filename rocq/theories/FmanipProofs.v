(** * Proofs about frexp, ilogb, logb and modf *)
From Coq Require Import ZArith Reals Bool Lia Lra Psatz.
From Flocq Require Import Core.
From Verif Require Import MachInt Fmt FloatSpec FmtProofs RoundProofs FOps FOpsProofs ExactOps.
From Verif Require Import FPBits FPBitsProofs Compare CompareProofs Nearest NearestProofs NearestInt Fmanip.
Open Scope Z_scope.

Section S.
Context (F : fmt) (HF : good_fmt F) (Hel : el F <= 16).

Lemma fp_is_inf_or_nan_eq : forall b, fp_is_inf_or_nan F b = negb (is_fin F b).
Proof. intros b. unfold fp_is_inf_or_nan. rewrite fp_is_finite_eq by assumption. reflexivity. Qed.
Lemma fp_inf_eq : forall s, fp_inf F s = f_inf F s.
Proof.
  intros s. unfold fp_inf. rewrite encode_eq by assumption. rewrite biased_inf by assumption.
  rewrite Z.mod_0_l by (pose proof (fl_pos F HF); lia). unfold pack, f_inf, inf_mag. lia.
Qed.
Lemma fp_min_subnormal_eq : forall s, fp_min_subnormal F s = sbit F s + 1.
Proof.
  intros s. unfold fp_min_subnormal. rewrite encode_eq by assumption. rewrite biased_sub by assumption.
  assert (1 < 2 ^ fl F) by (apply Z.pow_gt_1; pose proof (gf_fl F HF); lia).
  rewrite Z.mod_small by lia. unfold pack. lia.
Qed.

Lemma man_mag : forall b, man_field F b = mag_of F b mod 2 ^ fl F.
Proof.
  intros b. unfold man_field, mag_of, sign_unit. pose proof (gf_fl F HF). pose proof (gf_el F HF).
  rewrite Z.pow_add_r by lia. rewrite Z.rem_mul_r by (pose proof (fl_pos F HF); pose proof (pow2_pos (el F) ltac:(lia)); lia).
  rewrite Z.mul_comm, Z.mod_add by (pose proof (fl_pos F HF); lia). rewrite Z.mod_mod by (pose proof (fl_pos F HF); lia). reflexivity.
Qed.
Lemma prec_fl : 2 ^ prec F = 2 * 2 ^ fl F.
Proof.
  unfold prec. pose proof (gf_fl F HF). rewrite Z.pow_add_r by lia. lia.
Qed.

Lemma mval_small : forall a, 0 <= a <= 2 ^ prec F -> mval F a = (IZR a * bpow radix2 (emin F))%R.
Proof.
  intros a Ha. rewrite <- (mval_enc F HF a (emin F)) by (lia || (right; reflexivity)).
  f_equal. unfold enc. lia.
Qed.

Lemma prec_lt_inf : 2 ^ prec F < inf_mag F.
Proof.
  rewrite prec_fl. unfold inf_mag. pose proof (fl_pos F HF).
  assert (2 < expmax F).
  { rewrite expmax_bias by assumption. pose proof (bias_ge2 F HF). lia. }
  nia.
Qed.

Lemma inf_lt_su : inf_mag F < sign_unit F.
Proof. apply inf_lt_sign; assumption. Qed.

Lemma fin_sbit : forall s a, 0 <= a < inf_mag F ->
  is_pattern F (sbit F s + a) /\ is_fin F (sbit F s + a) = true /\
  sign_of F (sbit F s + a) = s /\ mag_of F (sbit F s + a) = a.
Proof.
  intros s a Ha. pose proof inf_lt_su.
  assert (HM : mag_of F (sbit F s + a) = a) by (apply mag_of_sbit; lia).
  repeat split.
  - apply sbit_pattern; [assumption | lia].
  - apply sbit_pattern; [assumption | lia].
  - unfold is_fin. rewrite HM. apply Z.ltb_lt. lia.
  - apply (sign_of_sbit F HF); lia.
  - exact HM.
Qed.

Lemma mul2_sub : forall rm s a, 0 < a < 2 ^ fl F ->
  f_mul F rm (sbit F s + a) (f_pow2 F false 1) = sbit F s + 2 * a.
Proof.
  intros rm s a Ha.
  pose proof prec_lt_inf as HPI. pose proof prec_fl as HP. pose proof (bias_ge2 F HF) as HB.
  destruct (fin_sbit s a ltac:(lia)) as (P1 & F1 & S1 & M1).
  destruct (fin_sbit s (2 * a) ltac:(lia)) as (P2 & F2 & S2 & M2).
  destruct (f_pow2_props F HF false 1 ltac:(lia)) as (Pp & Fp & Sp & Vp & _).
  apply (rounded_exact F HF rm (fval F (sbit F s + a) * fval F (f_pow2 F false 1)) (xorb (sign_of F (sbit F s + a)) (sign_of F (f_pow2 F false 1)))).
  - exact P2.
  - exact F2.
  - rewrite Vp, !fval_sbit by (assumption || lia).
    rewrite (mval_small a), (mval_small (2 * a)) by lia. rewrite mult_IZR.
    change (bpow radix2 1) with 2%R. change (sg false) with 1%R. ring.
  - intros HZ. exfalso. rewrite Vp, fval_sbit in HZ by (assumption || lia).
    rewrite (mval_small a) in HZ by lia.
    assert (0 < IZR a * bpow radix2 (emin F))%R.
    { apply Rmult_lt_0_compat; [apply IZR_lt; lia | apply bpow_gt_0]. }
    change (bpow radix2 1) with 2%R in HZ. unfold sg in HZ. destruct s; lra.
  - apply f_mul_spec; assumption.
Qed.

Lemma frexp_loop_spec : forall rm s fuel a e, 0 < a < 2 ^ prec F -> 2 ^ fl F <= a * 2 ^ Z.of_nat fuel ->
  exists k, 0 <= k /\ 2 ^ fl F <= a * 2 ^ k < 2 ^ prec F /\
    frexp_loop F rm fuel (sbit F s + a) e = Some (sbit F s + a * 2 ^ k, e - k).
Proof.
  intros rm s. induction fuel as [ | n IH]; intros a e Ha Hf;
    pose proof prec_lt_inf as HPI; pose proof prec_fl as HP;
    destruct (fin_sbit s a ltac:(lia)) as (P1 & F1 & S1 & M1).
  - exists 0. change (2 ^ Z.of_nat 0) with 1 in Hf. change (2 ^ 0) with 1.
    split; [lia | ]. split; [lia | ]. cbn [frexp_loop].
    rewrite fp_is_subnormal_eq, M1 by assumption.
    destruct (Z.ltb_spec a (2 ^ fl F)); [lia | ]. cbn [negb]. rewrite Z.mul_1_r, Z.sub_0_r. reflexivity.
  - cbn [frexp_loop]. rewrite fp_is_subnormal_eq, M1 by assumption.
    destruct (Z.ltb_spec a (2 ^ fl F)); cbn [negb].
    + rewrite mul2_sub by lia.
      rewrite Nat2Z.inj_succ, Z.pow_succ_r in Hf by lia.
      destruct (IH (2 * a) (e - 1) ltac:(lia) ltac:(lia)) as (k & Hk & Hr & E).
      exists (k + 1). rewrite Z.pow_add_r by lia. change (2 ^ 1) with 2.
      split; [lia | ]. split; [lia | ]. rewrite E. do 2 f_equal; lia.
    + exists 0. change (2 ^ 0) with 1. split; [lia | ]. split; [lia | ].
      rewrite Z.mul_1_r, Z.sub_0_r. reflexivity.
Qed.

Lemma set_half : forall s A, 2 ^ fl F <= A < inf_mag F ->
  let r := set_biased_exponent_pub F (sbit F s + A) (bias F - 1) in
  is_pattern F r /\ is_fin F r = true /\ sign_of F r = s /\
  (/ 2 <= Rabs (fval F r) < 1)%R /\
  fval F (sbit F s + A) = (fval F r * bpow radix2 (A / 2 ^ fl F - bias F + 1))%R.
Proof.
  intros s A HA. cbv zeta.
  pose proof (bias_ge2 F HF) as HB. pose proof (fl_pos F HF) as Hp.
  pose proof (expmax_bias F HF) as HE. pose proof (gf_fl F HF) as Hfl.
  destruct (fin_sbit s A ltac:(lia)) as (P1 & F1 & S1 & M1).
  pose proof (mag_div F HF (sbit F s + A)) as MD. cbv zeta in MD. rewrite M1 in MD.
  destruct MD as (D1 & D2 & D3).
  assert (HE2 : expmax F < 2 ^ el F) by (unfold expmax; lia).
  destruct (set_fields F HF Hel (sbit F s + A) s (bias F - 1) 0 P1 ltac:(lia) ltac:(lia)) as (_ & HW & _).
  cbv zeta in HW. set (r := set_biased_exponent_pub F (sbit F s + A) (bias F - 1)) in *.
  destruct HW as (Pr & Sr & Er & Mr).
  assert (HMF : man_field F (sbit F s + A) = A mod 2 ^ fl F).
  { rewrite man_mag, M1. reflexivity. }
  assert (Hmag : mag_of F r = (bias F - 1) * 2 ^ fl F + A mod 2 ^ fl F).
  { rewrite !man_mag in *. unfold exp_field in *. rewrite (Z.div_mod (mag_of F r) (2 ^ fl F)) by lia. lia. }
  destruct (normal_val F HF r (bias F - 1) (A mod 2 ^ fl F) ltac:(lia) D2 Hmag) as (Fr & Vr).
  assert (HQ : 1 <= A / 2 ^ fl F).
  { apply Z.div_le_lower_bound; lia. }
  assert (HQ2 : A / 2 ^ fl F < expmax F).
  { apply Z.div_lt_upper_bound; [lia | ]. unfold inf_mag in HA. lia. }
  destruct (normal_val F HF (sbit F s + A) (A / 2 ^ fl F) (A mod 2 ^ fl F) ltac:(lia) D2 ltac:(lia)) as (_ & VA).
  rewrite S1 in *. rewrite Sr in *.
  split; [exact Pr | ]. split; [exact Fr | ]. split; [reflexivity | ].
  split.
  - rewrite Vr, Rabs_mult.
    replace (Rabs (sg s)) with 1%R by (destruct s; unfold sg; unfold Rabs; destruct (Rcase_abs _); lra).
    rewrite Rmult_1_l, Rabs_pos_eq.
    2:{ apply Rmult_le_pos; [apply IZR_le; lia | apply bpow_ge_0]. }
    replace (bias F - 1 - bias F - fl F) with (- (fl F + 1)) by lia.
    rewrite bpow_opp, (bpow_IZR (fl F + 1)) by lia.
    rewrite Z.pow_add_r by lia. change (2 ^ 1) with 2. rewrite mult_IZR, plus_IZR.
    assert (H1 : (0 < IZR (2 ^ fl F))%R) by (apply IZR_lt; lia).
    assert (H2 : (0 <= IZR (A mod 2 ^ fl F))%R) by (apply IZR_le; lia).
    assert (H3 : (IZR (A mod 2 ^ fl F) < IZR (2 ^ fl F))%R) by (apply IZR_lt; lia).
    set (p := IZR (2 ^ fl F)) in *. set (m := IZR (A mod 2 ^ fl F)) in *.
    split.
    + apply Rmult_le_reg_r with (p * 2)%R; [lra | ]. rewrite Rmult_assoc, Rinv_l by lra. lra.
    + apply Rmult_lt_reg_r with (p * 2)%R; [lra | ]. rewrite Rmult_assoc, Rinv_l by lra. lra.
  - rewrite VA, Vr. rewrite !Rmult_assoc. f_equal. f_equal. rewrite <- bpow_plus. f_equal. lia.
Qed.

Theorem frexp_fin : forall rm x e0, is_pattern F x -> is_fin F x = true -> fval F x <> 0%R ->
  exists m e, cc_frexp F rm x e0 = Some (m, e) /\
    is_pattern F m /\ is_fin F m = true /\
    (/ 2 <= Rabs (fval F m) < 1)%R /\ fval F x = (fval F m * bpow radix2 e)%R /\
    2 - bias F - fl F <= e <= bias F + 1.
Proof.
  intros rm x e0 HP HFx HV.
  pose proof (fl_pos F HF) as Hp. pose proof prec_lt_inf as HPI. pose proof prec_fl as HPf.
  pose proof (expmax_bias F HF) as HE. pose proof (gf_fl F HF) as Hfl. pose proof (bias_ge2 F HF) as HB.
  assert (HM0 : mag_of F x <> 0) by (intros HZ; apply HV; apply (fval_zero F HF); assumption).
  pose proof (mag_range F HF x) as HR.
  assert (HI : mag_of F x < inf_mag F) by (unfold is_fin in HFx; apply Z.ltb_lt; exact HFx).
  pose proof (pattern_split F HF x HP) as HS.
  set (s := sign_of F x) in *. set (A := mag_of F x) in *.
  unfold cc_frexp. rewrite fp_is_zero_eq by assumption. fold A.
  destruct (Z.eqb_spec A 0); [lia | ].
  rewrite fp_is_inf_or_nan_eq by assumption. rewrite HFx. cbn [negb].
  rewrite fp_is_subnormal_eq by assumption. fold A.
  destruct (Z.ltb_spec A (2 ^ fl F)) as [Hs | Hn].
  - assert (HX : get_explicit_exponent F x = 1 - bias F).
    { rewrite explicit_exponent_eq by assumption. fold A. destruct (Z.eqb_spec A 0); [lia | ].
      assert (HAe : enc F A (emin F) = A) by (unfold enc; lia).
      destruct (sig_exp_enc F HF A (emin F) ltac:(lia) ltac:(lia) (or_intror eq_refl)) as (_ & HX).
      rewrite HAe in HX. rewrite HX. unfold emin. lia. }
    rewrite HX. rewrite HS.
    destruct (frexp_loop_spec rm s (Z.to_nat (fl F)) A (1 - bias F) ltac:(lia)) as (k & Hk & Hr & EE).
    { rewrite Z2Nat.id by lia. nia. }
    rewrite EE. cbn [fst snd].
    assert (HBd : A * 2 ^ k < inf_mag F) by lia.
    destruct (set_half s (A * 2 ^ k) ltac:(lia)) as (Pr & Fr & Sr & Br & Vr).
    assert (HQ : A * 2 ^ k / 2 ^ fl F = 1).
    { symmetry. apply Z.div_unique with (A * 2 ^ k - 2 ^ fl F); lia. }
    rewrite HQ in Vr.
    eexists _, _. split; [reflexivity | ]. split; [exact Pr | ]. split; [exact Fr | ]. split; [exact Br | ].
    assert (Hkf : k <= fl F).
    { destruct (Z.le_gt_cases k (fl F)) as [ | HK]; [assumption | ].
      assert (2 ^ prec F <= 2 ^ k) by (apply pow2_le; unfold prec; lia).
      assert (1 * 2 ^ k <= A * 2 ^ k) by (apply Z.mul_le_mono_nonneg_r; lia). lia. }
    cbn [fst snd]. split; [ | lia].
    rewrite fval_sbit by (assumption || lia). rewrite fval_sbit in Vr by (assumption || lia).
    rewrite mval_small in Vr by lia. rewrite mval_small by lia.
    rewrite mult_IZR, <- bpow_IZR in Vr by lia.
    replace (1 - bias F - k + 1) with ((1 - bias F + 1) + - k) by lia. rewrite (bpow_plus radix2 (1 - bias F + 1) (- k)), <- (Rmult_assoc (fval F _)), <- Vr.
    replace (sg s * (IZR A * bpow radix2 k * bpow radix2 (emin F)) * bpow radix2 (- k))%R
      with (sg s * (IZR A * bpow radix2 (emin F)) * (bpow radix2 k * bpow radix2 (- k)))%R by ring.
    rewrite <- bpow_plus, Z.add_opp_diag_r. change (bpow radix2 0) with 1%R. ring.
  - cbn [fst snd]. rewrite get_exponent_eq by assumption. fold A.
    destruct (set_half s A ltac:(lia)) as (Pr & Fr & Sr & Br & Vr). rewrite <- HS in Vr, Pr, Fr, Br.
    eexists _, _. split; [reflexivity | ]. split; [exact Pr | ]. split; [exact Fr | ]. split; [exact Br | ].
    split; [exact Vr | ].
    assert (1 <= A / 2 ^ fl F) by (apply Z.div_le_lower_bound; lia).
    assert (A / 2 ^ fl F < expmax F) by (apply Z.div_lt_upper_bound; [lia | unfold inf_mag in HI; lia]).
    cbn [fst snd]. lia.
Qed.

Theorem frexp_special : forall rm x e0, is_pattern F x ->
  (is_fin F x = true /\ fval F x = 0%R -> cc_frexp F rm x e0 = Some (x, 0)) /\
  (is_fin F x = false -> cc_frexp F rm x e0 = Some (x, e0)).
Proof.
  intros rm x e0 HP. unfold cc_frexp. rewrite fp_is_zero_eq, fp_is_inf_or_nan_eq by assumption. split.
  - intros (HX & HV). apply (fval_zero F HF) in HV; [ | assumption]. rewrite HV. reflexivity.
  - intros HX. rewrite HX. cbn [negb].
    unfold is_fin in HX. apply Z.ltb_ge in HX. pose proof (inf_mag_pos F HF).
    destruct (Z.eqb_spec (mag_of F x) 0); [lia | reflexivity].
Qed.

Theorem ilogb_fin : forall rm i0 inan x, is_pattern F x -> is_fin F x = true -> fval F x <> 0%R ->
  exists e, cc_ilogb F rm i0 inan x = Some e /\
    (bpow radix2 e <= Rabs (fval F x) < bpow radix2 (e + 1))%R /\ emin F <= e <= bias F.
Proof.
  intros rm i0 inan x HP HX HV.
  destruct (frexp_fin rm x 0 HP HX HV) as (m & e & E & Pm & Fm & Bm & Vm & Re).
  exists (e - 1). unfold cc_ilogb.
  rewrite fp_is_nan_eq, fp_is_inf_eq, fp_is_zero_eq by assumption.
  assert (HM0 : mag_of F x <> 0) by (intros HZ; apply HV; apply (fval_zero F HF); assumption).
  unfold is_fin, is_nan, is_inf in *. apply Z.ltb_lt in HX.
  destruct (Z.ltb_spec (inf_mag F) (mag_of F x)); [lia | ].
  destruct (Z.eqb_spec (mag_of F x) (inf_mag F)); [lia | ].
  destruct (Z.eqb_spec (mag_of F x) 0); [lia | ].
  rewrite E. cbn [snd]. split; [reflexivity | ]. split.
  - rewrite Vm, Rabs_mult, (Rabs_pos_eq (bpow _ _)) by apply bpow_ge_0.
    pose proof (bpow_gt_0 radix2 e). replace (e - 1 + 1) with e by lia.
    replace (bpow radix2 (e - 1)) with (/ 2 * bpow radix2 e)%R.
    2:{ unfold Z.sub. rewrite bpow_plus. change (bpow radix2 (- (1))) with (/ 2)%R. ring. }
    split; [apply Rmult_le_compat_r; lra | ].
    rewrite <- (Rmult_1_l (bpow radix2 e)) at 2. apply Rmult_lt_compat_r; lra.
  - unfold emin. lia.
Qed.

Theorem ilogb_special : forall rm i0 inan x,
  (is_nan F x = true -> cc_ilogb F rm i0 inan x = Some inan) /\
  (is_inf F x = true -> cc_ilogb F rm i0 inan x = Some (2 ^ 31 - 1)) /\
  (is_fin F x = true -> fval F x = 0%R -> cc_ilogb F rm i0 inan x = Some i0).
Proof.
  intros rm i0 inan x. unfold cc_ilogb. rewrite fp_is_nan_eq, fp_is_inf_eq, fp_is_zero_eq by assumption.
  split; [ | split].
  - intros HN. rewrite HN. reflexivity.
  - intros HI. rewrite HI. unfold is_nan, is_inf in *. apply Z.eqb_eq in HI.
    destruct (Z.ltb_spec (inf_mag F) (mag_of F x)); [lia | reflexivity].
  - intros HX HV. apply (fval_zero F HF) in HV; [ | assumption]. pose proof (inf_mag_pos F HF).
    unfold is_nan, is_inf. rewrite HV.
    destruct (Z.ltb_spec (inf_mag F) 0); [lia | ]. destruct (Z.eqb_spec 0 (inf_mag F)); [lia | ].
    reflexivity.
Qed.

Theorem logb_fin : forall rm x, bias F + fl F <= 2 ^ prec F ->
  is_pattern F x -> is_fin F x = true -> fval F x <> 0%R ->
  exists r e, cc_logb F rm x = Some r /\ is_pattern F r /\ is_fin F r = true /\ fval F r = IZR e /\
    (bpow radix2 e <= Rabs (fval F x) < bpow radix2 (e + 1))%R.
Proof.
  intros rm x HBF HP HX HV.
  destruct (ilogb_fin rm 0 0 x HP HX HV) as (e & E & B & Re).
  exists (f_of_Z F rm e), e. unfold cc_logb.
  rewrite fp_is_nan_eq, fp_is_inf_eq, fp_is_zero_eq by assumption.
  assert (HM0 : mag_of F x <> 0) by (intros HZ; apply HV; apply (fval_zero F HF); assumption).
  unfold is_fin, is_nan, is_inf in *. apply Z.ltb_lt in HX.
  destruct (Z.ltb_spec (inf_mag F) (mag_of F x)); [lia | ].
  destruct (Z.eqb_spec (mag_of F x) (inf_mag F)); [lia | ].
  destruct (Z.eqb_spec (mag_of F x) 0); [lia | ].
  rewrite E. split; [reflexivity | ].
  assert (Ha : Z.abs e <= 2 ^ prec F) by (pose proof (bias_ge2 F HF); pose proof (gf_fl F HF); unfold emin in Re; lia).
  pose proof (round_int_spec F HF rm false e 0) as HR. change (bpow radix2 0) with 1%R in HR. rewrite Rmult_1_r in HR.
  destruct (rounded_repr F rm (IZR e) false (f_of_Z F rm e) (format_int F HF e Ha) (int_bound F HF e Ha) HR) as (H1' & H2' & H3' & _).
  split; [exact H1' | ]. split; [exact H2' | ]. split; [exact H3' | exact B].
Qed.

Theorem logb_special : forall rm x,
  (is_nan F x = true -> cc_logb F rm x = Some x) /\
  (is_inf F x = true -> cc_logb F rm x = Some (f_inf F false)) /\
  (is_fin F x = true -> fval F x = 0%R -> cc_logb F rm x = Some (f_inf F true)).
Proof.
  intros rm x. unfold cc_logb. rewrite fp_is_nan_eq, fp_is_inf_eq, fp_is_zero_eq by assumption.
  rewrite fp_inf_eq by assumption.
  split; [ | split].
  - intros HN. rewrite HN. reflexivity.
  - intros HI. rewrite HI. unfold is_nan, is_inf in *. apply Z.eqb_eq in HI.
    destruct (Z.ltb_spec (inf_mag F) (mag_of F x)); [lia | reflexivity].
  - intros HX HV. apply (fval_zero F HF) in HV; [ | assumption]. pose proof (inf_mag_pos F HF).
    unfold is_nan, is_inf. rewrite HV.
    destruct (Z.ltb_spec (inf_mag F) 0); [lia | ]. destruct (Z.eqb_spec 0 (inf_mag F)); [lia | ].
    f_equal. cbn [Z.eqb]. destruct (f_inf_props F HF false) as (P1 & I1 & S1).
    unfold f_neg. rewrite S1. unfold is_inf in I1. apply Z.eqb_eq in I1. rewrite I1. reflexivity.
Qed.

(** ** modf *)
Lemma trunc_frac : forall x, (Rabs (x - IZR (Ztrunc x)) < 1)%R /\
  (x <> IZR (Ztrunc x) -> Rlt_bool (x - IZR (Ztrunc x)) 0 = Rlt_bool x 0) /\
  (Rabs (x - IZR (Ztrunc x)) <= Rabs x)%R.
Proof.
  intros x. destruct (Rlt_le_dec x 0) as [HN | HP].
  - rewrite Ztrunc_ceil by lra. pose proof (Zceil_ub x). pose proof (Zceil_lb x).
    assert (HC : (IZR (Zceil x) <= 0)%R) by (apply IZR_le, Zceil_glb; lra).
    split; [ | split].
    + apply Rabs_def1; lra.
    + intros HD. rewrite !Rlt_bool_true by lra. reflexivity.
    + rewrite !Rabs_left1 by lra. lra.
  - rewrite Ztrunc_floor by lra. pose proof (Zfloor_ub x). pose proof (Zfloor_lb x).
    assert (HC : (0 <= IZR (Zfloor x))%R) by (apply IZR_le, Zfloor_lub; lra).
    split; [ | split].
    + apply Rabs_def1; lra.
    + intros HD. rewrite !Rlt_bool_false by lra. reflexivity.
    + rewrite !Rabs_pos_eq by lra. lra.
Qed.

Lemma format_frac : forall b z, is_fin F b = true -> (Rabs (fval F b - IZR z) <= Rabs (fval F b))%R ->
  (fval F b = IZR z \/ generic_format radix2 (FLT_exp (emin F) (prec F)) (fval F b - IZR z)) \/
  (exists k, fval F b = IZR k).
Proof.
  intros b z Hb HA. destruct (decode_fin F HF b Hb) as (m & e & _ & Hm & He & _ & _ & HV).
  destruct (Z.le_gt_cases 0 e) as [H0 | H0].
  - right. exists (szval (sign_of F b) m * 2 ^ e). rewrite HV, mult_IZR, sg_sz, bpow_IZR by assumption. ring.
  - left. right.
    assert (HX : (fval F b - IZR z)%R = F2R (Float radix2 (szval (sign_of F b) m - z * 2 ^ (- e)) e)).
    { unfold F2R. cbn [Fnum Fexp]. rewrite minus_IZR, sg_sz, mult_IZR, <- bpow_IZR, HV by lia.
      rewrite Rmult_minus_distr_r, (Rmult_assoc (IZR z)), <- bpow_plus. replace (- e + e) with 0 by lia.
      change (bpow radix2 0) with 1%R. ring. }
    apply generic_format_FLT. exists (Float radix2 (szval (sign_of F b) m - z * 2 ^ (- e)) e).
    + exact HX.
    + cbn [Fnum]. change (radix_val radix2) with 2.
      apply Z.le_lt_trans with m; [ | lia].
      rewrite HX in HA. rewrite HV, Rabs_sg, Rabs_mult in HA.
      unfold F2R in HA. cbn [Fnum Fexp] in HA. rewrite Rabs_mult in HA.
      rewrite (Rabs_pos_eq (bpow _ _)) in HA by apply bpow_ge_0.
      apply Rmult_le_reg_r in HA; [ | apply bpow_gt_0].
      rewrite <- !abs_IZR in HA. apply le_IZR in HA. lia.
    + exact He.
Qed.

Lemma modf_fin : forall rm x, is_pattern F x -> is_fin F x = true ->
  let f := fst (cc_modf F rm x) in let i := snd (cc_modf F rm x) in
  is_pattern F f /\ is_fin F f = true /\ is_pattern F i /\ is_fin F i = true /\
  fval F i = IZR (Ztrunc (fval F x)) /\ (fval F i + fval F f = fval F x)%R /\ (Rabs (fval F f) < 1)%R /\
  sign_of F f = sign_of F x /\ sign_of F i = sign_of F x.
Proof.
  intros rm x HP HX. unfold cc_modf. rewrite isnan_eq, isinf_eq by assumption.
  assert (HN : is_nan F x = false /\ is_inf F x = false).
  { unfold is_fin, is_nan, is_inf in *. apply Z.ltb_lt in HX. split; [apply Z.ltb_ge | apply Z.eqb_neq]; lia. }
  destruct HN as (HN1 & HN2). rewrite HN1, HN2. rewrite f_eq_zero by assumption.
  destruct (Z.eqb_spec (mag_of F x) 0) as [HZ | HZ].
  - cbn [fst snd]. assert (HV : fval F x = 0%R) by (apply (fval_zero F HF); assumption).
    rewrite HV. rewrite Ztrunc_IZR, Rabs_R0.
    repeat match goal with |- _ /\ _ => split end; try assumption; try reflexivity; lra.
  - destruct (trunc_fin F HF Hel x HP HX) as (Pi & Fi & Si & Vi).
    set (i := cc_trunc F x) in *. cbv zeta.
    pose proof (f_sub_spec F HF rm x i Pi HX Fi) as HS. rewrite Si in HS.
    destruct (trunc_frac (fval F x)) as (T1 & T2 & T3).
    assert (HFm : generic_format radix2 (FLT_exp (emin F) (prec F)) (fval F x - fval F i)).
    { rewrite Vi. destruct (format_frac x _ HX T3) as [[HE | HE] | (k & HE)].
      - rewrite <- HE. rewrite Rminus_diag_eq by reflexivity. apply generic_format_0.
      - exact HE.
      - rewrite HE, Ztrunc_IZR. rewrite Rminus_diag_eq by reflexivity. apply generic_format_0. }
    assert (HBd : (Rabs (fval F x - fval F i) < bpow radix2 (bias F + 1))%R).
    { rewrite Vi. apply Rlt_trans with (1 := T1). change 1%R with (bpow radix2 0). apply bpow_lt.
      pose proof (bias_ge2 F HF). lia. }
    destruct (rounded_repr F rm _ _ _ HFm HBd HS) as (Pf & Ff & Vf & Sf).
    set (f := f_sub F rm x i) in *. rewrite f_eq_zero by assumption.
    destruct (Z.eqb_spec (mag_of F f) 0) as [HfZ | HfZ]; cbn [fst snd].
    + rewrite fp_zero_eq, fp_sign_eq by assumption.
      destruct (f_zero_props F HF (sign_of F x)) as (Z1 & Z2 & Z3 & Z4 & Z5).
      assert (HV0 : fval F f = 0%R) by (apply (fval_zero F HF); assumption).
      rewrite Z5, Z4, Rabs_R0.
      repeat match goal with |- _ /\ _ => split end; try assumption; try reflexivity; lra.
    + assert (HV0 : fval F f <> 0%R) by (rewrite (fval_zero F HF) by assumption; assumption).
      rewrite Req_bool_false in Sf by lra.
      repeat match goal with |- _ /\ _ => split end; try assumption; try lra.
      * rewrite Vf, Vi. exact T1.
      * rewrite Sf, Vi, T2 by (rewrite <- Vi; lra). symmetry. apply sign_fval; [assumption | assumption | ].
        intros HZ2. apply HZ. apply (fval_zero F HF); assumption.
Qed.

Lemma modf_special : forall rm x, is_pattern F x ->
  (is_inf F x = true -> cc_modf F rm x = (f_zero F (sign_of F x), x)) /\
  (is_nan F x = true -> cc_modf F rm x = (x, x)).
Proof.
  intros rm x HP. unfold cc_modf. rewrite isnan_eq, isinf_eq by assumption. split; intros H.
  - rewrite H. assert (HN : is_nan F x = false).
    { unfold is_nan, is_inf in *. apply Z.eqb_eq in H. apply Z.ltb_ge. lia. }
    rewrite HN, fp_zero_eq, fp_sign_eq by assumption. reflexivity.
  - rewrite H. reflexivity.
Qed.
End S.
