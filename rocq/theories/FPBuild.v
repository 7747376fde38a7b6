(** * The builder functions of FPBits *)
From Coq Require Import ZArith Lia Bool Reals Lra.
From Flocq Require Import Core.
From Verif Require Import MachInt Bits Fmt FloatSpec FmtProofs FOps FOpsProofs ExactOps FPBits FPBitsProofs ExtFloatSpec Fmanip FmanipProofs.
Open Scope Z_scope.

Section Build.
Context (F : fmt) (HF : good_fmt F) (Hel : el F <= 16).

Lemma biased_gen : forall e, 0 <= e + bias F < 2 ^ el F -> to_biased F e mod 2 ^ el F = e + bias F.
Proof.
  intros e He. unfold to_biased. pose proof (gf_el F HF). assert (2 ^ el F <= 2 ^ 16) by (apply Z.pow_le_mono_r; lia). change (2 ^ 16) with 65536 in *.
  rewrite wrap_small by (unfold inU; change (2 ^ 32) with 4294967296; lia). apply Z.mod_small. lia.
Qed.
Lemma pack_real : forall s e m, 0 <= e < expmax F -> 0 <= m < 2 ^ fl F ->
  is_real F (pack F s e m) (sg s * mval F (e * 2 ^ fl F + m)) /\ sign_of F (pack F s e m) = s /\ mag_of F (pack F s e m) = e * 2 ^ fl F + m.
Proof.
  intros s e m He Hm. assert (HE : 0 <= e < 2 ^ el F) by (unfold expmax in He; lia).
  destruct (pack_fields F HF Hel s e m HE Hm) as (S & M & _). assert (FI : is_fin F (pack F s e m) = true).
  { unfold is_fin. rewrite M. unfold inf_mag. apply Z.ltb_lt. nia. }
  split; [|auto]. split; [apply (pack_pattern F HF Hel); auto|]. split; auto. rewrite fval_fin by auto. rewrite S, M. reflexivity.
Qed.
Lemma emax_b : expmax F = 2 * bias F + 1. Proof. apply (expmax_bias F HF). Qed.

Theorem build_one : forall s, is_real F (fp_one F s) (sg s) /\ sign_of F (fp_one F s) = s.
Proof.
  intros s. pose proof (gf_bias F HF). pose proof (gf_fl F HF). pose proof (fl_pos F HF). pose proof emax_b as EB. unfold fp_one. rewrite (encode_eq F HF Hel), biased_gen by (unfold expmax in EB; lia).
  rewrite Z.mod_0_l by lia. assert (E : pack F s (0 + bias F) 0 = f_one F s) by (unfold pack, f_one; lia). rewrite E.
  destruct (f_one_props F HF s) as (P & Fi & S & V & _). split; [split; auto|auto].
Qed.
Theorem build_zero : forall s, is_real F (fp_zero F s) 0 /\ sign_of F (fp_zero F s) = s.
Proof.
  intros s. pose proof (fl_pos F HF). unfold fp_zero. rewrite (encode_eq F HF Hel), (biased_sub F), Z.mod_0_l by lia.
  assert (E : pack F s 0 0 = f_zero F s) by (unfold pack, f_zero; lia). rewrite E. destruct (f_zero_props F HF s) as (P & Fi & _ & S & V). split; [split; auto|auto].
Qed.
(** The least and the greatest subnormal number, the least normal and the greatest finite one. *)
Theorem build_limits : forall s,
  is_real F (fp_min_subnormal F s) (sg s * bpow radix2 (emin F)) /\
  is_real F (fp_max_subnormal F s) (sg s * (bpow radix2 (1 - bias F) - bpow radix2 (emin F))) /\
  is_real F (fp_min_normal F s) (sg s * bpow radix2 (1 - bias F)) /\
  is_real F (fp_max_normal F s) (sg s * (bpow radix2 (bias F + 1) - bpow radix2 (bias F - fl F))) /\
  (forall x, is_fin F x = true -> Rabs (fval F x) <= Rabs (fval F (fp_max_normal F s)))%R /\
  (forall x, is_fin F x = true -> fval F x <> 0%R -> Rabs (fval F (fp_min_subnormal F s)) <= Rabs (fval F x))%R.
Proof.
  intros s. pose proof (gf_bias F HF) as GB. pose proof (gf_fl F HF) as GF. pose proof (fl_pos F HF) as FP. pose proof emax_b as EB. pose proof (prec_fl F HF) as PF.
  assert (F1 : 1 < 2 ^ fl F) by (apply Z.pow_gt_1; lia). assert (FI : IZR (2 ^ fl F) = bpow radix2 (fl F)) by (rewrite bpow_IZR by lia; reflexivity).
  assert (EM : (bpow radix2 (fl F) * bpow radix2 (emin F) = bpow radix2 (1 - bias F))%R) by (rewrite <- bpow_plus; f_equal; unfold emin; lia).
  assert (A1 : fp_min_subnormal F s = pack F s 0 1) by (rewrite (fp_min_subnormal_eq F HF Hel); unfold pack; lia).
  assert (A2 : fp_max_subnormal F s = pack F s 0 (2 ^ fl F - 1)) by (unfold fp_max_subnormal, significand_mask; rewrite (encode_eq F HF Hel), (biased_sub F), Z.mod_small by lia; reflexivity).
  assert (A3 : fp_min_normal F s = pack F s 1 0).
  { unfold fp_min_normal, Exponent_min. rewrite (encode_eq F HF Hel), biased_gen, Z.mod_0_l by (unfold expmax in EB; lia). f_equal. lia. }
  assert (A4 : fp_max_normal F s = pack F s (2 * bias F) (2 ^ fl F - 1)).
  { unfold fp_max_normal, Exponent_max, significand_mask. rewrite (encode_eq F HF Hel), biased_gen, Z.mod_small by (unfold expmax in EB; lia). f_equal. lia. }
  destruct (pack_real s 0 1 ltac:(lia) ltac:(lia)) as (R1 & _ & N1). destruct (pack_real s 0 (2 ^ fl F - 1) ltac:(lia) ltac:(lia)) as (R2 & _ & _).
  destruct (pack_real s 1 0 ltac:(lia) ltac:(lia)) as (R3 & _ & _). destruct (pack_real s (2 * bias F) (2 ^ fl F - 1) ltac:(lia) ltac:(lia)) as (R4 & _ & N4).
  rewrite A1, A2, A3, A4.
  split; [|split; [|split; [|split; [|split]]]].
  - rewrite (mval_small F HF) in R1 by lia. rewrite Z.mul_0_l, Z.add_0_l, Rmult_1_l in R1. exact R1.
  - rewrite (mval_small F HF) in R2 by lia. rewrite Z.mul_0_l, Z.add_0_l, minus_IZR, FI, Rmult_minus_distr_r, EM, Rmult_1_l in R2. exact R2.
  - rewrite (mval_small F HF) in R3 by lia. rewrite Z.mul_1_l, Z.add_0_r, FI, EM in R3. exact R3.
  - assert (V : mval F (2 * bias F * 2 ^ fl F + (2 ^ fl F - 1)) = (IZR (2 ^ prec F - 1) * bpow radix2 (bias F - fl F))%R).
    { rewrite <- (mval_enc F HF (2 ^ prec F - 1) (bias F - fl F)) by (unfold emin; lia). f_equal. unfold enc. rewrite PF. unfold emin. replace (bias F - fl F - (1 - bias F - fl F)) with (2 * bias F - 1) by lia. nia. }
    rewrite V in R4. rewrite minus_IZR in R4. replace (IZR (2 ^ prec F)) with (bpow radix2 (prec F)) in R4 by (rewrite bpow_IZR by (unfold prec; lia); reflexivity).
    rewrite Rmult_minus_distr_r, <- bpow_plus, Rmult_1_l in R4. replace (prec F + (bias F - fl F)) with (bias F + 1) in R4 by (unfold prec; lia). exact R4.
  - intros x Hx. destruct R4 as (P4 & F4 & V4). rewrite !(Rabs_fval F HF) by auto. rewrite N4. pose proof (mag_range F HF x). apply (mval_le F HF); [lia|nia|].
    unfold is_fin, inf_mag in Hx. rewrite EB in Hx. nia.
  - intros x Hx Nx. destruct R1 as (P1 & F1' & V1). rewrite !(Rabs_fval F HF) by auto. rewrite N1. pose proof (mag_range F HF x). apply (mval_le F HF); [lia|lia|].
    assert (mag_of F x <> 0) by (intros E; apply Nx; apply (fval_zero F HF); auto). lia.
Qed.
(** NaNs with a payload; the top bit of the fraction tells quiet from signaling. *)
Theorem build_nans : forall s v, 2 <= fl F ->
  (0 <= v < 2 ^ (fl F - 1) -> let b := fp_signaling_nan F s v in is_pattern F b /\ sign_of F b = s /\ is_nan F b = true /\ Z.testbit b (fl F - 1) = false) /\
  (0 <= v < 2 ^ fl F -> let b := fp_quiet_nan F s v in is_pattern F b /\ sign_of F b = s /\ is_nan F b = true /\ Z.testbit b (fl F - 1) = true).
Proof.
  intros s v Hf. pose proof (fl_pos F HF) as FP. pose proof (gf_el F HF) as GE. pose proof (el_pos F HF) as EP. 
  assert (H2 : 2 ^ fl F = 2 * 2 ^ (fl F - 1)) by (rewrite <- Z.pow_succ_r by lia; f_equal; lia). assert (H4 : 2 ^ (fl F - 1) = 2 * 2 ^ (fl F - 2)) by (rewrite <- Z.pow_succ_r by lia; f_equal; lia).
  assert (P2 : 0 < 2 ^ (fl F - 2)) by (apply pow2_pos; lia).
  assert (K : forall m, 0 < m < 2 ^ fl F -> is_pattern F (pack F s (expmax F) m) /\ sign_of F (pack F s (expmax F) m) = s /\ is_nan F (pack F s (expmax F) m) = true /\
    Z.testbit (pack F s (expmax F) m) (fl F - 1) = Z.testbit m (fl F - 1)).
  { intros m Hm. assert (HE : 0 <= expmax F < 2 ^ el F) by (unfold expmax; lia). destruct (pack_fields F HF Hel s (expmax F) m HE ltac:(lia)) as (S & M & _ & MM).
    split; [apply (pack_pattern F HF Hel); auto; lia|]. split; [auto|]. split; [unfold is_nan; rewrite M; unfold inf_mag; apply Z.ltb_lt; lia|].
    rewrite <- MM at 2. rewrite Z.mod_pow2_bits_low by lia. reflexivity. }
  split; intros Hv; cbv zeta.
  - unfold fp_signaling_nan. rewrite (encode_eq F HF Hel), (biased_inf F HF Hel). unfold Significand_msb.
    set (m := (if v =? 0 then Z.shiftr (2 ^ (fl F - 1)) 1 else v)). assert (Hm : 0 < m < 2 ^ (fl F - 1)).
    { unfold m. destruct (Z.eqb_spec v 0); [|lia]. rewrite Z.shiftr_div_pow2 by lia. change (2 ^ 1) with 2. rewrite H4, Z.mul_comm, Z.div_mul by lia. lia. }
    rewrite Z.mod_small by lia. destruct (K m ltac:(lia)) as (K1 & K2 & K3 & K4). rewrite K4. repeat split; auto; try apply K1.
    rewrite <- (Z.mod_small m (2 ^ (fl F - 1))) by lia. apply Z.mod_pow2_bits_high. lia.
  - unfold fp_quiet_nan. rewrite (encode_eq F HF Hel), (biased_inf F HF Hel). unfold Significand_msb.
    assert (UM : inU (fl F) (Z.lor (2 ^ (fl F - 1)) v)) by (apply inU_lor; unfold inU; lia). unfold inU in UM. rewrite Z.mod_small by lia.
    assert (TB : Z.testbit (Z.lor (2 ^ (fl F - 1)) v) (fl F - 1) = true) by (rewrite Z.lor_spec, Z.pow2_bits_true by lia; reflexivity).
    assert (NZ : Z.lor (2 ^ (fl F - 1)) v <> 0) by (intros E; rewrite E, Z.testbit_0_l in TB; discriminate).
    destruct (K (Z.lor (2 ^ (fl F - 1)) v) ltac:(split; [lia|apply UM])) as (K1 & K2 & K3 & K4). rewrite K4. repeat split; auto; apply K1.
Qed.
End Build.
