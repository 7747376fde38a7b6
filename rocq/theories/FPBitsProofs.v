(** * Facts about the FPBits model *)
From Coq Require Import ZArith Lia Bool Reals Lra.
From Flocq Require Import Core.
From Verif Require Import MachInt Bits BitsSpec BitsProofs Fmt FloatSpec FmtProofs RoundProofs FOps FOpsProofs FPBits.
Open Scope Z_scope.

Lemma land_field : forall b n k, 0 <= n -> 0 <= k ->
  Z.land b ((2 ^ n - 1) * 2 ^ k) = ((b / 2 ^ k) mod 2 ^ n) * 2 ^ k.
Proof.
  intros b n k Hn Hk. apply Z.bits_inj'. intros i Hi.
  rewrite Z.land_spec, !Z.mul_pow2_bits by auto.
  destruct (Z_lt_le_dec i k).
  - rewrite !(Z.testbit_neg_r _ (i - k)) by lia. apply andb_false_r.
  - change (2 ^ n - 1) with (Z.pred (2 ^ n)); rewrite <- Z.ones_equiv.
    rewrite Z.testbit_ones by lia. destruct (Z_lt_le_dec (i - k) n).
    + rewrite Z.mod_pow2_bits_low, Z.div_pow2_bits by lia. replace (i - k + k) with i by lia.
      replace (0 <=? i - k) with true by lia. replace (i - k <? n) with true by lia. apply andb_true_r.
    + rewrite Z.mod_pow2_bits_high by lia. replace (i - k <? n) with false by lia.
      rewrite andb_false_r. apply andb_false_r.
Qed.
Lemma land_low : forall b n, 0 <= n -> Z.land b (2 ^ n - 1) = b mod 2 ^ n.
Proof.
  intros b n Hn. replace (2 ^ n - 1) with ((2 ^ n - 1) * 2 ^ 0) by ring.
  rewrite land_field by lia. change (2 ^ 0) with 1. rewrite Z.div_1_r. ring.
Qed.

Lemma merge_val : forall a b m, merge a b m = a - Z.land a m + Z.land b m.
Proof.
  intros a b m. unfold merge.
  assert (H1 : a - Z.land a m = Z.ldiff a m).
  { rewrite Z.sub_nocarry_ldiff.
    - apply Z.bits_inj'. intros i Hi. rewrite !Z.ldiff_spec, Z.land_spec.
      destruct (Z.testbit a i), (Z.testbit m i); reflexivity.
    - apply Z.bits_inj'. intros i Hi. rewrite !Z.ldiff_spec, Z.land_spec, Z.bits_0.
      destruct (Z.testbit a i), (Z.testbit m i); reflexivity. }
  rewrite H1.
  assert (H2 : Z.land (Z.ldiff a m) (Z.land b m) = 0).
  { apply Z.bits_inj'. intros i Hi. rewrite !Z.land_spec, Z.ldiff_spec, Z.bits_0.
    destruct (Z.testbit a i), (Z.testbit m i), (Z.testbit b i); reflexivity. }
  rewrite Z.add_nocarry_lxor by auto.
  apply Z.bits_inj'. intros i Hi. rewrite !Z.lxor_spec, !Z.land_spec, Z.lxor_spec, Z.ldiff_spec.
  destruct (Z.testbit a i), (Z.testbit m i), (Z.testbit b i); reflexivity.
Qed.

Section FP.
Context (F : fmt) (HF : good_fmt F) (Hel : el F <= 16).
Let Hfl : 1 <= fl F := gf_fl F HF.
Let Hel2 : 2 <= el F := gf_el F HF.

Definition pack (s : bool) (e m : Z) : Z := sbit F s + (e * 2 ^ fl F + m).

Lemma el_pos : 0 < 2 ^ el F. Proof. apply pow2_pos. lia. Qed.
Lemma expmask_eq : exponent_mask F = (2 ^ el F - 1) * 2 ^ fl F.
Proof.
  unfold exponent_mask. rewrite Z.shiftl_mul_pow2 by lia. apply wrap_small. unfold inU.
  rewrite (width_split F HF), (sign_unit_split F HF). pose proof (fl_pos F HF). pose proof el_pos. nia.
Qed.
Lemma signmask_eq : sign_mask F = sign_unit F.
Proof.
  unfold sign_mask, sign_unit. rewrite Z.shiftl_mul_pow2 by lia. rewrite Z.mul_1_l, Z.add_comm.
  apply wrap_small. unfold inU. rewrite (width_split F HF). fold (sign_unit F). pose proof (sign_unit_pos F HF). lia.
Qed.
Lemma expsig_eq : exponent_significand_mask F = sign_unit F - 1.
Proof. unfold exponent_significand_mask, sign_unit. f_equal. f_equal. lia. Qed.

Lemma pack_range : forall (s : bool) e m, 0 <= e < 2 ^ el F -> 0 <= m < 2 ^ fl F ->
  0 <= e * 2 ^ fl F + m < sign_unit F.
Proof. intros. rewrite (sign_unit_split F HF). nia. Qed.

Lemma exp_bits_eq : forall b, exp_bits F b = ((b / 2 ^ fl F) mod 2 ^ el F) * 2 ^ fl F.
Proof. intros. unfold exp_bits. rewrite expmask_eq. apply land_field; lia. Qed.
Lemma sig_bits_eq : forall b, sig_bits F b = b mod 2 ^ fl F.
Proof. intros. unfold sig_bits, significand_mask. apply land_low; lia. Qed.
Lemma get_mantissa_eq : forall b, get_mantissa F b = b mod 2 ^ fl F.
Proof. intros. unfold get_mantissa, fraction_mask. apply land_low; lia. Qed.
Lemma exp_sig_bits_eq : forall b, exp_sig_bits F b = mag_of F b.
Proof. intros. unfold exp_sig_bits, exponent_significand_mask, mag_of, sign_unit. rewrite Z.add_comm. apply land_low. lia. Qed.
Lemma fp_abs_eq : forall b, fp_abs F b = mag_of F b.
Proof. exact exp_sig_bits_eq. Qed.

Lemma el_32 : 2 ^ el F <= 2 ^ 16. Proof. apply pow2_le. lia. Qed.

Lemma field_div : forall b, (b / 2 ^ fl F) mod 2 ^ el F = mag_of F b / 2 ^ fl F.
Proof.
  intros. unfold mag_of. rewrite (sign_unit_split F HF).
  pose proof (fl_pos F HF). pose proof el_pos. rewrite Z.rem_mul_r by lia.
  pose proof (Z.mod_pos_bound b (2 ^ fl F) H).
  apply Z.div_unique with (b mod 2 ^ fl F); [left; auto|]. ring.
Qed.
Lemma field_mod : forall b, b mod 2 ^ fl F = mag_of F b mod 2 ^ fl F.
Proof.
  intros. unfold mag_of. rewrite (sign_unit_split F HF).
  pose proof (fl_pos F HF). pose proof el_pos. rewrite Z.rem_mul_r by lia.
  pose proof (Z.mod_pos_bound b (2 ^ fl F) H).
  apply Z.mod_unique with ((b / 2 ^ fl F) mod 2 ^ el F); [left; auto|]. ring.
Qed.

Lemma biased_exponent_eq : forall b, biased_exponent F b = (b / 2 ^ fl F) mod 2 ^ el F.
Proof.
  intros. unfold biased_exponent. rewrite exp_bits_eq, Z.shiftr_div_pow2 by lia.
  rewrite Z.div_mul by (pose proof (fl_pos F HF); lia). apply wrap_small. unfold inU.
  pose proof (Z.mod_pos_bound (b / 2 ^ fl F) (2 ^ el F) el_pos). pose proof el_32. change (2 ^ 16) with 65536 in *. lia.
Qed.
Lemma get_biased_exponent_eq : forall b, get_biased_exponent F b = (b / 2 ^ fl F) mod 2 ^ el F.
Proof.
  intros. unfold get_biased_exponent. rewrite biased_exponent_eq. apply wrap_small. unfold inU.
  pose proof (Z.mod_pos_bound (b / 2 ^ fl F) (2 ^ el F) el_pos). pose proof el_32. lia.
Qed.
Lemma fp_sign_eq : forall b, fp_sign F b = sign_of F b.
Proof.
  intros. unfold fp_sign. rewrite signmask_eq. unfold sign_of, sign_unit.
  rewrite <- (Z.mul_1_l (2 ^ (fl F + el F))). change 1 with (2 ^ 1 - 1) at 1. rewrite land_field by lia.
  change (2 ^ 1) with 2. rewrite Z.testbit_eqb by lia.
  pose proof (pow2_pos (fl F + el F) ltac:(lia)).
  pose proof (Z.mod_pos_bound (b / 2 ^ (fl F + el F)) 2 ltac:(lia)).
  destruct (Z.eqb_spec ((b / 2 ^ (fl F + el F)) mod 2) 1) as [E|E].
  - rewrite E. rewrite Z.mul_1_l. replace (2 ^ (fl F + el F) =? 0) with false by lia. reflexivity.
  - replace ((b / 2 ^ (fl F + el F)) mod 2) with 0 by lia. reflexivity.
Qed.

Lemma encode_exp_eq : forall be, encode_exp F be = (be mod 2 ^ el F) * 2 ^ fl F.
Proof.
  intros. unfold encode_exp. rewrite expmask_eq, land_field, Z.shiftl_mul_pow2 by lia. f_equal.
  unfold wrap, width. replace (fl F + el F + 1) with (fl F + (el F + 1)) by lia.
  rewrite (Z.pow_add_r 2 (fl F)) by lia. rewrite (Z.mul_comm (2 ^ fl F)), Z.mul_mod_distr_r by (pose proof (fl_pos F HF); pose proof (pow2_pos (el F + 1)); lia).
  rewrite Z.div_mul by (pose proof (fl_pos F HF); lia).
  rewrite pow2_succ by lia. pose proof el_pos.
  rewrite (Z.mul_comm 2), Z.rem_mul_r by lia. rewrite (Z.mul_comm (2 ^ el F)), Z.mod_add by lia.
  apply Z.mod_mod. lia.
Qed.
Lemma encode_sig_eq : forall v, encode_sig F v = v mod 2 ^ fl F.
Proof. intros. unfold encode_sig, significand_mask. apply land_low; lia. Qed.

Lemma encode2_eq : forall be sig, encode2 F be sig = (be mod 2 ^ el F) * 2 ^ fl F + sig mod 2 ^ fl F.
Proof.
  intros. unfold encode2. rewrite encode_exp_eq, encode_sig_eq.
  pose proof (Z.mod_pos_bound sig (2 ^ fl F) (fl_pos F HF)).
  apply lor_add; lia.
Qed.

Lemma encode_eq : forall s be sig, encode F s be sig = pack s (be mod 2 ^ el F) (sig mod 2 ^ fl F).
Proof.
  intros s be sig. unfold encode, pack, sbit. rewrite encode2_eq.
  pose proof (Z.mod_pos_bound sig (2 ^ fl F) (fl_pos F HF)). pose proof (Z.mod_pos_bound be (2 ^ el F) el_pos).
  pose proof (pack_range s _ _ H0 H). destruct s; [|lia]. rewrite signmask_eq. unfold sign_unit in *.
  rewrite <- (Z.mul_1_l (2 ^ (fl F + el F))). apply lor_add; lia.
Qed.

(** ** Fields of a packed value *)
Lemma pack_pattern : forall s e m, 0 <= e < 2 ^ el F -> 0 <= m < 2 ^ fl F -> is_pattern F (pack s e m).
Proof. intros. unfold pack. apply sbit_pattern; auto. apply pack_range; auto. Qed.
Lemma pack_fields : forall s e m, 0 <= e < 2 ^ el F -> 0 <= m < 2 ^ fl F ->
  sign_of F (pack s e m) = s /\ mag_of F (pack s e m) = e * 2 ^ fl F + m /\
  (pack s e m / 2 ^ fl F) mod 2 ^ el F = e /\ pack s e m mod 2 ^ fl F = m.
Proof.
  intros s e m He Hm. pose proof (pack_range s e m He Hm) as Hr. pose proof (fl_pos F HF).
  assert (M : mag_of F (pack s e m) = e * 2 ^ fl F + m) by (unfold pack; apply mag_of_sbit; auto).
  split; [unfold pack; apply sign_of_sbit; auto|]. split; auto.
  rewrite field_div, field_mod, M. split; symmetry.
  - apply Z.div_unique with m; lia.
  - apply Z.mod_unique with e; lia.
Qed.
Lemma unpack : forall b, is_pattern F b -> b = pack (sign_of F b) ((b / 2 ^ fl F) mod 2 ^ el F) (b mod 2 ^ fl F).
Proof.
  intros b Hb. unfold pack. rewrite field_div, field_mod. rewrite (pattern_split F HF b Hb) at 1. f_equal.
  pose proof (fl_pos F HF). rewrite Z.mul_comm. apply Z.div_mod. lia.
Qed.
Lemma field_ranges : forall b, 0 <= (b / 2 ^ fl F) mod 2 ^ el F < 2 ^ el F /\ 0 <= b mod 2 ^ fl F < 2 ^ fl F.
Proof. intros. split; apply Z.mod_pos_bound; [apply el_pos|apply fl_pos; auto]. Qed.

Lemma create_value_eq : forall s e m, 0 <= e < 2 ^ el F -> 0 <= m < 2 ^ fl F -> create_value F s e m = pack s e m.
Proof.
  intros s e m He Hm. unfold create_value. pose proof el_32. rewrite encode_eq. rewrite (wrap_small 32).
  - rewrite !Z.mod_small by auto. reflexivity.
  - unfold inU. change (2 ^ 16) with 65536 in *. lia.
Qed.

Lemma create_fields : forall b, is_pattern F b ->
  create_value F (fp_sign F b) (get_biased_exponent F b) (get_mantissa F b) = b.
Proof.
  intros b Hb. rewrite fp_sign_eq, get_biased_exponent_eq, get_mantissa_eq.
  destruct (field_ranges b). rewrite create_value_eq by auto. symmetry. apply unpack; auto.
Qed.

Lemma set_sign_eq : forall b s, is_pattern F b ->
  set_sign F b s = pack s ((b / 2 ^ fl F) mod 2 ^ el F) (b mod 2 ^ fl F).
Proof.
  intros b s Hb. unfold set_sign. rewrite fp_sign_eq. destruct (Bool.eqb (sign_of F b) s) eqn:E.
  - apply eqb_prop in E. subst s. apply unpack; auto.
  - apply eqb_false_iff in E. rewrite signmask_eq.
    rewrite <- (Z.land_diag (sign_unit F)) at 1.
    pose proof (fl_pos F HF). pose proof (sign_unit_pos F HF).
    assert (Hx : forall x, 0 <= x < sign_unit F -> Z.lxor x (sign_unit F) = x + sign_unit F).
    { intros x Hx. symmetry. apply Z.add_nocarry_lxor. unfold sign_unit. 
      rewrite <- (Z.mul_1_l (2 ^ (fl F + el F))). change 1 with (2 ^ 1 - 1). rewrite land_field by lia.
      rewrite Z.div_small by (unfold sign_unit in Hx; lia). reflexivity. }
    rewrite Z.land_diag.
    destruct (field_ranges b). pose proof (pack_range s _ _ H1 H2) as Hr.
    rewrite (unpack b Hb) at 1. unfold pack, sbit. destruct (sign_of F b), s; try congruence; [|].
    + rewrite Z.add_comm, <- (Hx _ Hr), Z.lxor_assoc, Z.lxor_nilpotent, Z.lxor_0_r. lia.
    + rewrite Z.add_0_l, Hx by auto. lia.
Qed.
Lemma set_biased_eq : forall b e, is_pattern F b ->
  set_biased_exponent F b e = pack (sign_of F b) (e mod 2 ^ el F) (b mod 2 ^ fl F).
Proof.
  intros b e Hb. unfold set_biased_exponent. rewrite merge_val. fold (exp_bits F b).
  rewrite exp_bits_eq, encode_exp_eq. change (exponent_mask F) with (exponent_mask F). rewrite expmask_eq, land_field by lia.
  rewrite Z.div_mul by (pose proof (fl_pos F HF); lia). rewrite Z.mod_mod by (pose proof el_pos; lia).
  rewrite (unpack b Hb) at 1. unfold pack. ring.
Qed.
Lemma set_mantissa_eq : forall b m, is_pattern F b ->
  set_mantissa F b m = pack (sign_of F b) ((b / 2 ^ fl F) mod 2 ^ el F) (m mod 2 ^ fl F).
Proof.
  intros b m Hb. unfold set_mantissa. rewrite merge_val. unfold fraction_mask. rewrite !land_low by lia.
  rewrite (unpack b Hb) at 1. unfold pack. ring.
Qed.
Lemma set_significand_eq : forall b m, is_pattern F b ->
  set_significand F b m = pack (sign_of F b) ((b / 2 ^ fl F) mod 2 ^ el F) (m mod 2 ^ fl F).
Proof. exact set_mantissa_eq. Qed.

(** ** Observers *)
Lemma biased_inf : to_biased F (Exponent_inf F) mod 2 ^ el F = expmax F.
Proof.
  unfold to_biased, Exponent_inf. rewrite <- Z.add_assoc, (Z.add_comm 1), Z.add_assoc.
  replace (bias F + bias F + 1) with (expmax F) by (rewrite (expmax_bias F HF); lia).
  pose proof el_32. pose proof el_pos. change (2 ^ 16) with 65536 in *.
  rewrite wrap_small by (unfold inU, expmax; lia). apply Z.mod_small. unfold expmax. lia.
Qed.
Lemma biased_sub : to_biased F (Exponent_subnormal F) mod 2 ^ el F = 0.
Proof. unfold to_biased, Exponent_subnormal. rewrite Z.add_opp_diag_l. reflexivity. Qed.

Lemma fp_is_nan_eq : forall b, fp_is_nan F b = is_nan F b.
Proof.
  intros. unfold fp_is_nan, is_nan. rewrite exp_sig_bits_eq, encode2_eq, biased_inf.
  rewrite Z.mod_0_l, Z.add_0_r by (pose proof (fl_pos F HF); lia). reflexivity.
Qed.
Lemma fp_is_inf_eq : forall b, fp_is_inf F b = is_inf F b.
Proof.
  intros. unfold fp_is_inf, is_inf. rewrite exp_sig_bits_eq, encode2_eq, biased_inf.
  rewrite Z.mod_0_l, Z.add_0_r by (pose proof (fl_pos F HF); lia). reflexivity.
Qed.
Lemma mag_div : forall b, let a := mag_of F b in a = (a / 2 ^ fl F) * 2 ^ fl F + a mod 2 ^ fl F /\
  0 <= a mod 2 ^ fl F < 2 ^ fl F /\ 0 <= a / 2 ^ fl F <= expmax F.
Proof.
  intros b a. pose proof (fl_pos F HF). pose proof (Z.div_mod a (2 ^ fl F) ltac:(lia)).
  pose proof (Z.mod_pos_bound a (2 ^ fl F) H). split; [lia|]. split; auto.
  unfold a. rewrite <- field_div. pose proof (field_ranges b). unfold expmax. lia.
Qed.
Lemma fp_is_finite_eq : forall b, fp_is_finite F b = is_fin F b.
Proof.
  intros. unfold fp_is_finite, is_fin. rewrite exp_bits_eq, encode_exp_eq, biased_inf, field_div.
  destruct (mag_div b) as (E & R & Q). set (a := mag_of F b) in *. unfold inf_mag. pose proof (fl_pos F HF).
  destruct (Z.ltb_spec a (expmax F * 2 ^ fl F)).
  - apply negb_true_iff, Z.eqb_neq. nia.
  - apply negb_false_iff, Z.eqb_eq. f_equal. nia.
Qed.
Lemma fp_is_zero_eq : forall b, fp_is_zero F b = (mag_of F b =? 0).
Proof. intros. unfold fp_is_zero. rewrite exp_sig_bits_eq. reflexivity. Qed.
Lemma fp_is_subnormal_eq : forall b, fp_is_subnormal F b = (mag_of F b <? 2 ^ fl F).
Proof.
  intros. unfold fp_is_subnormal. rewrite exp_bits_eq, encode_exp_eq, biased_sub, field_div.
  destruct (mag_div b) as (E & R & Q). set (a := mag_of F b) in *. pose proof (fl_pos F HF).
  destruct (Z.ltb_spec a (2 ^ fl F)).
  - apply Z.eqb_eq. rewrite Z.div_small by (unfold a; pose proof (mag_range F HF b); lia). reflexivity.
  - apply Z.eqb_neq. assert (1 <= a / 2 ^ fl F) by (apply Z.div_le_lower_bound; lia). nia.
Qed.
Lemma qnan_pattern : 0 <= qnan F < sign_unit F.
Proof.
  unfold qnan. rewrite (sign_unit_inf F HF). pose proof (inf_mag_pos F HF).
  rewrite (pow2_half (fl F)) by lia. pose proof (pow2_pos (fl F - 1) ltac:(lia)). lia.
Qed.
Lemma fp_is_quiet_nan_eq : forall b, fp_is_quiet_nan F b = (qnan F <=? mag_of F b).
Proof.
  intros. unfold fp_is_quiet_nan, qnan, Significand_msb. rewrite exp_sig_bits_eq, encode2_eq, biased_inf.
  rewrite (Z.mod_small (2 ^ (fl F - 1))). reflexivity. rewrite (pow2_half (fl F)) by lia. pose proof (pow2_pos (fl F - 1) ltac:(lia)). lia.
Qed.

(** The mantissa with its implicit bit. *)
Lemma explicit_mantissa_eq : forall b, is_fin F b = true -> get_explicit_mantissa F b = sig_of F (mag_of F b).
Proof.
  intros b Hb. unfold get_explicit_mantissa, sig_of. rewrite fp_is_subnormal_eq, sig_bits_eq, field_mod.
  destruct (Z.ltb_spec (mag_of F b) (2 ^ fl F)).
  - apply Z.mod_small. pose proof (mag_range F HF b). lia.
  - rewrite wrap_small.
    + rewrite Z.shiftl_mul_pow2, Z.mul_1_l by lia. rewrite <- (Z.mul_1_l (2 ^ fl F)) at 1.
      rewrite lor_add by (try apply Z.mod_pos_bound; try apply fl_pos; auto; lia). ring.
    + rewrite Z.shiftl_mul_pow2 by lia. unfold inU. rewrite (width_split F HF), (sign_unit_split F HF).
      pose proof el_pos. pose proof (fl_pos F HF). nia.
Qed.
Lemma of_biased_eq : forall b, of_biased F (biased_exponent F b) = mag_of F b / 2 ^ fl F - bias F.
Proof.
  intros b. unfold of_biased. rewrite biased_exponent_eq, field_div. destruct (mag_div b) as (_ & _ & Q).
  pose proof el_32. unfold to_signed. unfold expmax in Q. change (2 ^ 16) with 65536 in *.
  replace (mag_of F b / 2 ^ fl F <? 2 ^ (32 - 1)) with true; auto. symmetry. apply Z.ltb_lt. change (2 ^ (32 - 1)) with 2147483648. lia.
Qed.
Lemma get_exponent_eq : forall b, get_exponent F b = mag_of F b / 2 ^ fl F - bias F.
Proof. exact of_biased_eq. Qed.
Lemma explicit_exponent_eq : forall b, is_fin F b = true ->
  get_explicit_exponent F b = if mag_of F b =? 0 then 0 else exp_of F (mag_of F b) + fl F.
Proof.
  intros b Hb. unfold get_explicit_exponent. rewrite of_biased_eq, fp_is_zero_eq.
  unfold Exponent_subnormal, Exponent_min. pose proof (bias_ge2 F HF). destruct (mag_div b) as (E & R & Q).
  unfold exp_of, emin. destruct (Z.eqb_spec (mag_of F b) 0) as [E0|E0].
  - replace (0 =? - bias F) with false by lia. reflexivity.
  - pose proof (fl_pos F HF). destruct (Z.ltb_spec (mag_of F b) (2 ^ fl F)).
    + replace (mag_of F b / 2 ^ fl F) with 0 by (symmetry; apply Z.div_small; lia).
      replace (0 - bias F =? - bias F) with true by lia. lia.
    + assert (1 <= mag_of F b / 2 ^ fl F) by (apply Z.div_le_lower_bound; lia).
      replace (mag_of F b / 2 ^ fl F - bias F =? - bias F) with false by lia. lia.
Qed.
Lemma explicit_value : forall b, is_fin F b = true ->
  Rabs (fval F b) = (IZR (get_explicit_mantissa F b) * bpow radix2 (get_explicit_exponent F b - fl F))%R /\
  (2 ^ fl F <= mag_of F b -> 2 ^ fl F <= get_explicit_mantissa F b < 2 ^ prec F) /\
  (get_explicit_mantissa F b < 2 ^ fl F -> get_explicit_exponent F b = 0 \/ get_explicit_exponent F b = 1 - bias F).
Proof.
  intros b Hb. pose proof (fl_pos F HF) as HP. pose proof (mag_range F HF b) as MR.
  rewrite explicit_mantissa_eq, explicit_exponent_eq, Rabs_fval by auto.
  destruct (sig_exp_spec F HF (mag_of F b) ltac:(lia)) as (S1 & S2). split; [|split].
  - destruct (Z.eqb_spec (mag_of F b) 0) as [E|E].
    + rewrite E. unfold mval, sig_of. replace (0 <? 2 ^ fl F) with true by lia. rewrite !Rmult_0_l. reflexivity.
    + unfold mval. replace (exp_of F (mag_of F b) + fl F - fl F) with (exp_of F (mag_of F b)) by lia. reflexivity.
  - intros H. unfold sig_of in *. replace (mag_of F b <? 2 ^ fl F) with false in * by lia. pose proof (Z.mod_pos_bound (mag_of F b) _ HP). lia.
  - intros H. destruct (Z.eqb_spec (mag_of F b) 0) as [E|E]; [auto|right]. unfold sig_of, exp_of, emin in *.
    destruct (Z.ltb_spec (mag_of F b) (2 ^ fl F)); [lia|]. pose proof (Z.mod_pos_bound (mag_of F b) _ HP). lia.
Qed.

(** ** make_value *)
Lemma make_value_spec : forall k n expo, width F = 2 ^ Z.of_nat k -> 0 < n < 2 ^ prec F ->
  fl F + 1 - digits n - expo < width F -> digits n + expo <= 2 * bias F + fl F ->
  exists b, make_value F n expo = Some b /\ is_pattern F b /\ sign_of F b = false /\ is_fin F b = true /\
    fval F b = (IZR (Zfloor (IZR n * bpow radix2 expo)) * bpow radix2 (emin F))%R.
Proof.
  intros k n expo Hk Hn He1 He2. unfold make_value.
  pose proof (fl_pos F HF) as HP. pose proof (digits_bounds n ltac:(lia)) as HD.
  assert (Hd1 : 1 <= digits n) by (unfold digits; replace (n =? 0) with false by lia; pose proof (Z.log2_nonneg n); lia).
  assert (Hd2 : digits n <= fl F + 1).
  { unfold digits. replace (n =? 0) with false by lia.
    assert (Z.log2 n < prec F) by (apply Z.log2_lt_pow2; lia). unfold prec in *. lia. }
  assert (Hc : countl_zero (width F) n = Some (width F - digits n)).
  { rewrite Hk. rewrite (countl_zero_val k n).
    - unfold digits. replace (n =? 0) with false by lia. f_equal. lia.
    - rewrite <- Hk. unfold inU. pose proof (pow2_le (prec F) (width F) ltac:(unfold prec, width; lia)). lia. }
  rewrite Hc. cbn [bindo]. replace (width F - (width F - digits n)) with (digits n) by lia.
  set (lz := fl F + 1 - digits n). assert (Hlz : 0 <= lz) by (unfold lz; lia).
  unfold ushl. replace (0 <=? lz) with true by lia. replace (lz <? width F) with true by (unfold width; lia). cbn [andb bindo].
  assert (Hnn : 2 ^ fl F <= n * 2 ^ lz < 2 ^ prec F).
  { pose proof (pow2_pos lz Hlz).
    assert (E1 : 2 ^ fl F = 2 ^ (digits n - 1) * 2 ^ lz) by (rewrite <- Z.pow_add_r by lia; f_equal; lia).
    assert (E2 : 2 ^ prec F = 2 ^ digits n * 2 ^ lz) by (rewrite <- Z.pow_add_r by lia; f_equal; unfold prec; lia).
    rewrite E1, E2. split; [apply Z.mul_le_mono_nonneg_r|apply Z.mul_lt_mono_pos_r]; lia. }
  rewrite Z.shiftl_mul_pow2 by auto. rewrite (wrap_small (width F)).
  2:{ unfold inU. pose proof (pow2_le (prec F) (width F) ltac:(unfold prec, width; lia)). lia. }
  set (n' := n * 2 ^ lz) in *. rewrite (prec_split F HF) in Hnn.
  assert (P0 : is_pattern F 0) by (unfold is_pattern; rewrite (width_split F HF); pose proof (sign_unit_pos F HF); lia).
  assert (S0 : sign_of F 0 = false) by (unfold sign_of; apply Z.testbit_0_l).
  assert (M0 : (0 / 2 ^ fl F) mod 2 ^ el F = 0) by (rewrite Z.div_0_l by lia; apply Z.mod_0_l; pose proof el_pos; lia).
  assert (U : forall x, is_pattern F x -> uintval F x = x).
  { intros x Hx. unfold uintval, fp_bits_mask. rewrite land_low by (unfold width; lia). apply Z.mod_small; auto. }
  rewrite (Z.leb_antisym (expo - lz) 0). destruct (Z.ltb_spec (expo - lz) 0) as [Hx|Hx]; cbn [negb].
  - (* subnormal or zero *)
    unfold ushr. replace (0 <=? - (expo - lz)) with true by lia.
    replace (- (expo - lz) <? width F) with true by (unfold lz; lia). cbn [andb bindo].
    rewrite Z.shiftr_div_pow2 by lia. set (m := n' / 2 ^ (- (expo - lz))).
    assert (Hm : 0 <= m < 2 ^ fl F).
    { split; [apply Z.div_pos; try lia; apply pow2_pos; lia|]. apply Z.div_lt_upper_bound; [apply pow2_pos; lia|].
      assert (2 ^ 1 <= 2 ^ (- (expo - lz))) by (apply pow2_le; lia). change (2 ^ 1) with 2 in *. nia. }
    rewrite (set_significand_eq 0 m P0), S0, M0, (Z.mod_small m) by auto.
    assert (Hpk : pack false 0 m = sbit F false + m) by (unfold pack; lia).
    assert (Hpat : is_pattern F (pack false 0 m)) by (apply pack_pattern; auto; pose proof el_pos; lia).
    rewrite U by auto. exists (pack false 0 m). pose proof (inf_mag_ge F HF). pose proof (inf_lt_sign F HF).
    split; auto. split; auto. rewrite Hpk.
    split; [apply sign_of_sbit; auto; lia|].
    split; [unfold is_fin; rewrite mag_of_sbit by (auto; lia); apply Z.ltb_lt; lia|].
    rewrite fval_sbit by (auto; lia). unfold sg. rewrite Rmult_1_l.
    unfold mval, sig_of, exp_of. replace (m <? 2 ^ fl F) with true by lia. rewrite Z.add_0_r. do 2 f_equal.
    unfold m, n'. replace (IZR n * bpow radix2 expo)%R with (IZR (n * 2 ^ lz) / IZR (2 ^ (- (expo - lz))))%R.
    + symmetry. apply Zfloor_div. pose proof (pow2_pos (- (expo - lz)) ltac:(lia)). lia.
    + rewrite mult_IZR, <- !bpow_IZR by lia. unfold Rdiv. rewrite <- bpow_opp, Rmult_assoc, <- bpow_plus.
      do 2 f_equal. lia.
  - (* normal *)
    rewrite (set_significand_eq 0 n' P0), S0, M0.
    assert (En : n' mod 2 ^ fl F = n' - 2 ^ fl F) by (symmetry; apply Z.mod_unique with 1; lia).
    rewrite En. unfold set_biased_exponent_pub.
    assert (Hpat0 : is_pattern F (pack false 0 (n' - 2 ^ fl F))) by (apply pack_pattern; try lia; pose proof el_pos; lia).
    rewrite set_biased_eq by auto.
    destruct (pack_fields false 0 (n' - 2 ^ fl F)) as (-> & _ & _ & ->); try (pose proof el_pos; lia).
    set (E := expo - lz + 1) in *.
    assert (HE : 1 <= E <= 2 * bias F) by (unfold E, lz; lia).
    assert (HEm : E < 2 ^ el F) by (pose proof (expmax_bias F HF) as Hem; unfold expmax in Hem; lia).
    pose proof el_32 as H32. change (2 ^ 16) with 65536 in H32.
    assert (Ew : wrap (width F) E = E).
    { apply wrap_small. unfold inU. pose proof (pow2_le (el F) (width F) ltac:(unfold width; lia)). lia. }
    assert (E32 : wrap 32 E = E) by (apply wrap_small; unfold inU; lia).
    rewrite Ew, E32. unfold to_signed. replace (E <? 2 ^ (32 - 1)) with true by (symmetry; apply Z.ltb_lt; change (2 ^ (32 - 1)) with 2147483648; lia).
    rewrite E32, (Z.mod_small E) by lia.
    assert (Hpat : is_pattern F (pack false E (n' - 2 ^ fl F))) by (apply pack_pattern; lia).
    rewrite U by auto. exists (pack false E (n' - 2 ^ fl F)). split; auto. split; auto.
    assert (Hpk : pack false E (n' - 2 ^ fl F) = sbit F false + enc F n' (emin F + E - 1)) by (unfold pack, enc; ring).
    assert (Henc : 0 <= enc F n' (emin F + E - 1) < inf_mag F).
    { unfold enc, inf_mag. rewrite (expmax_bias F HF). replace (emin F + E - 1 - emin F) with (E - 1) by lia. nia. }
    pose proof (inf_lt_sign F HF). rewrite Hpk.
    split; [apply sign_of_sbit; auto; lia|].
    split; [unfold is_fin; rewrite mag_of_sbit by (auto; lia); apply Z.ltb_lt; lia|].
    rewrite fval_sbit by (auto; lia). unfold sg. rewrite Rmult_1_l, mval_enc; auto; try lia.
    2:{ rewrite (prec_split F HF). lia. }
    assert (Hxp : 0 <= expo) by lia.
    assert (Ef : Zfloor (IZR n * bpow radix2 expo) = n * 2 ^ expo).
    { rewrite bpow_IZR, <- mult_IZR by auto. apply Zfloor_IZR. }
    rewrite Ef. unfold n'. rewrite !mult_IZR, <- !bpow_IZR by auto. rewrite !Rmult_assoc, <- !bpow_plus.
    do 2 f_equal. unfold E. lia.
Qed.
End FP.
