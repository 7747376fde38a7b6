(** * Proofs about NormalizedFloat and ldexp *)
From Coq Require Import ZArith Reals Bool Lia Lra.
From Flocq Require Import Core.
From Verif Require Import MachInt Fmt FloatSpec FmtProofs RoundProofs FOps FOpsProofs ExactOps.
From Verif Require Import FPBits FPBitsProofs Compare CompareProofs Nearest NearestProofs NearestInt Fmanip FmanipProofs ScalbnProofs.
Open Scope Z_scope.

Section S.
Context (F : fmt) (HF : good_fmt F) (Hel : el F <= 16).

(** [round_encode] of a significand of full length. *)
Lemma round_encode_norm : forall rm s man e, 2 ^ fl F <= man < 2 ^ prec F -> 1 - bias F <= e ->
  round_encode F rm s man (e - fl F) false =
  sbit F s + (if (e + bias F) * 2 ^ fl F + (man - 2 ^ fl F) <? inf_mag F
              then (e + bias F) * 2 ^ fl F + (man - 2 ^ fl F) else overflow_mag F rm s).
Proof.
  intros rm s man e Hm He. pose proof (fl_pos F HF) as Hp. pose proof (gf_fl F HF) as Hfl.
  assert (HD : digits man = prec F).
  { apply digits_unique; [unfold prec; lia | ]. replace (prec F - 1) with (fl F) by (unfold prec; lia). exact Hm. }
  unfold digits in HD. destruct (Z.eqb_spec man 0); [lia | ].
  unfold round_encode. destruct (Z.eqb_spec man 0); [lia | ]. cbn [andb]. rewrite HD. cbv zeta.
  replace (Z.max (emin F) (prec F + (e - fl F) - prec F)) with (e - fl F) by (unfold emin; lia).
  rewrite Z.leb_refl, Z.sub_diag. change (Z.max 0 0) with 0. change (2 ^ 0) with 1. rewrite Z.mul_1_r.
  assert (HU : round_up rm s man (2 * 0 + b2z false) 1 = false).
  { destruct rm; cbn; try reflexivity; rewrite ?andb_false_r; reflexivity. }
  rewrite HU. cbn [b2z]. rewrite Z.add_0_r.
  replace (enc F man (e - fl F)) with ((e + bias F) * 2 ^ fl F + (man - 2 ^ fl F)); [reflexivity | ].
  unfold enc, emin. ring.
Qed.
Lemma round_encode_sub : forall rm s man e, 2 ^ fl F <= man < 2 ^ prec F -> e < 1 - bias F ->
  let k := 1 - bias F - e in let q := man / 2 ^ k in let r := man mod 2 ^ k in
  round_encode F rm s man (e - fl F) false = sbit F s + (q + b2z (round_up rm s q (2 * r) (2 ^ k))) /\
  0 <= q < 2 ^ fl F.
Proof.
  intros rm s man e Hm He k q r. pose proof (fl_pos F HF) as Hp. pose proof (gf_fl F HF) as Hfl.
  assert (HD : digits man = prec F).
  { apply digits_unique; [unfold prec; lia | ]. replace (prec F - 1) with (fl F) by (unfold prec; lia). exact Hm. }
  unfold digits in HD. destruct (Z.eqb_spec man 0); [lia | ].
  assert (Hk : 1 <= k) by (unfold k; lia).
  assert (HQ : 0 <= q < 2 ^ fl F).
  { unfold q. pose proof (pow2_pos k ltac:(lia)). split; [apply Z.div_pos; lia | ].
    apply Z.div_lt_upper_bound; [lia | ]. rewrite (prec_fl F HF) in Hm.
    assert (2 <= 2 ^ k) by (change 2 with (2 ^ 1) at 1; apply Z.pow_le_mono_r; lia). nia. }
  split; [ | exact HQ].
  unfold round_encode. destruct (Z.eqb_spec man 0); [lia | ]. cbn [andb]. rewrite HD. cbv zeta.
  replace (Z.max (emin F) (prec F + (e - fl F) - prec F)) with (emin F) by (unfold emin; lia).
  destruct (Z.leb_spec (emin F) (e - fl F)); [unfold emin in *; lia | ].
  replace (Z.max 0 (emin F - (e - fl F))) with k by (unfold emin, k; lia).
  fold q. fold r. rewrite Z.add_0_r.
  set (u := b2z _). assert (Hu : 0 <= u <= 1) by (unfold u; destruct (round_up _ _ _ _ _); cbn [b2z]; lia).
  replace (enc F (q + u) (emin F)) with (q + u) by (unfold enc; lia).
  destruct (Z.ltb_spec (q + u) (inf_mag F)); [reflexivity | ].
  pose proof (prec_lt_inf F HF). rewrite (prec_fl F HF) in *. lia.
Qed.

Lemma pack_mag : forall s e m, pack F s e m = sbit F s + (e * 2 ^ fl F + m).
Proof. reflexivity. Qed.

Lemma set_biased_pub_eq : forall b e, is_pattern F b -> 0 <= e < 2 ^ el F ->
  set_biased_exponent_pub F b e = pack F (sign_of F b) e (b mod 2 ^ fl F).
Proof.
  intros b e Hb He. destruct (set_fields F HF Hel b false e 0 Hb He ltac:(pose proof (fl_pos F HF); lia)) as (_ & (P & S & E & M) & _).
  rewrite (pattern_split F HF _ P), S. unfold pack, exp_field, man_field in *.
  rewrite (Z.div_mod (mag_of F _) (2 ^ fl F)) by (pose proof (fl_pos F HF); lia).
  rewrite E. rewrite <- M. pose proof (man_mag F HF (set_biased_exponent_pub F b e)) as HM. unfold man_field in HM.
  rewrite <- HM. ring.
Qed.

Lemma nf_to_spec : forall s e man, 2 ^ fl F <= man < 2 ^ prec F -> 1 - bias F - 2 ^ 32 < e ->
  nf_to F (NF s e man) = round_encode F RNE s man (e - fl F) false.
Proof.
  intros s e man Hm He. pose proof (fl_pos F HF) as Hp. pose proof (gf_fl F HF) as Hfl. pose proof (gf_el F HF).
  pose proof (expmax_bias F HF) as HE. pose proof (bias_ge2 F HF) as HB.
  assert (HE2 : expmax F = 2 ^ el F - 1) by reflexivity.
  assert (HW : width F = fl F + el F + 1) by reflexivity.
  unfold nf_to. cbn [nf_sign nf_exp nf_man].
  destruct (Z.ltb_spec (expmax F - 1) (e + bias F)) as [H1 | H1].
  - rewrite round_encode_norm by lia. rewrite (fp_inf_eq F HF Hel).
    destruct (Z.ltb_spec ((e + bias F) * 2 ^ fl F + (man - 2 ^ fl F)) (inf_mag F)); [ | reflexivity].
    exfalso. unfold inf_mag in *. assert (expmax F * 2 ^ fl F <= (e + bias F) * 2 ^ fl F) by (apply Z.mul_le_mono_nonneg_r; lia). lia.
  - assert (HR0 : set_sign F 0 s = sbit F s).
    { destruct (f_zero_props F HF false) as (P0 & _ & _). change (f_zero F false) with 0 in P0.
      rewrite (set_sign_eq F HF Hel) by assumption. rewrite Z.div_0_l, !Z.mod_0_l by (pose proof (pow2_pos (el F) ltac:(lia)); lia).
      unfold pack. lia. }
    destruct (f_zero_props F HF s) as (P0 & F0 & M0 & S0 & _). unfold f_zero in *.
    assert (HM0 : sbit F s mod 2 ^ fl F = 0).
    { pose proof (man_mag F HF (sbit F s)) as HM. unfold man_field in HM. rewrite HM, M0. apply Z.mod_0_l. lia. }
    rewrite HR0.
    destruct (Z.ltb_spec e (1 - bias F)) as [H2 | H2].
    + destruct (round_encode_sub RNE s man e Hm H2) as (HRE & HQ). cbv zeta in HRE, HQ. rewrite HRE.
      rewrite (wrap_small 32) by (unfold inU; lia).
      set (k := 1 - bias F - e) in *. assert (Hk : 1 <= k) by (unfold k; lia).
      pose proof (pow2_pos k ltac:(lia)) as Hkp.
      set (q := man / 2 ^ k) in *. set (r := man mod 2 ^ k) in *.
      pose proof (Z.mod_pos_bound man (2 ^ k) Hkp) as Hr. fold r in Hr.
      destruct (Z.leb_spec k (fl F + 1)) as [H3 | H3].
      * rewrite !Z.shiftl_mul_pow2, !Z.mul_1_l by lia.
        assert (HKW : 2 ^ k < 2 ^ width F) by (apply Z.pow_lt_mono_r; lia).
        assert (HHW : 2 ^ (k - 1) < 2 ^ width F) by (apply Z.pow_lt_mono_r; lia).
        pose proof (pow2_pos (k - 1) ltac:(lia)) as Hk1.
        rewrite (wrap_small _ (2 ^ k)) by (unfold inU; lia).
        rewrite (wrap_small _ (2 ^ (k - 1))) by (unfold inU; lia).
        rewrite (wrap_small _ (2 ^ k - 1)) by (unfold inU; lia).
        rewrite land_low by lia. fold r.
        assert (HP0 : set_biased_exponent_pub F (sbit F s) 0 = sbit F s).
        { rewrite set_biased_pub_eq by (try assumption; pose proof (pow2_pos (el F)); lia).
          rewrite S0, HM0. unfold pack. lia. }
        rewrite HP0. rewrite Z.shiftr_div_pow2 by lia. fold q.
        assert (HF0 : (sbit F s / 2 ^ fl F) mod 2 ^ el F = 0).
        { rewrite (field_div F HF), M0. apply Z.div_0_l. lia. }
        assert (HSM : forall m, 0 <= m < 2 ^ fl F -> set_mantissa F (sbit F s) m = sbit F s + m).
        { intros m Hmm. rewrite (set_mantissa_eq F HF) by assumption. rewrite S0, HF0, Z.mod_small by lia. unfold pack. lia. }
        rewrite (HSM q HQ).
        destruct (fin_sbit F HF s q) as (P1 & F1 & S1 & M1).
        { pose proof (prec_lt_inf F HF). rewrite (prec_fl F HF) in *. lia. }
        assert (HGM : get_mantissa F (sbit F s + q) = q).
        { rewrite (get_mantissa_eq F HF). pose proof (man_mag F HF (sbit F s + q)) as HM. unfold man_field in HM.
          rewrite HM, M1. apply Z.mod_small. lia. }
        rewrite HGM. set (up := round_up RNE s q (2 * r) (2 ^ k)).
        assert (Hpw : 2 ^ fl F < 2 ^ width F) by (apply Z.pow_lt_mono_r; lia).
        assert (Hhalf : 2 ^ k = 2 * 2 ^ (k - 1)) by (apply pow2_half; lia).
        assert (HNM : (if 2 ^ (k - 1) <? r then wrap (width F) (q + 1)
           else if r =? 2 ^ (k - 1) then if negb (Z.land q 1 =? 0) then wrap (width F) (q + 1) else q else q)
           = q + b2z up).
        { unfold up, round_up. rewrite (wrap_small _ (q + 1)) by (unfold inU; lia).
          change (Z.land q 1) with (Z.land q (2 ^ 1 - 1)). rewrite land_low by lia. change (2 ^ 1) with 2.
          rewrite Zmod_odd. 
          destruct (Z.ltb_spec (2 ^ (k - 1)) r), (Z.eqb_spec r (2 ^ (k - 1))), (Z.compare_spec (2 * r) (2 ^ k));
            cbn [b2z]; try lia.
          destruct (Z.odd q); cbn [b2z negb Z.eqb]; lia. }
        rewrite HNM.
        assert (Hup : 0 <= b2z up <= 1) by (destruct up; cbn [b2z]; lia).
        destruct (Z.eqb_spec (q + b2z up) (2 ^ fl F)) as [H4 | H4].
        -- assert (HSM2 : set_mantissa F (sbit F s + q) (q + b2z up) = sbit F s).
           { rewrite (set_mantissa_eq F HF) by assumption. rewrite H4, Z.mod_same by lia.
             rewrite (field_div F HF), M1, S1, Z.div_small by lia. unfold pack. lia. }
           rewrite HSM2. rewrite set_biased_pub_eq by (try assumption; lia). rewrite S0, HM0, H4. unfold pack. lia.
        -- rewrite (set_mantissa_eq F HF) by assumption.
           rewrite (field_div F HF), M1, S1, Z.div_small, Z.mod_small by lia. unfold pack. lia.
      * assert (Hk2 : 2 * man < 2 ^ k).
        { apply Z.lt_le_trans with (2 * 2 ^ prec F); [lia | ].
          rewrite <- pow2_succ by (unfold prec; lia). apply Z.pow_le_mono_r; unfold prec; lia. }
        assert (HQ0 : q = 0) by (unfold q; apply Z.div_small; lia).
        assert (HR1 : r = man) by (unfold r; apply Z.mod_small; lia).
        rewrite HQ0, HR1. unfold round_up. destruct (Z.compare_spec (2 * man) (2 ^ k)); cbn [b2z]; try lia.
    + rewrite round_encode_norm by lia.
      assert (HRg : (e + bias F) * 2 ^ fl F + (man - 2 ^ fl F) < inf_mag F).
      { unfold inf_mag. rewrite (prec_fl F HF) in Hm.
        assert ((e + bias F) * 2 ^ fl F <= (expmax F - 1) * 2 ^ fl F) by (apply Z.mul_le_mono_nonneg_r; lia). lia. }
      destruct (Z.ltb_spec ((e + bias F) * 2 ^ fl F + (man - 2 ^ fl F)) (inf_mag F)); [ | lia].
      assert (HEW : 2 ^ el F < 2 ^ width F) by (apply Z.pow_lt_mono_r; lia).
      rewrite wrap_small by (unfold inU; lia).
      rewrite set_biased_pub_eq by (try assumption; lia). rewrite S0, HM0.
      assert (HPp : is_pattern F (pack F s (e + bias F) 0)) by (apply (pack_pattern F HF Hel); lia).
      destruct (pack_fields F HF Hel s (e + bias F) 0 ltac:(lia) ltac:(lia)) as (Q1 & Q2 & Q3 & Q4).
      rewrite (set_mantissa_eq F HF) by assumption. rewrite Q1, Q3.
      assert (HMM : man mod 2 ^ fl F = man - 2 ^ fl F).
      { symmetry. apply Z.mod_unique with 1; [ | lia]. rewrite (prec_fl F HF) in Hm. lia. }
      rewrite HMM. unfold pack. lia.
Qed.

(** ** Decomposition into a NormalizedFloat *)
Lemma land_top : forall m, 0 <= m < 2 ^ prec F -> (Z.land (2 ^ fl F) m =? 0) = (m <? 2 ^ fl F).
Proof.
  intros m Hm. pose proof (gf_fl F HF). pose proof (fl_pos F HF).
  assert (HL : Z.land (2 ^ fl F) m = b2z (Z.testbit m (fl F)) * 2 ^ fl F).
  { apply Z.bits_inj'. intros i Hi. rewrite Z.land_spec, Z.pow2_bits_eqb by lia.
    rewrite Z.mul_pow2_bits by lia.
    destruct (Z.eqb_spec (fl F) i) as [<- | HN].
    - rewrite Z.sub_diag. destruct (Z.testbit m (fl F)); reflexivity.
    - cbn [andb]. destruct (Z.lt_trichotomy i (fl F)) as [HL | [HL | HL]]; [ | lia | ].
      + rewrite Z.testbit_neg_r by lia. reflexivity.
      + symmetry. destruct (Z.testbit m (fl F)); cbn [b2z]; [ | apply Z.testbit_0_l].
        change 1 with (2 ^ 0). rewrite Z.pow2_bits_eqb by lia. apply Z.eqb_neq. lia. }
  rewrite HL. rewrite Z.testbit_eqb by lia. rewrite (prec_fl F HF) in Hm.
  destruct (Z.ltb_spec m (2 ^ fl F)) as [H1 | H1].
  - rewrite Z.div_small by lia. reflexivity.
  - replace (m / 2 ^ fl F) with 1; [ | apply Z.div_unique with (m - 2 ^ fl F); lia].
    change (1 mod 2 =? 1) with true. cbn [b2z]. apply Z.eqb_neq. lia.
Qed.

Lemma norm_loop_spec : forall k m sh, 0 < m < 2 ^ prec F -> 2 ^ fl F <= m * 2 ^ Z.of_nat k ->
  exists j, 0 <= j /\ 2 ^ fl F <= m * 2 ^ j < 2 ^ prec F /\ norm_shift_loop F k m sh = sh + j.
Proof.
  pose proof (prec_fl F HF) as HP. pose proof (gf_el F HF). pose proof (gf_fl F HF).
  assert (HPW : 2 ^ prec F <= 2 ^ width F) by (apply Z.pow_le_mono_r; unfold width, prec; lia).
  induction k as [ | k IH]; intros m sh Hm Hk.
  - exists 0. change (2 ^ Z.of_nat 0) with 1 in Hk. change (2 ^ 0) with 1.
    split; [lia | ]. split; [lia | ]. cbn [norm_shift_loop]. lia.
  - cbn [norm_shift_loop]. rewrite land_top by lia.
    destruct (Z.ltb_spec m (2 ^ fl F)); cbn [negb].
    + rewrite Z.shiftl_mul_pow2 by lia. change (2 ^ 1) with 2. rewrite wrap_small by (unfold inU; lia).
      rewrite Nat2Z.inj_succ, Z.pow_succ_r in Hk by lia.
      destruct (IH (m * 2) (sh + 1) ltac:(lia) ltac:(lia)) as (j & Hj & Hr & EQ).
      exists (j + 1). rewrite Z.pow_add_r by lia. change (2 ^ 1) with 2.
      split; [lia | ]. split; [lia | ]. rewrite EQ. lia.
    + exists 0. change (2 ^ 0) with 1. split; [lia | ]. split; [lia | lia].
Qed.

Lemma nf_of_spec : forall x, is_pattern F x -> is_fin F x = true -> fval F x <> 0%R ->
  exists e man, nf_of F x = NF (sign_of F x) e man /\ 2 ^ fl F <= man < 2 ^ prec F /\
    fval F x = (sg (sign_of F x) * (IZR man * bpow radix2 (e - fl F)))%R /\ 1 - bias F - fl F <= e <= bias F.
Proof.
  intros x HP Hx HV. pose proof (fl_pos F HF) as Hp. pose proof (gf_fl F HF) as Hfl. pose proof (gf_el F HF).
  pose proof (bias_ge2 F HF) as HB. pose proof (expmax_bias F HF) as HE.
  assert (HM0 : mag_of F x <> 0) by (intros HZ; apply HV; apply (fval_zero F HF); assumption).
  pose proof (mag_range F HF x) as HR. pose proof (mag_div F HF x) as HMD. cbv zeta in HMD. destruct HMD as (D1 & D2 & D3).
  assert (HI : mag_of F x < inf_mag F) by (apply Z.ltb_lt; exact Hx).
  assert (HMn : x mod 2 ^ fl F = mag_of F x mod 2 ^ fl F) by apply (man_mag F HF).
  unfold nf_of. rewrite (fp_is_inf_or_nan_eq F HF Hel), Hx, (fp_is_zero_eq F HF).
  destruct (Z.eqb_spec (mag_of F x) 0); [lia | ]. cbn [negb orb].
  rewrite (fp_is_subnormal_eq F HF Hel), (get_mantissa_eq F HF), (fp_sign_eq F HF) by assumption.
  rewrite HMn.
  destruct (Z.ltb_spec (mag_of F x) (2 ^ fl F)) as [HS | HS].
  - rewrite (Z.mod_small (mag_of F x)) by lia. set (a := mag_of F x) in *.
    assert (HPr : 2 ^ prec F = 2 * 2 ^ fl F) by apply (prec_fl F HF).
    destruct (norm_loop_spec (Z.to_nat (fl F)) a 0 ltac:(lia)) as (j & Hj & Hr & EQ).
    { rewrite Z2Nat.id by lia. nia. }
    unfold norm_shift. rewrite EQ, Z.add_0_l. rewrite Z.shiftl_mul_pow2 by lia.
    assert (HPW : 2 ^ prec F <= 2 ^ width F) by (apply Z.pow_le_mono_r; unfold width, prec; lia).
    rewrite wrap_small by (unfold inU; lia).
    exists (1 - bias F - j), (a * 2 ^ j). split; [reflexivity | ]. split; [exact Hr | ]. split.
    + rewrite (fval_fin F x Hx). fold a. rewrite (mval_small F HF) by lia. f_equal.
      rewrite mult_IZR, <- bpow_IZR by lia. rewrite Rmult_assoc, <- bpow_plus. do 2 f_equal. unfold emin. lia.
    + assert (Hkf : j <= fl F).
      { destruct (Z.le_gt_cases j (fl F)) as [ | HK]; [assumption | ].
        assert (2 ^ prec F <= 2 ^ j) by (apply pow2_le; unfold prec; lia).
        assert (1 * 2 ^ j <= a * 2 ^ j) by (apply Z.mul_le_mono_nonneg_r; lia). lia. }
      lia.
  - assert (HQ : 1 <= mag_of F x / 2 ^ fl F) by (apply Z.div_le_lower_bound; lia).
    assert (HQ2 : mag_of F x / 2 ^ fl F < expmax F) by (apply Z.div_lt_upper_bound; [lia | unfold inf_mag in HI; lia]).
    destruct (normal_val F HF x (mag_of F x / 2 ^ fl F) (mag_of F x mod 2 ^ fl F) ltac:(lia) D2 D1) as (_ & HVx).
    rewrite (get_biased_exponent_eq F HF) by assumption. rewrite (field_div F HF).
    exists (mag_of F x / 2 ^ fl F - bias F), (2 ^ fl F + mag_of F x mod 2 ^ fl F).
    assert (HL : Z.lor (2 ^ fl F) (mag_of F x mod 2 ^ fl F) = 2 ^ fl F + mag_of F x mod 2 ^ fl F).
    { rewrite <- (Z.mul_1_l (2 ^ fl F)) at 1. rewrite lor_add by lia. lia. }
    rewrite HL. split; [reflexivity | ]. rewrite (prec_fl F HF). split; [lia | ]. split; [exact HVx | lia].
Qed.

(** ** ldexp *)
Lemma tiny_value : forall rm s, round_encode F rm s 0 (emin F - 1) true =
  sbit F s + (match rm with RDN => b2z s | RUP => b2z (negb s) | _ => 0 end).
Proof.
  intros rm s. pose proof (gf_fl F HF). unfold round_encode. change (0 =? 0) with true. cbn [andb negb].
  replace (Z.max (emin F) (0 + (emin F - 1) - prec F)) with (emin F) by (unfold prec; lia).
  destruct (Z.leb_spec (emin F) (emin F - 1)); [lia | ].
  replace (Z.max 0 (emin F - (emin F - 1))) with 1 by lia. change (0 / 2 ^ 1) with 0. change (0 mod 2 ^ 1) with 0.
  change (2 * 0 + b2z true) with 1. change (2 ^ 1) with 2.
  pose proof (inf_mag_pos F HF). pose proof (prec_lt_inf F HF). pose proof (prec_fl F HF). pose proof (fl_pos F HF).
  set (u := round_up rm s 0 1 2).
  assert (HE : enc F (0 + b2z u) (emin F) = b2z u) by (unfold enc; lia). rewrite HE.
  assert (Hu : 0 <= b2z u <= 1) by (destruct u; cbn [b2z]; lia).
  destruct (Z.ltb_spec (b2z u) (inf_mag F)); [ | lia]. f_equal. unfold u.
  destruct rm; cbn [round_up]; try reflexivity; destruct s; reflexivity.
Qed.

Lemma fp_max_normal_eq : forall s, fp_max_normal F s = sbit F s + max_mag F.
Proof.
  intros s. unfold fp_max_normal. rewrite (encode_eq F HF Hel).
  pose proof (expmax_bias F HF) as HE. pose proof (bias_ge2 F HF). pose proof (fl_pos F HF). pose proof (gf_el F HF).
  assert (HE2 : expmax F = 2 ^ el F - 1) by reflexivity.
  assert (HB : to_biased F (Exponent_max F) mod 2 ^ el F = expmax F - 1).
  { unfold to_biased, Exponent_max.
    assert (2 ^ el F <= 2 ^ 32) by (apply Z.pow_le_mono_r; lia).
    rewrite wrap_small by (unfold inU; lia). rewrite Z.mod_small by lia. lia. }
  rewrite HB. unfold significand_mask. rewrite Z.mod_small by lia. unfold pack, max_mag, inf_mag. ring.
Qed.

Theorem ldexp_within : forall dm x n, Z.abs n <= expmax F + fl F + 1 -> is_pattern F x -> is_fin F x = true ->
  rounded F RNE (fval F x * bpow radix2 n) (sign_of F x) (cc_ldexp F dm x n).
Proof.
  intros dm x n Hn HP Hx. unfold cc_ldexp.
  assert (HRx : rounded F RNE (fval F x) (sign_of F x) x).
  { pose proof (ust_done F HF RNE x Hx x 0 0 (ust_0 F RNE x HP Hx) ltac:(lia) (or_introl eq_refl)) as HR.
    change (bpow radix2 0) with 1%R in HR. rewrite Rmult_1_r in HR. exact HR. }
  rewrite (fp_is_inf_or_nan_eq F HF Hel), Hx, (fp_is_zero_eq F HF). rewrite orb_false_r.
  destruct (Z.eqb_spec n 0) as [-> | Hn0].
  { cbn [orb]. change (bpow radix2 0) with 1%R. rewrite Rmult_1_r. exact HRx. }
  destruct (Z.eqb_spec (mag_of F x) 0) as [HZ | HZ].
  { cbn [orb]. assert (HV : fval F x = 0%R) by (apply (fval_zero F HF); assumption).
    rewrite HV in *. rewrite Rmult_0_l. exact HRx. }
  cbn [orb]. destruct (Z.ltb_spec (expmax F + fl F + 1) n); [lia | ].
  destruct (Z.ltb_spec n (- (expmax F + fl F + 1))); [lia | ].
  assert (HV0 : fval F x <> 0%R) by (rewrite (fval_zero F HF); assumption).
  destruct (nf_of_spec x HP Hx HV0) as (e & man & EQ & Hm & HV & He).
  rewrite EQ. unfold nf_mul2. cbn [nf_sign nf_exp nf_man].
  pose proof (expmax_bias F HF). pose proof (gf_bias F HF) as HGB. pose proof (gf_el F HF).
  assert (HBb : bias F < 2 ^ 15).
  { unfold bias. assert (2 ^ (el F - 1) <= 2 ^ 15) by (apply Z.pow_le_mono_r; lia). lia. }
  change (2 ^ 15) with 32768 in HBb.
  rewrite nf_to_spec; [ | exact Hm | change (2 ^ 32) with 4294967296; lia].
  apply (round_encode_spec F HF).
  - pose proof (fl_pos F HF). lia.
  - rewrite scale_abs, HV, Rabs_sg, Rabs_pos_eq.
    + rewrite Rmult_assoc, <- bpow_plus. do 2 f_equal. lia.
    + apply Rmult_le_pos; [apply IZR_le; pose proof (fl_pos F HF); lia | apply bpow_ge_0].
  - intros _. rewrite scale_sign. symmetry. apply (sign_fval F HF); assumption.
  - discriminate.
Qed.

Theorem ldexp_beyond : forall dm x n, expmax F + fl F + 1 < Z.abs n -> is_pattern F x -> is_fin F x = true ->
  rounded F dm (fval F x * bpow radix2 n) (sign_of F x) (cc_ldexp F dm x n).
Proof.
  intros dm x n Hn HP Hx. unfold cc_ldexp.
  pose proof (expmax_bias F HF) as HE. pose proof (bias_ge2 F HF) as HB. pose proof (gf_fl F HF).
  assert (HRx : rounded F dm (fval F x) (sign_of F x) x).
  { pose proof (ust_done F HF dm x Hx x 0 0 (ust_0 F dm x HP Hx) ltac:(lia) (or_introl eq_refl)) as HR.
    change (bpow radix2 0) with 1%R in HR. rewrite Rmult_1_r in HR. exact HR. }
  rewrite (fp_is_inf_or_nan_eq F HF Hel), Hx, (fp_is_zero_eq F HF). rewrite orb_false_r.
  destruct (Z.eqb_spec n 0) as [ | Hn0]; [lia | ]. cbn [orb].
  destruct (Z.eqb_spec (mag_of F x) 0) as [HZ | HZ].
  { assert (HV : fval F x = 0%R) by (apply (fval_zero F HF); assumption).
    rewrite HV in *. rewrite Rmult_0_l. exact HRx. }
  assert (HV0 : fval F x <> 0%R) by (rewrite (fval_zero F HF); assumption).
  assert (HSx : Rlt_bool (fval F x * bpow radix2 n) 0 = sign_of F x).
  { rewrite scale_sign. symmetry. apply (sign_fval F HF); assumption. }
  rewrite (fp_sign_eq F HF) by assumption.
  destruct (Z.ltb_spec (expmax F + fl F + 1) n) as [H1 | H1].
  - apply (rounded_ovf F HF dm x); [ | | exact HSx | ].
    + apply Mult_error.mult_bpow_pos_exact_FLT; [apply (fval_format F HF) | lia].
    + apply scale_ge with (emin F); [ | unfold emin; lia].
      rewrite (Rabs_fval F HF) by assumption. pose proof (mag_range F HF x).
      rewrite <- (Rmult_1_l (bpow radix2 (emin F))). rewrite <- (mval_small F HF 1).
      * apply (mval_le F HF); lia.
      * rewrite (prec_fl F HF). pose proof (fl_pos F HF). lia.
    + rewrite fp_max_normal_eq, (fp_inf_eq F HF Hel). unfold ovf. pose proof (inf_lt_su F HF). pose proof (inf_mag_pos F HF).
      assert (HG : forall a, 0 <= a < sign_unit F -> a = overflow_mag F dm (sign_of F x) ->
        is_pattern F (sbit F (sign_of F x) + a) /\ sign_of F (sbit F (sign_of F x) + a) = sign_of F x /\
        mag_of F (sbit F (sign_of F x) + a) = overflow_mag F dm (sign_of F x)).
      { intros a Ha Hov. split; [apply (sbit_pattern F HF); exact Ha | ]. split; [apply (sign_of_sbit F HF); exact Ha | ].
        rewrite mag_of_sbit by exact Ha. exact Hov. }
      unfold f_inf. destruct (sign_of F x) eqn:S; destruct dm; cbn [negb andb orb];
        (apply HG; [unfold max_mag; lia | reflexivity]).
  - destruct (Z.ltb_spec n (- (expmax F + fl F + 1))); [ | lia].
    assert (HT : rounded F dm (fval F x * bpow radix2 n) (sign_of F x) (tiny_pat F dm x)).
    { apply (tiny_done F HF dm x Hx); [exact HV0 | ].
      apply scale_lt with (bias F + 1); [apply (fin_bound F HF); exact Hx | unfold emin; lia]. }
    unfold tiny_pat in HT. rewrite tiny_value in HT.
    rewrite (fp_min_subnormal_eq F HF Hel), (fp_zero_eq F HF Hel). unfold f_zero.
    destruct (sign_of F x) eqn:S; destruct dm; cbn [negb andb orb b2z] in *; rewrite ?Z.add_0_r in HT; exact HT.
Qed.

Theorem ldexp_special : forall dm x n, is_fin F x = false -> cc_ldexp F dm x n = x.
Proof.
  intros dm x n Hx. unfold cc_ldexp. rewrite (fp_is_inf_or_nan_eq F HF Hel), Hx. cbn [negb]. rewrite orb_true_r. reflexivity.
Qed.
End S.
