(** * Proofs about the dyadic floats: conversion to a native type *)
From Coq Require Import ZArith Reals Bool Lia Lra.
From Flocq Require Import Core.
From Verif Require Import MachInt Bits Fmt FloatSpec FmtProofs RoundProofs RoundMore FOps FOpsProofs ExactOps FPBits
  FPBitsProofs FmanipProofs NextProofs LdexpProofs SqrtProofs Fma FmaProofs Dyadic DyadicSpec.
Open Scope Z_scope.

Lemma land_bit : forall m k, 0 <= k -> negb (Z.land m (2 ^ k) =? 0) = Z.testbit m k.
Proof.
  intros m k Hk. destruct (Z.testbit m k) eqn:E.
  - apply negb_true_iff, Z.eqb_neq. intros H.
    assert (T : Z.testbit (Z.land m (2 ^ k)) k = true) by (rewrite Z.land_spec, E, Z.pow2_bits_true by lia; reflexivity).
    rewrite H, Z.bits_0 in T. discriminate.
  - apply negb_false_iff, Z.eqb_eq. apply Z.bits_inj'. intros i Hi. rewrite Z.land_spec, Z.bits_0.
    destruct (Z.eq_dec i k) as [->|N]; [rewrite E; reflexivity|]. rewrite Z.pow2_bits_false by lia. apply andb_false_r.
Qed.
Lemma land_mask : forall m k, 0 <= k -> Z.land m (2 ^ k - 1) = m mod 2 ^ k.
Proof. intros. rewrite <- Z.land_ones by lia. f_equal. rewrite Z.ones_equiv. lia. Qed.

Lemma ushl_one : forall B k, 0 <= k < B -> ushl B 1 k = Some (2 ^ k).
Proof.
  intros B k H. unfold ushl. replace ((0 <=? k) && (k <? B)) with true by lia.
  rewrite Z.shiftl_mul_pow2, Z.mul_1_l, wrap_small by (unfold inU; pose proof (pow2_pos k); pose proof (pow2_lt k B); lia). reflexivity.
Qed.
Lemma ushr_div : forall B v k, 0 <= k < B -> ushr B v k = Some (v / 2 ^ k).
Proof.
  intros B v k H. unfold ushr. replace ((0 <=? k) && (k <? B)) with true by lia. rewrite Z.shiftr_div_pow2 by lia. reflexivity.
Qed.
Lemma wrap_pm1 : forall B k, 0 <= k <= B -> wrap B (2 ^ k - 1) = 2 ^ k - 1.
Proof. intros. apply wrap_small. unfold inU. pose proof (pow2_pos k). pose proof (pow2_le k B). lia. Qed.

Lemma pow2_top : forall B, 1 <= B -> 2 ^ B = 2 * 2 ^ (B - 1).
Proof. intros. rewrite <- pow2_succ by lia. f_equal. lia. Qed.
Lemma top_bit : forall B m, 1 <= B -> 0 <= m < 2 ^ B -> Z.testbit m (B - 1) = (2 ^ (B - 1) <=? m).
Proof.
  intros B m HB Hm. rewrite pow2_top in Hm by lia. pose proof (pow2_pos (B - 1) ltac:(lia)).
  rewrite Z.testbit_eqb by lia. destruct (Z.leb_spec (2 ^ (B - 1)) m).
  - replace (m / 2 ^ (B - 1)) with 1; [reflexivity|]. apply Z.div_unique with (m - 2 ^ (B - 1)); lia.
  - rewrite Z.div_small by lia. reflexivity.
Qed.

Lemma dyval_sg : forall d, dyval d = (sg (dsign d) * (IZR (dmant d) * bpow radix2 (dexp d)))%R.
Proof. intros d. unfold dyval, sg. rewrite Rmult_assoc. reflexivity. Qed.
Lemma Rabs_dyval : forall d, 0 <= dmant d -> Rabs (dyval d) = (IZR (dmant d) * bpow radix2 (dexp d))%R.
Proof.
  intros d H. rewrite dyval_sg, Rabs_sg, Rabs_pos_eq; auto.
  apply Rmult_le_pos; [apply IZR_le; lia|apply bpow_ge_0].
Qed.

Section S.
Context (F : fmt) (HF : good_fmt F) (Hel : el F <= 16) (B : Z) (HB : fl F + 2 <= B).
Notation T := (FmaTraits 0 (B + 1) B).

Lemma ga_split_eq : forall s e m, 2 ^ (B - 1) <= m < 2 ^ B -> e + (B - 1) <= bias F ->
  exists be om rb st, ga_split F B (Dyadic s e m) = Some (be, om, rb, st, e + (B - 1) <? 1 - bias F) /\
    rn_split F T e m false = (be, om, rb, st) /\
    rb || st = negb (m mod 2 ^ (Z.max (emin F) (B + e - prec F) - e) =? 0).
Proof.
  intros s e m Hm He. pose proof (fl_pos F HF) as HP. pose proof (gf_fl F HF) as Hf1. pose proof (gf_bias F HF) as Hb1.
  pose proof (pow2_pos (B - 1) ltac:(lia)) as HP1.
  assert (OR : forall K, 1 <= K -> Z.testbit m (K - 1) || negb (m mod 2 ^ (K - 1) =? 0) = negb (m mod 2 ^ K =? 0)).
  { intros K HK. destruct (rem_split m K HK) as [E R]. rewrite E. pose proof (pow2_pos (K - 1) ltac:(lia)).
    destruct (Z.testbit m (K - 1)); cbn [b2z orb]; destruct (Z.eqb_spec (m mod 2 ^ (K - 1)) 0) as [E0|E0]; cbn [negb];
      symmetry; (apply negb_true_iff || apply negb_false_iff); lia. }
  unfold ga_split, rn_split, get_unbiased_exponent. cbn [dexp dmant accumulator_bits acc_int].
  set (ue := e + (B - 1)) in *.
  assert (Em : forall sh, emin F - e = sh -> 1 <= sh -> 0 <= sh) by lia.
  destruct (Z.ltb_spec ue (- bias F - fl F)) as [H1|H1].
  { replace (1 - bias F <=? ue) with false by lia. replace (B <? 1 - bias F - fl F - e) with true by (unfold ue in *; lia).
    replace (ue <? 1 - bias F) with true by lia. do 4 eexists. split; [reflexivity|]. split; [reflexivity|].
    replace (Z.max (emin F) (B + e - prec F) - e) with (1 - bias F - fl F - e) by (unfold emin, prec, ue in *; lia).
    rewrite Z.mod_small. replace (m =? 0) with false by lia. reflexivity.
    pose proof (pow2_le B (1 - bias F - fl F - e) ltac:(unfold ue in *; lia)). lia. }
  destruct (Z.eqb_spec ue (- bias F - fl F)) as [H2|H2].
  { rewrite ushl_one by lia. cbn [bindo]. rewrite wrap_pm1, land_mask by lia.
    replace (1 - bias F <=? ue) with false by lia. assert (EB : 1 - bias F - fl F - e = B) by (unfold ue in *; lia).
    rewrite EB. rewrite Z.ltb_irrefl, Z.eqb_refl. replace (ue <? 1 - bias F) with true by lia.
    assert (TB : Z.testbit m (B - 1) = true).
    { rewrite top_bit by lia. apply Z.leb_le. lia. }
    unfold int_get_bit. replace (B - 1 <? 0) with false by lia. rewrite lower_bits_eq by (pose proof (pow2_le B (B + 1)); lia).
    cbn [orb]. rewrite TB.
    do 4 eexists. split; [reflexivity|]. split; [reflexivity|]. cbn [orb].
    replace (Z.max (emin F) (B + e - prec F) - e) with B by (unfold emin, prec, ue in *; lia).
    rewrite Z.mod_small by lia. replace (m =? 0) with false by lia. reflexivity. }
  assert (GEN : forall K, 1 <= K < B ->
    (do round_mask <- ushl B 1 (K - 1); do q <- ushr B m K;
      Some (K, wrap (width F) q, negb (Z.land m round_mask =? 0), negb (Z.land m (wrap B (round_mask - 1)) =? 0), true)) =
    Some (K, wrap (width F) (Z.shiftr m K), int_get_bit m (K - 1), false || lower_bits_nonzero (B + 1) m (K - 1), true)).
  { intros K HK. rewrite ushl_one, ushr_div by lia. cbn [bindo orb]. rewrite land_bit, wrap_pm1, land_mask by lia.
    unfold int_get_bit. replace (K - 1 <? 0) with false by lia.
    rewrite lower_bits_eq by (pose proof (pow2_le B (B + 1)); lia). rewrite Z.shiftr_div_pow2 by lia. reflexivity. }
  destruct (Z.ltb_spec ue (1 - bias F)) as [H3|H3].
  - set (K := B - 1 - fl F + (1 - bias F - ue)).
    replace (1 - bias F <=? ue) with false by lia.
    assert (EK : 1 - bias F - fl F - e = K) by (unfold K, ue; lia). rewrite EK.
    assert (HK : 1 <= K < B) by (unfold K; lia). replace (B <? K) with false by lia. replace (K =? B) with false by lia.
    specialize (GEN K HK). rewrite ushl_one, ushr_div in * by lia. cbn [bindo] in *. injection GEN as G1 G2 G3.
    rewrite G1, G2, G3. do 4 eexists. split; [reflexivity|]. split; [reflexivity|].
    replace (Z.max (emin F) (B + e - prec F) - e) with K by (unfold emin, prec, ue in *; lia).
    rewrite <- OR by lia. unfold int_get_bit. replace (K - 1 <? 0) with false by lia.
    rewrite lower_bits_eq by (pose proof (pow2_le B (B + 1)); lia). reflexivity.
  - replace (1 - bias F <=? ue) with true by lia. rewrite Z.add_0_r. set (K := B - 1 - fl F).
    assert (EK : B - (fl F + 1) = K) by (unfold K; lia). rewrite EK.
    assert (HK : 1 <= K < B) by (unfold K; lia).
    specialize (GEN K HK). rewrite ushl_one, ushr_div in * by lia. cbn [bindo] in *. injection GEN as G1 G2 G3.
    rewrite G1, G2, G3. do 4 eexists. split; [reflexivity|]. split; [reflexivity|].
    replace (Z.max (emin F) (B + e - prec F) - e) with K by (unfold emin, prec, ue in *; lia).
    rewrite <- OR by lia. unfold int_get_bit. replace (K - 1 <? 0) with false by lia.
    rewrite lower_bits_eq by (pose proof (pow2_le B (B + 1)); lia). reflexivity.
Qed.
Lemma generic_as_eq : forall dm s e m, 2 ^ (B - 1) <= m < 2 ^ B ->
  let b := round_encode F dm s m e false in
  generic_as F B dm (Dyadic s e m) = Some (b,
    if bias F <? e + (B - 1) then Excepts true true false
    else if negb (m mod 2 ^ (Z.max (emin F) (B + e - prec F) - e) =? 0)
         then if fp_is_inf F b then Excepts true true false else Excepts true false (e + (B - 1) <? 1 - bias F)
         else no_excepts).
Proof.
  intros dm s e m Hm b. pose proof (pow2_pos (B - 1) ltac:(pose proof (gf_fl F HF); lia)) as HP1.
  unfold generic_as, get_unbiased_exponent. cbn [dmant dsign dexp]. replace (m =? 0) with false by lia.
  assert (EQ := round_normalized_weak F HF Hel dm T ltac:(cbn; unfold prec; lia) ltac:(cbn; lia) s e m false Hm).
  fold b in EQ. unfold round_normalized, int_is_zero in EQ. replace (m =? 0) with false in EQ by lia. cbn [accumulator_bits] in EQ.
  rewrite (expmax_bias F HF). replace (2 * bias F + 1 <=? e + (B - 1) + bias F) with (bias F <? e + (B - 1)) by lia.
  destruct (Z.ltb_spec (bias F) (e + (B - 1))) as [HO|HO]; [rewrite EQ; reflexivity|].
  destruct (ga_split_eq s e m Hm HO) as (be & om & rb & st & E1 & E2 & E3). rewrite E1, E2 in *. cbn [bindo].
  rewrite EQ, E3. reflexivity.
Qed.

Lemma dyval_mag : forall d, 2 ^ (B - 1) <= dmant d < 2 ^ B -> mag radix2 (dyval d) = (B + dexp d)%Z :> Z.
Proof.
  intros d Hm. pose proof (gf_fl F HF). pose proof (pow2_pos (B - 1) ltac:(lia)) as HP1.
  apply mag_unique. rewrite Rabs_dyval by lia.
  replace (B + dexp d - 1) with (B - 1 + dexp d) by lia. rewrite !bpow_plus.
  rewrite (bpow_IZR (B - 1)), (bpow_IZR B) by lia. pose proof (bpow_gt_0 radix2 (dexp d)). split.
  - apply Rmult_le_compat_r; [lra|]. apply IZR_le. lia.
  - apply Rmult_lt_compat_r; [lra|]. apply IZR_lt. lia.
Qed.

Lemma dyval_format : forall d, 2 ^ (B - 1) <= dmant d < 2 ^ B ->
  generic_format radix2 (FLT_exp (emin F) (prec F)) (dyval d) <->
  dmant d mod 2 ^ (Z.max (emin F) (B + dexp d - prec F) - dexp d) = 0.
Proof.
  intros d Hm. pose proof (gf_fl F HF). pose proof (dyval_mag d Hm) as HM.
  set (et := Z.max (emin F) (B + dexp d - prec F)). assert (HK : 0 <= et - dexp d) by (unfold et, prec; lia).
  assert (EC : cexp radix2 (FLT_exp (emin F) (prec F)) (dyval d) = et).
  { unfold cexp, FLT_exp, et. rewrite HM. lia. }
  set (K := et - dexp d) in *. pose proof (pow2_pos K HK) as HKp.
  assert (S : forall a, (IZR (a * 2 ^ K) * bpow radix2 (dexp d) = IZR a * bpow radix2 et)%R).
  { intros a. rewrite mult_IZR, <- (bpow_IZR K) by lia. replace et with (K + dexp d) by (unfold K; lia). rewrite bpow_plus. ring. }
  assert (SG : (sg (dsign d) <> 0)%R) by (destruct (dsign d); cbn; lra).
  split.
  - intros G. unfold generic_format, F2R in G. cbn [Fnum Fexp] in G. rewrite EC in G.
    set (n := Ztrunc (scaled_mantissa radix2 (FLT_exp (emin F) (prec F)) (dyval d))) in *.
    rewrite <- S in G. rewrite dyval_sg in G. rewrite <- Rmult_assoc in G. apply Rmult_eq_reg_r in G.
    2:{ pose proof (bpow_gt_0 radix2 (dexp d)). lra. }
    assert (E : dmant d = (if dsign d then - n else n) * 2 ^ K).
    { apply eq_IZR. destruct (dsign d); cbn [sg] in G; [|lra]. rewrite Z.mul_opp_l, opp_IZR. lra. }
    rewrite E. apply Z.mod_mul. lia.
  - intros E. rewrite dyval_sg. pose proof (Z.div_mod (dmant d) (2 ^ K) ltac:(lia)) as DM. rewrite E in DM.
    replace (dmant d) with (dmant d / 2 ^ K * 2 ^ K) by lia. rewrite S.
    replace (sg (dsign d) * (IZR (dmant d / 2 ^ K) * bpow radix2 et))%R with
      (F2R (Float radix2 (if dsign d then - (dmant d / 2 ^ K) else dmant d / 2 ^ K) et)).
    2:{ unfold F2R. cbn [Fnum Fexp]. destruct (dsign d); cbn [sg]; [rewrite opp_IZR|]; ring. }
    apply generic_format_F2R. intros _.
    replace (F2R _) with (dyval d); [rewrite EC; lia|].
    rewrite dyval_sg. replace (dmant d) with (dmant d / 2 ^ K * 2 ^ K) at 1 by lia. rewrite S.
    unfold F2R. cbn [Fnum Fexp]. destruct (dsign d); cbn [sg]; [rewrite opp_IZR|]; ring.
Qed.

Lemma generic_as_spec : forall dm d, dy_ok B d -> dy_norm B d ->
  exists b ex, generic_as F B dm d = Some (b, ex) /\ rounded F dm (dyval d) (dsign d) b /\
    (ex_inexact ex = true <-> is_fin F b = false \/ fval F b <> dyval d) /\
    (ex_overflow ex = true <-> (bpow radix2 (bias F + 1) <= Rabs (fround F dm (dyval d)))%R) /\
    (ex_underflow ex = true <-> (Rabs (dyval d) < bpow radix2 (1 - bias F))%R /\ fval F b <> dyval d).
Proof.
  intros dm d [Hm He] HN. pose proof (gf_fl F HF) as Hf1. pose proof (gf_bias F HF) as Hb1.
  pose proof (pow2_pos (B - 1) ltac:(lia)) as HP1.
  destruct HN as [HN|HN].
  { exists (fp_zero F (dsign d)), no_excepts. unfold generic_as. rewrite HN. split; [reflexivity|].
    assert (V0 : dyval d = 0%R) by (rewrite dyval_sg, HN; ring). rewrite V0.
    rewrite (fp_zero_eq2 F HF Hel). destruct (f_zero_props F HF (dsign d)) as (P & Fi & M & S & V).
    split. { rewrite <- S at 1. rewrite <- V at 1. apply (rounded_self F HF); auto. }
    cbn [ex_inexact ex_overflow ex_underflow no_excepts]. rewrite Fi, V. rewrite (fround_exact F dm 0) by apply generic_format_0. rewrite Rabs_R0.
    pose proof (bpow_gt_0 radix2 (bias F + 1)). intuition (try congruence; lra). }
  assert (Hmm : 2 ^ (B - 1) <= dmant d < 2 ^ B) by lia.
  set (b := round_encode F dm (dsign d) (dmant d) (dexp d) false).
  assert (Vn : (dyval d <> 0)%R).
  { intros E. assert (Rabs (dyval d) = 0)%R by (rewrite E; apply Rabs_R0). rewrite Rabs_dyval in H by lia.
    pose proof (bpow_gt_0 radix2 (dexp d)). pose proof (IZR_lt 0 (dmant d) ltac:(lia)). nra. }
  assert (RD : rounded F dm (dyval d) (dsign d) b).
  { apply (round_encode_spec F HF).
    - lia.
    - apply Rabs_dyval. lia.
    - intros _. rewrite dyval_sg. pose proof (bpow_gt_0 radix2 (dexp d)). pose proof (IZR_lt 0 (dmant d) ltac:(lia)).
      unfold sg. destruct (dsign d); [apply Rlt_bool_true|apply Rlt_bool_false]; nra.
    - discriminate. }
  pose proof (generic_as_eq dm (dsign d) (dexp d) (dmant d) Hmm) as EQ. cbv zeta in EQ. fold b in EQ.
  replace (Dyadic (dsign d) (dexp d) (dmant d)) with d in EQ by (destruct d; reflexivity).
  exists b. eexists. split; [exact EQ|]. split; [exact RD|].
  pose proof (dyval_mag d Hmm) as HM. pose proof (dyval_format d Hmm) as HFm.
  destruct RD as (_ & _ & RF & RO).
  assert (VE : Valid_exp (FLT_exp (emin F) (prec F))) by (apply FLT_exp_valid; unfold Prec_gt_0, prec; lia).
  assert (VR : Valid_rnd (rnd dm)) by (destruct dm; cbn; auto with typeclass_instances).
  destruct (Z.ltb_spec (bias F) (dexp d + (B - 1))) as [HO|HO].
  - assert (HX : (bpow radix2 (bias F + 1) <= Rabs (dyval d))%R).
    { apply Rle_trans with (bpow radix2 (mag radix2 (dyval d) - 1)); [apply bpow_le; lia|]. apply bpow_mag_le. auto. }
    assert (HR : (bpow radix2 (bias F + 1) <= Rabs (fround F dm (dyval d)))%R).
    { unfold fround. apply abs_round_ge_generic; auto. 
      apply generic_format_bpow. unfold FLT_exp, emin, prec. lia. }
    cbn [ex_inexact ex_overflow ex_underflow no_excepts]. split.
    { split; auto. intros _. destruct (is_fin F b) eqn:Fb; auto. right. intros E.
      pose proof (fin_bound F HF b Fb). rewrite E in H. lra. }
    split; [tauto|]. split; [discriminate|]. intros [H _]. exfalso.
    assert (bpow radix2 (1 - bias F) < bpow radix2 (bias F + 1))%R by (apply bpow_lt; lia). lra.
  - assert (HX : (Rabs (dyval d) < bpow radix2 (bias F + 1))%R).
    { apply Rlt_le_trans with (bpow radix2 (mag radix2 (dyval d))); [apply bpow_mag_gt|apply bpow_le; lia]. }
    assert (HU : (dexp d + (B - 1) <? 1 - bias F) = true <-> (Rabs (dyval d) < bpow radix2 (1 - bias F))%R).
    { destruct (Z.ltb_spec (dexp d + (B - 1)) (1 - bias F)); split; auto; try discriminate.
      - intros _. apply Rlt_le_trans with (bpow radix2 (mag radix2 (dyval d))); [apply bpow_mag_gt|apply bpow_le; lia].
      - intros HC. exfalso. assert (bpow radix2 (1 - bias F) <= Rabs (dyval d))%R; [|lra].
        apply Rle_trans with (bpow radix2 (mag radix2 (dyval d) - 1)); [apply bpow_le; lia|]. apply bpow_mag_le. auto. }
    destruct (Z.eqb_spec (dmant d mod 2 ^ (Z.max (emin F) (B + dexp d - prec F) - dexp d)) 0) as [E0|E0]; cbn [negb].
    + assert (G := proj2 HFm E0). rewrite (fround_exact F dm _ G) in *. destruct (RF HX) as [Fb Vb]. cbn.
      rewrite Fb, Vb. intuition (try congruence; lra).
    + assert (NG : fround F dm (dyval d) <> dyval d).
      { intros E. apply E0. apply HFm. rewrite <- E. apply generic_format_round; auto.
         }
      rewrite (fp_is_inf_eq F HF Hel).
      destruct (Rlt_or_le (Rabs (fround F dm (dyval d))) (bpow radix2 (bias F + 1))) as [HL|HL].
      * destruct (RF HL) as [Fb Vb].
        assert (IB : is_inf F b = false).
        { unfold is_inf. unfold is_fin in Fb. apply Z.eqb_neq. lia. }
        rewrite IB. cbn [ex_inexact ex_overflow ex_underflow no_excepts]. rewrite Fb, Vb. split; [intuition|]. split; [split; [discriminate|lra]|]. tauto.
      * assert (IB : is_inf F b = true).
        { unfold is_inf. apply Z.eqb_eq. rewrite (RO HL). unfold overflow_mag.
          assert (LB : forall P, (Rabs (fround F dm (dyval d)) <= Rabs (dyval d))%R -> P) by (intros; lra).
          revert LB HL. unfold fround. destruct dm; cbn [rnd]; intros LB HL; auto.
          - destruct (Rlt_bool_spec (dyval d) 0) as [HS|HS]; auto. apply LB.
            rewrite !Rabs_pos_eq; auto; [apply round_DN_pt; auto|].
            apply round_ge_generic; auto with typeclass_instances. apply generic_format_0.
          - destruct (Rlt_bool_spec (dyval d) 0) as [HS|HS]; auto. apply LB.
            rewrite !Rabs_left1; try lra; [apply Ropp_le_contravar; apply round_UP_pt; auto|].
            apply round_le_generic; auto with typeclass_instances; [apply generic_format_0|lra].
          - apply LB. destruct (Rle_or_lt 0 (dyval d)) as [HS|HS].
            + rewrite round_ZR_DN by auto. rewrite !Rabs_pos_eq; auto; [apply round_DN_pt; auto|].
              apply round_ge_generic; auto with typeclass_instances. apply generic_format_0.
            + rewrite round_ZR_UP by lra. rewrite !Rabs_left1; try lra; [apply Ropp_le_contravar; apply round_UP_pt; auto|].
              apply round_le_generic; auto with typeclass_instances; [apply generic_format_0|lra]. }
        rewrite IB. cbn [ex_inexact ex_overflow ex_underflow no_excepts]. assert (Fb : is_fin F b = false).
        { unfold is_inf in IB. apply Z.eqb_eq in IB. unfold is_fin. apply Z.ltb_ge. lia. }
        split; [intuition|]. split; [tauto|]. split; [discriminate|]. intros [H _]. exfalso.
        assert (Rabs (fround F dm (dyval d)) <= bpow radix2 (1 - bias F))%R.
        { unfold fround. apply abs_round_le_generic; auto; try lra. 
          apply generic_format_bpow. unfold FLT_exp, emin, prec. lia. }
        assert (bpow radix2 (1 - bias F) < bpow radix2 (bias F + 1))%R by (apply bpow_lt; lia). lra.
Qed.
End S.
