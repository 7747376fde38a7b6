(** * fast_as / as / operator T: rounding by one native operation *)
From Coq Require Import ZArith Reals Bool Lia Lra.
From Flocq Require Import Core.
From Verif Require Import MachInt Bits Fmt FloatSpec FmtProofs RoundProofs RoundMore FOps FOpsProofs ExactOps FPBits
  FPBitsProofs FmanipProofs NextProofs LdexpProofs SqrtProofs Fma FmaProofs Dyadic DyadicSpec DyadicProofs.
Open Scope Z_scope.

Section S.
Context (F : fmt) (HF : good_fmt F) (Hel : el F <= 16) (Hb3 : fl F + 3 <= bias F).
Notation fexp := (FLT_exp (emin F) (prec F)).

(** A normal number built from its fields. *)
Lemma create_val : forall s be om, 1 <= be <= 2 * bias F -> 0 <= om < 2 ^ fl F ->
  let c := create_value F s be om in
  c = sbit F s + (be * 2 ^ fl F + om) /\ is_pattern F c /\ is_fin F c = true /\ sign_of F c = s /\
  fval F c = (sg s * (IZR (2 ^ fl F + om) * bpow radix2 (be - bias F - fl F)))%R.
Proof.
  intros s be om Hbe Hom c. pose proof (fl_pos F HF) as HP. pose proof (expmax_bias F HF) as Hem.
  assert (E : c = sbit F s + (be * 2 ^ fl F + om)).
  { unfold c. rewrite (create_value_eq F HF Hel) by (unfold expmax in Hem; lia). unfold pack. lia. }
  assert (R : 0 <= be * 2 ^ fl F + om < inf_mag F).
  { unfold inf_mag. rewrite Hem. assert (be * 2 ^ fl F <= 2 * bias F * 2 ^ fl F) by (apply Z.mul_le_mono_nonneg_r; lia).
    assert (0 <= be * 2 ^ fl F) by (apply Z.mul_nonneg_nonneg; lia). lia. }
  rewrite E. split; [reflexivity|]. destruct (fin_sbit F HF s _ R) as (A1 & A2 & A3 & A4).
  split; [exact A1|]. split; [exact A2|]. split; [exact A3|].
  rewrite (fval_sbit F HF) by lia. f_equal.
  replace (be * 2 ^ fl F + om) with (enc F (2 ^ fl F + om) (be - bias F - fl F)).
  2:{ unfold enc, emin. replace (be - bias F - fl F - (1 - bias F - fl F)) with (be - 1) by lia. ring. }
  apply (mval_enc F HF); [unfold emin; lia| |lia]. rewrite (prec_split F HF). lia.
Qed.

Lemma of_small : forall rm n, 0 <= n <= 3 ->
  is_pattern F (f_of_Z F rm n) /\ is_fin F (f_of_Z F rm n) = true /\ fval F (f_of_Z F rm n) = IZR n.
Proof.
  intros rm n Hn. pose proof (gf_fl F HF).
  assert (Ha : Z.abs n <= 2 ^ prec F) by (pose proof (pow2_le 2 (prec F) ltac:(unfold prec; lia)); change (2 ^ 2) with 4 in *; lia).
  pose proof (round_int_spec F HF rm false n 0) as HR. change (bpow radix2 0) with 1%R in HR. rewrite Rmult_1_r in HR.
  destruct (rounded_repr F rm (IZR n) false (f_of_Z F rm n) (format_int F HF n Ha) (int_bound F HF n Ha) HR) as (H1' & H2' & H3' & _).
  auto.
Qed.

(** [multiply_add(d_lo, n, d_hi)] with [d_lo] a power of two rounds once. *)
Lemma multiply_add_spec : forall rm h s k n z lo, 0 <= n <= 3 ->
  is_fin F lo = true -> fval F lo = (sg s * bpow radix2 k)%R -> emin F <= k <= bias F - 2 ->
  is_fin F z = true -> exists zs,
  rounded F rm (sg s * (IZR n * bpow radix2 k) + fval F z) zs (multiply_add F rm h lo (f_of_Z F rm n) z).
Proof.
  intros rm h s k n z lo Hn Flo Vlo Hk Fz. destruct (of_small rm n Hn) as (Pn & Fn & Vn).
  unfold multiply_add. destruct h.
  - eexists. pose proof (f_fma_spec F HF rm lo (f_of_Z F rm n) z Flo Fn Fz) as H. rewrite Vlo, Vn in H.
    replace (sg s * bpow radix2 k * IZR n)%R with (sg s * (IZR n * bpow radix2 k))%R in H by ring. exact H.
  - pose proof (f_mul_spec F HF rm lo (f_of_Z F rm n) Flo Fn) as H. rewrite Vlo, Vn in H.
    replace (sg s * bpow radix2 k * IZR n)%R with (sg s * (IZR n * bpow radix2 k))%R in H by ring.
    assert (G : generic_format radix2 fexp (sg s * (IZR n * bpow radix2 k))).
    { assert (G0 : generic_format radix2 fexp (IZR n * bpow radix2 k)).
      { apply generic_format_FLT. exists (Float radix2 n k); cbn; [reflexivity| |lia].
        pose proof (pow2_le 2 (prec F) ltac:(unfold prec; pose proof (gf_fl F HF); lia)). change (2 ^ 2) with 4 in *.
        rewrite Z.abs_eq by lia. change (Zpower radix2 (prec F)) with (2 ^ prec F). lia. }
      unfold sg. destruct s; [|rewrite Rmult_1_l; exact G0].
      replace (-1 * (IZR n * bpow radix2 k))%R with (- (IZR n * bpow radix2 k))%R by ring. apply generic_format_opp. exact G0. }
    assert (HL : (Rabs (sg s * (IZR n * bpow radix2 k)) < bpow radix2 (bias F + 1))%R).
    { rewrite Rabs_sg, Rabs_pos_eq by (apply Rmult_le_pos; [apply IZR_le; lia|apply bpow_ge_0]).
      apply Rlt_le_trans with (4 * bpow radix2 k)%R.
      - apply Rmult_lt_compat_r; [apply bpow_gt_0|]. apply (IZR_lt n 4). lia.
      - change 4%R with (bpow radix2 2). rewrite <- bpow_plus. apply bpow_le. lia. }
    destruct (rounded_repr F rm _ _ _ G HL H) as (P1 & F1 & V1 & _).
    pose proof (f_add_spec F HF rm _ z F1 Fz) as H2. rewrite V1 in H2. eexists. exact H2.
Qed.

(** Two numbers in the same bracket round to the same pattern. *)
Lemma same_bracket : forall rm s m st e x y zs zs' b, 0 < m -> (st = true -> prec F < digits m) ->
  brk m st e x -> brk m st e y -> rounded F rm (sg s * y) zs b ->
  b = round_encode F rm s m e st /\ rounded F rm (sg s * x) zs' b.
Proof.
  intros rm s m st e x y zs zs' b Hm Hst Hx Hy HR.
  assert (E : b = round_encode F rm s m e st).
  { eapply (rounded_unique F HF); [exact HR|]. apply (brk_rounded F HF); auto. }
  split; [exact E|]. rewrite E. apply (brk_rounded F HF); auto.
Qed.

(** The bracket made by d_hi, the round bit and the sticky bit. *)
Lemma brk_rs : forall q rb st e, 
  brk (2 * q + b2z rb) st (e + 1) ((IZR q * 4 + IZR (b2z rb * 2 + b2z st)) * bpow radix2 e).
Proof.
  intros q rb st e. pose proof (bpow_gt_0 radix2 e). rewrite plus_IZR, mult_IZR. unfold brk.
  rewrite !plus_IZR, !mult_IZR, bpow_plus. change (bpow radix2 1) with 2%R. destruct st; cbn [b2z].
  - split; nra.
  - nra.
Qed.
Lemma brk_m : forall m e K, 1 <= K -> 0 <= m ->
  brk (2 * (m / 2 ^ K) + b2z (Z.testbit m (K - 1))) (negb (m mod 2 ^ (K - 1) =? 0)) (e + (K - 1)) (IZR m * bpow radix2 e).
Proof.
  intros m e K HK Hm. replace (2 * (m / 2 ^ K) + b2z (Z.testbit m (K - 1))) with (m / 2 ^ (K - 1)).
  - apply brk_shift; lia.
  - pose proof (pow2_pos (K - 1) ltac:(lia)).
    replace (2 ^ K) with (2 ^ (K - 1) * 2) by (rewrite Z.mul_comm, <- pow2_succ by lia; f_equal; lia).
    rewrite <- Z.div_div by lia. rewrite Z.testbit_eqb by lia. rewrite (Z.div_mod (m / 2 ^ (K - 1)) 2) at 1 by lia.
    rewrite Zmod_odd. destruct (Z.odd (m / 2 ^ (K - 1))); reflexivity.
Qed.

(** Scaling a normal number by a power of two scales its rounding. *)
Lemma fround_scale : forall rm x k, (bpow radix2 (1 - bias F) <= Rabs x)%R -> 0 <= k ->
  fround F rm (x * bpow radix2 k) = (fround F rm x * bpow radix2 k)%R.
Proof.
  intros rm x k Hx Hk. assert (x <> 0)%R.
  { intros ->. rewrite Rabs_R0 in Hx. pose proof (bpow_gt_0 radix2 (1 - bias F)). lra. }
  assert (HM : 2 - bias F <= mag radix2 x).
  { replace (2 - bias F) with (1 - bias F + 1) by lia. apply mag_ge_bpow. replace (1 - bias F + 1 - 1) with (1 - bias F) by lia. exact Hx. }
  unfold fround, round, F2R. cbn [Fnum Fexp].
  assert (EC : cexp radix2 fexp (x * bpow radix2 k) = cexp radix2 fexp x + k).
  { unfold cexp. rewrite mag_mult_bpow by auto. unfold FLT_exp, emin, prec. lia. }
  unfold scaled_mantissa. rewrite EC. rewrite bpow_plus.
  replace (x * bpow radix2 k * bpow radix2 (- (cexp radix2 fexp x + k)))%R with (x * bpow radix2 (- cexp radix2 fexp x))%R; [ring|].
  rewrite Rmult_assoc. f_equal. rewrite <- bpow_plus. f_equal. lia.
Qed.

Context (B : Z) (HB : fl F + 2 <= B <= 2 ^ 31).

Lemma fast_masks : forall m K, 0 < m < 2 ^ B -> 1 <= K < 2 ^ 32 ->
  let sm1 := wrap 32 (K - 1) in let mask := if B <=? sm1 then 0 else wrap B (Z.shiftl 1 sm1) in
  (if B <=? K then 0 else Z.shiftr m K) = m / 2 ^ K /\
  negb (Z.land m mask =? 0) = Z.testbit m (K - 1) /\
  negb (Z.land m (wrap B (mask - 1)) =? 0) = negb (m mod 2 ^ (K - 1) =? 0).
Proof.
  intros m K Hm HK sm1 mask. pose proof (gf_fl F HF).
  assert (E1 : sm1 = K - 1) by (unfold sm1; apply wrap_small; unfold inU; lia).
  unfold mask. rewrite E1. split; [|].
  { destruct (Z.leb_spec B K); [|apply Z.shiftr_div_pow2; lia]. symmetry. apply Z.div_small.
    pose proof (pow2_le B K ltac:(lia)). lia. }
  destruct (Z.leb_spec B (K - 1)).
  - pose proof (pow2_le B (K - 1) ltac:(lia)). rewrite Z.land_0_r. split.
    + rewrite Z.testbit_eqb by lia. rewrite Z.div_small by lia. reflexivity.
    + replace (wrap B (0 - 1)) with (2 ^ B - 1).
      2:{ unfold wrap. apply Z.mod_unique with (-1); lia. }
      rewrite land_mask by lia. rewrite !Z.mod_small by lia. reflexivity.
  - rewrite Z.shiftl_mul_pow2, Z.mul_1_l by lia. rewrite (wrap_small B (2 ^ (K - 1))).
    2:{ unfold inU. pose proof (pow2_pos (K - 1)). pose proof (pow2_lt (K - 1) B). lia. }
    rewrite land_bit, wrap_pm1, land_mask by lia. split; reflexivity.
Qed.

Lemma digits_top : forall q (rb : bool), 2 ^ fl F <= q < 2 ^ (fl F + 1) -> digits (2 * q + b2z rb) = prec F + 1.
Proof.
  intros q rb Hq. pose proof (gf_fl F HF). pose proof (fl_pos F HF). rewrite pow2_succ in Hq by lia. apply digits_unique.
  - unfold prec; lia.
  - unfold prec. replace (fl F + 1 + 1 - 1) with (fl F + 1) by lia. rewrite !pow2_succ by lia. destruct rb; cbn [b2z]; lia.
Qed.

Lemma dm_pos : forall d, 0 < dmant d -> (dyval d <> 0)%R /\ Rlt_bool (dyval d) 0 = dsign d.
Proof.
  intros d H. rewrite dyval_sg. pose proof (bpow_gt_0 radix2 (dexp d)). pose proof (IZR_lt 0 (dmant d) ltac:(lia)).
  unfold sg. destruct (dsign d); split; try (apply Rlt_bool_true || apply Rlt_bool_false); nra.
Qed.

Lemma fast_as_spec : forall rm h d, dy_ok B d -> dy_norm B d ->
  rounded F rm (dyval d) (dsign d) (fast_as F B rm h d).
Proof.
  intros rm h d [Hm He] HN. pose proof (gf_fl F HF) as Hf1. pose proof (fl_pos F HF) as HPf.
  pose proof (pow2_pos (B - 1) ltac:(lia)) as HP1. pose proof (expmax_bias F HF) as Hem.
  assert (Hbb : bias F <= 2 ^ 15).
  { unfold bias. pose proof (pow2_le (el F - 1) 15 ltac:(pose proof (gf_el F HF); lia)). lia. }
  change (2 ^ 15) with 32768 in Hbb. change (2 ^ 30) with 1073741824 in He. change (2 ^ 31) with 2147483648 in HB.
  unfold fast_as. destruct HN as [HN|HN].
  { rewrite HN. cbn [Z.eqb]. rewrite dyval_sg, HN. replace (sg (dsign d) * (0 * bpow radix2 (dexp d)))%R with 0%R by ring.
    rewrite (fp_zero_eq2 F HF Hel). destruct (f_zero_props F HF (dsign d)) as (P & Fi & M & S & V).
    rewrite <- S at 1. rewrite <- V at 1. apply (rounded_self F HF); auto. }
  destruct (dm_pos d ltac:(lia)) as [Vn Vs]. replace (dmant d =? 0) with false by lia.
  replace (significand_mask F - fraction_mask F) with 0 by (unfold significand_mask, fraction_mask; lia).
  set (m := dmant d) in *. set (e := dexp d) in *. set (s := dsign d) in *.
  assert (VR : Valid_rnd (rnd rm)) by (destruct rm; cbn; auto with typeclass_instances).
  assert (VE : Valid_exp fexp) by (apply FLT_exp_valid; unfold Prec_gt_0, prec; lia).
  destruct (Z.ltb_spec (2 * bias F) (e + (B - 1 + bias F))) as [HO|HO].
  { (* overflow *)
    destruct (create_val s (2 * bias F) 0 ltac:(lia) ltac:(lia)) as (_ & P1 & F1 & S1 & V1).
    destruct (of_small rm 2 ltac:(lia)) as (P2 & F2 & V2).
    pose proof (f_mul_spec F HF rm _ _ F2 F1) as H. rewrite V1, V2 in H.
    replace (2 * (sg s * (IZR (2 ^ fl F + 0) * bpow radix2 (2 * bias F - bias F - fl F))))%R with (sg s * bpow radix2 (bias F + 1))%R in H.
    2:{ rewrite Z.add_0_r, <- bpow_IZR by lia. replace (2 * bias F - bias F - fl F) with (bias F - fl F) by lia.
        replace (bias F - fl F) with (bias F + - fl F) by lia. rewrite !bpow_plus, bpow_opp. change (bpow radix2 1) with 2%R.
        field. pose proof (bpow_gt_0 radix2 (fl F)). lra. }
    destruct H as (HA & HS & _ & HO2). pose proof (bpow_gt_0 radix2 (bias F + 1)) as HBp.
    assert (GF : generic_format radix2 fexp (bpow radix2 (bias F + 1))) by (apply generic_format_bpow; unfold FLT_exp, emin, prec; lia).
    assert (Q : forall x, (bpow radix2 (bias F + 1) <= Rabs x)%R -> (bpow radix2 (bias F + 1) <= Rabs (fround F rm x))%R).
    { intros x Hx. unfold fround. apply abs_round_ge_generic; auto. }
    assert (HX : (bpow radix2 (bias F + 1) <= Rabs (dyval d))%R).
    { apply Rle_trans with (bpow radix2 (mag radix2 (dyval d) - 1)); [|apply bpow_mag_le; auto].
      apply bpow_le. rewrite (dyval_mag F HF B ltac:(lia) d) by lia. fold e. lia. }
    assert (SS : Rlt_bool (sg s * bpow radix2 (bias F + 1)) 0 = s).
    { unfold sg. destruct s; [apply Rlt_bool_true|apply Rlt_bool_false]; lra. }
    split; [exact HA|]. rewrite Req_bool_false in * by (auto; unfold sg; destruct s; lra).
    rewrite SS in *. rewrite Vs. split; [exact HS|]. specialize (Q _ HX) as QX. split; [intros; lra|]. intros _.
    apply HO2. apply Q. rewrite Rabs_sg, Rabs_pos_eq; lra. }
  set (dn := e + (B - 1 + bias F) <=? 0).
  set (K := if dn then 1 - bias F - fl F - e else B - (fl F + 1)).
  assert (HK : 1 <= K < 2 ^ 32).
  { change (2 ^ 32) with 4294967296. unfold K. destruct dn eqn:D; unfold dn in D; lia. }
  assert (ES : (if dn then wrap 32 (wrap 32 (B - (fl F + 1)) + wrap 32 (1 - (e + (B - 1 + bias F)))) else wrap 32 (B - (fl F + 1))) = K).
  { change (2 ^ 32) with 4294967296 in HK. unfold K in *. destruct dn eqn:D; unfold dn in D.
    - rewrite !(wrap_small 32); unfold inU; change (2 ^ 32) with 4294967296; try lia.
      rewrite (wrap_small 32 (B - _)) by (unfold inU; change (2 ^ 32) with 4294967296; lia).
      rewrite (wrap_small 32 (1 - _)) by (unfold inU; change (2 ^ 32) with 4294967296; lia). lia.
    - apply wrap_small; unfold inU; change (2 ^ 32) with 4294967296; lia. }
  cbv zeta. rewrite ES.
  destruct (fast_masks m K ltac:(lia) HK) as (M1 & M2 & M3). cbv zeta in M2, M3. rewrite M1, M2, M3.
  set (q := m / 2 ^ K) in *. set (rb := Z.testbit m (K - 1)). set (st := negb (m mod 2 ^ (K - 1) =? 0)).
  set (rs := b2z rb * 2 + b2z st).
  assert (Hrs : 0 <= rs <= 3) by (unfold rs; destruct rb, st; cbn; lia).
  pose proof (pow2_pos K ltac:(lia)) as HPK.
  set (eh := if dn then bias F else e + (B - 1 + bias F)).
  assert (Heh : 1 <= eh <= 2 * bias F) by (unfold eh; destruct dn eqn:D; unfold dn in D; lia).
  rewrite Z.lor_0_r. change (significand_mask F) with (2 ^ fl F - 1). rewrite !land_mask by lia.
  assert (HQ : exists om, wrap (width F) q mod 2 ^ fl F = om /\ 0 <= om < 2 ^ fl F /\ (if dn then om = q else 2 ^ fl F + om = q)).
  { eexists. split; [reflexivity|]. split; [apply Z.mod_pos_bound; lia|].
    assert (HW : 2 ^ (fl F + 1) <= 2 ^ width F) by (apply pow2_le; unfold width; pose proof (gf_el F HF); lia).
    rewrite pow2_succ in HW by lia. unfold K in *. destruct dn eqn:D; unfold dn in D.
    - assert (0 <= q < 2 ^ fl F).
      { unfold q. split; [apply Z.div_pos; lia|]. apply Z.div_lt_upper_bound; [lia|].
        rewrite <- Z.pow_add_r by lia. pose proof (pow2_le B (1 - bias F - fl F - e + fl F) ltac:(lia)). lia. }
      rewrite (wrap_small (width F)) by (unfold inU; lia). apply Z.mod_small; lia.
    - assert (2 ^ fl F <= q < 2 * 2 ^ fl F).
      { unfold q. split.
        - apply Z.div_le_lower_bound; [lia|]. rewrite <- Z.pow_add_r by lia. replace (B - (fl F + 1) + fl F) with (B - 1) by lia. lia.
        - apply Z.div_lt_upper_bound; [lia|]. rewrite (Z.mul_comm 2), Z.mul_assoc, <- Z.pow_add_r by lia.
          rewrite Z.mul_comm. rewrite <- pow2_succ by lia. replace (B - (fl F + 1) + fl F + 1) with B by lia. lia. }
      rewrite (wrap_small (width F)) by (unfold inU; lia).
      assert (q - 2 ^ fl F = q mod 2 ^ fl F) by (apply Z.mod_unique with 1; lia). lia. }
  destruct HQ as (om & -> & Hom & HQ). set (Q := 2 ^ fl F + om) in *.
  assert (HQr : 2 ^ fl F <= Q < 2 ^ (fl F + 1)) by (rewrite pow2_succ by lia; unfold Q; lia).
  assert (HDt := digits_top Q rb HQr).
  destruct (create_val s eh om Heh Hom) as (_ & Ph & Fh & Sh & Vh). fold Q in Vh.
  set (k := eh - fl F - 2 - bias F).
  assert (Ey : forall k', (sg s * (IZR rs * bpow radix2 k') + sg s * (IZR Q * bpow radix2 (k' + 2)) =
                           sg s * ((IZR Q * 4 + IZR rs) * bpow radix2 k'))%R).
  { intros k'. rewrite bpow_plus. change (bpow radix2 2) with 4%R. ring. }
  assert (HQ0 : 0 < 2 * Q + b2z rb) by (destruct rb; cbn [b2z]; lia).
  assert (Hst : st = true -> prec F < digits (2 * Q + b2z rb)) by (intros _; rewrite HDt; lia).
  assert (BX := brk_m m e K ltac:(lia) ltac:(lia)). fold q rb st in BX.
  assert (FIN : dn = false -> forall zs b, rounded F rm (sg s * ((IZR Q * 4 + IZR rs) * bpow radix2 k)) zs b ->
    rounded F rm (dyval d) s b).
  { intros D zs b HR. rewrite D in HQ. rewrite dyval_sg. fold s m e. 
    apply (same_bracket rm s (2 * Q + b2z rb) st (k + 1) _ ((IZR Q * 4 + IZR rs) * bpow radix2 k) zs s); auto.
    - replace (k + 1) with (e + (K - 1)). rewrite HQ. exact BX. unfold k, K, eh. rewrite D. lia.
    - apply brk_rs. }
  destruct (Z.leb_spec (eh - (fl F + 1) - 1) 0) as [HL|HL].
  - (* d_lo would be subnormal *)
    assert (D : dn = false) by (unfold eh in HL; destruct dn; [lia|reflexivity]).
    set (up := 1 - (eh - (fl F + 1) - 1)). assert (Hup : 1 <= up <= bias F - 1) by (unfold up; lia).
    destruct (create_val false (bias F + up) 0 ltac:(lia) ltac:(lia)) as (_ & Pu & Fu & Su & Vu).
    destruct (create_val false (bias F - up) 0 ltac:(lia) ltac:(lia)) as (_ & Pd & Fd & Sd & Vd).
    replace (eh - (fl F + 1) - 1 + up) with 1 by (unfold up; lia).
    destruct (create_val s 1 0 ltac:(lia) ltac:(lia)) as (_ & Pl & Fl & Sl & Vl).
    assert (PW : forall j, (IZR (2 ^ fl F + 0) * bpow radix2 (j - fl F) = bpow radix2 j)%R).
    { intros j. rewrite Z.add_0_r, <- bpow_IZR by lia. rewrite <- bpow_plus. f_equal. lia. }
    rewrite PW in Vu, Vd, Vl. cbn [sg] in Vu, Vd. rewrite Rmult_1_l in Vu, Vd.
    replace (bias F + up - bias F) with up in Vu by lia. replace (bias F - up - bias F) with (- up) in Vd by lia.
    (* d_hi scaled up *)
    pose proof (f_mul_spec F HF rm _ _ Fh Fu) as H1. rewrite Vh, Vu in H1.
    set (x1 := (sg s * (IZR Q * bpow radix2 (1 - bias F + 2)))%R).
    replace (sg s * (IZR Q * bpow radix2 (eh - bias F - fl F)) * bpow radix2 up)%R with x1 in H1.
    2:{ unfold x1. rewrite !Rmult_assoc, <- bpow_plus. do 3 f_equal. unfold up. lia. }
    assert (Hq2 : (bpow radix2 (fl F) <= IZR Q < bpow radix2 (fl F + 1))%R).
    { rewrite (bpow_IZR (fl F)), (bpow_IZR (fl F + 1)) by lia. split; [apply IZR_le|apply IZR_lt]; lia. }
    assert (G1 : generic_format radix2 fexp x1).
    { assert (G0 : generic_format radix2 fexp (IZR Q * bpow radix2 (1 - bias F + 2))).
      { apply generic_format_FLT. exists (Float radix2 Q (1 - bias F + 2)); cbn [Fnum Fexp]; [reflexivity| |unfold emin; lia].
        change (Zpower radix2 (prec F)) with (2 ^ prec F). unfold prec. rewrite Z.abs_eq by lia. lia. }
      unfold x1, sg. destruct s; [|rewrite Rmult_1_l; exact G0].
      replace (-1 * (IZR Q * bpow radix2 (1 - bias F + 2)))%R with (- (IZR Q * bpow radix2 (1 - bias F + 2)))%R by ring.
      apply generic_format_opp. exact G0. }
    pose proof (bpow_gt_0 radix2 (1 - bias F + 2)) as HBp.
    assert (L1 : (Rabs x1 < bpow radix2 (bias F + 1))%R).
    { unfold x1. rewrite Rabs_sg, Rabs_pos_eq by (apply Rmult_le_pos; [apply IZR_le; lia|apply bpow_ge_0]).
      apply Rlt_le_trans with (bpow radix2 (fl F + 1) * bpow radix2 (1 - bias F + 2))%R.
      - apply Rmult_lt_compat_r; lra.
      - rewrite <- bpow_plus. apply bpow_le. lia. }
    destruct (rounded_repr F rm _ _ _ G1 L1 H1) as (P1 & F1 & V1 & _).
    destruct (multiply_add_spec rm h s (1 - bias F) rs _ _ Hrs Fl Vl ltac:(unfold emin; lia) F1) as [zs H2].
    rewrite V1 in H2. unfold x1 in H2. rewrite Ey in H2.
    set (b1 := multiply_add F rm h _ _ _) in *.
    set (y := ((IZR Q * 4 + IZR rs) * bpow radix2 k)%R) in *.
    replace (sg s * ((IZR Q * 4 + IZR rs) * bpow radix2 (1 - bias F)))%R with (sg s * y * bpow radix2 up)%R in H2.
    2:{ unfold y. rewrite !Rmult_assoc, <- bpow_plus. do 3 f_equal. unfold up, k. lia. }
    pose proof (IZR_le 0 rs ltac:(lia)) as Rr0. pose proof (IZR_le rs 3 ltac:(lia)) as Rr3. pose proof (bpow_gt_0 radix2 k) as Rk.
    assert (Hy : (bpow radix2 (eh - bias F) <= y)%R).
    { unfold y. replace (eh - bias F) with (fl F + 2 + k) by (unfold k; lia). rewrite !bpow_plus. change (bpow radix2 2) with 4%R.
      apply Rmult_le_compat_r; lra. }
    assert (Hy1 : (bpow radix2 (1 - bias F) <= y)%R) by (apply Rle_trans with (2 := Hy); apply bpow_le; lia).
    pose proof (bpow_gt_0 radix2 (1 - bias F)) as Rb1.
    assert (Ay : Rabs (sg s * y) = y) by (rewrite Rabs_sg; apply Rabs_pos_eq; lra).
    assert (FS := fround_scale rm (sg s * y) up ltac:(rewrite Ay; exact Hy1) ltac:(lia)).
    assert (HyU : (y * bpow radix2 up <= bpow radix2 (fl F + 4 - bias F))%R).
    { unfold y. rewrite Rmult_assoc, <- bpow_plus. replace (k + up) with (1 - bias F) by (unfold k, up; lia).
      replace (fl F + 4 - bias F) with (fl F + 1 + 2 + (1 - bias F)) by lia. rewrite (bpow_plus radix2 _ (1 - bias F)).
      apply Rmult_le_compat_r; [lra|]. rewrite bpow_plus. change (bpow radix2 2) with 4%R.
      assert (IZR Q + 1 <= bpow radix2 (fl F + 1))%R; [|lra].
      rewrite (bpow_IZR (fl F + 1)) by lia. rewrite <- plus_IZR. apply IZR_le. lia. }
    assert (HR1 : (Rabs (fround F rm (sg s * y * bpow radix2 up)) < bpow radix2 (bias F + 1))%R).
    { apply Rle_lt_trans with (bpow radix2 (fl F + 4 - bias F)); [|apply bpow_lt; lia].
      unfold fround. apply abs_round_le_generic; auto.
      - apply generic_format_bpow. unfold FLT_exp, emin, prec. lia.
      - rewrite Rabs_mult, Ay, Rabs_pos_eq by apply bpow_ge_0. exact HyU. }
    destruct H2 as (Pb1 & _ & Hb1 & _). destruct (Hb1 HR1) as [Fb1 Vb1]. rewrite FS in Vb1.
    pose proof (f_mul_spec F HF rm _ _ Fb1 Fd) as H3. rewrite Vb1, Vd in H3.
    replace (fround F rm (sg s * y) * bpow radix2 up * bpow radix2 (- up))%R with (fround F rm (sg s * y)) in H3.
    2:{ rewrite Rmult_assoc, <- bpow_plus. replace (up + - up) with 0 by lia. change (bpow radix2 0) with 1%R. ring. }
    assert (G3 : generic_format radix2 fexp (fround F rm (sg s * y))) by (apply generic_format_round; auto).
    assert (L3 : (Rabs (fround F rm (sg s * y)) < bpow radix2 (bias F + 1))%R).
    { rewrite FS, Rabs_mult, (Rabs_pos_eq (bpow _ _)) in HR1 by apply bpow_ge_0.
      apply Rle_lt_trans with (2 := HR1). rewrite <- (Rmult_1_r (Rabs _)) at 1. apply Rmult_le_compat_l; [apply Rabs_pos|].
      change 1%R with (bpow radix2 0). apply bpow_le. lia. }
    destruct (rounded_repr F rm _ _ _ G3 L3 H3) as (P4 & F4 & V4 & S4).
    apply (FIN D s). fold y. split; [exact P4|].
    assert (A3 : (bpow radix2 (1 - bias F) <= Rabs (fround F rm (sg s * y)))%R).
    { unfold fround. apply abs_round_ge_generic; auto; [apply generic_format_bpow; unfold FLT_exp, emin, prec; lia|].
      rewrite Ay. exact Hy1. }
    assert (N3 : fround F rm (sg s * y) <> 0%R) by (intros E; rewrite E, Rabs_R0 in A3; lra).
    split; [|split].
    + rewrite S4, !Req_bool_false by (auto; unfold sg; destruct s; lra).
      assert (SS : if s then (fround F rm (sg s * y) <= 0)%R else (0 <= fround F rm (sg s * y))%R).
      { unfold fround, sg. destruct s.
        - apply round_le_generic; auto; [apply generic_format_0|lra].
        - apply round_ge_generic; auto; [apply generic_format_0|lra]. }
      destruct s; cbn [sg] in *.
      * rewrite !Rlt_bool_true; auto; lra.
      * rewrite !Rlt_bool_false; auto; lra.
    + intros _. auto.
    + intros; lra.
  - destruct (create_val s (eh - (fl F + 1) - 1) 0 ltac:(lia) ltac:(lia)) as (_ & Pl & Fl & Sl & Vl).
    replace (IZR (2 ^ fl F + 0) * bpow radix2 (eh - (fl F + 1) - 1 - bias F - fl F))%R with (bpow radix2 k) in Vl.
    2:{ rewrite Z.add_0_r, <- bpow_IZR by lia. rewrite <- bpow_plus. f_equal. unfold k. lia. }
    destruct (multiply_add_spec rm h s k rs _ _ Hrs Fl Vl ltac:(unfold emin, k; lia) Fh) as [zs H2].
    rewrite Vh in H2. replace (eh - bias F - fl F) with (k + 2) in H2 by (unfold k; lia). rewrite Ey in H2.
    destruct dn eqn:D; [|apply (FIN eq_refl zs); exact H2].
    set (r := multiply_add F rm h _ _ _) in *.
    assert (Er : r = round_encode F rm s (2 * Q + b2z rb) (k + 1) st).
    { exact (proj1 (same_bracket rm s (2 * Q + b2z rb) st (k + 1) _ _ zs s r HQ0 Hst (brk_rs Q rb st k) (brk_rs Q rb st k) H2)). }
    assert (Hup : 0 <= b2z (round_tbl rm s q rb st) <= 1) by (destruct (round_tbl rm s q rb st); cbn; lia).
    pose proof (emin_neg F HF) as Hen.
    assert (Hinf : (bias F + 1) * 2 ^ fl F < inf_mag F).
    { unfold inf_mag. rewrite Hem. apply Z.mul_lt_mono_pos_r; lia. }
    assert (Er2 : r = sbit F s + (bias F * 2 ^ fl F + (q + b2z (round_tbl rm s q rb st)))).
    { rewrite Er. unfold round_encode. fold (digits (2 * Q + b2z rb)). rewrite HDt.
      replace (2 * Q + b2z rb =? 0) with false by lia. cbn [andb].
      assert (Ek : k + 1 = - fl F - 1) by (unfold k, eh; lia). rewrite Ek.
      replace (Z.max (emin F) (prec F + 1 + (- fl F - 1) - prec F)) with (- fl F) by (unfold emin; lia).
      replace (- fl F <=? - fl F - 1) with false by lia.
      replace (Z.max 0 (- fl F - (- fl F - 1))) with 1 by lia. rewrite round_up_tbl by lia.
      assert (E2 : (2 * Q + b2z rb) / 2 ^ 1 = Q).
      { change (2 ^ 1) with 2. symmetry. apply Z.div_unique with (b2z rb); destruct rb; cbn [b2z]; lia. }
      rewrite E2. change (1 - 1) with 0. change (2 ^ 0) with 1. rewrite Z.mod_1_r. cbn [negb Z.eqb]. rewrite orb_false_r.
      replace (Z.testbit (2 * Q + b2z rb) 0) with rb.
      2:{ rewrite Z.bit0_odd, Z.odd_add, Z.odd_mul. destruct rb; reflexivity. }
      assert (ET : round_tbl rm s Q rb st = round_tbl rm s q rb st).
      { unfold round_tbl. replace (Z.odd Q) with (Z.odd q); [reflexivity|].
        unfold Q. rewrite HQ, Z.odd_add, Z.odd_pow by lia. cbn. destruct (Z.odd q); reflexivity. }
      rewrite ET. set (u := round_tbl rm s q rb st) in *.
      assert (EE : enc F (Q + b2z u) (- fl F) = bias F * 2 ^ fl F + (q + b2z u)).
      { unfold enc, emin, Q. rewrite HQ. replace (- fl F - (1 - bias F - fl F)) with (bias F - 1) by lia. ring. }
      rewrite EE. replace (bias F * 2 ^ fl F + (q + b2z u) <? inf_mag F) with true by (symmetry; apply Z.ltb_lt; lia). reflexivity. }
    set (u := b2z (round_tbl rm s q rb st)) in *.
    assert (Hb0 : 0 <= bias F * 2 ^ fl F) by (apply Z.mul_nonneg_nonneg; lia).
    assert (EX : wrap (width F) (uintval F r - wrap (width F) (Z.shiftl eh (fl F))) = sbit F s + (q + u)).
    { pose proof (inf_lt_sign F HF) as HIS.
      assert (PR : is_pattern F r) by (rewrite Er2; apply (sbit_pattern F HF); lia).
      rewrite (uint_eq F HF) by exact PR. unfold eh. rewrite Z.shiftl_mul_pow2 by lia.
      rewrite (wrap_small _ (bias F * 2 ^ fl F)).
      2:{ unfold inU. unfold is_pattern in PR. rewrite Er2 in PR. unfold sbit in PR. destruct s; lia. }
      rewrite Er2. replace (sbit F s + (bias F * 2 ^ fl F + (q + u)) - bias F * 2 ^ fl F) with (sbit F s + (q + u)) by lia.
      apply wrap_small. pose proof (sbit_pattern F HF s (q + u) ltac:(lia)) as HH. unfold is_pattern in HH. unfold inU. lia. }
    rewrite EX. replace (wrap (width F) (sbit F s + (q + u) - 0)) with (sbit F s + (q + u)).
    2:{ rewrite Z.sub_0_r. symmetry. apply wrap_small. pose proof (inf_lt_sign F HF) as HIS.
        pose proof (sbit_pattern F HF s (q + u) ltac:(lia)) as HH. unfold is_pattern in HH. unfold inU. lia. }
    replace (if Z.land (sbit F s + (q + u)) (exponent_mask F) =? 0 then sbit F s + (q + u) else sbit F s + (q + u))
      with (round_encode F rm s m e false).
    { apply (round_encode_spec F HF); [lia|apply Rabs_dyval; lia| |discriminate]. intros _. exact Vs. }
    replace (if Z.land (sbit F s + (q + u)) (exponent_mask F) =? 0 then sbit F s + (q + u) else sbit F s + (q + u))
      with (sbit F s + (q + u)) by (destruct (Z.land (sbit F s + (q + u)) (exponent_mask F) =? 0); reflexivity).
    unfold round_encode. replace (m =? 0) with false by lia. cbn [andb].
    replace (Z.log2 m + 1) with B.
    2:{ rewrite (Z.log2_unique m (B - 1)); [lia..|]. replace (Z.succ (B - 1)) with B by lia. lia. }
    unfold dn in D. replace (Z.max (emin F) (B + e - prec F)) with (emin F) by (unfold emin, prec; lia).
    assert (EK : emin F - e = K) by (unfold emin, K; lia). replace (emin F <=? e) with false by lia.
    replace (Z.max 0 (emin F - e)) with K by lia. rewrite round_up_tbl by lia. fold q rb st. cbn [orb]. fold u.
    replace (enc F (q + u) (emin F)) with (q + u) by (unfold enc; ring).
    replace (q + u <? inf_mag F) with true by (symmetry; apply Z.ltb_lt; lia). reflexivity.
Qed.
End S.
