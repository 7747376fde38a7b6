(** * The built-in operators are correctly rounded *)
From Coq Require Import ZArith Lia Bool Reals Lra Psatz.
From Flocq Require Import Core.
From Verif Require Import MachInt Fmt FloatSpec FmtProofs RoundProofs FOps.
Open Scope Z_scope.

Lemma sg_sz : forall s m, IZR (szval s m) = (sg s * IZR m)%R.
Proof. intros [|] m; simpl; [rewrite opp_IZR|]; ring. Qed.
Lemma sg_xorb : forall s t, sg (xorb s t) = (sg s * sg t)%R.
Proof. intros [|] [|]; simpl; ring. Qed.
Lemma sg_negb : forall s, sg (negb s) = (- sg s)%R.
Proof. intros [|]; simpl; ring. Qed.
Lemma sg_nz : forall s, sg s <> 0%R.
Proof. intros [|]; simpl; lra. Qed.

Section Ops.
Context (F : fmt) (HF : good_fmt F).

Lemma decode_fin : forall b, is_fin F b = true ->
  exists m e, decode F b = DFin (sign_of F b) m e /\ 0 <= m < 2 ^ prec F /\ emin F <= e /\
    (2 ^ fl F <= m \/ e = emin F) /\ mag_of F b = enc F m e /\ fval F b = (sg (sign_of F b) * (IZR m * bpow radix2 e))%R.
Proof.
  intros b H. pose proof (mag_range F HF b).
  destruct (sig_exp_spec F HF (mag_of F b) ltac:(lia)) as (S1 & E1 & N1 & R1).
  exists (sig_of F (mag_of F b)), (exp_of F (mag_of F b)).
  split. { unfold decode. unfold is_fin in H. rewrite H. reflexivity. }
  repeat split; auto; try lia. rewrite fval_fin by auto. reflexivity.
Qed.

Lemma decode_inv : forall b s m e, decode F b = DFin s m e ->
  is_fin F b = true /\ s = sign_of F b /\ m = sig_of F (mag_of F b) /\ e = exp_of F (mag_of F b) /\
  0 <= m < 2 ^ prec F /\ emin F <= e /\ (2 ^ fl F <= m \/ e = emin F) /\ mag_of F b = enc F m e /\
  fval F b = (sg s * (IZR m * bpow radix2 e))%R.
Proof.
  intros b s m e H. unfold decode in H. destruct (mag_of F b <? inf_mag F) eqn:E; [|destruct (_ =? _); discriminate].
  inversion H; subst. pose proof (mag_range F HF b).
  destruct (sig_exp_spec F HF (mag_of F b) ltac:(lia)) as (S1 & E1 & N1 & R1).
  unfold is_fin. rewrite fval_fin by exact E. repeat split; auto; lia.
Qed.

Lemma round_int_spec : forall rm zs z e,
  rounded F rm (IZR z * bpow radix2 e) zs (round_int F rm zs z e).
Proof.
  intros rm zs z e. unfold round_int. pose proof (bpow_gt_0 radix2 e) as He.
  destruct (Z.eqb_spec z 0) as [->|Hz].
  - replace (f_zero F zs) with (round_encode F rm zs 0 e false) by reflexivity.
    rewrite Rmult_0_l. apply round_encode_spec; auto; try lia.
    + rewrite Rabs_R0. ring.
    + intros H; exfalso; apply H; auto.
  - assert (Hb : Rlt_bool (IZR z * bpow radix2 e) 0 = (z <? 0)).
    { destruct (Z.ltb_spec z 0).
      - apply Rlt_bool_true. apply IZR_lt in H. nra.
      - apply Rlt_bool_false. apply IZR_le in H. nra. }
    assert (Hnz : (IZR z * bpow radix2 e)%R <> 0%R).
    { apply Rmult_integral_contrapositive_currified; [apply IZR_neq; auto|lra]. }
    assert (H := round_encode_spec F HF rm (z <? 0) (Z.abs z) e false (IZR z * bpow radix2 e) ltac:(lia)).
    cbv beta iota in H. rewrite Rabs_mult, (Rabs_pos_eq (bpow radix2 e)), <- abs_IZR in H by lra.
    specialize (H eq_refl (fun _ => Hb) ltac:(discriminate)).
    unfold rounded in *. rewrite Req_bool_false in * by auto. exact H.
Qed.

Lemma scale_Z : forall z e e0, e0 <= e -> (IZR (z * 2 ^ (e - e0)) * bpow radix2 e0 = IZR z * bpow radix2 e)%R.
Proof.
  intros. rewrite mult_IZR, <- bpow_IZR, Rmult_assoc, <- bpow_plus by lia. do 2 f_equal. lia.
Qed.

Lemma f_neg_props : forall b, is_pattern F b -> is_pattern F (f_neg F b) /\
  sign_of F (f_neg F b) = negb (sign_of F b) /\ mag_of F (f_neg F b) = mag_of F b /\
  is_fin F (f_neg F b) = is_fin F b /\ fval F (f_neg F b) = (- fval F b)%R.
Proof.
  intros b Hb. pose proof (mag_range F HF b) as Hr. unfold f_neg.
  assert (Hm : mag_of F (sbit F (negb (sign_of F b)) + mag_of F b) = mag_of F b) by (apply mag_of_sbit; auto).
  assert (Hs : sign_of F (sbit F (negb (sign_of F b)) + mag_of F b) = negb (sign_of F b)) by (apply sign_of_sbit; auto).
  split; [apply sbit_pattern; auto|]. split; auto. split; auto.
  assert (Hf : is_fin F (sbit F (negb (sign_of F b)) + mag_of F b) = is_fin F b) by (unfold is_fin; rewrite Hm; auto).
  split; auto. destruct (is_fin F b) eqn:E.
  - rewrite (fval_fin F b), fval_fin by auto. rewrite Hm, Hs, sg_negb. ring.
  - rewrite (fval_nonfin F b), fval_nonfin by auto. ring.
Qed.

Theorem f_add_spec : forall rm a b, is_fin F a = true -> is_fin F b = true ->
  rounded F rm (fval F a + fval F b)
    (if Bool.eqb (sign_of F a) (sign_of F b) then sign_of F a else is_rdn rm) (f_add F rm a b).
Proof.
  intros rm a b Ha Hb. unfold f_add.
  destruct (decode_fin a Ha) as (m & e & -> & _ & _ & _ & _ & Ea).
  destruct (decode_fin b Hb) as (n & g & -> & _ & _ & _ & _ & Eb).
  cbv zeta. set (z := szval _ _ * _ + _).
  replace (fval F a + fval F b)%R with (IZR z * bpow radix2 (Z.min e g))%R.
  { apply round_int_spec. }
  unfold z. rewrite plus_IZR, Rmult_plus_distr_r, !scale_Z, !sg_sz by lia. rewrite Ea, Eb. ring.
Qed.

Theorem f_sub_spec : forall rm a b, is_pattern F b -> is_fin F a = true -> is_fin F b = true ->
  rounded F rm (fval F a - fval F b)
    (if Bool.eqb (sign_of F a) (negb (sign_of F b)) then sign_of F a else is_rdn rm) (f_sub F rm a b).
Proof.
  intros rm a b Pb Ha Hb. unfold f_sub. destruct (f_neg_props b Pb) as (_ & S & _ & Fi & V).
  rewrite <- S. unfold Rminus. rewrite <- V. apply f_add_spec; auto. congruence.
Qed.

Theorem f_mul_spec : forall rm a b, is_fin F a = true -> is_fin F b = true ->
  rounded F rm (fval F a * fval F b) (xorb (sign_of F a) (sign_of F b)) (f_mul F rm a b).
Proof.
  intros rm a b Ha Hb. unfold f_mul.
  destruct (decode_fin a Ha) as (m & e & -> & _ & _ & _ & _ & Ea).
  destruct (decode_fin b Hb) as (n & g & -> & _ & _ & _ & _ & Eb).
  replace (fval F a * fval F b)%R with (IZR (szval (xorb (sign_of F a) (sign_of F b)) (m * n)) * bpow radix2 (e + g))%R.
  { apply round_int_spec. }
  rewrite sg_sz, sg_xorb, mult_IZR, bpow_plus, Ea, Eb. ring.
Qed.

Theorem f_fma_spec : forall rm a b c, is_fin F a = true -> is_fin F b = true -> is_fin F c = true ->
  rounded F rm (fval F a * fval F b + fval F c)
    (if Bool.eqb (xorb (sign_of F a) (sign_of F b)) (sign_of F c) then sign_of F c else is_rdn rm) (f_fma F rm a b c).
Proof.
  intros rm a b c Ha Hb Hc. unfold f_fma.
  destruct (decode_fin a Ha) as (m & e & -> & _ & _ & _ & _ & Ea).
  destruct (decode_fin b Hb) as (n & g & -> & _ & _ & _ & _ & Eb).
  destruct (decode_fin c Hc) as (p & h & -> & _ & _ & _ & _ & Ec).
  cbv zeta. set (z := szval _ _ * _ + _).
  replace (fval F a * fval F b + fval F c)%R with (IZR z * bpow radix2 (Z.min (e + g) h))%R.
  { apply round_int_spec. }
  unfold z. rewrite plus_IZR, Rmult_plus_distr_r, !scale_Z, !sg_sz by lia.
  rewrite sg_xorb, mult_IZR, bpow_plus, Ea, Eb, Ec. ring.
Qed.

Theorem f_div_spec : forall rm a b, is_fin F a = true -> is_fin F b = true -> fval F b <> 0%R ->
  rounded F rm (fval F a / fval F b) (xorb (sign_of F a) (sign_of F b)) (f_div F rm a b).
Proof.
  intros rm a b Ha Hb Hn. unfold f_div.
  destruct (decode_fin a Ha) as (m & e & -> & Hm & _ & _ & _ & Ea).
  destruct (decode_fin b Hb) as (n & g & -> & Hn0 & _ & _ & _ & Eb).
  assert (Hnz : n <> 0) by (intros ->; rewrite Eb in Hn; apply Hn; ring).
  destruct (Z.eqb_spec n 0); [lia|]. cbv zeta.
  set (k := prec F + Z.log2 n + 3). pose proof (Z.log2_nonneg n).
  assert (Hk : 0 <= k) by (unfold k, prec; pose proof (gf_fl F HF); lia).
  set (st := negb _). set (q := _ / n).
  pose proof (Z.div_mod (m * 2 ^ k) n ltac:(lia)) as Hdm. fold q in Hdm.
  pose proof (Z.mod_pos_bound (m * 2 ^ k) n ltac:(lia)) as Hr. set (r := _ mod n) in *.
  pose proof (pow2_pos k Hk) as HK.
  assert (Hq : 0 <= q) by (apply Z.div_pos; lia).
  set (y := (IZR m * bpow radix2 e / (IZR n * bpow radix2 g))%R).
  assert (Hx : (fval F a / fval F b)%R = (sg (xorb (sign_of F a) (sign_of F b)) * y)%R).
  { rewrite Ea, Eb, sg_xorb. unfold y. assert (IZR n <> 0%R) by (apply IZR_neq; auto).
    pose proof (bpow_gt_0 radix2 g). destruct (sign_of F b); simpl; field; repeat split; lra. }
  rewrite Hx.
  assert (Hnp : (0 < IZR n)%R) by (apply IZR_lt; lia).
  assert (Hy : y = (IZR (m * 2 ^ k) / IZR n * bpow radix2 (e - g - k))%R).
  { unfold y. rewrite mult_IZR, <- bpow_IZR by auto. unfold Zminus. rewrite !bpow_plus, !bpow_opp.
    pose proof (bpow_gt_0 radix2 g). pose proof (bpow_gt_0 radix2 k). field. repeat split; lra. }
  assert (Hmq : (IZR (m * 2 ^ k) / IZR n = IZR q + IZR r / IZR n)%R).
  { rewrite Hdm, plus_IZR, mult_IZR. field. lra. }
  pose proof (bpow_gt_0 radix2 (e - g - k)) as HE.
  assert (Hy0 : (0 <= y)%R).
  { rewrite Hy. apply Rmult_le_pos; [|lra]. apply Rmult_le_pos; [apply IZR_le; lia|]. apply Rlt_le, Rinv_0_lt_compat; auto. }
  apply round_encode_spec; auto.
  - rewrite Rabs_sg, Rabs_pos_eq by auto. rewrite Hy, Hmq.
    assert (Hrn : (0 <= IZR r / IZR n < 1)%R).
    { split; [apply Rmult_le_pos; [apply IZR_le; lia|apply Rlt_le, Rinv_0_lt_compat; auto]|].
      apply Rmult_lt_reg_r with (IZR n); auto. unfold Rdiv. rewrite Rmult_assoc, Rinv_l, Rmult_1_r, Rmult_1_l by lra. apply IZR_lt; lia. }
    unfold st. destruct (Z.eqb_spec r 0) as [E|E]; simpl.
    + rewrite E. unfold Rdiv. ring.
    + assert (0 < IZR r / IZR n)%R by (apply Rmult_lt_0_compat; [apply IZR_lt; lia|apply Rinv_0_lt_compat; auto]).
      rewrite plus_IZR. split; apply Rmult_lt_compat_r; lra.
  - intros Hnz2. assert (y <> 0%R) by (intros E; apply Hnz2; rewrite E; ring).
    assert (0 < y)%R by lra. destruct (xorb _ _); simpl; [apply Rlt_bool_true|apply Rlt_bool_false]; lra.
  - intros Hst. assert (Hmp : 0 < m).
    { unfold st in Hst. apply negb_true_iff in Hst. apply Z.eqb_neq in Hst.
      destruct (Z.eq_dec m 0); [|lia]. subst m. exfalso. apply Hst. unfold r. rewrite Z.mul_0_l. apply Z.mod_0_l. lia. }
    assert (Hd : prec F + 2 <= digits q - 1).
    { unfold digits. assert (2 ^ (prec F + 2) <= q).
      { apply Z.div_le_lower_bound; [lia|]. pose proof (Z.log2_spec n ltac:(lia)) as [_ Hl].
        unfold k. replace (prec F + Z.log2 n + 3) with (Z.succ (Z.log2 n) + (prec F + 2)) by lia.
        rewrite (Z.pow_add_r 2 (Z.succ _)) by (unfold prec; pose proof (gf_fl F HF); lia).
        pose proof (pow2_pos (prec F + 2) ltac:(unfold prec; pose proof (gf_fl F HF); lia)).
        assert (n * 2 ^ (prec F + 2) <= 2 ^ Z.succ (Z.log2 n) * 2 ^ (prec F + 2)) by (apply Z.mul_le_mono_nonneg_r; lia).
        set (X := 2 ^ Z.succ (Z.log2 n) * 2 ^ (prec F + 2)) in *.
        assert (1 * X <= m * X) by (apply Z.mul_le_mono_nonneg_r; lia). lia. }
      pose proof (pow2_pos (prec F + 2) ltac:(unfold prec; pose proof (gf_fl F HF); lia)).
      replace (q =? 0) with false by lia.
      apply Z.log2_le_mono in H0. rewrite Z.log2_pow2 in H0 by (unfold prec; pose proof (gf_fl F HF); lia). lia. }
    lia.
Qed.

(** Comparison is the order of the denoted reals (finite operands). *)
Lemma cmp_fin : forall a b, is_fin F a = true -> is_fin F b = true ->
  f_cmp F a b = Some (Rcompare (fval F a) (fval F b)).
Proof.
  intros a b Ha Hb. unfold f_cmp. unfold is_nan, is_fin in *.
  replace (inf_mag F <? mag_of F a) with false by lia. replace (inf_mag F <? mag_of F b) with false by lia.
  simpl. f_equal. rewrite !fval_fin by (unfold is_fin; auto).
  pose proof (mag_range F HF a) as Ra. pose proof (mag_range F HF b) as Rb.
  pose proof (mval_nonneg F HF _ (proj1 Ra)) as Va. pose proof (mval_nonneg F HF _ (proj1 Rb)) as Vb.
  set (x := mag_of F a) in *. set (y := mag_of F b) in *. clearbody x y.
  pose proof (mval_lt F HF x y ltac:(lia) ltac:(lia)) as L1. pose proof (mval_lt F HF y x ltac:(lia) ltac:(lia)) as L2.
  assert (E0 : forall z, 0 <= z -> mval F z = 0%R -> z = 0).
  { intros z Hz H. apply (mval_inj F HF); auto; try lia. rewrite mval_0; auto. }
  pose proof (E0 x ltac:(lia)) as Zx. pose proof (E0 y ltac:(lia)) as Zy.
  symmetry. destruct (sign_of F a), (sign_of F b); unfold szval, sg.
  - destruct (Z.compare_spec (- x) (- y)); [apply Rcompare_Eq|apply Rcompare_Lt|apply Rcompare_Gt].
    + assert (x = y) by lia. subst. auto.
    + assert (H0 : y < x) by lia. apply L2 in H0. lra.
    + assert (H0 : x < y) by lia. apply L1 in H0. lra.
  - destruct (Z.compare_spec (- x) y); [apply Rcompare_Eq|apply Rcompare_Lt|apply Rcompare_Gt].
    + assert (x = 0 /\ y = 0) as [-> ->] by lia. rewrite (mval_0 F HF). ring.
    + destruct (Rle_lt_or_eq_dec _ _ Va); [lra|]. destruct (Rle_lt_or_eq_dec _ _ Vb); [lra|].
      rewrite Zx in H by auto. rewrite Zy in H by auto. lia.
    + lia.
  - destruct (Z.compare_spec x (- y)); [apply Rcompare_Eq|apply Rcompare_Lt|apply Rcompare_Gt].
    + assert (x = 0 /\ y = 0) as [-> ->] by lia. rewrite (mval_0 F HF). ring.
    + lia.
    + destruct (Rle_lt_or_eq_dec _ _ Va); [lra|]. destruct (Rle_lt_or_eq_dec _ _ Vb); [lra|].
      rewrite Zx in H by auto. rewrite Zy in H by auto. lia.
  - destruct (Z.compare_spec x y); [apply Rcompare_Eq|apply Rcompare_Lt|apply Rcompare_Gt].
    + subst. auto.
    + apply L1 in H. lra.
    + apply L2 in H. lra.
Qed.
End Ops.

Theorem f_cast_spec : forall F G rm a, good_fmt F -> good_fmt G -> is_fin F a = true ->
  rounded G rm (fval F a) (sign_of F a) (f_cast F G rm a).
Proof.
  intros F G rm a HF HG Ha. unfold f_cast.
  destruct (decode_fin F HF a Ha) as (m & e & -> & _ & _ & _ & _ & Ea).
  rewrite Ea. replace (sg (sign_of F a) * (IZR m * bpow radix2 e))%R with (IZR (szval (sign_of F a) m) * bpow radix2 e)%R.
  - apply round_int_spec; auto.
  - rewrite sg_sz. ring.
Qed.
