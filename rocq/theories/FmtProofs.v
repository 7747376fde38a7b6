(** * Facts about formats and the encoder *)
From Coq Require Import ZArith Lia Bool Reals Lra Psatz.
From Flocq Require Import Core Bracket Round.
From Verif Require Import MachInt Fmt FloatSpec.
Open Scope Z_scope.

Lemma bpow_IZR : forall e, 0 <= e -> bpow radix2 e = IZR (2 ^ e).
Proof. intros. rewrite <- IZR_Zpower by auto. reflexivity. Qed.

Section Fmt.
Context (F : fmt) (HF : good_fmt F).

Lemma gf_fl : 1 <= fl F. Proof. apply HF. Qed.
Lemma gf_el : 2 <= el F. Proof. apply HF. Qed.
Lemma gf_bias : fl F + 1 <= bias F.
Proof. destruct HF as (_ & _ & H). unfold bias. lia. Qed.
Lemma expmax_bias : expmax F = 2 * bias F + 1.
Proof. unfold expmax, bias. pose proof gf_el. rewrite (pow2_half (el F)) by lia. lia. Qed.
Lemma fl_pos : 0 < 2 ^ fl F. Proof. apply pow2_pos. pose proof gf_fl. lia. Qed.
Lemma sign_unit_split : sign_unit F = 2 ^ fl F * 2 ^ el F.
Proof. unfold sign_unit. apply Z.pow_add_r; pose proof gf_fl; pose proof gf_el; lia. Qed.
Lemma sign_unit_inf : sign_unit F = inf_mag F + 2 ^ fl F.
Proof. rewrite sign_unit_split. unfold inf_mag, expmax. ring. Qed.
Lemma sign_unit_pos : 0 < sign_unit F.
Proof. unfold sign_unit. apply pow2_pos. pose proof gf_fl; pose proof gf_el; lia. Qed.
Lemma width_split : 2 ^ width F = 2 * sign_unit F.
Proof. unfold width, sign_unit. rewrite pow2_succ; auto. pose proof gf_fl; pose proof gf_el; lia. Qed.
Lemma prec_split : 2 ^ prec F = 2 * 2 ^ fl F.
Proof. unfold prec. rewrite pow2_succ; auto. pose proof gf_fl; lia. Qed.
Lemma bias_ge2 : 2 <= bias F. Proof. pose proof gf_bias. pose proof gf_fl. lia. Qed.
Lemma inf_mag_ge : 5 * 2 ^ fl F <= inf_mag F.
Proof. unfold inf_mag. rewrite expmax_bias. pose proof bias_ge2. pose proof fl_pos. nia. Qed.
Lemma emin_neg : emin F < 0.
Proof. unfold emin. pose proof bias_ge2. pose proof gf_fl. lia. Qed.

(** ** Fields *)
Lemma mag_range : forall b, 0 <= mag_of F b < sign_unit F.
Proof. intros. apply Z.mod_pos_bound. apply sign_unit_pos. Qed.

Lemma sign_of_eq : forall b, is_pattern F b -> sign_of F b = (sign_unit F <=? b).
Proof.
  intros b Hb. unfold is_pattern in Hb. rewrite width_split in Hb. unfold sign_of.
  pose proof sign_unit_pos. rewrite Z.testbit_eqb by (pose proof gf_fl; pose proof gf_el; lia).
  fold (sign_unit F).
  assert (E : b / sign_unit F = if sign_unit F <=? b then 1 else 0).
  { destruct (Z.leb_spec (sign_unit F) b).
    - symmetry; apply Z.div_unique with (b - sign_unit F); lia.
    - apply Z.div_small; lia. }
  rewrite E. destruct (sign_unit F <=? b); reflexivity.
Qed.

Lemma pattern_split : forall b, is_pattern F b -> b = sbit F (sign_of F b) + mag_of F b.
Proof.
  intros b Hb. rewrite sign_of_eq by auto. unfold mag_of, sbit. unfold is_pattern in Hb.
  rewrite width_split in Hb. pose proof sign_unit_pos.
  destruct (Z.leb_spec (sign_unit F) b).
  - assert (b mod sign_unit F = b - sign_unit F); [|lia].
    symmetry; apply Z.mod_unique with 1; lia.
  - rewrite Z.mod_small; lia.
Qed.

Lemma sbit_pattern : forall s a, 0 <= a < sign_unit F -> is_pattern F (sbit F s + a).
Proof. intros s a Ha. unfold is_pattern, sbit. rewrite width_split. destruct s; lia. Qed.
Lemma sign_of_sbit : forall s a, 0 <= a < sign_unit F -> sign_of F (sbit F s + a) = s.
Proof.
  intros s a Ha. rewrite sign_of_eq by (apply sbit_pattern; auto). unfold sbit.
  destruct s; [apply Z.leb_le|apply Z.leb_gt]; lia.
Qed.
Lemma mag_of_sbit : forall s a, 0 <= a < sign_unit F -> mag_of F (sbit F s + a) = a.
Proof.
  intros s a Ha. unfold mag_of, sbit. destruct s.
  - symmetry; apply Z.mod_unique with 1; lia.
  - apply Z.mod_small; lia.
Qed.

(** ** Magnitudes *)
Definition mval (a : Z) : R := (IZR (sig_of F a) * bpow radix2 (exp_of F a))%R.

Lemma sig_exp_spec : forall a, 0 <= a ->
  0 <= sig_of F a < 2 ^ prec F /\ emin F <= exp_of F a /\
  (2 ^ fl F <= sig_of F a \/ exp_of F a = emin F) /\ enc F (sig_of F a) (exp_of F a) = a.
Proof.
  intros a Ha. unfold sig_of, exp_of, enc. rewrite prec_split. pose proof fl_pos.
  pose proof (Z.mod_pos_bound a (2 ^ fl F) H). pose proof (Z.div_mod a (2 ^ fl F) ltac:(lia)).
  destruct (Z.ltb_spec a (2 ^ fl F)).
  - repeat split; lia.
  - assert (1 <= a / 2 ^ fl F) by (apply Z.div_le_lower_bound; lia).
    repeat split; try lia.
Qed.

Lemma sig_exp_enc : forall m e, emin F <= e -> 0 <= m < 2 ^ prec F -> 2 ^ fl F <= m \/ e = emin F ->
  sig_of F (enc F m e) = m /\ exp_of F (enc F m e) = e.
Proof.
  intros m e He Hm Hn. unfold sig_of, exp_of, enc. rewrite prec_split in Hm. pose proof fl_pos as HP.
  destruct (Z.ltb_spec ((e - emin F) * 2 ^ fl F + m) (2 ^ fl F)) as [H|H].
  - assert (e = emin F) by nia. subst e. split; lia.
  - destruct (Z_lt_le_dec m (2 ^ fl F)).
    { destruct Hn as [ | ->]; [lia|]. nia. }
    assert (Hq : ((e - emin F) * 2 ^ fl F + m) / 2 ^ fl F = e - emin F + 1).
    { symmetry. apply Z.div_unique with (m - 2 ^ fl F); lia. }
    assert (Hr : ((e - emin F) * 2 ^ fl F + m) mod 2 ^ fl F = m - 2 ^ fl F).
    { symmetry. apply Z.mod_unique with (e - emin F + 1); lia. }
    rewrite Hq, Hr. split; lia.
Qed.

Lemma mval_enc : forall m e, emin F <= e -> 0 <= m <= 2 ^ prec F -> 2 ^ fl F <= m \/ e = emin F ->
  mval (enc F m e) = (IZR m * bpow radix2 e)%R.
Proof.
  intros m e He Hm Hn. unfold mval. destruct (Z.eq_dec m (2 ^ prec F)) as [->|Hne].
  - assert (E : enc F (2 ^ prec F) e = enc F (2 ^ fl F) (e + 1)) by (unfold enc; rewrite prec_split; ring).
    rewrite E. pose proof fl_pos. destruct (sig_exp_enc (2 ^ fl F) (e + 1)) as [-> ->]; try lia.
    { rewrite prec_split. lia. }
    rewrite prec_split, mult_IZR, bpow_plus. change (bpow radix2 1) with 2%R. ring.
  - destruct (sig_exp_enc m e) as [-> ->]; auto. lia.
Qed.

(** Every magnitude is a multiple of the least subnormal. *)
Definition ival (a : Z) : Z := sig_of F a * 2 ^ (exp_of F a - emin F).
Lemma mval_ival : forall a, 0 <= a -> mval a = (IZR (ival a) * bpow radix2 (emin F))%R.
Proof.
  intros a Ha. destruct (sig_exp_spec a Ha) as (_ & He & _). unfold mval, ival.
  rewrite mult_IZR, <- bpow_IZR by lia. rewrite Rmult_assoc, <- bpow_plus. do 2 f_equal. lia.
Qed.

Lemma ival_lt : forall a b, 0 <= a < b -> ival a < ival b.
Proof.
  intros a b Hab. unfold ival.
  destruct (sig_exp_spec a ltac:(lia)) as (S1 & E1 & N1 & R1).
  destruct (sig_exp_spec b ltac:(lia)) as (S2 & E2 & N2 & R2).
  remember (sig_of F a) as m1. remember (exp_of F a) as e1. remember (sig_of F b) as m2. remember (exp_of F b) as e2.
  clear Heqm1 Heqe1 Heqm2 Heqe2. unfold enc in *. rewrite prec_split in *. pose proof fl_pos as HP.
  remember (2 ^ fl F) as P. clear HeqP.
  destruct (Z_lt_le_dec e1 e2) as [Hlt|Hle].
  - assert (P <= m2) by lia.
    replace (e2 - emin F) with (e1 - emin F + 1 + (e2 - e1 - 1)) by lia.
    rewrite Z.pow_add_r, Z.pow_add_r by lia. change (2 ^ 1) with 2.
    pose proof (pow2_pos (e1 - emin F) ltac:(lia)). pose proof (pow2_pos (e2 - e1 - 1) ltac:(lia)).
    remember (2 ^ (e1 - emin F)) as A. remember (2 ^ (e2 - e1 - 1)) as B.
    assert (m1 * A < 2 * P * A) by (apply Z.mul_lt_mono_pos_r; lia).
    assert (P * A <= m2 * A) by (apply Z.mul_le_mono_nonneg_r; lia).
    assert (A * 1 <= A * B) by (apply Z.mul_le_mono_nonneg_l; lia).
    replace (m2 * (A * 2 * B)) with (2 * (m2 * (A * B))) by ring.
    assert (m2 * (A * 1) <= m2 * (A * B)) by (apply Z.mul_le_mono_nonneg_l; lia). lia.
  - destruct (Z.eq_dec e1 e2) as [->|Hne].
    + pose proof (pow2_pos (e2 - emin F) ltac:(lia)). apply Z.mul_lt_mono_pos_r; lia.
    + exfalso. assert (P <= m1) by lia. assert ((e2 + 1 - emin F) * P <= (e1 - emin F) * P) by nia. nia.
Qed.
Lemma ival_le : forall a b, 0 <= a <= b -> ival a <= ival b.
Proof. intros a b H. destruct (Z.eq_dec a b) as [->|?]; [lia|]. apply Z.lt_le_incl, ival_lt. lia. Qed.
Lemma ival_0 : ival 0 = 0.
Proof. unfold ival, sig_of. pose proof fl_pos. replace (0 <? 2 ^ fl F) with true by lia. lia. Qed.
Lemma ival_nonneg : forall a, 0 <= a -> 0 <= ival a.
Proof. intros. rewrite <- ival_0. apply ival_le. lia. Qed.

Lemma mval_lt : forall a b, 0 <= a -> 0 <= b -> (a < b <-> (mval a < mval b)%R).
Proof.
  intros a b Ha Hb. rewrite !mval_ival by auto. pose proof (bpow_gt_0 radix2 (emin F)) as Hp. split; intros H.
  - apply Rmult_lt_compat_r; auto. apply IZR_lt, ival_lt. lia.
  - apply Rmult_lt_reg_r in H; auto. apply lt_IZR in H. apply Z.nle_gt. intros Hc.
    pose proof (ival_le b a ltac:(lia)). lia.
Qed.
Lemma mval_le : forall a b, 0 <= a -> 0 <= b -> (a <= b <-> (mval a <= mval b)%R).
Proof.
  intros a b Ha Hb. pose proof (mval_lt b a Hb Ha) as [H1 H2]. split; intros H.
  - apply Rnot_lt_le. intros Hc. apply H2 in Hc. lia.
  - apply Z.nlt_ge. intros Hc. apply H1 in Hc. lra.
Qed.
Lemma mval_inj : forall a b, 0 <= a -> 0 <= b -> mval a = mval b -> a = b.
Proof.
  intros a b Ha Hb H. apply Z.le_antisymm; apply mval_le; auto; lra.
Qed.
Lemma mval_0 : mval 0 = 0%R.
Proof. rewrite mval_ival by lia. rewrite ival_0. ring. Qed.
Lemma mval_nonneg : forall a, 0 <= a -> (0 <= mval a)%R.
Proof. intros. rewrite <- mval_0. apply mval_le; lia. Qed.
Lemma mval_pos : forall a, 0 < a -> (0 < mval a)%R.
Proof. intros. rewrite <- mval_0. apply mval_lt; lia. Qed.

Lemma inf_mag_enc : inf_mag F = enc F (2 ^ fl F) (bias F + 1 - fl F).
Proof. unfold inf_mag, enc. rewrite expmax_bias. unfold emin. ring. Qed.
Lemma mval_inf : mval (inf_mag F) = bpow radix2 (bias F + 1).
Proof.
  rewrite inf_mag_enc. pose proof fl_pos. rewrite mval_enc.
  - rewrite <- bpow_IZR by (pose proof gf_fl; lia). rewrite <- bpow_plus. f_equal. lia.
  - unfold emin. pose proof bias_ge2. lia.
  - rewrite prec_split. lia.
  - lia.
Qed.
Lemma inf_mag_pos : 0 < inf_mag F.
Proof. pose proof inf_mag_ge. pose proof fl_pos. lia. Qed.
Lemma inf_lt_sign : inf_mag F < sign_unit F.
Proof. rewrite sign_unit_inf. pose proof fl_pos. lia. Qed.

Lemma mval_lt_inf : forall a, 0 <= a -> (a < inf_mag F <-> (mval a < bpow radix2 (bias F + 1))%R).
Proof. intros. rewrite <- mval_inf. apply mval_lt; auto. pose proof inf_mag_pos. lia. Qed.

(** ** Values of patterns *)
Definition sg (s : bool) : R := if s then (-1)%R else 1%R.
Lemma fval_fin : forall b, is_fin F b = true -> fval F b = (sg (sign_of F b) * mval (mag_of F b))%R.
Proof.
  intros b H. unfold fval, decode, is_fin in *. rewrite H. simpl. unfold mval, sg. ring.
Qed.
Lemma fval_nonfin : forall b, is_fin F b = false -> fval F b = 0%R.
Proof.
  intros b H. unfold fval, decode, is_fin in *. rewrite H. destruct (_ =? _); reflexivity.
Qed.
Lemma fval_sbit : forall s a, 0 <= a < inf_mag F -> fval F (sbit F s + a) = (sg s * mval a)%R.
Proof.
  intros s a Ha. pose proof inf_lt_sign.
  rewrite fval_fin; [rewrite sign_of_sbit, mag_of_sbit by lia; auto|].
  unfold is_fin. rewrite mag_of_sbit by lia. apply Z.ltb_lt. lia.
Qed.
Lemma Rabs_sg : forall s x, Rabs (sg s * x) = Rabs x.
Proof. intros. rewrite Rabs_mult. destruct s; simpl; [rewrite Rabs_left by lra|rewrite Rabs_R1]; ring. Qed.
Lemma Rabs_fval : forall b, is_fin F b = true -> Rabs (fval F b) = mval (mag_of F b).
Proof.
  intros b H. rewrite fval_fin by auto. rewrite Rabs_sg. apply Rabs_pos_eq, mval_nonneg. apply mag_range.
Qed.

(** ** Format membership *)
Notation fexp := (FLT_exp (emin F) (prec F)).
Global Instance prec_gt_0 : Prec_gt_0 (prec F).
Proof. unfold Prec_gt_0, prec. pose proof gf_fl. lia. Qed.

Lemma mval_format : forall a, 0 <= a -> generic_format radix2 fexp (mval a).
Proof.
  intros a Ha. destruct (sig_exp_spec a Ha) as (S1 & E1 & _).
  apply generic_format_FLT. exists (Float radix2 (sig_of F a) (exp_of F a)); auto.
  simpl. rewrite Z.abs_eq by lia. change (radix2 : Z) with 2. lia.
Qed.
Lemma fval_format : forall b, generic_format radix2 fexp (fval F b).
Proof.
  intros b. destruct (is_fin F b) eqn:E.
  - rewrite fval_fin by auto. pose proof (mag_range b). unfold sg. destruct (sign_of F b).
    + replace (-1 * _)%R with (- mval (mag_of F b))%R by ring. apply generic_format_opp, mval_format. lia.
    + rewrite Rmult_1_l. apply mval_format. lia.
  - rewrite fval_nonfin by auto. apply generic_format_0.
Qed.
Lemma format_mval : forall x, (0 <= x)%R -> generic_format radix2 fexp x -> exists a, 0 <= a /\ mval a = x.
Proof.
  intros x Hx H. destruct (Rle_lt_or_eq_dec _ _ Hx) as [Hp|<-].
  2:{ exists 0. split; [lia|apply mval_0]. }
  pose proof (scaled_mantissa_generic _ _ _ H) as Hm.
  assert (Hpos : 0 < Ztrunc (scaled_mantissa radix2 fexp x)).
  { apply lt_IZR. rewrite <- Hm. unfold scaled_mantissa. apply Rmult_lt_0_compat; auto. apply bpow_gt_0. }
  set (m := Ztrunc (scaled_mantissa radix2 fexp x)) in *. set (e := cexp radix2 fexp x).
  assert (Hxe : x = (IZR m * bpow radix2 e)%R) by exact H.
  assert (He : e = Z.max (mag radix2 x - prec F) (emin F)) by reflexivity.
  destruct (mag radix2 x) as [ex Hex]. simpl in He. specialize (Hex ltac:(lra)). rewrite Rabs_pos_eq in Hex by auto.
  assert (Hm2 : m < 2 ^ prec F).
  { apply lt_IZR. rewrite <- bpow_IZR by (unfold prec; pose proof gf_fl; lia).
    apply Rmult_lt_reg_r with (bpow radix2 e); [apply bpow_gt_0|]. rewrite <- Hxe, <- bpow_plus.
    apply Rlt_le_trans with (1 := proj2 Hex). apply bpow_le. lia. }
  assert (Hm3 : 2 ^ fl F <= m \/ e = emin F).
  { destruct (Z_le_gt_dec (ex - prec F) (emin F)); [right; lia|left].
    apply le_IZR. rewrite <- bpow_IZR by (pose proof gf_fl; lia).
    apply Rmult_le_reg_r with (bpow radix2 e); [apply bpow_gt_0|]. rewrite <- Hxe, <- bpow_plus.
    apply Rle_trans with (2 := proj1 Hex). apply bpow_le. unfold prec in *. lia. }
  exists (enc F m e). split.
  - unfold enc. pose proof fl_pos. assert (0 <= (e - emin F) * 2 ^ fl F) by (apply Z.mul_nonneg_nonneg; lia). lia.
  - rewrite mval_enc; auto; lia.
Qed.
End Fmt.
