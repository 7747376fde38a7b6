(** * Consequences of correct rounding: exact results, comparisons *)
From Coq Require Import ZArith Lia Bool Reals Lra.
From Flocq Require Import Core.
From Verif Require Import MachInt Fmt FloatSpec FmtProofs RoundProofs FOps FOpsProofs.
Open Scope Z_scope.

Ltac zcmp := match goal with |- context [?x ?= ?y] => destruct (Z.compare_spec x y) end.

Section Ex.
Context (F : fmt) (HF : good_fmt F).
Notation fexp := (FLT_exp (emin F) (prec F)).

Lemma fin_bound : forall b, is_fin F b = true -> (Rabs (fval F b) < bpow radix2 (bias F + 1))%R.
Proof.
  intros b Hb. rewrite Rabs_fval by auto. pose proof (mag_range F HF b). apply (mval_lt_inf F HF); [lia|].
  unfold is_fin in Hb. lia.
Qed.
Lemma fval_zero : forall b, is_fin F b = true -> (fval F b = 0%R <-> mag_of F b = 0).
Proof.
  intros b Hb. pose proof (mag_range F HF b). rewrite fval_fin by auto. split; intros H0.
  - apply Rmult_integral in H0. destruct H0 as [H0|H0]; [exfalso; eapply sg_nz; eauto|].
    destruct (Z.eq_dec (mag_of F b) 0); auto. pose proof (mval_pos F HF (mag_of F b) ltac:(lia)). lra.
  - rewrite H0, mval_0 by auto. ring.
Qed.
Lemma sign_fval : forall b, is_fin F b = true -> fval F b <> 0%R -> sign_of F b = Rlt_bool (fval F b) 0.
Proof.
  intros b Hb Hz. rewrite fval_fin in * by auto. pose proof (mag_range F HF b).
  assert (0 < mval F (mag_of F b))%R.
  { apply mval_pos; auto. destruct (Z.eq_dec (mag_of F b) 0) as [E|]; [|lia].
    exfalso; apply Hz. rewrite E, mval_0 by auto. ring. }
  unfold sg. destruct (sign_of F b); symmetry; [apply Rlt_bool_true|apply Rlt_bool_false]; lra.
Qed.
Lemma fval_inj : forall a b, is_pattern F a -> is_pattern F b -> is_fin F a = true -> is_fin F b = true ->
  fval F a = fval F b -> (fval F a = 0%R -> sign_of F a = sign_of F b) -> a = b.
Proof.
  intros a b Pa Pb Ha Hb E S. pose proof (mag_range F HF a). pose proof (mag_range F HF b).
  assert (HS : sign_of F a = sign_of F b).
  { destruct (Req_dec (fval F a) 0) as [Z|Z]; auto. rewrite !sign_fval by congruence. congruence. }
  rewrite (pattern_split F HF a), (pattern_split F HF b) by auto. rewrite HS. f_equal.
  apply (mval_inj F HF); try lia. rewrite <- !Rabs_fval by auto. congruence.
Qed.

Lemma fround_exact : forall rm x, generic_format radix2 fexp x -> fround F rm x = x.
Proof. intros rm x H. unfold fround. apply round_generic; auto. destruct rm; simpl; auto with typeclass_instances. Qed.

Lemma rounded_repr : forall rm x zs b, generic_format radix2 fexp x -> (Rabs x < bpow radix2 (bias F + 1))%R ->
  rounded F rm x zs b ->
  is_pattern F b /\ is_fin F b = true /\ fval F b = x /\ sign_of F b = (if Req_bool x 0 then zs else Rlt_bool x 0).
Proof.
  intros rm x zs b Hx Hb (P & S & V & _). rewrite fround_exact in V by auto.
  destruct (V Hb). auto.
Qed.
Lemma rounded_exact : forall rm x zs b c, is_pattern F c -> is_fin F c = true -> fval F c = x ->
  (x = 0%R -> sign_of F c = zs) -> rounded F rm x zs b -> b = c.
Proof.
  intros rm x zs b c Pc Fc <- Z R.
  destruct (rounded_repr rm _ zs b (fval_format F HF c) (fin_bound c Fc) R) as (P & Fb & V & S).
  apply fval_inj; auto. intros E. rewrite S, V in *. rewrite Req_bool_true by auto. symmetry; auto.
Qed.

(** Every representable real is denoted by a pattern with any sign for zero. *)
Lemma repr_pattern : forall x zs, generic_format radix2 fexp x -> (Rabs x < bpow radix2 (bias F + 1))%R ->
  exists b, is_pattern F b /\ is_fin F b = true /\ fval F b = x /\ (x = 0%R -> sign_of F b = zs).
Proof.
  intros x zs Hx Hb.
  destruct (format_mval F HF (Rabs x) (Rabs_pos x)) as (a & Ha & E).
  { apply generic_format_abs; auto. }
  rewrite <- E in Hb. apply (mval_lt_inf F HF) in Hb; auto. pose proof (inf_lt_sign F HF).
  set (s := if Req_bool x 0 then zs else Rlt_bool x 0).
  exists (sbit F s + a). split; [apply sbit_pattern; auto; lia|].
  split; [unfold is_fin; rewrite mag_of_sbit by (auto; lia); apply Z.ltb_lt; auto|].
  split.
  - rewrite fval_sbit by (auto; lia). rewrite E. unfold s. destruct (Req_bool_spec x 0) as [->|Hz].
    + rewrite Rabs_R0. ring.
    + unfold sg. destruct (Rlt_bool_spec x 0); [rewrite Rabs_left by lra|rewrite Rabs_pos_eq by lra]; ring.
  - intros ->. rewrite sign_of_sbit by (auto; lia). unfold s. rewrite Req_bool_true; auto.
Qed.

Lemma fabs_pat : forall b, is_pattern F b ->
  is_pattern F (mag_of F b) /\ sign_of F (mag_of F b) = false /\ mag_of F (mag_of F b) = mag_of F b.
Proof.
  intros b Hb. pose proof (mag_range F HF b). change (mag_of F b) with (sbit F false + mag_of F b) at 1 2 3.
  rewrite mag_of_sbit, sign_of_sbit by auto. split; auto. apply sbit_pattern; auto.
Qed.

(** ** Class facts *)
Lemma nan_fin : forall b, is_nan F b = true -> is_fin F b = false.
Proof. intros b. unfold is_nan, is_fin. lia. Qed.
Lemma inf_fin : forall b, is_inf F b = true -> is_fin F b = false.
Proof. intros b. unfold is_inf, is_fin. lia. Qed.
Lemma fin_nan : forall b, is_fin F b = true -> is_nan F b = false.
Proof. intros b. unfold is_nan, is_fin. lia. Qed.
Lemma fin_inf : forall b, is_fin F b = true -> is_inf F b = false.
Proof. intros b. unfold is_inf, is_fin. lia. Qed.
Lemma class_cases : forall b, is_fin F b = true \/ is_inf F b = true \/ is_nan F b = true.
Proof. intros b. unfold is_nan, is_inf, is_fin. lia. Qed.
Lemma inf_nan : forall b, is_inf F b = true -> is_nan F b = false.
Proof. intros b. unfold is_inf, is_nan. lia. Qed.

Lemma decode_nan : forall b, is_nan F b = true -> decode F b = DNaN.
Proof. intros b H. unfold is_nan, decode in *. replace (mag_of F b <? inf_mag F) with false by lia. replace (mag_of F b =? inf_mag F) with false by lia. reflexivity. Qed.
Lemma decode_isinf : forall b, is_inf F b = true -> decode F b = DInf (sign_of F b).
Proof. intros b H. unfold is_inf, decode in *. replace (mag_of F b <? inf_mag F) with false by lia. rewrite H. reflexivity. Qed.
Lemma inf_pat : forall b, is_pattern F b -> is_inf F b = true -> b = f_inf F (sign_of F b).
Proof. intros b Hb H. unfold is_inf in H. apply Z.eqb_eq in H. unfold f_inf. rewrite <- H. apply pattern_split; auto. Qed.

Lemma f_inf_props : forall s, is_pattern F (f_inf F s) /\ is_inf F (f_inf F s) = true /\ sign_of F (f_inf F s) = s.
Proof.
  intros s. pose proof (inf_mag_pos F HF). pose proof (inf_lt_sign F HF). unfold f_inf, is_inf.
  rewrite mag_of_sbit, sign_of_sbit by (auto; lia). rewrite Z.eqb_refl. split; auto. apply sbit_pattern; auto; lia.
Qed.
Lemma f_zero_props : forall s, is_pattern F (f_zero F s) /\ is_fin F (f_zero F s) = true /\ mag_of F (f_zero F s) = 0 /\
  sign_of F (f_zero F s) = s /\ fval F (f_zero F s) = 0%R.
Proof.
  intros s. pose proof (inf_mag_pos F HF). pose proof (inf_lt_sign F HF). unfold f_zero, is_fin.
  rewrite <- (Z.add_0_r (sbit F s)). rewrite mag_of_sbit, sign_of_sbit, fval_sbit, mval_0 by (auto; lia).
  split; [apply sbit_pattern; auto; lia|]. split; [lia|]. split; auto. split; auto. ring.
Qed.
Lemma qnan_props : is_pattern F (qnan F) /\ is_nan F (qnan F) = true /\ sign_of F (qnan F) = false.
Proof.
  pose proof (inf_mag_pos F HF). pose proof (gf_fl F HF).
  assert (0 <= qnan F < sign_unit F /\ inf_mag F < qnan F) as [R L].
  { unfold qnan. rewrite (sign_unit_inf F HF). rewrite (pow2_half (fl F)) by lia.
    pose proof (pow2_pos (fl F - 1) ltac:(lia)). lia. }
  unfold is_nan. change (qnan F) with (sbit F false + qnan F). rewrite mag_of_sbit, sign_of_sbit by auto.
  split; [apply sbit_pattern; auto|]. split; auto. apply Z.ltb_lt. auto.
Qed.

(** The literals +1 and -1. *)
Lemma f_one_props : forall s, is_pattern F (f_one F s) /\ is_fin F (f_one F s) = true /\ sign_of F (f_one F s) = s /\
  fval F (f_one F s) = sg s /\ mag_of F (f_one F s) = bias F * 2 ^ fl F.
Proof.
  intros s. unfold f_one, is_fin. pose proof (inf_lt_sign F HF). pose proof (gf_bias F HF). pose proof (gf_fl F HF). pose proof (fl_pos F HF).
  assert (R : 0 <= bias F * 2 ^ fl F < inf_mag F) by (unfold inf_mag; rewrite (expmax_bias F HF); nia).
  rewrite mag_of_sbit, sign_of_sbit, fval_sbit by (auto; lia).
  split; [apply sbit_pattern; auto; lia|]. split; [apply Z.ltb_lt; lia|]. split; auto. split; auto.
  replace (bias F * 2 ^ fl F) with (enc F (2 ^ fl F) (- fl F)) by (unfold enc, emin; ring).
  rewrite mval_enc; auto; try (unfold emin; lia); try (rewrite (prec_split F HF); lia).
  rewrite <- bpow_IZR, <- bpow_plus by lia. replace (fl F + - fl F) with 0 by lia. simpl. ring.
Qed.

Lemma f_pow2_props : forall s k, 1 - bias F <= k <= bias F ->
  is_pattern F (f_pow2 F s k) /\ is_fin F (f_pow2 F s k) = true /\ sign_of F (f_pow2 F s k) = s /\
  fval F (f_pow2 F s k) = (sg s * bpow radix2 k)%R /\ mag_of F (f_pow2 F s k) = (bias F + k) * 2 ^ fl F.
Proof.
  intros s k Hk. unfold f_pow2, is_fin. pose proof (inf_lt_sign F HF). pose proof (gf_bias F HF). pose proof (gf_fl F HF). pose proof (fl_pos F HF).
  assert (R : 0 <= (bias F + k) * 2 ^ fl F < inf_mag F) by (unfold inf_mag; rewrite (expmax_bias F HF); nia).
  rewrite mag_of_sbit, sign_of_sbit, fval_sbit by (auto; lia).
  split; [apply sbit_pattern; auto; lia|]. split; [apply Z.ltb_lt; lia|]. split; auto. split; auto.
  replace ((bias F + k) * 2 ^ fl F) with (enc F (2 ^ fl F) (k - fl F)) by (unfold enc, emin; ring).
  rewrite mval_enc; auto; try (unfold emin; lia); try (rewrite (prec_split F HF); lia).
  rewrite <- bpow_IZR, <- bpow_plus by lia. replace (fl F + (k - fl F)) with k by lia. reflexivity.
Qed.
(** Integers of at most [prec] bits are representable. *)
Lemma format_int : forall z, Z.abs z <= 2 ^ prec F -> generic_format radix2 fexp (IZR z).
Proof.
  intros z Hz. assert (HP : 0 <= prec F) by (unfold prec; pose proof (gf_fl F HF); lia).
  destruct (Z.eq_dec (Z.abs z) (2 ^ prec F)) as [E|E].
  - assert (G : generic_format radix2 fexp (bpow radix2 (prec F))).
    { apply generic_format_bpow. unfold FLT_exp. pose proof (emin_neg F HF). pose proof (gf_fl F HF). unfold prec in *. lia. }
    rewrite bpow_IZR in G by auto. rewrite <- E in G. rewrite abs_IZR in G. unfold Rabs in G. destruct (Rcase_abs (IZR z)); auto.
    apply generic_format_opp in G. rewrite Ropp_involutive in G. auto.
  - apply generic_format_FLT. exists (Float radix2 z 0); simpl; [unfold F2R; simpl; ring|change (radix_val radix2) with 2; lia|pose proof (emin_neg F HF); lia].
Qed.
Lemma int_bound : forall z, Z.abs z <= 2 ^ prec F -> (Rabs (IZR z) < bpow radix2 (bias F + 1))%R.
Proof.
  intros z Hz. rewrite <- abs_IZR. apply Rle_lt_trans with (IZR (2 ^ prec F)); [apply IZR_le; auto|].
  rewrite <- bpow_IZR by (unfold prec; pose proof (gf_fl F HF); lia). apply bpow_lt. unfold prec. pose proof (gf_bias F HF). lia.
Qed.

(** ** Comparisons *)
Lemma f_min_normal_props : is_pattern F (f_min_normal F) /\ is_fin F (f_min_normal F) = true /\
  mag_of F (f_min_normal F) = 2 ^ fl F /\ sign_of F (f_min_normal F) = false /\
  fval F (f_min_normal F) = bpow radix2 (1 - bias F).
Proof.
  pose proof (inf_lt_sign F HF). pose proof (inf_mag_ge F HF). pose proof (fl_pos F HF). pose proof (gf_fl F HF).
  unfold f_min_normal, is_fin. change (2 ^ fl F) with (sbit F false + 2 ^ fl F) at 1 2 3 5 6.
  rewrite mag_of_sbit, sign_of_sbit, fval_sbit by (auto; lia).
  split; [apply sbit_pattern; auto; lia|]. split; [apply Z.ltb_lt; lia|]. split; auto. split; auto.
  replace (2 ^ fl F) with (enc F (2 ^ fl F) (emin F)) by (unfold enc; ring).
  rewrite mval_enc; auto; try (rewrite (prec_split F HF)); try lia.
  rewrite <- bpow_IZR, <- bpow_plus by lia. unfold sg, emin. rewrite Rmult_1_l. f_equal. lia.
Qed.
Lemma f_cmp_lt : forall a b, f_lt F a b = true <-> xlt F a b.
Proof.
  intros a b. unfold f_lt, xlt. destruct (class_cases a) as [Ha|[Ha|Ha]], (class_cases b) as [Hb|[Hb|Hb]];
  try (unfold f_cmp; rewrite Ha; simpl; rewrite (decode_nan a) by auto; split; [congruence|tauto]);
  try (unfold f_cmp; rewrite Hb, orb_true_r; simpl; rewrite (decode_nan b) by auto; destruct (decode F a); split; try congruence; tauto).
  - rewrite cmp_fin by auto. destruct (decode_fin F HF a Ha) as (m & e & -> & _), (decode_fin F HF b Hb) as (n & g & -> & _).
    destruct (Rcompare_spec (fval F a) (fval F b)); split; try congruence; try lra; auto.
  - unfold f_cmp. rewrite (fin_nan a), (inf_nan b) by auto. rewrite (decode_isinf b) by auto.
    destruct (decode_fin F HF a Ha) as (m & e & -> & _). unfold is_fin, is_inf in *. pose proof (mag_range F HF a).
    apply Z.eqb_eq in Hb. simpl. unfold szval. destruct (sign_of F a), (sign_of F b); zcmp; split; try congruence; lia.
  - unfold f_cmp. rewrite (fin_nan b), (inf_nan a) by auto. rewrite (decode_isinf a) by auto.
    destruct (decode_fin F HF b Hb) as (m & e & -> & _). unfold is_fin, is_inf in *. pose proof (mag_range F HF b).
    apply Z.eqb_eq in Ha. simpl. unfold szval. destruct (sign_of F a), (sign_of F b); zcmp; split; try congruence; lia.
  - unfold f_cmp. rewrite (inf_nan b), (inf_nan a) by auto. rewrite (decode_isinf a), (decode_isinf b) by auto.
    unfold is_inf in *. apply Z.eqb_eq in Ha, Hb. pose proof (inf_mag_pos F HF).
    simpl. unfold szval. destruct (sign_of F a), (sign_of F b); zcmp; split; try congruence; intuition (try lia; try congruence).
Qed.
Lemma f_cmp_eq : forall a b, f_eq F a b = true <-> xeq F a b.
Proof.
  intros a b. unfold f_eq, xeq. destruct (class_cases a) as [Ha|[Ha|Ha]], (class_cases b) as [Hb|[Hb|Hb]];
  try (unfold f_cmp; rewrite Ha; simpl; rewrite (decode_nan a) by auto; split; [congruence|tauto]);
  try (unfold f_cmp; rewrite Hb, orb_true_r; simpl; rewrite (decode_nan b) by auto; destruct (decode F a); split; try congruence; tauto).
  - rewrite cmp_fin by auto. destruct (decode_fin F HF a Ha) as (m & e & -> & _), (decode_fin F HF b Hb) as (n & g & -> & _).
    destruct (Rcompare_spec (fval F a) (fval F b)); split; try congruence; try lra; auto.
  - unfold f_cmp. rewrite (fin_nan a), (inf_nan b) by auto. rewrite (decode_isinf b) by auto.
    destruct (decode_fin F HF a Ha) as (m & e & -> & _). unfold is_fin, is_inf in *. pose proof (mag_range F HF a).
    apply Z.eqb_eq in Hb. simpl. unfold szval. destruct (sign_of F a), (sign_of F b); zcmp; split; try congruence; try lia; tauto.
  - unfold f_cmp. rewrite (fin_nan b), (inf_nan a) by auto. rewrite (decode_isinf a) by auto.
    destruct (decode_fin F HF b Hb) as (m & e & -> & _). unfold is_fin, is_inf in *. pose proof (mag_range F HF b).
    apply Z.eqb_eq in Ha. simpl. unfold szval. destruct (sign_of F a), (sign_of F b); zcmp; split; try congruence; try lia; tauto.
  - unfold f_cmp. rewrite (inf_nan b), (inf_nan a) by auto. rewrite (decode_isinf a), (decode_isinf b) by auto.
    unfold is_inf in *. apply Z.eqb_eq in Ha, Hb. pose proof (inf_mag_pos F HF).
    simpl. unfold szval. destruct (sign_of F a), (sign_of F b); zcmp; split; try congruence; intuition (try lia; try congruence).
Qed.
Lemma f_gt_lt : forall a b, f_gt F a b = f_lt F b a.
Proof.
  intros a b. unfold f_gt, f_lt, f_cmp. rewrite (orb_comm (is_nan F b)). destruct (_ || _); auto.
  rewrite Z.compare_antisym. destruct (_ ?= _); reflexivity.
Qed.
Lemma f_eq_sym : forall a b, f_eq F a b = f_eq F b a.
Proof.
  intros a b. unfold f_eq, f_cmp. rewrite (orb_comm (is_nan F b)). destruct (_ || _); auto.
  rewrite Z.compare_antisym. destruct (_ ?= _); reflexivity.
Qed.
Lemma f_lt_fin : forall a b, is_fin F a = true -> is_fin F b = true -> f_lt F a b = Rlt_bool (fval F a) (fval F b).
Proof. intros. unfold f_lt. rewrite cmp_fin by auto. unfold Rlt_bool. destruct (Rcompare _ _); auto. Qed.
Lemma f_eq_fin : forall a b, is_fin F a = true -> is_fin F b = true -> f_eq F a b = Req_bool (fval F a) (fval F b).
Proof. intros. unfold f_eq. rewrite cmp_fin by auto. unfold Req_bool. destruct (Rcompare _ _); auto. Qed.
Lemma f_le_fin : forall a b, is_fin F a = true -> is_fin F b = true -> f_le F a b = Rle_bool (fval F a) (fval F b).
Proof. intros. unfold f_le, f_lt, f_eq. rewrite cmp_fin by auto. unfold Rle_bool. destruct (Rcompare _ _); auto. Qed.
Lemma f_gt_fin : forall a b, is_fin F a = true -> is_fin F b = true -> f_gt F a b = Rlt_bool (fval F b) (fval F a).
Proof. intros. rewrite f_gt_lt. apply f_lt_fin; auto. Qed.
Lemma f_ge_fin : forall a b, is_fin F a = true -> is_fin F b = true -> f_ge F a b = Rle_bool (fval F b) (fval F a).
Proof. intros. unfold f_ge. rewrite f_gt_lt, f_eq_sym. apply f_le_fin; auto. Qed.
Lemma f_eq_zero : forall a, f_eq F a 0 = (mag_of F a =? 0).
Proof.
  intros a. destruct (f_zero_props false) as (_ & Z1 & Z2 & Z3 & _). unfold f_zero, sbit in *.
  unfold f_eq, f_cmp. rewrite (fin_nan 0), orb_false_r by auto. rewrite Z2, Z3. pose proof (mag_range F HF a).
  destruct (is_nan F a) eqn:E.
  - unfold is_nan in E. pose proof (inf_mag_pos F HF). symmetry. apply Z.eqb_neq. lia.
  - unfold szval. destruct (sign_of F a); zcmp; symmetry; try apply Z.eqb_eq; try apply Z.eqb_neq; lia.
Qed.
Lemma f_lt_zero : forall a, is_nan F a = false -> f_lt F a 0 = (sign_of F a && negb (mag_of F a =? 0)).
Proof.
  intros a Hn. destruct (f_zero_props false) as (_ & Z1 & Z2 & Z3 & _). unfold f_zero, sbit in *.
  unfold f_lt, f_cmp. rewrite (fin_nan 0), orb_false_r, Hn by auto. rewrite Z2, Z3. pose proof (mag_range F HF a).
  unfold szval. destruct (sign_of F a); simpl; destruct (Z.compare_spec (- mag_of F a) 0), (Z.compare_spec (mag_of F a) 0), (Z.eqb_spec (mag_of F a) 0); simpl; try reflexivity; lia.
Qed.
(** Without a NaN: comparison of signed magnitudes. *)
Lemma f_cmp_mag : forall a b, is_nan F a = false -> is_nan F b = false ->
  f_cmp F a b = Some (szval (sign_of F a) (mag_of F a) ?= szval (sign_of F b) (mag_of F b)).
Proof. intros a b Ha Hb. unfold f_cmp. rewrite Ha, Hb. reflexivity. Qed.
End Ex.
