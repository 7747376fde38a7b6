(** * Proofs about the comparison functions, abs and copysign *)
From Coq Require Import ZArith Lia Bool Reals Lra.
From Flocq Require Import Core.
From Verif Require Import MachInt Bits Fmt FloatSpec FmtProofs RoundProofs FOps FOpsProofs ExactOps FPBits FPBitsProofs Compare.
Open Scope Z_scope.

Section Cmp.
Context (F : fmt) (HF : good_fmt F) (Hel : el F <= 16).

Lemma isnan_eq : forall b, cc_isnan F b = is_nan F b.
Proof. apply fp_is_nan_eq; auto. Qed.
Lemma isinf_eq : forall b, cc_isinf F b = is_inf F b.
Proof. apply fp_is_inf_eq; auto. Qed.
Lemma isfinite_eq : forall b, cc_isfinite F b = is_fin F b.
Proof. apply fp_is_finite_eq; auto. Qed.

Lemma abs_eq : forall b, is_pattern F b -> cc_abs F b = if is_nan F b then qnan F else mag_of F b.
Proof.
  intros b Hb. unfold cc_abs. rewrite fp_is_nan_eq, fp_is_zero_eq by auto. destruct (is_nan F b) eqn:E; auto.
  pose proof (mag_range F HF b). destruct (Z.eqb_spec (mag_of F b) 0) as [Hz|Hz]; auto.
  rewrite f_lt_zero by auto. replace (mag_of F b =? 0) with false by lia. rewrite andb_true_r.
  destruct (sign_of F b) eqn:S.
  - unfold f_neg. rewrite S. reflexivity.
  - rewrite (pattern_split F HF b Hb) at 1. rewrite S. reflexivity.
Qed.
Lemma signbit_eq : forall b, cc_signbit F b = sign_of F b.
Proof.
  intros b. unfold cc_signbit. rewrite isnan_eq, f_eq_zero by auto. fold (fp_sign F b). rewrite fp_sign_eq by auto.
  destruct (is_nan F b) eqn:N; [rewrite orb_true_r; auto|]. rewrite orb_false_r, f_lt_zero by auto.
  destruct (mag_of F b =? 0); auto. apply andb_true_r.
Qed.
Lemma abs_fin : forall b, is_pattern F b -> is_fin F b = true -> cc_abs F b = mag_of F b /\
  is_fin F (mag_of F b) = true /\ fval F (mag_of F b) = Rabs (fval F b).
Proof.
  intros b Hb Hf. rewrite abs_eq by auto. rewrite fin_nan by auto. split; auto.
  destruct (fabs_pat F HF b Hb) as (P & S & M). unfold is_fin in *. rewrite M. split; auto.
  rewrite Rabs_fval by (unfold is_fin; auto). rewrite fval_fin, S, M by (unfold is_fin; rewrite M; auto). unfold sg. ring.
Qed.
Lemma isnormal_eq : forall b, is_pattern F b ->
  cc_isnormal F b = is_fin F b && Rle_bool (bpow radix2 (1 - bias F)) (Rabs (fval F b)).
Proof.
  intros b Hb. unfold cc_isnormal, f_ne. rewrite f_eq_zero, isnan_eq, isinf_eq by auto.
  destruct (f_min_normal_props F HF) as (Pm & Fm & Mm & Sm & Vm).
  destruct (class_cases F b) as [H|[H|H]].
  - rewrite (fin_nan F b H), (fin_inf F b H), H. destruct (abs_fin b Hb H) as (-> & Fa & Va).
    rewrite f_ge_fin by auto. rewrite Vm, Va. rewrite !andb_true_r. simpl.
    destruct (Z.eqb_spec (mag_of F b) 0) as [E|E]; auto. apply (fval_zero F HF) in E; auto. rewrite E, Rabs_R0. simpl.
    symmetry. apply Rle_bool_false. apply bpow_gt_0.
  - rewrite (inf_fin F b H), H. rewrite andb_false_r. reflexivity.
  - rewrite (nan_fin F b H), H. rewrite andb_false_r. reflexivity.
Qed.

(** The class of a pattern, from the number denoted. *)
Lemma fpclassify_spec : forall d b, is_pattern F b ->
  cc_fpclassify F d b =
    (if is_nan F b then eFP_NAN d else if is_inf F b then eFP_INFINITE d
     else if Req_bool (fval F b) 0 then eFP_ZERO d
     else if Rlt_bool (Rabs (fval F b)) (bpow radix2 (1 - bias F)) then eFP_SUBNORMAL d else eFP_NORMAL d).
Proof.
  intros d b Hb. unfold cc_fpclassify. rewrite isnan_eq, isinf_eq by auto.
  destruct (f_min_normal_props F HF) as (Pm & Fm & Mm & Sm & Vm).
  destruct (f_zero_props F HF false) as (Pz & Fz & _ & _ & Vz). change (f_zero F false) with 0 in *.
  destruct (is_nan F b) eqn:N; auto. destruct (is_inf F b) eqn:I; auto.
  assert (H : is_fin F b = true) by (destruct (class_cases F b) as [H|[H|H]]; congruence).
  destruct (abs_fin b Hb H) as (-> & Fa & Va).
  rewrite f_eq_fin, f_lt_fin, f_gt_fin, Vz, Va, Vm by auto.
  destruct (Req_bool_spec (fval F b) 0) as [E|E]; auto.
  rewrite (Rlt_bool_true 0) by (apply Rabs_pos_lt; auto). rewrite andb_true_r. reflexivity.
Qed.

Definition unordered (x y : Z) : Prop := is_nan F x = true \/ is_nan F y = true.
Lemma isunordered_eq : forall x y, cc_isunordered F x y = is_nan F x || is_nan F y.
Proof. intros. unfold cc_isunordered. rewrite !isnan_eq. reflexivity. Qed.
Lemma unord_cmp : forall x y, is_nan F x || is_nan F y = true -> f_cmp F x y = None.
Proof. intros x y H. unfold f_cmp. rewrite H. reflexivity. Qed.

Lemma isless_spec : forall x y, cc_isless F x y = true <-> xlt F x y.
Proof.
  intros x y. unfold cc_isless. rewrite isunordered_eq, <- (f_cmp_lt F HF).
  destruct (is_nan F x || is_nan F y) eqn:E; simpl; [|tauto]. unfold f_lt. rewrite unord_cmp by auto. tauto.
Qed.
Lemma isgreater_spec : forall x y, cc_isgreater F x y = true <-> xlt F y x.
Proof.
  intros x y. unfold cc_isgreater. rewrite isunordered_eq, f_gt_lt, <- (f_cmp_lt F HF).
  destruct (is_nan F x || is_nan F y) eqn:E; simpl; [|tauto]. unfold f_lt. rewrite orb_comm in E. rewrite unord_cmp by auto. tauto.
Qed.
Lemma islessequal_spec : forall x y, cc_islessequal F x y = true <-> xlt F x y \/ xeq F x y.
Proof.
  intros x y. unfold cc_islessequal, f_le. rewrite isunordered_eq, <- (f_cmp_lt F HF), <- (f_cmp_eq F HF).
  rewrite <- orb_true_iff.
  destruct (is_nan F x || is_nan F y) eqn:E; simpl; [|tauto]. unfold f_lt, f_eq. rewrite unord_cmp by auto. simpl. tauto.
Qed.
Lemma isgreaterequal_spec : forall x y, cc_isgreaterequal F x y = true <-> xlt F y x \/ xeq F x y.
Proof.
  intros x y. unfold cc_isgreaterequal, f_ge. rewrite isunordered_eq, f_gt_lt, <- (f_cmp_lt F HF), <- (f_cmp_eq F HF).
  rewrite <- orb_true_iff.
  destruct (is_nan F x || is_nan F y) eqn:E; simpl; [|tauto]. unfold f_eq. rewrite unord_cmp by auto.
  unfold f_lt. rewrite orb_comm in E. rewrite unord_cmp by auto. simpl. tauto.
Qed.
Lemma islessgreater_spec : forall x y, cc_islessgreater F x y = true <-> xlt F x y \/ xlt F y x.
Proof.
  intros x y. unfold cc_islessgreater. rewrite isunordered_eq, f_gt_lt, <- !(f_cmp_lt F HF).
  rewrite <- orb_true_iff.
  destruct (is_nan F x || is_nan F y) eqn:E; simpl; [|tauto]. unfold f_lt at 1. rewrite unord_cmp by auto.
  unfold f_lt. rewrite orb_comm in E. rewrite unord_cmp by auto. simpl. tauto.
Qed.

(** Any two patterns that are not NaN are comparable. *)
Lemma order_total : forall x y, is_nan F x = false -> is_nan F y = false -> xlt F x y \/ xeq F x y \/ xlt F y x.
Proof.
  intros x y Hx Hy. rewrite <- !(f_cmp_lt F HF), <- (f_cmp_eq F HF). rewrite <- (f_gt_lt F x y).
  unfold f_lt, f_eq, f_gt. rewrite f_cmp_mag by auto. destruct (_ ?= _); auto.
Qed.

(** Multiplication by 1 or -1. *)
Lemma mul_one : forall rm b s, is_pattern F b -> is_nan F b = false ->
  f_mul F rm b (f_one F s) = sbit F (xorb (sign_of F b) s) + mag_of F b.
Proof.
  intros rm b s Hb Hn. destruct (f_one_props F HF s) as (P1 & F1 & S1 & V1 & M1). pose proof (mag_range F HF b).
  destruct (class_cases F b) as [Hf|[Hi|?]]; [| |congruence].
  - pose proof (f_mul_spec F HF rm b (f_one F s) Hf F1) as R. rewrite V1, S1 in R.
    assert (Hr : 0 <= mag_of F b < inf_mag F) by (unfold is_fin in Hf; lia).
    eapply rounded_exact in R; eauto.
    + apply sbit_pattern; auto.
    + unfold is_fin. rewrite mag_of_sbit by auto. exact Hf.
    + rewrite fval_sbit, sg_xorb, fval_fin by auto. ring.
    + intros _. apply sign_of_sbit; auto.
  - unfold f_mul. rewrite (decode_isinf F b) by auto. destruct (decode_fin F HF (f_one F s) F1) as (m & e & -> & _ & _ & _ & _ & V).
    rewrite S1. destruct (Z.eqb_spec m 0) as [->|].
    + exfalso. rewrite V1 in V. rewrite Rmult_0_l, Rmult_0_r in V. eapply sg_nz; eauto.
    + unfold f_inf. unfold is_inf in Hi. apply Z.eqb_eq in Hi. rewrite Hi. reflexivity.
Qed.
Lemma copysign_spec : forall rm x y, is_pattern F x -> is_pattern F y ->
  cc_copysign F rm x y = sbit F (sign_of F y) + (if is_nan F x || is_nan F y then qnan F else mag_of F x).
Proof.
  intros rm x y Hx Hy. unfold cc_copysign. rewrite !isnan_eq, signbit_eq. pose proof (qnan_props F HF) as (Q1 & Q2 & Q3).
  destruct (is_nan F x || is_nan F y) eqn:E.
  - assert (Hq : mag_of F (qnan F) = qnan F).
    { pose proof (pattern_split F HF _ Q1) as H. rewrite Q3 in H. simpl in H. auto. }
    unfold f_neg. rewrite Q3, Hq. destruct (sign_of F y); reflexivity.
  - apply orb_false_iff in E. destruct E as [E1 E2]. rewrite abs_eq, E1 by auto.
    destruct (fabs_pat F HF x Hx) as (P & S & M).
    rewrite mul_one; auto.
    + rewrite S, M, xorb_false_l. reflexivity.
    + unfold is_nan in *. rewrite M. auto.
Qed.

(** ** The observers of FPBits against the datum denoted *)
Lemma decode_cases : forall b,
  (is_nan F b = true <-> decode F b = DNaN) /\ (is_inf F b = true <-> exists s, decode F b = DInf s) /\
  (is_fin F b = true <-> exists s m e, decode F b = DFin s m e).
Proof.
  intros b. unfold is_nan, is_inf, is_fin, decode.
  destruct (Z.ltb_spec (mag_of F b) (inf_mag F)); [|destruct (Z.eqb_spec (mag_of F b) (inf_mag F))];
  repeat split; intros; try lia; try congruence; repeat match goal with H : exists _, _ |- _ => destruct H end; try congruence; eauto.
Qed.
Lemma fpbits_observers : forall b,
  (fp_is_nan F b = true <-> decode F b = DNaN) /\ (fp_is_inf F b = true <-> exists s, decode F b = DInf s) /\
  (fp_is_finite F b = true <-> exists s m e, decode F b = DFin s m e) /\
  (fp_is_zero F b = true <-> (exists s m e, decode F b = DFin s m e) /\ fval F b = 0%R) /\
  (fp_is_subnormal F b = true <-> (exists s m e, decode F b = DFin s m e) /\ (Rabs (fval F b) < bpow radix2 (1 - bias F))%R) /\
  (fp_is_normal F b = true <-> (exists s m e, decode F b = DFin s m e) /\ (bpow radix2 (1 - bias F) <= Rabs (fval F b))%R).
Proof.
  intros b. rewrite fp_is_nan_eq, fp_is_inf_eq, fp_is_finite_eq, fp_is_zero_eq, fp_is_subnormal_eq by auto.
  destruct (decode_cases b) as (A & B & C). split; auto. split; auto. split; auto. rewrite <- C.
  pose proof (mag_range F HF b) as HM. pose proof (inf_mag_ge F HF) as HG. pose proof (fl_pos F HF) as HP.
  destruct (f_min_normal_props F HF) as (Pm & Fm & Mm & Sm & Vm).
  assert (HV : mval F (2 ^ fl F) = bpow radix2 (1 - bias F)).
  { rewrite <- Vm, fval_fin, Sm, Mm by auto. unfold sg. ring. }
  assert (HS : is_fin F b = true -> (mag_of F b < 2 ^ fl F <-> (Rabs (fval F b) < bpow radix2 (1 - bias F))%R)).
  { intros Hf. rewrite Rabs_fval, <- HV by auto. apply mval_lt; auto; lia. }
  split; [|split].
  - split.
    + intros H. apply Z.eqb_eq in H. assert (Hf : is_fin F b = true) by (unfold is_fin; lia). split; auto. apply fval_zero; auto.
    + intros [Hf H]. apply Z.eqb_eq, fval_zero; auto.
  - split.
    + intros H. apply Z.ltb_lt in H. assert (Hf : is_fin F b = true) by (unfold is_fin; lia). split; auto. apply HS; auto.
    + intros [Hf H]. apply Z.ltb_lt, HS; auto.
  - unfold fp_is_normal. rewrite fp_is_finite_eq, fp_is_subnormal_eq by auto. split.
    + intros H. apply andb_true_iff in H. destruct H as [Hf H]. split; auto. apply Rnot_lt_le. intros Hc. apply HS in Hc; auto.
      apply negb_true_iff, Z.ltb_ge in H. lia.
    + intros [Hf H]. rewrite Hf. simpl. apply negb_true_iff, Z.ltb_ge. apply Z.nlt_ge. intros Hc. apply HS in Hc; auto. lra.
Qed.
Lemma quiet_spec : forall b,
  (fp_is_quiet_nan F b = true <-> decode F b = DNaN /\ Z.testbit b (fl F - 1) = true) /\
  (fp_is_signaling_nan F b = true <-> decode F b = DNaN /\ Z.testbit b (fl F - 1) = false).
Proof.
  intros b. destruct (decode_cases b) as (A & _). unfold fp_is_signaling_nan.
  rewrite fp_is_nan_eq, fp_is_quiet_nan_eq by auto. rewrite <- A.
  assert (T : is_nan F b = true -> Z.testbit b (fl F - 1) = (qnan F <=? mag_of F b)).
  { intros Hn. pose proof (mag_range F HF b) as HM. pose proof (gf_fl F HF).
    rewrite <- (Z.mod_pow2_bits_low b (fl F)) by lia. rewrite (field_mod F HF). unfold is_nan in Hn.
    rewrite (sign_unit_inf F HF) in HM. unfold qnan. pose proof (fl_pos F HF).
    assert (E : mag_of F b mod 2 ^ fl F = mag_of F b - inf_mag F).
    { symmetry. apply Z.mod_unique with (expmax F); [left; lia|]. unfold inf_mag in *. lia. }
    rewrite E. rewrite Z.testbit_eqb by lia. pose proof (pow2_pos (fl F - 1) ltac:(lia)).
    rewrite (pow2_half (fl F)) in HM by lia.
    set (r := mag_of F b - inf_mag F) in *. destruct (Z.leb_spec (inf_mag F + 2 ^ (fl F - 1)) (mag_of F b)).
    - apply Z.eqb_eq. rewrite (Z.mod_small (r / _)). symmetry; apply Z.div_unique with (r - 2 ^ (fl F - 1)); lia.
      assert (r / 2 ^ (fl F - 1) = 1) by (symmetry; apply Z.div_unique with (r - 2 ^ (fl F - 1)); lia). lia.
    - apply Z.eqb_neq. rewrite Z.div_small by lia. discriminate. }
  assert (Q : (qnan F <=? mag_of F b) = true -> is_nan F b = true).
  { unfold qnan, is_nan. pose proof (pow2_pos (fl F - 1) ltac:(pose proof (gf_fl F HF); lia)). lia. }
  split; split.
  - intros H. split; auto. rewrite T by auto. auto.
  - intros [H1 H2]. rewrite <- T; auto.
  - intros H. apply andb_true_iff in H. destruct H as [H1 H2]. split; auto. rewrite T by auto. apply negb_true_iff; auto.
  - intros [H1 H2]. rewrite T in H2 by auto. rewrite H1, H2. reflexivity.
Qed.

(** ** Fields, in the words of the format *)
Lemma create_value_fields : forall s e m, 0 <= e < 2 ^ el F -> 0 <= m < 2 ^ fl F ->
  let b := create_value F s e m in
  is_pattern F b /\ sign_of F b = s /\ exp_field F b = e /\ man_field F b = m.
Proof.
  intros s e m He Hm b. unfold b. rewrite create_value_eq by auto.
  destruct (pack_fields F HF Hel s e m He Hm) as (A & B & C & D).
  split; [apply pack_pattern; auto|]. split; auto. unfold exp_field, man_field. rewrite <- (field_div F HF). auto.
Qed.
Lemma get_fields : forall b, fp_sign F b = sign_of F b /\ get_biased_exponent F b = exp_field F b /\ get_mantissa F b = man_field F b.
Proof.
  intros b. rewrite fp_sign_eq, get_biased_exponent_eq, get_mantissa_eq by auto. unfold exp_field, man_field.
  rewrite <- (field_div F HF). auto.
Qed.
Lemma set_fields : forall b s e m, is_pattern F b -> 0 <= e < 2 ^ el F -> 0 <= m < 2 ^ fl F ->
  (let c := set_sign F b s in is_pattern F c /\ sign_of F c = s /\ exp_field F c = exp_field F b /\ man_field F c = man_field F b) /\
  (let c := set_biased_exponent_pub F b e in is_pattern F c /\ sign_of F c = sign_of F b /\ exp_field F c = e /\ man_field F c = man_field F b) /\
  (let c := set_mantissa F b m in is_pattern F c /\ sign_of F c = sign_of F b /\ exp_field F c = exp_field F b /\ man_field F c = m).
Proof.
  intros b s e m Hb He Hm. cbv zeta. unfold exp_field, man_field. rewrite <- !(field_div F HF).
  destruct (field_ranges F HF b) as (R1 & R2).
  assert (HW : set_biased_exponent_pub F b e = pack F (sign_of F b) e (b mod 2 ^ fl F)).
  { unfold set_biased_exponent_pub. rewrite set_biased_eq by auto. f_equal.
    pose proof (el_32 F Hel). change (2 ^ 16) with 65536 in *.
    rewrite (wrap_small 32 e) by (unfold inU; lia). unfold to_signed.
    replace (e <? 2 ^ (32 - 1)) with true by (symmetry; apply Z.ltb_lt; change (2 ^ (32 - 1)) with 2147483648; lia).
    rewrite wrap_small by (unfold inU; lia). apply Z.mod_small. auto. }
  rewrite HW, (set_sign_eq F HF Hel), (set_mantissa_eq F HF), (Z.mod_small m) by auto.
  destruct (pack_fields F HF Hel s _ _ R1 R2) as (A1 & A2 & A3 & A4).
  destruct (pack_fields F HF Hel (sign_of F b) e _ He R2) as (B1 & B2 & B3 & B4).
  destruct (pack_fields F HF Hel (sign_of F b) _ m R1 Hm) as (C1 & C2 & C3 & C4).
  split; [|split]; (split; [apply pack_pattern; auto|]); auto.
Qed.
End Cmp.
