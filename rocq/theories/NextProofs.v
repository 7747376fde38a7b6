(** * Proofs about nextafter, nexttoward, nextup and nextdown *)
From Coq Require Import ZArith Reals Bool Lia Lra.
From Flocq Require Import Core.
From Verif Require Import MachInt Fmt FloatSpec FmtProofs RoundProofs FOps FOpsProofs ExactOps.
From Verif Require Import FPBits FPBitsProofs Compare CompareProofs Nearest NearestProofs NearestInt Fmanip FmanipProofs.
Open Scope Z_scope.

(** [G] represents every value of [F]. *)
Definition included (F G : fmt) : Prop := fl F <= fl G /\ el F <= el G.

Section Cast.
Context (F G : fmt) (HF : good_fmt F) (HG : good_fmt G) (HI : included F G).

Lemma incl_bias : bias F <= bias G.
Proof.
  destruct HI as (_ & H). unfold bias. pose proof (gf_el F HF).
  assert (2 ^ (el F - 1) <= 2 ^ (el G - 1)) by (apply Z.pow_le_mono_r; lia). lia.
Qed.
Lemma incl_format : forall x, generic_format radix2 (FLT_exp (emin F) (prec F)) x ->
  generic_format radix2 (FLT_exp (emin G) (prec G)) x.
Proof.
  intros x. apply generic_inclusion_mag. intros _. unfold FLT_exp. pose proof incl_bias.
  destruct HI as (H1 & _). unfold emin, prec. lia.
Qed.
Lemma cast_fin : forall rm a, is_fin F a = true ->
  is_pattern G (f_cast F G rm a) /\ is_fin G (f_cast F G rm a) = true /\
  fval G (f_cast F G rm a) = fval F a /\ sign_of G (f_cast F G rm a) = sign_of F a.
Proof.
  intros rm a Ha. pose proof (f_cast_spec F G rm a HF HG Ha) as HR.
  assert (HB : (Rabs (fval F a) < bpow radix2 (bias G + 1))%R).
  { apply Rlt_le_trans with (1 := fin_bound F HF a Ha). apply bpow_le. pose proof incl_bias. lia. }
  destruct (rounded_repr G rm _ _ _ (incl_format _ (fval_format F HF a)) HB HR) as (P1 & F1 & V1 & S1).
  split; [exact P1 | ]. split; [exact F1 | ]. split; [exact V1 | ]. rewrite S1.
    destruct (Req_bool_spec (fval F a) 0) as [HZ | HZ]; [reflexivity | ]. symmetry. apply (sign_fval F HF); assumption.
Qed.
End Cast.

Lemma decode_of_fin : forall F b, is_fin F b = true -> exists m e, decode F b = DFin (sign_of F b) m e.
Proof. intros F b H. unfold is_fin in H. unfold decode. rewrite H. eauto. Qed.
Lemma decode_of_inf : forall F b, is_inf F b = true -> decode F b = DInf (sign_of F b).
Proof.
  intros F b H. unfold is_inf in H. unfold decode. rewrite H. apply Z.eqb_eq in H. rewrite H.
  rewrite Z.ltb_irrefl. reflexivity.
Qed.
Lemma decode_of_nan : forall F b, is_nan F b = true -> decode F b = DNaN.
Proof.
  intros F b HN. unfold is_nan in HN. apply Z.ltb_lt in HN. unfold decode.
  destruct (Z.ltb_spec (mag_of F b) (inf_mag F)); [lia | ].
  destruct (Z.eqb_spec (mag_of F b) (inf_mag F)); [lia | reflexivity].
Qed.
Lemma notnan_cases : forall F b, is_nan F b = false -> is_fin F b = true \/ is_inf F b = true.
Proof. intros F b H. destruct (class_cases F b) as [ | [ | ]]; [tauto | tauto | congruence]. Qed.

Section Cmp.
Context (F G : fmt) (HF : good_fmt F) (HG : good_fmt G) (HI : included F G).
Lemma cast_class : forall rm a, is_nan F a = false -> exists d,
  decode F a = d /\ match d with
  | DNaN => False | DInf s => decode G (f_cast F G rm a) = DInf s
  | DFin s _ _ => exists m e, decode G (f_cast F G rm a) = DFin s m e /\ fval G (f_cast F G rm a) = fval F a end.
Proof.
  intros rm a HN. destruct (notnan_cases F a HN) as [Ha | Ha].
  - destruct (decode_of_fin F a Ha) as (m & e & D). exists (DFin (sign_of F a) m e). split; [exact D | ].
    destruct (cast_fin F G HF HG HI rm a Ha) as (P1 & F1 & V1 & S1).
    destruct (decode_of_fin G _ F1) as (m' & e' & D'). exists m', e'. rewrite <- S1. split; assumption.
  - pose proof (decode_of_inf F a Ha) as D. exists (DInf (sign_of F a)). split; [exact D | ].
    unfold f_cast. rewrite D. destruct (f_inf_props G HG (sign_of F a)) as (P1 & I1 & S1).
    rewrite (decode_of_inf G _ I1), S1. reflexivity.
Qed.
Lemma cast_lt : forall rm a b, is_nan F a = false -> f_lt G (f_cast F G rm a) b = true <-> xlt2 F G a b.
Proof.
  intros rm a b HN. rewrite (f_cmp_lt G HG). unfold xlt, xlt2.
  destruct (cast_class rm a HN) as ([ | s | s m e] & D & HD); [contradiction | | ].
  - rewrite D, HD. reflexivity.
  - destruct HD as (m' & e' & HD & HV). rewrite D, HD, HV. reflexivity.
Qed.
Lemma cast_eq : forall rm a b, is_nan F a = false -> f_eq G (f_cast F G rm a) b = true <-> xeq2 F G a b.
Proof.
  intros rm a b HN. rewrite (f_cmp_eq G HG). unfold xeq, xeq2.
  destruct (cast_class rm a HN) as ([ | s | s m e] & D & HD); [contradiction | | ].
  - rewrite D, HD. reflexivity.
  - destruct HD as (m' & e' & HD & HV). rewrite D, HD, HV. reflexivity.
Qed.

Lemma cast_back : forall rm a b, xeq2 F G a b -> 
  let r := f_cast G F rm b in
  is_pattern F r /\ xeq2 F G r b /\ sign_of F r = sign_of G b.
Proof.
  intros rm a b HE. cbv zeta. unfold xeq2 in *.
  destruct (class_cases G b) as [Hb | [Hb | Hb]].
  - destruct (decode_of_fin G b Hb) as (m & e & D). rewrite D in *.
    destruct (decode F a) as [ | s | s m' e'] eqn:Da; try contradiction.
    assert (Ha : is_fin F a = true).
    { unfold decode in Da. unfold is_fin. destruct (mag_of F a <? inf_mag F); [reflexivity | ].
      destruct (mag_of F a =? inf_mag F); discriminate. }
    pose proof (f_cast_spec G F rm b HG HF Hb) as HR.
    destruct (rounded_repr F rm (fval G b) (sign_of G b) (f_cast G F rm b)) as (P1 & F1 & V1 & S1).
    + rewrite <- HE. apply (fval_format F HF).
    + rewrite <- HE. apply (fin_bound F HF). exact Ha.
    + exact HR.
    + destruct (decode_of_fin F _ F1) as (m2 & e2 & D2). rewrite D2.
      split; [exact P1 | ]. split; [exact V1 | ]. rewrite S1.
      destruct (Req_bool_spec (fval G b) 0) as [HZ | HZ]; [reflexivity | ]. symmetry. apply (sign_fval G HG); assumption.
  - rewrite (decode_of_inf G b Hb) in *. unfold f_cast. rewrite (decode_of_inf G b Hb).
    destruct (f_inf_props F HF (sign_of G b)) as (P1 & I1 & S1).
    rewrite (decode_of_inf F _ I1), S1. repeat split; apply P1.
  - rewrite (decode_of_nan G b Hb) in HE. destruct (decode F a); contradiction.
Qed.
Lemma total2 : forall a b, is_nan F a = false -> is_nan G b = false -> xlt2 F G a b \/ xeq2 F G a b \/ xgt2 F G a b.
Proof.
  intros a b Ha Hb. unfold xlt2, xeq2, xgt2, xlt2.
  destruct (notnan_cases F a Ha) as [H1 | H1], (notnan_cases G b Hb) as [H2 | H2].
  - destruct (decode_of_fin F a H1) as (m & e & D). destruct (decode_of_fin G b H2) as (m' & e' & D').
    rewrite D, D'. lra.
  - destruct (decode_of_fin F a H1) as (m & e & D). rewrite D, (decode_of_inf G b H2). destruct (sign_of G b); auto.
  - destruct (decode_of_fin G b H2) as (m & e & D). rewrite D, (decode_of_inf F a H1). destruct (sign_of F a); auto.
  - rewrite (decode_of_inf F a H1), (decode_of_inf G b H2). destruct (sign_of G b), (sign_of F a); auto.
Qed.
Lemma gt_notlt : forall a b, xgt2 F G a b -> ~ xlt2 F G a b.
Proof.
  intros a b. unfold xgt2, xlt2.
  destruct (decode F a), (decode G b); try tauto; try congruence; try lra.
  - intros (-> & ->) (? & ?). discriminate.
Qed.
Lemma lt_noteq : forall a b, xlt2 F G a b -> ~ xeq2 F G a b.
Proof.
  intros a b. unfold xeq2, xlt2.
  destruct (decode F a), (decode G b); try tauto; try congruence; try lra. intros (-> & ->). discriminate.
Qed.
Lemma gt_noteq : forall a b, xgt2 F G a b -> ~ xeq2 F G a b.
Proof.
  intros a b. unfold xeq2, xgt2, xlt2.
  destruct (decode F a), (decode G b); try tauto; try congruence; try lra. intros (-> & ->). discriminate.
Qed.
End Cmp.

Section Key.
Context (F : fmt) (HF : good_fmt F).
Definition key (b : Z) : Z := szval (sign_of F b) (mag_of F b).
Lemma xlt_key : forall a b, is_nan F a = false -> is_nan F b = false -> xlt F a b <-> key a < key b.
Proof.
  intros a b Ha Hb. rewrite <- (f_cmp_lt F HF). unfold f_lt, f_cmp. rewrite Ha, Hb. cbn [orb]. fold (key a). fold (key b).
  destruct (Z.compare_spec (key a) (key b)); split; intros; try congruence; try lia.
Qed.
Lemma xlt_notnan : forall a b, xlt F a b -> is_nan F a = false /\ is_nan F b = false.
Proof.
  intros a b H. unfold xlt in H. split.
  - destruct (is_nan F a) eqn:E; [ | reflexivity]. rewrite (decode_of_nan F a E) in H. contradiction.
  - destruct (is_nan F b) eqn:E; [ | reflexivity]. rewrite (decode_of_nan F b E) in H. destruct (decode F a); contradiction.
Qed.
Lemma adj_up : forall a r, is_nan F a = false -> is_nan F r = false -> key r = key a + 1 ->
  xlt F a r /\ forall c, xlt F a c -> ~ xlt F c r.
Proof.
  intros a r Ha Hr HK. split; [apply xlt_key; [assumption | assumption | lia] | ].
  intros c HC HC2. destruct (xlt_notnan _ _ HC) as (_ & Hc).
  rewrite xlt_key in HC, HC2 by assumption. lia.
Qed.
Lemma adj_dn : forall a r, is_nan F a = false -> is_nan F r = false -> key r = key a - 1 ->
  xlt F r a /\ forall c, xlt F c a -> ~ xlt F r c.
Proof.
  intros a r Ha Hr HK. split; [apply xlt_key; [assumption | assumption | lia] | ].
  intros c HC HC2. destruct (xlt_notnan _ _ HC) as (Hc & _).
  rewrite xlt_key in HC, HC2 by assumption. lia.
Qed.
Lemma sbit_props : forall s a, 0 <= a <= inf_mag F ->
  is_pattern F (sbit F s + a) /\ is_nan F (sbit F s + a) = false /\ sign_of F (sbit F s + a) = s /\
  mag_of F (sbit F s + a) = a.
Proof.
  intros s a Ha. pose proof (inf_lt_su F HF).
  assert (HM : mag_of F (sbit F s + a) = a) by (apply mag_of_sbit; lia).
  split; [apply (sbit_pattern F HF); lia | ]. split; [ | split; [apply (sign_of_sbit F HF); lia | exact HM]].
  unfold is_nan. rewrite HM. apply Z.ltb_ge. lia.
Qed.
End Key.

Section Next.
Context (F G : fmt) (HF : good_fmt F) (HG : good_fmt G) (HI : included F G) (HelF : el F <= 16) (HelG : el G <= 16).

Definition up_adjacent (a r : Z) : Prop :=
  is_pattern F r /\ xlt F a r /\ (forall c, xlt F a c -> ~ xlt F c r) /\
  (is_fin F r = true -> fval F r = 0%R -> sign_of F r = sign_of F a).
Definition dn_adjacent (a r : Z) : Prop :=
  is_pattern F r /\ xlt F r a /\ (forall c, xlt F c a -> ~ xlt F r c) /\
  (is_fin F r = true -> fval F r = 0%R -> sign_of F r = sign_of F a).

Lemma uint_eq : forall b, is_pattern F b -> uintval F b = b.
Proof.
  intros b Hb. unfold uintval, fp_bits_mask. pose proof (gf_fl F HF). pose proof (gf_el F HF).
  rewrite land_low by (unfold width; lia). apply Z.mod_small; exact Hb.
Qed.

Lemma step_mag : forall b d, is_pattern F b -> 0 <= mag_of F b + d <= inf_mag F ->
  wrap (width F) (uintval F b + d) = sbit F (sign_of F b) + (mag_of F b + d).
Proof.
  intros b d Hb Hd. rewrite uint_eq by assumption.
  destruct (sbit_props F HF (sign_of F b) (mag_of F b + d) Hd) as (P & _).
  rewrite wrap_small.
  - pose proof (pattern_split F HF b Hb). lia.
  - pose proof (pattern_split F HF b Hb). replace (b + d) with (sbit F (sign_of F b) + (mag_of F b + d)) by lia. exact P.
Qed.

Lemma gt0 : forall b, is_nan F b = false -> mag_of F b <> 0 -> f_gt F b 0 = negb (sign_of F b).
Proof.
  intros b Hb Hm. pose proof (mag_range F HF b). unfold f_gt, f_cmp. rewrite Hb.
  destruct (f_zero_props F HF false) as (P0 & F0 & M0 & S0 & _). change (f_zero F false) with 0 in *.
  assert (N0 : is_nan F 0 = false).
  { unfold is_nan. rewrite M0. apply Z.ltb_ge. pose proof (inf_mag_pos F HF). lia. }
  rewrite N0, M0, S0. cbn [orb]. unfold szval. destruct (sign_of F b); cbn [negb].
  - destruct (Z.compare_spec (- mag_of F b) 0); try reflexivity; lia.
  - destruct (Z.compare_spec (mag_of F b) 0); try reflexivity; lia.
Qed.

(** The sign of a target above or below zero. *)
Lemma to_sign : forall a b, mag_of F a = 0 -> (xlt2 F G a b -> sign_of G b = false) /\ (xgt2 F G a b -> sign_of G b = true).
Proof.
  intros a b Ha. assert (Fa : is_fin F a = true).
  { unfold is_fin. rewrite Ha. apply Z.ltb_lt. apply (inf_mag_pos F HF). }
  assert (Va : fval F a = 0%R) by (apply (fval_zero F HF); assumption).
  destruct (decode_of_fin F a Fa) as (m & e & D). unfold xgt2, xlt2. rewrite D, Va.
  destruct (class_cases G b) as [Hb | [Hb | Hb]].
  - destruct (decode_of_fin G b Hb) as (m' & e' & D'). rewrite D'. split; intros HL.
    + rewrite (sign_fval G HG) by (assumption || lra). apply Rlt_bool_false. lra.
    + rewrite (sign_fval G HG) by (assumption || lra). apply Rlt_bool_true. lra.
  - rewrite (decode_of_inf G b Hb). tauto.
  - rewrite (decode_of_nan G b Hb). tauto.
Qed.
(** A value with something above it is not the positive infinity. *)
Lemma not_top : forall a b, xlt2 F G a b -> sign_of F a = false -> mag_of F a < inf_mag F.
Proof.
  intros a b HL HS. unfold xlt2 in HL. destruct (class_cases F a) as [Ha | [Ha | Ha]].
  - apply Z.ltb_lt. exact Ha.
  - rewrite (decode_of_inf F a Ha), HS in HL. destruct (decode G b); intuition congruence.
  - rewrite (decode_of_nan F a Ha) in HL. contradiction.
Qed.
Lemma not_bottom : forall a b, xgt2 F G a b -> sign_of F a = true -> mag_of F a < inf_mag F.
Proof.
  intros a b HL HS. unfold xgt2, xlt2 in HL. destruct (class_cases F a) as [Ha | [Ha | Ha]].
  - apply Z.ltb_lt. exact Ha.
  - rewrite (decode_of_inf F a Ha), HS in HL. destruct (decode G b); intuition congruence.
  - rewrite (decode_of_nan F a Ha) in HL. destruct (decode G b); contradiction.
Qed.

Lemma mag_le_inf : forall b, is_nan F b = false -> 0 <= mag_of F b <= inf_mag F.
Proof. intros b Hb. pose proof (mag_range F HF b). unfold is_nan in Hb. apply Z.ltb_ge in Hb. lia. Qed.

Lemma next_up : forall rm a b, is_pattern F a -> is_nan F a = false -> is_nan G b = false -> xlt2 F G a b ->
  up_adjacent a (cc_nextafter F G rm a b).
Proof.
  intros rm a b Pa Na Nb HL. unfold cc_nextafter.
  rewrite !fp_is_nan_eq, Na, Nb by assumption.
  assert (E1 : f_eq G (f_cast F G rm a) b = false).
  { apply not_true_is_false. rewrite (cast_eq F G HF HG HI rm a b Na). apply lt_noteq. exact HL. }
  assert (E2 : f_lt G (f_cast F G rm a) b = true) by (apply (cast_lt F G HF HG HI rm a b Na); exact HL).
  rewrite E1, E2. unfold f_ne. rewrite (f_eq_zero F HF).
  pose proof (mag_le_inf a Na) as HM.
  destruct (Z.eqb_spec (mag_of F a) 0) as [HZ | HZ]; cbn [negb].
  - rewrite fp_sign_eq, (fp_min_subnormal_eq F HF HelF) by assumption.
    destruct (to_sign a b HZ) as (T1 & _). rewrite (T1 HL).
    pose proof (inf_mag_pos F HF).
    destruct (sbit_props F HF false 1 ltac:(lia)) as (P1 & N1 & S1 & M1).
    destruct (adj_up F HF a _ Na N1) as (A1 & A2).
    { unfold key. rewrite S1, M1, HZ. unfold szval. destruct (sign_of F a); reflexivity. }
    split; [exact P1 | ]. split; [exact A1 | ]. split; [exact A2 | ].
    intros HX HV. apply (fval_zero F HF) in HV; [lia | exact HX].
  - rewrite gt0 by assumption.
    destruct (sign_of F a) eqn:HS; cbn [negb Bool.eqb].
    + rewrite <- Z.add_opp_r; change (- (1)) with (-1); rewrite step_mag by (assumption || lia). rewrite HS.
      destruct (sbit_props F HF true (mag_of F a + -1) ltac:(lia)) as (P1 & N1 & S1 & M1).
      destruct (adj_up F HF a _ Na N1) as (A1 & A2).
      { unfold key. rewrite S1, M1, HS. unfold szval. lia. }
      split; [exact P1 | ]. split; [exact A1 | ]. split; [exact A2 | ]. intros _ _. rewrite S1, HS. reflexivity.
    + pose proof (not_top a b HL HS).
      rewrite step_mag by (assumption || lia). rewrite HS.
      destruct (sbit_props F HF false (mag_of F a + 1) ltac:(lia)) as (P1 & N1 & S1 & M1).
      destruct (adj_up F HF a _ Na N1) as (A1 & A2).
      { unfold key. rewrite S1, M1, HS. unfold szval. lia. }
      split; [exact P1 | ]. split; [exact A1 | ]. split; [exact A2 | ]. intros _ _. rewrite S1, HS. reflexivity.
Qed.

Lemma next_dn : forall rm a b, is_pattern F a -> is_nan F a = false -> is_nan G b = false -> xgt2 F G a b ->
  dn_adjacent a (cc_nextafter F G rm a b).
Proof.
  intros rm a b Pa Na Nb HL. unfold cc_nextafter.
  rewrite !fp_is_nan_eq, Na, Nb by assumption.
  assert (E1 : f_eq G (f_cast F G rm a) b = false).
  { apply not_true_is_false. rewrite (cast_eq F G HF HG HI rm a b Na). apply gt_noteq. exact HL. }
  assert (E2 : f_lt G (f_cast F G rm a) b = false).
  { apply not_true_is_false. rewrite (cast_lt F G HF HG HI rm a b Na). apply gt_notlt. exact HL. }
  rewrite E1, E2. unfold f_ne. rewrite (f_eq_zero F HF).
  pose proof (mag_le_inf a Na) as HM.
  destruct (Z.eqb_spec (mag_of F a) 0) as [HZ | HZ]; cbn [negb].
  - rewrite fp_sign_eq, (fp_min_subnormal_eq F HF HelF) by assumption.
    destruct (to_sign a b HZ) as (_ & T1). rewrite (T1 HL).
    pose proof (inf_mag_pos F HF).
    destruct (sbit_props F HF true 1 ltac:(lia)) as (P1 & N1 & S1 & M1).
    destruct (adj_dn F HF a _ Na N1) as (A1 & A2).
    { unfold key. rewrite S1, M1, HZ. unfold szval. destruct (sign_of F a); reflexivity. }
    split; [exact P1 | ]. split; [exact A1 | ]. split; [exact A2 | ].
    intros HX HV. apply (fval_zero F HF) in HV; [lia | exact HX].
  - rewrite gt0 by assumption.
    destruct (sign_of F a) eqn:HS; cbn [negb Bool.eqb].
    + pose proof (not_bottom a b HL HS).
      rewrite step_mag by (assumption || lia). rewrite HS.
      destruct (sbit_props F HF true (mag_of F a + 1) ltac:(lia)) as (P1 & N1 & S1 & M1).
      destruct (adj_dn F HF a _ Na N1) as (A1 & A2).
      { unfold key. rewrite S1, M1, HS. unfold szval. lia. }
      split; [exact P1 | ]. split; [exact A1 | ]. split; [exact A2 | ]. intros _ _. rewrite S1, HS. reflexivity.
    + rewrite <- Z.add_opp_r; change (- (1)) with (-1); rewrite step_mag by (assumption || lia). rewrite HS.
      destruct (sbit_props F HF false (mag_of F a + -1) ltac:(lia)) as (P1 & N1 & S1 & M1).
      destruct (adj_dn F HF a _ Na N1) as (A1 & A2).
      { unfold key. rewrite S1, M1, HS. unfold szval. lia. }
      split; [exact P1 | ]. split; [exact A1 | ]. split; [exact A2 | ]. intros _ _. rewrite S1, HS. reflexivity.
Qed.

Lemma next_eq : forall rm a b, is_nan F a = false -> is_nan G b = false -> xeq2 F G a b ->
  let r := cc_nextafter F G rm a b in
  is_pattern F r /\ xeq2 F G r b /\ sign_of F r = sign_of G b.
Proof.
  intros rm a b Na Nb HE. cbv zeta. unfold cc_nextafter.
  rewrite !fp_is_nan_eq, Na, Nb by assumption.
  assert (E1 : f_eq G (f_cast F G rm a) b = true) by (apply (cast_eq F G HF HG HI rm a b Na); exact HE).
  rewrite E1. apply (cast_back F G HF HG rm a b HE).
Qed.

Lemma next_nan : forall rm a b, is_nan F a = true \/ is_nan G b = true -> is_nan F (cc_nextafter F G rm a b) = true.
Proof.
  intros rm a b HN. unfold cc_nextafter. rewrite !fp_is_nan_eq by assumption.
  destruct (is_nan F a) eqn:E; [exact E | ]. destruct HN as [HN | HN]; [discriminate | ]. rewrite HN.
  unfold f_cast. rewrite (decode_of_nan G b HN). apply (qnan_props F HF).
Qed.
End Next.

Section UpDown.
Context (F : fmt) (HF : good_fmt F) (Hel : el F <= 16).
Lemma incl_refl : included F F. Proof. unfold included. lia. Qed.
Lemma nextup_spec : forall rm x, is_pattern F x ->
  (is_nan F x = false -> x <> f_inf F false -> up_adjacent F x (cc_nextup F rm x)) /\
  cc_nextup F rm (f_inf F false) = f_inf F false /\
  (is_nan F x = true -> is_nan F (cc_nextup F rm x) = true).
Proof.
  intros rm x Hx. destruct (f_inf_props F HF false) as (P1 & I1 & S1).
  assert (N1 : is_nan F (f_inf F false) = false).
  { unfold is_nan, is_inf in *. apply Z.eqb_eq in I1. apply Z.ltb_ge. lia. }
  split; [ | split].
  - intros Nx HD. unfold cc_nextup. apply next_up; try assumption; [apply incl_refl | ].
    unfold xlt2. rewrite (decode_of_inf F _ I1), S1.
    destruct (notnan_cases F x Nx) as [H | H].
    + destruct (decode_of_fin F x H) as (m & e & D). rewrite D. reflexivity.
    + rewrite (decode_of_inf F x H). split; [ | reflexivity].
      destruct (sign_of F x) eqn:S; [reflexivity | ]. exfalso. apply HD.
      unfold is_inf in H. apply Z.eqb_eq in H. rewrite (pattern_split F HF x Hx), S, H. reflexivity.
  - unfold cc_nextup, cc_nextafter. rewrite !fp_is_nan_eq, N1 by assumption.
    unfold f_cast. rewrite (decode_of_inf F _ I1), S1.
    unfold f_eq, f_cmp. rewrite N1. cbn [orb]. rewrite Z.compare_refl. reflexivity.
  - intros HN. apply next_nan; try assumption. left. exact HN.
Qed.
Lemma nextdown_spec : forall rm x, is_pattern F x ->
  (is_nan F x = false -> x <> f_inf F true -> dn_adjacent F x (cc_nextdown F rm x)) /\
  cc_nextdown F rm (f_inf F true) = f_inf F true /\
  (is_nan F x = true -> is_nan F (cc_nextdown F rm x) = true).
Proof.
  intros rm x Hx. destruct (f_inf_props F HF true) as (P1 & I1 & S1).
  assert (N1 : is_nan F (f_inf F true) = false).
  { unfold is_nan, is_inf in *. apply Z.eqb_eq in I1. apply Z.ltb_ge. lia. }
  split; [ | split].
  - intros Nx HD. unfold cc_nextdown. apply next_dn; try assumption; [apply incl_refl | ].
    unfold xgt2, xlt2. rewrite (decode_of_inf F _ I1), S1.
    destruct (notnan_cases F x Nx) as [H | H].
    + destruct (decode_of_fin F x H) as (m & e & D). rewrite D. reflexivity.
    + rewrite (decode_of_inf F x H). split; [reflexivity | ].
      destruct (sign_of F x) eqn:S; [ | reflexivity]. exfalso. apply HD.
      unfold is_inf in H. apply Z.eqb_eq in H. rewrite (pattern_split F HF x Hx), S, H. reflexivity.
  - unfold cc_nextdown, cc_nextafter. rewrite !fp_is_nan_eq, N1 by assumption.
    unfold f_cast. rewrite (decode_of_inf F _ I1), S1.
    unfold f_eq, f_cmp. rewrite N1. cbn [orb]. rewrite Z.compare_refl. reflexivity.
  - intros HN. apply next_nan; try assumption. left. exact HN.
Qed.
End UpDown.
