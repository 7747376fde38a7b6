(** * ccm::ext on floating-point numbers: order, clamp, sign, move_towards *)
From Coq Require Import ZArith Lia Bool Reals Lra.
From Flocq Require Import Core Plus_error.
From Verif Require Import MachInt Bits Fmt FloatSpec FmtProofs RoundProofs FOps FOpsProofs ExactOps FPBits FPBitsProofs
  Compare CompareProofs Nearest NearestProofs Basic BasicProofs LerpProofs RemProofs ExtFloatSpec ExtFloat.
Open Scope Z_scope.

Section Ext.
Context (F : fmt) (HF : good_fmt F) (HelF : el F <= 16).
Notation fexp := (FLT_exp (emin F) (prec F)).
Notation big := (bpow radix2 (bias F + 1)).

(** ** The order as an integer comparison *)
Definition key (b : Z) : Z := szval (sign_of F b) (mag_of F b).
Lemma xlt_key : forall a b, is_nan F a = false -> is_nan F b = false -> (xlt F a b <-> key a < key b).
Proof.
  intros a b Na Nb. rewrite <- (f_cmp_lt F HF). unfold f_lt. rewrite (f_cmp_mag F) by auto. fold (key a) (key b).
  destruct (Z.compare_spec (key a) (key b)); split; intros; try discriminate; auto; lia.
Qed.
Lemma xeq_key : forall a b, is_nan F a = false -> is_nan F b = false -> (xeq F a b <-> key a = key b).
Proof.
  intros a b Na Nb. rewrite <- (f_cmp_eq F HF). unfold f_eq. rewrite (f_cmp_mag F) by auto. fold (key a) (key b).
  destruct (Z.compare_spec (key a) (key b)); split; intros; try discriminate; auto; lia.
Qed.
Lemma xle_key : forall a b, is_nan F a = false -> is_nan F b = false -> (xle F a b <-> key a <= key b).
Proof. intros a b Na Nb. unfold xle. rewrite xlt_key, xeq_key by auto. lia. Qed.
Lemma xeq_nan : forall a b, xeq F a b -> is_nan F a = false /\ is_nan F b = false.
Proof.
  intros a b H. destruct (is_nan F a) eqn:Na; [unfold xeq in H; rewrite (decode_nan F a Na) in H; tauto|].
  destruct (is_nan F b) eqn:Nb; [unfold xeq in H; rewrite (decode_nan F b Nb) in H; destruct (decode F a); tauto|]. auto.
Qed.
Lemma xle_nan : forall a b, xle F a b -> is_nan F a = false /\ is_nan F b = false.
Proof. intros a b [H|H]; [apply (xlt_nan F _ _ H)|apply (xeq_nan _ _ H)]. Qed.
Lemma f_le_xle : forall a b, f_le F a b = true <-> xle F a b.
Proof. intros a b. unfold f_le, xle. rewrite orb_true_iff, (f_cmp_lt F HF), (f_cmp_eq F HF). reflexivity. Qed.
Lemma xle_fin : forall a b, is_fin F a = true -> is_fin F b = true -> (xle F a b <-> (fval F a <= fval F b)%R).
Proof.
  intros a b Ha Hb. rewrite <- f_le_xle, (f_le_fin F HF) by auto. destruct (Rle_bool_spec (fval F a) (fval F b)); split; intros; auto; [discriminate|lra].
Qed.
Lemma xlt_fin : forall a b, is_fin F a = true -> is_fin F b = true -> (xlt F a b <-> (fval F a < fval F b)%R).
Proof.
  intros a b Ha Hb. rewrite <- (f_cmp_lt F HF), (f_lt_fin F HF) by auto. destruct (Rlt_bool_spec (fval F a) (fval F b)); split; intros; auto; [discriminate|lra].
Qed.
Lemma xle_trans : forall a b c, xle F a b -> xle F b c -> xle F a c.
Proof.
  intros a b c H1 H2. destruct (xle_nan _ _ H1) as (Na & Nb). destruct (xle_nan _ _ H2) as (_ & Nc).
  apply xle_key in H1, H2; auto. apply xle_key; auto. lia.
Qed.
(** A number between two finite ones is finite. *)
Lemma between_fin : forall a b c, is_fin F a = true -> is_fin F c = true -> xle F a b -> xle F b c -> is_fin F b = true.
Proof.
  intros a b c Ha Hc H1 H2. destruct (xle_nan _ _ H1) as (Na & Nb). destruct (xle_nan _ _ H2) as (_ & Nc).
  apply xle_key in H1, H2; auto. unfold key, is_fin in *. pose proof (mag_range F HF a). pose proof (mag_range F HF b). pose proof (mag_range F HF c).
  unfold szval in *. destruct (sign_of F a), (sign_of F b), (sign_of F c); lia.
Qed.

(** ** Patterns *)
Lemma rounded_not_nan : forall rm v zs b, rounded F rm v zs b -> is_nan F b = false.
Proof.
  intros rm v zs b (P & S & V & M). destruct (Rlt_or_le (Rabs (fround F rm v)) big) as [L|L].
  - destruct (V L) as (Fi & _). apply fin_nan. auto.
  - unfold is_nan. rewrite (M L). unfold overflow_mag, max_mag. destruct rm; destruct (Rlt_bool v 0); lia.
Qed.
Lemma add_pat : forall rm a b, is_pattern F (f_add F rm a b).
Proof.
  intros rm a b. destruct (qnan_props F HF) as (QP & _).
  destruct (class_cases F a) as [Ha|[Ha|Ha]], (class_cases F b) as [Hb|[Hb|Hb]]; try (unfold f_add; rewrite ?(decode_nan F a), ?(decode_nan F b) by auto; destruct (decode F a); auto; fail).
  - apply (f_add_spec F HF rm a b Ha Hb).
  - unfold f_add. rewrite (decode_isinf F b) by auto. destruct (decode_fin F HF a Ha) as (m & e & -> & _). apply (f_inf_props F HF).
  - unfold f_add. rewrite (decode_isinf F a) by auto. destruct (decode_fin F HF b Hb) as (m & e & -> & _). apply (f_inf_props F HF).
  - unfold f_add. rewrite (decode_isinf F a), (decode_isinf F b) by auto. destruct (Bool.eqb _ _); [apply (f_inf_props F HF)|auto].
Qed.
Lemma sub_pat : forall rm a b, is_pattern F (f_sub F rm a b).
Proof. intros. apply add_pat. Qed.
Lemma mul_pat : forall rm a b, is_pattern F (f_mul F rm a b).
Proof.
  intros rm a b. destruct (qnan_props F HF) as (QP & _).
  destruct (class_cases F a) as [Ha|[Ha|Ha]], (class_cases F b) as [Hb|[Hb|Hb]]; try (unfold f_mul; rewrite ?(decode_nan F a), ?(decode_nan F b) by auto; destruct (decode F a); auto; fail).
  - apply (f_mul_spec F HF rm a b Ha Hb).
  - unfold f_mul. rewrite (decode_isinf F b) by auto. destruct (decode_fin F HF a Ha) as (m & e & -> & _). destruct (m =? 0); [auto|apply (f_inf_props F HF)].
  - unfold f_mul. rewrite (decode_isinf F a) by auto. destruct (decode_fin F HF b Hb) as (m & e & -> & _). destruct (m =? 0); [auto|apply (f_inf_props F HF)].
  - unfold f_mul. rewrite (decode_isinf F a), (decode_isinf F b) by auto. apply (f_inf_props F HF).
Qed.
Lemma div_pat : forall rm a b, is_pattern F (f_div F rm a b).
Proof.
  intros rm a b. destruct (qnan_props F HF) as (QP & _).
  destruct (class_cases F a) as [Ha|[Ha|Ha]], (class_cases F b) as [Hb|[Hb|Hb]]; try (unfold f_div; rewrite ?(decode_nan F a), ?(decode_nan F b) by auto; destruct (decode F a); auto; fail).
  - destruct (Req_dec (fval F b) 0) as [Z|NZ]; [|apply (f_div_spec F HF rm a b Ha Hb NZ)].
    unfold f_div. destruct (decode_fin F HF a Ha) as (m & e & -> & _). destruct (decode_fin F HF b Hb) as (n & g & -> & _ & _ & _ & _ & V).
    assert (N0 : n = 0). { rewrite Z in V. pose proof (bpow_gt_0 radix2 g). apply eq_IZR. pose proof (sg_nz (sign_of F b)). symmetry in V. apply Rmult_integral in V. destruct V as [V|V]; [lra|]. apply Rmult_integral in V. lra. }
    rewrite N0. cbn [Z.eqb]. destruct (m =? 0); [auto|apply (f_inf_props F HF)].
  - unfold f_div. rewrite (decode_isinf F b) by auto. destruct (decode_fin F HF a Ha) as (m & e & -> & _). apply (f_zero_props F HF).
  - unfold f_div. rewrite (decode_isinf F a) by auto. destruct (decode_fin F HF b Hb) as (m & e & -> & _). apply (f_inf_props F HF).
  - unfold f_div. rewrite (decode_isinf F a), (decode_isinf F b) by auto. auto.
Qed.

(** ** A rounded result against the numbers of the format *)
Lemma rounded_ge : forall rm v zs b c, rounded F rm v zs b -> is_pattern F c -> is_fin F c = true -> (fval F c <= v)%R -> xle F c b.
Proof.
  intros rm v zs b c R Pc Fc H. pose proof R as (P & _ & V & _).
  assert (L : (fval F c <= fround F rm v)%R) by (apply (fround_ge_gen F HF); auto; apply (fval_format F HF); auto).
  pose proof (fin_bound F HF c Fc) as B. apply Rabs_def2 in B. destruct (Rlt_or_le (fround F rm v) big) as [L2|L2].
  - destruct (V ltac:(apply Rabs_def1; lra)) as (Fb & Vb). apply xle_fin; auto. lra.
  - pose proof (ovf_ge F HF rm v zs b c R L2 Pc Fc) as O. pose proof (rounded_not_nan _ _ _ _ R) as Nb. pose proof (fin_nan F c Fc) as Nc.
    apply xle_key; auto. destruct (Z_le_gt_dec (key c) (key b)); auto. assert (X : xlt F b c) by (apply xlt_key; auto; lia). apply (f_cmp_lt F HF) in X. congruence.
Qed.
Lemma rounded_le : forall rm v zs b c, rounded F rm v zs b -> is_pattern F c -> is_fin F c = true -> (v <= fval F c)%R -> xle F b c.
Proof.
  intros rm v zs b c R Pc Fc H. pose proof R as (P & _ & V & _).
  assert (L : (fround F rm v <= fval F c)%R) by (apply (fround_le_gen F HF); auto; apply (fval_format F HF); auto).
  pose proof (fin_bound F HF c Fc) as B. apply Rabs_def2 in B. destruct (Rlt_or_le (- big) (fround F rm v)) as [L2|L2].
  - destruct (V ltac:(apply Rabs_def1; lra)) as (Fb & Vb). apply xle_fin; auto. lra.
  - pose proof (ovf_le F HF rm v zs b c R L2 Pc Fc) as O. pose proof (rounded_not_nan _ _ _ _ R) as Nb. pose proof (fin_nan F c Fc) as Nc.
    apply xle_key; auto. destruct (Z_le_gt_dec (key b) (key c)); auto. assert (X : xlt F c b) by (apply xlt_key; auto; lia). apply (f_cmp_lt F HF) in X. congruence.
Qed.

(** ** clamp *)
Lemma max_key : forall x y, is_pattern F x -> is_pattern F y -> is_nan F y = false ->
  let r := gen_max F x y in is_pattern F r /\ is_nan F r = false /\ (r = x \/ r = y) /\
  key r = if is_nan F x then key y else Z.max (key x) (key y).
Proof.
  intros x y Px Py Ny r. destruct (max_spec F HF HelF x y Px Py) as (_ & M2 & _ & M4). fold r in M2, M4.
  destruct (is_nan F x) eqn:Nx.
  - rewrite M2 by auto. auto.
  - destruct (M4 eq_refl Ny) as (C & L1 & L2 & _). assert (Nr : is_nan F r = false) by (destruct C; congruence). rewrite xlt_key in L1, L2 by auto.
    split; [destruct C; congruence|]. split; [auto|]. split; [auto|]. destruct C as [C|C]; rewrite C in *; lia.
Qed.
Lemma min_key : forall x y, is_pattern F x -> is_pattern F y -> is_nan F x = false -> is_nan F y = false ->
  let r := gen_min F x y in is_pattern F r /\ is_nan F r = false /\ (r = x \/ r = y) /\ key r = Z.min (key x) (key y).
Proof.
  intros x y Px Py Nx Ny r. destruct (min_spec F HF HelF x y Px Py) as (_ & _ & M4). fold r in M4.
  destruct (M4 Nx Ny) as (C & L1 & L2 & _). assert (Nr : is_nan F r = false) by (destruct C; congruence). rewrite xlt_key in L1, L2 by auto.
  split; [destruct C; congruence|]. split; [auto|]. split; [auto|]. destruct C as [C|C]; rewrite C in *; lia.
Qed.
Lemma clamp_key : forall v lo hi, is_pattern F v -> is_pattern F lo -> is_pattern F hi -> is_nan F lo = false -> is_nan F hi = false ->
  let r := fclamp F v lo hi in is_pattern F r /\ is_nan F r = false /\ (r = v \/ r = lo \/ r = hi) /\
  key r = Z.min (if is_nan F v then key lo else Z.max (key v) (key lo)) (key hi).
Proof.
  intros v lo hi Pv Pl Ph Nl Nh r. destruct (max_key v lo Pv Pl Nl) as (P1 & N1 & C1 & K1).
  destruct (min_key (gen_max F v lo) hi P1 Ph N1 Nh) as (P2 & N2 & C2 & K2). fold (fclamp F v lo hi) in *. fold r in P2, N2, C2, K2.
  split; [auto|]. split; [auto|]. split; [destruct C2 as [->| ->]; tauto|]. rewrite K2, K1. reflexivity.
Qed.
Theorem clamp_spec : forall v lo hi, is_pattern F v -> is_pattern F lo -> is_pattern F hi -> xle F lo hi ->
  let r := fclamp F v lo hi in
  (r = v \/ r = lo \/ r = hi) /\ xle F lo r /\ xle F r hi /\
  (xle F lo v -> xle F v hi -> xeq F r v) /\ (xlt F v lo -> xeq F r lo) /\ (xlt F hi v -> xeq F r hi) /\ (is_nan F v = true -> xeq F r lo) /\
  xeq F (fclamp F r lo hi) r.
Proof.
  intros v lo hi Pv Pl Ph LH r. destruct (xle_nan _ _ LH) as (Nl & Nh). apply xle_key in LH; auto.
  destruct (clamp_key v lo hi Pv Pl Ph Nl Nh) as (P1 & N1 & C1 & K1). fold r in P1, N1, C1, K1.
  destruct (clamp_key r lo hi P1 Pl Ph Nl Nh) as (P2 & N2 & C2 & K2). rewrite N1 in K2.
  split; [auto|]. split; [apply xle_key; auto; destruct (is_nan F v); lia|]. split; [apply xle_key; auto; destruct (is_nan F v); lia|].
  split. { intros A B. destruct (xle_nan _ _ A) as (_ & Nv). rewrite Nv in K1. apply xle_key in A, B; auto. apply xeq_key; auto; lia. }
  split. { intros A. destruct (xlt_nan F _ _ A) as (Nv & _). rewrite Nv in K1. apply xlt_key in A; auto. apply xeq_key; auto; lia. }
  split. { intros A. destruct (xlt_nan F _ _ A) as (_ & Nv). rewrite Nv in K1. apply xlt_key in A; auto. apply xeq_key; auto; lia. }
  split. { intros A. rewrite A in K1. apply xeq_key; auto; lia. }
  apply xeq_key; auto. destruct (is_nan F v); lia.
Qed.
Lemma clamp_mono : forall v w lo hi, is_pattern F v -> is_pattern F w -> is_pattern F lo -> is_pattern F hi -> is_nan F lo = false -> is_nan F hi = false ->
  xle F v w -> xle F (fclamp F v lo hi) (fclamp F w lo hi).
Proof.
  intros v w lo hi Pv Pw Pl Ph Nl Nh H. destruct (xle_nan _ _ H) as (Nv & Nw). apply xle_key in H; auto.
  destruct (clamp_key v lo hi Pv Pl Ph Nl Nh) as (P1 & N1 & C1 & K1). destruct (clamp_key w lo hi Pw Pl Ph Nl Nh) as (P2 & N2 & C2 & K2).
  apply xle_key; auto. rewrite Nv in K1. rewrite Nw in K2. lia.
Qed.

(** Zero and one. *)
Lemma zero_r : is_real F (f_zero F false) 0.
Proof. destruct (f_zero_props F HF false) as (A & B & _ & _ & C). split; auto. Qed.
Lemma one_r : is_real F (f_one F false) 1.
Proof. destruct (f_one_props F HF false) as (A & B & _ & C & _). split; auto. Qed.
Lemma zero_one : xle F (f_zero F false) (f_one F false).
Proof. destruct zero_r as (_ & A & B). destruct one_r as (_ & C & D). apply xle_fin; auto. lra. Qed.
(** The result of saturate, with the value of a finite argument. *)
Theorem saturate_spec : forall v, is_pattern F v -> let r := saturate F v in
  is_real F r (fval F r) /\ (0 <= fval F r <= 1)%R /\
  (is_fin F v = true -> fval F r = Rmin (Rmax (fval F v) 0) 1) /\
  (is_nan F v = true -> fval F r = 0%R) /\ (is_inf F v = true -> fval F r = if sign_of F v then 0%R else 1%R).
Proof.
  intros v Pv r. pose proof zero_r as (Pz & Fz & Vz). pose proof one_r as (Po & Fo & Vo).
  destruct (clamp_spec v _ _ Pv Pz Po zero_one) as (C & L1 & L2 & I1 & I2 & I3 & I4 & _). fold (saturate F v) in *. fold r in C, L1, L2, I1, I2, I3, I4.
  assert (Fr : is_fin F r = true) by (eapply between_fin; [exact Fz|exact Fo|exact L1|exact L2]).
  assert (Pr : is_pattern F r) by (destruct C as [->|[->| ->]]; auto).
  assert (EQ : forall c, is_fin F c = true -> xeq F r c -> fval F r = fval F c).
  { intros c Fc H. apply (f_cmp_eq F HF) in H. rewrite (f_eq_fin F HF) in H by auto. destruct (Req_bool_spec (fval F r) (fval F c)); [auto|discriminate]. }
  split; [split; auto|]. split. { apply xle_fin in L1, L2; auto. lra. }
  split. { intros Fv. rewrite !xlt_fin, !xle_fin in * by auto. rewrite Vz, Vo in *. destruct (Rlt_or_le (fval F v) 0) as [A|A].
    - rewrite (EQ _ Fz (I2 A)), Vz, Rmax_right, Rmin_left; lra.
    - rewrite Rmax_left by lra. destruct (Rlt_or_le 1 (fval F v)) as [B|B].
      + rewrite (EQ _ Fo (I3 B)), Vo, Rmin_right; lra.
      + rewrite (EQ _ Fv (I1 A B)), Rmin_left; lra. }
  split. { intros Nv. rewrite (EQ _ Fz (I4 Nv)). auto. }
  intros Iv. pose proof (decode_isinf F v Iv) as D. destruct (decode_fin F HF _ Fz) as (m0 & e0 & D0 & _). destruct (decode_fin F HF _ Fo) as (m1 & e1 & D1 & _).
  destruct (sign_of F v) eqn:S.
  - rewrite (EQ _ Fz); auto. apply I2. unfold xlt. rewrite D, D0. auto.
  - rewrite (EQ _ Fo); auto. apply I3. unfold xlt. rewrite D, D1. auto.
Qed.

(** ** sign, step, chgsign *)
Lemma ofz_r : forall rm z, Z.abs z <= 2 ^ prec F -> is_real F (f_of_Z F rm z) (IZR z).
Proof.
  intros rm z Hz. pose proof (round_int_spec F HF rm false z 0) as R. cbn [bpow] in R. rewrite Rmult_1_r in R.
  destruct (rounded_repr F rm _ _ _ (format_int F HF z Hz) (int_bound F HF z Hz) R) as (A & B & C & _). split; auto.
Qed.
Lemma prec_ge : 4 <= 2 ^ prec F.
Proof. pose proof (gf_fl F HF). change 4 with (2 ^ 2). apply pow2_le. unfold prec. lia. Qed.
Theorem fsign_spec : forall rm v, is_pattern F v -> is_real F (fsign F rm v)
  (if is_nan F v || (mag_of F v =? 0) then 0 else if sign_of F v then -1 else 1)%R.
Proof.
  intros rm v Pv. unfold fsign. pose proof prec_ge. rewrite <- (f_gt_lt F).
  assert (E : b2z (f_gt F v (f_zero F false)) - b2z (f_lt F v (f_zero F false)) = if is_nan F v || (mag_of F v =? 0) then 0 else if sign_of F v then -1 else 1).
  { destruct (f_zero_props F HF false) as (P0 & F0 & M0 & S0 & _). destruct (is_nan F v) eqn:Nv; cbn [orb].
    - unfold f_gt, f_lt, f_cmp. rewrite Nv. reflexivity.
    - unfold f_gt, f_lt. rewrite (f_cmp_mag F) by (auto; apply fin_nan; auto). rewrite M0, S0. pose proof (mag_range F HF v). unfold szval.
      destruct (Z.eqb_spec (mag_of F v) 0) as [Z|Z]; [rewrite Z; destruct (sign_of F v); reflexivity|].
      destruct (sign_of F v); match goal with |- context [?a ?= ?b] => destruct (Z.compare_spec a b) end; cbn; lia. }
  rewrite E. destruct (is_nan F v || (mag_of F v =? 0)); [apply ofz_r; lia|]. destruct (sign_of F v); apply ofz_r; lia.
Qed.
Theorem fstep_spec : forall e v, is_pattern F e -> is_pattern F v ->
  (xlt F v e -> is_real F (fstep F e v) 0) /\ (~ xlt F v e -> is_real F (fstep F e v) 1).
Proof.
  intros e v Pe Pv. unfold fstep. rewrite <- (f_cmp_lt F HF). destruct (f_lt F v e); split; intros; try congruence; [apply zero_r|apply one_r].
Qed.
Theorem chgsign_spec : forall x y, is_pattern F x -> is_pattern F y -> let r := chgsign F x y in
  is_pattern F r /\ sign_of F r = sign_of F y /\ (is_nan F x = false -> mag_of F r = mag_of F x) /\ (is_nan F x = true -> is_nan F r = true).
Proof.
  intros x y Px Py r. unfold r, chgsign. fold (fp_sign F y). rewrite (fp_sign_eq F HF) by auto. rewrite (abs_eq F HF HelF) by auto.
  destruct (qnan_props F HF) as (QP & QN & QS). destruct (fabs_pat F HF x Px) as (AP & AS & AM).
  assert (G : forall m, is_pattern F m -> sign_of F m = false -> is_pattern F (if sign_of F y then f_neg F m else m) /\ sign_of F (if sign_of F y then f_neg F m else m) = sign_of F y /\ mag_of F (if sign_of F y then f_neg F m else m) = mag_of F m).
  { intros m Pm Sm. destruct (sign_of F y); [|auto]. destruct (f_neg_props F HF m Pm) as (A & B & C & _). rewrite B, Sm. auto. }
  destruct (is_nan F x) eqn:Nx.
  - destruct (G _ QP QS) as (A & B & C). split; [auto|]. split; [auto|]. split; [discriminate|]. intros _. unfold is_nan in *. rewrite C. auto.
  - destruct (G _ AP AS) as (A & B & C). split; [auto|]. split; [auto|]. split; [|discriminate]. intros _. congruence.
Qed.

(** ** move_towards, approximately *)
(** |delta| <= d is decided as |v| <= d by the real numbers when v <= d... *)
Lemma abs_le : forall rm v zs b d, rounded F rm v zs b -> is_pattern F d -> is_fin F d = true -> (0 <= fval F d)%R ->
  ((Rabs v <= fval F d)%R -> f_le F (cc_abs F b) d = true) /\
  (f_le F (cc_abs F b) d = true -> is_fin F b = true /\ (Rabs (fval F b) <= fval F d)%R) /\
  (f_le F (cc_abs F b) d = false -> (fval F d < Rabs v)%R /\ f_gt F b (f_zero F false) = Rlt_bool 0 v).
Proof.
  intros rm v zs b d R Pd Fd D0. pose proof R as (P & S & V & M). pose proof (rounded_not_nan _ _ _ _ R) as Nb. pose proof (fin_nan F d Fd) as Nd.
  assert (EA : cc_abs F b = mag_of F b) by (rewrite (abs_eq F HF HelF), Nb by auto; reflexivity). rewrite EA.
  destruct (fabs_pat F HF b P) as (AP & AS & AM).
  destruct (f_neg_props F HF d Pd) as (PN & SN & MN & FN & VN). rewrite Fd in FN.
  assert (I1 : (Rabs v <= fval F d)%R -> f_le F (mag_of F b) d = true).
  { intros H. assert (v <= fval F d /\ - fval F d <= v)%R as (H1 & H2) by (unfold Rabs in H; destruct (Rcase_abs v); lra).
    pose proof (rounded_le _ _ _ _ d R Pd Fd H1) as L1. pose proof (rounded_ge _ _ _ _ (f_neg F d) R PN FN ltac:(lra)) as L2.
    pose proof (between_fin _ _ _ FN Fd L2 L1) as Fb. destruct (abs_fin F HF HelF b P Fb) as (_ & A2 & A3).
    apply f_le_xle. apply xle_fin; auto. rewrite A3. apply xle_fin in L1, L2; auto. apply Rabs_le. lra. }
  split; [auto|]. split.
  - intros H. apply f_le_xle in H. assert (Fb : is_fin F b = true).
    { destruct (xle_nan _ _ H) as (NA & _). apply xle_key in H; auto. unfold key in H. rewrite AS, AM in H. unfold is_fin in *. unfold szval in H.
      pose proof (mag_range F HF d). destruct (sign_of F d); lia. }
    split; auto. destruct (abs_fin F HF HelF b P Fb) as (_ & A2 & A3). apply xle_fin in H; auto. lra.
  - intros H. assert (HV : (fval F d < Rabs v)%R) by (apply Rnot_le_lt; intros HN; specialize (I1 HN); congruence). split; auto.
    assert (V0 : v <> 0%R) by (intros E; rewrite E, Rabs_R0 in HV; lra).
    destruct (f_zero_props F HF false) as (P0 & F0 & M0 & S0 & _).
    assert (MB : mag_of F b <> 0).
    { intros E. rewrite E in H. destruct zero_r as (_ & _ & Vz). rewrite (f_le_fin F HF) in H; auto. change (f_zero F false) with 0 in *. rewrite Vz in H. destruct (Rle_bool_spec 0 (fval F d)); [discriminate|lra]. }
    unfold f_gt. rewrite (f_cmp_mag F) by (auto; apply fin_nan; auto). rewrite M0, S0, S. rewrite Req_bool_false by auto.
    pose proof (mag_range F HF b). unfold szval. destruct (Rlt_bool_spec v 0); match goal with |- context [?a ?= ?b] => destruct (Z.compare_spec a b); try lia end;
    [rewrite Rlt_bool_false by lra|rewrite Rlt_bool_true by lra]; reflexivity.
Qed.

Theorem move_towards_spec : forall rm c t d, is_pattern F c -> is_pattern F t -> is_pattern F d -> is_fin F c = true -> is_fin F t = true -> is_fin F d = true ->
  (0 <= fval F d)%R -> let r := move_towards F rm c t d in
  is_pattern F r /\ is_fin F r = true /\ (Rmin (fval F c) (fval F t) <= fval F r <= Rmax (fval F c) (fval F t))%R /\
  ((Rabs (fval F t - fval F c) <= fval F d)%R -> r = t) /\
  (r <> t -> fval F r = fround F rm (if Rlt_bool (fval F c) (fval F t) then fval F c + fval F d else fval F c - fval F d)).
Proof.
  intros rm c t d Pc Pt Pd Fc Ft Fd D0 r. pose proof (f_sub_spec F HF rm t c Pc Ft Fc) as R.
  destruct (abs_le _ _ _ _ d R Pd Fd D0) as (A1 & A2 & A3). unfold r, move_towards. 
  set (m := Rmin (fval F c) (fval F t)). set (M := Rmax (fval F c) (fval F t)).
  assert (BT : (m <= fval F t <= M)%R) by (split; [apply Rmin_r|apply Rmax_r]).
  destruct (f_le F (cc_abs F (f_sub F rm t c)) d) eqn:E.
  { split; [auto|]. split; [auto|]. split; [auto|]. split; [auto|]. congruence. }
  destruct (A3 eq_refl) as (HV & G). rewrite G.
  assert (FM : generic_format radix2 fexp m /\ generic_format radix2 fexp M).
  { unfold m, M, Rmin, Rmax. destruct (Rle_dec _ _); split; apply (fval_format F HF); auto. }
  pose proof (fin_bound F HF c Fc) as Bc. pose proof (fin_bound F HF t Ft) as Bt. apply Rabs_def2 in Bc, Bt.
  assert (BM : (- big < m)%R /\ (M < big)%R) by (unfold m, M, Rmin, Rmax; destruct (Rle_dec _ _); lra).
  destruct (f_neg_props F HF d Pd) as (PN & SN & MN & FN & VN). rewrite Fd in FN.
  assert (RR : rounded F rm (if Rlt_bool (fval F c) (fval F t) then fval F c + fval F d else fval F c - fval F d)
     (if Bool.eqb (sign_of F c) (sign_of F (if Rlt_bool 0 (fval F t - fval F c) then d else f_neg F d)) then sign_of F c else is_rdn rm)
     (f_add F rm c (if Rlt_bool 0 (fval F t - fval F c) then d else f_neg F d))).
  { destruct (Rlt_bool_spec (fval F c) (fval F t)) as [L|L].
    - rewrite Rlt_bool_true by lra. apply (f_add_spec F HF); auto.
    - rewrite Rlt_bool_false by lra. pose proof (f_add_spec F HF rm c (f_neg F d) Fc FN) as X. rewrite VN in X. exact X. }
  assert (BV : (m <= (if Rlt_bool (fval F c) (fval F t) then fval F c + fval F d else fval F c - fval F d) <= M)%R).
  { unfold m, M. destruct (Rlt_bool_spec (fval F c) (fval F t)) as [L|L].
    - rewrite Rabs_pos_eq in HV by lra. rewrite Rmin_left, Rmax_right; lra.
    - rewrite Rabs_left1 in HV by lra. rewrite Rmin_right, Rmax_left; lra. }
  destruct (rounded_between F HF _ _ _ _ m M (proj1 FM) (proj2 FM) (proj1 BM) (proj2 BM) BV RR) as (Q1 & Q2 & Q3 & Q4).
  split; [auto|]. split; [auto|]. split; [lra|]. split; [intros; lra|]. intros _. exact Q3.
Qed.

Lemma fround_diff_0 : forall rm a b, is_fin F a = true -> is_fin F b = true -> fround F rm (fval F a - fval F b) = 0%R -> fval F a = fval F b.
Proof.
  intros rm a b Ha Hb H. pose proof (VE F HF) as HVE. pose proof (VR rm) as HVR. destruct (Req_dec (fval F a) (fval F b)) as [E|E]; auto. exfalso.
  refine (round_plus_neq_0 radix2 fexp (rnd rm) (fval F a) (- fval F b) (fval_format F HF a) (generic_format_opp _ _ _ (fval_format F HF b)) _ H). lra.
Qed.
Theorem approximately_spec : forall rm l r e, is_pattern F l -> is_pattern F r -> is_pattern F e -> is_fin F l = true -> is_fin F r = true -> is_fin F e = true ->
  (0 <= fval F e)%R ->
  ((Rabs (fval F l - fval F r) <= fval F e)%R -> approximately F rm l r e = true) /\
  (approximately F rm l r e = true -> (Rabs (fround F rm (fval F l - fval F r)) < big)%R -> (Rabs (fround F rm (fval F l - fval F r)) <= fval F e)%R) /\
  (fval F e = 0%R -> (approximately F rm l r e = true <-> fval F l = fval F r)).
Proof.
  intros rm l r e Pl Pr Pe Fl Fr Fe E0. pose proof (f_sub_spec F HF rm l r Pr Fl Fr) as R.
  destruct (abs_le _ _ _ _ e R Pe Fe E0) as (A1 & A2 & A3). split; [exact A1|]. pose proof R as (P & S & V & M). split.
  - intros H L. destruct (A2 H) as (Fb & Lb). destruct (V L) as (_ & E). rewrite <- E. auto.
  - intros Z. split.
    + intros H. destruct (A2 H) as (Fb & Lb). rewrite Z in Lb.
      assert (Zb : fval F (f_sub F rm l r) = 0%R) by (destruct (Req_dec (fval F (f_sub F rm l r)) 0) as [X|X]; auto; apply Rabs_pos_lt in X; lra).
      destruct (Rlt_or_le (Rabs (fround F rm (fval F l - fval F r))) big) as [L|L].
      * destruct (V L) as (_ & E). apply (fround_diff_0 rm); auto. congruence.
      * specialize (M L). apply (fval_zero F HF) in Zb; auto. rewrite Zb in M. pose proof (inf_mag_ge F HF) as IG. pose proof (fl_pos F HF). unfold overflow_mag, max_mag in M. destruct rm; try (match type of M with context [Rlt_bool ?a ?b] => destruct (Rlt_bool a b) end); lia.
    + intros H. apply A1. rewrite H, Rminus_diag_eq, Rabs_R0 by auto. lra.
Qed.
Theorem approximately_special : forall rm l r e, is_pattern F l -> is_pattern F r ->
  is_nan F l = true \/ is_nan F r = true \/ is_nan F e = true \/ (is_inf F l = true /\ is_inf F r = true /\ sign_of F l = sign_of F r) ->
  approximately F rm l r e = false.
Proof.
  intros rm l r e Pl Pr H. unfold approximately. destruct (qnan_props F HF) as (QP & QN & _).
  assert (NQ : forall b, is_nan F b = true -> f_le F (cc_abs F b) e = false).
  { intros b Hb. unfold cc_abs. rewrite (fp_is_nan_eq F HF HelF), Hb. unfold f_le, f_lt, f_eq, f_cmp. rewrite QN. reflexivity. }
  destruct (f_neg_props F HF r Pr) as (PN & SN & MN & _ & _).
  assert (NN : is_nan F (f_neg F r) = is_nan F r) by (unfold is_nan; rewrite MN; auto).
  destruct H as [H|[H|[H|(H1 & H2 & H3)]]].
  - apply NQ. unfold f_sub, f_add. rewrite (decode_nan F l H). auto.
  - apply NQ. unfold f_sub, f_add. rewrite (decode_nan F (f_neg F r)) by congruence. destruct (decode F l); auto.
  - unfold f_le, f_lt, f_eq, f_cmp. rewrite H, orb_true_r. reflexivity.
  - apply NQ. assert (IN : is_inf F (f_neg F r) = true) by (unfold is_inf in *; rewrite MN; auto).
    unfold f_sub, f_add. rewrite (decode_isinf F l H1), (decode_isinf F _ IN), SN, H3. destruct (sign_of F r); auto.
Qed.
End Ext.
