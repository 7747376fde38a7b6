(** * ccm::ext on floating-point numbers: normalize, mix, unlerp, remap, smoothstep *)
From Coq Require Import ZArith Lia Bool Reals Lra.
From Flocq Require Import Core Plus_error Mult_error.
From Verif Require Import MachInt Bits Fmt FloatSpec FmtProofs RoundProofs FOps FOpsProofs ExactOps FPBits FPBitsProofs
  Compare CompareProofs Nearest NearestProofs Basic BasicProofs LerpProofs RemProofs ExtFloatSpec ExtFloat ExtFloatProofs.
Open Scope Z_scope.

Section Interp.
Context (F : fmt) (HF : good_fmt F) (HelF : el F <= 16).
Notation fexp := (FLT_exp (emin F) (prec F)).
Notation big := (bpow radix2 (bias F + 1)).
Notation zero := (f_zero F false).
Notation one := (f_one F false).

(** Operations on finite numbers. *)
Lemma add_r : forall rm a b A B, is_real F a A -> is_real F b B -> (Rabs (fround F rm (A + B)) < big)%R -> is_real F (f_add F rm a b) (fround F rm (A + B)).
Proof. intros rm a b A B (Pa & Fa & <-) (Pb & Fb & <-) H. destruct (f_add_spec F HF rm a b Fa Fb) as (P & _ & V & _). destruct (V H). split; auto. Qed.
Lemma sub_r : forall rm a b A B, is_real F a A -> is_real F b B -> (Rabs (fround F rm (A - B)) < big)%R -> is_real F (f_sub F rm a b) (fround F rm (A - B)).
Proof. intros rm a b A B (Pa & Fa & <-) (Pb & Fb & <-) H. destruct (f_sub_spec F HF rm a b Pb Fa Fb) as (P & _ & V & _). destruct (V H). split; auto. Qed.
Lemma mul_r : forall rm a b A B, is_real F a A -> is_real F b B -> (Rabs (fround F rm (A * B)) < big)%R -> is_real F (f_mul F rm a b) (fround F rm (A * B)).
Proof. intros rm a b A B (Pa & Fa & <-) (Pb & Fb & <-) H. destruct (f_mul_spec F HF rm a b Fa Fb) as (P & _ & V & _). destruct (V H). split; auto. Qed.
Lemma div_r : forall rm a b A B, is_real F a A -> is_real F b B -> B <> 0%R -> (Rabs (fround F rm (A / B)) < big)%R -> is_real F (f_div F rm a b) (fround F rm (A / B)).
Proof. intros rm a b A B (Pa & Fa & <-) (Pb & Fb & <-) N H. destruct (f_div_spec F HF rm a b Fa Fb N) as (P & _ & V & _). destruct (V H). split; auto. Qed.
Lemma real_fmt : forall a A, is_real F a A -> generic_format radix2 fexp A.
Proof. intros a A (_ & _ & <-). apply (fval_format F HF). Qed.
Lemma real_bound : forall a A, is_real F a A -> (Rabs A < big)%R.
Proof. intros a A (_ & Fa & <-). apply (fin_bound F HF); auto. Qed.
Lemma big_pos : (0 < big)%R. Proof. apply bpow_gt_0. Qed.
(** Exact operations. *)
Lemma add_x : forall rm a b A B C, is_real F a A -> is_real F b B -> (A + B = C)%R -> generic_format radix2 fexp C -> (Rabs C < big)%R -> is_real F (f_add F rm a b) C.
Proof. intros rm a b A B C Ha Hb <- G H. pose proof (add_r rm a b A B Ha Hb) as X. rewrite (fround_exact F rm _ G) in X. auto. Qed.
Lemma sub_x : forall rm a b A B C, is_real F a A -> is_real F b B -> (A - B = C)%R -> generic_format radix2 fexp C -> (Rabs C < big)%R -> is_real F (f_sub F rm a b) C.
Proof. intros rm a b A B C Ha Hb <- G H. pose proof (sub_r rm a b A B Ha Hb) as X. rewrite (fround_exact F rm _ G) in X. auto. Qed.
Lemma mul_x : forall rm a b A B C, is_real F a A -> is_real F b B -> (A * B = C)%R -> generic_format radix2 fexp C -> (Rabs C < big)%R -> is_real F (f_mul F rm a b) C.
Proof. intros rm a b A B C Ha Hb <- G H. pose proof (mul_r rm a b A B Ha Hb) as X. rewrite (fround_exact F rm _ G) in X. auto. Qed.
Lemma div_x : forall rm a b A B C, is_real F a A -> is_real F b B -> B <> 0%R -> (A / B = C)%R -> generic_format radix2 fexp C -> (Rabs C < big)%R -> is_real F (f_div F rm a b) C.
Proof. intros rm a b A B C Ha Hb N <- G H. pose proof (div_r rm a b A B Ha Hb N) as X. rewrite (fround_exact F rm _ G) in X. auto. Qed.
Lemma fmt_0 : generic_format radix2 fexp 0. Proof. apply generic_format_0. Qed.
Lemma abs_0 : (Rabs 0 < big)%R. Proof. rewrite Rabs_R0. apply big_pos. Qed.
Lemma abs_1 : (Rabs 1 < big)%R. Proof. rewrite Rabs_R1. apply (one_big F HF). Qed.
Lemma sub_nz : forall rm a b A B, is_real F a A -> is_real F b B -> A <> B -> fround F rm (A - B) <> 0%R.
Proof. intros rm a b A B (Pa & Fa & <-) (Pb & Fb & <-) H E. apply H. apply (fround_diff_0 F HF rm); auto. Qed.
Lemma sub_pos : forall rm a b A B, is_real F a A -> is_real F b B -> (B < A)%R -> (0 < fround F rm (A - B))%R.
Proof.
  intros rm a b A B Ha Hb H. pose proof (sub_nz rm a b A B Ha Hb ltac:(lra)).
  assert (0 <= fround F rm (A - B))%R by (apply (fround_ge_gen F HF); [apply fmt_0|lra]). lra.
Qed.

(** ** unlerp *)
Theorem unlerp_ends : forall rm s e v S E V, is_real F s S -> is_real F e E -> is_real F v V -> S <> E -> (Rabs (fround F rm (E - S)) < big)%R ->
  (V = S -> is_real F (unlerp F rm s e v) 0) /\ (V = E -> is_real F (unlerp F rm s e v) 1).
Proof.
  intros rm s e v S E V Hs He Hv N H. pose proof (sub_r rm e s E S He Hs H) as L. pose proof (sub_nz rm e s E S He Hs ltac:(auto)) as LN. unfold unlerp. split; intros ->.
  - eapply div_x; [|exact L|exact LN| |apply fmt_0|apply abs_0].
    + eapply sub_x; [exact Hv|exact Hs|reflexivity| |]; rewrite Rminus_diag_eq by auto; [apply fmt_0|apply abs_0].
    + rewrite Rminus_diag_eq by auto. unfold Rdiv. ring.
  - eapply div_x; [|exact L|exact LN| |apply (one_fmt F HF)|apply abs_1].
    + apply (sub_r rm v s E S Hv Hs H).
    + field. auto.
Qed.
Theorem safe_unlerp_spec : forall rm s e v S E V, is_real F s S -> is_real F e E -> is_real F v V -> (Rabs (fround F rm (E - S)) < big)%R ->
  (S = E -> is_real F (safe_unlerp F rm s e v) 0) /\ (S <> E -> safe_unlerp F rm s e v = unlerp F rm s e v).
Proof.
  intros rm s e v S E V Hs He Hv H. pose proof (sub_r rm e s E S He Hs H) as L. unfold safe_unlerp, unlerp. destruct (zero_r F HF) as (Pz & Fz & Vz). destruct L as (LP & LF & LV).
  split; intros HE.
  - rewrite (f_eq_fin F HF), LV, Vz by auto. rewrite HE, Rminus_diag_eq, (fround_0 F), Req_bool_true by auto. split; auto.
  - rewrite (f_eq_fin F HF), LV, Vz by auto. rewrite Req_bool_false; [auto|]. apply (sub_nz rm e s); auto.
Qed.

(** ** mix *)
Theorem mix_ends : forall rm x y a X Y A, is_real F x X -> is_real F y Y -> is_real F a A ->
  (A = 0%R -> is_real F (mix F rm x y a) X) /\ (A = 1%R -> is_real F (mix F rm x y a) Y).
Proof.
  intros rm x y a X Y A Hx Hy Ha. pose proof (real_fmt _ _ Hx) as GX. pose proof (real_fmt _ _ Hy) as GY. pose proof (real_bound _ _ Hx) as BX. pose proof (real_bound _ _ Hy) as BY.
  pose proof (one_r F HF) as O. unfold mix. split; intros ->.
  - eapply add_x with (A := X) (B := 0%R); [| |ring|auto|auto].
    + eapply mul_x with (B := 1%R); [exact Hx| |ring|auto|auto]. eapply sub_x; [exact O|exact Ha|ring|apply (one_fmt F HF)|apply abs_1].
    + eapply mul_x; [exact Hy|exact Ha|ring|apply fmt_0|apply abs_0].
  - eapply add_x with (A := 0%R) (B := Y); [| |ring|auto|auto].
    + eapply mul_x with (B := 0%R); [exact Hx| |ring|apply fmt_0|apply abs_0]. eapply sub_x; [exact O|exact Ha|ring|apply fmt_0|apply abs_0].
    + eapply mul_x; [exact Hy|exact Ha|ring|auto|auto].
Qed.

(** ** remap *)
Theorem remap_start : forall rm ss se ds de x SS SE DS DE X, is_real F ss SS -> is_real F se SE -> is_real F ds DS -> is_real F de DE -> is_real F x X ->
  SS <> SE -> (Rabs (fround F rm (SE - SS)) < big)%R -> (Rabs (fround F rm (DE - DS)) < big)%R -> X = SS ->
  is_real F (remap F rm ss se ds de x) DS /\ is_real F (safe_remap F rm ss se ds de x) DS.
Proof.
  intros rm ss se ds de x SS SE DS DE X Hss Hse Hds Hde Hx N H1 H2 ->.
  pose proof (sub_r rm se ss SE SS Hse Hss H1) as L. pose proof (sub_nz rm se ss SE SS Hse Hss ltac:(auto)) as LN. pose proof (sub_r rm de ds DE DS Hde Hds H2) as D.
  assert (R : is_real F (remap F rm ss se ds de x) DS).
  { unfold remap. eapply add_x with (B := 0%R); [exact Hds| |ring|apply (real_fmt _ _ Hds)|apply (real_bound _ _ Hds)].
    eapply div_x with (A := 0%R); [|exact L|exact LN|unfold Rdiv; ring|apply fmt_0|apply abs_0].
    eapply mul_x with (A := 0%R); [|exact D|ring|apply fmt_0|apply abs_0].
    eapply sub_x; [exact Hx|exact Hss|ring|apply fmt_0|apply abs_0]. }
  split; [auto|]. unfold safe_remap. destruct (zero_r F HF) as (Pz & Fz & Vz). destruct L as (LP & LF & LV).
  rewrite (f_eq_fin F HF), LV, Vz, Req_bool_false by auto. exact R.
Qed.
Theorem safe_remap_degenerate : forall rm ss se ds de x SS SE, is_real F ss SS -> is_real F se SE -> SS = SE -> safe_remap F rm ss se ds de x = ds.
Proof.
  intros rm ss se ds de x SS SE Hs He <-. unfold safe_remap. destruct (zero_r F HF) as (Pz & Fz & Vz).
  assert (L : is_real F (f_sub F rm se ss) 0) by (eapply sub_x; [exact He|exact Hs|ring|apply fmt_0|apply abs_0]). destruct L as (LP & LF & LV).
  rewrite (f_eq_fin F HF), LV, Vz, Req_bool_true by auto. reflexivity.
Qed.

(** ** normalize *)
Theorem normalize_range : forall rm v mn mx, let r := normalize F rm v mn mx in let s := safe_normalize F rm v mn mx in
  is_real F r (fval F r) /\ (0 <= fval F r <= 1)%R /\ is_real F s (fval F s) /\ (0 <= fval F s <= 1)%R.
Proof.
  intros rm v mn mx r s.
  assert (G : forall b, is_pattern F b -> is_real F (saturate F b) (fval F (saturate F b)) /\ (0 <= fval F (saturate F b) <= 1)%R).
  { intros b Pb. destruct (saturate_spec F HF HelF b Pb) as (A & B & _). auto. }
  assert (R : r = saturate F (f_div F rm (f_sub F rm v mn) (f_sub F rm mx mn))) by reflexivity.
  destruct (G _ (div_pat F HF rm (f_sub F rm v mn) (f_sub F rm mx mn))) as (A & B). rewrite <- R in A, B. split; [auto|]. split; [auto|].
  unfold s, safe_normalize. cbv zeta. fold (saturate F (f_div F rm (f_sub F rm v mn) (f_sub F rm mx mn))). rewrite <- R.
  destruct (f_eq F _ _); [|auto]. destruct (zero_r F HF) as (Pz & Fz & Vz). split; [split; auto|]. lra.
Qed.
(** Monotonic rounding of extended reals. *)
Lemma rounded_mono : forall rm v1 v2 z1 z2 b1 b2, rounded F rm v1 z1 b1 -> rounded F rm v2 z2 b2 -> (v1 <= v2)%R -> xle F b1 b2.
Proof.
  intros rm v1 v2 z1 z2 b1 b2 R1 R2 H. pose proof R1 as (P1 & S1 & V1 & M1). pose proof R2 as (P2 & S2 & V2 & M2). pose proof big_pos as BP.
  pose proof (fround_le F HF rm _ _ H) as LE. pose proof (rounded_not_nan F _ _ _ _ R1) as N1. pose proof (rounded_not_nan F _ _ _ _ R2) as N2.
  assert (NEG : forall v, (fround F rm v <= - big)%R -> (v < 0)%R).
  { intros v L. apply Rnot_le_lt. intros HN. pose proof (fround_le F HF rm _ _ HN) as H2. rewrite (fround_0 F) in H2. lra. }
  assert (POS : forall v, (big <= fround F rm v)%R -> (0 < v)%R).
  { intros v L. apply Rnot_le_lt. intros HN. pose proof (fround_le F HF rm _ _ HN) as H2. rewrite (fround_0 F) in H2. lra. }
  assert (NL : f_lt F b2 b1 = false -> xle F b1 b2).
  { intros L. apply (xle_key F HF); auto. destruct (Z_le_gt_dec (key F b1) (key F b2)); auto. assert (X : xlt F b2 b1) by (apply (xlt_key F HF); auto; lia). apply (f_cmp_lt F HF) in X. congruence. }
  destruct (Rlt_or_le (Rabs (fround F rm v1)) big) as [L1|L1].
  - destruct (V1 L1) as (F1 & E1). destruct (Rlt_or_le (Rabs (fround F rm v2)) big) as [L2|L2].
    + destruct (V2 L2) as (F2 & E2). apply (xle_fin F HF); auto. lra.
    + apply NL. apply Rabs_def2 in L1. apply (ovf_ge F HF rm v2 z2 b2 b1); auto. unfold Rabs in L2. destruct (Rcase_abs _); lra.
  - destruct (Rlt_or_le (Rabs (fround F rm v2)) big) as [L2|L2].
    + destruct (V2 L2) as (F2 & E2). apply NL. apply Rabs_def2 in L2. apply (ovf_le F HF rm v1 z1 b1 b2); auto. unfold Rabs in L1. destruct (Rcase_abs _); lra.
    + specialize (M1 L1). specialize (M2 L2). apply (xle_key F HF); auto. unfold key. rewrite S1, S2, M1, M2. unfold szval.
      assert (O0 : forall s, 0 <= overflow_mag F rm s) by (intros s; pose proof (inf_mag_pos F HF); unfold overflow_mag, max_mag; destruct rm; destruct s; lia).
      pose proof (O0 true). pose proof (O0 false).
      unfold Rabs in L1, L2. destruct (Rcase_abs (fround F rm v1)) as [C1|C1], (Rcase_abs (fround F rm v2)) as [C2|C2]; try lra.
      * pose proof (NEG v1 ltac:(lra)). pose proof (NEG v2 ltac:(lra)). rewrite !Rlt_bool_true, !Req_bool_false by lra. lia.
      * pose proof (NEG v1 ltac:(lra)). pose proof (POS v2 ltac:(lra)). rewrite (Rlt_bool_true v1), (Rlt_bool_false v2), !Req_bool_false by lra. lia.
      * pose proof (POS v1 ltac:(lra)). pose proof (POS v2 ltac:(lra)). rewrite !Rlt_bool_false, !Req_bool_false by lra. lia.
Qed.
(** Division by a positive number is monotonic, infinities included. *)
Lemma div_mono : forall rm b1 b2 l L, is_pattern F b1 -> is_pattern F b2 -> is_real F l L -> (0 < L)%R -> xle F b1 b2 ->
  xle F (f_div F rm b1 l) (f_div F rm b2 l).
Proof.
  intros rm b1 b2 l L P1 P2 (Pl & Fl & <-) L0 H. destruct (xle_nan F _ _ H) as (N1 & N2). pose proof (sign_fval F HF l Fl ltac:(lra)) as Sl. rewrite Rlt_bool_false in Sl by lra.
  destruct (decode_fin F HF l Fl) as (ml & el & Dl & _).
  assert (INF : forall b, is_inf F b = true -> f_div F rm b l = f_inf F (sign_of F b)).
  { intros b Ib. unfold f_div. rewrite (decode_isinf F b Ib), Dl, Sl, xorb_false_r. reflexivity. }
  assert (FIN : forall b, is_fin F b = true -> rounded F rm (fval F b / fval F l) (xorb (sign_of F b) (sign_of F l)) (f_div F rm b l)).
  { intros b Fb. apply (f_div_spec F HF); auto. lra. }
  assert (TOP : forall b, is_nan F b = false -> xle F b (f_inf F false) /\ xle F (f_inf F true) b).
  { intros b Nb. destruct (f_inf_props F HF false) as (_ & I0 & S0). destruct (f_inf_props F HF true) as (_ & I1 & S1).
    pose proof (inf_nan F _ I0) as NI0. pose proof (inf_nan F _ I1) as NI1. pose proof (mag_range F HF b). split; apply (xle_key F HF); auto; unfold key; rewrite ?S0, ?S1; unfold is_nan, is_inf in *; unfold szval; destruct (sign_of F b); lia. }
  destruct (class_cases F b1) as [C1|[C1|C1]]; [| |congruence]; (destruct (class_cases F b2) as [C2|[C2|C2]]; [| |congruence]).
  - apply (rounded_mono rm _ _ _ _ _ _ (FIN _ C1) (FIN _ C2)). apply (xle_fin F HF) in H; auto. unfold Rdiv. apply Rmult_le_compat_r; auto. apply Rlt_le, Rinv_0_lt_compat; auto.
  - rewrite (INF _ C2). apply (xle_key F HF) in H; auto. unfold key in H. destruct (sign_of F b2) eqn:S2.
    + exfalso. unfold is_fin, is_inf in *. pose proof (mag_range F HF b1). unfold szval in H. destruct (sign_of F b1); lia.
    + apply TOP. apply (rounded_not_nan F _ _ _ _ (FIN _ C1)).
  - rewrite (INF _ C1). apply (xle_key F HF) in H; auto. unfold key in H. destruct (sign_of F b1) eqn:S1.
    + apply TOP. apply (rounded_not_nan F _ _ _ _ (FIN _ C2)).
    + exfalso. unfold is_fin, is_inf in *. pose proof (mag_range F HF b2). unfold szval in H. destruct (sign_of F b2); lia.
  - rewrite (INF _ C1), (INF _ C2). apply (xle_key F HF) in H; auto. unfold key in H. pose proof (inf_mag_pos F HF). unfold is_inf in C1, C2. 
    destruct (f_inf_props F HF false) as (_ & I0 & S0). destruct (f_inf_props F HF true) as (_ & I1 & S1'). pose proof (inf_nan F _ I0) as NI0. pose proof (inf_nan F _ I1) as NI1.
    destruct (sign_of F b1) eqn:S1, (sign_of F b2) eqn:S2; unfold szval in H; try lia; try (apply TOP; auto).
Qed.
(** normalize: the end points and monotonicity. *)
Theorem normalize_spec : forall rm mn mx A B, is_real F mn A -> is_real F mx B -> (A < B)%R -> (Rabs (fround F rm (B - A)) < big)%R ->
  is_real F (normalize F rm mn mn mx) 0 /\ is_real F (normalize F rm mx mn mx) 1 /\
  (forall v w V W, is_real F v V -> is_real F w W -> (V <= W)%R -> (fval F (normalize F rm v mn mx) <= fval F (normalize F rm w mn mx))%R) /\
  (forall v V, is_real F v V -> (V <= A)%R -> fval F (normalize F rm v mn mx) = 0%R) /\
  (forall v V, is_real F v V -> (B <= V)%R -> fval F (normalize F rm v mn mx) = 1%R).
Proof.
  intros rm mn mx A B Ha Hb H HO. pose proof (sub_r rm mx mn B A Hb Ha HO) as L. pose proof (sub_pos rm mx mn B A Hb Ha H) as LP.
  destruct (unlerp_ends rm mn mx mn A B A Ha Hb Ha ltac:(lra) HO) as (U0 & _). destruct (unlerp_ends rm mn mx mx A B B Ha Hb Hb ltac:(lra) HO) as (_ & U1).
  specialize (U0 eq_refl). specialize (U1 eq_refl).
  assert (E : forall v, normalize F rm v mn mx = saturate F (unlerp F rm mn mx v)) by reflexivity.
  assert (S : forall b V, is_real F b V -> is_real F (saturate F b) (Rmin (Rmax V 0) 1)).
  { intros b V (P & Fi & <-). destruct (saturate_spec F HF HelF b P) as ((A1 & A2 & _) & _ & A3 & _). split; [auto|split; auto]. }
  assert (N0 : is_real F (normalize F rm mn mn mx) 0) by (rewrite E; pose proof (S _ _ U0) as X; rewrite Rmax_left, Rmin_left in X by lra; exact X).
  assert (N1 : is_real F (normalize F rm mx mn mx) 1) by (rewrite E; pose proof (S _ _ U1) as X; rewrite Rmax_left, Rmin_left in X by lra; exact X).
  assert (MONO : forall v w V W, is_real F v V -> is_real F w W -> (V <= W)%R -> (fval F (normalize F rm v mn mx) <= fval F (normalize F rm w mn mx))%R).
  { intros v w V W (Pv & Fv & <-) (Pw & Fw & <-) LE.
    destruct (normalize_range rm v mn mx) as ((_ & R1 & _) & _). destruct (normalize_range rm w mn mx) as ((_ & R2 & _) & _).
    apply (xle_fin F HF); auto. destruct Ha as (Pa & Fa & VA). destruct (zero_r F HF) as (Pz & Fz & _). destruct (one_r F HF) as (Po & Fo & _).
    unfold normalize. apply (clamp_mono F HF HelF); auto using (div_pat F HF), fin_nan.
    apply div_mono with (L := fround F rm (B - A)); auto using (sub_pat F HF).
    eapply rounded_mono; [apply (f_sub_spec F HF rm v mn Pa Fv Fa)|apply (f_sub_spec F HF rm w mn Pa Fw Fa)|lra]. }
  split; [auto|]. split; [auto|]. split; [auto|]. split; intros v V Hv HV.
  - pose proof (MONO v mn V A Hv Ha HV) as M. destruct (normalize_range rm v mn mx) as (_ & R1 & _). destruct N0 as (_ & _ & N0). lra.
  - pose proof (MONO mx v B V Hb Hv HV) as M. destruct (normalize_range rm v mn mx) as (_ & R1 & _). destruct N1 as (_ & _ & N1). lra.
Qed.

(** ** smoothstep *)
Lemma poly_ends : forall rm x X, is_real F x X -> (X = 0 \/ X = 1)%R ->
  is_real F (f_mul F rm (f_mul F rm x x) (f_sub F rm (f_of_Z F rm 3) (f_mul F rm (f_of_Z F rm 2) x))) X.
Proof.
  intros rm x X Hx HX. pose proof (prec_ge F HF) as PG. pose proof (ofz_r F HF rm 3 ltac:(lia)) as H3. pose proof (ofz_r F HF rm 2 ltac:(lia)) as H2.
  pose proof (real_fmt _ _ Hx) as GX. pose proof (real_bound _ _ Hx) as BX.
  assert (I : forall z, Z.abs z <= 3 -> generic_format radix2 fexp (IZR z) /\ (Rabs (IZR z) < big)%R) by (intros z Hz; split; [apply (format_int F HF); lia|apply (int_bound F HF); lia]).
  assert (SQ : is_real F (f_mul F rm x x) X) by (eapply mul_x; [exact Hx|exact Hx|destruct HX; subst X; ring|auto|auto]).
  destruct HX as [E|E]; subst X.
  - destruct (I 3 ltac:(lia)). eapply mul_x with (B := 3%R); [exact SQ| |ring|auto|auto].
    eapply sub_x with (B := 0%R); [exact H3| |ring|auto|auto]. eapply mul_x; [exact H2|exact Hx|ring|auto|auto].
  - destruct (I 2 ltac:(lia)). eapply mul_x with (B := 1%R); [exact SQ| |ring|auto|auto].
    eapply sub_x with (B := 2%R); [exact H3| |ring|auto|auto]. eapply mul_x; [exact H2|exact Hx|ring|auto|auto].
Qed.
Theorem smoothstep_ends : forall rm e0 e1 A B, is_real F e0 A -> is_real F e1 B -> (A < B)%R -> (Rabs (fround F rm (B - A)) < big)%R ->
  (forall x X, is_real F x X -> (X <= A)%R -> is_real F (smoothstep F rm e0 e1 x) 0) /\
  (forall x X, is_real F x X -> (B <= X)%R -> is_real F (smoothstep F rm e0 e1 x) 1).
Proof.
  intros rm e0 e1 A B Ha Hb H HO. destruct (normalize_spec rm e0 e1 A B Ha Hb H HO) as (_ & _ & _ & N0 & N1).
  split; intros x X Hx HX; unfold smoothstep; cbv zeta; fold (normalize F rm x e0 e1); apply poly_ends; auto;
    destruct (normalize_range rm x e0 e1) as ((P & Fi & _) & _); (split; [auto|split; [auto|]]); [apply (N0 x X)|apply (N1 x X)]; auto.
Qed.

(** ** The range of smoothstep *)
Lemma fmt_scaled : forall m e, Z.abs m < 2 ^ prec F -> emin F <= e -> generic_format radix2 fexp (IZR m * bpow radix2 e).
Proof.
  intros m e Hm He. apply generic_format_FLT. exists (Float radix2 m e); auto.
Qed.
Lemma half_pow : bpow radix2 (-1) = (/ 2)%R. Proof. reflexivity. Qed.
(** A number of the format in (1/2, 1) is a multiple of 2^-prec. *)
Lemma half_one_mult : forall X, generic_format radix2 fexp X -> (/ 2 < X < 1)%R -> exists m, (X = IZR m * bpow radix2 (- prec F))%R /\ 2 ^ fl F < m < 2 ^ prec F.
Proof.
  intros X G HX. pose proof (gf_fl F HF) as Hf. pose proof (bias_ge2 F HF) as HB.
  assert (MG : mag radix2 X = 0%Z :> Z).
  { apply mag_unique_pos. change (bpow radix2 (0 - 1)) with (/ 2)%R. change (bpow radix2 0) with 1%R. lra. }
  assert (CE : cexp radix2 fexp X = - prec F). { unfold cexp. rewrite MG. unfold FLT_exp, emin, prec. lia. }
  exists (Ztrunc (scaled_mantissa radix2 fexp X)). 
  assert (E : (X = IZR (Ztrunc (scaled_mantissa radix2 fexp X)) * bpow radix2 (- prec F))%R).
  { rewrite <- CE. exact G. }
  split; [exact E|]. set (m := Ztrunc (scaled_mantissa radix2 fexp X)) in *. pose proof (bpow_gt_0 radix2 (- prec F)) as B0.
  assert (P1 : (bpow radix2 (prec F) * bpow radix2 (- prec F) = 1)%R) by (rewrite <- bpow_plus; replace (prec F + - prec F) with 0 by lia; reflexivity).
  assert (P2 : (bpow radix2 (fl F) * bpow radix2 (- prec F) = / 2)%R) by (rewrite <- bpow_plus; replace (fl F + - prec F) with (-1) by (unfold prec; lia); reflexivity).
  split; apply lt_IZR; apply Rmult_lt_reg_r with (1 := B0); rewrite <- E, <- bpow_IZR by (unfold prec; lia); lra.
Qed.
Lemma ulp_below_one : forall X, (0 <= X < 1)%R -> (ulp radix2 fexp X <= bpow radix2 (- prec F))%R.
Proof.
  intros X HX. pose proof (VE F HF) as HVE. pose proof (bias_ge2 F HF). pose proof (gf_fl F HF).
  destruct (Req_dec X 0) as [->|NZ].
  - rewrite ulp_FLT_0 by (unfold Prec_gt_0, prec; lia). apply bpow_le. unfold emin, prec. lia.
  - rewrite ulp_neq_0 by auto. apply bpow_le. unfold cexp, FLT_exp. assert (mag radix2 X <= 0).
    { apply mag_le_bpow; auto. change (bpow radix2 0) with 1%R. rewrite Rabs_pos_eq; lra. }
    unfold emin, prec in *. lia.
Qed.
Lemma round_below_one : forall y, (y < 1 + bpow radix2 (- prec F))%R -> (fround F RNE y <= 1)%R.
Proof.
  intros y Hy. pose proof (VE F HF) as HVE. pose proof (bias_ge2 F HF). pose proof (gf_fl F HF). unfold fround. cbn [rnd].
  apply round_N_le_midp; [auto|apply (one_fmt F HF)|]. rewrite succ_eq_pos by lra.
  assert (U : ulp radix2 fexp 1 = (2 * bpow radix2 (- prec F))%R).
  { rewrite ulp_neq_0 by lra. unfold cexp. replace (mag radix2 1 : Z) with 1 by (symmetry; apply mag_unique_pos; change (bpow radix2 (1 - 1)) with 1%R; change (bpow radix2 1) with 2%R; lra).
    replace (FLT_exp (emin F) (prec F) 1) with (1 + - prec F) by (unfold FLT_exp, emin, prec in *; lia). rewrite bpow_plus. reflexivity. }
  rewrite U. lra.
Qed.
Lemma cubic_le_1 : forall X, (0 <= X <= 1)%R -> (X * X * (3 - 2 * X) <= 1)%R.
Proof. intros X HX. assert (0 <= (1 - X) * (1 - X) * (1 + 2 * X))%R by (apply Rmult_le_pos; [apply Rmult_le_pos|]; lra). lra. Qed.
Lemma cubic_lt_1 : forall X, (0 <= X < 1)%R -> (X * X * (3 - 2 * X) < 1)%R.
Proof. intros X HX. assert (0 < (1 - X) * (1 - X) * (1 + 2 * X))%R by (apply Rmult_lt_0_compat; [apply Rmult_lt_0_compat|]; lra). lra. Qed.

Lemma poly_range : forall rm x X, rm <> RUP -> is_real F x X -> (0 <= X <= 1)%R ->
  let r := f_mul F rm (f_mul F rm x x) (f_sub F rm (f_of_Z F rm 3) (f_mul F rm (f_of_Z F rm 2) x)) in
  is_real F r (fval F r) /\ (0 <= fval F r <= 1)%R.
Proof.
  intros rm x X NU Hx HX r. pose proof (prec_ge F HF) as PG. pose proof (ofz_r F HF rm 3 ltac:(lia)) as H3. pose proof (ofz_r F HF rm 2 ltac:(lia)) as H2.
  pose proof (real_fmt _ _ Hx) as GX. pose proof (gf_fl F HF) as Hf. pose proof (bias_ge2 F HF) as HB.
  assert (I : forall z, Z.abs z <= 3 -> generic_format radix2 fexp (IZR z) /\ (Rabs (IZR z) < big)%R) by (intros z Hz; split; [apply (format_int F HF); lia|apply (int_bound F HF); lia]).
  destruct (I 0 ltac:(lia)) as (G0 & B0). destruct (I 1 ltac:(lia)) as (G1 & B1). destruct (I 2 ltac:(lia)) as (G2 & B2). destruct (I 3 ltac:(lia)) as (G3 & B3).
  rewrite Rabs_pos_eq in B1, B2, B3 by lra.
  (* the square *)
  assert (SR : (0 <= fround F rm (X * X) <= 1)%R).
  { split; [apply (fround_ge_gen F HF)|apply (fround_le_gen F HF)]; auto; nra. }
  assert (SQ : is_real F (f_mul F rm x x) (fround F rm (X * X))) by (apply mul_r; auto; apply Rabs_def1; lra).
  (* twice x *)
  assert (GT : generic_format radix2 fexp (2 * X)).
  { replace (2 * X)%R with (X * bpow radix2 1)%R by (change (bpow radix2 1) with 2%R; ring). apply mult_bpow_pos_exact_FLT; [auto|lia]. }
  assert (TW : is_real F (f_mul F rm (f_of_Z F rm 2) x) (2 * X)) by (eapply mul_x; [exact H2|exact Hx|ring|auto|apply Rabs_def1; lra]).
  assert (WR : (1 <= fround F rm (3 - 2 * X) <= 3)%R).
  { split; [apply (fround_ge_gen F HF)|apply (fround_le_gen F HF)]; auto; lra. }
  assert (WQ : is_real F (f_sub F rm (f_of_Z F rm 3) (f_mul F rm (f_of_Z F rm 2) x)) (fround F rm (3 - 2 * X))) by (apply sub_r; auto; apply Rabs_def1; lra).
  set (S := fround F rm (X * X)) in *. set (W := fround F rm (3 - 2 * X)) in *.
  assert (PR : (0 <= fround F rm (S * W) <= 1)%R).
  { split; [apply (fround_ge_gen F HF); auto; nra|].
    destruct (Rle_or_lt X (/ 2)) as [L|L].
    - assert (S4 : (S <= bpow radix2 (-2))%R).
      { apply (fround_le_gen F HF); [apply generic_format_bpow; unfold FLT_exp, emin, prec; lia|]. change (bpow radix2 (-2)) with (/ 4)%R. nra. }
      change (bpow radix2 (-2)) with (/ 4)%R in S4. apply (fround_le_gen F HF); auto. nra.
    - destruct (Rle_lt_or_eq_dec X 1 ltac:(lra)) as [L1|L1].
      + destruct (half_one_mult X GX (conj L L1)) as (m & Em & Hm).
        assert (EW : W = (3 - 2 * X)%R).
        { apply (fround_exact F). replace (3 - 2 * X)%R with (IZR (3 * 2 ^ fl F - m) * bpow radix2 (1 - prec F))%R.
          - apply fmt_scaled; [|unfold emin, prec; lia]. assert (2 ^ prec F = 2 * 2 ^ fl F) by (unfold prec; rewrite pow2_succ by lia; ring). lia.
          - rewrite Em, minus_IZR, mult_IZR, <- bpow_IZR by lia. replace (1 - prec F) with (1 + - prec F) by lia. rewrite (bpow_plus radix2 1).
            assert (P2 : (bpow radix2 (fl F) * bpow radix2 (- prec F) = / 2)%R) by (rewrite <- bpow_plus; replace (fl F + - prec F) with (-1) by (unfold prec; lia); reflexivity).
            change (bpow radix2 1) with 2%R. transitivity (3 * 2 * (bpow radix2 (fl F) * bpow radix2 (- prec F)) - 2 * (IZR m * bpow radix2 (- prec F)))%R; [ring|rewrite P2; field]. }
        rewrite EW. assert (CL : (X * X * (3 - 2 * X) < 1)%R) by (apply cubic_lt_1; lra).
        assert (DOWN : (S <= X * X)%R -> (S * (3 - 2 * X) <= 1)%R) by (intros HS; assert (S * (3 - 2 * X) <= X * X * (3 - 2 * X))%R by (apply Rmult_le_compat_r; lra); lra).
        destruct rm; [|apply (fround_le_gen F HF); auto; apply DOWN|congruence|apply (fround_le_gen F HF); auto; apply DOWN].
        * apply round_below_one. pose proof (VE F HF) as HVE.
          assert (ERR : (Rabs (S - X * X) <= / 2 * ulp radix2 fexp (X * X))%R) by (apply error_le_half_ulp; auto).
          pose proof (ulp_below_one (X * X) ltac:(nra)) as UB. apply Rabs_le_inv in ERR. pose proof (bpow_gt_0 radix2 (- prec F)) as U0.
          assert (S * (3 - 2 * X) <= (X * X + / 2 * bpow radix2 (- prec F)) * (3 - 2 * X))%R by (apply Rmult_le_compat_r; lra).
          assert (/ 2 * bpow radix2 (- prec F) * (3 - 2 * X) <= / 2 * bpow radix2 (- prec F) * 2)%R by (apply Rmult_le_compat_l; lra). lra.
        * pose proof (VE F HF) as HVE. apply (round_DN_pt radix2 fexp (X * X)).
        * pose proof (VE F HF) as HVE. unfold S, fround. cbn [rnd]. rewrite round_ZR_DN by nra. apply (round_DN_pt radix2 fexp (X * X)).
      + apply (fround_le_gen F HF); auto. assert (ES : S = 1%R) by (unfold S; rewrite L1, Rmult_1_l; apply (fround_exact F); auto).
        assert (EW : W = 1%R) by (unfold W; rewrite L1; replace (3 - 2 * 1)%R with 1%R by ring; apply (fround_exact F); auto). rewrite ES, EW. lra. }
  assert (RR : is_real F r (fround F rm (S * W))) by (apply mul_r; auto; apply Rabs_def1; lra).
  destruct RR as (A1 & A2 & A3). split; [split; auto|]. rewrite A3. auto.
Qed.
(** For all arguments, NaN and infinities included, unless rounding upwards. *)
Theorem smoothstep_range : forall rm e0 e1 x, rm <> RUP -> let r := smoothstep F rm e0 e1 x in
  is_real F r (fval F r) /\ (0 <= fval F r <= 1)%R.
Proof.
  intros rm e0 e1 x NU. destruct (normalize_range rm x e0 e1) as (N1 & N2 & _). exact (poly_range rm _ _ NU N1 N2).
Qed.
End Interp.
