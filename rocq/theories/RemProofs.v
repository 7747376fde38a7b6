(** * fmod, remainder and remquo *)
From Coq Require Import ZArith Lia Bool Reals Lra.
From Flocq Require Import Core Sterbenz Mult_error Operations Plus_error.
From Verif Require Import MachInt Bits Fmt FloatSpec FmtProofs RoundProofs FOps FOpsProofs ExactOps FPBits FPBitsProofs
  Compare CompareProofs Nearest NearestProofs FmaSpec FmaProofs Basic BasicProofs.
Open Scope Z_scope.

Lemma Ztrunc_same : forall r q n, 0 <= n -> (IZR n <= Rabs r < IZR n + 1)%R -> (IZR n <= Rabs q < IZR n + 1)%R ->
  (0 <= q -> 0 <= r)%R -> (q <= 0 -> r <= 0)%R -> Ztrunc r = Ztrunc q.
Proof.
  intros r q n Hn Hr Hq P N.
  assert (T : forall t, (IZR n <= Rabs t < IZR n + 1)%R -> (0 <= t)%R -> Ztrunc t = n).
  { intros t Ht H0. rewrite Rabs_pos_eq in Ht by auto. rewrite Ztrunc_floor by auto. apply Zfloor_imp. rewrite plus_IZR. auto. }
  assert (T2 : forall t, (IZR n <= Rabs t < IZR n + 1)%R -> (t <= 0)%R -> Ztrunc t = - n).
  { intros t Ht H0. rewrite <- (Ropp_involutive t), Ztrunc_opp. f_equal. apply T; [rewrite Rabs_Ropp; auto|lra]. }
  destruct (Rle_or_lt 0 q) as [H|H].
  - rewrite (T q), (T r); auto.
  - assert (L : (q <= 0)%R) by lra. rewrite (T2 q), (T2 r); auto.
Qed.

Lemma nearest_even_imp : forall t n, (Rabs (t - IZR n) <= / 2)%R -> (Rabs (t - IZR n) = / 2 -> Z.even n = true)%R -> ZnearestE t = n.
Proof.
  intros t n H1 H2. destruct (Rle_lt_or_eq_dec _ _ H1) as [H|H]; [apply Znearest_imp; auto|]. specialize (H2 H).
  unfold Rabs in H. destruct (Rcase_abs (t - IZR n)) as [L|L].
  - assert (EF : Zfloor t = n - 1) by (apply Zfloor_imp; rewrite plus_IZR, minus_IZR; lra).
    assert (EC : Zceil t = n) by (apply Zceil_imp; rewrite minus_IZR; lra).
    unfold ZnearestE. rewrite EF, EC, minus_IZR. rewrite Rcompare_Eq by lra.
    rewrite Z.even_sub, H2. reflexivity.
  - assert (EF : Zfloor t = n) by (apply Zfloor_imp; rewrite plus_IZR; lra).
    unfold ZnearestE. rewrite EF. rewrite Rcompare_Eq by lra. rewrite H2. reflexivity.
Qed.

Section Rem.
Context (F : fmt) (HF : good_fmt F) (HelF : el F <= 16).
Notation fexp := (FLT_exp (emin F) (prec F)).
Lemma VE : Valid_exp fexp. Proof. apply FLT_exp_valid. unfold Prec_gt_0, prec. pose proof (gf_fl F HF). lia. Qed.
Lemma VR : forall rm, Valid_rnd (rnd rm). Proof. intros rm. destruct rm; simpl; auto with typeclass_instances. Qed.
Lemma fround_le_gen : forall rm x g, generic_format radix2 fexp g -> (x <= g)%R -> (fround F rm x <= g)%R.
Proof. intros. pose proof VE. pose proof (VR rm). apply round_le_generic; auto. Qed.
Lemma fround_ge_gen : forall rm x g, generic_format radix2 fexp g -> (g <= x)%R -> (g <= fround F rm x)%R.
Proof. intros. pose proof VE. pose proof (VR rm). apply round_ge_generic; auto. Qed.
Lemma prec_fl : prec F = fl F + 1. Proof. reflexivity. Qed.

(** The truncation of the rounded quotient when there is a number of the format
    between the quotient and the next integer. *)
Lemma trunc_quot : forall rm q n g, 0 <= n <= 2 ^ prec F -> generic_format radix2 fexp g -> (g < IZR n + 1)%R ->
  (IZR n <= Rabs q <= g)%R -> Ztrunc (fround F rm q) = Ztrunc q.
Proof.
  intros rm q n g Hn Fg Hg Hq. assert (Fn : generic_format radix2 fexp (IZR n)) by (apply (format_int F HF); lia).
  assert (F0 : generic_format radix2 fexp 0) by apply generic_format_0.
  assert (N0 : (0 <= IZR n)%R) by (apply IZR_le; lia).
  apply Ztrunc_same with n; [lia| |lra| |].
  - destruct (Rle_or_lt 0 q) as [H|H].
    + rewrite Rabs_pos_eq in Hq by auto. pose proof (fround_ge_gen rm q 0 F0 H). rewrite Rabs_pos_eq by auto.
      pose proof (fround_ge_gen rm q _ Fn (proj1 Hq)). pose proof (fround_le_gen rm q _ Fg (proj2 Hq)). lra.
    + rewrite Rabs_left in Hq by auto. pose proof (fround_le_gen rm q 0 F0 ltac:(lra)). rewrite Rabs_left1 by auto.
      apply generic_format_opp in Fn. apply generic_format_opp in Fg.
      pose proof (fround_le_gen rm q _ Fn ltac:(lra)). pose proof (fround_ge_gen rm q _ Fg ltac:(lra)). lra.
  - intros H. apply fround_ge_gen; auto.
  - intros H. apply fround_le_gen; auto.
Qed.

(** [x = X 2^e], [y = Y 2^e]. *)
Lemma gap_format : forall N, 1 <= N <= 2 ^ fl F -> exists g, generic_format radix2 fexp g /\ (g < IZR N)%R /\
  (forall Y, 0 < Y -> N * Y <= 2 ^ fl F -> (IZR N - / IZR Y <= g)%R).
Proof.
  intros N HN. set (k := Z.log2 N). pose proof (Z.log2_spec N ltac:(lia)) as HL. fold k in HL. pose proof (Z.log2_nonneg N) as Hk. fold k in Hk.
  rewrite Z.pow_succ_r in HL by lia. pose proof (gf_fl F HF) as Hf.
  assert (Kf : k <= fl F) by (apply (Z.pow_le_mono_r_iff 2); lia).
  exists (IZR (N * 2 ^ (fl F - k) - 1) * bpow radix2 (k - fl F))%R.
  assert (E : (IZR (N * 2 ^ (fl F - k) - 1) * bpow radix2 (k - fl F) = IZR N - bpow radix2 (k - fl F))%R).
  { rewrite minus_IZR, mult_IZR, <- bpow_IZR by lia. rewrite Rmult_minus_distr_r, Rmult_assoc, <- bpow_plus. replace (fl F - k + (k - fl F)) with 0 by lia. cbn [bpow]. ring. }
  assert (PS : 2 ^ fl F = 2 ^ k * 2 ^ (fl F - k)) by (rewrite <- Z.pow_add_r by lia; f_equal; lia).
  pose proof (pow2_pos (fl F - k) ltac:(lia)) as PP.
  split; [|split].
  - apply generic_format_FLT. exists (Float radix2 (N * 2 ^ (fl F - k) - 1) (k - fl F)); cbn [Fnum Fexp]; [reflexivity| |].
    + rewrite Z.abs_eq by nia. unfold prec. change (radix_val radix2) with 2. rewrite pow2_succ by lia. nia.
    + unfold emin. pose proof (gf_bias F HF). lia.
  - rewrite E. pose proof (bpow_gt_0 radix2 (k - fl F)). lra.
  - intros Y HY HNY. rewrite E. assert (bpow radix2 (k - fl F) <= / IZR Y)%R; [|lra].
    assert (Y0 : (0 < IZR Y)%R) by (apply IZR_lt; lia).
    apply Rmult_le_reg_r with (IZR Y); [auto|]. rewrite Rinv_l by lra.
    replace (k - fl F) with (- (fl F - k)) by lia. rewrite bpow_opp. apply Rmult_le_reg_l with (bpow radix2 (fl F - k)); [apply bpow_gt_0|].
    rewrite <- Rmult_assoc, Rinv_r, Rmult_1_l, Rmult_1_r by (pose proof (bpow_gt_0 radix2 (fl F - k)); lra).
    rewrite bpow_IZR by lia. apply IZR_le. nia.
Qed.

Lemma trunc_quot_int : forall rm X Y, Y <> 0 -> Z.abs X + Z.abs Y <= 2 ^ fl F ->
  Ztrunc (fround F rm (IZR X / IZR Y)) = Z.quot X Y /\ (Rabs (fround F rm (IZR X / IZR Y)) < bpow radix2 (bias F + 1))%R.
Proof.
  intros rm X Y HY HB. pose proof (gf_fl F HF) as Hf. pose proof (fl_pos F HF) as HP.
  assert (PP : 2 ^ fl F <= 2 ^ prec F) by (apply pow2_le; unfold prec; lia).
  assert (EA : Rabs (IZR X / IZR Y) = (IZR (Z.abs X) / IZR (Z.abs Y))%R) by (rewrite !abs_IZR; unfold Rdiv; rewrite Rabs_mult, Rabs_inv; reflexivity).
  set (x := Z.abs X) in *. set (y := Z.abs Y) in *. assert (Hy : 0 < y) by lia. assert (Hx : 0 <= x) by lia.
  set (n := x / y). pose proof (Z.div_mod x y ltac:(lia)) as D. fold n in D. pose proof (Z.mod_pos_bound x y Hy) as MB.
  assert (Hn : 0 <= n) by (apply Z.div_pos; lia).
  assert (y0 : (0 < IZR y)%R) by (apply IZR_lt; auto).
  assert (EQ : (IZR x / IZR y = IZR n + IZR (x mod y) / IZR y)%R).
  { rewrite D at 1. rewrite plus_IZR, mult_IZR. field. lra. }
  destruct (gap_format (n + 1) ltac:(nia)) as (g & Fg & Lg & Hg). rewrite plus_IZR in Lg, Hg.
  assert (HNY : (n + 1) * y <= 2 ^ fl F) by nia.
  specialize (Hg y Hy HNY).
  assert (RNG : (IZR n <= Rabs (IZR X / IZR Y) <= g)%R).
  { rewrite EA, EQ. assert (0 <= IZR (x mod y) / IZR y)%R by (apply Rmult_le_pos; [apply IZR_le; lia|left; apply Rinv_0_lt_compat; auto]).
    assert (IZR (x mod y) / IZR y <= 1 - / IZR y)%R; [|lra].
    apply Rmult_le_reg_r with (IZR y); [auto|]. unfold Rdiv. rewrite Rmult_minus_distr_r, Rmult_assoc, !Rinv_l, Rmult_1_r, Rmult_1_l by lra.
    rewrite <- minus_IZR. apply IZR_le. lia. }
  split.
  - rewrite (trunc_quot rm _ n g); auto; [apply Ztrunc_div; auto|nia].
  - assert (G1 : (g < IZR (2 ^ fl F))%R) by (apply Rlt_le_trans with (1 := Lg); rewrite <- plus_IZR; apply IZR_le; nia).
    assert (G2 : (IZR (2 ^ fl F) <= bpow radix2 (bias F + 1))%R) by (rewrite <- bpow_IZR by lia; apply bpow_le; pose proof (gf_bias F HF); lia).
    assert (RA : (- g <= IZR X / IZR Y <= g)%R) by (apply Rabs_le_inv; lra).
    pose proof (fround_le_gen rm _ _ Fg (proj2 RA)). pose proof (fround_ge_gen rm _ _ (generic_format_opp _ _ _ Fg) (proj1 RA)).
    apply Rabs_def1; lra.
Qed.

(** In that range x - trunc(x/y)*y is exact. *)
Lemma trunc_rem_spec : forall rm x y X Y e, is_pattern F x -> is_pattern F y -> is_fin F x = true -> is_fin F y = true ->
  emin F <= e -> fval F x = (IZR X * bpow radix2 e)%R -> fval F y = (IZR Y * bpow radix2 e)%R -> Y <> 0 -> Z.abs X + Z.abs Y <= 2 ^ fl F ->
  let r := trunc_rem F rm x y in
  is_pattern F r /\ is_fin F r = true /\ fval F r = (IZR (Z.rem X Y) * bpow radix2 e)%R.
Proof.
  intros rm x y X Y e Px Py Hx Hy He Vx Vy HY HB r. pose proof (gf_fl F HF) as Hf. pose proof (fl_pos F HF) as HP.
  pose proof (bpow_gt_0 radix2 e) as B0. assert (YR : IZR Y <> 0%R) by (apply not_0_IZR; auto).
  destruct (trunc_quot_int rm X Y HY HB) as (TQ & TB).
  assert (EQ : (fval F x / fval F y = IZR X / IZR Y)%R) by (rewrite Vx, Vy; field; split; auto; lra).
  assert (Ny : fval F y <> 0%R) by (rewrite Vy; apply Rmult_integral_contrapositive_currified; [auto|lra]).
  destruct (f_div_spec F HF rm x y Hx Hy Ny) as (P1 & _ & V1 & _). rewrite EQ in V1. destruct (V1 TB) as (F1 & V1').
  destruct (trunc_fin F HF HelF (f_div F rm x y) P1 F1) as (P2 & F2 & _ & V2). rewrite V1', TQ in V2.
  assert (PF : 2 ^ prec F = 2 * 2 ^ fl F) by (unfold prec; rewrite pow2_succ; lia).
  pose proof (Z.quot_rem' X Y) as QR. pose proof (Z.rem_bound_abs X Y HY) as RB.
  assert (QB : Z.abs (Z.quot X Y * Y) <= Z.abs X).
  { destruct (Z_le_gt_dec 0 X) as [S|S].
    - pose proof (Z.rem_nonneg X Y HY S). destruct (Z_le_gt_dec 0 Y) as [SY|SY].
      + pose proof (Z.quot_pos X Y S ltac:(lia)). nia.
      + assert (Z.quot X Y <= 0) by (rewrite <- (Z.opp_involutive Y), Z.quot_opp_r by lia; pose proof (Z.quot_pos X (- Y) S ltac:(lia)); lia). nia.
    - pose proof (Z.rem_nonpos X Y HY ltac:(lia)). destruct (Z_le_gt_dec 0 Y) as [SY|SY].
      + assert (Z.quot X Y <= 0) by (rewrite <- (Z.opp_involutive X), Z.quot_opp_l by lia; pose proof (Z.quot_pos (- X) Y ltac:(lia) ltac:(lia)); lia). nia.
      + assert (0 <= Z.quot X Y) by (rewrite <- Z.quot_opp_opp by lia; apply Z.quot_pos; lia). nia. }
  assert (FMT : forall z, Z.abs z <= 2 ^ prec F - 1 -> generic_format radix2 fexp (IZR z * bpow radix2 e)).
  { intros z Hz. apply generic_format_FLT. exists (Float radix2 z e); cbn [Fnum Fexp]; [reflexivity| |auto]. change (radix_val radix2) with 2. lia. }
  assert (BD : forall z, Z.abs z <= Z.abs X -> (Rabs (IZR z * bpow radix2 e) < bpow radix2 (bias F + 1))%R).
  { intros z Hz. apply Rle_lt_trans with (2 := fin_bound F HF x Hx). rewrite Vx, !Rabs_mult, <- !abs_IZR. apply Rmult_le_compat_r; [apply Rabs_pos|apply IZR_le; auto]. }
  pose proof (f_mul_spec F HF rm _ y F2 Hy) as R3. rewrite V2, Vy in R3.
  replace (IZR (Z.quot X Y) * (IZR Y * bpow radix2 e))%R with (IZR (Z.quot X Y * Y) * bpow radix2 e)%R in R3 by (rewrite mult_IZR; ring).
  destruct (rounded_repr F rm _ _ _ (FMT (Z.quot X Y * Y) ltac:(lia)) (BD (Z.quot X Y * Y) ltac:(lia)) R3) as (P3 & F3 & V3 & _).
  pose proof (f_sub_spec F HF rm x _ P3 Hx F3) as R4. rewrite V3, Vx in R4.
  replace (IZR X * bpow radix2 e - IZR (Z.quot X Y * Y) * bpow radix2 e)%R with (IZR (Z.rem X Y) * bpow radix2 e)%R in R4
    by (rewrite <- Rmult_minus_distr_r, <- minus_IZR; f_equal; f_equal; lia).
  assert (RX : Z.abs (Z.rem X Y) <= Z.abs X).
  { pose proof (Z.rem_nonneg X Y HY). pose proof (Z.rem_nonpos X Y HY). pose proof (Z.rem_le X Y). destruct (Z_le_gt_dec 0 X).
    - rewrite !Z.abs_eq by auto. rewrite <- Z.rem_abs_r by auto. apply Z.rem_le; lia.
    - rewrite <- (Z.abs_opp (Z.rem X Y)), <- Z.rem_opp_l, <- (Z.abs_opp X) by auto. rewrite !Z.abs_eq by (try apply Z.rem_nonneg; lia).
      rewrite <- Z.rem_abs_r by auto. apply Z.rem_le; lia. }
  destruct (rounded_repr F rm _ _ _ (FMT (Z.rem X Y) ltac:(lia)) (BD _ RX) R4) as (P5 & F5 & V5 & _).
  split; [exact P5|]. split; [exact F5|exact V5].
Qed.

(** |x| < |y|: the quotient rounds to less than one. *)
Lemma below_one : forall rm a b, is_fin F a = true -> is_fin F b = true -> (Rabs (fval F a) < Rabs (fval F b))%R ->
  Ztrunc (fround F rm (fval F a / fval F b)) = 0 /\ (Rabs (fround F rm (fval F a / fval F b)) < bpow radix2 (bias F + 1))%R.
Proof.
  intros rm a b Ha Hb HL. pose proof VE as VE. pose proof (gf_fl F HF) as Hf. pose proof (Rabs_pos (fval F a)) as A0.
  set (y := Rabs (fval F b)) in *. assert (Y0 : (0 < y)%R) by lra.
  assert (Fa : generic_format radix2 fexp (Rabs (fval F a))) by (apply generic_format_abs; apply (fval_format F HF); auto).
  assert (Fb : generic_format radix2 fexp y) by (apply generic_format_abs; apply (fval_format F HF); auto).
  pose proof (pred_ge_gt radix2 fexp _ _ Fa Fb HL) as HP. rewrite pred_eq_pos in HP by lra.
  assert (PU : (pred_pos radix2 fexp y <= y * (1 - bpow radix2 (- prec F)))%R).
  { unfold pred_pos. destruct (Req_bool_spec y (bpow radix2 (mag radix2 y - 1))) as [E|E].
    - assert (bpow radix2 (mag radix2 y - 1) * bpow radix2 (- prec F) <= bpow radix2 (fexp (mag radix2 y - 1)%Z))%R; [|rewrite <- E in H; lra].
      rewrite <- bpow_plus. apply bpow_le. unfold FLT_exp. lia.
    - assert (PG : Prec_gt_0 (prec F)) by (unfold Prec_gt_0, prec; lia). pose proof (ulp_FLT_gt radix2 (emin F) (prec F) y) as U.
      rewrite (Rabs_pos_eq y) in U by lra. lra. }
  assert (EA : Rabs (fval F a / fval F b) = (Rabs (fval F a) / y)%R) by (unfold Rdiv; rewrite Rabs_mult, Rabs_inv; reflexivity).
  assert (Fg : generic_format radix2 fexp (1 - bpow radix2 (- prec F))).
  { replace (1 - bpow radix2 (- prec F))%R with (IZR (2 ^ prec F - 1) * bpow radix2 (- prec F))%R.
    - apply generic_format_FLT. exists (Float radix2 (2 ^ prec F - 1) (- prec F)); cbn [Fnum Fexp]; [reflexivity| |].
      + change (radix_val radix2) with 2. pose proof (pow2_pos (prec F) ltac:(unfold prec; lia)). lia.
      + unfold emin, prec. pose proof (gf_bias F HF). lia.
    - rewrite minus_IZR, <- bpow_IZR by (unfold prec; lia). rewrite Rmult_minus_distr_r, <- bpow_plus. replace (prec F + - prec F) with 0 by lia. cbn [bpow]. ring. }
  assert (Q : (0 <= Rabs (fval F a / fval F b) <= 1 - bpow radix2 (- prec F))%R).
  { split; [apply Rabs_pos|]. rewrite EA. apply Rmult_le_reg_r with y; [auto|]. unfold Rdiv. rewrite Rmult_assoc, Rinv_l by lra. lra. }
  pose proof (bpow_gt_0 radix2 (- prec F)) as B0. split.
  - rewrite (trunc_quot rm _ 0 (1 - bpow radix2 (- prec F))); auto; [| |lra].
    + destruct (Rle_or_lt 0 (fval F a / fval F b)) as [S|S].
      * rewrite Rabs_pos_eq in Q by auto. rewrite Ztrunc_floor by auto. apply Zfloor_imp. cbn. lra.
      * rewrite Rabs_left in Q by auto. rewrite Ztrunc_ceil by lra. apply Zceil_imp. cbn. lra.
    + pose proof (pow2_nonneg (prec F)). lia.
  - assert (RA : (- (1 - bpow radix2 (- prec F)) <= fval F a / fval F b <= 1 - bpow radix2 (- prec F))%R) by (apply Rabs_le_inv; lra).
    pose proof (fround_le_gen rm _ _ Fg (proj2 RA)). pose proof (fround_ge_gen rm _ _ (generic_format_opp _ _ _ Fg) (proj1 RA)).
    assert (1 <= bpow radix2 (bias F + 1))%R by (change 1%R with (bpow radix2 0); apply bpow_le; pose proof (gf_bias F HF); lia).
    apply Rabs_def1; lra.
Qed.
Lemma trunc_rem_small : forall rm x y, is_pattern F x -> is_pattern F y -> is_fin F x = true -> is_fin F y = true -> mag_of F x <> 0 ->
  (Rabs (fval F x) < Rabs (fval F y))%R -> trunc_rem F rm x y = x.
Proof.
  intros rm x y Px Py Hx Hy Nx HL. destruct (below_one rm x y Hx Hy HL) as (T & B).
  assert (Ny : fval F y <> 0%R) by (intros E; rewrite E, Rabs_R0 in HL; pose proof (Rabs_pos (fval F x)); lra).
  assert (Nx' : fval F x <> 0%R) by (rewrite (fval_zero F HF x Hx); auto).
  destruct (f_div_spec F HF rm x y Hx Hy Ny) as (P1 & _ & V1 & _). destruct (V1 B) as (F1 & V1').
  destruct (trunc_fin F HF HelF (f_div F rm x y) P1 F1) as (P2 & F2 & _ & V2). rewrite V1', T in V2.
  pose proof (f_mul_spec F HF rm _ y F2 Hy) as R3. rewrite V2, Rmult_0_l in R3.
  destruct (rounded_repr F rm _ _ _ (generic_format_0 radix2 fexp) ltac:(rewrite Rabs_R0; apply bpow_gt_0) R3) as (P3 & F3 & V3 & _).
  pose proof (f_sub_spec F HF rm x _ P3 Hx F3) as R4. rewrite V3, Rminus_0_r in R4.
  unfold trunc_rem. apply (rounded_exact F HF rm _ _ _ x Px Hx eq_refl) in R4; [exact R4|]. intros E. congruence.
Qed.

Lemma fmod_small : forall rm x y, is_pattern F x -> is_pattern F y -> is_fin F x = true -> is_fin F y = true ->
  (Rabs (fval F x) < Rabs (fval F y))%R -> cc_fmod F rm x y = x.
Proof.
  intros rm x y Px Py Hx Hy HL. unfold cc_fmod. rewrite !(fp_is_nan_eq F HF HelF), !(fp_is_inf_eq F HF HelF), !(fp_is_zero_eq F HF).
  rewrite (fin_nan F x), (fin_nan F y), (fin_inf F x), (fin_inf F y) by auto. cbn [orb andb negb].
  assert (Ny : fval F y <> 0%R) by (intros E; rewrite E, Rabs_R0 in HL; pose proof (Rabs_pos (fval F x)); lra).
  assert (Zy : mag_of F y <> 0) by (rewrite <- (fval_zero F HF y Hy); auto). replace (mag_of F y =? 0) with false by lia. cbn [orb andb negb].
  destruct (Z.eqb_spec (mag_of F x) 0) as [Z0|Z0]; [reflexivity|]. cbn [andb]. apply trunc_rem_small; auto.
Qed.

Lemma fmod_exact : forall rm x y X Y e, is_pattern F x -> is_pattern F y -> is_fin F x = true -> is_fin F y = true ->
  emin F <= e -> fval F x = (IZR X * bpow radix2 e)%R -> fval F y = (IZR Y * bpow radix2 e)%R -> Y <> 0 -> Z.abs X + Z.abs Y <= 2 ^ fl F ->
  let r := cc_fmod F rm x y in
  is_pattern F r /\ is_fin F r = true /\ fval F r = (IZR (Z.rem X Y) * bpow radix2 e)%R.
Proof.
  intros rm x y X Y e Px Py Hx Hy He Vx Vy HY HB r. unfold r, cc_fmod. rewrite !(fp_is_nan_eq F HF HelF), !(fp_is_inf_eq F HF HelF), !(fp_is_zero_eq F HF).
  rewrite (fin_nan F x), (fin_nan F y), (fin_inf F x), (fin_inf F y) by auto. cbn [orb andb negb].
  assert (Ny : fval F y <> 0%R) by (rewrite Vy; apply Rmult_integral_contrapositive_currified; [apply not_0_IZR; auto|pose proof (bpow_gt_0 radix2 e); lra]).
  assert (Zy : mag_of F y <> 0) by (rewrite <- (fval_zero F HF y Hy); auto). replace (mag_of F y =? 0) with false by lia. cbn [orb andb negb].
  destruct (Z.eqb_spec (mag_of F x) 0) as [Z0|Z0]; cbn [andb]; [|apply trunc_rem_spec; auto].
  split; [auto|]. split; [auto|]. apply (fval_zero F HF x Hx) in Z0. rewrite Z0. rewrite Z0 in Vx. symmetry in Vx. apply Rmult_integral in Vx.
  destruct Vx as [Vx|Vx]; [|pose proof (bpow_gt_0 radix2 e); lra]. apply eq_IZR in Vx. subst X. rewrite Z.rem_0_l by auto. ring.
Qed.
Lemma remainder_exact : forall rm x y X Y e, is_pattern F x -> is_pattern F y -> is_fin F x = true -> is_fin F y = true ->
  emin F <= e -> fval F x = (IZR X * bpow radix2 e)%R -> fval F y = (IZR Y * bpow radix2 e)%R -> Y <> 0 -> Z.abs X + Z.abs Y <= 2 ^ fl F ->
  let r := cc_remainder F rm x y in
  is_pattern F r /\ is_fin F r = true /\ fval F r = (IZR (Z.rem X Y) * bpow radix2 e)%R.
Proof.
  intros rm x y X Y e Px Py Hx Hy He Vx Vy HY HB r. unfold r, cc_remainder. rewrite !(fp_is_nan_eq F HF HelF), !(fp_is_inf_eq F HF HelF), !(fp_is_zero_eq F HF).
  rewrite (fin_nan F x), (fin_nan F y), (fin_inf F x) by auto. cbn [orb andb negb].
  assert (Ny : fval F y <> 0%R) by (rewrite Vy; apply Rmult_integral_contrapositive_currified; [apply not_0_IZR; auto|pose proof (bpow_gt_0 radix2 e); lra]).
  assert (Zy : mag_of F y <> 0) by (rewrite <- (fval_zero F HF y Hy); auto). replace (mag_of F y =? 0) with false by lia. cbn [orb andb negb].
  apply trunc_rem_spec; auto.
Qed.
Lemma neg_qnan : is_pattern F (f_neg F (qnan F)) /\ is_nan F (f_neg F (qnan F)) = true.
Proof.
  destruct (qnan_props F HF) as (P & N & S). destruct (f_neg_props F HF _ P) as (P1 & _ & M1 & _). split; auto. unfold is_nan in *. rewrite M1. auto.
Qed.
Lemma fmod_special : forall rm x y, is_pattern F x -> is_pattern F y -> let r := cc_fmod F rm x y in
  (is_nan F x = true \/ is_nan F y = true /\ mag_of F x <> 0 -> is_pattern F r /\ is_nan F r = true) /\
  (is_nan F x = false -> is_nan F y = false -> is_inf F x = true \/ mag_of F y = 0 -> is_pattern F r /\ is_nan F r = true) /\
  (is_fin F x = true -> is_inf F y = true -> r = x).
Proof.
  intros rm x y Px Py r. unfold r, cc_fmod. rewrite !(fp_is_nan_eq F HF HelF), !(fp_is_inf_eq F HF HelF), !(fp_is_zero_eq F HF), (fp_is_finite_eq F HF HelF).
  assert (ZN : forall z, mag_of F z = 0 -> is_nan F z = false /\ is_inf F z = false /\ is_fin F z = true).
  { intros z Hz. unfold is_nan, is_inf, is_fin. rewrite Hz. pose proof (inf_mag_pos F HF). lia. }
  pose proof neg_qnan as (NP & NN). destruct (qnan_props F HF) as (QP & QN & _).
  split; [|split].
  - intros [Nx|[Ny Zx]].
    + destruct (Z.eqb_spec (mag_of F x) 0) as [Z0|Z0]; [destruct (ZN x Z0); congruence|]. cbn [andb].
      assert (Ix : is_inf F x = false) by (destruct (is_inf F x) eqn:E; auto; rewrite (inf_nan F x E) in Nx; discriminate).
      rewrite Nx, Ix, (nan_fin F x Nx). rewrite !andb_false_r. cbn [andb orb]. auto.
    + replace (mag_of F x =? 0) with false by lia. destruct (Z.eqb_spec (mag_of F y) 0) as [Z0|Z0]; [destruct (ZN y Z0); congruence|].
      assert (Iy : is_inf F y = false) by (destruct (is_inf F y) eqn:E; auto; rewrite (inf_nan F y E) in Ny; discriminate).
      rewrite Ny, Iy. rewrite !andb_false_r, orb_true_r. cbn [andb orb]. auto.
  - intros Nx Ny [H|H].
    + destruct (Z.eqb_spec (mag_of F x) 0) as [Z0|Z0]; [destruct (ZN x Z0) as (_ & ? & _); congruence|]. rewrite H, Ny. cbn [andb orb negb]. auto.
    + rewrite H. change (0 =? 0) with true. rewrite Nx. cbn [negb]. rewrite andb_false_r, orb_true_r. auto.
  - intros Hx Hy. destruct (Z.eqb_spec (mag_of F y) 0) as [Z0|Z0]; [destruct (ZN y Z0) as (_ & ? & _); congruence|].
    rewrite (fin_inf F x Hx), Hx, Hy. cbn [andb orb negb]. destruct (mag_of F x =? 0); reflexivity.
Qed.
Lemma remainder_special : forall rm x y, is_pattern F x -> is_pattern F y ->
  is_nan F x = true \/ is_nan F y = true \/ is_inf F x = true \/ mag_of F y = 0 ->
  is_pattern F (cc_remainder F rm x y) /\ is_nan F (cc_remainder F rm x y) = true.
Proof.
  intros rm x y Px Py H. unfold cc_remainder. rewrite !(fp_is_nan_eq F HF HelF), !(fp_is_inf_eq F HF HelF), !(fp_is_zero_eq F HF).
  pose proof neg_qnan as NQ. destruct (is_nan F x); [rewrite orb_true_r; auto|]. destruct (is_nan F y); [rewrite !orb_true_r; auto|].
  destruct (is_inf F x); [auto|]. destruct H as [H|[H|[H|H]]]; try discriminate. rewrite H. auto.
Qed.
End Rem.
