(** * Rounding errors of binary64 arithmetic; the shift trick; scaling by the exponent field *)
From Coq Require Import ZArith Lia Bool Reals Lra.
From Flocq Require Import Core Relative.
From Verif Require Import MachInt Fmt FloatSpec FmtProofs RoundProofs FOps FOpsProofs ExactOps RemProofs ExtFloatSpec ExtFloatProofs ExtInterp FmanipWide.
Open Scope Z_scope.

Notation D := binary64.
Notation fexpD := (FLT_exp (emin D) (prec D)).
Notation bp := (bpow radix2).

Lemma pD : Prec_gt_0 (prec D). Proof. unfold Prec_gt_0. vm_compute. reflexivity. Qed.
Lemma VED : Valid_exp fexpD. Proof. apply (VE D good64). Qed.
Lemma rnd_err1 : forall rm x, (Rabs (IZR (rnd rm x) - x) <= 1)%R.
Proof.
  intros rm x. destruct rm; cbn [rnd].
  - apply Rle_trans with (/ 2)%R; [|lra]. rewrite Rabs_minus_sym. apply Znearest_half.
  - pose proof (Zfloor_lb x). pose proof (Zfloor_ub x). apply Rabs_le. lra.
  - pose proof (Zceil_ub x). pose proof (Zceil_lb x). apply Rabs_le. lra.
  - unfold Ztrunc. destruct (Rlt_bool x 0).
    + pose proof (Zceil_ub x). pose proof (Zceil_lb x). apply Rabs_le. lra.
    + pose proof (Zfloor_lb x). pose proof (Zfloor_ub x). apply Rabs_le. lra.
Qed.
Lemma rnd_errh : forall x, (Rabs (IZR (rnd RNE x) - x) <= / 2)%R.
Proof. intros x. cbn [rnd]. rewrite Rabs_minus_sym. apply Znearest_half. Qed.

(** Absolute error of one rounding, any mode. *)
Lemma err_abs : forall rm x k, -1021 <= k -> (Rabs x <= bp k)%R -> (Rabs (fround D rm x - x) <= bp (k - 53))%R.
Proof.
  intros rm x k Hk H. pose proof pD as PP. pose proof VED as VE'.
  destruct (Req_dec (Rabs x) (bp k)) as [E|N].
  - rewrite (fround_exact D rm x).
    + rewrite Rminus_diag_eq, Rabs_R0 by auto. apply bpow_ge_0.
    + apply generic_format_abs_inv. rewrite E. apply generic_format_bpow. unfold FLT_exp. change (emin D) with (-1074). change (prec D) with 53. lia.
  - assert (L : (Rabs x < bp k)%R) by lra. clear N. destruct (Req_dec x 0) as [Z|NZ].
    { subst x. unfold fround. rewrite round_0 by apply VR. rewrite Rminus_diag_eq, Rabs_R0 by auto. apply bpow_ge_0. }
    apply Rle_trans with (ulp radix2 fexpD x).
    + left. apply error_lt_ulp; auto. apply VR.
    + rewrite ulp_neq_0 by auto. apply bpow_le. unfold cexp, FLT_exp. change (emin D) with (-1074). change (prec D) with 53.
      pose proof (mag_le_bpow radix2 x k NZ L). lia.
Qed.
Lemma bound_big : forall rm x k, k <= 1023 -> (Rabs x <= bp k)%R -> (Rabs (fround D rm x) < bp (bias D + 1))%R.
Proof.
  intros rm x k Hk H. apply Rle_lt_trans with (bp 1023); [|apply bpow_lt; reflexivity].
  assert (G : generic_format radix2 fexpD (bp 1023)) by (apply generic_format_bpow; vm_compute; congruence).
  assert (H' : (Rabs x <= bp 1023)%R) by (apply Rle_trans with (1 := H); apply bpow_le; auto). apply Rabs_le_inv in H'.
  apply Rabs_le. split; [apply (fround_ge_gen D good64); [apply generic_format_opp; auto|lra]|apply (fround_le_gen D good64); [auto|lra]].
Qed.

(** One operation with its error. *)
Lemma add_e : forall rm a b A B k, is_real D a A -> is_real D b B -> -1021 <= k <= 1023 -> (Rabs (A + B) <= bp k)%R ->
  exists e, (Rabs e <= bp (k - 53))%R /\ is_real D (f_add D rm a b) (A + B + e).
Proof.
  intros rm a b A B k Ha Hb Hk H. exists (fround D rm (A + B) - (A + B))%R. split; [apply err_abs; [lia|auto]|].
  replace (A + B + (fround D rm (A + B) - (A + B)))%R with (fround D rm (A + B)) by ring.
  apply (add_r D good64); auto. apply bound_big with (2 := H). lia.
Qed.
Lemma sub_e : forall rm a b A B k, is_real D a A -> is_real D b B -> -1021 <= k <= 1023 -> (Rabs (A - B) <= bp k)%R ->
  exists e, (Rabs e <= bp (k - 53))%R /\ is_real D (f_sub D rm a b) (A - B + e).
Proof.
  intros rm a b A B k Ha Hb Hk H. exists (fround D rm (A - B) - (A - B))%R. split; [apply err_abs; [lia|auto]|].
  replace (A - B + (fround D rm (A - B) - (A - B)))%R with (fround D rm (A - B)) by ring.
  apply (sub_r D good64); auto. apply bound_big with (2 := H). lia.
Qed.
Lemma mul_e : forall rm a b A B k, is_real D a A -> is_real D b B -> -1021 <= k <= 1023 -> (Rabs (A * B) <= bp k)%R ->
  exists e, (Rabs e <= bp (k - 53))%R /\ is_real D (f_mul D rm a b) (A * B + e).
Proof.
  intros rm a b A B k Ha Hb Hk H. exists (fround D rm (A * B) - (A * B))%R. split; [apply err_abs; [lia|auto]|].
  replace (A * B + (fround D rm (A * B) - (A * B)))%R with (fround D rm (A * B)) by ring.
  apply (mul_r D good64); auto. apply bound_big with (2 := H). lia.
Qed.
Lemma div_e : forall rm a b A B k, is_real D a A -> is_real D b B -> B <> 0%R -> -1021 <= k <= 1023 -> (Rabs (A / B) <= bp k)%R ->
  exists e, (Rabs e <= bp (k - 53))%R /\ is_real D (f_div D rm a b) (A / B + e).
Proof.
  intros rm a b A B k Ha Hb N Hk H. exists (fround D rm (A / B) - (A / B))%R. split; [apply err_abs; [lia|auto]|].
  replace (A / B + (fround D rm (A / B) - (A / B)))%R with (fround D rm (A / B)) by ring.
  apply (div_r D good64); auto. apply bound_big with (2 := H). lia.
Qed.

(** Literals. *)
Lemma lit_r : forall s m e, Z.abs m < 2 ^ 53 -> -1074 <= e <= 900 -> is_real D (round_int D RNE s m e) (IZR m * bp e).
Proof.
  intros s m e Hm He. pose proof (round_int_spec D good64 RNE s m e) as R.
  assert (G : generic_format radix2 fexpD (IZR m * bp e)) by (apply (fmt_scaled D); [exact Hm|apply He]).
  assert (B : (Rabs (IZR m * bp e) < bp (bias D + 1))%R).
  { rewrite Rabs_mult, (Rabs_pos_eq (bp e)) by apply bpow_ge_0. rewrite <- abs_IZR. apply Rlt_le_trans with (bp 53 * bp e)%R.
    - apply Rmult_lt_compat_r; [apply bpow_gt_0|]. change (bp 53) with (IZR (2 ^ 53)). apply IZR_lt; auto.
    - rewrite <- bpow_plus. apply bpow_le. change (bias D + 1) with 1024. lia. }
  destruct (rounded_repr D RNE _ _ _ G B R) as (P & Fi & V & _). split; auto.
Qed.

(** Positive normal patterns. *)
Lemma pos_pat : forall p, 2 ^ 52 <= p < 2047 * 2 ^ 52 -> is_real D p (IZR (2 ^ 52 + p mod 2 ^ 52) * bp (p / 2 ^ 52 - 1075)).
Proof.
  intros p Hp. assert (P : is_pattern D p) by (split; [lia|]; change (2 ^ width D) with (2 ^ 64); lia).
  assert (M : mag_of D p = p) by (unfold mag_of; apply Z.mod_small; change (sign_unit D) with (2 ^ 63); lia).
  assert (Fi : is_fin D p = true) by (unfold is_fin; rewrite M; apply Z.ltb_lt; apply Hp).
  split; [auto|split; [auto|]]. unfold fval, decode. rewrite M. replace (p <? inf_mag D) with true by (symmetry; apply Z.ltb_lt; apply Hp).
  cbn [dval]. replace (sign_of D p) with false.
  2: { symmetry. rewrite (sign_of_eq D good64) by auto. apply Z.leb_gt. change (sign_unit D) with (2 ^ 63). lia. }
  unfold sig_of, exp_of. change (fl D) with 52. change (emin D) with (-1074). destruct (Z.ltb_spec p (2 ^ 52)); [lia|]. rewrite Rmult_1_l. do 2 f_equal. lia.
Qed.
(** Adding to the exponent field. *)
Lemma scale_pat : forall p j V, 2 ^ 52 <= p < 2047 * 2 ^ 52 -> 1 <= p / 2 ^ 52 + j <= 2046 -> is_real D p V -> is_real D (p + j * 2 ^ 52) (V * bp j).
Proof.
  intros p j V Hp Hj (_ & _ & HV). destruct (pos_pat p Hp) as (_ & _ & HP). rewrite HP in HV. subst V.
  assert (Q : p + j * 2 ^ 52 = (p / 2 ^ 52 + j) * 2 ^ 52 + p mod 2 ^ 52) by (pose proof (Z.div_mod p (2 ^ 52)); lia).
  pose proof (Z.mod_pos_bound p (2 ^ 52) ltac:(lia)) as MB.
  pose proof (pos_pat (p + j * 2 ^ 52) ltac:(lia)) as X. rewrite Z.mod_add, Z.div_add in X by lia.
  rewrite Rmult_assoc, <- bpow_plus. replace (p / 2 ^ 52 - 1075 + j) with (p / 2 ^ 52 + j - 1075) by ring. exact X.
Qed.
Lemma real_unique : forall a b V, is_real D a V -> is_real D b V -> V <> 0%R -> a = b.
Proof. intros a b V (Pa & Fa & Va) (Pb & Fb & Vb) N. apply (fval_inj D good64); auto; congruence. Qed.

(** Rounding to a multiple of 2^-b by adding 3 * 2^(51-b) (the shift constant 0x1.8p(52-b)). *)
Lemma shift_trick : forall rm b xd X, 0 <= b <= 40 -> is_real D xd X -> (Rabs X <= bp (50 - b))%R ->
  let sp := (1075 - b) * 2 ^ 52 + 2 ^ 51 in
  exists k, f_add D rm xd sp = sp + k /\ - 2 ^ 50 <= k <= 2 ^ 50 /\ is_real D (f_sub D rm (f_add D rm xd sp) sp) (IZR k * bp (- b)) /\
    (Rabs (X - IZR k * bp (- b)) <= bp (- b))%R /\ (rm = RNE -> (Rabs (X - IZR k * bp (- b)) <= bp (- b - 1))%R) /\
    (forall m, X = (IZR m * bp (- b))%R -> k = m).
Proof.
  intros rm b xd X Hb Hx HX sp.
  assert (SP : is_real D sp (IZR (3 * 2 ^ 51) * bp (- b))).
  { pose proof (pos_pat sp ltac:(unfold sp; lia)) as H. replace (sp mod 2 ^ 52) with (2 ^ 51) in H. replace (sp / 2 ^ 52) with (1075 - b) in H.
    - replace (1075 - b - 1075) with (- b) in H by ring. exact H.
    - unfold sp. rewrite Z.div_add_l by lia. change (2 ^ 51 / 2 ^ 52) with 0. ring.
    - unfold sp. rewrite Z.add_comm, Z.mod_add by lia. reflexivity. }
  set (S := (IZR (3 * 2 ^ 51) * bp (- b))%R) in *.
  assert (B0 : (0 < bp (- b))%R) by apply bpow_gt_0.
  assert (E50 : bp (50 - b) = (IZR (2 ^ 50) * bp (- b))%R) by (change (IZR (2 ^ 50)) with (bp 50); rewrite <- bpow_plus; f_equal; ring).
  set (y := ((X + S) * bp b)%R).
  assert (BB : (bp (- b) * bp b = 1)%R) by (rewrite <- bpow_plus; replace (- b + b) with 0 by ring; reflexivity).
  assert (Y : y = (X * bp b + IZR (3 * 2 ^ 51))%R) by (unfold y, S; rewrite Rmult_plus_distr_r, (Rmult_assoc (IZR _)), BB; ring).
  assert (XB : (Rabs (X * bp b) <= IZR (2 ^ 50))%R).
  { rewrite Rabs_mult, (Rabs_pos_eq (bp b)) by apply bpow_ge_0. rewrite E50 in HX. apply Rle_trans with (IZR (2 ^ 50) * bp (- b) * bp b)%R.
    - apply Rmult_le_compat_r; [apply bpow_ge_0|auto]. - rewrite Rmult_assoc, BB. lra. }
  apply Rabs_le_inv in XB.
  set (n := rnd rm y).
  assert (VR' : Valid_rnd (rnd rm)) by apply VR.
  assert (NB : 3 * 2 ^ 51 - 2 ^ 50 <= n <= 3 * 2 ^ 51 + 2 ^ 50).
  { unfold n. split.
    - rewrite <- (@Zrnd_IZR (rnd rm) VR' (3 * 2 ^ 51 - 2 ^ 50)). apply (@Zrnd_le (rnd rm) VR'). rewrite Y. apply Rle_trans with (IZR (3 * 2 ^ 51) - IZR (2 ^ 50))%R; [rewrite <- minus_IZR; apply Rle_refl|lra].
    - rewrite <- (@Zrnd_IZR (rnd rm) VR' (3 * 2 ^ 51 + 2 ^ 50)). apply (@Zrnd_le (rnd rm) VR'). rewrite Y. apply Rle_trans with (IZR (3 * 2 ^ 51) + IZR (2 ^ 50))%R; [lra|rewrite <- plus_IZR; apply Rle_refl]. }
  assert (YB : (IZR (2 ^ 52) <= y < IZR (2 ^ 53))%R).
  { rewrite Y. pose proof (IZR_lt (2 ^ 52) (3 * 2 ^ 51 - 2 ^ 50) ltac:(reflexivity)) as L1. pose proof (IZR_lt (3 * 2 ^ 51 + 2 ^ 50) (2 ^ 53) ltac:(reflexivity)) as L2.
    rewrite minus_IZR in L1. rewrite plus_IZR in L2. lra. }
  assert (XS : (X + S = y * bp (- b))%R) by (unfold y; rewrite Rmult_assoc, (Rmult_comm (bp b)), BB; ring).
  assert (MG : mag radix2 (X + S) = 53 - b :> Z).
  { apply mag_unique. rewrite XS, Rabs_mult, (Rabs_pos_eq (bp (- b))), (Rabs_pos_eq y) by first [apply bpow_ge_0 | pose proof (IZR_lt 0 (2 ^ 52) ltac:(reflexivity)); lra].
    replace (53 - b - 1) with (52 + - b) by ring. replace (53 - b) with (53 + - b) by ring. rewrite !bpow_plus.
    change (bp 52) with (IZR (2 ^ 52)). change (bp 53) with (IZR (2 ^ 53)). split; [apply Rmult_le_compat_r|apply Rmult_lt_compat_r]; lra. }
  assert (CE : cexp radix2 fexpD (X + S) = - b).
  { unfold cexp, FLT_exp. rewrite MG. change (emin D) with (-1074). change (prec D) with 53. lia. }
  assert (FR : fround D rm (X + S) = (IZR n * bp (- b))%R).
  { unfold fround, round, F2R, scaled_mantissa. cbn [Fnum Fexp]. rewrite CE. rewrite Z.opp_involutive. reflexivity. }
  assert (YN : (Rabs (IZR n - y) <= 1)%R) by apply rnd_err1.
  assert (A : is_real D (f_add D rm xd sp) (IZR n * bp (- b))).
  { rewrite <- FR. apply (add_r D good64); auto. rewrite FR, Rabs_mult, (Rabs_pos_eq (bp (- b))) by lra.
    apply Rlt_le_trans with (bp 53 * bp (- b))%R.
    - apply Rmult_lt_compat_r; [auto|]. rewrite <- abs_IZR. change (bp 53) with (IZR (2 ^ 53)). apply IZR_lt. lia.
    - rewrite <- bpow_plus. apply bpow_le. change (bias D + 1) with 1024. lia. }
  exists (n - 3 * 2 ^ 51). 
  assert (PT : f_add D rm xd sp = sp + (n - 3 * 2 ^ 51)).
  { apply real_unique with (1 := A).
    - pose proof (pos_pat (sp + (n - 3 * 2 ^ 51)) ltac:(unfold sp; lia)) as H.
      assert (Q : sp + (n - 3 * 2 ^ 51) = (1075 - b) * 2 ^ 52 + (n - 2 ^ 52)) by (unfold sp; ring).
      rewrite Q in *. rewrite Z.div_add_l, (Z.div_small (n - 2 ^ 52)) in H by lia. rewrite Z.add_comm, Z.mod_add, Z.mod_small in H by lia.
      replace (2 ^ 52 + (n - 2 ^ 52)) with n in H by ring. replace (1075 - b + 0 - 1075) with (- b) in H by ring. rewrite Z.add_comm. exact H.
    - apply Rgt_not_eq. apply Rmult_lt_0_compat; [apply IZR_lt; lia|auto]. }
  assert (KX : (X - IZR (n - 3 * 2 ^ 51) * bp (- b) = (y - IZR n) * bp (- b))%R).
  { rewrite minus_IZR. replace X with (X + S - S)%R by ring. rewrite XS. unfold S. ring. }
  split; [auto|]. split; [lia|]. split.
  - apply (sub_x D good64 rm _ _ _ _ _ A SP).
    + unfold S. rewrite minus_IZR. ring.
    + apply (fmt_scaled D); [change (2 ^ prec D) with (2 ^ 53); lia|change (emin D) with (-1074); lia].
    + rewrite Rabs_mult, (Rabs_pos_eq (bp (- b))), <- abs_IZR by lra. apply Rlt_le_trans with (bp 53 * bp (- b))%R.
      * apply Rmult_lt_compat_r; [auto|]. change (bp 53) with (IZR (2 ^ 53)). apply IZR_lt. lia.
      * rewrite <- bpow_plus. apply bpow_le. change (bias D + 1) with 1024. lia.
  - rewrite KX, Rabs_mult, (Rabs_pos_eq (bp (- b))), Rabs_minus_sym by lra. split.
    + rewrite <- (Rmult_1_l (bp (- b))) at 2. apply Rmult_le_compat_r; lra.
    + split.
      * intros ->. replace (- b - 1) with (-1 + - b) by ring. rewrite bpow_plus. apply Rmult_le_compat_r; [lra|]. change (bp (-1)) with (/ 2)%R. apply rnd_errh.
      * intros m EM. unfold n. rewrite Y, EM, Rmult_assoc, BB, Rmult_1_r, <- plus_IZR, Zrnd_IZR by auto. ring.
Qed.
