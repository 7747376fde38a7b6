(** * exp2f and expf: the special cases and the complete functions *)
From Coq Require Import ZArith Lia Bool Reals Lra List.
From Flocq Require Import Core.
From Interval Require Import Tactic.
From Verif Require Import MachInt Fmt FloatSpec FmtProofs RoundProofs FOps FOpsProofs ExactOps NextProofs ExtFloatSpec ExtFloatProofs ExtInterp FmanipWide ErrLib ExpoData ExpoF Exp2fProofs ExpfProofs.
Import ListNotations.
Open Scope Z_scope.

Lemma abs_top_ge : forall c x, is_pattern F32 x -> 0 <= c -> (c <=? Z.land (top12f x) 0x7ff) = (c * 2 ^ 20 <=? mag_of F32 x).
Proof.
  intros c x [P1 P2] Hc. change 0x7ff with (Z.ones 11). rewrite Z.land_ones by lia. unfold top12f. rewrite Z.shiftr_div_pow2 by lia.
  change (2 ^ width F32) with (2 ^ 32) in P2. unfold mag_of. change (sign_unit F32) with (2 ^ 31).
  replace (x / 2 ^ 20 mod 2 ^ 11) with (x mod 2 ^ 31 / 2 ^ 20).
  - pose proof (Z.div_mod (x mod 2 ^ 31) (2 ^ 20) ltac:(lia)). pose proof (Z.mod_pos_bound (x mod 2 ^ 31) (2 ^ 20) ltac:(lia)).
    apply eq_true_iff_eq. rewrite !Z.leb_le. split; intros; [nia|]. apply Z.div_le_lower_bound; lia.
  - change (2 ^ 31) with (2 ^ 20 * 2 ^ 11). rewrite Z.rem_mul_r by lia.
    replace (x mod 2 ^ 20 + 2 ^ 20 * ((x / 2 ^ 20) mod 2 ^ 11)) with ((x / 2 ^ 20) mod 2 ^ 11 * 2 ^ 20 + x mod 2 ^ 20) by ring.
    rewrite Z.div_add_l by lia. rewrite (Z.div_small (x mod 2 ^ 20)) by (apply Z.mod_pos_bound; lia). ring.
Qed.
(** Magnitudes in the order of the absolute values. *)
Lemma mag_ge : forall F x c X, good_fmt F -> is_real F x X -> 0 <= c -> (c <= mag_of F x <-> (mval F c <= Rabs X)%R).
Proof.
  intros F x c X HF (P & Fi & <-) Hc. rewrite (Rabs_fval F HF) by auto. pose proof (mag_range F HF x). apply (mval_le F HF); lia.
Qed.
Lemma mval_c : forall F c, good_fmt F -> 0 <= c < inf_mag F -> mval F c = fval F c.
Proof.
  intros F c HF Hc. pose proof (gf_fl F HF). pose proof (gf_el F HF).
  assert (inf_mag F < sign_unit F). { unfold inf_mag, sign_unit, expmax. rewrite Z.pow_add_r by lia. pose proof (Z.pow_pos_nonneg 2 (fl F) ltac:(lia) ltac:(lia)). nia. }
  assert (M : mag_of F c = c) by (unfold mag_of; apply Z.mod_small; lia).
  assert (Fi : is_fin F c = true) by (unfold is_fin; rewrite M; apply Z.ltb_lt; lia).
  rewrite <- M at 1. rewrite <- (Rabs_fval F HF c Fi). apply Rabs_pos_eq. rewrite fval_fin by auto. rewrite M. unfold sg. fold (mval F c).
  replace (sign_of F c) with false. { pose proof (mval_nonneg F HF c ltac:(lia)). lra. }
  symmetry. unfold sign_of. apply Z.bits_above_log2; [lia|]. destruct (Z.eq_dec c 0); [subst; cbn; lia|]. apply Z.log2_lt_pow2; [lia|]. unfold sign_unit in *. lia.
Qed.
Lemma rounded_sgn : forall F rm x zs zs' b, rounded F rm x zs b -> x <> 0%R -> rounded F rm x zs' b.
Proof. intros F rm x zs zs' b (A & B & C) N. split; [auto|split; [|auto]]. rewrite Req_bool_false in * by auto. auto. Qed.
Lemma narrow : forall rm y W, is_real D y W -> (0 < W)%R -> rounded F32 rm W false (f_cast F64 F32 rm y).
Proof.
  intros rm y W (P & Fi & V) HW. apply rounded_sgn with (sign_of D y); [|lra]. rewrite <- V. apply f_cast_spec; auto; first [exact good64|exact good32].
Qed.
Lemma litf_r : forall m e, Z.abs m < 2 ^ 24 -> -149 <= e <= 80 -> is_real F32 (litf m e) (IZR m * bp e).
Proof.
  intros m e Hm He. pose proof (round_int_spec F32 good32 RNE false m e) as R.
  assert (G : generic_format radix2 (FLT_exp (emin F32) (prec F32)) (IZR m * bp e)) by (apply (fmt_scaled F32); [exact Hm|apply He]).
  assert (B : (Rabs (IZR m * bp e) < bp (bias F32 + 1))%R).
  { rewrite Rabs_mult, (Rabs_pos_eq (bp e)) by apply bpow_ge_0. rewrite <- abs_IZR. apply Rlt_le_trans with (bp 24 * bp e)%R.
    - apply Rmult_lt_compat_r; [apply bpow_gt_0|]. change (bp 24) with (IZR (2 ^ 24)). apply IZR_lt; auto.
    - rewrite <- bpow_plus. apply bpow_le. change (bias F32 + 1) with 128. lia. }
  destruct (rounded_repr F32 RNE _ _ _ G B R) as (P & Fi & V & _). split; auto.
Qed.
Lemma real_nan_inf : forall F x X, is_real F x X -> is_nan F x = false /\ is_inf F x = false.
Proof. intros F x X (_ & Fi & _). unfold is_nan, is_inf, is_fin in *. apply Z.ltb_lt in Fi. split; [apply Z.ltb_ge|apply Z.eqb_neq]; lia. Qed.

Section W32.
Local Notation F := binary32.
Lemma lt_r : forall a b A B, is_real F a A -> is_real F b B -> f_lt F a b = Rlt_bool A B.
Proof. intros a b A B (Pa & Fa & <-) (Pb & Fb & <-). apply (f_lt_fin F good32); auto. Qed.
Lemma gt_r : forall a b A B, is_real F a A -> is_real F b B -> f_gt F a b = Rlt_bool B A.
Proof. intros a b A B (Pa & Fa & <-) (Pb & Fb & <-). apply (f_gt_fin F good32); auto. Qed.
Lemma le_r : forall a b A B, is_real F a A -> is_real F b B -> f_le F a b = Rle_bool A B.
Proof. intros a b A B (Pa & Fa & <-) (Pb & Fb & <-). apply (f_le_fin F good32); auto. Qed.

(** *** exp2f *)
Lemma exp2f_top : forall x X, is_real F x X -> (top12f (litf 1 7) <=? Z.land (top12f x) 0x7ff) = Rle_bool 128 (Rabs X).
Proof.
  intros x X Hx. change (top12f (litf 1 7)) with 0x430. rewrite abs_top_ge by (try apply Hx; lia).
  apply eq_true_iff_eq. rewrite Z.leb_le. rewrite (mag_ge F x _ X good32 Hx) by lia.
  rewrite mval_c by (try exact good32; vm_compute; split; congruence).
  replace (fval F (0x430 * 2 ^ 20)) with 128%R.
  - destruct (Rle_bool_spec 128 (Rabs X)); split; intros; auto; try lra; discriminate.
  - unfold fval. replace (decode F (0x430 * 2 ^ 20)) with (DFin false (2 ^ 23) (-16)) by (vm_compute; reflexivity). cbn. lra.
Qed.
Lemma m149 : is_real F (litf (-149) 0) (-149). Proof. replace (-149)%R with (IZR (-149) * bp 0)%R by (cbn; ring). apply litf_r; lia. Qed.
Lemma m150 : is_real F (litf (-150) 0) (-150). Proof. replace (-150)%R with (IZR (-150) * bp 0)%R by (cbn; ring). apply litf_r; lia. Qed.
Lemma exp2f_cases : forall dm rm x X, is_real F x X -> exp2f dm rm x =
  (if Rle_bool 128 X then exp2f_overflow dm else if Rlt_bool X (-149) then exp2f_underflow dm else exp2f_main rm x).
Proof.
  intros dm rm x X Hx. unfold exp2f. rewrite (exp2f_top x X Hx). destruct (real_nan_inf F x X Hx) as [-> ->].
  rewrite (gt_r _ _ _ _ Hx (zero_r F good32)), (le_r _ _ _ _ Hx m150), (lt_r _ _ _ _ Hx m149).
  destruct (Rle_bool_spec 128 (Rabs X)) as [H|H].
  - destruct (Rlt_bool_spec 0 X) as [H0|H0].
    + rewrite Rabs_pos_eq in H by lra. rewrite Rle_bool_true; auto.
    + rewrite Rabs_left1 in H by lra. rewrite (Rle_bool_false 128) by lra. destruct (Rle_bool_spec X (-150)); [rewrite Rlt_bool_true by lra; auto|]. destruct (Rlt_bool_spec X (-149)); auto.
  - rewrite Rle_bool_false by (pose proof (Rle_abs X); lra). rewrite Rlt_bool_false; auto. apply Rabs_def2 in H. lra.
Qed.
Theorem exp2f_accuracy : forall dm rm x, is_pattern F x -> is_fin F x = true -> let X := fval F x in (-149 <= X < 128)%R ->
  exists v, (Rabs (v - Rpower 2 X) <= (match rm with RNE => bp (-33) | _ => bp (-26) end) * Rpower 2 X)%R /\ rounded F rm v false (exp2f dm rm x).
Proof.
  intros dm rm x P Fi X HX. assert (Hx : is_real F x X) by (split; auto).
  rewrite (exp2f_cases dm rm x X Hx), Rle_bool_false, Rlt_bool_false by lra.
  destruct (exp2f_core rm x X Hx ltac:(lra)) as (y & W & -> & RW & E1 & E2). exists W.
  assert (0 < Rpower 2 X)%R by apply exp_pos.
  assert (0 < W)%R. { apply Rabs_le_inv in E1. bpn_in E1. lra. }
  split; [destruct rm; auto|]. apply narrow; auto.
Qed.
Theorem exp2f_integer : forall dm rm x n, is_pattern F x -> is_fin F x = true -> fval F x = IZR n -> -149 <= n < 128 ->
  is_real F (exp2f dm rm x) (bp n).
Proof.
  intros dm rm x n P Fi V Hn. assert (Hx : is_real F x (IZR n)) by (split; auto).
  rewrite (exp2f_cases dm rm x _ Hx), Rle_bool_false, Rlt_bool_false by (try apply (IZR_lt n 128); try apply (IZR_le (-149) n); lia).
  destruct (exp2f_int rm x n Hx ltac:(lia)) as (y & -> & RY).
  pose proof (narrow rm y _ RY (bpow_gt_0 _ _)) as R.
  destruct (rounded_repr F rm (bp n) false _ ltac:(apply generic_format_bpow; unfold FLT_exp; change (emin F) with (-149); change (prec F) with 24; lia) ltac:(rewrite Rabs_pos_eq by apply bpow_ge_0; apply bpow_lt; change (bias F + 1) with 128; lia) R) as (A & B & C & _).
  split; auto.
Qed.
Theorem exp2f_over : forall dm rm x, is_pattern F x -> is_fin F x = true -> (128 <= fval F x)%R -> exp2f dm rm x = match dm with RDN | RZR => max_mag F | _ => inf_mag F end.
Proof. intros dm rm x P Fi H. rewrite (exp2f_cases dm rm x _ ltac:(split; auto)), Rle_bool_true by auto. destruct dm; reflexivity. Qed.
Theorem exp2f_under : forall dm rm x, is_pattern F x -> is_fin F x = true -> (fval F x < -149)%R -> exp2f dm rm x = match dm with RUP => 1 | _ => 0 end.
Proof. intros dm rm x P Fi H. rewrite (exp2f_cases dm rm x _ ltac:(split; auto)), Rle_bool_false, Rlt_bool_true by lra. destruct dm; reflexivity. Qed.
Lemma top_special : forall c x, is_pattern F x -> 0 <= c -> c * 2 ^ 20 <= inf_mag F -> is_fin F x = false -> (c <=? Z.land (top12f x) 0x7ff) = true.
Proof. intros c x P Hc H Fi. rewrite abs_top_ge by auto. unfold is_fin in Fi. apply Z.ltb_ge in Fi. apply Z.leb_le. lia. Qed.
Theorem exp2f_special : forall dm rm x, is_pattern F x -> (is_nan F x = true -> is_nan F (exp2f dm rm x) = true) /\
  (is_inf F x = true -> exp2f dm rm x = if sign_of F x then 0 else inf_mag F).
Proof.
  intros dm rm x P. split; intros H; unfold exp2f; change (top12f (litf 1 7)) with 0x430;
    (rewrite top_special; [|auto|lia|vm_compute; congruence|unfold is_fin, is_nan, is_inf in *; lia]).
  - replace (is_inf F x) with false by (symmetry; unfold is_nan, is_inf in *; lia). rewrite H.
    unfold f_add. rewrite (decode_of_nan F x H). apply (qnan_props F good32).
  - rewrite H. destruct (sign_of F x) eqn:S; [reflexivity|]. unfold is_inf in H. apply Z.eqb_eq in H. rewrite <- H. unfold mag_of. symmetry. apply Z.mod_small.
    rewrite (sign_of_eq F good32) in S by auto. apply Z.leb_gt in S. destruct P. lia.
Qed.

(** *** expf *)
Definition Xhi : R := (IZR 0xb17217 * bp (-17))%R.
Definition Xlo : R := (- (IZR 0x33fc6d * bp (-15)))%R.
Lemma expf_top : forall x X, is_real F x X -> (top12f (litf 88 0) <=? Z.land (top12f x) 0x7ff) = Rle_bool 88 (Rabs X).
Proof.
  intros x X Hx. change (top12f (litf 88 0)) with 0x42b. rewrite abs_top_ge by (try apply Hx; lia).
  apply eq_true_iff_eq. rewrite Z.leb_le. rewrite (mag_ge F x _ X good32 Hx) by lia.
  rewrite mval_c by (try exact good32; vm_compute; split; congruence).
  replace (fval F (0x42b * 2 ^ 20)) with 88%R.
  - destruct (Rle_bool_spec 88 (Rabs X)); split; intros; auto; try lra; discriminate.
  - unfold fval. replace (decode F (0x42b * 2 ^ 20)) with (DFin false (11 * 2 ^ 20) (-17)) by (vm_compute; reflexivity). cbn. lra.
Qed.
Lemma xhi_r : is_real F (litf 0x162e42e (-18)) Xhi.
Proof. replace (litf 0x162e42e (-18)) with (litf 0xb17217 (-17)) by (vm_compute; reflexivity). apply litf_r; lia. Qed.
Lemma xlo_r : is_real F (litf (-0x19fe368) (-18)) Xlo.
Proof. replace (litf (-0x19fe368) (-18)) with (litf (-0x33fc6d) (-15)) by (vm_compute; reflexivity). unfold Xlo. rewrite Ropp_mult_distr_l, <- opp_IZR. apply litf_r; lia. Qed.
Lemma expf_cases : forall rm x X, is_real F x X -> expf rm x =
  (if Rlt_bool Xhi X then inf_mag F else if Rlt_bool X Xlo then 1 else expf_main rm x).
Proof.
  intros rm x X Hx. unfold expf. rewrite (expf_top x X Hx). destruct (real_nan_inf F x X Hx) as [NN NI].
  rewrite (gt_r _ _ _ _ Hx xhi_r), (lt_r _ _ _ _ Hx xlo_r).
  destruct (Rle_bool_spec 88 (Rabs X)) as [H|H].
  - destruct (Z.eqb_spec x (f_inf F true)) as [->|N1]; [vm_compute in NI; discriminate|].
    change (top12f (f_inf F false)) with 0x7f8. rewrite abs_top_ge by (try apply Hx; lia).
    destruct (Z.leb_spec (0x7f8 * 2 ^ 20) (mag_of F x)) as [H2|H2].
    { destruct Hx as (_ & Fi & _). unfold is_fin in Fi. apply Z.ltb_lt in Fi. change (inf_mag F) with (0x7f8 * 2 ^ 20) in Fi. lia. }
    destruct (Rlt_bool Xhi X); [vm_compute; reflexivity|]. destruct (Rlt_bool X Xlo); [vm_compute; reflexivity|reflexivity].
  - apply Rabs_def2 in H. assert (88 < Xhi)%R by (unfold Xhi; bpn; lra). assert (Xlo < -88)%R by (unfold Xlo; bpn; lra).
    rewrite !Rlt_bool_false by lra. reflexivity.
Qed.
Theorem expf_accuracy : forall rm x, is_pattern F x -> is_fin F x = true -> let X := fval F x in (Xlo <= X <= Xhi)%R ->
  exists v, (Rabs (v - exp X) <= (match rm with RNE => bp (-33) | _ => bp (-26) end) * exp X)%R /\ rounded F rm v false (expf rm x).
Proof.
  intros rm x P Fi X HX. assert (Hx : is_real F x X) by (split; auto).
  rewrite (expf_cases rm x X Hx), !Rlt_bool_false by lra.
  destruct (expf_core rm x X Hx) as (y & W & -> & RW & E1 & E2). { apply Rabs_le. unfold Xlo, Xhi in HX. bpn_in HX. lra. }
  exists W. assert (0 < exp X)%R by apply exp_pos.
  assert (0 < W)%R. { apply Rabs_le_inv in E1. bpn_in E1. lra. }
  split; [destruct rm; auto|]. apply narrow; auto.
Qed.
Theorem expf_over : forall rm x, is_pattern F x -> is_fin F x = true -> (Xhi < fval F x)%R -> expf rm x = inf_mag F.
Proof. intros rm x P Fi H. rewrite (expf_cases rm x _ ltac:(split; auto)), Rlt_bool_true by auto. reflexivity. Qed.
Theorem expf_under : forall rm x, is_pattern F x -> is_fin F x = true -> (fval F x < Xlo)%R -> expf rm x = 1.
Proof.
  intros rm x P Fi H. rewrite (expf_cases rm x _ ltac:(split; auto)), Rlt_bool_false, Rlt_bool_true; auto.
  apply Rle_trans with Xlo; [lra|]. unfold Xlo, Xhi. bpn. lra.
Qed.
Theorem expf_special : forall rm x, is_pattern F x -> (is_nan F x = true -> is_nan F (expf rm x) = true) /\
  (is_inf F x = true -> expf rm x = if sign_of F x then 0 else inf_mag F).
Proof.
  intros rm x P. split; intros H; unfold expf; change (top12f (litf 88 0)) with 0x42b; change (top12f (f_inf F false)) with 0x7f8;
    (rewrite (top_special 0x42b); [|auto|lia|vm_compute; congruence|unfold is_fin, is_nan, is_inf in *; lia]);
    (rewrite (top_special 0x7f8); [|auto|lia|vm_compute; congruence|unfold is_fin, is_nan, is_inf in *; lia]).
  - destruct (Z.eqb_spec x (f_inf F true)) as [->|N]; [vm_compute in H; discriminate|].
    unfold f_add. rewrite (decode_of_nan F x H). apply (qnan_props F good32).
  - pose proof H as H'. unfold is_inf in H. apply Z.eqb_eq in H. pose proof (sign_of_eq F good32 x P) as SE.
    destruct (Z.eqb_spec x (f_inf F true)) as [->|N]; [reflexivity|].
    destruct (sign_of F x) eqn:S.
    + exfalso. apply N. symmetry in SE. apply Z.leb_le in SE. destruct P as [P1 P2]. unfold f_inf, sbit. rewrite <- H. unfold mag_of. change (sign_unit F) with (2 ^ 31) in *. change (2 ^ width F) with (2 ^ 32) in P2.
      replace x with ((x - 2 ^ 31) + 1 * 2 ^ 31) at 2 by ring. rewrite Z.mod_add by lia. rewrite Z.mod_small; lia.
    + replace x with (inf_mag F); [vm_compute; reflexivity|]. rewrite <- H. unfold mag_of. apply Z.mod_small. symmetry in SE. apply Z.leb_gt in SE. destruct P. lia.
Qed.
(** exp X above the threshold rounds to infinity, below it to zero. *)
Lemma exp_over : forall x, is_pattern F x -> is_fin F x = true -> (Xhi < fval F x)%R -> (bp 128 - bp 103 <= exp (fval F x))%R.
Proof.
  intros x P Fi H. assert (H' : (IZR 0xb17218 * bp (-17) <= fval F x)%R).
  { assert (R2 : is_real F (0x42b17218) (IZR 0xb17218 * bp (-17))).
    { replace 0x42b17218 with (litf 0xb17218 (-17)) by (vm_compute; reflexivity). apply litf_r; lia. }
    assert (R1 : is_real F (0x42b17217) Xhi).
    { replace 0x42b17217 with (litf 0xb17217 (-17)) by (vm_compute; reflexivity). apply litf_r; lia. }
    assert (HX : is_real F x (fval F x)) by (split; auto).
    assert (X0 : (0 < Xhi)%R) by (unfold Xhi; bpn; lra).
    rewrite <- (Rabs_pos_eq (fval F x)) in H |- * by lra.
    destruct R1 as (P1 & F1 & V1). destruct R2 as (P2 & F2 & V2). rewrite <- V2. rewrite <- V1 in H.
    rewrite <- (mval_c F 0x42b17217) in H by (try exact good32; vm_compute; split; congruence). rewrite <- (mval_c F 0x42b17218) by (try exact good32; vm_compute; split; congruence).
    apply (mag_ge F x _ _ good32 HX); [lia|]. destruct (Z.le_gt_cases (1118925336) (mag_of F x)); auto.
    exfalso. assert (mag_of F x <= 1118925335) by lia. rewrite (Rabs_fval F good32) in H by auto.
    apply (mval_lt F good32) in H; [lia|lia|]. apply (mag_range F good32). }
  bpn. bpn_in H'. apply Rle_trans with (exp (IZR 0xb17218 * / IZR 131072)); [interval with (i_prec 80)|]. apply Raux.exp_le. exact H'.
Qed.
Lemma exp_under : forall x, is_pattern F x -> is_fin F x = true -> (fval F x < Xlo)%R -> (exp (fval F x) < bp (-150))%R.
Proof.
  intros x P Fi H. assert (H' : (fval F x <= - (IZR 0xcff1b5 * bp (-17)))%R).
  { assert (R2 : is_real F (0x42cff1b5) (IZR 0xcff1b5 * bp (-17))).
    { replace 0x42cff1b5 with (litf 0xcff1b5 (-17)) by (vm_compute; reflexivity). apply litf_r; lia. }
    assert (R1 : is_real F (0x42cff1b4) (- Xlo)).
    { replace 0x42cff1b4 with (litf 0x33fc6d (-15)) by (vm_compute; reflexivity). unfold Xlo. rewrite Ropp_involutive. apply litf_r; lia. }
    assert (HX : is_real F x (fval F x)) by (split; auto).
    assert (X0 : (Xlo < 0)%R) by (unfold Xlo; bpn; lra).
    destruct R1 as (P1 & F1 & V1). destruct R2 as (P2 & F2 & V2). rewrite <- V2.
    assert (H1 : (fval F 0x42cff1b4 < Rabs (fval F x))%R) by (rewrite V1, Rabs_left; lra).
    assert (H2 : (fval F 0x42cff1b5 <= Rabs (fval F x))%R); [|rewrite Rabs_left in H2; lra].
    rewrite <- (mval_c F 0x42cff1b4) in H1 by (try exact good32; vm_compute; split; congruence). rewrite <- (mval_c F 0x42cff1b5) by (try exact good32; vm_compute; split; congruence).
    apply (mag_ge F x _ _ good32 HX); [lia|]. destruct (Z.le_gt_cases 0x42cff1b5 (mag_of F x)); auto.
    exfalso. rewrite (Rabs_fval F good32) in H1 by auto.
    apply (mval_lt F good32) in H1; [lia|lia|]. apply (mag_range F good32). }
  apply Rle_lt_trans with (exp (- (IZR 0xcff1b5 * bp (-17)))); [apply Raux.exp_le; auto|]. bpn.
  interval with (i_prec 80).
Qed.

(** *** Correct rounding far outside the range *)
Lemma fround_tiny : forall rm v, (0 < v < bp (-126))%R -> fround F rm v = (IZR (rnd rm (v * bp 149)) * bp (-149))%R.
Proof.
  intros rm v H. unfold fround, round, F2R, scaled_mantissa. cbn [Fnum Fexp].
  replace (cexp radix2 (FLT_exp (emin F) (prec F)) v) with (-149); [reflexivity|].
  unfold cexp, FLT_exp. change (emin F) with (-149). change (prec F) with 24.
  assert (mag radix2 v <= -126) by (apply mag_le_bpow; [lra|rewrite Rabs_pos_eq; lra]). lia.
Qed.
Lemma znear_half : forall y, (0 <= y <= / 2)%R -> rnd RNE y = 0.
Proof.
  intros y H. cbn [rnd]. destruct (Req_dec y (/ 2)) as [->|N].
  - unfold Znearest. replace (Zfloor (/ 2)) with 0 by (symmetry; apply Zfloor_imp; rewrite plus_IZR; lra). rewrite Rminus_0_r, Rcompare_Eq by auto. reflexivity.
  - apply Znearest_imp. rewrite Rabs_pos_eq; lra.
Qed.
Lemma rounded_tiny : forall dm v, (0 < v < bp (-149))%R -> (dm = RNE -> (v <= bp (-150))%R) -> rounded F dm v false (match dm with RUP => 1 | _ => 0 end).
Proof.
  intros dm v H HN. pose proof (bpow_gt_0 radix2 149) as B149.
  assert (BB : (bp (-149) * bp 149 = 1)%R) by (rewrite <- bpow_plus; reflexivity).
  assert (Y : (0 < v * bp 149 < 1)%R) by (split; [apply Rmult_lt_0_compat; lra|]; rewrite <- BB; apply Rmult_lt_compat_r; lra).
  assert (VS : (0 < v < bp (-126))%R) by (split; [lra|]; apply Rlt_trans with (bp (-149)); [lra|apply bpow_lt; lia]).
  assert (Z0 : is_real F 0 0) by apply (zero_r F good32).
  assert (Z1 : is_real F 1 (bp (-149))).
  { split; [split; vm_compute; congruence|split; [vm_compute; reflexivity|]]. unfold fval. replace (decode F 1) with (DFin false 1 (-149)) by (vm_compute; reflexivity). cbn [dval]. ring. }
  assert (E : is_real F (match dm with RUP => 1 | _ => 0 end) (fround F dm v)).
  { rewrite fround_tiny by auto. destruct dm.
    - rewrite znear_half. { rewrite Rmult_0_l. exact Z0. } specialize (HN eq_refl). split; [lra|]. replace (/ 2)%R with (bp (-150) * bp 149)%R by (rewrite <- bpow_plus; reflexivity). apply Rmult_le_compat_r; lra.
    - cbn [rnd]. replace (Zfloor (v * bp 149)) with 0 by (symmetry; apply Zfloor_imp; rewrite plus_IZR; lra). rewrite Rmult_0_l. exact Z0.
    - cbn [rnd]. replace (Zceil (v * bp 149)) with 1 by (symmetry; apply Zceil_imp; rewrite minus_IZR; lra). rewrite Rmult_1_l. exact Z1.
    - cbn [rnd]. rewrite Ztrunc_floor by lra. replace (Zfloor (v * bp 149)) with 0 by (symmetry; apply Zfloor_imp; rewrite plus_IZR; lra). rewrite Rmult_0_l. exact Z0. }
  destruct E as (P & Fi & V). split; [exact P|]. split; [|split].
  - rewrite Req_bool_false, Rlt_bool_false by lra. destruct dm; reflexivity.
  - intros _. split; auto.
  - intros HB. exfalso. rewrite <- V in HB. pose proof (fin_bound F good32 _ Fi). lra.
Qed.
Lemma rounded_huge : forall dm v, (bp 128 <= v)%R -> rounded F dm v false (match dm with RDN | RZR => max_mag F | _ => inf_mag F end).
Proof.
  intros dm v H. pose proof (bpow_gt_0 radix2 128).
  assert (G : (bp 128 <= fround F dm v)%R).
  { apply (RemProofs.fround_ge_gen F good32); auto. apply generic_format_bpow. vm_compute. congruence. }
  split; [destruct dm; split; vm_compute; congruence|]. split; [rewrite Req_bool_false, Rlt_bool_false by lra; destruct dm; reflexivity|].
  change (bias F + 1) with 128. rewrite Rabs_pos_eq by lra. split; [intros; lra|]. intros _. rewrite Rlt_bool_false by lra. destruct dm; vm_compute; reflexivity.
Qed.
Theorem exp2f_outside : forall dm rm x, is_pattern F x -> is_fin F x = true -> let X := fval F x in (128 <= X \/ X < -149)%R -> (dm = RNE -> 128 <= X \/ X <= -150)%R ->
  rounded F dm (Rpower 2 X) false (exp2f dm rm x).
Proof.
  intros dm rm x P Fi X HX HN. destruct HX as [HX|HX].
  - rewrite exp2f_over by auto. apply rounded_huge. rewrite <- Rpower2_Z. apply Rle_Rpower; auto. lra.
  - rewrite exp2f_under by auto. apply rounded_tiny.
    + split; [apply exp_pos|]. rewrite <- Rpower2_Z. apply Rpower_lt; auto. lra.
    + intros EN. destruct (HN EN) as [HN'|HN']; [lra|]. rewrite <- Rpower2_Z. apply Rle_Rpower; auto. lra.
Qed.
Lemma near_one_ulp : forall v, (bp (-150) < v < bp (-149))%R -> fround F RNE v = bp (-149).
Proof.
  intros v H. pose proof (bpow_gt_0 radix2 (-150)). pose proof (bpow_gt_0 radix2 149).
  rewrite fround_tiny. 2: { split; [lra|]. apply Rlt_trans with (bp (-149)); [lra|apply bpow_lt; lia]. }
  replace (rnd RNE (v * bp 149)) with 1; [ring|]. symmetry. cbn [rnd]. apply Znearest_imp. apply Rabs_def1.
  - assert (v * bp 149 < 1)%R; [|lra]. replace 1%R with (bp (-149) * bp 149)%R by (rewrite <- bpow_plus; reflexivity). apply Rmult_lt_compat_r; lra.
  - assert (/ 2 < v * bp 149)%R; [|lra]. replace (/ 2)%R with (bp (-150) * bp 149)%R by (rewrite <- bpow_plus; reflexivity). apply Rmult_lt_compat_r; lra.
Qed.
Lemma one_rounded : forall v, (bp (-150) < v < bp (-149))%R -> rounded F RNE v false 1.
Proof.
  intros v H. pose proof (bpow_gt_0 radix2 (-150)) as B. pose proof (near_one_ulp v H) as E.
  split; [split; vm_compute; congruence|]. split; [rewrite Req_bool_false, Rlt_bool_false by lra; reflexivity|]. rewrite E. split.
  - intros _. split; [vm_compute; reflexivity|]. unfold fval. replace (decode F 1) with (DFin false 1 (-149)) by (vm_compute; reflexivity). cbn [dval]. ring.
  - intros HB. exfalso. rewrite Rabs_pos_eq in HB by apply bpow_ge_0. apply le_bpow in HB. vm_compute in HB. congruence.
Qed.
Theorem expf_outside : forall x, is_pattern F x -> is_fin F x = true -> let X := fval F x in
  ((Xhi < X)%R -> rounded F RNE (exp X) false (inf_mag F)) /\ ((X < Xlo)%R -> rounded F RNE (exp X) false 0).
Proof.
  intros x P Fi X. split; intros H.
  - pose proof (exp_over x P Fi H) as HO. fold X in HO. pose proof (exp_pos X) as HP.
    assert (G : (bp 128 <= fround F RNE (exp X))%R).
    { apply Rle_trans with (fround F RNE (bp 128 - bp 103)); [|unfold fround; pose proof (RemProofs.VE F good32); pose proof (RemProofs.VR RNE); apply round_le; auto].
      unfold fround, round, F2R, scaled_mantissa. cbn [Fnum Fexp].
      replace (cexp radix2 (FLT_exp (emin F) (prec F)) (bp 128 - bp 103)) with 104.
      - replace ((bp 128 - bp 103) * bp (- (104)))%R with (IZR (2 ^ 24 - 1) + / 2)%R.
        2: { rewrite Rmult_minus_distr_r, <- !bpow_plus. change (128 + - (104)) with 24. change (103 + - (104)) with (-1). change (bp 24) with 16777216%R. change (bp (-1)) with (/ 2)%R. change (2 ^ 24 - 1) with 16777215. lra. }
        cbn [rnd].
        replace (ZnearestE (IZR (2 ^ 24 - 1) + / 2)) with (2 ^ 24). { change (IZR (2 ^ 24)) with (bp 24). rewrite <- bpow_plus. apply Rle_refl. }
        unfold Znearest. replace (Zfloor (IZR (2 ^ 24 - 1) + / 2)) with (2 ^ 24 - 1) by (symmetry; apply Zfloor_imp; rewrite plus_IZR; lra).
        rewrite Rcompare_Eq by ring. change (negb (Z.even (2 ^ 24 - 1))) with true. cbv iota. symmetry. apply Zceil_imp. change (IZR (2 ^ 24 - 1)) with 16777215%R. change (IZR (2 ^ 24 - 1 )) with 16777215%R. split; [change (2 ^ 24 - 1) with 16777215; lra|change (2 ^ 24) with 16777216; lra].
      - symmetry. unfold cexp. replace (mag radix2 (bp 128 - bp 103) : Z) with 128; [reflexivity|]. symmetry. apply mag_unique. rewrite Rabs_pos_eq; bpn; lra. }
    split; [split; vm_compute; congruence|]. split; [rewrite Req_bool_false, Rlt_bool_false by lra; reflexivity|].
    change (bias F + 1) with 128. pose proof (bpow_gt_0 radix2 128). rewrite Rabs_pos_eq by lra. split; [intros; lra|]. intros _. rewrite Rlt_bool_false by lra. vm_compute; reflexivity.
  - pose proof (exp_under x P Fi H) as HU. fold X in HU. apply (rounded_tiny RNE).
    + split; [apply exp_pos|]. apply Rlt_trans with (1 := HU). apply bpow_lt. lia.
    + intros _. lra.
Qed.
End W32.
