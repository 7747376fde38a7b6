(** * log1p: the argument checks, the arguments away from zero and the exact remainders *)
From Coq Require Import ZArith Lia Bool Reals Lra List.
From Flocq Require Import Core Relative.
From Interval Require Import Tactic.
From Verif Require Import MachInt Fmt FloatSpec FmtProofs RoundProofs FOps FOpsProofs ExactOps ExtFloatSpec ExtFloatProofs ExtInterp RemProofs FmanipWide ErrLib ExpoData LogDataD ExpoF LogD ExpM1 Log1p Exp2fProofs ExpoFWrap LogfNum LogfWrap Expm1Proofs HypotProofs RelErr Log1pNum.
Import ListNotations.
Open Scope Z_scope.

Section Wrap.
Context (F : fmt) (HF : good_fmt F) (M1 : is_real F (f_one F true) (-1)).
Theorem log1p_wrapper_spec : forall impl x, is_pattern F x -> let r := log1p_wrapper F impl x in
  (is_nan F x = true -> r = qnan F) /\ (mag_of F x = 0 -> r = x) /\ (x = inf_mag F -> r = inf_mag F) /\
  (is_fin F x = true -> fval F x = (-1)%R -> r = f_inf F true) /\
  (x = f_inf F true \/ is_fin F x = true /\ (fval F x < -1)%R -> r = sbit F true + qnan F) /\
  (is_fin F x = true -> (-1 < fval F x)%R -> fval F x <> 0%R -> r = impl x).
Proof.
  intros impl x P r. unfold r, log1p_wrapper. rewrite zero_pat. destruct M1 as (Pm & Fm & Vm).
  assert (NF : is_fin F x = true -> is_nan F x = false /\ (x =? inf_mag F) = false).
  { intros Fi. split; [unfold is_nan, is_fin in *; apply Z.ltb_lt in Fi; apply Z.ltb_ge; lia|]. apply Z.eqb_neq. intros ->. destruct (inf_facts F HF) as (_ & _ & M & _). unfold is_fin in Fi. rewrite M in Fi. apply Z.ltb_lt in Fi. lia. }
  assert (NZ : is_fin F x = true -> fval F x <> 0%R -> (mag_of F x =? 0) = false).
  { intros Fi N. apply Z.eqb_neq. intros M. destruct (zero_mag_val F HF x M) as [_ V]. lra. }
  repeat match goal with |- _ /\ _ => split end.
  - intros N. rewrite (eq_nan F), N by auto. reflexivity.
  - intros M. rewrite (f_eq_zero F HF), M. reflexivity.
  - intros ->. destruct (inf_facts F HF) as (N & S & M & PI & IS). rewrite (f_eq_zero F HF), M. replace (inf_mag F =? 0) with false by (symmetry; apply Z.eqb_neq; lia).
    rewrite N, (eq_inf F HF), Z.eqb_refl by auto. reflexivity.
  - intros Fi V. destruct (NF Fi) as [N1 N2]. rewrite (f_eq_zero F HF), (NZ Fi), N1, (eq_inf F HF), N2, (f_eq_fin F HF) by (auto; lra). rewrite V, Vm, Req_bool_true by auto. reflexivity.
  - intros [->|[Fi V]].
    + destruct (inf_facts F HF) as (_ & _ & _ & _ & IS). pose proof (sign_of_eq F HF (f_inf F true) P) as S. pose proof (split_pat F HF (f_inf F true) P) as E. unfold f_inf in *. change (sbit F true) with (sign_unit F) in *.
      assert (SX : sign_of F (sign_unit F + inf_mag F) = true) by (rewrite S; apply Z.leb_le; lia). rewrite SX in E. change (sbit F true) with (sign_unit F) in E. assert (MX : mag_of F (sign_unit F + inf_mag F) = inf_mag F) by lia.
      assert (NX : is_nan F (sign_unit F + inf_mag F) = false) by (unfold is_nan; rewrite MX; apply Z.ltb_ge; lia).
      rewrite (f_eq_zero F HF), MX. replace (inf_mag F =? 0) with false by (symmetry; apply Z.eqb_neq; lia). rewrite NX. change (sbit F false + inf_mag F) with (f_inf F false). rewrite (eq_inf F HF) by auto. replace (sign_unit F + inf_mag F =? inf_mag F) with false by (symmetry; apply Z.eqb_neq; lia).
      assert (MM : mag_of F (f_one F true) < inf_mag F) by (unfold is_fin in Fm; apply Z.ltb_lt in Fm; auto). pose proof (mag_range F HF (f_one F true)) as MR.
      assert (NM : is_nan F (f_one F true) = false) by (unfold is_nan; apply Z.ltb_ge; lia).
      unfold f_eq, f_lt, f_cmp. rewrite NX, NM, SX, MX. cbn [orb]. replace (szval true (inf_mag F) ?= szval (sign_of F (f_one F true)) (mag_of F (f_one F true))) with Lt; [reflexivity|]. symmetry. apply Z.compare_lt_iff. unfold szval. destruct (sign_of F (f_one F true)); lia.
    + destruct (NF Fi) as [N1 N2]. rewrite (f_eq_zero F HF), (NZ Fi), N1, (eq_inf F HF), N2, (f_eq_fin F HF), (f_lt_fin F HF) by (auto; lra). rewrite Vm, Req_bool_false, Rlt_bool_true by lra. reflexivity.
  - intros Fi V N. destruct (NF Fi) as [N1 N2]. rewrite (f_eq_zero F HF), (NZ Fi), N1, (eq_inf F HF), N2, (f_eq_fin F HF), (f_lt_fin F HF) by (auto; lra). rewrite Vm, Req_bool_false, Rlt_bool_false by lra. reflexivity.
Qed.
End Wrap.

Lemma mag_lt : forall F x c X, good_fmt F -> is_real F x X -> 0 <= c < inf_mag F -> (mag_of F x < c <-> (Rabs X < fval F c)%R).
Proof.
  intros F x c X HF Hx Hc. pose proof (mag_ge F x c X HF Hx ltac:(lia)) as M. rewrite (mval_c F c HF Hc) in M. split; intros H.
  - apply Rnot_le_lt. intros C. apply M in C. lia.
  - apply Znot_ge_lt. intros C. apply Z.ge_le in C. apply M in C. lra.
Qed.
(** Multiples of a power of two. *)
Section Mult.
Context (F : fmt) (HF : good_fmt F) (H24 : 24 <= prec F) (Hem : emin F <= - 2 * prec F) (Hb : 4 <= bias F).
Notation fexp := (FLT_exp (emin F) (prec F)).
Notation big := (bp (bias F + 1)).
Lemma multF : forall x k, generic_format radix2 fexp x -> emin F + prec F - 1 <= k -> (bp k <= Rabs x)%R -> exists m, x = (IZR m * bp (k - prec F + 1))%R.
Proof.
  intros x k G Hk H. assert (C : k - prec F + 1 <= cexp radix2 fexp x).
  { unfold cexp, FLT_exp. assert (k < mag radix2 x); [|lia]. apply mag_gt_bpow. exact H. }
  unfold generic_format, F2R in G. cbn [Fnum Fexp] in G. set (c := cexp radix2 fexp x) in *. set (n := Ztrunc (scaled_mantissa radix2 fexp x)) in *.
  exists (n * 2 ^ (c - (k - prec F + 1))). rewrite G, mult_IZR. replace (IZR (2 ^ (c - (k - prec F + 1)))) with (bp (c - (k - prec F + 1))) by (symmetry; apply (IZR_Zpower radix2); lia).
  rewrite Rmult_assoc, <- bpow_plus. do 2 f_equal. ring.
Qed.
Lemma gfxF : forall m e, emin F <= e -> (Rabs (IZR m * bp e) < bp (e + prec F))%R -> generic_format radix2 fexp (IZR m * bp e).
Proof.
  intros m e He H. apply (fmt_scaled F); [|auto]. apply lt_IZR. rewrite abs_IZR. apply Rmult_lt_reg_r with (bp e); [apply bpow_gt_0|].
  rewrite Rabs_mult, (Rabs_pos_eq (bp e)) in H by apply bpow_ge_0. replace (IZR (2 ^ prec F)) with (bp (prec F)) by (symmetry; apply (IZR_Zpower radix2); lia). rewrite <- bpow_plus, Z.add_comm. exact H.
Qed.
(** The remainder x - ((1 + x) - 1) is exact when x is in [1/4, 1/2). *)
Lemma rem_exact : forall rm x u one X U, is_real F x X -> is_real F u U -> is_real F one 1 -> U = fround F rm (1 + X) -> (/ 4 <= X < / 2)%R ->
  is_real F (f_sub F rm x (f_sub F rm u one)) (1 + X - U) /\ (Rabs (1 + X - U) <= uF F rm * (1 + X))%R /\ (1 <= U <= 3 / 2)%R.
Proof.
  intros rm x u one X U Hx Hu H1 EU HX. pose proof (u_pos F rm) as UP. pose proof (u_le F H24 rm) as UL. assert (U0 : (uF F rm <= / 8000000)%R) by (bpn_in UL; lra).
  assert (G1 : generic_format radix2 fexp 1) by exact (real_fmt F HF _ _ H1). assert (G32 : generic_format radix2 fexp (3 / 2)).
  { replace (3 / 2)%R with (IZR 3 * bp (-1))%R by (change (bp (-1)) with (/ 2)%R; lra). apply (fmt_scaled F); [|lia]. apply Z.lt_le_trans with (2 ^ 24); [reflexivity|]. apply Z.pow_le_mono_r; lia. }
  assert (UB : (1 <= U <= 3 / 2)%R) by (rewrite EU; split; [apply (fround_ge_gen F HF)|apply (fround_le_gen F HF)]; auto; lra).
  assert (ER : (Rabs (1 + X - U) <= uF F rm * (1 + X))%R).
  { rewrite Rabs_minus_sym, EU. replace (1 + X)%R with (Rabs (1 + X)) at 3 by (apply Rabs_pos_eq; lra). apply (rel_n F HF H24). rewrite Rabs_pos_eq by lra. apply Rle_trans with (bp 0); [apply bpow_le; lia|change (bp 0) with 1%R; lra]. }
  destruct (multF X (-2) (real_fmt F HF _ _ Hx) ltac:(lia)) as (a & EA). { rewrite Rabs_pos_eq by lra. change (bp (-2)) with (/ 4)%R. lra. }
  destruct (multF U 0 (real_fmt F HF _ _ Hu) ltac:(lia)) as (b & EB). { rewrite Rabs_pos_eq by lra. change (bp 0) with 1%R. lra. }
  set (e := -2 - prec F + 1) in *. assert (EB' : U = (IZR (4 * b) * bp e)%R). { rewrite EB, mult_IZR. replace (0 - prec F + 1) with (e + 2) by (unfold e; ring). rewrite bpow_plus. change (bp 2) with 4%R. ring. }
  assert (E1 : 1%R = (IZR (2 ^ (- e)) * bp e)%R). { replace (IZR (2 ^ (- e))) with (bp (- e)) by (symmetry; apply (IZR_Zpower radix2); unfold e; lia). rewrite <- bpow_plus, Z.add_opp_diag_l. reflexivity. }
  assert (big2 : (2 <= bp (bias F))%R) by (change 2%R with (bp 1); apply bpow_le; lia). assert (bigb : (bp (bias F) <= big)%R) by (apply bpow_le; lia). assert (bigc : (2 * bp (bias F) = big)%R) by (rewrite bpow_plus; change (bp 1) with 2%R; ring).
  assert (R1 : is_real F (f_sub F rm u one) (U - 1)).
  { apply (sub_x F HF rm _ _ _ _ _ Hu H1); [reflexivity| |rewrite Rabs_pos_eq; lra].
    assert (E1' : 1%R = (IZR (2 ^ (prec F - 1)) * bp (0 - prec F + 1))%R). { replace (IZR (2 ^ (prec F - 1))) with (bp (prec F - 1)) by (symmetry; apply (IZR_Zpower radix2); lia). rewrite <- bpow_plus. replace (prec F - 1 + (0 - prec F + 1)) with 0 by ring. reflexivity. }
    replace (U - 1)%R with (IZR (b - 2 ^ (prec F - 1)) * bp (0 - prec F + 1))%R by (rewrite minus_IZR, Rmult_minus_distr_r, <- EB, <- E1'; ring). apply gfxF; [lia|].
    rewrite minus_IZR, Rmult_minus_distr_r, <- EB, <- E1', Rabs_pos_eq by lra. replace (0 - prec F + 1 + prec F) with 1 by ring. change (bp 1) with 2%R. lra. }
  split; [|split; auto].
  apply (sub_x F HF rm _ _ _ _ _ Hx R1); [ring| |].
  - replace (1 + X - U)%R with (IZR (2 ^ (- e) + a - 4 * b) * bp e)%R by (rewrite minus_IZR, plus_IZR, Rmult_minus_distr_r, Rmult_plus_distr_r, <- EB', <- E1, <- EA; ring). apply gfxF; [unfold e; lia|].
    rewrite minus_IZR, plus_IZR, Rmult_minus_distr_r, Rmult_plus_distr_r, <- EB', <- E1, <- EA. apply Rle_lt_trans with (1 := ER). replace (e + prec F) with (-1) by (unfold e; ring). change (bp (-1)) with (/ 2)%R. assert (uF F rm * (1 + X) <= / 8000000 * (1 + X))%R by (apply Rmult_le_compat_r; lra). lra.
  - apply Rle_lt_trans with (1 := ER). assert (uF F rm * (1 + X) <= / 8000000 * (1 + X))%R by (apply Rmult_le_compat_r; lra). lra.
Qed.
End Mult.

(** ** The arguments away from zero: log(1 + x) *)
Section Outside.
Context (F : fmt) (HF : good_fmt F) (H24 : 24 <= prec F) (Hem : emin F <= - 2 * prec F) (Hb : prec F + 3 <= bias F).
Context (RMAX : is_real F (inf_mag F - 1) (bp (bias F + 1) - bp (bias F + 1 - prec F))).
Notation fexp := (FLT_exp (emin F) (prec F)).
Notation big := (bp (bias F + 1)).
Lemma no_overflow : forall rm x X, is_real F x X -> (-1 < X)%R -> (rm = RUP -> x <> inf_mag F - 1) -> (0 <= X)%R -> (Rabs (fround F rm (1 + X)) < big)%R.
Proof.
  intros rm x X Hx H1 HU X0. pose proof (real_fmt F HF _ _ Hx) as G. pose proof (VE F HF) as VE'. pose proof (VR rm) as VR'.
  assert (P0 : (0 <= fround F rm (1 + X))%R) by (apply (fround_ge_gen F HF); [apply generic_format_0|lra]). rewrite Rabs_pos_eq by auto.
  assert (g4 : (4 <= bp (bias F + 1 - prec F))%R) by (change 4%R with (bp 2); apply bpow_le; lia).
  assert (Pm : 0 < inf_mag F) by (destruct (inf_facts F HF) as (_ & _ & A & _ & B); lia).
  destruct RMAX as (IP & IF & MAXV).
  assert (XM : (X <= big - bp (bias F + 1 - prec F))%R).
  { rewrite <- MAXV. destruct Hx as (Px & Fx & Vx). rewrite <- Vx. apply Rle_trans with (Rabs (fval F x)); [apply Rle_abs|]. rewrite (Rabs_fval F HF) by auto. unfold is_fin in Fx. apply Z.ltb_lt in Fx.
    rewrite <- (mval_c F (inf_mag F - 1) HF) by lia. apply (mval_le F HF); pose proof (mag_range F HF x); lia. }
  destruct rm.
  - assert (Rabs (fround F RNE (1 + X) - (1 + X)) <= Rabs (X - (1 + X)))%R. { unfold fround. apply (round_N_pt radix2 fexp (fun z => negb (Z.even z)) (1 + X)). exact G. }
    replace (X - (1 + X))%R with (- (1))%R in H by ring. rewrite Rabs_Ropp, Rabs_R1 in H. apply Rabs_le_inv in H. lra.
  - assert (fround F RDN (1 + X) <= 1 + X)%R by (unfold fround; apply round_DN_pt; auto). lra.
  - specialize (HU eq_refl). destruct (Rle_or_lt (bp (bias F)) X) as [L|L].
    + apply Rle_lt_trans with (fval F (inf_mag F - 1)). 2: { rewrite MAXV. lra. }
      assert (RM : is_real F (inf_mag F - 1) (fval F (inf_mag F - 1))) by (split; auto).
      apply (fround_le_gen F HF); [exact (real_fmt F HF _ _ RM)|].
      destruct (multF F X (bias F) G ltac:(lia)) as (m & Em); [rewrite Rabs_pos_eq by lra; exact L|].
      assert (NX : (X <> fval F (inf_mag F - 1))%R). { intros C. apply HU. destruct Hx as (Px & Fx & Vx). pose proof (bpow_gt_0 radix2 (bias F)). apply (fval_inj F HF); auto; rewrite Vx; [auto|lra]. }
      rewrite MAXV in *. replace (bias F + 1 - prec F) with (bias F - prec F + 1) in * by ring. set (g := bias F - prec F + 1) in *.
      assert (EB : (big = IZR (2 ^ prec F) * bp g)%R). { replace (IZR (2 ^ prec F)) with (bp (prec F)) by (symmetry; apply (IZR_Zpower radix2); lia). rewrite <- bpow_plus. f_equal. unfold g. ring. }
      rewrite EB in *. replace (IZR (2 ^ prec F) * bp g - bp g)%R with (IZR (2 ^ prec F - 1) * bp g)%R in * by (rewrite minus_IZR; ring). pose proof (bpow_gt_0 radix2 g).
      assert (m < 2 ^ prec F - 1). { assert (m <= 2 ^ prec F - 1) by (apply le_IZR; apply Rmult_le_reg_r with (bp g); lra). assert (m <> 2 ^ prec F - 1) by (intros C; apply NX; rewrite Em, C; reflexivity). lia. }
      assert (IZR m <= IZR (2 ^ prec F - 1) - 1)%R by (rewrite <- minus_IZR; apply IZR_le; lia). rewrite Em. nra.
    + apply Rle_lt_trans with (3 * bp (bias F - 1))%R.
      * apply (fround_le_gen F HF). { apply (fmt_scaled F); [|lia]. apply Z.lt_le_trans with (2 ^ 24); [reflexivity|]. apply Z.pow_le_mono_r; lia. }
        assert (bp (bias F) = 2 * bp (bias F - 1))%R by (replace (bias F) with (bias F - 1 + 1) at 1 by ring; rewrite bpow_plus; change (bp 1) with 2%R; ring).
        assert (1 <= bp (bias F - 1))%R by (change 1%R with (bp 0); apply bpow_le; lia). lra.
      * replace (bias F + 1) with (bias F - 1 + 2) by ring. rewrite bpow_plus. change (bp 2) with 4%R. pose proof (bpow_gt_0 radix2 (bias F - 1)). lra.
  - assert (fround F RZR (1 + X) <= 1 + X)%R. { unfold fround. change (rnd RZR) with Ztrunc. rewrite round_ZR_DN by lra. apply round_DN_pt; auto. } lra.
Qed.
(** The rounded sum is positive, is not 1, and its logarithm is close to the logarithm of 1 + x. *)
Lemma outside : forall rm x one X, is_real F x X -> is_real F one 1 -> (-1 < X)%R -> (X <= - 29289 / 100000 \/ 414213 / 1000000 <= X)%R -> (rm = RUP -> x <> inf_mag F - 1) ->
  exists U, is_real F (f_add F rm one x) U /\ (0 < U)%R /\ U <> 1%R /\ (Rabs (ln U - ln (1 + X)) <= 1001 / 1000 * uF F rm)%R /\ (3464 / 10000 <= Rabs (ln (1 + X)))%R.
Proof.
  intros rm x one X Hx H1 HX HB HU. pose proof (real_fmt F HF _ _ Hx) as G. pose proof (u_pos F rm) as UP. pose proof (u_le F H24 rm) as UL. assert (U0 : (uF F rm <= / 8000000)%R) by (bpn_in UL; lra).
  assert (OV : (Rabs (fround F rm (1 + X)) < big)%R).
  { destruct (Rle_or_lt 0 X) as [L|L]; [apply (no_overflow rm x X); auto|]. apply Rle_lt_trans with 1%R. 2: { change 1%R with (bp 0). apply bpow_lt. lia. }
    apply Rabs_le. split; [apply (fround_ge_gen F HF)|apply (fround_le_gen F HF)]; try lra. 1: apply generic_format_opp. all: exact (real_fmt F HF _ _ H1). }
  assert (LO : (bp (emin F + prec F - 1) <= 1 + X)%R).
  { destruct (Rle_or_lt X (- / 2)) as [L|L].
    - destruct (multF F X (-1) G ltac:(lia)) as (m & Em); [rewrite Rabs_left by lra; change (bp (-1)) with (/ 2)%R; lra|]. replace (-1 - prec F + 1) with (- prec F) in Em by ring.
      assert (E1 : 1%R = (IZR (2 ^ prec F) * bp (- prec F))%R). { replace (IZR (2 ^ prec F)) with (bp (prec F)) by (symmetry; apply (IZR_Zpower radix2); lia). rewrite <- bpow_plus, Z.add_opp_diag_r. reflexivity. }
      apply Rle_trans with (bp (- prec F)); [apply bpow_le; lia|]. pose proof (bpow_gt_0 radix2 (- prec F)) as B. rewrite E1, Em, <- Rmult_plus_distr_r, <- plus_IZR.
      assert (1 <= 2 ^ prec F + m). { assert (0 < 2 ^ prec F + m); [|lia]. apply lt_IZR, Rmult_lt_reg_r with (bp (- prec F)); auto. rewrite plus_IZR, Rmult_plus_distr_r, <- E1, <- Em. lra. }
      assert (1 <= IZR (2 ^ prec F + m))%R by (apply IZR_le; lia). nra.
    - apply Rle_trans with (bp (-1)); [apply bpow_le; lia|change (bp (-1)) with (/ 2)%R; lra]. }
  pose proof (rel_n F HF H24 rm (1 + X) ltac:(rewrite Rabs_pos_eq by lra; exact LO)) as RE. rewrite (Rabs_pos_eq (1 + X)) in RE by lra.
  pose proof (add_r F HF rm _ _ _ _ H1 Hx OV) as RU. set (U := fround F rm (1 + X)) in *. set (d := ((U - (1 + X)) / (1 + X))%R). assert (EU : U = ((1 + X) * (1 + d))%R) by (unfold d; field; lra).
  assert (DB : (Rabs d <= uF F rm)%R). { unfold d, Rdiv. rewrite Rabs_mult, (Rabs_pos_eq (/ (1 + X))) by (apply Rlt_le, Rinv_0_lt_compat; lra). apply Rmult_le_reg_r with (1 + X)%R; [lra|]. rewrite Rmult_assoc, Rinv_l, Rmult_1_r by lra. exact RE. }
  assert (LL : (3464 / 10000 <= Rabs (ln (1 + X)))%R).
  { destruct HB as [B|B].
    - assert (ln (1 + X) <= ln (70711 / 100000))%R by (apply Rcomplements.ln_le; lra). assert (ln (70711 / 100000) <= - 3464 / 10000)%R by interval with (i_prec 50). rewrite Rabs_left; lra.
    - assert (ln (1414213 / 1000000) <= ln (1 + X))%R by (apply Rcomplements.ln_le; lra). assert (3464 / 10000 <= ln (1414213 / 1000000))%R by interval with (i_prec 50). rewrite Rabs_pos_eq; lra. }
  apply Rabs_le_inv in DB. assert (LD : ln U = (ln (1 + X) + ln (1 + d))%R) by (rewrite EU; apply ln_mult; lra).
  pose proof (ln1p_upper d ltac:(lra)) as L1. pose proof (ln1p_lower d ltac:(lra)) as L2.
  assert (L3 : (- (1001 / 1000 * uF F rm) <= d / (1 + d))%R). { apply Rmult_le_reg_r with (1 + d)%R; [lra|]. unfold Rdiv. rewrite (Rmult_assoc d), Rinv_l, Rmult_1_r by lra. nra. }
  assert (LE : (Rabs (ln U - ln (1 + X)) <= 1001 / 1000 * uF F rm)%R) by (rewrite LD; apply Rabs_le; lra).
  exists U. split; [exact RU|]. split; [rewrite EU; apply Rmult_lt_0_compat; lra|]. split; [|split; auto].
  intros C. rewrite C, ln_1, Rminus_0_l, Rabs_Ropp in LE. lra.
Qed.
Lemma outside_err : forall rm v L l e, (Rabs (l - L) <= 1001 / 1000 * uF F rm)%R -> (3464 / 10000 <= Rabs L)%R -> (Rabs (v - l) <= e * Rabs l)%R -> (0 <= e <= uF F rm / 2)%R -> (Rabs (v - L) <= 4 * uF F rm * Rabs L)%R.
Proof.
  intros rm v L l e H1 H2 H3 He. pose proof (u_pos F rm) as UP. pose proof (u_le F H24 rm) as UL. assert (U0 : (uF F rm <= / 8000000)%R) by (bpn_in UL; lra). set (u := uF F rm) in *.
  assert (A1 : (u <= / (3464 / 10000) * (u * Rabs L))%R). { apply Rmult_le_reg_l with (3464 / 10000)%R; [lra|]. rewrite <- Rmult_assoc, Rinv_r, Rmult_1_l by lra. rewrite Rmult_comm. apply Rmult_le_compat_l; lra. }
  assert (A2 : (Rabs l <= Rabs L + 1001 / 1000 * u)%R). { replace l with (L + (l - L))%R by ring. eapply Rle_trans; [apply Rabs_triang|]. lra. }
  assert (A3 : (e * Rabs l <= u / 2 * (1001 / 1000 * Rabs L))%R) by (apply Rmult_le_compat; try lra; apply Rabs_pos).
  replace (v - L)%R with ((v - l) + (l - L))%R by ring. eapply Rle_trans; [apply Rabs_triang|]. lra.
Qed.
End Outside.

(** ** The decomposition ln (1 + x) = ln 2 + ln (u / 2) + ln ((1 + x) / u) *)
Lemma ln_split : forall X U, (0 < 1 + X)%R -> (0 < U)%R -> let d := ((1 + X - U) / U)%R in (Rabs d <= / 1000000)%R ->
  (Rabs (ln (1 + X) - (ln 2 + ln (1 + (U / 2 - 1)) + d)) <= 2 * (d * d))%R.
Proof.
  intros X U H1 HU d Hd. assert (E : ((1 + X) = 2 * (1 + (U / 2 - 1)) * (1 + d))%R) by (unfold d; field; lra). apply Rabs_le_inv in Hd.
  rewrite E, ln_mult, ln_mult by lra. pose proof (ln1p_upper d ltac:(lra)) as L1. pose proof (ln1p_lower d ltac:(lra)) as L2.
  assert (L3 : (d - 2 * (d * d) <= d / (1 + d))%R). { apply Rmult_le_reg_r with (1 + d)%R; [lra|]. unfold Rdiv. rewrite (Rmult_assoc d), Rinv_l, Rmult_1_r by lra. nra. }
  apply Rabs_le. nra.
Qed.
