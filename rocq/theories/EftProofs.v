(** * Error-free transforms *)
From Coq Require Import ZArith Lia Bool Reals Lra.
From Flocq Require Import Core Plus_error Mult_error Sterbenz.
From Flocq Require Pff2Flocq.
From Verif Require Import MachInt Bits Fmt FloatSpec FmtProofs RoundProofs FOps FOpsProofs ExactOps BasicProofs LerpProofs RemProofs ExtFloatSpec ExtFloatProofs ExtInterp Eft.
Open Scope Z_scope.

Section Eft.
Context (F : fmt) (HF : good_fmt F) (HelF : el F <= 16).
Notation fexp := (FLT_exp (emin F) (prec F)).
Notation fmt := (generic_format radix2 fexp).
Notation big := (bpow radix2 (bias F + 1)).

Lemma pp : Prec_gt_0 (prec F). Proof. unfold Prec_gt_0, prec. pose proof (gf_fl F HF). lia. Qed.
Lemma emin_neg : emin F < 0. Proof. unfold emin. pose proof (gf_fl F HF). pose proof (bias_ge2 F HF). lia. Qed.
Lemma choice_sym : forall x, negb (Z.even x) = negb (negb (Z.even (- (x + 1)))).
Proof. intros x. rewrite Z.even_opp, Z.even_add. destruct (Z.even x); reflexivity. Qed.
Lemma fround_opp : forall x, fround F RNE (- x) = (- fround F RNE x)%R.
Proof. intros x. apply (Pff2Flocq.round_N_opp_sym (emin F) (prec F) (fun z => negb (Z.even z)) choice_sym). Qed.

(** ** fast_two_sum *)
Lemma fts_core : forall rnd A B, Valid_rnd rnd -> fmt A -> fmt B -> (0 < A)%R -> (Rabs B <= A)%R -> fmt (round radix2 fexp rnd (A + B) - A).
Proof.
  intros rnd A B VR GA GB A0 H. pose proof (VE F HF) as VE. pose proof pp as PP. apply Rabs_le_inv in H.
  assert (X : fmt (A + B) -> fmt (round radix2 fexp rnd (A + B) - A)).
  { intros G. rewrite round_generic by auto. replace (A + B - A)%R with B by ring. auto. }
  destruct (Rle_or_lt (Rabs (A + B)) (bpow radix2 (prec F + emin F))) as [S|S]; [apply X; apply FLT_format_plus_small; auto|].
  rewrite Rabs_pos_eq in S by lra.
  destruct (Rle_or_lt B (- A / 2)) as [HB|HB].
  - apply X. replace (A + B)%R with (A - - B)%R by ring. apply sterbenz; auto; [apply FLT_exp_monotone|apply generic_format_opp; auto|lra].
  - apply sterbenz; auto; [apply FLT_exp_monotone|apply generic_format_round; auto|]. split.
    + destruct (Rle_or_lt (bpow radix2 (prec F + emin F)) A) as [L|L].
      * apply round_ge_generic; auto; [|lra]. replace (A / 2)%R with (A * bpow radix2 (-1))%R by (change (bpow radix2 (-1)) with (/ 2)%R; field).
        apply mult_bpow_exact_FLT; auto. assert (prec F + emin F < mag radix2 A); [|lia]. apply mag_gt_bpow. rewrite Rabs_pos_eq by lra. auto.
      * apply Rle_trans with (bpow radix2 (prec F + emin F)); [lra|]. apply round_ge_generic; auto; [|lra].
        apply generic_format_bpow. unfold FLT_exp. pose proof PP as P2. unfold Prec_gt_0 in P2. lia.
    + apply round_le_generic; auto; [|lra]. rewrite Rmult_comm. change 2%R with (bpow radix2 1). apply mult_bpow_pos_exact_FLT; auto; lia.
Qed.
(** hi - a is exact in every rounding mode. *)
Lemma fts_diff : forall rm A B, fmt A -> fmt B -> (Rabs B <= Rabs A)%R -> fmt (fround F rm (A + B) - A).
Proof.
  intros rm A B GA GB H. pose proof (VE F HF) as VE. pose proof (VR rm) as VR. destruct (Rtotal_order A 0) as [L|[E|L]].
  - rewrite (Rabs_left A) in H by auto. unfold fround. replace (A + B)%R with (- (- A + - B))%R by ring. rewrite round_opp.
    replace (- round radix2 fexp (Zrnd_opp (rnd rm)) (- A + - B) - A)%R with (- (round radix2 fexp (Zrnd_opp (rnd rm)) (- A + - B) - - A))%R by ring.
    apply generic_format_opp. apply fts_core; auto with typeclass_instances; [apply generic_format_opp; auto|apply generic_format_opp; auto|lra|rewrite Rabs_Ropp; auto].
  - subst A. rewrite Rabs_R0 in H. assert (B0 : B = 0%R). { pose proof (Rabs_pos B). destruct (Req_dec B 0); auto. apply Rabs_pos_lt in H1. lra. }
    subst B. rewrite Rplus_0_r, (fround_0 F). rewrite Rminus_0_r. apply generic_format_0.
  - rewrite (Rabs_pos_eq A) in H by lra. apply fts_core; auto.
Qed.

(** The operations do not overflow if the sum does not. *)
Lemma fts_bound : forall rm A B, fmt A -> (Rabs B <= Rabs A)%R -> (Rabs (fround F rm (A + B) - A) <= Rmax (Rabs A) (Rabs (fround F rm (A + B))))%R.
Proof.
  intros rm A B GA H. set (h := fround F rm (A + B)).
  assert (P : (A <= A + B -> A <= h)%R) by (intros; apply (fround_ge_gen F HF); auto).
  assert (N : (A + B <= A -> h <= A)%R) by (intros; apply (fround_le_gen F HF); auto).
  assert (P0 : (A + B <= 0 -> h <= 0)%R) by (intros; apply (fround_le_gen F HF); [apply generic_format_0|auto]).
  assert (N0 : (0 <= A + B -> 0 <= h)%R) by (intros; apply (fround_ge_gen F HF); [apply generic_format_0|auto]).
  clearbody h. revert H. unfold Rmax, Rabs. destruct (Rle_or_lt 0 B); destruct (Rle_or_lt 0 (A + B));
  repeat match goal with |- context [Rcase_abs ?x] => destruct (Rcase_abs x) | |- context [Rle_dec ?x ?y] => destruct (Rle_dec x y) end; intros; lra.
Qed.

Lemma fround_abs_le : forall rm x g, fmt g -> (Rabs x <= g)%R -> (Rabs (fround F rm x) <= g)%R.
Proof.
  intros rm x g G H. apply Rabs_le_inv in H. apply Rabs_le. split; [apply (fround_ge_gen F HF); [apply generic_format_opp; auto|lra]|apply (fround_le_gen F HF); [auto|lra]].
Qed.
Lemma fmt_double : forall A, fmt A -> fmt (2 * A).
Proof. intros A G. rewrite Rmult_comm. change 2%R with (bpow radix2 1). apply mult_bpow_pos_exact_FLT; auto; lia. Qed.
Lemma fts_err : forall rm A B, fmt A -> (Rabs B <= Rabs A)%R -> (Rabs (A + B - fround F rm (A + B)) <= Rabs A)%R.
Proof.
  intros rm A B GA H. set (h := fround F rm (A + B)).
  assert (P : (A <= A + B -> A <= h)%R) by (intros; apply (fround_ge_gen F HF); auto).
  assert (N : (A + B <= A -> h <= A)%R) by (intros; apply (fround_le_gen F HF); auto).
  assert (P2 : (2 * A <= A + B -> 2 * A <= h)%R) by (intros; apply (fround_ge_gen F HF); [apply fmt_double|]; auto).
  assert (N2 : (A + B <= 2 * A -> h <= 2 * A)%R) by (intros; apply (fround_le_gen F HF); [apply fmt_double|]; auto).
  assert (P0 : (A + B <= 0 -> h <= 0)%R) by (intros; apply (fround_le_gen F HF); [apply generic_format_0|auto]).
  assert (N0 : (0 <= A + B -> 0 <= h)%R) by (intros; apply (fround_ge_gen F HF); [apply generic_format_0|auto]).
  clearbody h. revert H. unfold Rabs. destruct (Rle_or_lt 0 B); destruct (Rle_or_lt 0 (A + B));
  repeat match goal with |- context [Rcase_abs ?x] => destruct (Rcase_abs x) end; intros; lra.
Qed.
Theorem fast_two_sum_spec : forall rm a b A B, is_real F a A -> is_real F b B -> (Rabs B <= Rabs A)%R -> (Rabs (fround F rm (A + B)) < big)%R ->
  let (hi, lo) := fast_two_sum F rm a b in
  is_real F hi (fround F rm (A + B)) /\ is_real F lo (fround F rm (A + B - fround F rm (A + B))) /\
  (rm = RNE -> (fround F rm (A + B) + fround F rm (A + B - fround F rm (A + B)) = A + B)%R).
Proof.
  intros rm a b A B Ha Hb H HO. unfold fast_two_sum. pose proof (real_fmt F HF _ _ Ha) as GA. pose proof (real_fmt F HF _ _ Hb) as GB.
  pose proof (VE F HF) as VE. pose proof (VR rm) as VR.
  pose proof (add_r F HF rm a b A B Ha Hb HO) as H1. set (h := fround F rm (A + B)) in *.
  pose proof (fts_bound rm A B GA H) as BD. fold h in BD. pose proof (fts_diff rm A B GA GB H) as GD. fold h in GD.
  assert (BD2 : (Rabs (h - A) < big)%R). { pose proof (real_bound F HF _ _ Ha). unfold Rmax in BD. destruct (Rle_dec (Rabs A) (Rabs h)); lra. }
  assert (H2 : is_real F (f_sub F rm (f_add F rm a b) a) (h - A)) by (eapply (sub_x F HF); [exact H1|exact Ha|reflexivity|exact GD|exact BD2]).
  split; [exact H1|]. split.
  - replace (A + B - h)%R with (B - (h - A))%R by ring. apply (sub_r F HF); auto. replace (B - (h - A))%R with (A + B - h)%R by ring.
    pose proof (real_bound F HF _ _ Ha). apply Rle_lt_trans with (Rabs A); [|auto]. apply (fround_abs_le rm); [apply generic_format_abs; auto|]. apply (fts_err rm); auto.
  - intros ->. rewrite (fround_exact F RNE (A + B - h)); [ring|]. replace (A + B - h)%R with (- (h - (A + B)))%R by ring. apply generic_format_opp. apply plus_error; auto. apply FLT_exp_monotone.
Qed.

Theorem fast_two_sum_zero : forall rm a b B, is_real F a 0 -> is_real F b B ->
  let (hi, lo) := fast_two_sum F rm a b in is_real F hi B /\ is_real F lo 0.
Proof.
  intros rm a b B Ha Hb. unfold fast_two_sum. pose proof (real_fmt F HF _ _ Hb) as GB. pose proof (real_bound F HF _ _ Hb) as BB.
  assert (H1 : is_real F (f_add F rm a b) B) by (eapply (add_x F HF); [exact Ha|exact Hb|ring|auto|auto]).
  assert (H2 : is_real F (f_sub F rm (f_add F rm a b) a) B) by (eapply (sub_x F HF); [exact H1|exact Ha|ring|auto|auto]).
  split; [auto|]. eapply (sub_x F HF); [exact Hb|exact H2|ring|apply generic_format_0|]. rewrite Rabs_R0. apply bpow_gt_0.
Qed.

(** The claims for directed rounding in the comment of fast_two_sum. *)
Lemma cexp_diff : forall x, fmt x -> exists m, x = (IZR m * bpow radix2 (cexp radix2 fexp x))%R.
Proof. intros x G. exists (Ztrunc (scaled_mantissa radix2 fexp x)). exact G. Qed.
Lemma scale_down : forall m e e', e' <= e -> exists m', (IZR m * bpow radix2 e = IZR m' * bpow radix2 e')%R.
Proof.
  intros m e e' H. exists (m * 2 ^ (e - e')). rewrite mult_IZR, <- bpow_IZR by lia. rewrite Rmult_assoc, <- bpow_plus. do 2 f_equal. lia.
Qed.
Lemma mag_le : forall A B, B <> 0%R -> (Rabs B <= Rabs A)%R -> mag radix2 B <= mag radix2 A.
Proof. intros A B N H. apply mag_le_abs; auto. Qed.
Lemma fts_exact : forall rm A B, fmt A -> fmt B -> (Rabs B <= Rabs A)%R -> B = 0%R \/ mag radix2 A - mag radix2 B <= prec F ->
  fmt (A + B - fround F rm (A + B)).
Proof.
  intros rm A B GA GB H HD. pose proof (VE F HF) as VE. pose proof (VR rm) as VR. pose proof pp as PP.
  assert (X : fmt (A + B) -> fmt (A + B - fround F rm (A + B))).
  { intros G. rewrite (fround_exact F rm _ G). replace (A + B - (A + B))%R with 0%R by ring. apply generic_format_0. }
  destruct (Req_dec B 0) as [B0|B0]; [apply X; subst B; rewrite Rplus_0_r; auto|]. destruct HD as [HD|HD]; [tauto|].
  destruct (Req_dec (A + B) 0) as [S0|S0]; [apply X; rewrite S0; apply generic_format_0|].
  assert (A0 : A <> 0%R). { intros ->. rewrite Rabs_R0 in H. apply Rabs_pos_lt in B0. lra. }
  pose proof (mag_le A B B0 H) as MAB.
  set (cA := cexp radix2 fexp A). set (cB := cexp radix2 fexp B). set (cS := cexp radix2 fexp (A + B)).
  assert (CAB : cB <= cA <= cB + prec F) by (unfold cA, cB, cexp, FLT_exp in *; unfold Prec_gt_0 in PP; lia).
  destruct (cexp_diff A GA) as (ma & EA). destruct (cexp_diff B GB) as (mb & EB). fold cA in EA. fold cB in EB.
  destruct (scale_down ma cA cB ltac:(lia)) as (ma' & EA'). rewrite EA' in EA.
  assert (ES : (A + B = IZR (ma' + mb) * bpow radix2 cB)%R) by (rewrite plus_IZR, Rmult_plus_distr_r, <- EA, <- EB; auto).
  assert (CB : emin F <= cB) by (unfold cB, cexp, FLT_exp; lia).
  destruct (Z.le_gt_cases cS cB) as [L|L].
  - apply X. rewrite ES. apply generic_format_F2R'  with (f := Float radix2 (ma' + mb) cB); [reflexivity|]. intros _. cbn [Fexp]. rewrite <- ES. exact L.
  - (* cS <= cB + prec *)
    assert (CS : cS <= cB + prec F).
    { destruct (Z.le_gt_cases (mag radix2 (A + B)) (mag radix2 A)) as [M|M].
      - unfold cS, cA, cexp, FLT_exp in *. lia.
      - assert (M2 : mag radix2 (A + B) <= mag radix2 A + 1).
        { apply mag_le_bpow; auto. rewrite bpow_plus. change (bpow radix2 1) with 2%R. pose proof (bpow_mag_gt radix2 A). pose proof (Rabs_triang A B). lra. }
        destruct (Z.le_gt_cases (cA + 1) (cB + prec F)) as [D|D]; [unfold cS, cA, cexp, FLT_exp in *; lia|].
        exfalso. assert (cA = cB + prec F) by lia. assert (NB : cA = mag radix2 A - prec F) by (unfold cS, cA, cB, cexp, FLT_exp in *; lia).
        assert (LB : (Rabs B < bpow radix2 cA)%R).
        { apply Rlt_le_trans with (bpow radix2 (mag radix2 B)); [apply bpow_mag_gt|]. apply bpow_le. unfold cB, cexp, FLT_exp in *. lia. }
        assert (LA : (Rabs A <= bpow radix2 (mag radix2 A) - bpow radix2 cA)%R).
        { pose proof (bpow_mag_gt radix2 A) as U. destruct (cexp_diff A GA) as (m & E). fold cA in E.
          assert (PB : (0 < bpow radix2 cA)%R) by apply bpow_gt_0.
          assert (EB' : Rabs A = (IZR (Z.abs m) * bpow radix2 cA)%R).
          { transitivity (Rabs (IZR m * bpow radix2 cA)); [f_equal; exact E|]. rewrite Rabs_mult, (Rabs_pos_eq (bpow _ _)), <- abs_IZR by lra. auto. }
          rewrite EB' in *.
          replace (bpow radix2 (mag radix2 A)) with (IZR (2 ^ prec F) * bpow radix2 cA)%R in *.
          2:{ rewrite <- bpow_IZR, <- bpow_plus by (unfold Prec_gt_0 in PP; lia). f_equal. lia. }
          apply Rmult_lt_reg_r in U; [|auto]. apply lt_IZR in U.
          replace (IZR (2 ^ prec F) * bpow radix2 cA - bpow radix2 cA)%R with (IZR (2 ^ prec F - 1) * bpow radix2 cA)%R by (rewrite minus_IZR; ring).
          apply Rmult_le_compat_r; [lra|]. apply IZR_le. lia. }
        assert (MS : (bpow radix2 (mag radix2 A) <= Rabs (A + B))%R).
        { apply Rle_trans with (bpow radix2 (mag radix2 (A + B) - 1)); [apply bpow_le; lia|apply bpow_mag_le; auto]. }
        pose proof (Rabs_triang A B). lra. }
    assert (EE : exists k, (A + B - fround F rm (A + B) = IZR k * bpow radix2 cB)%R).
    { unfold fround, round, F2R. cbn [Fnum Fexp]. fold cS. destruct (scale_down (rnd rm (scaled_mantissa radix2 fexp (A + B))) cS cB ltac:(lia)) as (k & E).
      exists (ma' + mb - k). rewrite E, ES at 1. rewrite minus_IZR. ring. }
    destruct EE as (k & E). pose proof (error_lt_ulp radix2 fexp (rnd rm) (A + B) S0) as U. fold (fround F rm (A + B)) in U. rewrite Rabs_minus_sym, E in U.
    rewrite ulp_neq_0 in U by auto. fold cS in U. rewrite E. apply (fmt_scaled F); auto.
    rewrite Rabs_mult, (Rabs_pos_eq (bpow radix2 cB)), <- abs_IZR in U by apply bpow_ge_0.
    apply lt_IZR. apply Rmult_lt_reg_r with (bpow radix2 cB); [apply bpow_gt_0|]. apply Rlt_le_trans with (1 := U).
    rewrite <- bpow_IZR, <- bpow_plus by (unfold Prec_gt_0 in PP; lia). apply bpow_le. lia.
Qed.

Lemma fts_err_bound : forall rm A B, fmt A -> fmt B -> (Rabs B <= Rabs A)%R -> let S := (A + B)%R in let h := fround F rm S in let lo := fround F rm (S - h) in
  (Rabs (S - (h + lo)) <= bpow radix2 (1 - 2 * prec F) * Rmin (Rabs S) (Rabs h))%R /\ (Rabs lo < ulp radix2 fexp h)%R.
Proof.
  intros rm A B GA GB H S h lo. pose proof (VE F HF) as VE. pose proof (VR rm) as VR. pose proof pp as PP.
  assert (ME : Monotone_exp fexp) by apply FLT_exp_monotone.
  assert (UP : forall x, (0 < ulp radix2 fexp x)%R).
  { intros x. destruct (Req_dec x 0) as [->|N]; [rewrite ulp_FLT_0 by auto|rewrite ulp_neq_0 by auto]; apply bpow_gt_0. }
  destruct (Req_dec S h) as [EX|EX].
  { assert (L0 : lo = 0%R) by (unfold lo; rewrite <- EX; rewrite Rminus_diag_eq by auto; apply (fround_0 F)). rewrite L0, <- EX. split.
    - replace (S - (S + 0))%R with 0%R by ring. rewrite Rabs_R0. apply Rmult_le_pos; [apply bpow_ge_0|]. apply Rmin_case; apply Rabs_pos.
    - rewrite Rabs_R0. auto. }
  assert (S0 : S <> 0%R) by (intros E; apply EX; unfold h; rewrite E; symmetry; apply (fround_0 F)).
  assert (NF : ~ fmt S) by (intros G; apply EX; symmetry; apply (fround_exact F rm); auto).
  assert (MB : prec F + emin F < mag radix2 S).
  { destruct (Z.le_gt_cases (mag radix2 S) (prec F + emin F)) as [L|L]; [|lia]. exfalso. apply NF. apply FLT_format_plus_small; auto. fold S.
    apply Rle_trans with (bpow radix2 (mag radix2 S)); [left; apply bpow_mag_gt|apply bpow_le; auto]. }
  assert (CS : cexp radix2 fexp S = mag radix2 S - prec F) by (unfold cexp, FLT_exp; lia).
  pose proof (error_lt_ulp radix2 fexp (rnd rm) S S0) as U. fold (fround F rm S) in U. fold h in U. rewrite Rabs_minus_sym, ulp_neq_0, CS in U by auto.
  assert (HG : (bpow radix2 (mag radix2 S - 1) <= Rabs h)%R).
  { apply abs_round_ge_generic; auto; [|apply bpow_mag_le; auto]. apply generic_format_bpow. unfold FLT_exp. unfold Prec_gt_0 in PP. lia. }
  assert (E0 : (S - h <> 0)%R) by lra.
  assert (ML : mag radix2 (S - h) <= mag radix2 S - prec F) by (apply mag_le_bpow; auto).
  split.
  - replace (S - (h + lo))%R with (S - h - lo)%R by ring. rewrite Rabs_minus_sym. destruct (Z.le_gt_cases (mag radix2 (S - h)) (prec F + emin F)) as [L|L].
    + assert (G : fmt (S - h)).
      { replace (S - h)%R with (B + - (h - A))%R by (unfold S; ring). apply FLT_format_plus_small; auto; [apply generic_format_opp; apply fts_diff; auto|].
        replace (B + - (h - A))%R with (S - h)%R by (unfold S; ring). apply Rle_trans with (bpow radix2 (mag radix2 (S - h))); [left; apply bpow_mag_gt|apply bpow_le; auto]. }
      unfold lo. rewrite (fround_exact F rm _ G), Rminus_diag_eq, Rabs_R0 by auto. apply Rmult_le_pos; [apply bpow_ge_0|]. apply Rmin_case; apply Rabs_pos.
    + pose proof (error_lt_ulp radix2 fexp (rnd rm) (S - h) E0) as V. fold (fround F rm (S - h)) in V. fold lo in V. rewrite ulp_neq_0 in V by auto. unfold cexp, FLT_exp in V. rewrite Z.max_l in V by lia.
      apply Rle_trans with (bpow radix2 (mag radix2 (S - h) - prec F)); [lra|].
      apply Rle_trans with (bpow radix2 (1 - 2 * prec F) * bpow radix2 (mag radix2 S - 1))%R; [rewrite <- bpow_plus; apply bpow_le; lia|].
      apply Rmult_le_compat_l; [apply bpow_ge_0|]. apply Rmin_glb; auto. apply bpow_mag_le; auto.
  - assert (LE : (Rabs lo <= Rabs (S - h))%R).
    { unfold lo, h, fround. destruct rm; cbn [rnd].
      - assert (G : fmt (S - round radix2 fexp ZnearestE S)). { replace (S - _)%R with (- (round radix2 fexp ZnearestE S - S))%R by ring. apply generic_format_opp. apply plus_error; auto. }
        rewrite round_generic; auto with typeclass_instances; lra.
      - pose proof (round_DN_pt radix2 fexp S) as (_ & D & _). pose proof (round_DN_pt radix2 fexp (S - round radix2 fexp Zfloor S)) as (_ & D2 & _).
        assert (0 <= round radix2 fexp Zfloor (S - round radix2 fexp Zfloor S))%R by (apply round_ge_generic; auto with typeclass_instances; [apply generic_format_0|lra]).
        rewrite !Rabs_pos_eq by lra. lra.
      - pose proof (round_UP_pt radix2 fexp S) as (_ & D & _). pose proof (round_UP_pt radix2 fexp (S - round radix2 fexp Zceil S)) as (_ & D2 & _).
        assert (round radix2 fexp Zceil (S - round radix2 fexp Zceil S) <= 0)%R by (apply round_le_generic; auto with typeclass_instances; [apply generic_format_0|lra]).
        rewrite !Rabs_left1 by lra. lra.
      - rewrite <- (round_ZR_abs radix2 fexp). set (z := Rabs _). assert (0 <= z)%R by apply Rabs_pos. rewrite round_ZR_DN by auto. apply (round_DN_pt radix2 fexp z). }
    apply Rle_lt_trans with (1 := LE). apply Rlt_le_trans with (1 := U).
    apply Rle_trans with (ulp radix2 fexp (bpow radix2 (mag radix2 S - 1))).
    + rewrite ulp_bpow. unfold FLT_exp. apply bpow_le. lia.
    + apply ulp_le; auto. rewrite (Rabs_pos_eq (bpow _ _)) by apply bpow_ge_0. auto.
Qed.

(** ** two_sum *)
Lemma small_mult : forall k e, 3 <= fl F -> Z.abs k < 16 -> emin F <= e -> fmt (IZR k * bpow radix2 e).
Proof.
  intros k e H3 Hk He. apply (fmt_scaled F); auto. pose proof (Z.pow_le_mono_r 2 4 (prec F) ltac:(lia) ltac:(unfold prec; lia)). change (2 ^ 4) with 16 in H. lia.
Qed.
Lemma unit_big : forall k, 0 <= k < 16 -> (IZR k * bpow radix2 (bias F - 3) < big)%R.
Proof.
  intros k Hk. replace (bias F + 1) with (4 + (bias F - 3)) by lia. rewrite bpow_plus. apply Rmult_lt_compat_r; [apply bpow_gt_0|]. change (bpow radix2 4) with 16%R. apply IZR_lt. lia.
Qed.
Lemma unit_emin : emin F <= bias F - 3.
Proof. unfold emin. pose proof (gf_fl F HF). pose proof (gf_bias F HF). lia. Qed.
Notation u := (bpow radix2 (bias F - 3)).
Lemma step_bound : forall rm x k, 3 <= fl F -> 0 <= k < 16 -> (Rabs x <= IZR k * u)%R -> (Rabs (fround F rm x) <= IZR k * u)%R /\ (Rabs (fround F rm x) < big)%R.
Proof.
  intros rm x k H3 Hk H. assert (L : (Rabs (fround F rm x) <= IZR k * u)%R) by (apply fround_abs_le; [apply small_mult; auto; [lia|apply unit_emin]|auto]).
  split; [auto|]. pose proof (unit_big k Hk). lra.
Qed.
Lemma two_sum_R : forall A B, fmt A -> fmt B ->
  let s := fround F RNE (A + B) in let a' := fround F RNE (s - B) in let b' := fround F RNE (s - a') in
  (s + fround F RNE (fround F RNE (A - a') + fround F RNE (B - b')) = A + B)%R.
Proof.
  intros A B GA GB s a' b'. pose proof (gf_fl F HF) as Hf. pose proof emin_neg as En.
  pose proof (@Pff2Flocq.TwoSum_correct (emin F) (prec F) (fun z => negb (Z.even z)) ltac:(unfold prec; lia) ltac:(lia) choice_sym B A GB GA) as T.
  rewrite (Rplus_comm B A) in T. etransitivity; [|exact T]. unfold b', a', s, fround. cbn [rnd]. do 2 f_equal. apply Rplus_comm.
Qed.
Theorem two_sum_spec : forall a b A B, 3 <= fl F -> is_real F a A -> is_real F b B -> (Rabs A <= u)%R -> (Rabs B <= u)%R ->
  let (s, t) := two_sum F RNE a b in
  is_real F s (fround F RNE (A + B)) /\ is_real F t (A + B - fround F RNE (A + B)).
Proof.
  intros a b A B H3 Ha Hb UA UB. unfold two_sum. pose proof (two_sum_R A B (real_fmt F HF _ _ Ha) (real_fmt F HF _ _ Hb)) as T. cbv zeta in T.
  destruct (step_bound RNE (A + B) 2 H3 ltac:(lia)) as (B1 & O1). { pose proof (Rabs_triang A B). lra. }
  pose proof (add_r F HF RNE a b A B Ha Hb O1) as H1. set (s := fround F RNE (A + B)) in *.
  destruct (step_bound RNE (s - B) 3 H3 ltac:(lia)) as (B2 & O2). { pose proof (Rabs_triang s (- B)) as X. rewrite Rabs_Ropp in X. unfold Rminus. lra. }
  pose proof (sub_r F HF RNE _ b s B H1 Hb O2) as H2. set (a' := fround F RNE (s - B)) in *.
  destruct (step_bound RNE (s - a') 5 H3 ltac:(lia)) as (B3 & O3). { pose proof (Rabs_triang s (- a')) as X. rewrite Rabs_Ropp in X. unfold Rminus. lra. }
  pose proof (sub_r F HF RNE _ _ s a' H1 H2 O3) as H3'. set (b' := fround F RNE (s - a')) in *.
  destruct (step_bound RNE (A - a') 4 H3 ltac:(lia)) as (B4 & O4). { pose proof (Rabs_triang A (- a')) as X. rewrite Rabs_Ropp in X. unfold Rminus. lra. }
  pose proof (sub_r F HF RNE _ _ A a' Ha H2 O4) as H4.
  destruct (step_bound RNE (B - b') 6 H3 ltac:(lia)) as (B5 & O5). { pose proof (Rabs_triang B (- b')) as X. rewrite Rabs_Ropp in X. unfold Rminus. lra. }
  pose proof (sub_r F HF RNE _ _ B b' Hb H3' O5) as H5.
  destruct (step_bound RNE (fround F RNE (A - a') + fround F RNE (B - b')) 10 H3 ltac:(lia)) as (B6 & O6). { pose proof (Rabs_triang (fround F RNE (A - a')) (fround F RNE (B - b'))). lra. }
  pose proof (add_r F HF RNE _ _ _ _ H4 H5 O6) as H6. split; [auto|].
  replace (A + B - s)%R with (fround F RNE (fround F RNE (A - a') + fround F RNE (B - b'))) by lra. exact H6.
Qed.

(** ** Veltkamp's splitting *)
Section Split.
Context (s : Z) (Hs : 2 <= s <= prec F - 2).
Notation C := (bpow radix2 s + 1)%R.
Definition split_hi (A : R) : R := let p := fround F RNE (A * C) in let q := fround F RNE (A - p) in fround F RNE (q + p).
Lemma split_hi_even : forall A, fmt A -> split_hi A = round radix2 (FLT_exp (emin F) (prec F - s)) ZnearestE A.
Proof.
  intros A GA. pose proof emin_neg as En.
  exact (@Pff2Flocq.Veltkamp_Even radix2 (emin F) (prec F) (fun z => negb (Z.even z)) s ltac:(lia) ltac:(lia) ltac:(lia) ltac:(lia) A GA eq_refl).
Qed.
Lemma split_tail : forall A, fmt A -> A = (split_hi A + fround F RNE (A - split_hi A))%R /\ generic_format radix2 (FLT_exp (emin F) s) (fround F RNE (A - split_hi A)).
Proof.
  intros A GA. pose proof emin_neg as En.
  exact (@Pff2Flocq.Veltkamp_tail radix2 (emin F) (prec F) (fun z => negb (Z.even z)) s ltac:(lia) ltac:(lia) ltac:(lia) ltac:(lia) A GA).
Qed.
Lemma split_near : forall A, fmt A -> (Rabs (A - split_hi A) <= Rabs A)%R.
Proof.
  intros A GA. rewrite (split_hi_even A GA). assert (P : Prec_gt_0 (prec F - s)) by (unfold Prec_gt_0; lia).
  pose proof (round_N_pt radix2 (FLT_exp (emin F) (prec F - s)) (fun z => negb (Z.even z)) A) as (_ & N).
  specialize (N 0%R (generic_format_0 _ _)). rewrite Rminus_0_l, Rabs_Ropp in N. rewrite Rabs_minus_sym. exact N.
Qed.
Theorem split_spec : forall a A, 3 <= fl F -> is_real F a A -> (Rabs A <= bpow radix2 (bias F - s - 4))%R ->
  let (hi, lo) := split F RNE s a in
  is_real F hi (round radix2 (FLT_exp (emin F) (prec F - s)) ZnearestE A) /\
  is_real F lo (A - round radix2 (FLT_exp (emin F) (prec F - s)) ZnearestE A) /\
  generic_format radix2 (FLT_exp (emin F) s) (A - round radix2 (FLT_exp (emin F) (prec F - s)) ZnearestE A).
Proof.
  intros a A H3 Ha HA. unfold split. pose proof (real_fmt F HF _ _ Ha) as GA. destruct (split_tail A GA) as (T1 & T2). rewrite <- (split_hi_even A GA).
  pose proof (bpow_gt_0 radix2 s) as S0. pose proof (bpow_ge_0 radix2 (bias F - 3)) as U0.
  assert (S1 : (1 <= bpow radix2 s)%R) by (change 1%R with (bpow radix2 0); apply bpow_le; lia).
  assert (HC : is_real F (f_of_Z F RNE (2 ^ s + 1)) C).
  { replace (C)%R with (IZR (2 ^ s + 1)) by (rewrite plus_IZR, <- bpow_IZR by lia; auto). apply (ofz_r F HF). pose proof (pow2_lt s (prec F) ltac:(lia) ltac:(lia)). pose proof (pow2_nonneg s). lia. }
  assert (PB : (Rabs (A * C) <= 1 * u)%R).
  { rewrite Rabs_mult, (Rabs_pos_eq C) by lra. apply Rle_trans with (bpow radix2 (bias F - s - 4) * (2 * bpow radix2 s))%R.
    - apply Rmult_le_compat; try lra; apply Rabs_pos.
    - change 2%R with (bpow radix2 1). rewrite <- !bpow_plus. rewrite Rmult_1_l. apply bpow_le. lia. }
  assert (AB : (Rabs A <= 1 * u)%R) by (rewrite Rmult_1_l; apply Rle_trans with (1 := HA); apply bpow_le; lia).
  destruct (step_bound RNE (A * C) 1 H3 ltac:(lia) PB) as (B1 & O1).
  assert (H1 : is_real F (f_mul F RNE (f_of_Z F RNE (2 ^ s + 1)) a) (fround F RNE (A * C))) by (rewrite Rmult_comm in *; apply (mul_r F HF); auto).
  set (p := fround F RNE (A * C)) in *.
  destruct (step_bound RNE (A - p) 2 H3 ltac:(lia)) as (B2 & O2). { pose proof (Rabs_triang A (- p)) as X. rewrite Rabs_Ropp in X. unfold Rminus. lra. }
  pose proof (sub_r F HF RNE _ _ _ _ Ha H1 O2) as H2. set (q := fround F RNE (A - p)) in *.
  destruct (step_bound RNE (q + p) 3 H3 ltac:(lia)) as (B3 & O3). { pose proof (Rabs_triang q p) as X. lra. }
  assert (H3' : is_real F (f_add F RNE (f_mul F RNE (f_of_Z F RNE (2 ^ s + 1)) a) (f_sub F RNE a (f_mul F RNE (f_of_Z F RNE (2 ^ s + 1)) a))) (fround F RNE (q + p))) by (rewrite Rplus_comm in *; apply (add_r F HF); auto).
  change (fround F RNE (q + p)) with (split_hi A) in *. set (h := split_hi A) in *.
  destruct (step_bound RNE (A - h) 4 H3 ltac:(lia)) as (B4 & O4). { pose proof (Rabs_triang A (- h)) as X. rewrite Rabs_Ropp in X. unfold Rminus. lra. }
  pose proof (sub_r F HF RNE _ _ _ _ Ha H3' O4) as H4. replace (fround F RNE (A - h)) with (A - h)%R in H4 by lra. replace (fround F RNE (A - h)) with (A - h)%R in T2 by lra.
  split; [auto|]. split; auto.
Qed.
End Split.

(** ** Dekker's product *)
Theorem exact_mult_spec : forall a b A B, 3 <= fl F -> let s := prec F - Z.div2 (prec F) in is_real F a A -> is_real F b B ->
  (Rabs A <= bpow radix2 (bias F - s - 4))%R -> (Rabs B <= bpow radix2 (bias F - s - 4))%R -> (Rabs (A * B) <= u)%R ->
  let (hi, lo) := exact_mult F RNE s a b in exists L,
  is_real F hi (fround F RNE (A * B)) /\ is_real F lo L /\
  ((A * B = 0 \/ bpow radix2 (emin F + 2 * prec F - 1) <= Rabs (A * B)) -> fround F RNE (A * B) + L = A * B)%R /\
  (Rabs (A * B - (fround F RNE (A * B) + L)) <= 7 / 2 * bpow radix2 (emin F))%R.
Proof.
  intros a b A B H3 s Ha Hb BA BB BP. unfold exact_mult. pose proof (real_fmt F HF _ _ Ha) as GA. pose proof (real_fmt F HF _ _ Hb) as GB.
  assert (HD : 2 * Z.div2 (prec F) <= prec F <= 2 * Z.div2 (prec F) + 1) by (rewrite Z.div2_div; pose proof (Z.div_mod (prec F) 2 ltac:(lia)); pose proof (Z.mod_pos_bound (prec F) 2 ltac:(lia)); lia).
  assert (P4 : 4 <= prec F) by (unfold prec; lia).
  assert (Hs : 2 <= s <= prec F - 2) by (unfold s; lia).
  pose proof (split_spec s Hs a A H3 Ha BA) as SA. pose proof (split_spec s Hs b B H3 Hb BB) as SB.
  destruct (split F RNE s a) as (ah, al). destruct (split F RNE s b) as (bh, bl). destruct SA as (A1 & A2 & _). destruct SB as (B1 & B2 & _).
  pose proof (split_near s Hs A GA) as NA. pose proof (split_near s Hs B GB) as NB.
  destruct (split_tail s Hs A GA) as (TA & _). destruct (split_tail s Hs B GB) as (TB & _).
  rewrite <- (split_hi_even s Hs A GA) in *. rewrite <- (split_hi_even s Hs B GB) in *.
  pose proof emin_neg as En.
  destruct (@Pff2Flocq.Dekker radix2 (emin F) (prec F) (fun z => negb (Z.even z)) P4 ltac:(lia) A B GA GB (or_introl eq_refl)) as (D1 & D2).
  fold s in D1, D2.
  change (round radix2 (FLT_exp (emin F) (prec F)) (Znearest (fun z => negb (Z.even z)))) with (fround F RNE) in D1, D2.
  change (fround F RNE (fround F RNE (A - fround F RNE (A * (bpow radix2 s + 1))) + fround F RNE (A * (bpow radix2 s + 1)))) with (split_hi s A) in D1, D2.
  change (fround F RNE (fround F RNE (B - fround F RNE (B * (bpow radix2 s + 1))) + fround F RNE (B * (bpow radix2 s + 1)))) with (split_hi s B) in D1, D2.
  replace (fround F RNE (A - split_hi s A)) with (A - split_hi s A)%R in D1, D2 by lra.
  replace (fround F RNE (B - split_hi s B)) with (B - split_hi s B)%R in D1, D2 by lra.
  set (x1 := split_hi s A) in *. set (y1 := split_hi s B) in *. set (x2 := (A - x1)%R) in *. set (y2 := (B - y1)%R) in *.
  assert (X1 : (Rabs x1 <= 2 * Rabs A)%R). { replace x1 with (A + - x2)%R by (unfold x2; ring). pose proof (Rabs_triang A (- x2)) as X. rewrite Rabs_Ropp in X. lra. }
  assert (Y1 : (Rabs y1 <= 2 * Rabs B)%R). { replace y1 with (B + - y2)%R by (unfold y2; ring). pose proof (Rabs_triang B (- y2)) as X. rewrite Rabs_Ropp in X. lra. }
  assert (M : forall x y i j, (0 <= i)%R -> (0 <= j)%R -> (Rabs x <= i * Rabs A)%R -> (Rabs y <= j * Rabs B)%R -> (Rabs (x * y) <= (i * j) * u)%R).
  { intros x y i j Hi Hj Hx Hy. rewrite Rabs_mult. apply Rle_trans with ((i * Rabs A) * (j * Rabs B))%R; [apply Rmult_le_compat; auto; apply Rabs_pos|].
    replace (i * Rabs A * (j * Rabs B))%R with (i * j * (Rabs A * Rabs B))%R by ring. rewrite <- Rabs_mult. apply Rmult_le_compat_l; [apply Rmult_le_pos; auto|auto]. }
  assert (M11 := M x1 y1 2%R 2%R ltac:(lra) ltac:(lra) X1 Y1). assert (M12 := M x1 y2 2%R 1%R ltac:(lra) ltac:(lra) X1 ltac:(lra)).
  assert (M21 := M x2 y1 1%R 2%R ltac:(lra) ltac:(lra) ltac:(lra) Y1). assert (M22 := M x2 y2 1%R 1%R ltac:(lra) ltac:(lra) ltac:(lra) ltac:(lra)). clear M.
  destruct (step_bound RNE (A * B) 1 H3 ltac:(lia)) as (Br & Or); [lra|]. pose proof (mul_r F HF RNE _ _ _ _ Ha Hb Or) as Hr. set (r := fround F RNE (A * B)) in *.
  destruct (step_bound RNE (x1 * y1) 4 H3 ltac:(lia)) as (B11 & O11); [lra|]. pose proof (mul_r F HF RNE _ _ _ _ A1 B1 O11) as H11. set (p11 := fround F RNE (x1 * y1)) in *.
  destruct (step_bound RNE (x1 * y2) 2 H3 ltac:(lia)) as (B12 & O12); [lra|]. pose proof (mul_r F HF RNE _ _ _ _ A1 B2 O12) as H12. set (p12 := fround F RNE (x1 * y2)) in *.
  destruct (step_bound RNE (x2 * y1) 2 H3 ltac:(lia)) as (B21 & O21); [lra|]. pose proof (mul_r F HF RNE _ _ _ _ A2 B1 O21) as H21. set (p21 := fround F RNE (x2 * y1)) in *.
  destruct (step_bound RNE (x2 * y2) 1 H3 ltac:(lia)) as (B22 & O22); [lra|]. pose proof (mul_r F HF RNE _ _ _ _ A2 B2 O22) as H22. set (p22 := fround F RNE (x2 * y2)) in *.
  replace (- r + p11)%R with (p11 - r)%R in D1, D2 by ring.
  destruct (step_bound RNE (p11 - r) 5 H3 ltac:(lia)) as (T1 & Ot1). { pose proof (Rabs_triang p11 (- r)) as X. rewrite Rabs_Ropp in X. unfold Rminus. lra. }
  pose proof (sub_r F HF RNE _ _ _ _ H11 Hr Ot1) as Ht1. set (t1 := fround F RNE (p11 - r)) in *. rewrite (Rplus_comm t1 p12) in D1, D2.
  destruct (step_bound RNE (p12 + t1) 7 H3 ltac:(lia)) as (T2 & Ot2). { pose proof (Rabs_triang p12 t1) as X. lra. }
  pose proof (add_r F HF RNE _ _ _ _ H12 Ht1 Ot2) as Ht2. set (t2 := fround F RNE (p12 + t1)) in *. rewrite (Rplus_comm t2 p21) in D1, D2.
  destruct (step_bound RNE (p21 + t2) 9 H3 ltac:(lia)) as (T3 & Ot3). { pose proof (Rabs_triang p21 t2) as X. lra. }
  pose proof (add_r F HF RNE _ _ _ _ H21 Ht2 Ot3) as Ht3. set (t3 := fround F RNE (p21 + t2)) in *. rewrite (Rplus_comm t3 p22) in D1, D2.
  destruct (step_bound RNE (p22 + t3) 10 H3 ltac:(lia)) as (T4 & Ot4). { pose proof (Rabs_triang p22 t3) as X. lra. }
  pose proof (add_r F HF RNE _ _ _ _ H22 Ht3 Ot4) as Ht4. set (t4 := fround F RNE (p22 + t3)) in *.
  exists t4. split; [auto|]. split; [auto|]. split; [intros X; symmetry; apply D1; auto|auto].
Qed.
End Eft.
