(** * lerp: end points, bounds, monotonicity *)
From Coq Require Import ZArith Lia Bool Reals Lra.
From Flocq Require Import Core.
From Verif Require Import MachInt Bits Fmt FloatSpec FmtProofs RoundProofs FOps FOpsProofs ExactOps FPBits FPBitsProofs
  Compare CompareProofs FmaSpec FmaProofs BasicProofs Lerp.
Open Scope Z_scope.

Section Lerp.
Context (F : fmt) (HF : good_fmt F) (HelF : el F <= 16).
Notation fexp := (FLT_exp (emin F) (prec F)).
Notation big := (bpow radix2 (bias F + 1)).

(** A result that stays between two numbers of the format. *)
Lemma rounded_between : forall rm v zs b lo hi, generic_format radix2 fexp lo -> generic_format radix2 fexp hi ->
  (- big < lo)%R -> (hi < big)%R -> (lo <= v <= hi)%R -> rounded F rm v zs b ->
  is_pattern F b /\ is_fin F b = true /\ fval F b = fround F rm v /\ (lo <= fround F rm v <= hi)%R.
Proof.
  intros rm v zs b lo hi Fl Fh Bl Bh HV (P & _ & V & _).
  assert (L : (lo <= fround F rm v)%R) by (rewrite <- (fround_exact F rm lo Fl); apply (fround_le F HF); lra).
  assert (U : (fround F rm v <= hi)%R) by (rewrite <- (fround_exact F rm hi Fh); apply (fround_le F HF); lra).
  destruct (V ltac:(apply Rabs_def1; lra)) as (V1 & V2). auto.
Qed.
Lemma fround_0 : forall rm, fround F rm 0 = 0%R.
Proof. intros. apply (fround_exact F). apply generic_format_0. Qed.
Lemma fround_fmt : forall rm v, generic_format radix2 fexp (fround F rm v).
Proof.
  intros. apply generic_format_round; [|destruct rm; simpl; auto with typeclass_instances].
  apply FLT_exp_valid. unfold Prec_gt_0, prec. pose proof (gf_fl F HF). lia.
Qed.
Lemma one_fmt : generic_format radix2 fexp 1.
Proof. destruct (f_one_props F HF false) as (P & Fi & _ & V & _). cbn [sg] in V. rewrite <- V. apply (fval_format F HF). Qed.
Lemma one_big : (1 < big)%R.
Proof. change 1%R with (bpow radix2 0). apply bpow_lt. pose proof (bias_ge2 F HF). lia. Qed.

(** Selections against a possibly overflowing result. *)
Lemma ovf_ge : forall rm v zs b c, rounded F rm v zs b -> (big <= fround F rm v)%R -> is_pattern F c -> is_fin F c = true -> f_lt F b c = false.
Proof.
  intros rm v zs b c R O Pc Fc. pose proof R as (P & S & _ & M).
  assert (V0 : (0 < v)%R).
  { apply Rnot_le_lt. intros H. pose proof (fround_le F HF rm _ _ H) as H2. rewrite fround_0 in H2. pose proof (bpow_gt_0 radix2 (bias F + 1)). lra. }
  rewrite Rabs_pos_eq in M by (pose proof (bpow_gt_0 radix2 (bias F + 1)); lra). specialize (M O). rewrite Rlt_bool_false in S, M by lra. rewrite Req_bool_false in S by lra.
  assert (Nb : is_nan F b = false /\ max_mag F <= mag_of F b).
  { unfold is_nan. rewrite M. unfold overflow_mag, max_mag. destruct rm; split; lia. }
  unfold f_lt. rewrite (f_cmp_mag F) by (try apply Nb; apply fin_nan; auto). rewrite S. unfold is_fin in Fc. unfold max_mag in Nb.
  pose proof (mag_range F HF c). pose proof (mag_range F HF b). destruct Nb as (_ & NB). unfold szval.
  destruct (sign_of F c); match goal with |- context [?a ?= ?b] => destruct (Z.compare_spec a b); try reflexivity; lia end.
Qed.
Lemma ovf_le : forall rm v zs b c, rounded F rm v zs b -> (fround F rm v <= - big)%R -> is_pattern F c -> is_fin F c = true -> f_lt F c b = false.
Proof.
  intros rm v zs b c R O Pc Fc. pose proof R as (P & S & _ & M). pose proof (bpow_gt_0 radix2 (bias F + 1)) as B0.
  assert (V0 : (v < 0)%R).
  { apply Rnot_le_lt. intros H. pose proof (fround_le F HF rm _ _ H) as H2. rewrite fround_0 in H2. lra. }
  rewrite Rabs_left in M by lra. specialize (M ltac:(lra)). rewrite Rlt_bool_true in S, M by lra. rewrite Req_bool_false in S by lra.
  assert (Nb : is_nan F b = false /\ max_mag F <= mag_of F b).
  { unfold is_nan. rewrite M. unfold overflow_mag, max_mag. destruct rm; split; lia. }
  unfold f_lt. rewrite (f_cmp_mag F) by (try apply Nb; apply fin_nan; auto). rewrite S. unfold is_fin in Fc. unfold max_mag in Nb.
  pose proof (mag_range F HF c). pose proof (mag_range F HF b). destruct Nb as (_ & NB). unfold szval.
  destruct (sign_of F c); match goal with |- context [?a ?= ?b] => destruct (Z.compare_spec a b); try reflexivity; lia end.
Qed.
Lemma sel_min : forall rm v zs b c, rounded F rm v zs b -> (- big < fround F rm v)%R -> is_pattern F c -> is_fin F c = true ->
  let r := if f_lt F b c then b else c in is_pattern F r /\ is_fin F r = true /\ fval F r = Rmin (fround F rm v) (fval F c).
Proof.
  intros rm v zs b c R O Pc Fc r. pose proof R as (P & _ & V & _). unfold r. pose proof (fin_bound F HF c Fc) as Bc. apply Rabs_def2 in Bc.
  destruct (Rlt_or_le (fround F rm v) big) as [L|L].
  - destruct (V ltac:(apply Rabs_def1; lra)) as (V1 & V2). rewrite (f_lt_fin F HF), V2 by auto.
    destruct (Rlt_bool_spec (fround F rm v) (fval F c)); [rewrite Rmin_left by lra|rewrite Rmin_right by lra]; auto.
  - rewrite (ovf_ge rm v zs b c R L Pc Fc). rewrite Rmin_right by lra. auto.
Qed.
Lemma sel_max : forall rm v zs b c, rounded F rm v zs b -> (fround F rm v < big)%R -> is_pattern F c -> is_fin F c = true ->
  let r := if f_lt F c b then b else c in is_pattern F r /\ is_fin F r = true /\ fval F r = Rmax (fround F rm v) (fval F c).
Proof.
  intros rm v zs b c R O Pc Fc r. pose proof R as (P & _ & V & _). unfold r. pose proof (fin_bound F HF c Fc) as Bc. apply Rabs_def2 in Bc.
  destruct (Rlt_or_le (- big) (fround F rm v)) as [L|L].
  - destruct (V ltac:(apply Rabs_def1; lra)) as (V1 & V2). rewrite (f_lt_fin F HF), V2 by auto.
    destruct (Rlt_bool_spec (fval F c) (fround F rm v)); [rewrite Rmax_left by lra|rewrite Rmax_right by lra]; auto.
  - rewrite (ovf_le rm v zs b c R L Pc Fc). rewrite Rmax_right by lra. auto.
Qed.

(** The real function computed for 0 <= t <= 1. *)
Definition opp_sign (A B : R) : bool := (Rle_bool A 0 && Rle_bool 0 B) || (Rle_bool 0 A && Rle_bool B 0).
Definition lerpR (rm : rmode) (A B T : R) : R :=
  if opp_sign A B then fround F rm (fround F rm (T * B) + fround F rm (fround F rm (1 - T) * A))
  else if Req_bool T 1 then B
  else
    let X := fround F rm (A + fround F rm (T * fround F rm (B - A))) in
    if Rlt_bool A B then Rmin X B else Rmax X B.

Ltac bnd := apply Rabs_def1; lra.
Lemma prod01 : forall t u, (0 <= t <= 1)%R -> (0 <= u)%R -> (0 <= t * u <= u)%R.
Proof. intros t u Ht Hu. split; [apply Rmult_le_pos; lra|]. rewrite <- (Rmult_1_l u) at 2. apply Rmult_le_compat_r; lra. Qed.
Lemma prod01n : forall t u, (0 <= t <= 1)%R -> (u <= 0)%R -> (u <= t * u <= 0)%R.
Proof. intros t u Ht Hu. pose proof (prod01 t (- u) Ht ltac:(lra)). lra. Qed.

Lemma prod_between : forall t u, (0 <= t <= 1)%R -> (Rmin u 0 <= t * u <= Rmax u 0)%R.
Proof.
  intros t u Ht. destruct (Rle_or_lt 0 u) as [H|H].
  - rewrite Rmin_right, Rmax_left by lra. apply prod01; auto.
  - rewrite Rmin_left, Rmax_right by lra. apply prod01n; lra.
Qed.
Lemma min0_fmt : forall u, generic_format radix2 fexp u -> generic_format radix2 fexp (Rmin u 0).
Proof. intros u H. unfold Rmin. destruct (Rle_dec u 0); [auto|apply generic_format_0]. Qed.
Lemma max0_fmt : forall u, generic_format radix2 fexp u -> generic_format radix2 fexp (Rmax u 0).
Proof. intros u H. unfold Rmax. destruct (Rle_dec u 0); [apply generic_format_0|auto]. Qed.
Lemma min0_big : forall u, (- big < u)%R -> (- big < Rmin u 0)%R.
Proof. intros u H. pose proof (bpow_gt_0 radix2 (bias F + 1)). apply Rmin_glb_lt; lra. Qed.
Lemma max0_big : forall u, (u < big)%R -> (Rmax u 0 < big)%R.
Proof. intros u H. pose proof (bpow_gt_0 radix2 (bias F + 1)). apply Rmax_lub_lt; lra. Qed.

Lemma lerp_value : forall rm a b t, is_pattern F a -> is_pattern F b -> is_pattern F t ->
  is_fin F a = true -> is_fin F b = true -> is_fin F t = true -> (0 <= fval F t <= 1)%R ->
  let r := cc_lerp F rm a b t in
  is_pattern F r /\ is_fin F r = true /\ fval F r = lerpR rm (fval F a) (fval F b) (fval F t).
Proof.
  intros rm a b t Pa Pb Pt Ha Hb Ht T01 r. unfold r, cc_lerp. rewrite !(isnan_eq F HF HelF), !(fin_nan F) by auto. cbn [orb].
  destruct (f_zero_props F HF false) as (ZP & ZF & _ & _ & ZV). destruct (f_one_props F HF false) as (OP & OF & _ & OV & _). cbn [sg] in OV.
  unfold old_lerp. cbv zeta. rewrite !(f_le_fin F HF), !(f_ge_fin F HF), ZV by auto. unfold lerpR.
  fold (opp_sign (fval F a) (fval F b)). pose proof (bpow_gt_0 radix2 (bias F + 1)) as B0. pose proof one_big as B1.
  set (A := fval F a) in *. set (B := fval F b) in *. set (T := fval F t) in *.
  pose proof (fval_format F HF a : generic_format radix2 fexp A) as GA. pose proof (fval_format F HF b : generic_format radix2 fexp B) as GB.
  pose proof (fin_bound F HF a Ha : (Rabs A < big)%R) as BA. pose proof (fin_bound F HF b Hb : (Rabs B < big)%R) as BB.
  apply Rabs_def2 in BA. apply Rabs_def2 in BB.
  destruct (opp_sign A B) eqn:OPP.
  - (* opposite signs *)
    destruct (rounded_between rm (T * B) _ _ (Rmin B 0) (Rmax B 0) (min0_fmt _ GB) (max0_fmt _ GB) (min0_big B ltac:(lra)) (max0_big B ltac:(lra)) (prod_between T B T01) (f_mul_spec F HF rm t b Ht Hb)) as (P1 & F1 & V1 & R1).
    pose proof (f_sub_spec F HF rm (f_one F false) t Pt OF Ht) as RS. rewrite OV in RS. fold T in RS.
    destruct (rounded_between rm (1 - T) _ _ 0 1 (generic_format_0 _ _) one_fmt ltac:(lra) ltac:(lra) ltac:(lra) RS) as (P2 & F2 & V2 & R2).
    pose proof (f_mul_spec F HF rm _ a F2 Ha) as RM. rewrite V2 in RM. fold A in RM.
    destruct (rounded_between rm (fround F rm (1 - T) * A) _ _ (Rmin A 0) (Rmax A 0) (min0_fmt _ GA) (max0_fmt _ GA) (min0_big A ltac:(lra)) (max0_big A ltac:(lra)) (prod_between _ A R2) RM) as (P3 & F3 & V3 & R3).
    pose proof (f_add_spec F HF rm _ _ F1 F3) as RA. rewrite V1, V3 in RA.
    assert (SB : (Rmin A B <= fround F rm (T * B) + fround F rm (fround F rm (1 - T) * A) <= Rmax A B)%R).
    { unfold opp_sign in OPP. apply orb_true_iff in OPP. destruct OPP as [H|H]; apply andb_true_iff in H; destruct H as (H1 & H2).
      - destruct (Rle_bool_spec A 0); [|discriminate]. destruct (Rle_bool_spec 0 B); [|discriminate].
        rewrite (Rmin_left A B), (Rmax_right A B) by lra. rewrite Rmin_right, Rmax_left in R1 by lra. rewrite Rmin_left, Rmax_right in R3 by lra. lra.
      - destruct (Rle_bool_spec 0 A); [|discriminate]. destruct (Rle_bool_spec B 0); [|discriminate].
        rewrite (Rmin_right A B), (Rmax_left A B) by lra. rewrite Rmin_left, Rmax_right in R1 by lra. rewrite Rmin_right, Rmax_left in R3 by lra. lra. }
    assert (GMn : generic_format radix2 fexp (Rmin A B)) by (unfold Rmin; destruct (Rle_dec A B); auto).
    assert (GMx : generic_format radix2 fexp (Rmax A B)) by (unfold Rmax; destruct (Rle_dec A B); auto).
    destruct (rounded_between rm _ _ _ (Rmin A B) (Rmax A B) GMn GMx ltac:(apply Rmin_glb_lt; lra) ltac:(apply Rmax_lub_lt; lra) SB RA) as (P4 & F4 & V4 & _). auto.
  - rewrite (f_eq_fin F HF), OV by auto. fold T. destruct (Req_bool_spec T 1) as [E1|E1]; [auto|].
    rewrite !(f_gt_fin F HF), OV by auto. fold T A B. rewrite (Rlt_bool_false 1 T) by lra.
    pose proof (f_sub_spec F HF rm b a Pa Hb Ha) as RD. fold A B in RD.
    assert (SG : (0 < A /\ 0 < B \/ A < 0 /\ B < 0)%R).
    { unfold opp_sign in OPP. destruct (Rle_bool_spec A 0), (Rle_bool_spec 0 B), (Rle_bool_spec 0 A), (Rle_bool_spec B 0); cbn [andb orb] in OPP; try discriminate; lra. }
    assert (DB : (Rmin (- A) B <= B - A <= Rmax (- A) B)%R).
    { destruct SG as [SG|SG]; [rewrite Rmin_left, Rmax_right by lra|rewrite Rmin_right, Rmax_left by lra]; lra. }
    assert (GmA : generic_format radix2 fexp (- A)) by (apply generic_format_opp; auto).
    assert (GMn : generic_format radix2 fexp (Rmin (- A) B)) by (unfold Rmin; destruct (Rle_dec (- A) B); auto).
    assert (GMx : generic_format radix2 fexp (Rmax (- A) B)) by (unfold Rmax; destruct (Rle_dec (- A) B); auto).
    destruct (rounded_between rm _ _ _ (Rmin (- A) B) (Rmax (- A) B) GMn GMx ltac:(apply Rmin_glb_lt; lra) ltac:(apply Rmax_lub_lt; lra) DB RD) as (P1 & F1 & V1 & R1).
    assert (SD : ((A <= B -> 0 <= fround F rm (B - A)) /\ (B <= A -> fround F rm (B - A) <= 0))%R).
    { split; intros H; rewrite <- (fround_0 rm); apply (fround_le F HF); lra. }
    pose proof (f_mul_spec F HF rm t _ Ht F1) as RM. rewrite V1 in RM. fold T in RM. set (D := fround F rm (B - A)) in *.
    pose proof (fround_fmt rm (B - A) : generic_format radix2 fexp D) as GD.
    assert (BD : (- big < D < big)%R).
    { split; [apply Rlt_le_trans with (2 := proj1 R1); apply Rmin_glb_lt; lra|apply Rle_lt_trans with (1 := proj2 R1); apply Rmax_lub_lt; lra]. }
    destruct (rounded_between rm (T * D) _ _ (Rmin D 0) (Rmax D 0) (min0_fmt _ GD) (max0_fmt _ GD) (min0_big D ltac:(lra)) (max0_big D ltac:(lra)) (prod_between T D T01) RM) as (P2 & F2 & V2 & R2).
    pose proof (f_add_spec F HF rm a _ Ha F2) as RA. rewrite V2 in RA. fold A in RA.
    destruct (Rlt_bool_spec A B) as [LT|LT]; cbn [Bool.eqb].
    + apply (sel_min rm _ _ _ b RA); auto. rewrite Rmin_right in R2 by (apply SD; lra).
      apply Rlt_le_trans with A; [lra|]. rewrite <- (fround_exact F rm A GA) at 1. apply (fround_le F HF). lra.
    + apply (sel_max rm _ _ _ b RA); auto. rewrite Rmax_right in R2 by (apply SD; lra).
      apply Rle_lt_trans with A; [|lra]. rewrite <- (fround_exact F rm A GA) at 2. apply (fround_le F HF). lra.
Qed.

(** ** Properties of the real function *)
Lemma lerpR_0 : forall rm A B, generic_format radix2 fexp A -> lerpR rm A B 0 = A.
Proof.
  intros rm A B GA. unfold lerpR. rewrite !Rmult_0_l, !fround_0, Rminus_0_r, (fround_exact F rm 1 one_fmt), Rmult_1_l, Rplus_0_l, Rplus_0_r, !(fround_exact F rm A GA).
  destruct (opp_sign A B); [auto|]. rewrite Req_bool_false by lra. cbv zeta.
  destruct (Rlt_bool_spec A B); [apply Rmin_left; lra|apply Rmax_left; lra].
Qed.
Lemma lerpR_1 : forall rm A B, generic_format radix2 fexp B -> lerpR rm A B 1 = B.
Proof.
  intros rm A B GB. unfold lerpR. rewrite Rminus_eq_0, !fround_0, Rmult_0_l, !fround_0, Rplus_0_r, Rmult_1_l, !(fround_exact F rm B GB).
  rewrite Req_bool_true by auto. destruct (opp_sign A B); auto.
Qed.
Lemma lerpR_mono : forall rm A B T1 T2, generic_format radix2 fexp A -> (0 <= T1 <= T2)%R -> (T2 <= 1)%R ->
  (A <= B -> lerpR rm A B T1 <= lerpR rm A B T2)%R /\ (B <= A -> lerpR rm A B T2 <= lerpR rm A B T1)%R.
Proof.
  intros rm A B T1 T2 GA H1 H2.
  assert (MX : forall D, (0 <= D -> fround F rm (A + fround F rm (T1 * D)) <= fround F rm (A + fround F rm (T2 * D)))%R /\
    (D <= 0 -> fround F rm (A + fround F rm (T2 * D)) <= fround F rm (A + fround F rm (T1 * D)))%R).
  { intros D. split; intros HD; apply (fround_le F HF), Rplus_le_compat_l, (fround_le F HF); nra. }
  unfold lerpR. destruct (opp_sign A B) eqn:OPP.
  - assert (R21 : (fround F rm (1 - T2) <= fround F rm (1 - T1))%R) by (apply (fround_le F HF); lra).
    assert (SG : (A <= 0 <= B \/ B <= 0 <= A)%R).
    { unfold opp_sign in OPP. destruct (Rle_bool_spec A 0), (Rle_bool_spec 0 B), (Rle_bool_spec 0 A), (Rle_bool_spec B 0); cbn [andb orb] in OPP; try discriminate; lra. }
    split; intros H; apply (fround_le F HF), Rplus_le_compat; apply (fround_le F HF); nra.
  - assert (SD : ((A <= B -> 0 <= fround F rm (B - A)) /\ (B <= A -> fround F rm (B - A) <= 0))%R).
    { split; intros H; rewrite <- (fround_0 rm); apply (fround_le F HF); lra. }
    destruct (MX (fround F rm (B - A))) as (M1 & M2). cbv zeta.
    set (X1 := fround F rm (A + fround F rm (T1 * fround F rm (B - A)))) in *. set (X2 := fround F rm (A + fround F rm (T2 * fround F rm (B - A)))) in *.
    destruct (Req_bool_spec T1 1) as [E1|E1].
    + rewrite Req_bool_true by lra. lra.
    + destruct (Rlt_bool_spec A B) as [LT|LT].
      * split; intros H; [|lra]. specialize (M1 ltac:(apply SD; lra)). destruct (Req_bool_spec T2 1) as [E2|E2]; [apply Rmin_r|]. apply Rle_min_compat_r. auto.
      * assert (MM : (Rmax X2 B <= Rmax X1 B)%R) by (specialize (M2 ltac:(apply SD; lra)); apply Rle_max_compat_r; auto).
        split; intros H.
        -- assert (A = B) by lra. subst B. assert (XA : X1 = fround F rm A).
           { unfold X1. rewrite Rminus_eq_0, fround_0, Rmult_0_r, fround_0, Rplus_0_r. reflexivity. }
           assert (XA2 : X2 = fround F rm A).
           { unfold X2. rewrite Rminus_eq_0, fround_0, Rmult_0_r, fround_0, Rplus_0_r. reflexivity. }
           destruct (Req_bool_spec T2 1) as [E2|E2]; [|rewrite XA, XA2; lra].
           rewrite XA, (fround_exact F rm A GA), Rmax_left; lra.
        -- destruct (Req_bool_spec T2 1) as [E2|E2]; [apply Rmax_r|auto].
Qed.

Theorem lerp_0 : forall rm a b t, is_pattern F a -> is_pattern F b -> is_pattern F t ->
  is_fin F a = true -> is_fin F b = true -> mag_of F t = 0 ->
  let r := cc_lerp F rm a b t in is_pattern F r /\ is_fin F r = true /\ fval F r = fval F a.
Proof.
  intros rm a b t Pa Pb Pt Ha Hb Mt. assert (Ht : is_fin F t = true) by (unfold is_fin; rewrite Mt; pose proof (inf_mag_pos F HF); lia).
  pose proof (proj2 (fval_zero F HF t Ht) Mt) as V0. pose proof (lerp_value rm a b t Pa Pb Pt Ha Hb Ht ltac:(lra)) as (P & Fi & V). cbv zeta in *.
  split; [auto|]. split; [auto|]. rewrite V, V0. apply lerpR_0. apply (fval_format F HF).
Qed.
Theorem lerp_1 : forall rm a b t, is_pattern F a -> is_pattern F b -> is_pattern F t ->
  is_fin F a = true -> is_fin F b = true -> is_fin F t = true -> fval F t = 1%R ->
  let r := cc_lerp F rm a b t in is_pattern F r /\ is_fin F r = true /\ fval F r = fval F b.
Proof.
  intros rm a b t Pa Pb Pt Ha Hb Ht V1.
  pose proof (lerp_value rm a b t Pa Pb Pt Ha Hb Ht ltac:(lra)) as (P & Fi & V). cbv zeta in *.
  split; [auto|]. split; [auto|]. rewrite V, V1. apply lerpR_1. apply (fval_format F HF).
Qed.
Theorem lerp_mono : forall rm a b t1 t2, is_pattern F a -> is_pattern F b -> is_pattern F t1 -> is_pattern F t2 ->
  is_fin F a = true -> is_fin F b = true -> is_fin F t1 = true -> is_fin F t2 = true -> (0 <= fval F t1 <= fval F t2)%R -> (fval F t2 <= 1)%R ->
  (fval F a <= fval F b -> fval F (cc_lerp F rm a b t1) <= fval F (cc_lerp F rm a b t2))%R /\
  (fval F b <= fval F a -> fval F (cc_lerp F rm a b t2) <= fval F (cc_lerp F rm a b t1))%R.
Proof.
  intros rm a b t1 t2 Pa Pb P1 P2 Ha Hb H1 H2 HT HT2.
  destruct (lerp_value rm a b t1 Pa Pb P1 Ha Hb H1 ltac:(lra)) as (_ & _ & ->). destruct (lerp_value rm a b t2 Pa Pb P2 Ha Hb H2 ltac:(lra)) as (_ & _ & ->).
  apply lerpR_mono; auto. apply (fval_format F HF).
Qed.
Theorem lerp_between : forall rm a b t, is_pattern F a -> is_pattern F b -> is_pattern F t ->
  is_fin F a = true -> is_fin F b = true -> is_fin F t = true -> (0 <= fval F t <= 1)%R ->
  let r := cc_lerp F rm a b t in
  is_pattern F r /\ is_fin F r = true /\ (Rmin (fval F a) (fval F b) <= fval F r <= Rmax (fval F a) (fval F b))%R.
Proof.
  intros rm a b t Pa Pb Pt Ha Hb Ht HT. destruct (lerp_value rm a b t Pa Pb Pt Ha Hb Ht HT) as (P & Fi & V). cbv zeta in *.
  split; [auto|]. split; [auto|]. rewrite V.
  destruct (lerpR_mono rm (fval F a) (fval F b) 0 (fval F t) (fval_format F HF a) ltac:(lra) ltac:(lra)) as (M1 & M2).
  destruct (lerpR_mono rm (fval F a) (fval F b) (fval F t) 1 (fval_format F HF a) ltac:(lra) ltac:(lra)) as (M3 & M4).
  rewrite lerpR_0 in M1, M2 by apply (fval_format F HF). rewrite lerpR_1 in M3, M4 by apply (fval_format F HF).
  destruct (Rle_or_lt (fval F a) (fval F b)) as [L|L].
  - rewrite Rmin_left, Rmax_right by lra. auto.
  - rewrite Rmin_right, Rmax_left by lra. split; [apply M4|apply M2]; lra.
Qed.
(** Equal end points, any finite t (|t| <= 2^(bias-1) if the end points are zero). *)
Theorem lerp_same : forall rm a t, is_pattern F a -> is_pattern F t -> is_fin F a = true -> is_fin F t = true ->
  mag_of F a <> 0 \/ (Rabs (fval F t) <= bpow radix2 (bias F - 1))%R ->
  let r := cc_lerp F rm a a t in is_pattern F r /\ is_fin F r = true /\ fval F r = fval F a.
Proof.
  intros rm a t Pa Pt Ha Ht HC r. unfold r, cc_lerp. rewrite !(isnan_eq F HF HelF), !(fin_nan F) by auto. cbn [orb].
  destruct (f_zero_props F HF false) as (ZP & ZF & _ & _ & ZV). destruct (f_one_props F HF false) as (OP & OF & _ & OV & _). cbn [sg] in OV.
  unfold old_lerp. cbv zeta. rewrite !(f_le_fin F HF), !(f_ge_fin F HF), ZV by auto. pose proof (bpow_gt_0 radix2 (bias F + 1)) as B0.
  assert (GZ : generic_format radix2 fexp 0) by apply generic_format_0.
  assert (Z0 : (Rabs 0 < big)%R) by (rewrite Rabs_R0; auto).
  destruct (Req_dec (fval F a) 0) as [VA|VA].
  - rewrite VA, Rle_bool_true by lra. cbn [andb orb]. destruct HC as [HC|HC]; [destruct HC; apply (fval_zero F HF a Ha); auto|].
    pose proof (f_mul_spec F HF rm t a Ht Ha) as R1. rewrite VA, Rmult_0_r in R1. destruct (rounded_repr F rm _ _ _ GZ Z0 R1) as (P1 & F1 & V1 & _).
    pose proof (f_sub_spec F HF rm _ t Pt OF Ht) as R2. rewrite OV in R2. apply Rabs_le_inv in HC.
    pose proof (gf_bias F HF) as GB. pose proof (bias_ge2 F HF) as B2.
    assert (G2 : forall s, generic_format radix2 fexp (sg s * bpow radix2 (bias F))).
    { intros s. destruct (f_pow2_props F HF s (bias F) ltac:(lia)) as (_ & _ & _ & V & _). rewrite <- V. apply (fval_format F HF). }
    pose proof (G2 true) as G3. pose proof (G2 false) as G4. cbn [sg] in G3, G4. rewrite Rmult_1_l in G4.
    assert (BB : (bpow radix2 (bias F + 1) = 2 * bpow radix2 (bias F))%R) by (rewrite bpow_plus; change (bpow radix2 1) with 2%R; ring).
    assert (BH : (bpow radix2 (bias F) = 2 * bpow radix2 (bias F - 1))%R) by (replace (bias F) with (bias F - 1 + 1) at 1 by lia; rewrite bpow_plus; change (bpow radix2 1) with 2%R; ring).
    assert (B1 : (1 <= bpow radix2 (bias F - 1))%R) by (change 1%R with (bpow radix2 0); apply bpow_le; lia).
    destruct (rounded_between rm (1 - fval F t) _ _ _ _ G3 G4 ltac:(lra) ltac:(lra) ltac:(lra) R2) as (P2 & F2 & V2 & _).
    pose proof (f_mul_spec F HF rm _ a F2 Ha) as R3. rewrite VA, Rmult_0_r in R3. destruct (rounded_repr F rm _ _ _ GZ Z0 R3) as (P3 & F3 & V3 & _).
    pose proof (f_add_spec F HF rm _ _ F1 F3) as R4. rewrite V1, V3, Rplus_0_r in R4. destruct (rounded_repr F rm _ _ _ GZ Z0 R4) as (P4 & F4 & V4 & _). auto.
  - replace (Rle_bool (fval F a) 0 && Rle_bool 0 (fval F a) || Rle_bool 0 (fval F a) && Rle_bool (fval F a) 0) with false
      by (destruct (Rle_bool_spec (fval F a) 0), (Rle_bool_spec 0 (fval F a)); cbn [andb orb]; auto; lra).
    destruct (f_eq F t (f_one F false)); [auto|].
    pose proof (f_sub_spec F HF rm a a Pa Ha Ha) as R1. rewrite Rminus_eq_0 in R1. destruct (rounded_repr F rm _ _ _ GZ Z0 R1) as (P1 & F1 & V1 & _).
    pose proof (f_mul_spec F HF rm t _ Ht F1) as R2. rewrite V1, Rmult_0_r in R2. destruct (rounded_repr F rm _ _ _ GZ Z0 R2) as (P2 & F2 & V2 & _).
    pose proof (f_add_spec F HF rm a _ Ha F2) as R3. rewrite V2, Rplus_0_r in R3.
    destruct (rounded_repr F rm _ _ _ (fval_format F HF a) (fin_bound F HF a Ha) R3) as (P3 & F3 & V3 & _).
    set (x := f_add F rm a (f_mul F rm t (f_sub F rm a a))) in *.
    destruct (Bool.eqb (f_gt F t (f_one F false)) (f_gt F a a)), (f_lt F a x), (f_lt F x a); auto.
Qed.
(** A NaN argument gives a NaN. *)
Theorem lerp_nan : forall rm a b t, is_nan F a = true \/ is_nan F b = true \/ is_nan F t = true -> is_nan F (cc_lerp F rm a b t) = true.
Proof.
  intros rm a b t H. unfold cc_lerp. rewrite !(isnan_eq F HF HelF). destruct (qnan_props F HF) as (QP & QN & _).
  replace (is_nan F a || is_nan F b || is_nan F t) with true by (destruct H as [->|[->| ->]]; rewrite ?orb_true_r; reflexivity).
  assert (N1 : forall x y, is_nan F x = true \/ is_nan F y = true -> f_add F rm x y = qnan F).
  { intros x y [N|N]; unfold f_add; rewrite (decode_nan F _ N); [auto|]. destruct (decode F x); auto. }
  destruct H as [H|[H|H]]; rewrite N1; auto; left; rewrite N1; auto.
Qed.

(** ** The fma variant, with a correctly rounded fma *)
Theorem fma_lerp_ends : forall rm a b t, is_pattern F a -> is_pattern F b -> is_pattern F t ->
  is_fin F a = true -> is_fin F b = true -> is_fin F t = true ->
  let r := fma_lerp F (f_fma F rm) a b t in
  (fval F t = 0%R -> is_pattern F r /\ is_fin F r = true /\ fval F r = fval F a) /\
  (fval F t = 1%R -> is_pattern F r /\ is_fin F r = true /\ fval F r = fval F b).
Proof.
  intros rm a b t Pa Pb Pt Ha Hb Ht r. unfold r, fma_lerp. destruct (f_neg_props F HF t Pt) as (NP & _ & _ & NF & NV). rewrite Ht in NF.
  pose proof (f_fma_spec F HF rm (f_neg F t) a a NF Ha Ha) as R1. rewrite NV in R1. pose proof (bpow_gt_0 radix2 (bias F + 1)) as B0.
  split; intros V; rewrite V in R1.
  - replace (- 0 * fval F a + fval F a)%R with (fval F a) in R1 by ring.
    destruct (rounded_repr F rm _ _ _ (fval_format F HF a) (fin_bound F HF a Ha) R1) as (P1 & F1 & V1 & _).
    pose proof (f_fma_spec F HF rm t b _ Ht Hb F1) as R2. rewrite V, V1 in R2. replace (0 * fval F b + fval F a)%R with (fval F a) in R2 by ring.
    destruct (rounded_repr F rm _ _ _ (fval_format F HF a) (fin_bound F HF a Ha) R2) as (P2 & F2 & V2 & _). auto.
  - replace (- (1) * fval F a + fval F a)%R with 0%R in R1 by ring. assert (Z0 : (Rabs 0 < big)%R) by (rewrite Rabs_R0; auto).
    destruct (rounded_repr F rm _ _ _ (generic_format_0 _ _) Z0 R1) as (P1 & F1 & V1 & _).
    pose proof (f_fma_spec F HF rm t b _ Ht Hb F1) as R2. rewrite V, V1 in R2. replace (1 * fval F b + 0)%R with (fval F b) in R2 by ring.
    destruct (rounded_repr F rm _ _ _ (fval_format F HF b) (fin_bound F HF b Hb) R2) as (P2 & F2 & V2 & _). auto.
Qed.
End Lerp.
