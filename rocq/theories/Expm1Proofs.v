(** * expm1: the series near zero *)
From Coq Require Import ZArith Lia Bool Reals Lra List.
From Flocq Require Import Core Relative.
From Interval Require Import Tactic.
From Verif Require Import MachInt Fmt FloatSpec FmtProofs RoundProofs FOps FOpsProofs ExactOps NextProofs ExtFloatSpec ExtFloatProofs ExtInterp RemProofs LerpProofs FmanipWide ErrLib ExpoData ExpoDataD ExpoF ExpD ExpM1 Exp2fProofs ExpoFWrap ExpfProofs TaylorExp.
Import ListNotations.
Open Scope Z_scope.


Definition uF (F : fmt) (rm : rmode) : R := match rm with RNE => bpow radix2 (- prec F) | _ => bpow radix2 (1 - prec F) end.
Fixpoint hr (X : R) (cs : list R) : R := match cs with [] => 0%R | c :: cs => (c + X * hr X cs)%R end.

Section Series.
Context (F : fmt) (HF : good_fmt F) (H24 : 24 <= prec F) (Hem : emin F <= - 2 * prec F) (Hb : 4 <= bias F).
Local Notation big := (bpow radix2 (bias F + 1)).
Local Notation u := (uF F).
Local Notation eta := (bpow radix2 (emin F)).
Lemma VEF : Valid_exp (FLT_exp (emin F) (prec F)). Proof. exact (VE F HF). Qed.
Lemma PPF : Prec_gt_0 (prec F). Proof. unfold Prec_gt_0. lia. Qed.
Lemma u_pos : forall rm, (0 < u rm)%R. Proof. intros []; apply bpow_gt_0. Qed.
Lemma u_le : forall rm, (u rm <= bp (-23))%R. Proof. intros []; apply bpow_le; lia. Qed.
Lemma eta_le : forall rm, (eta <= / 1000000 * u rm)%R.
Proof.
  intros rm. apply Rle_trans with (bp (-24) * bp (- prec F))%R. { rewrite <- bpow_plus. apply bpow_le. lia. }
  apply Rmult_le_compat; try apply bpow_ge_0; [bpn; lra|]. destruct rm; apply bpow_le; lia.
Qed.
(** The rounding error of one operation. *)
Lemma rel_e : forall rm z, (Rabs (fround F rm z - z) <= u rm * Rabs z + eta)%R.
Proof.
  intros rm z. pose proof VEF as VE'. pose proof PPF as PP'. pose proof (VR rm) as VR'. pose proof (Rabs_pos z) as AP. pose proof (bpow_gt_0 radix2 (emin F)) as EP.
  destruct (Rle_lt_dec (bpow radix2 (emin F + prec F - 1)) (Rabs z)) as [L|L].
  - assert (G : (Rabs (fround F rm z - z) <= u rm * Rabs z)%R); [|lra].
    assert (dir : (Rabs (fround F rm z - z) <= bpow radix2 (1 - prec F) * Rabs z)%R).
    { apply Rlt_le. replace (1 - prec F) with (- prec F + 1) by ring. apply (relative_error_FLT radix2 (emin F) (prec F) PP' (rnd rm) z). exact L. }
    destruct rm; auto. cbn [uF]. replace (bpow radix2 (- prec F)) with (/ 2 * bpow radix2 (- prec F + 1))%R by (rewrite bpow_plus; change (bpow radix2 1) with 2%R; field).
    apply (relative_error_N_FLT radix2 (emin F) (prec F) PP'). exact L.
  - assert (G : (Rabs (fround F rm z - z) <= eta)%R). 2: { pose proof (Rmult_le_pos _ _ (Rlt_le _ _ (u_pos rm)) AP). lra. }
    unfold fround. destruct (Req_dec z 0) as [->|N]. { rewrite round_0, Rminus_0_r, Rabs_R0 by auto. lra. }
    apply Rlt_le. apply Rlt_le_trans with (ulp radix2 (FLT_exp (emin F) (prec F)) z); [apply error_lt_ulp; auto|].
    rewrite ulp_neq_0 by auto. apply bpow_le. unfold cexp, FLT_exp. assert (mag radix2 z <= emin F + prec F - 1) by (apply mag_le_bpow; auto). lia.
Qed.
Lemma small_big : forall rm z, (Rabs z <= 4)%R -> (Rabs (fround F rm z) < big)%R.
Proof.
  intros rm z H. apply Rle_lt_trans with 4%R. 2: { change 4%R with (bp 2). apply bpow_lt. lia. }
  assert (G : generic_format radix2 (FLT_exp (emin F) (prec F)) 4). { change 4%R with (bp 2). apply generic_format_bpow. unfold FLT_exp. lia. }
  apply Rabs_le_inv in H. apply Rabs_le. split; [apply (fround_ge_gen F HF); [apply generic_format_opp; auto|lra]|apply (fround_le_gen F HF); auto; lra].
Qed.
Lemma mul_s : forall rm a b A B, is_real F a A -> is_real F b B -> (Rabs (A * B) <= 4)%R ->
  exists R, is_real F (f_mul F rm a b) R /\ (Rabs (R - A * B) <= u rm * Rabs (A * B) + eta)%R.
Proof. intros rm a b A B Ha Hb' H. eexists. split; [apply (mul_r F HF); eauto; apply small_big; auto|apply rel_e]. Qed.
Lemma add_s : forall rm a b A B, is_real F a A -> is_real F b B -> (Rabs (A + B) <= 4)%R ->
  exists R, is_real F (f_add F rm a b) R /\ (Rabs (R - (A + B)) <= u rm * Rabs (A + B) + eta)%R.
Proof. intros rm a b A B Ha Hb' H. eexists. split; [apply (add_r F HF); eauto; apply small_big; auto|apply rel_e]. Qed.

Lemma hr_bound : forall X cs, (Rabs X <= / 8)%R -> Forall (fun c => 0 <= c <= / 2)%R cs -> (Rabs (hr X cs) <= 4 / 7)%R.
Proof.
  intros X cs HX. induction cs as [|c cs IH]; intros H; cbn [hr]; [rewrite Rabs_R0; lra|]. inversion H; subst. specialize (IH H3).
  apply Rle_trans with (1 := Rabs_triang _ _). rewrite Rabs_mult, (Rabs_pos_eq c) by lra.
  assert (Rabs X * Rabs (hr X cs) <= / 8 * (4 / 7))%R by (apply Rmult_le_compat; auto; apply Rabs_pos). lra.
Qed.
Lemma horner_e : forall rm x X, is_real F x X -> (Rabs X <= / 8)%R -> forall cs Cs, Forall2 (is_real F) cs Cs -> cs <> [] -> Forall (fun c => 0 <= c <= / 2)%R Cs ->
  exists Q, is_real F (horner F rm x cs) Q /\ (Rabs (Q - hr X Cs) <= 4 / 5 * u rm + 3 * eta)%R.
Proof.
  intros rm x X Hx HX cs Cs H2. induction H2 as [|c C cs Cs Hc H2 IH]; intros NE HB; [congruence|]. inversion HB as [|? ? BC BCs]; subst.
  pose proof (u_pos rm) as UP. pose proof (eta_le rm) as EL. pose proof (bpow_gt_0 radix2 (emin F)) as EP. pose proof (u_le rm) as UL. assert (U0 : (u rm <= / 8000000)%R) by (bpn_in UL; lra).
  destruct cs as [|c' cs'].
  - inversion H2; subst. exists C. split; [exact Hc|]. cbn [hr]. replace (C - (C + X * 0))%R with 0%R by ring. rewrite Rabs_R0. lra.
  - destruct (IH ltac:(congruence) BCs) as (Q & RQ & EQ). pose proof (hr_bound X Cs HX BCs) as HBd.
    change (horner F rm x (c :: c' :: cs')) with (f_add F rm c (f_mul F rm x (horner F rm x (c' :: cs')))).
    assert (QB : (Rabs Q <= 0.572)%R). { replace Q with ((Q - hr X Cs) + hr X Cs)%R by ring. apply Rle_trans with (1 := Rabs_triang _ _). lra. }
    assert (XQ : (Rabs (X * Q) <= 0.0715)%R). { rewrite Rabs_mult. apply Rle_trans with (/ 8 * 0.572)%R; [apply Rmult_le_compat; auto; apply Rabs_pos|lra]. }
    destruct (mul_s rm _ _ _ _ Hx RQ ltac:(lra)) as (M & RM & EM).
    assert (EM' : (Rabs (M - X * Q) <= 0.072 * u rm + eta)%R). { apply Rle_trans with (1 := EM). assert (u rm * Rabs (X * Q) <= u rm * 0.072)%R by (apply Rmult_le_compat_l; lra). lra. }
    assert (CM : (Rabs (C + M) <= 0.58)%R). { replace (C + M)%R with (C + (X * Q + (M - X * Q)))%R by ring. apply Rle_trans with (1 := Rabs_triang _ _). rewrite (Rabs_pos_eq C) by lra. pose proof (Rabs_triang (X * Q) (M - X * Q)). lra. }
    destruct (add_s rm _ _ _ _ Hc RM ltac:(lra)) as (S & RS & ES). exists S. split; [exact RS|].
    assert (ES' : (Rabs (S - (C + M)) <= 0.58 * u rm + eta)%R). { apply Rle_trans with (1 := ES). assert (u rm * Rabs (C + M) <= u rm * 0.58)%R by (apply Rmult_le_compat_l; lra). lra. }
    cbn [hr]. fold (hr X Cs). replace (S - (C + X * hr X Cs))%R with ((S - (C + M)) + ((M - X * Q) + X * (Q - hr X Cs)))%R by ring.
    apply Rle_trans with (1 := Rabs_triang _ _). pose proof (Rabs_triang (M - X * Q) (X * (Q - hr X Cs))) as T. rewrite (Rabs_mult X) in T.
    assert (Rabs X * Rabs (Q - hr X Cs) <= / 8 * (4 / 5 * u rm + 3 * eta))%R by (apply Rmult_le_compat; auto; apply Rabs_pos). lra.
Qed.
Lemma hr_diff : forall X cs ds d, (Rabs X <= / 8)%R -> (0 <= d)%R -> Forall2 (fun c e => Rabs (c - e) <= d)%R cs ds -> (Rabs (hr X cs - hr X ds) <= 8 / 7 * d)%R.
Proof.
  intros X cs ds d HX Hd H. induction H as [|c e cs ds Hc H IH]; cbn [hr]; [rewrite Rminus_0_r, Rabs_R0; lra|].
  replace (c + X * hr X cs - (e + X * hr X ds))%R with ((c - e) + X * (hr X cs - hr X ds))%R by ring. apply Rle_trans with (1 := Rabs_triang _ _). rewrite (Rabs_mult X).
  assert (Rabs X * Rabs (hr X cs - hr X ds) <= / 8 * (8 / 7 * d))%R by (apply Rmult_le_compat; auto; apply Rabs_pos). lra.
Qed.
Lemma series_e : forall rm x X cs Cs Es, is_real F x X -> (Rabs X <= / 8)%R -> Forall2 (is_real F) cs Cs -> cs <> [] -> Forall (fun c => 0 <= c <= / 2)%R Cs ->
  Forall2 (fun c e => Rabs (c - e) <= / 8 * u rm)%R Cs Es ->
  exists T, is_real F (expm1_series F cs rm x) (fround F rm (X + T)) /\ (exists zs, rounded F rm (X + T) zs (expm1_series F cs rm x)) /\
   (Rabs (T - X * X * hr X Es) <= 2.2 * u rm * (X * X) + 2 * eta)%R.
Proof.
  intros rm x X cs Cs Es Hx HX H2 NE HB HE. pose proof (u_pos rm) as UP. pose proof (eta_le rm) as EL. pose proof (bpow_gt_0 radix2 (emin F)) as EP. pose proof (u_le rm) as UL. assert (U0 : (u rm <= / 8000000)%R) by (bpn_in UL; lra).
  destruct (horner_e rm x X Hx HX cs Cs H2 NE HB) as (Q & RQ & EQ). pose proof (hr_bound X Cs HX HB) as HBd. pose proof (hr_diff X Cs Es (/ 8 * u rm) HX ltac:(lra) HE) as HD.
  assert (QE : (Rabs (Q - hr X Es) <= 0.95 * u rm + 3 * eta)%R).
  { replace (Q - hr X Es)%R with ((Q - hr X Cs) + (hr X Cs - hr X Es))%R by ring. apply Rle_trans with (1 := Rabs_triang _ _). lra. }
  assert (QB : (Rabs Q <= 0.572)%R). { replace Q with ((Q - hr X Cs) + hr X Cs)%R by ring. apply Rle_trans with (1 := Rabs_triang _ _). lra. }
  assert (XX : (0 <= X * X <= / 64)%R). { split; [apply Rle_0_sqr|]. apply Rle_trans with (Rabs (X * X)); [apply Rle_abs|]. rewrite Rabs_mult. replace (/ 64)%R with (/ 8 * / 8)%R by lra. apply Rmult_le_compat; auto; apply Rabs_pos. }
  destruct (mul_s rm _ _ _ _ Hx Hx) as (Y & RY & EY). { rewrite Rabs_pos_eq; lra. } rewrite (Rabs_pos_eq (X * X)) in EY by lra.
  assert (UX : (0 <= u rm * (X * X) <= / 8000000 * (X * X))%R) by (split; [apply Rmult_le_pos; lra|apply Rmult_le_compat_r; lra]).
  assert (YB : (Rabs Y <= 1.001 * (X * X) + 1.001 * eta)%R). { replace Y with ((Y - X * X) + X * X)%R by ring. apply Rle_trans with (1 := Rabs_triang _ _). rewrite (Rabs_pos_eq (X * X)) by lra. lra. }
  assert (YQ : (Rabs (Y * Q) <= 0.573 * (X * X) + 0.573 * eta)%R). { rewrite Rabs_mult. apply Rle_trans with ((1.001 * (X * X) + 1.001 * eta) * 0.572)%R; [apply Rmult_le_compat; auto; apply Rabs_pos|lra]. }
  destruct (mul_s rm _ _ _ _ RY RQ ltac:(lra)) as (T & RT & ET). exists T. unfold expm1_series. cbv zeta.
  assert (ER : (Rabs (T - X * X * hr X Es) <= 2.2 * u rm * (X * X) + 2 * eta)%R).
  { replace (T - X * X * hr X Es)%R with ((T - Y * Q) + ((Y - X * X) * Q + X * X * (Q - hr X Es)))%R by ring. apply Rle_trans with (1 := Rabs_triang _ _).
    pose proof (Rabs_triang ((Y - X * X) * Q) (X * X * (Q - hr X Es))) as T2. rewrite (Rabs_mult (Y - X * X)), (Rabs_mult (X * X)), (Rabs_pos_eq (X * X)) in T2 by lra.
    assert (Rabs (Y - X * X) * Rabs Q <= (u rm * (X * X) + eta) * 0.572)%R by (apply Rmult_le_compat; auto; apply Rabs_pos).
    assert (X * X * Rabs (Q - hr X Es) <= X * X * (0.95 * u rm + 3 * eta))%R by (apply Rmult_le_compat_l; lra).
    assert (u rm * Rabs (Y * Q) <= u rm * (0.573 * (X * X) + 0.573 * eta))%R by (apply Rmult_le_compat_l; lra).
    assert (X * X * eta <= / 64 * eta)%R by (apply Rmult_le_compat_r; lra). assert (u rm * eta <= / 8000000 * eta)%R by (apply Rmult_le_compat_r; lra). lra. }
  assert (RS : is_real F (f_add F rm x (f_mul F rm (f_mul F rm x x) (horner F rm x cs))) (fround F rm (X + T))).
  { apply (add_r F HF); auto. apply small_big. apply Rle_trans with (1 := Rabs_triang _ _). assert (Rabs T <= 1)%R; [|lra].
    replace T with ((T - Y * Q) + Y * Q)%R by ring. apply Rle_trans with (1 := Rabs_triang _ _). assert (u rm * Rabs (Y * Q) <= 1 * Rabs (Y * Q))%R by (apply Rmult_le_compat_r; [apply Rabs_pos|lra]). lra. }
  split; [exact RS|]. split; [|exact ER]. eexists. destruct Hx as (Px & Fx & Vx). destruct RT as (Pt & Ft & Vt). rewrite <- Vx, <- Vt at 1. apply (f_add_spec F HF); auto.
Qed.
End Series.
