(** * sin and cos: the polynomials and the reconstruction *)
From Coq Require Import ZArith Lia List Bool Reals Lra.
From Flocq Require Import Core.
From Interval Require Import Tactic.
From Verif Require Import MachInt Fmt FloatSpec FmtProofs RoundProofs FOps FOpsProofs ExactOps ExtFloatSpec ExtFloatProofs ExtInterp FmanipWide RemProofs ErrLib Exp2fProofs ExpoFWrap Expm1Proofs ExpoData Trig PhFin.
Import ListNotations.
Open Scope Z_scope.
Notation bp := (bpow radix2).

Ltac rprod H := (apply Rle_trans with (1 := H)).
Lemma rm_le : forall a b x y : R, (Rabs a <= x -> Rabs b <= y -> Rabs (a * b) <= x * y)%R.
Proof. intros a b x y Ha Hb. rewrite Rabs_mult. apply Rmult_le_compat; auto; apply Rabs_pos. Qed.

Section Poly.
Context (F : fmt) (HF : good_fmt F) (H24 : 24 <= prec F) (Hem : emin F <= - 2 * prec F) (Hb : 4 <= bias F) (rm : rmode).
Local Notation u := (uF F rm).
Local Notation eta := (bpow radix2 (emin F)).

Lemma ueta : (0 < u <= / 8000000)%R /\ (0 < eta <= / 1000000 * u)%R.
Proof.
  pose proof (u_pos F rm). pose proof (u_le F H24 rm) as UL. bpn_in UL. pose proof (eta_le F H24 Hem rm). pose proof (bpow_gt_0 radix2 (emin F)). lra.
Qed.

Lemma hr_b : forall X Cs, (Rabs X <= 0.08)%R -> List.Forall (fun c => Rabs c <= / 2)%R Cs -> (Rabs (hr X Cs) <= 0.544)%R.
Proof.
  intros X Cs HX. induction Cs as [|c Cs IH]; intros H; cbn [hr]; [rewrite Rabs_R0; lra|]. inversion H; subst. specialize (IH H3).
  pose proof (rm_le _ _ _ _ HX IH). pose proof (Rabs_triang c (X * hr X Cs)). lra.
Qed.
Lemma hr_lip : forall X X' Cs, (Rabs X <= 0.08)%R -> (Rabs X' <= 0.08)%R -> List.Forall (fun c => Rabs c <= / 2)%R Cs -> (Rabs (hr X Cs - hr X' Cs) <= 0.6 * Rabs (X - X'))%R.
Proof.
  intros X X' Cs HX HX'. induction Cs as [|c Cs IH]; intros H; cbn [hr]; [rewrite Rminus_0_r, Rabs_R0; pose proof (Rabs_pos (X - X')); lra|]. inversion H; subst. specialize (IH H3).
  replace (c + X * hr X Cs - (c + X' * hr X' Cs))%R with ((X - X') * hr X Cs + X' * (hr X Cs - hr X' Cs))%R by ring.
  pose proof (rm_le _ _ _ _ (Rle_refl (Rabs (X - X'))) (hr_b X Cs HX H3)). pose proof (rm_le _ _ _ _ HX' IH). pose proof (Rabs_triang ((X - X') * hr X Cs) (X' * (hr X Cs - hr X' Cs))). pose proof (Rabs_pos (X - X')). lra.
Qed.

Lemma hor_e : forall x X, is_real F x X -> (Rabs X <= 0.08)%R -> forall cs Cs, List.Forall2 (is_real F) cs Cs -> cs <> [] -> List.Forall (fun c => Rabs c <= / 2)%R Cs ->
  exists Q, is_real F (horner_ma F rm x cs) Q /\ (Rabs (Q - hr X Cs) <= 0.7 * u + 3 * eta)%R.
Proof.
  intros x X Hx HX cs Cs H2. induction H2 as [|c C cs Cs Hc H2 IH]; intros NE HB; [congruence|]. inversion HB as [|? ? BC BCs]; subst. destruct ueta as (U & E).
  destruct cs as [|c' cs'].
  - inversion H2; subst. exists C. split; [exact Hc|]. cbn [hr]. replace (C - (C + X * 0))%R with 0%R by ring. rewrite Rabs_R0. lra.
  - destruct IH as (Q & RQ & EQ); [discriminate|exact BCs|]. pose proof (hr_b X Cs HX BCs) as HBd.
    assert (BQ : (Rabs Q <= 0.545)%R). { replace Q with ((Q - hr X Cs) + hr X Cs)%R by ring. pose proof (Rabs_triang (Q - hr X Cs) (hr X Cs)). lra. }
    pose proof (rm_le _ _ _ _ HX BQ) as BXQ.
    destruct (mul_s F HF H24 Hem Hb rm _ _ _ _ Hx RQ) as (T & RT & ET); [lra|].
    assert (BT : (Rabs T <= 0.0437)%R). { replace T with ((T - X * Q) + X * Q)%R by ring. pose proof (Rabs_triang (T - X * Q) (X * Q)). nra. }
    pose proof (Rabs_triang T C) as BTC.
    destruct (add_s F HF H24 Hem Hb rm _ _ _ _ RT Hc) as (S & RS & ES); [lra|].
    exists S. split; [exact RS|]. cbn [hr].
    replace (S - (C + X * hr X Cs))%R with ((S - (T + C)) + (T - X * Q) + X * (Q - hr X Cs))%R by ring.
    pose proof (rm_le _ _ _ _ HX EQ) as B3.
    assert (u * Rabs (X * Q) <= u * 0.0436)%R by (apply Rmult_le_compat_l; lra). assert (u * Rabs (T + C) <= u * 0.5437)%R by (apply Rmult_le_compat_l; lra).
    pose proof (Rabs_triang ((S - (T + C)) + (T - X * Q)) (X * (Q - hr X Cs))). pose proof (Rabs_triang (S - (T + C)) (T - X * Q)). lra.
Qed.

(** the value of the sine polynomial and of the cosine polynomial *)
Context (y : Z) (Y : R) (Hy : is_real F y Y) (BY : (Rabs Y <= 0.27)%R).
Context (sc cc : list Z) (SC CC : list R) (one : Z) (H1 : is_real F one 1).
Context (RS : List.Forall2 (is_real F) sc SC) (RC : List.Forall2 (is_real F) cc CC) (NS : sc <> []) (NC : cc <> []).
Context (BS : List.Forall (fun c => Rabs c <= / 2)%R SC) (BC : List.Forall (fun c => Rabs c <= / 2)%R CC).

Lemma sq_e : exists YS, is_real F (f_mul F rm y y) YS /\ (Rabs (YS - Y * Y) <= u * (Y * Y) + eta)%R /\ (Rabs YS <= 0.073)%R /\ (0 <= Y * Y <= 0.0729)%R.
Proof.
  destruct ueta as (U & E). assert (YY : (0 <= Y * Y <= 0.0729)%R). { split; [apply Rle_0_sqr|]. pose proof (rm_le _ _ _ _ BY BY) as H. pose proof (Rle_abs (Y * Y)). lra. }
  destruct (mul_s F HF H24 Hem Hb rm _ _ _ _ Hy Hy) as (YS & RYS & EY); [rewrite Rabs_pos_eq; lra|]. rewrite (Rabs_pos_eq (Y * Y)) in EY by lra. exists YS. split; [exact RYS|]. split; [exact EY|]. split; [|exact YY].
  replace YS with ((YS - Y * Y) + Y * Y)%R by ring. pose proof (Rabs_triang (YS - Y * Y) (Y * Y)). rewrite (Rabs_pos_eq (Y * Y)) in H by lra. nra.
Qed.

Lemma s1_e : (Rabs (hr (Y * Y) SC) <= 0.17)%R ->
  exists S, is_real F (f_add F rm (f_mul F rm (f_mul F rm (f_mul F rm y y) y) (horner_ma F rm (f_mul F rm y y) sc)) y) S /\
   (Rabs (S - (Y + Y * Y * Y * hr (Y * Y) SC)) <= 1.12 * u * Rabs Y + 4 * eta)%R.
Proof.
  intros BH. destruct ueta as (U & E). destruct sq_e as (YS & RYS & EYS & BYS & YY).
  destruct (hor_e _ YS RYS ltac:(lra) sc SC RS NS BS) as (Q & RQ & EQ).
  pose proof (hr_lip YS (Y * Y) SC ltac:(lra) ltac:(rewrite Rabs_pos_eq; lra) BS) as LQ.
  set (H := hr (Y * Y) SC) in *.
  assert (EQH : (Rabs (Q - H) <= 0.745 * u + 4 * eta)%R). { replace (Q - H)%R with ((Q - hr YS SC) + (hr YS SC - H))%R by ring. pose proof (Rabs_triang (Q - hr YS SC) (hr YS SC - H)). nra. }
  assert (BQ : (Rabs Q <= 0.1701)%R). { replace Q with ((Q - H) + H)%R by ring. pose proof (Rabs_triang (Q - H) H). lra. }
  pose proof (Rabs_pos Y) as AY.
  assert (BYY : (Rabs (YS * Y) <= 0.0731 * Rabs Y)%R) by (pose proof (rm_le _ _ _ _ BYS (Rle_refl (Rabs Y))); lra).
  destruct (mul_s F HF H24 Hem Hb rm _ _ _ _ RYS Hy) as (Y3 & RY3 & EY3); [lra|].
  assert (UY : (0 <= u * Rabs Y <= / 8000000 * Rabs Y)%R) by (split; [apply Rmult_le_pos; lra|apply Rmult_le_compat_r; lra]).
  assert (E3 : (Rabs (Y3 - Y * Y * Y) <= 0.1461 * u * Rabs Y + 1.3 * eta)%R).
  { replace (Y3 - Y * Y * Y)%R with ((Y3 - YS * Y) + (YS - Y * Y) * Y)%R by ring. pose proof (Rabs_triang (Y3 - YS * Y) ((YS - Y * Y) * Y)) as T.
    pose proof (rm_le _ _ _ _ EYS (Rle_refl (Rabs Y))) as T2. 
    assert (u * (Y * Y) * Rabs Y <= u * 0.0729 * Rabs Y)%R by (apply Rmult_le_compat_r; [lra|apply Rmult_le_compat_l; lra]).
    assert (u * Rabs (YS * Y) <= u * (0.0731 * Rabs Y))%R by (apply Rmult_le_compat_l; lra). assert (eta * Rabs Y <= eta * 0.27)%R by (apply Rmult_le_compat_l; lra). lra. }
  assert (BYH : (Rabs (Y * Y * Y) <= 0.0729 * Rabs Y)%R) by (apply rm_le; [rewrite Rabs_pos_eq; lra|lra]).
  assert (B3 : (Rabs Y3 <= 0.073 * Rabs Y + 1.3 * eta)%R). { replace Y3 with ((Y3 - Y * Y * Y) + Y * Y * Y)%R by ring. pose proof (Rabs_triang (Y3 - Y * Y * Y) (Y * Y * Y)). lra. }
  pose proof (rm_le _ _ _ _ B3 BQ) as B3Q.
  destruct (mul_s F HF H24 Hem Hb rm _ _ _ _ RY3 RQ) as (T & RT & ET); [lra|].
  assert (EU : (0 <= u * eta <= / 8000000 * eta)%R) by (split; [apply Rmult_le_pos; lra|apply Rmult_le_compat_r; lra]).
  assert (EUY : (0 <= eta * Rabs Y <= 0.27 * eta)%R) by (split; [apply Rmult_le_pos; lra|rewrite Rmult_comm; apply Rmult_le_compat_r; lra]).
  assert (EE : (0 <= eta * eta <= / 8000000 * eta)%R) by (split; [apply Rmult_le_pos; lra|apply Rmult_le_compat_r; lra]).
  assert (U3 : (u * Rabs (Y3 * Q) <= 0.0125 * (u * Rabs Y) + eta)%R). { apply Rle_trans with (u * ((0.073 * Rabs Y + 1.3 * eta) * 0.1701))%R; [apply Rmult_le_compat_l; lra|]. lra. }
  assert (EH : (Rabs (T - Y * Y * Y * H) <= 0.1 * (u * Rabs Y) + 2.8 * eta)%R).
  { replace (T - Y * Y * Y * H)%R with ((T - Y3 * Q) + Y3 * (Q - H) + (Y3 - Y * Y * Y) * H)%R by ring.
    pose proof (rm_le _ _ _ _ B3 EQH) as T1. pose proof (rm_le _ _ _ _ E3 BH) as T2.
    pose proof (Rabs_triang ((T - Y3 * Q) + Y3 * (Q - H)) ((Y3 - Y * Y * Y) * H)). pose proof (Rabs_triang (T - Y3 * Q) (Y3 * (Q - H))).
    assert (T1' : (Rabs (Y3 * (Q - H)) <= 0.0545 * (u * Rabs Y) + 0.3 * (eta * Rabs Y) + 0.97 * (u * eta) + 5.2 * (eta * eta))%R) by lra. lra. }
  pose proof (rm_le _ _ _ _ BYH BH) as BHH.
  assert (BTY : (Rabs (T + Y) <= 1.0125 * Rabs Y + 3 * eta)%R).
  { replace (T + Y)%R with ((T - Y * Y * Y * H) + Y * Y * Y * H + Y)%R by ring. pose proof (Rabs_triang ((T - Y * Y * Y * H) + Y * Y * Y * H) Y). pose proof (Rabs_triang (T - Y * Y * Y * H) (Y * Y * Y * H)). lra. }
  destruct (add_s F HF H24 Hem Hb rm _ _ _ _ RT Hy) as (S & RSS & ES); [lra|]. exists S. split; [exact RSS|].
  assert (u * Rabs (T + Y) <= u * (1.0125 * Rabs Y + 3 * eta))%R by (apply Rmult_le_compat_l; lra).
  replace (S - (Y + Y * Y * Y * H))%R with ((S - (T + Y)) + (T - Y * Y * Y * H))%R by ring. pose proof (Rabs_triang (S - (T + Y)) (T - Y * Y * Y * H)). lra.
Qed.

Lemma c1_e : (- 0.51 <= hr (Y * Y) CC <= 0)%R ->
  exists C, is_real F (f_add F rm (f_mul F rm (f_mul F rm y y) (horner_ma F rm (f_mul F rm y y) cc)) one) C /\
   (Rabs (C - (1 + Y * Y * hr (Y * Y) CC)) <= 1.15 * u)%R.
Proof.
  intros BH0. destruct ueta as (U & E). destruct sq_e as (YS & RYS & EYS & BYS & YY).
  destruct (hor_e _ YS RYS ltac:(lra) cc CC RC NC BC) as (Q & RQ & EQ).
  pose proof (hr_lip YS (Y * Y) CC ltac:(lra) ltac:(rewrite Rabs_pos_eq; lra) BC) as LQ.
  set (H := hr (Y * Y) CC) in *. assert (BH : (Rabs H <= 0.51)%R) by (apply Rabs_le; lra).
  assert (EQH : (Rabs (Q - H) <= 0.745 * u + 4 * eta)%R). { replace (Q - H)%R with ((Q - hr YS CC) + (hr YS CC - H))%R by ring. pose proof (Rabs_triang (Q - hr YS CC) (hr YS CC - H)). nra. }
  assert (BQ : (Rabs Q <= 0.5101)%R). { replace Q with ((Q - H) + H)%R by ring. pose proof (Rabs_triang (Q - H) H). lra. }
  pose proof (rm_le _ _ _ _ BYS BQ) as BYQ.
  destruct (mul_s F HF H24 Hem Hb rm _ _ _ _ RYS RQ) as (T & RT & ET); [lra|].
  assert (EH : (Rabs (T - Y * Y * H) <= 0.132 * u + 2 * eta)%R).
  { replace (T - Y * Y * H)%R with ((T - YS * Q) + YS * (Q - H) + (YS - Y * Y) * H)%R by ring.
    pose proof (rm_le _ _ _ _ BYS EQH) as T1. assert (EYS' : (Rabs (YS - Y * Y) <= 0.0729 * u + eta)%R) by nra. pose proof (rm_le _ _ _ _ EYS' BH) as T2.
    assert (u * Rabs (YS * Q) <= u * (0.073 * 0.5101))%R by (apply Rmult_le_compat_l; lra).
    pose proof (Rabs_triang ((T - YS * Q) + YS * (Q - H)) ((YS - Y * Y) * H)). pose proof (Rabs_triang (T - YS * Q) (YS * (Q - H))). lra. }
  assert (BT : (-0.04 <= T <= u)%R). { assert (TH : (- 0.0372 <= Y * Y * H <= 0)%R) by nra. apply Rabs_le_inv in EH. lra. }
  assert (BT1 : (Rabs (T + 1) <= 1 + u)%R) by (apply Rabs_le; lra).
  destruct (add_s F HF H24 Hem Hb rm _ _ _ _ RT H1) as (C & RCC & EC); [lra|]. exists C. split; [exact RCC|].
  assert (u * Rabs (T + 1) <= u * (1 + u))%R by (apply Rmult_le_compat_l; lra). assert (u * u <= / 8000000 * u)%R by (apply Rmult_le_compat_r; lra).
  replace (C - (1 + Y * Y * H))%R with ((C - (T + 1)) + (T - Y * Y * H))%R by ring. pose proof (Rabs_triang (C - (T + 1)) (T - Y * Y * H)). lra.
Qed.
End Poly.
