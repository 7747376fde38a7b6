(** * The evaluation of the asin polynomial *)
From Coq Require Import ZArith Lia List Bool Reals Lra.
From Flocq Require Import Core.
From Interval Require Import Tactic.
From Verif Require Import MachInt Fmt FloatSpec FmtProofs RoundProofs FOps FOpsProofs ExactOps ExtFloatSpec ExtFloatProofs ExtInterp FmanipWide RemProofs ErrLib Exp2fProofs ExpoFWrap Expm1Proofs Expm1Wrap HypotProofs SinPoly InvTrig InvNum.
Import ListNotations.
Open Scope Z_scope.
Notation bp := (bpow radix2).

Section Poly.
Context (F : fmt) (HF : good_fmt F) (H24 : 24 <= prec F) (Hem : emin F <= - 2 * prec F) (Hb : 4 <= bias F) (rm : rmode).
Local Notation u := (uF F rm).
Local Notation eta := (bpow radix2 (emin F)).

Lemma u_rne : (uF F RNE <= u)%R.
Proof. destruct rm; cbn [uF]; apply bpow_le; lia. Qed.
Lemma cst_r : forall m e, (Rabs (IZR m * bp e) <= 4)%R -> exists C, is_real F (cst F m e) C /\ (Rabs (C - IZR m * bp e) <= u * Rabs (IZR m * bp e) + eta)%R.
Proof.
  intros m e B. exists (fround F RNE (IZR m * bp e)). split.
  - pose proof (round_int_spec F HF RNE false m e) as (P & _ & V & _). destruct (V (small_big F HF H24 Hem Hb RNE _ B)) as (Fi & E). split; auto.
  - pose proof (rel_e F HF H24 RNE (IZR m * bp e)) as E. pose proof u_rne as U. pose proof (Rmult_le_compat_r _ _ _ (Rabs_pos (IZR m * bp e)) U). lra.
Qed.
Lemma cst_x : forall m e, Z.abs m < 2 ^ 24 -> -24 <= e <= 0 -> (Rabs (IZR m * bp e) <= 4)%R -> is_real F (cst F m e) (IZR m * bp e).
Proof.
  intros m e Hm He B. pose proof (round_int_spec F HF RNE false m e) as R.
  assert (G : generic_format radix2 (FLT_exp (emin F) (prec F)) (IZR m * bp e)). { apply (fmt_scaled F); [|lia]. apply Z.lt_le_trans with (1 := Hm). apply Z.pow_le_mono_r; lia. }
  assert (BB : (Rabs (IZR m * bp e) < bp (bias F + 1))%R). { apply Rle_lt_trans with (1 := B). change 4%R with (bp 2). apply bpow_lt. lia. }
  destruct (rounded_repr F RNE _ _ _ G BB R) as (P & Fi & V & _). split; auto.
Qed.
(** x * a + c with errors in all three *)
Lemma ma_e : forall x a c X A C X' A' C' bx BA BC ba ex ea ec K, is_real F x X -> is_real F a A -> is_real F c C ->
  (Rabs (X - X') <= ex -> Rabs (A - A') <= ea -> Rabs (C - C') <= ec -> Rabs X <= bx -> Rabs A <= BA -> Rabs C <= BC -> Rabs A' <= ba ->
   0 <= bx <= 1 -> 0 <= BA <= 1 -> 0 <= BC <= 2 ->
   u * (2.001 * (bx * BA) + BC) + 3 * eta + bx * ea + ex * ba + ec <= K * u ->
   exists V, is_real F (mad F rm x a c) V /\ Rabs (V - (X' * A' + C')) <= K * u)%R.
Proof.
  intros x a c X A C X' A' C' bx BA BC ba ex ea ec K Hx Ha Hc EX EA EC BX BA_ BC_ BA' Ix IA IC HK. destruct (ueta F H24 Hem rm) as (U & E).
  pose proof (rm_le _ _ _ _ BX BA_) as BXA. assert (P1 : (bx * BA <= 1)%R) by nra. assert (P0 : (0 <= bx * BA)%R) by nra. set (p := (bx * BA)%R) in *. clearbody p.
  destruct (mul_s F HF H24 Hem Hb rm _ _ _ _ Hx Ha) as (T & RT & ET); [lra|].
  assert (UT : (u * Rabs (X * A) <= u * p)%R) by (apply Rmult_le_compat_l; lra).
  assert (UP : (u * p <= / 8000000 * p)%R) by (apply Rmult_le_compat_r; lra).
  assert (BT : (Rabs T <= 1.0001 * p + eta)%R). { replace T with ((T - X * A) + X * A)%R by ring. pose proof (Rabs_triang (T - X * A) (X * A)). lra. }
  pose proof (Rabs_triang T C) as BTC.
  destruct (add_s F HF H24 Hem Hb rm _ _ _ _ RT Hc) as (S & RS & ES); [lra|].
  exists S. split; [exact RS|].
  assert (US : (u * Rabs (T + C) <= u * (1.0001 * p + eta + BC))%R) by (apply Rmult_le_compat_l; lra).
  assert (UE : (u * eta <= eta)%R) by (rewrite <- (Rmult_1_l eta) at 2; apply Rmult_le_compat_r; lra).
  replace (S - (X' * A' + C'))%R with ((S - (T + C)) + (T - X * A) + (X * (A - A') + (X - X') * A' + (C - C')))%R by ring.
  pose proof (rm_le _ _ _ _ BX EA). pose proof (rm_le _ _ _ _ EX BA').
  pose proof (Rabs_triang ((S - (T + C)) + (T - X * A)) (X * (A - A') + (X - X') * A' + (C - C'))). pose proof (Rabs_triang (S - (T + C)) (T - X * A)).
  pose proof (Rabs_triang (X * (A - A') + (X - X') * A') (C - C')). pose proof (Rabs_triang (X * (A - A')) ((X - X') * A')).
  replace (u * (2.001 * p + BC))%R with (2.001 * (u * p) + u * BC)%R in HK by ring.
  replace (u * (1.0001 * p + eta + BC))%R with (1.0001 * (u * p) + u * eta + u * BC)%R in US by ring. assert (0 <= u * p)%R by (apply Rmult_le_pos; lra). lra.
Qed.
Lemma tri : forall a b e B, (Rabs (a - b) <= e -> Rabs b <= B -> Rabs a <= B + e)%R.
Proof. intros a b e B H1 H2. replace a with ((a - b) + b)%R by ring. pose proof (Rabs_triang (a - b) b). lra. Qed.

Lemma asin_eval_e : forall q Q, is_real F q Q -> (0 <= Q <= 0.26)%R -> exists R, is_real F (asin_eval F rm q) R /\ (Rabs (R - rr Q) <= 0.8 * u)%R.
Proof.
  intros q Q Hq BQ. destruct (ueta F H24 Hem rm) as (U & E). assert (AQ : (Rabs Q <= 0.26)%R) by (apply Rabs_le; lra).
  assert (K0 : exists C, is_real F (ka F 0) C /\ (Rabs (C - IZR (6004799503160192) * bp (-55)) <= 0.166670 * u)%R /\ (Rabs (IZR (6004799503160192) * bp (-55)) <= 0.166668)%R).
  { assert (B : (Rabs (IZR (6004799503160192) * bp (-55)) <= 0.166668)%R) by (apply Rabs_le; bpn; lra). destruct (cst_r (6004799503160192) (-55)) as (C & R & EC); [lra|]. exists C. split; [exact R|]. split; [|exact B]. set (b := Rabs (IZR (6004799503160192) * bp (-55))) in *. clearbody b. assert (u * b <= u * 0.166668)%R by (apply Rmult_le_compat_l; lra). lra. }
  destruct K0 as (k0 & R0_ & E0 & B0).
  assert (K1 : exists C, is_real F (ka F 1) C /\ (Rabs (C - IZR (5404319553092955) * bp (-56)) <= 0.075003 * u)%R /\ (Rabs (IZR (5404319553092955) * bp (-56)) <= 0.075001)%R).
  { assert (B : (Rabs (IZR (5404319553092955) * bp (-56)) <= 0.075001)%R) by (apply Rabs_le; bpn; lra). destruct (cst_r (5404319553092955) (-56)) as (C & R & EC); [lra|]. exists C. split; [exact R|]. split; [|exact B]. set (b := Rabs (IZR (5404319553092955) * bp (-56))) in *. clearbody b. assert (u * b <= u * 0.075001)%R by (apply Rmult_le_compat_l; lra). lra. }
  destruct K1 as (k1 & R1_ & E1 & B1).
  assert (K2 : exists C, is_real F (ka F 2) C /\ (Rabs (C - IZR (6433713707345084) * bp (-57)) <= 0.044646 * u)%R /\ (Rabs (IZR (6433713707345084) * bp (-57)) <= 0.044644)%R).
  { assert (B : (Rabs (IZR (6433713707345084) * bp (-57)) <= 0.044644)%R) by (apply Rabs_le; bpn; lra). destruct (cst_r (6433713707345084) (-57)) as (C & R & EC); [lra|]. exists C. split; [exact R|]. split; [|exact B]. set (b := Rabs (IZR (6433713707345084) * bp (-57))) in *. clearbody b. assert (u * b <= u * 0.044644)%R by (apply Rmult_le_compat_l; lra). lra. }
  destruct K2 as (k2 & R2_ & E2 & B2).
  assert (K3 : exists C, is_real F (ka F 3) C /\ (Rabs (C - IZR (8757003558622942) * bp (-58)) <= 0.030385 * u)%R /\ (Rabs (IZR (8757003558622942) * bp (-58)) <= 0.030383)%R).
  { assert (B : (Rabs (IZR (8757003558622942) * bp (-58)) <= 0.030383)%R) by (apply Rabs_le; bpn; lra). destruct (cst_r (8757003558622942) (-58)) as (C & R & EC); [lra|]. exists C. split; [exact R|]. split; [|exact B]. set (b := Rabs (IZR (8757003558622942) * bp (-58))) in *. clearbody b. assert (u * b <= u * 0.030383)%R by (apply Rmult_le_compat_l; lra). lra. }
  destruct K3 as (k3 & R3_ & E3 & B3).
  assert (K4 : exists C, is_real F (ka F 4) C /\ (Rabs (C - IZR (6448219253556811) * bp (-58)) <= 0.022375 * u)%R /\ (Rabs (IZR (6448219253556811) * bp (-58)) <= 0.022373)%R).
  { assert (B : (Rabs (IZR (6448219253556811) * bp (-58)) <= 0.022373)%R) by (apply Rabs_le; bpn; lra). destruct (cst_r (6448219253556811) (-58)) as (C & R & EC); [lra|]. exists C. split; [exact R|]. split; [|exact B]. set (b := Rabs (IZR (6448219253556811) * bp (-58))) in *. clearbody b. assert (u * b <= u * 0.022373)%R by (apply Rmult_le_compat_l; lra). lra. }
  destruct K4 as (k4 & R4_ & E4 & B4).
  assert (K5 : exists C, is_real F (ka F 5) C /\ (Rabs (C - IZR (5003607134847092) * bp (-58)) <= 0.017363 * u)%R /\ (Rabs (IZR (5003607134847092) * bp (-58)) <= 0.017361)%R).
  { assert (B : (Rabs (IZR (5003607134847092) * bp (-58)) <= 0.017361)%R) by (apply Rabs_le; bpn; lra). destruct (cst_r (5003607134847092) (-58)) as (C & R & EC); [lra|]. exists C. split; [exact R|]. split; [|exact B]. set (b := Rabs (IZR (5003607134847092) * bp (-58))) in *. clearbody b. assert (u * b <= u * 0.017361)%R by (apply Rmult_le_compat_l; lra). lra. }
  destruct K5 as (k5 & R5_ & E5 & B5).
  assert (K6 : exists C, is_real F (ka F 6) C /\ (Rabs (C - IZR (8004067957053868) * bp (-59)) <= 0.013888 * u)%R /\ (Rabs (IZR (8004067957053868) * bp (-59)) <= 0.013886)%R).
  { assert (B : (Rabs (IZR (8004067957053868) * bp (-59)) <= 0.013886)%R) by (apply Rabs_le; bpn; lra). destruct (cst_r (8004067957053868) (-59)) as (C & R & EC); [lra|]. exists C. split; [exact R|]. split; [|exact B]. set (b := Rabs (IZR (8004067957053868) * bp (-59))) in *. clearbody b. assert (u * b <= u * 0.013886)%R by (apply Rmult_le_compat_l; lra). lra. }
  destruct K6 as (k6 & R6_ & E6 & B6).
  assert (K7 : exists C, is_real F (ka F 7) C /\ (Rabs (C - IZR (7016398763515161) * bp (-59)) <= 0.012175 * u)%R /\ (Rabs (IZR (7016398763515161) * bp (-59)) <= 0.012173)%R).
  { assert (B : (Rabs (IZR (7016398763515161) * bp (-59)) <= 0.012173)%R) by (apply Rabs_le; bpn; lra). destruct (cst_r (7016398763515161) (-59)) as (C & R & EC); [lra|]. exists C. split; [exact R|]. split; [|exact B]. set (b := Rabs (IZR (7016398763515161) * bp (-59))) in *. clearbody b. assert (u * b <= u * 0.012173)%R by (apply Rmult_le_compat_l; lra). lra. }
  destruct K7 as (k7 & R7_ & E7 & B7).
  assert (K8 : exists C, is_real F (ka F 8) C /\ (Rabs (C - IZR (7515851594203209) * bp (-60)) <= 0.006522 * u)%R /\ (Rabs (IZR (7515851594203209) * bp (-60)) <= 0.006520)%R).
  { assert (B : (Rabs (IZR (7515851594203209) * bp (-60)) <= 0.006520)%R) by (apply Rabs_le; bpn; lra). destruct (cst_r (7515851594203209) (-60)) as (C & R & EC); [lra|]. exists C. split; [exact R|]. split; [|exact B]. set (b := Rabs (IZR (7515851594203209) * bp (-60))) in *. clearbody b. assert (u * b <= u * 0.006520)%R by (apply Rmult_le_compat_l; lra). lra. }
  destruct K8 as (k8 & R8_ & E8 & B8).
  assert (K9 : exists C, is_real F (ka F 9) C /\ (Rabs (C - IZR (5635139846664006) * bp (-58)) <= 0.019554 * u)%R /\ (Rabs (IZR (5635139846664006) * bp (-58)) <= 0.019552)%R).
  { assert (B : (Rabs (IZR (5635139846664006) * bp (-58)) <= 0.019552)%R) by (apply Rabs_le; bpn; lra). destruct (cst_r (5635139846664006) (-58)) as (C & R & EC); [lra|]. exists C. split; [exact R|]. split; [|exact B]. set (b := Rabs (IZR (5635139846664006) * bp (-58))) in *. clearbody b. assert (u * b <= u * 0.019552)%R by (apply Rmult_le_compat_l; lra). lra. }
  destruct K9 as (k9 & R9_ & E9 & B9).
  assert (K10 : exists C, is_real F (ka F 10) C /\ (Rabs (C - IZR (-4685721306087269) * bp (-58)) <= 0.016260 * u)%R /\ (Rabs (IZR (-4685721306087269) * bp (-58)) <= 0.016258)%R).
  { assert (B : (Rabs (IZR (-4685721306087269) * bp (-58)) <= 0.016258)%R) by (apply Rabs_le; bpn; lra). destruct (cst_r (-4685721306087269) (-58)) as (C & R & EC); [lra|]. exists C. split; [exact R|]. split; [|exact B]. set (b := Rabs (IZR (-4685721306087269) * bp (-58))) in *. clearbody b. assert (u * b <= u * 0.016258)%R by (apply Rmult_le_compat_l; lra). lra. }
  destruct K10 as (k10 & R10_ & E10 & B10).
  assert (K11 : exists C, is_real F (ka F 11) C /\ (Rabs (C - IZR (4602030130368581) * bp (-57)) <= 0.031936 * u)%R /\ (Rabs (IZR (4602030130368581) * bp (-57)) <= 0.031934)%R).
  { assert (B : (Rabs (IZR (4602030130368581) * bp (-57)) <= 0.031934)%R) by (apply Rabs_le; bpn; lra). destruct (cst_r (4602030130368581) (-57)) as (C & R & EC); [lra|]. exists C. split; [exact R|]. split; [|exact B]. set (b := Rabs (IZR (4602030130368581) * bp (-57))) in *. clearbody b. assert (u * b <= u * 0.031934)%R by (apply Rmult_le_compat_l; lra). lra. }
  destruct K11 as (k11 & R11_ & E11 & B11).
  assert (A0 : (Rabs k0 <= 0.16669)%R) by (pose proof (tri _ _ _ _ E0 B0); lra).
  assert (A1 : (Rabs k1 <= 0.07502)%R) by (pose proof (tri _ _ _ _ E1 B1); lra).
  assert (A2 : (Rabs k2 <= 0.04466)%R) by (pose proof (tri _ _ _ _ E2 B2); lra).
  assert (A3 : (Rabs k3 <= 0.03040)%R) by (pose proof (tri _ _ _ _ E3 B3); lra).
  assert (A4 : (Rabs k4 <= 0.02239)%R) by (pose proof (tri _ _ _ _ E4 B4); lra).
  assert (A5 : (Rabs k5 <= 0.01738)%R) by (pose proof (tri _ _ _ _ E5 B5); lra).
  assert (A6 : (Rabs k6 <= 0.01390)%R) by (pose proof (tri _ _ _ _ E6 B6); lra).
  assert (A7 : (Rabs k7 <= 0.01219)%R) by (pose proof (tri _ _ _ _ E7 B7); lra).
  assert (A8 : (Rabs k8 <= 0.00654)%R) by (pose proof (tri _ _ _ _ E8 B8); lra).
  assert (A9 : (Rabs k9 <= 0.01957)%R) by (pose proof (tri _ _ _ _ E9 B9); lra).
  assert (A10 : (Rabs k10 <= 0.01628)%R) by (pose proof (tri _ _ _ _ E10 B10); lra).
  assert (A11 : (Rabs k11 <= 0.03195)%R) by (pose proof (tri _ _ _ _ E11 B11); lra).
  assert (Q0 : (Rabs (Q - Q) <= 0 * u)%R) by (rewrite Rminus_eq_0, Rabs_R0; lra).
  destruct (ma_e q (ka F 1) (ka F 0) Q k1 k0 Q (IZR (5404319553092955) * bp (-56)) (IZR (6004799503160192) * bp (-55)) 0.26 0.07502 0.16669 0.075001 (0 * u) (0.075003 * u) (0.166670 * u) 0.39271) as (c0 & RC0 & EC0); try assumption; try lra.
  assert (BC0' : (Rabs (Q * (IZR (5404319553092955) * bp (-56)) + IZR (6004799503160192) * bp (-55)) <= 0.18657)%R) by (apply Rabs_le; bpn; lra).
  assert (BC0 : (Rabs c0 <= 0.18658)%R) by (pose proof (tri _ _ _ _ EC0 BC0'); lra).
  destruct (ma_e q (ka F 3) (ka F 2) Q k3 k2 Q (IZR (8757003558622942) * bp (-58)) (IZR (6433713707345084) * bp (-57)) 0.26 0.03040 0.04466 0.030383 (0 * u) (0.030385 * u) (0.044646 * u) 0.11327) as (c1 & RC1 & EC1); try assumption; try lra.
  assert (BC1' : (Rabs (Q * (IZR (8757003558622942) * bp (-58)) + IZR (6433713707345084) * bp (-57)) <= 0.05268)%R) by (apply Rabs_le; bpn; lra).
  assert (BC1 : (Rabs c1 <= 0.05269)%R) by (pose proof (tri _ _ _ _ EC1 BC1'); lra).
  destruct (ma_e q (ka F 5) (ka F 4) Q k5 k4 Q (IZR (5003607134847092) * bp (-58)) (IZR (6448219253556811) * bp (-58)) 0.26 0.01738 0.02239 0.017361 (0 * u) (0.017363 * u) (0.022375 * u) 0.05846) as (c2 & RC2 & EC2); try assumption; try lra.
  assert (BC2' : (Rabs (Q * (IZR (5003607134847092) * bp (-58)) + IZR (6448219253556811) * bp (-58)) <= 0.02697)%R) by (apply Rabs_le; bpn; lra).
  assert (BC2 : (Rabs c2 <= 0.02698)%R) by (pose proof (tri _ _ _ _ EC2 BC2'); lra).
  destruct (ma_e q (ka F 7) (ka F 6) Q k7 k6 Q (IZR (7016398763515161) * bp (-59)) (IZR (8004067957053868) * bp (-59)) 0.26 0.01219 0.01390 0.012173 (0 * u) (0.012175 * u) (0.013888 * u) 0.03739) as (c3 & RC3 & EC3); try assumption; try lra.
  assert (BC3' : (Rabs (Q * (IZR (7016398763515161) * bp (-59)) + IZR (8004067957053868) * bp (-59)) <= 0.01711)%R) by (apply Rabs_le; bpn; lra).
  assert (BC3 : (Rabs c3 <= 0.01712)%R) by (pose proof (tri _ _ _ _ EC3 BC3'); lra).
  destruct (ma_e q (ka F 9) (ka F 8) Q k9 k8 Q (IZR (5635139846664006) * bp (-58)) (IZR (7515851594203209) * bp (-60)) 0.26 0.01957 0.00654 0.019552 (0 * u) (0.019554 * u) (0.006522 * u) 0.02840) as (c4 & RC4 & EC4); try assumption; try lra.
  assert (BC4' : (Rabs (Q * (IZR (5635139846664006) * bp (-58)) + IZR (7515851594203209) * bp (-60)) <= 0.01166)%R) by (apply Rabs_le; bpn; lra).
  assert (BC4 : (Rabs c4 <= 0.01167)%R) by (pose proof (tri _ _ _ _ EC4 BC4'); lra).
  destruct (ma_e q (ka F 11) (ka F 10) Q k11 k10 Q (IZR (4602030130368581) * bp (-57)) (IZR (-4685721306087269) * bp (-58)) 0.26 0.03195 0.01628 0.031934 (0 * u) (0.031936 * u) (0.016260 * u) 0.05760) as (c5 & RC5 & EC5); try assumption; try lra.
  assert (BC5' : (Rabs (Q * (IZR (4602030130368581) * bp (-57)) + IZR (-4685721306087269) * bp (-58)) <= 0.01632)%R) by (apply Rabs_le; bpn; lra).
  assert (BC5 : (Rabs c5 <= 0.01633)%R) by (pose proof (tri _ _ _ _ EC5 BC5'); lra).
  destruct (mul_s F HF H24 Hem Hb rm _ _ _ _ Hq Hq) as (x4 & RX4 & EX4); [apply Rabs_le; nra|].
  assert (QQ : (0 <= Q * Q <= 0.0676)%R) by nra. assert (AQQ : (Rabs (Q * Q) <= 0.0676)%R) by (apply Rabs_le; lra).
  assert (EX4' : (Rabs (x4 - Q * Q) <= 0.06761 * u)%R). { assert (u * Rabs (Q * Q) <= u * 0.0676)%R by (apply Rmult_le_compat_l; lra). lra. }
  assert (BX4 : (Rabs x4 <= 0.06762)%R) by (pose proof (tri _ _ _ _ EX4' AQQ); lra).
  pose proof (rm_le _ _ _ _ BX4 BX4) as B44. destruct (mul_s F HF H24 Hem Hb rm _ _ _ _ RX4 RX4) as (x8 & RX8 & EX8); [lra|].
  assert (EX8' : (Rabs (x8 - Q * Q * (Q * Q)) <= 0.01375 * u)%R).
  { replace (x8 - Q * Q * (Q * Q))%R with ((x8 - x4 * x4) + (x4 * (x4 - Q * Q) + (x4 - Q * Q) * (Q * Q)))%R by ring. assert (u * Rabs (x4 * x4) <= u * 0.00458)%R by (apply Rmult_le_compat_l; lra).
    pose proof (rm_le _ _ _ _ BX4 EX4'). pose proof (rm_le _ _ _ _ EX4' AQQ). pose proof (Rabs_triang (x8 - x4 * x4) (x4 * (x4 - Q * Q) + (x4 - Q * Q) * (Q * Q))). pose proof (Rabs_triang (x4 * (x4 - Q * Q)) ((x4 - Q * Q) * (Q * Q))). lra. }
  pose proof (rm_le _ _ _ _ AQQ AQQ) as AQ4. assert (BX8 : (Rabs x8 <= 0.00458)%R) by (pose proof (tri _ _ _ _ EX8' AQ4); lra).
  set (w0 := (IZR (6004799503160192) * bp (-55))%R) in *.
  set (w1 := (IZR (5404319553092955) * bp (-56))%R) in *.
  set (w2 := (IZR (6433713707345084) * bp (-57))%R) in *.
  set (w3 := (IZR (8757003558622942) * bp (-58))%R) in *.
  set (w4 := (IZR (6448219253556811) * bp (-58))%R) in *.
  set (w5 := (IZR (5003607134847092) * bp (-58))%R) in *.
  set (w6 := (IZR (8004067957053868) * bp (-59))%R) in *.
  set (w7 := (IZR (7016398763515161) * bp (-59))%R) in *.
  set (w8 := (IZR (7515851594203209) * bp (-60))%R) in *.
  set (w9 := (IZR (5635139846664006) * bp (-58))%R) in *.
  set (w10 := (IZR (-4685721306087269) * bp (-58))%R) in *.
  set (w11 := (IZR (4602030130368581) * bp (-57))%R) in *.
  assert (WE : rr Q = (Q * Q * (Q * Q) * (Q * Q * (Q * Q) * (Q * Q * (Q * w11 + w10) + (Q * w9 + w8)) + (Q * Q * (Q * w7 + w6) + (Q * w5 + w4))) + (Q * Q * (Q * w3 + w2) + (Q * w1 + w0)))%R).
  { unfold rr, w0, w1, w2, w3, w4, w5, w6, w7, w8, w9, w10, w11. bpn. field. }
  clearbody w0. clearbody w1. clearbody w2. clearbody w3. clearbody w4. clearbody w5. clearbody w6. clearbody w7. clearbody w8. clearbody w9. clearbody w10. clearbody w11.
  set (t0 := (Q * w1 + w0)%R) in *.
  set (t1 := (Q * w3 + w2)%R) in *.
  set (t2 := (Q * w5 + w4)%R) in *.
  set (t3 := (Q * w7 + w6)%R) in *.
  set (t4 := (Q * w9 + w8)%R) in *.
  set (t5 := (Q * w11 + w10)%R) in *.
  destruct (ma_e (f_mul F rm q q) (mad F rm q (ka F 3) (ka F 2)) (mad F rm q (ka F 1) (ka F 0)) x4 c1 c0 (Q * Q) t1 t0 0.06762 0.05269 0.18658 0.05268 (0.06761 * u) (0.11327 * u) (0.39271 * u) 0.59894) as (d0 & RD0 & ED0); try assumption; try lra.
  assert (BD0' : (Rabs (Q * Q * t1 + t0) <= 0.19055)%R) by (pose proof (rm_le _ _ _ _ AQQ BC1'); pose proof (Rabs_triang (Q * Q * t1) t0); lra).
  assert (BD0 : (Rabs d0 <= 0.19056)%R) by (pose proof (tri _ _ _ _ ED0 BD0'); lra).
  destruct (ma_e (f_mul F rm q q) (mad F rm q (ka F 7) (ka F 6)) (mad F rm q (ka F 5) (ka F 4)) x4 c3 c2 (Q * Q) t3 t2 0.06762 0.01712 0.02698 0.01711 (0.06761 * u) (0.03739 * u) (0.05846 * u) 0.09169) as (d1 & RD1 & ED1); try assumption; try lra.
  assert (BD1' : (Rabs (Q * Q * t3 + t2) <= 0.02821)%R) by (pose proof (rm_le _ _ _ _ AQQ BC3'); pose proof (Rabs_triang (Q * Q * t3) t2); lra).
  assert (BD1 : (Rabs d1 <= 0.02822)%R) by (pose proof (tri _ _ _ _ ED1 BD1'); lra).
  destruct (ma_e (f_mul F rm q q) (mad F rm q (ka F 11) (ka F 10)) (mad F rm q (ka F 9) (ka F 8)) x4 c5 c4 (Q * Q) t5 t4 0.06762 0.01633 0.01167 0.01632 (0.06761 * u) (0.05760 * u) (0.02840 * u) 0.04743) as (d2 & RD2 & ED2); try assumption; try lra.
  assert (BD2' : (Rabs (Q * Q * t5 + t4) <= 0.01282)%R) by (pose proof (rm_le _ _ _ _ AQQ BC5'); pose proof (Rabs_triang (Q * Q * t5) t4); lra).
  assert (BD2 : (Rabs d2 <= 0.01283)%R) by (pose proof (tri _ _ _ _ ED2 BD2'); lra).
  set (s0 := (Q * Q * t1 + t0)%R) in *.
  set (s1 := (Q * Q * t3 + t2)%R) in *.
  set (s2 := (Q * Q * t5 + t4)%R) in *.
  destruct (ma_e (f_mul F rm (f_mul F rm q q) (f_mul F rm q q)) (mad F rm (f_mul F rm q q) (mad F rm q (ka F 11) (ka F 10)) (mad F rm q (ka F 9) (ka F 8))) (mad F rm (f_mul F rm q q) (mad F rm q (ka F 7) (ka F 6)) (mad F rm q (ka F 5) (ka F 4))) x8 d2 d1 (Q * Q * (Q * Q)) s2 s1 0.00458 0.01283 0.02822 0.01282 (0.01375 * u) (0.04743 * u) (0.09169 * u) 0.12081) as (e1 & RE1 & EE1); try eassumption; try lra.
  assert (BE' : (Rabs (Q * Q * (Q * Q) * s2 + s1) <= 0.02838)%R) by (pose proof (rm_le _ _ _ _ AQ4 BD2'); pose proof (Rabs_triang (Q * Q * (Q * Q) * s2) s1); lra).
  assert (BE : (Rabs e1 <= 0.02839)%R) by (pose proof (tri _ _ _ _ EE1 BE'); lra).
  destruct (ma_e (f_mul F rm (f_mul F rm q q) (f_mul F rm q q)) (mad F rm (f_mul F rm (f_mul F rm q q) (f_mul F rm q q)) (mad F rm (f_mul F rm q q) (mad F rm q (ka F 11) (ka F 10)) (mad F rm q (ka F 9) (ka F 8))) (mad F rm (f_mul F rm q q) (mad F rm q (ka F 7) (ka F 6)) (mad F rm q (ka F 5) (ka F 4)))) (mad F rm (f_mul F rm q q) (mad F rm q (ka F 3) (ka F 2)) (mad F rm q (ka F 1) (ka F 0))) x8 e1 d0 (Q * Q * (Q * Q)) (Q * Q * (Q * Q) * s2 + s1) s0 0.00458 0.02839 0.19056 0.02838 (0.01375 * u) (0.12081 * u) (0.59894 * u) 0.8) as (r & RR & ER); try eassumption; try lra.
  exists r. split; [exact RR|]. rewrite WE. exact ER.
Qed.
End Poly.
