(** * log2 for double near 1 *)
From Coq Require Import ZArith Lia Bool Reals Lra List.
From Flocq Require Import Core Relative.
From Interval Require Import Tactic.
From Verif Require Import MachInt Fmt FloatSpec FmtProofs RoundProofs FOps FOpsProofs ExactOps ExtFloatSpec ExtFloatProofs ExtInterp FmanipWide ErrLib ExpoData LogDataD ExpoF LogD Exp2fProofs ExpoFWrap LogRed LogfNum LogfProofs LogfWrap LogDTab LogDNum LogDRed LogDRem LogDFar LogDNear LogDCore Log2DFar.
Import ListNotations.
Open Scope Z_scope.

Lemma quad_e : forall rm r r2 a b c d R A B C E b2 h, h = hD rm -> is_real D r R -> (Rabs R <= 443 / 10000)%R -> is_real D r2 (R * R + h * b2) -> (Rabs b2 <= / 100)%R ->
  is_real D a A -> is_real D b B -> is_real D c C -> is_real D d E -> (Rabs A <= 37 / 100)%R -> (Rabs B <= 29 / 100)%R -> (Rabs C <= 25 / 100)%R -> (Rabs E <= 21 / 100)%R ->
  exists s, (Rabs s <= 1.1)%R /\ is_real D (f_add D rm (f_add D rm a (f_mul D rm r b)) (f_mul D rm r2 (f_add D rm c (f_mul D rm r d)))) (lnq R A B C E + h * s).
Proof.
  intros rm r r2 a b c d R A B C E b2 h Hh Hr RB R2 B2 Ha Hb Hc Hd BA BB BC BE. pose proof (hD_b rm) as HH. rewrite <- Hh in HH. bpn_in HH.
  destruct (mulS rm _ _ _ _ (-6) Hr Hb ltac:(lia) ltac:(iv)) as (s1 & E1 & R1). rewrite <- Hh in R1. bpn_in E1.
  destruct (addS rm _ _ _ _ (-1) Ha R1 ltac:(lia) ltac:(iv)) as (s2 & E2 & R3). rewrite <- Hh in R3. bpn_in E2.
  destruct (mulS rm _ _ _ _ (-6) Hr Hd ltac:(lia) ltac:(iv)) as (s3 & E3 & R4). rewrite <- Hh in R4. bpn_in E3.
  destruct (addS rm _ _ _ _ (-1) Hc R4 ltac:(lia) ltac:(iv)) as (s4 & E4 & R5). rewrite <- Hh in R5. bpn_in E4.
  destruct (mulS rm _ _ _ _ (-10) R2 R5 ltac:(lia) ltac:(iv)) as (s5 & E5 & R6). rewrite <- Hh in R6. bpn_in E5.
  destruct (addS rm _ _ _ _ (-1) R3 R6 ltac:(lia) ltac:(iv)) as (s6 & E6 & R7). rewrite <- Hh in R7. bpn_in E6.
  exists (s1 + s2 + b2 * (C + R * E) + (R * R + h * b2) * (s3 + s4) + s5 + s6)%R. split; [clear - E1 E2 E3 E4 E5 E6 HH B2 RB BC BE; iv|].
  match type of R7 with is_real _ _ ?v => match goal with |- is_real _ _ ?w => replace w with v by (unfold lnq; ring) end end. exact R7.
Qed.
Theorem log2d_near_e : forall rm r M p e h, h = hD rm -> (p = 1 \/ p = -1)%R -> is_real D r (M * p) -> -53 <= e <= -4 -> (bp e <= M < bp (e + 1))%R -> (M <= 443 / 10000)%R ->
  exists a b S H, log2d_near_r rm r = f_add D rm a b /\ is_real D a S /\ is_real D b H /\ (Rabs (S + H - lnN (M * p)) <= 19 / 100 * h * M)%R.
Proof.
  intros rm r M p e h Hh Hp Hr He MB M16. pose proof (hD_b rm) as HH. rewrite <- Hh in HH. assert (HB := HH). bpn_in HB. pose proof (bpow_gt_0 radix2 e) as EP.
  assert (M53 : (bp (-53) <= M)%R) by (apply Rle_trans with (2 := proj1 MB); apply bpow_le; lia).
  assert (MP : (0 < M)%R) by lra. assert (MI : (0 <= M <= 443 / 10000)%R) by lra.
  assert (S1 : (bp (-800) <= M)%R) by (apply Rle_trans with (2 := M53); apply bpow_le; lia).
  assert (S2' : (bp (-106) <= M * M)%R). { change (-106) with (-53 + -53). rewrite bpow_plus. apply Rmult_le_compat; auto; apply bpow_ge_0. }
  assert (S2 : (bp (-800) <= M * M)%R) by (apply Rle_trans with (2 := S2'); apply bpow_le; lia).
  assert (S4 : (bp (-800) <= M * M * (M * M))%R). { apply Rle_trans with (bp (-106) * bp (-106))%R; [rewrite <- !bpow_plus; apply bpow_le; lia|]. apply Rmult_le_compat; auto; apply bpow_ge_0. }
  assert (CC : forall c, (/ 1000000000000000000 <= c)%R -> (bp (-100) <= c)%R). { intros c Hc. apply Rle_trans with (2 := Hc). apply Rle_trans with (bp (-60)); [apply bpow_le; lia|bpn; lra]. }
  assert (PP : (p * p = 1)%R) by (destruct Hp; subst p; lra). assert (PB : (-1 <= p <= 1)%R) by (destruct Hp; subst p; lra).
  assert (RA : (Rabs (M * p) = M)%R) by (rewrite Rabs_mult, (Rabs_pos_eq M) by lra; destruct Hp; subst p; [rewrite Rabs_pos_eq by lra|rewrite Rabs_left1 by lra]; ring).
  assert (M2P : (0 <= M * M)%R) by nra. assert (M4P : (0 <= M * M * (M * M))%R) by nra. assert (M2U : (M * M <= 0.01)%R) by nra. assert (M4U : (M * M * (M * M) <= 0.01)%R) by nra.
  destruct (mulU rm _ _ _ _ (M * M) 1 Hr Hr S2 ltac:(apply CC; lra) ltac:(lra)) as (s2 & E2 & R2). { rewrite Rabs_mult, RA. lra. }
  rewrite <- Hh in R2. set (r2 := f_mul D rm r r) in *.
  assert (W2 : (M * p * (M * p) + h * (M * M * s2) = M * M * (1 + h * s2))%R) by (replace (M * p * (M * p))%R with (M * M * (p * p))%R by ring; rewrite PP; ring).
  destruct (mulU rm _ _ _ _ (M * M * (M * M)) 1.001 R2 R2 S4 ltac:(apply CC; lra) ltac:(lra)) as (s4 & E4 & R4).
  { rewrite W2. replace (M * M * (1 + h * s2) * (M * M * (1 + h * s2)))%R with (M * M * (M * M) * ((1 + h * s2) * (1 + h * s2)))%R by ring. rewrite Rabs_mult, (Rabs_pos_eq (M * M * (M * M))) by exact M4P. apply Rmult_le_compat_l; [exact M4P|]. clear - HB E2. iv. }
  rewrite <- Hh in R4. set (r4 := f_mul D rm r2 r2) in *. 
  assert (W4 : (exists u4, (Rabs u4 <= 6.1)%R /\ is_real D r4 (M * M * (M * M) * (1 + h * u4)))%R).
  { exists (2 * s2 + h * s2 * s2 + s4)%R. split; [clear - HB E2 E4; iv|]. match type of R4 with is_real _ _ ?v => match goal with |- is_real _ _ ?w => replace w with v by (rewrite W2; ring) end end. exact R4. }
  destruct W4 as (u4 & U4 & R4'). clear R4 s4 E4. rename R4' into R4.
  set (R := (M * p)%R) in *. assert (RB : (Rabs R <= 443 / 10000)%R) by (rewrite RA; exact M16).
  assert (B2 : (Rabs (M * M * s2) <= / 100)%R) by iv.
  realof D (at_ log2d_poly1 0) H0. realof D (at_ log2d_poly1 1) H1. realof D (at_ log2d_poly1 2) H2. realof D (at_ log2d_poly1 3) H3. realof D (at_ log2d_poly1 4) H4.
  realof D (at_ log2d_poly1 5) H5. realof D (at_ log2d_poly1 6) H6. realof D (at_ log2d_poly1 7) H7. realof D (at_ log2d_poly1 8) H8. realof D (at_ log2d_poly1 9) H9.
  apply fold_real with (W := ln0) in H0; [|unfold ln0; bpn; lra]. apply fold_real with (W := ln1) in H1; [|unfold ln1; bpn; lra]. apply fold_real with (W := ln2_) in H2; [|unfold ln2_; bpn; lra].
  apply fold_real with (W := ln3) in H3; [|unfold ln3; bpn; lra]. apply fold_real with (W := ln4) in H4; [|unfold ln4; bpn; lra]. apply fold_real with (W := ln5) in H5; [|unfold ln5; bpn; lra].
  apply fold_real with (W := ln6) in H6; [|unfold ln6; bpn; lra]. apply fold_real with (W := ln7) in H7; [|unfold ln7; bpn; lra]. apply fold_real with (W := ln8) in H8; [|unfold ln8; bpn; lra].
  apply fold_real with (W := ln9) in H9; [|unfold ln9; bpn; lra].
  assert (Q0 : (-0.7214 <= ln0 <= -0.7213)%R) by (unfold ln0; bpn; lra). assert (Q1 : (0.48 <= ln1 <= 0.481)%R) by (unfold ln1; bpn; lra).
  destruct (quad_e rm r r2 _ _ _ _ R _ _ _ _ _ h Hh Hr RB R2 B2 H2 H3 H4 H5) as (t1 & T1 & K1); try (unfold ln2_, ln3, ln4, ln5; bpn; apply Rabs_le; lra).
  destruct (quad_e rm r r2 _ _ _ _ R _ _ _ _ _ h Hh Hr RB R2 B2 H6 H7 H8 H9) as (t2 & T2 & K2); try (unfold ln6, ln7, ln8, ln9; bpn; apply Rabs_le; lra).
  set (L1 := lnq R ln2_ ln3 ln4 ln5) in *. set (L2 := lnq R ln6 ln7 ln8 ln9) in *.
  assert (BL1 : (Rabs L1 <= 0.38)%R) by (unfold L1, lnq, ln2_, ln3, ln4, ln5; clearbody R; iv). assert (BL2 : (Rabs L2 <= 0.2)%R) by (unfold L2, lnq, ln6, ln7, ln8, ln9; clearbody R; iv).
  unfold log2d_near_r. change F64 with D. fold r2 r4. cbv zeta.
  match type of K1 with is_real _ ?q _ => set (q1 := q) in * end. match type of K2 with is_real _ ?q _ => set (q2 := q) in * end.
  destruct (mulS rm _ _ _ _ (-16) R4 K2 ltac:(lia) ltac:(clear - MI HB U4 T2 BL2; clearbody L2; iv)) as (s5 & E5 & R5). rewrite <- Hh in R5. bpn_in E5.
  destruct (addS rm _ _ _ _ (-1) K1 R5 ltac:(lia) ltac:(clear - MI HB U4 T1 T2 BL1 BL2 E5; clearbody L1 L2; iv)) as (s6 & E6 & R6). rewrite <- Hh in R6. bpn_in E6.
  assert (LT : (L1 + h * t1 + (M * M * (M * M) * (1 + h * u4) * (L2 + h * t2) + h * s5) + h * s6 = lnT R + h * (t1 + s5 + s6 + M * M * (M * M) * (u4 * (L2 + h * t2) + t2)))%R).
  { unfold lnT. fold L1 L2. replace (R * R * (R * R))%R with (M * M * (M * M) * (p * p * (p * p)))%R by (unfold R; ring). rewrite PP. ring. }
  rewrite LT in R6. set (eT := (t1 + s5 + s6 + M * M * (M * M) * (u4 * (L2 + h * t2) + t2))%R) in *. assert (ET : (Rabs eT <= 1.7)%R) by (unfold eT; clear - MI HB U4 T1 T2 BL2 E5 E6; clearbody L2; iv).
  assert (BT : (Rabs (lnT R) <= 0.381)%R) by (unfold lnT; fold L1 L2; clearbody L1 L2; clearbody R; clear - RB BL1 BL2; iv).
  destruct (mulU rm _ _ _ _ (M * M * (M * M)) 0.39 R4 R6 S4 ltac:(apply CC; lra) ltac:(lra)) as (s7 & E7 & R7).
  { rewrite Rmult_assoc, Rabs_mult, (Rabs_pos_eq (M * M * (M * M))) by exact M4P. apply Rmult_le_compat_l; [exact M4P|]. set (lt := lnT R) in *. clearbody lt eT. clear - HB U4 ET BT. iv. }
  rewrite <- Hh in R7.
  (* p *)
  destruct (mulU rm _ _ _ _ M 0.481 Hr H1 S1 ltac:(apply CC; lra) ltac:(lra)) as (s8 & E8 & R8). { rewrite Rabs_mult, RA. apply Rmult_le_compat_l; [lra|]. apply Rabs_le; lra. } rewrite <- Hh in R8.
  destruct (addS rm _ _ _ _ 0 H0 R8 ltac:(lia) ltac:(clearbody R; clear - MI HB RB Q0 Q1 E8; iv)) as (s9 & E9 & R9). rewrite <- Hh in R9. bpn_in E9.
  set (A0 := (ln0 + (R * ln1 + h * (M * s8)) + h * s9)%R) in *. assert (BA0 : (Rabs A0 <= 0.743)%R) by (unfold A0; clearbody R; clear - MI HB RB Q0 Q1 E8 E9; iv).
  destruct (mulU rm _ _ _ _ (M * M) 0.744 R2 R9 S2 ltac:(apply CC; lra) ltac:(lra)) as (s10 & E10 & R10).
  { fold R in W2. rewrite W2, Rmult_assoc, Rabs_mult, (Rabs_pos_eq (M * M)) by exact M2P. apply Rmult_le_compat_l; [exact M2P|]. clearbody A0. clear - HB E2 BA0. iv. }
  rewrite <- Hh in R10. set (pq := f_mul D rm r2 (f_add D rm (at_ log2d_poly1 0) (f_mul D rm r (at_ log2d_poly1 1)))) in *.
  set (Pv := (M * M * ((1 + h * s2) * A0 + h * s10))%R).
  assert (PE : ((R * R + h * (M * M * s2)) * A0 + h * (M * M * s10) = Pv)%R) by (fold R in W2; rewrite W2; unfold Pv; ring). rewrite PE in R10.
  assert (PVB : (Rabs Pv <= M * 0.034)%R). { unfold Pv. rewrite Rmult_assoc, Rabs_mult, (Rabs_pos_eq M) by lra. apply Rmult_le_compat_l; [lra|]. clearbody A0. clear - MI HB E2 BA0 E10. iv. }
  (* the leading term *)
  destruct (split_lg rm r R Hr ltac:(lra)) as (HR & LO & RS & LOB & RLO & RT1). rewrite RA in LOB.
  assert (LOM : (Rabs LO <= M * (/ 1000000))%R). { apply Rle_trans with (1 := LOB). assert (bp (-1042) <= bp (-100) * M)%R; [|set (t := bp (-1042)) in *; clearbody t; bpn_in H; bpn; lra]. apply Rle_trans with (bp (-100) * bp (-53))%R; [rewrite <- bpow_plus; apply bpow_le; lia|]. apply Rmult_le_compat_l; [apply bpow_ge_0|exact M53]. }
  realof D log2d_invln2hi HI. match type of HI with is_real _ _ ?v => replace v with ivh in HI by (unfold ivh; bpn; lra) end.
  realof D log2d_invln2lo HJ. match type of HJ with is_real _ _ ?v => replace v with ivl in HJ by (unfold ivl; bpn; lra) end.
  assert (BH : (1.442 <= ivh <= 1.443)%R) by (unfold ivh; bpn; lra). assert (BJ : (0 <= ivl <= / 4000000000)%R) by (unfold ivl; bpn; lra).
  destruct (as_unit M LO (/ 1000000) MP ltac:(lra)) as (lo_ & LOu & LOE).
  set (hi := f_mul D rm (clear32 r) log2d_invln2hi) in *. set (HIv := (HR * ivh)%R) in *.
  assert (HIE : HIv = (M * ((p - lo_) * ivh))%R) by (unfold HIv; replace HR with (R - LO)%R by lra; rewrite LOE; unfold R; ring).
  assert (HU : (Rabs HIv <= M * 1.4431)%R). { rewrite HIE, Rabs_mult, (Rabs_pos_eq M) by lra. apply Rmult_le_compat_l; [lra|]. clear - PB LOu BH. iv. }
  assert (HL : (M * 1.44 <= Rabs HIv)%R). { rewrite HIE, Rabs_mult, (Rabs_pos_eq M) by lra. apply Rmult_le_compat_l; [lra|]. destruct Hp; subst p; clear - LOu BH; iv. }
  destruct (addU rm _ _ _ _ M 1.478 RT1 R10 S1 ltac:(apply CC; lra) ltac:(lra)) as (sd & Ed & Ry). { apply Rle_trans with (1 := Rabs_triang _ _). lra. }
  rewrite <- Hh in Ry. set (y := f_add D rm hi pq) in *. set (d := (h * (M * sd))%R) in *.
  assert (DB : (Rabs d <= M * / 1000000000000000)%R). { unfold d. replace (h * (M * sd))%R with (M * (h * sd))%R by ring. rewrite Rabs_mult, (Rabs_pos_eq M) by lra. apply Rmult_le_compat_l; [lra|]. clear - HB Ed. iv. }
  assert (WD : (Rabs (Pv + d) <= M * 0.035)%R) by (apply Rle_trans with (1 := Rabs_triang _ _); lra).
  assert (E1 : (bp (e + 1) = 2 * bp e)%R) by (rewrite bpow_plus; change (bp 1) with 2%R; ring).
  assert (R11 : is_real D (f_sub D rm hi y) (- (Pv + d))).
  { apply (sub_x D good64) with (1 := RT1) (2 := Ry); [ring| |].
    - set (Y := (HIv + Pv + d)%R) in *. assert (GH : generic_format radix2 fexpD HIv) by (destruct RT1 as (P & Fi & <-); apply (fval_format D good64); auto).
      assert (GY : generic_format radix2 fexpD Y) by (destruct Ry as (P & Fi & <-); apply (fval_format D good64); auto).
      assert (YL : (bp e <= Rabs Y)%R).
      { assert (Rabs HIv <= Rabs Y + Rabs (Pv + d))%R; [|lra]. replace HIv with (Y + - (Pv + d))%R by (unfold Y; ring). apply Rle_trans with (1 := Rabs_triang _ _). rewrite Rabs_Ropp. unfold Y. lra. }
      destruct (fmt_mult HIv e GH ltac:(lia) ltac:(lra)) as (m1 & M1). destruct (fmt_mult Y e GY ltac:(lia) YL) as (m2 & M2).
      assert (E5' : (- (Pv + d) = IZR (m1 - m2) * bp (e - 52))%R) by (replace (- (Pv + d))%R with (HIv - Y)%R by (unfold Y; ring); rewrite M1, M2, minus_IZR; ring).
      rewrite E5'. apply gfx; [lia|]. rewrite <- E5', Rabs_Ropp. replace (e - 52 + 53) with (e + 1) by ring. lra.
    - apply bigD with 0; [lia|]. rewrite Rabs_Ropp. bpn. lra. }
  destruct (addU rm _ _ _ _ M (/ 1000000000000000) R11 R10 S1 ltac:(apply CC; lra) ltac:(lra)) as (s12 & E12 & R12).
  { replace (- (Pv + d) + Pv)%R with (- d)%R by ring. rewrite Rabs_Ropp. exact DB. } rewrite <- Hh in R12.
  (* the low terms *)
  destruct (mulU rm _ _ _ _ M (/ 600000) RLO HI S1 ltac:(apply CC; lra) ltac:(lra)) as (s13 & E13 & R13).
  { rewrite LOE, Rmult_assoc, Rabs_mult, (Rabs_pos_eq M) by lra. apply Rmult_le_compat_l; [lra|]. clear - LOu BH. iv. } rewrite <- Hh in R13.
  destruct (mulU rm _ _ _ _ M (/ 4000000000) Hr HJ S1 ltac:(apply CC; lra) ltac:(lra)) as (s14 & E14 & R14).
  { rewrite Rabs_mult, RA. apply Rmult_le_compat_l; [lra|]. apply Rabs_le; lra. } rewrite <- Hh in R14.
  assert (LV : (LO * ivh + h * (M * s13) + (R * ivl + h * (M * s14)) = M * (lo_ * ivh + p * ivl + h * (s13 + s14)))%R) by (rewrite LOE; unfold R; ring).
  destruct (addU rm _ _ _ _ M (/ 500000) R13 R14 S1 ltac:(apply CC; lra) ltac:(lra)) as (s15 & E15 & R15).
  { rewrite LV, Rabs_mult, (Rabs_pos_eq M) by lra. apply Rmult_le_compat_l; [lra|]. clear - LOu BH BJ PB HB E13 E14. iv. } rewrite <- Hh in R15.
  destruct (addU rm _ _ _ _ M (/ 400000) R15 R12 S1 ltac:(apply CC; lra) ltac:(lra)) as (s16 & E16 & R16).
  { rewrite LV. match goal with |- (Rabs ?t <= _)%R => replace t with (M * (lo_ * ivh + p * ivl + h * (s13 + s14) + h * s15 + h * (s12 - sd)))%R by (unfold d; ring) end.
    rewrite Rabs_mult, (Rabs_pos_eq M) by lra. apply Rmult_le_compat_l; [lra|]. clear - LOu BH BJ PB HB E13 E14 E15 E12 Ed. iv. } rewrite <- Hh in R16.
  destruct (addU rm _ _ _ _ M (/ 20000) R16 R7 S1 ltac:(apply CC; lra) ltac:(lra)) as (s17 & E17 & R17).
  { rewrite LV. match goal with |- (Rabs ?t <= _)%R => replace t with (M * ((lo_ * ivh + p * ivl + h * (s13 + s14) + h * s15 + h * (s12 - sd)) + h * s16 + (M * (M * M) * ((1 + h * u4) * (lnT R + h * eT) + h * s7))))%R by (unfold d; ring) end.
    rewrite Rabs_mult, (Rabs_pos_eq M) by lra. apply Rmult_le_compat_l; [lra|]. set (lt := lnT R) in *. clearbody lt eT. clear - MI LOu BH BJ PB HB E13 E14 E15 E12 Ed E16 U4 BT ET E7. iv. }
  rewrite <- Hh in R17. eexists _, _, _, _. split; [reflexivity|]. split; [exact Ry|]. split; [exact R17|].
  match goal with |- (Rabs ?t <= _)%R => replace t with (h * M * (M * (s2 * A0 + (M * s8 + s9) + s10) + s13 + s14 + s15 + s12 + s16 + M * (M * M) * (u4 * (lnT R + h * eT) + eT + s7) + s17))%R end.
  - assert (HM : (0 <= h * M)%R) by (apply Rmult_le_pos; lra). rewrite Rabs_mult, (Rabs_pos_eq (h * M)) by exact HM. replace (19 / 100 * h * M)%R with (h * M * (19 / 100))%R by ring. apply Rmult_le_compat_l; [exact HM|].
    set (lt := lnT R) in *. clearbody lt eT A0. clear - MI HB E2 BA0 E8 E9 E10 E13 E14 E15 E12 E16 U4 BT ET E7 E17. iv.
  - unfold lnN. replace (R * R * (R * R) * lnT R)%R with (M * M * (M * M) * lnT R)%R by (replace (R * R * (R * R))%R with (M * M * (M * M) * (p * p * (p * p)))%R by (unfold R; ring); rewrite PP; ring).
    replace (R * R * (ln0 + R * ln1))%R with (M * M * (ln0 + R * ln1))%R by (replace (R * R)%R with (M * M * (p * p))%R by (unfold R; ring); rewrite PP; ring).
    replace (R * (ivh + ivl))%R with (HIv + LO * ivh + R * ivl)%R by (rewrite RS; unfold HIv; ring). unfold d, Pv, A0. ring.
Qed.
