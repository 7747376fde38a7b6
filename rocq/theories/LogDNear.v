(** * log for double near 1 *)
From Coq Require Import ZArith Lia Bool Reals Lra List.
From Flocq Require Import Core Relative.
From Interval Require Import Tactic.
From Verif Require Import MachInt Fmt FloatSpec FmtProofs RoundProofs FOps FOpsProofs ExactOps ExtFloatSpec ExtFloatProofs ExtInterp FmanipWide ErrLib ExpoData LogDataD ExpoF LogD Exp2fProofs ExpoFWrap LogRed LogfNum LogfProofs LogDTab LogDNum LogDRed LogDRem LogDFar Expm1Proofs.
Import ListNotations.
Open Scope Z_scope.

Lemma H24 : 24 <= prec D. Proof. vm_compute. congruence. Qed.
Lemma uF_h : forall rm, uF D rm = (2 * hD rm)%R.
Proof. intros rm. unfold uF, hD. change (prec D) with 53. change 2%R with (bp 1). rewrite <- bpow_plus. destruct rm; reflexivity. Qed.
(** The error of one operation relative to a scale M. *)
Lemma unitU : forall rm z M c, (bp (-800) <= M)%R -> (bp (-100) <= c)%R -> (Rabs z <= M * c)%R -> exists s, (Rabs s <= 2001 / 1000 * c)%R /\ fround D rm z = (z + hD rm * (M * s))%R.
Proof.
  intros rm z M c HM Hc HZ. pose proof (rel_e D good64 H24 rm z) as E. rewrite uF_h in E. pose proof (hD_b rm) as [HP _].
  assert (MP : (0 < M)%R) by (pose proof (bpow_gt_0 radix2 (-800)); lra). assert (CP : (0 < c)%R) by (pose proof (bpow_gt_0 radix2 (-100)); lra).
  assert (HL : (bp (-54) <= hD rm)%R) by (unfold hD; destruct rm; apply bpow_le; lia).
  assert (ET : (bp (emin D) <= / 1000 * (hD rm * (M * c)))%R).
  { change (emin D) with (-10 + (-54 + (-800 + (-210)))). apply Rle_trans with (bp (-10) * (bp (-54) * (bp (-800) * bp (-100))))%R.
    - rewrite <- !bpow_plus. apply bpow_le. lia.
    - apply Rmult_le_compat; [apply bpow_ge_0| |bpn; lra|]; repeat (apply Rmult_le_pos || apply bpow_ge_0).
      apply Rmult_le_compat; [apply bpow_ge_0| |auto|]; repeat (apply Rmult_le_pos || apply bpow_ge_0). apply Rmult_le_compat; auto; apply bpow_ge_0. }
  assert (E' : (Rabs (fround D rm z - z) <= 2001 / 1000 * c * (hD rm * M))%R).
  { apply Rle_trans with (1 := E). assert (2 * hD rm * Rabs z <= 2 * hD rm * (M * c))%R by (apply Rmult_le_compat_l; lra). lra. }
  destruct (as_unit (hD rm * M) (fround D rm z - z) (2001 / 1000 * c)) as (s & S & Q); [apply Rmult_lt_0_compat; auto|exact E'|].
  exists s. split; [exact S|]. rewrite <- Rmult_assoc, <- Q. ring.
Qed.
Lemma big4 : forall rm z, (Rabs z <= 4)%R -> (Rabs (fround D rm z) < bp (bias D + 1))%R.
Proof. intros rm z H. apply bound_big with 2; [lia|]. bpn. exact H. Qed.
Lemma addU : forall rm a b A B M c, is_real D a A -> is_real D b B -> (bp (-800) <= M)%R -> (bp (-100) <= c)%R -> (M * c <= 4)%R -> (Rabs (A + B) <= M * c)%R ->
  exists s, (Rabs s <= 2001 / 1000 * c)%R /\ is_real D (f_add D rm a b) (A + B + hD rm * (M * s)).
Proof.
  intros rm a b A B M c Ha Hb HM Hc H4 H. destruct (unitU rm (A + B) M c HM Hc H) as (s & S & Q). exists s. split; [exact S|]. rewrite <- Q. apply (add_r D good64); auto. apply big4. lra.
Qed.
Lemma mulU : forall rm a b A B M c, is_real D a A -> is_real D b B -> (bp (-800) <= M)%R -> (bp (-100) <= c)%R -> (M * c <= 4)%R -> (Rabs (A * B) <= M * c)%R ->
  exists s, (Rabs s <= 2001 / 1000 * c)%R /\ is_real D (f_mul D rm a b) (A * B + hD rm * (M * s)).
Proof.
  intros rm a b A B M c Ha Hb HM Hc H4 H. destruct (unitU rm (A * B) M c HM Hc H) as (s & S & Q). exists s. split; [exact S|]. rewrite <- Q. apply (mul_r D good64); auto. apply big4. lra.
Qed.

Lemma logd_block_e : forall rm r r2 r3 c c' c'' t R s2 s3 C C' C'' T st, let h := hD rm in is_real D r R -> (Rabs R <= / 16)%R ->
  is_real D r2 (R * R + h * s2) -> (Rabs s2 <= / 100)%R -> is_real D r3 (R * R * R + h * s3) -> (Rabs s3 <= / 1000)%R ->
  is_real D c C -> is_real D c' C' -> is_real D c'' C'' -> is_real D t (T + h * st) -> (Rabs C <= 0.334)%R -> (Rabs C' <= 0.251)%R -> (Rabs C'' <= 0.201)%R -> (Rabs T <= 0.4)%R -> (Rabs st <= 2)%R ->
  exists s, (Rabs s <= 1.6)%R /\ is_real D (logd_block rm r r2 r3 c c' c'' t) (lmB R C C' C'' T + h * s).
Proof.
  intros rm r r2 r3 c c' c'' t R s2 s3 C C' C'' T st h Hr RB H2 B2 H3 B3 Hc Hc' Hc'' Ht BC BC' BC'' BT BS.
  pose proof (hD_b rm) as HH. bpn_in HH. fold h in HH. unfold logd_block. change F64 with D.
  destruct (mulS rm _ _ _ _ (-5) Hr Hc' ltac:(lia) ltac:(iv)) as (u1 & E1 & R1). fold h in R1. bpn_in E1.
  destruct (addS rm _ _ _ _ (-1) Hc R1 ltac:(lia) ltac:(iv)) as (u2 & E2 & R2). fold h in R2. bpn_in E2.
  destruct (mulS rm _ _ _ _ (-10) H2 Hc'' ltac:(lia) ltac:(clearbody h; iv)) as (u3 & E3 & R3). fold h in R3. bpn_in E3.
  destruct (addS rm _ _ _ _ (-1) R2 R3 ltac:(lia) ltac:(clearbody h; iv)) as (u4 & E4 & R4). fold h in R4. bpn_in E4.
  destruct (mulS rm _ _ _ _ (-13) H3 Ht ltac:(lia) ltac:(clearbody h; iv)) as (u5 & E5 & R5). fold h in R5. bpn_in E5.
  destruct (addS rm _ _ _ _ (-1) R4 R5 ltac:(lia) ltac:(clearbody h; iv)) as (u6 & E6 & R6). fold h in R6. bpn_in E6.
  exists (u1 + u2 + s2 * C'' + u3 + u4 + (s3 * T + (R * R * R + h * s3) * st) + u5 + u6)%R. split; [clearbody h; clear - HH RB B2 B3 BC'' BT BS E1 E2 E3 E4 E5 E6; iv|].
  match type of R6 with is_real _ _ ?v => match goal with |- is_real _ _ ?w => replace w with v by (unfold lmB; ring) end end. exact R6.
Qed.

(** The high half of r. *)
Lemma split_hi : forall rm r R e, is_real D r R -> -53 <= e <= -4 -> (bp e <= Rabs R < bp (e + 1))%R ->
  exists HR n, is_real D (f_sub D rm (f_add D rm r (f_mul D rm r (lit 1 27))) (f_mul D rm r (lit 1 27))) HR /\ HR = (IZR n * bp (e - 25))%R /\
   (Rabs (HR - R) <= Rabs R * bp (-24))%R /\ Z.abs n <= 2 ^ 26 + 4.
Proof.
  intros rm r R e Hr He RB. assert (L : is_real D (lit 1 27) (bp 27)) by (pose proof (lit_r false 1 27 ltac:(lia) ltac:(lia)) as L; rewrite Rmult_1_l in L; exact L).
  assert (GR : generic_format radix2 fexpD R) by (destruct Hr as (P & Fi & <-); apply (fval_format D good64); auto).
  destruct (fmt_mult R e GR ltac:(lia) (proj1 RB)) as (m & M). pose proof (bpow_gt_0 radix2 e) as EP.
  assert (E1 : (bp (e + 1) = 2 * bp e)%R) by (rewrite bpow_plus; change (bp 1) with 2%R; ring).
  assert (MB : Z.abs m < 2 ^ 53).
  { apply lt_IZR. rewrite abs_IZR. apply Rmult_lt_reg_r with (bp (e - 52)); [apply bpow_gt_0|]. rewrite <- (Rabs_pos_eq (bp (e - 52))) at 1 by apply bpow_ge_0. rewrite <- Rabs_mult, <- M.
    apply Rlt_le_trans with (1 := proj2 RB). rewrite IZR_pow2 by lia. rewrite <- bpow_plus. apply bpow_le. lia. }
  set (W := (R * bp 27)%R). assert (WE : W = (IZR m * bp (e - 25))%R) by (unfold W; rewrite M, Rmult_assoc, <- bpow_plus; do 2 f_equal; ring).
  assert (B27 : bp 27 = 134217728%R) by reflexivity. assert (M1 : (bp e <= / 16)%R) by (change (/ 16)%R with (bp (-4)); apply bpow_le; lia).
  assert (HW : is_real D (f_mul D rm r (lit 1 27)) W).
  { apply (mul_x D good64) with (1 := Hr) (2 := L); [reflexivity|rewrite WE; apply gfD; [exact MB|lia]|]. apply bigD with 30; [lia|]. unfold W. rewrite Rabs_mult, (Rabs_pos_eq (bp 27)) by apply bpow_ge_0. rewrite B27. change (bp 30) with 1073741824%R. lra. }
  set (w := f_mul D rm r (lit 1 27)) in *. set (Y := (R + W)%R). assert (YE : Y = (R * 134217729)%R) by (unfold Y, W; rewrite B27; ring).
  assert (YA : (Rabs Y = Rabs R * 134217729)%R) by (rewrite YE, Rabs_mult, (Rabs_pos_eq 134217729) by lra; reflexivity).
  assert (HY : is_real D (f_add D rm r w) (fround D rm Y)). { apply (add_r D good64); auto. apply bound_big with 30; [lia|]. fold Y. rewrite YA. change (bp 30) with 1073741824%R. lra. }
  set (V := fround D rm Y) in *. pose proof (rel_e D good64 H24 rm Y) as RE. fold V in RE. rewrite uF_h in RE. pose proof (hD_b rm) as HH.
  assert (DV : (Rabs (V - Y) <= Rabs R * bp (-24))%R).
  { assert (ET : (bp (emin D) <= Rabs R * bp (-30))%R). { apply Rle_trans with (bp e * bp (-30))%R; [rewrite <- bpow_plus; apply bpow_le; change (emin D) with (-1074); lia|apply Rmult_le_compat_r; [apply bpow_ge_0|lra]]. }
    apply Rle_trans with (1 := RE). rewrite YA. set (et := bp (emin D)) in *. clearbody et. bpn_in HH. bpn_in ET. bpn. assert (2 * hD rm * (Rabs R * 134217729) <= 2 * / 9007199254740992 * (Rabs R * 134217729))%R by (apply Rmult_le_compat_r; [apply Rmult_le_pos; [apply Rabs_pos|lra]|lra]). lra. }
  assert (VB : (bp (e + 27) <= Rabs V)%R).
  { assert (GB : generic_format radix2 fexpD (bp (e + 27))) by (apply bpD; lia). assert (YB : (bp (e + 27) <= Rabs Y)%R) by (rewrite bpow_plus, YA, B27; lra).
    unfold V, fround. pose proof VED. pose proof (RemProofs.VR rm). apply abs_round_ge_generic; auto. }
  assert (GV : generic_format radix2 fexpD V) by (destruct HY as (P & Fi & <-); apply (fval_format D good64); auto).
  destruct (fmt_mult V (e + 27) GV ltac:(lia) VB) as (m2 & M2). replace (e + 27 - 52) with (e - 25) in M2 by ring.
  assert (NE : (V - W = IZR (m2 - m) * bp (e - 25))%R) by (rewrite M2, WE, minus_IZR; ring).
  assert (DR : (Rabs (V - W - R) <= Rabs R * bp (-24))%R) by (replace (V - W - R)%R with (V - Y)%R by (unfold Y; ring); exact DV).
  assert (NB : Z.abs (m2 - m) <= 2 ^ 26 + 4).
  { apply le_IZR. rewrite abs_IZR. apply Rmult_le_reg_r with (bp (e - 25)); [apply bpow_gt_0|]. rewrite <- (Rabs_pos_eq (bp (e - 25))) at 1 by apply bpow_ge_0. rewrite <- Rabs_mult, <- NE.
    replace (V - W)%R with (R + (V - W - R))%R by ring. apply Rle_trans with (1 := Rabs_triang _ _). replace (bp (e - 25)) with (bp e * bp (-25))%R by (rewrite <- bpow_plus; f_equal; ring). change (IZR (2 ^ 26 + 4)) with 67108868%R.
    bpn_in DR. bpn. lra. }
  exists (V - W)%R, (m2 - m). split; [|split; [exact NE|split; [exact DR|exact NB]]].
  apply (sub_x D good64) with (1 := HY) (2 := HW); [reflexivity|rewrite NE; apply gfD; [lia|lia]|].
  apply bigD with 0; [lia|]. replace (V - W)%R with (R + (V - W - R))%R by ring. apply Rle_lt_trans with (1 := Rabs_triang _ _). bpn_in DR. bpn. lra.
Qed.

Lemma fold_real : forall a V W, is_real D a V -> V = W -> is_real D a W. Proof. intros a V W H <-. exact H. Qed.
Theorem logd_near_e : forall rm r M p e, let h := hD rm in (p = 1 \/ p = -1)%R -> is_real D r (M * p) -> -53 <= e <= -4 -> (bp e <= M < bp (e + 1))%R -> (M <= / 16)%R ->
  exists a b S H, logd_near_r rm r = f_add D rm a b /\ is_real D a S /\ is_real D b H /\ (Rabs (S + H - lmP (M * p)) <= 19 / 1000 * h * M)%R.
Proof.
  intros rm r M p e h Hp Hr He MB M16. pose proof (hD_b rm) as HH. fold h in HH. assert (HB := HH). bpn_in HB. pose proof (bpow_gt_0 radix2 e) as EP.
  assert (M53 : (bp (-53) <= M)%R) by (apply Rle_trans with (2 := proj1 MB); apply bpow_le; lia).
  assert (MP : (0 < M)%R) by lra. assert (MI : (0 <= M <= / 16)%R) by lra.
  assert (S1 : (bp (-800) <= M)%R) by (apply Rle_trans with (2 := M53); apply bpow_le; lia).
  assert (S2 : (bp (-800) <= M * M)%R). { apply Rle_trans with (bp (-53) * bp (-53))%R; [rewrite <- bpow_plus; apply bpow_le; lia|]. apply Rmult_le_compat; auto; apply bpow_ge_0. }
  assert (S3 : (bp (-800) <= M * M * M)%R). { apply Rle_trans with (bp (-53) * bp (-53) * bp (-53))%R; [rewrite <- !bpow_plus; apply bpow_le; lia|]. apply Rmult_le_compat; auto; try apply bpow_ge_0; [apply Rmult_le_pos; apply bpow_ge_0|]. apply Rmult_le_compat; auto; apply bpow_ge_0. }
  assert (CC : forall c, (/ 1000000000000000000 <= c)%R -> (bp (-100) <= c)%R). { intros c Hc. apply Rle_trans with (2 := Hc). apply Rle_trans with (bp (-60)); [apply bpow_le; lia|bpn; lra]. }
  assert (PP : (p * p = 1)%R) by (destruct Hp; subst p; lra). assert (PB : (-1 <= p <= 1)%R) by (destruct Hp; subst p; lra).
  assert (RA : (Rabs (M * p) = M)%R) by (rewrite Rabs_mult, (Rabs_pos_eq M) by lra; destruct Hp; subst p; [rewrite Rabs_pos_eq by lra|rewrite Rabs_left1 by lra]; ring).
  (* the powers of r *)
  destruct (mulU rm _ _ _ _ (M * M) 1 Hr Hr S2 ltac:(apply CC; lra) ltac:(nra)) as (s2 & E2 & R2). { rewrite Rabs_mult, RA. lra. }
  fold h in R2. set (r2 := f_mul D rm r r) in *.
  assert (A2 : (Rabs (M * p * (M * p) + h * (M * M * s2)) <= M * M * 1.001)%R).
  { replace (M * p * (M * p) + h * (M * M * s2))%R with (M * M * (p * p + h * s2))%R by ring. rewrite Rabs_mult, (Rabs_pos_eq (M * M)) by nra. apply Rmult_le_compat_l; [nra|]. rewrite PP. clearbody h. iv. }
  destruct (mulU rm _ _ _ _ (M * M * M) 1.001 Hr R2 S3 ltac:(apply CC; lra) ltac:(nra)) as (s3 & E3 & R3).
  { rewrite Rabs_mult, RA. replace (M * M * M * 1.001)%R with (M * (M * M * 1.001))%R by ring. apply Rmult_le_compat_l; [lra|exact A2]. }
  fold h in R3. set (r3 := f_mul D rm r r2) in *.
  set (R := (M * p)%R) in *.
  assert (R2' : is_real D r2 (R * R + h * (M * M * s2))) by exact R2.
  assert (R3' : is_real D r3 (R * R * R + h * (M * M * M * (p * s2 + s3)))) by (apply (fold_real _ _ _ R3); unfold R; ring).
  assert (B2 : (Rabs (M * M * s2) <= / 100)%R) by iv.
  assert (B3 : (Rabs (M * M * M * (p * s2 + s3)) <= / 1000)%R) by iv.
  assert (RB : (Rabs R <= / 16)%R) by (rewrite RA; exact M16).
  (* the coefficients *)
  realof D (at_ logd_poly1 1) H1. realof D (at_ logd_poly1 2) H2. realof D (at_ logd_poly1 3) H3. realof D (at_ logd_poly1 4) H4. realof D (at_ logd_poly1 5) H5.
  realof D (at_ logd_poly1 6) H6. realof D (at_ logd_poly1 7) H7. realof D (at_ logd_poly1 8) H8. realof D (at_ logd_poly1 9) H9. realof D (at_ logd_poly1 10) H10. realof D (at_ logd_poly1 0) H0.
  apply fold_real with (W := lm1) in H1; [|unfold lm1; bpn; lra]. apply fold_real with (W := lm2) in H2; [|unfold lm2; bpn; lra]. apply fold_real with (W := lm3) in H3; [|unfold lm3; bpn; lra].
  apply fold_real with (W := lm4) in H4; [|unfold lm4; bpn; lra]. apply fold_real with (W := lm5) in H5; [|unfold lm5; bpn; lra]. apply fold_real with (W := lm6) in H6; [|unfold lm6; bpn; lra].
  apply fold_real with (W := lm7) in H7; [|unfold lm7; bpn; lra]. apply fold_real with (W := lm8) in H8; [|unfold lm8; bpn; lra]. apply fold_real with (W := lm9) in H9; [|unfold lm9; bpn; lra].
  apply fold_real with (W := (lm10 + h * 0)%R) in H10; [|unfold lm10; rewrite Rmult_0_r; bpn; lra]. apply fold_real with (W := (-1/2)%R) in H0; [|bpn; lra].
  assert (Q1 : (0.333 <= lm1 <= 0.334)%R) by (unfold lm1; bpn; lra). assert (Q2 : (-0.251 <= lm2 <= -0.249)%R) by (unfold lm2; bpn; lra). assert (Q3 : (0.199 <= lm3 <= 0.201)%R) by (unfold lm3; bpn; lra).
  assert (Q4 : (-0.167 <= lm4 <= -0.166)%R) by (unfold lm4; bpn; lra). assert (Q5 : (0.14 <= lm5 <= 0.143)%R) by (unfold lm5; bpn; lra). assert (Q6 : (-0.126 <= lm6 <= -0.124)%R) by (unfold lm6; bpn; lra).
  assert (Q7 : (0.11 <= lm7 <= 0.112)%R) by (unfold lm7; bpn; lra). assert (Q8 : (-0.101 <= lm8 <= -0.099)%R) by (unfold lm8; bpn; lra). assert (Q9 : (0.09 <= lm9 <= 0.093)%R) by (unfold lm9; bpn; lra).
  assert (Q10 : (-0.084 <= lm10 <= -0.083)%R) by (unfold lm10; bpn; lra).
  destruct (logd_block_e rm r r2 r3 _ _ _ _ R _ _ _ _ _ _ _ Hr RB R2' B2 R3' B3 H7 H8 H9 H10) as (t1 & T1 & K1); try (apply Rabs_le; lra). fold h in K1.
  set (L1 := lmB R lm7 lm8 lm9 lm10) in *. assert (BL1 : (Rabs L1 <= 0.13)%R) by (unfold L1, lmB; clearbody R; iv).
  destruct (logd_block_e rm r r2 r3 _ _ _ _ R _ _ _ _ _ _ _ Hr RB R2' B2 R3' B3 H4 H5 H6 K1) as (t2 & T2 & K2); try (apply Rabs_le; lra); [lra|lra|]. fold h in K2.
  set (L2 := lmB R lm4 lm5 lm6 L1) in *. assert (BL2 : (Rabs L2 <= 0.2)%R) by (unfold L2, lmB; clearbody R L1; iv).
  destruct (logd_block_e rm r r2 r3 _ _ _ _ R _ _ _ _ _ _ _ Hr RB R2' B2 R3' B3 H1 H2 H3 K2) as (t3 & T3 & K3); try (apply Rabs_le; lra); [lra|lra|]. fold h in K3.
  set (L3 := lmB R lm1 lm2 lm3 L2) in *. assert (BL3 : (Rabs L3 <= 0.355)%R) by (unfold L3, lmB; clearbody R L2; iv).
  change F64 with D in K1, K2, K3. unfold logd_near_r. change F64 with D. fold r2 r3.
  set (blk := logd_block rm r r2 r3 (at_ logd_poly1 1) (at_ logd_poly1 2) (at_ logd_poly1 3) _) in *.
  destruct (mulU rm _ _ _ _ (M * M * M) 0.36 R3' K3 S3 ltac:(apply CC; lra) ltac:(nra)) as (sq & Eq & Rq).
  { replace ((R * R * R + h * (M * M * M * (p * s2 + s3))) * (L3 + h * t3))%R with (M * M * M * ((p * p * p + h * (p * s2 + s3)) * (L3 + h * t3)))%R by (unfold R; ring).
    rewrite Rabs_mult, (Rabs_pos_eq (M * M * M)) by nra. apply Rmult_le_compat_l; [nra|]. clearbody h L3. clear - PB HB E2 E3 T3 BL3. iv. }
  fold h in Rq. set (q := f_mul D rm r3 blk) in *.
  (* the quadratic part *)
  assert (RBe : (bp e <= Rabs R < bp (e + 1))%R) by (rewrite RA; exact MB).
  destruct (split_hi rm r R e Hr He RBe) as (HR & n & RH & HN & HD & NB). rewrite RA in HD.
  set (w27 := f_mul D rm r (lit 1 27)) in *. set (rhi := f_sub D rm (f_add D rm r w27) w27) in *.
  set (dl := (HR - R)%R) in *. assert (HRE : HR = (R + dl)%R) by (unfold dl; ring).
  assert (GR : generic_format radix2 fexpD R) by (destruct Hr as (P & Fi & <-); apply (fval_format D good64); auto).
  destruct (fmt_mult R e GR ltac:(lia) (proj1 RBe)) as (m & MR).
  assert (E1 : (bp (e + 1) = 2 * bp e)%R) by (rewrite bpow_plus; change (bp 1) with 2%R; ring).
  bpn_in HD. destruct (as_unit M dl (/ 16777216) MP ltac:(lra)) as (dd & DD & DE). 
  assert (ML : (M <= 2 * bp e)%R) by lra. assert (EL : (bp e <= / 16)%R) by lra.
  assert (DM : (dl = IZR (n * 2 ^ 27 - m) * bp (e - 52))%R).
  { unfold dl. rewrite HN, MR, minus_IZR, mult_IZR. change (IZR (2 ^ 27)) with (bp 27). replace (bp (e - 25)) with (bp 27 * bp (e - 52))%R by (rewrite <- bpow_plus; f_equal; ring). ring. }
  assert (RLO : is_real D (f_sub D rm r rhi) (- dl)).
  { apply (sub_x D good64) with (1 := Hr) (2 := RH); [unfold dl; ring| |].
    - apply generic_format_opp. rewrite DM. apply gfx; [lia|]. rewrite <- DM. replace (e - 52 + 53) with (e + 1) by ring. lra.
    - apply bigD with 0; [lia|]. rewrite Rabs_Ropp. bpn. lra. }
  set (rlo := f_sub D rm r rhi) in *.
  assert (HRB : (Rabs HR <= M * 1.001)%R) by (rewrite HRE; apply Rle_trans with (1 := Rabs_triang _ _); rewrite RA; lra).
  assert (HH2 : (Rabs (HR * HR) <= M * M * 1.003)%R). { rewrite Rabs_mult. apply Rle_trans with ((M * 1.001) * (M * 1.001))%R; [apply Rmult_le_compat; auto; apply Rabs_pos|nra]. }
  assert (RQ : is_real D (f_mul D rm rhi rhi) (HR * HR)).
  { apply (mul_x D good64) with (1 := RH) (2 := RH); [reflexivity| |].
    - replace (HR * HR)%R with (IZR (n * n) * bp (2 * e - 50))%R. 2: { rewrite HN, mult_IZR. replace (2 * e - 50) with ((e - 25) + (e - 25)) by ring. rewrite bpow_plus. ring. }
      apply gfD; [|lia]. rewrite Z.abs_mul. apply Z.le_lt_trans with ((2 ^ 26 + 4) * (2 ^ 26 + 4)); [apply Z.mul_le_mono_nonneg; lia|reflexivity].
    - apply bigD with 0; [lia|]. apply Rle_lt_trans with (1 := HH2). bpn. nra. }
  set (w := (HR * HR * (-1 / 2))%R).
  assert (RW : is_real D (f_mul D rm (f_mul D rm rhi rhi) (at_ logd_poly1 0)) w).
  { apply (mul_x D good64) with (1 := RQ) (2 := H0); [reflexivity| |].
    - replace w with (IZR (- (n * n)) * bp (2 * e - 51))%R. 2: { unfold w. rewrite HN, opp_IZR, mult_IZR. replace (2 * e - 51) with ((e - 25) + (e - 25) + -1) by ring. rewrite !bpow_plus. change (bp (-1)) with (/ 2)%R. field. }
      apply gfD; [|lia]. rewrite Z.abs_opp, Z.abs_mul. apply Z.le_lt_trans with ((2 ^ 26 + 4) * (2 ^ 26 + 4)); [apply Z.mul_le_mono_nonneg; lia|reflexivity].
    - apply bigD with 0; [lia|]. unfold w. rewrite Rabs_mult. replace (Rabs (-1 / 2)) with (/ 2)%R by (rewrite Rabs_left1 by lra; lra). bpn. pose proof (Rabs_pos (HR * HR)). nra. }
  set (wq := f_mul D rm (f_mul D rm rhi rhi) (at_ logd_poly1 0)) in *.
  assert (WB : (Rabs w <= M * 0.032)%R).
  { unfold w. rewrite Rabs_mult. replace (Rabs (-1 / 2)) with (/ 2)%R by (rewrite Rabs_left1 by lra; lra). nra. }
  destruct (addU rm _ _ _ _ M 1.04 Hr RW S1 ltac:(apply CC; lra) ltac:(lra)) as (sd & Ed & Rhi). { apply Rle_trans with (1 := Rabs_triang _ _). rewrite RA. lra. }
  fold h in Rhi. set (hi := f_add D rm r wq) in *. set (d := (h * (M * sd))%R) in *.
  assert (DB : (Rabs d <= M * / 1000000000000000)%R). { unfold d. replace (h * (M * sd))%R with (M * (h * sd))%R by ring. rewrite Rabs_mult, (Rabs_pos_eq M) by lra. apply Rmult_le_compat_l; [lra|]. clearbody h. clear - HB Ed. iv. }
  assert (WD : (Rabs (w + d) <= M * 0.033)%R) by (apply Rle_trans with (1 := Rabs_triang _ _); lra).
  assert (R5 : is_real D (f_sub D rm r hi) (- (w + d))).
  { apply (sub_x D good64) with (1 := Hr) (2 := Rhi); [ring| |].
    - set (HI := (R + w + d)%R) in *. assert (GH : generic_format radix2 fexpD HI) by (destruct Rhi as (P & Fi & <-); apply (fval_format D good64); auto).
      assert (HL : (bp (e - 1) <= Rabs HI)%R).
      { assert (M <= Rabs HI + Rabs (w + d))%R. { rewrite <- RA. replace R with (HI + - (w + d))%R by (unfold HI; ring). apply Rle_trans with (1 := Rabs_triang _ _). rewrite Rabs_Ropp. unfold HI. lra. }
        unfold Zminus. rewrite bpow_plus. change (bp (- (1))) with (/ 2)%R. lra. }
      destruct (fmt_mult HI (e - 1) GH ltac:(lia) HL) as (m2 & M2). replace (e - 1 - 52) with (e - 53) in M2 by ring.
      assert (E5 : (- (w + d) = IZR (2 * m - m2) * bp (e - 53))%R).
      { replace (- (w + d))%R with (R - HI)%R by (unfold HI; ring). rewrite M2, MR, minus_IZR, mult_IZR. replace (bp (e - 52)) with (2 * bp (e - 53))%R by (change 2%R with (bp 1); rewrite <- bpow_plus; f_equal; ring). ring. }
      rewrite E5. apply gfx; [lia|]. rewrite <- E5, Rabs_Ropp. replace (e - 53 + 53) with e by ring. lra.
    - apply bigD with 0; [lia|]. rewrite Rabs_Ropp. bpn. lra. }
  destruct (addU rm _ _ _ _ M (/ 1000000000000000) R5 RW S1 ltac:(apply CC; lra) ltac:(lra)) as (s6 & E6 & R6).
  { replace (- (w + d) + w)%R with (- d)%R by ring. rewrite Rabs_Ropp. exact DB. }
  fold h in R6. set (lo := f_add D rm (f_sub D rm r hi) wq) in *.
  assert (RL : is_real D (f_mul D rm (at_ logd_poly1 0) rlo) (dl / 2)).
  { apply (mul_x D good64) with (1 := H0) (2 := RLO); [field| |].
    - replace (dl / 2)%R with (IZR (n * 2 ^ 27 - m) * bp (e - 53))%R. 2: { rewrite DM. replace (bp (e - 52)) with (2 * bp (e - 53))%R by (change 2%R with (bp 1); rewrite <- bpow_plus; f_equal; ring). field. }
      apply gfD; [|lia]. apply lt_IZR. rewrite abs_IZR. apply Rmult_lt_reg_r with (bp (e - 52)); [apply bpow_gt_0|]. rewrite <- (Rabs_pos_eq (bp (e - 52))) at 1 by apply bpow_ge_0. rewrite <- Rabs_mult, <- DM.
      rewrite IZR_pow2 by lia. rewrite <- bpow_plus. replace (53 + (e - 52)) with (e + 1) by ring. lra.
    - apply bigD with 0; [lia|]. unfold Rdiv. rewrite Rabs_mult, (Rabs_pos_eq (/ 2)) by lra. bpn. lra. }
  destruct (addU rm _ _ _ _ M 2.01 RH Hr S1 ltac:(apply CC; lra) ltac:(lra)) as (s7 & E7 & R7). { apply Rle_trans with (1 := Rabs_triang _ _). rewrite RA. lra. }
  fold h in R7.
  destruct (mulU rm _ _ _ _ M (/ 200000000) RL R7 S1 ltac:(apply CC; lra) ltac:(lra)) as (s8 & E8 & R8).
  { replace (dl / 2 * (HR + R + h * (M * s7)))%R with (M * (dd / 2 * (M * p + M * dd + M * p + h * (M * s7))))%R by (rewrite HRE, DE; unfold R; field).
    rewrite Rabs_mult, (Rabs_pos_eq M) by lra. apply Rmult_le_compat_l; [lra|]. clearbody h. clear - MI PB HB DD E7. iv. }
  fold h in R8. set (pr := f_mul D rm (f_mul D rm (at_ logd_poly1 0) rlo) (f_add D rm rhi r)) in *.
  assert (P8 : (dl / 2 * (HR + R + h * (M * s7)) + h * (M * s8) = M * (dd / 2 * (2 * (M * p) + M * dd + h * (M * s7)) + h * s8))%R) by (rewrite HRE, DE; unfold R; field).
  destruct (addU rm _ _ _ _ M (/ 100000000) R6 R8 S1 ltac:(apply CC; lra) ltac:(lra)) as (s9 & E9 & R9).
  { rewrite P8. replace (- (w + d) + w + h * (M * s6))%R with (M * (h * (s6 - sd)))%R by (unfold d; ring). rewrite <- Rmult_plus_distr_l, Rabs_mult, (Rabs_pos_eq M) by lra. apply Rmult_le_compat_l; [lra|].
    clearbody h. clear - MI PB HB DD E7 E6 Ed E8. iv. }
  fold h in R9. set (lo2 := f_add D rm lo pr) in *.
  assert (QE : (((R * R * R + h * (M * M * M * (p * s2 + s3))) * (L3 + h * t3) + h * (M * M * M * sq))%R = (M * (M * M * ((p * p * p + h * (p * s2 + s3)) * (L3 + h * t3) + h * sq)))%R)) by (unfold R; ring).
  destruct (addU rm _ _ _ _ M 0.0015 Rq R9 S1 ltac:(apply CC; lra) ltac:(lra)) as (s10 & E10 & R10).
  { rewrite P8, QE. replace (- (w + d) + w + h * (M * s6))%R with (M * (h * (s6 - sd)))%R by (unfold d; ring). rewrite <- !Rmult_plus_distr_l.
    match goal with |- (Rabs (?a + (?b + ?c)) <= _)%R => replace (b + c)%R with (M * ((h * (s6 - sd) + (dd / 2 * (2 * (M * p) + M * dd + h * (M * s7)) + h * s8)) + h * s9))%R by ring end.
    rewrite <- Rmult_plus_distr_l, Rabs_mult, (Rabs_pos_eq M) by lra. apply Rmult_le_compat_l; [lra|].
    clearbody h L3. clear - MI PB HB DD E7 E6 Ed E8 E9 BL3 E2 E3 T3 Eq. iv. }
  fold h in R10. eexists _, _, _, _. split; [reflexivity|]. split; [exact R10|]. split; [exact Rhi|].
  match goal with |- (Rabs ?t <= _)%R => replace t with (h * M * (M * M * ((p * s2 + s3) * (L3 + h * t3) + p * t3 + sq) + s6 + dd / 2 * (M * s7) + s8 + s9 + s10))%R end.
  - assert (HM : (0 <= h * M)%R) by (apply Rmult_le_pos; lra). rewrite Rabs_mult, (Rabs_pos_eq (h * M)) by exact HM. replace (19 / 1000 * h * M)%R with (h * M * (19 / 1000))%R by ring. apply Rmult_le_compat_l; [exact HM|].
    clearbody h L3. clear - MI PB HB DD E7 E6 Ed E8 E9 E10 BL3 E2 E3 T3 Eq. iv.
  - unfold lmP. fold L1 L2 L3. rewrite P8. unfold d, w. rewrite HRE, DE. fold R.
    replace (M * p)%R with R by reflexivity. replace (p * t3)%R with (p * p * p * t3)%R by (rewrite PP; ring). unfold R. 
    apply Rminus_diag_uniq. ring_simplify. replace (p ^ 3)%R with p by (replace (p ^ 3)%R with (p * (p * p))%R by ring; rewrite PP; ring).
    field.
Qed.
