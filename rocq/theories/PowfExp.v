(** * powf: the exponential of the second approximation *)
From Coq Require Import ZArith Lia Reals Lra List Bool.
From Flocq Require Import Core Mult_error.
From Interval Require Import Tactic.
From Verif Require Import MachInt Fmt FloatSpec RoundProofs FmtProofs ExtFloatSpec FOps FOpsProofs RemProofs FmanipWide ErrLib LogfNum ExtInterp Expm1Proofs Exp2fProofs ExtFloatProofs Eft SinRedF ExpoData ExpoF PowfData Powf PowfTab PowfNum PowfDD PowfRed PowfFast PowfScale PowfPat PowfSlow.
Import ListNotations.
Open Scope Z_scope.

Lemma pm_abs : forall s a, Rabs (pm s * a) = Rabs a.
Proof. intros [|] a; unfold pm; rewrite Rabs_mult; [rewrite Rabs_left by lra|rewrite Rabs_pos_eq by lra]; lra. Qed.
Lemma round_odd_cases : forall hi lo, exists d, Z.abs d <= 1 /\ (pf_round_odd hi lo = wrap 64 (hi + d) \/ pf_round_odd hi lo = hi).
Proof.
  intros hi lo. unfold pf_round_odd. destruct (_ && _); [|exists 0; split; [lia|right; reflexivity]].
  destruct (Bool.eqb _ _); [exists 1; split; [lia|left; reflexivity]|]. destruct (0 <? _); [exists (-1); split; [lia|left; reflexivity]|exists 0; split; [lia|right; reflexivity]].
Qed.
(** 2^t for a nearby exponent. *)
Lemma pow_shift : forall a t e, (Rabs (a - t) <= e)%R -> (e <= 0.1)%R -> (Rabs t <= 1)%R -> (Rabs (Rpower 2 (a / 64) - Rpower 2 (t / 64)) <= 0.012 * e)%R.
Proof.
  intros a t e H E T. replace (a / 64)%R with (t / 64 + (a - t) / 64)%R by field. rewrite Rpower_plus. set (s := ((a - t) / 64)%R).
  assert (S : (Rabs s <= e / 64)%R). { unfold s, Rdiv. rewrite Rabs_mult, (Rabs_pos_eq (/ 64)) by lra. apply Rmult_le_compat_r; lra. }
  pose proof (pow_near s ltac:(lra)) as PN.
  assert (R : (Rabs (Rpower 2 (t / 64)) <= 1.02)%R). { unfold Rpower. interval with (i_prec 40). }
  replace (Rpower 2 (t / 64) * Rpower 2 s - Rpower 2 (t / 64))%R with (Rpower 2 (t / 64) * (Rpower 2 s - 1))%R by ring.
  pose proof (Rabs_pos (a - t)). eapply Rle_trans; [apply (mulb _ _ _ _ R PN)|]. lra.
Qed.
Lemma ddexp_g : forall lg y6 lo h l (s : bool) H Lo Y6 HL A B G La t, is_real D (fst lg) H -> is_real D (snd lg) Lo -> is_real D y6 Y6 -> is_real D lo HL -> is_real D h (pm s * A) -> is_real D l B ->
  (Rabs (A - G) <= bp (-53) * G)%R -> (Rabs B <= bp (-53) * G)%R -> (bp (-300) <= G <= bp 300)%R -> (bp (-30) <= La <= 205)%R -> (bp (-144) <= Rabs Y6 <= bp 38)%R -> (Rabs Y6 * La <= 12810)%R ->
  (Rabs H <= 3.2 * La)%R -> (Rabs Lo <= 250 * (v * La))%R -> (Rabs HL <= 7 * (Rabs Y6 * La) + 1)%R -> (Rabs (Y6 * H + HL - t) <= 170000000 * v)%R -> (Rabs t <= 0.51)%R ->
  exists V, is_real D (pf_dd_exp2 RNE lg y6 lo (h, l)) V /\ (Rabs (V - pm s * (G * Rpower 2 (t / 64))) <= bp (-28) * (G * Rpower 2 (t / 64)))%R.
Proof.
  intros lg y6 lo h l s H Lo Y6 HL A B G La t HH HLo HY HHL Hh Hl EA EB (GL & GU) (LL & LU) (UL & UU) TU BH BL BHL ET BT.
  pose proof v_pos as VP. destruct vk as (K38 & K40 & K45 & K60 & K37 & K50). assert (K53 : bp (-53) = (/ 4 * v)%R) by (unfold v; bpn; lra). assert (K44 : bp (-44) = (128 * v)%R) by (unfold v; bpn; lra). assert (K28 : bp (-28) = (8388608 * v)%R) by (unfold v; bpn; lra).
  assert (VV : (v <= / 2000000000000000)%R) by (unfold v; bpn; lra).
  set (u := Rabs Y6) in *. set (tau := (u * La)%R) in *.
  assert (PL : (0 < bp (-30))%R) by apply bpow_gt_0. assert (PU : (0 < bp (-144))%R) by apply bpow_gt_0. assert (PG : (0 < bp (-300))%R) by apply bpow_gt_0.
  assert (TL : (bp (-174) <= tau)%R) by (unfold tau; change (-174) with (-144 + -30); rewrite bpow_plus; apply Rmult_le_compat; lra). pose proof (bpow_gt_0 radix2 (-174)) as PT.
  assert (VT : (0 < v * tau <= v * 12810)%R) by (split; [apply Rmult_lt_0_compat; lra|apply Rmult_le_compat_l; lra]).
  assert (VL : (0 < v * La <= v * 205)%R) by (split; [apply Rmult_lt_0_compat; lra|apply Rmult_le_compat_l; lra]).
  assert (low : forall k, (bp (-310) <= k)%R -> (bp (-900) <= k /\ bp (-990) <= k)%R) by (intros k K; split; (eapply Rle_trans; [|exact K]; apply bpow_le; lia)).
  assert (high : forall k, (k <= bp 310)%R -> (k <= bp 900 /\ k <= bp 890)%R) by (intros k K; split; (eapply Rle_trans; [exact K|]; apply bpow_le; lia)).
  assert (C1 : (bp (-310) <= bp (-174))%R) by (apply bpow_le; lia). assert (C2 : (bp (-310) <= bp (-144))%R) by (apply bpow_le; lia). assert (C3 : (bp (-310) <= bp (-30))%R) by (apply bpow_le; lia). assert (C4 : (bp (-310) <= / 2)%R) by (change (/ 2)%R with (bp (-1)); apply bpow_le; lia).
  assert (C5 : (bp 38 <= bp 310)%R) by (apply bpow_le; lia). assert (C6 : (1000000 <= bp 38)%R) by (bpn; lra). assert (C7 : (bp (-310) <= bp (-300))%R) by (apply bpow_le; lia). assert (C8 : (4 * bp 300 <= bp 310)%R) by (replace 4%R with (bp 2) by (bpn; lra); rewrite <- bpow_plus; apply bpow_le; lia).
  pose proof (bpow_gt_0 radix2 (-310)) as P310.
  assert (t1 : (u * (3.2 * La) = 3.2 * tau)%R) by (unfold tau; ring).
  assert (VL2 : (v * La <= / 1000000 * La)%R) by (apply Rmult_le_compat_r; lra). assert (VT2 : (v * tau <= / 1000000 * tau)%R) by (apply Rmult_le_compat_r; lra).
  unfold pf_dd_exp2.
  destruct (qmd_g RNE y6 lg Y6 H Lo u (3.2 * La) (250 * (v * La)) HY HH HLo ltac:(unfold u; lra) BH BL) as (QH & QL & HQH & HQL & EQH & EQL); [lra|split; [apply low; lra|apply high; lra]|split; [apply low; lra|apply high; lra]|rewrite t1; split; [apply low; lra|apply high; lra]|].
  rewrite t1 in *. replace (u * (250 * (v * La)))%R with (250 * (v * tau))%R in EQL by (unfold tau; ring). set (pr := quick_mult_d D RNE 27 y6 lg) in *.
  assert (QLB : (Rabs QL <= 390 * (v * tau))%R) by lra.
  assert (QB : (Rabs QH <= 3.3 * tau)%R). { eapply Rle_trans; [apply (near_b _ _ _ (3.2 * tau) EQH)|lra]. eapply Rle_trans; [apply mulb; [|exact BH]; unfold u; apply Rle_refl|]. fold u. lra. }
  assert (H0 : is_real D (lit 0 0) 0). { replace 0%R with (IZR 0 * bp 0)%R by ring. apply (lit_r false 0 0); lia. }
  set (lo6 := if pf_larger (fst pr) lo then dd_add D RNE pr (lo, lit 0 0) else dd_add D RNE (lo, lit 0 0) pr).
  assert (L6 : exists AH AL, is_real D (fst lo6) AH /\ is_real D (snd lo6) AL /\ (Rabs (AH - (QH + HL)) <= 6600000 * v)%R /\ (Rabs AL <= 2300000 * v)%R).
  { unfold lo6. destruct (pf_larger _ _).
    - destruct (dd_add_g RNE pr (lo, lit 0 0) QH QL HL 0 (3.3 * tau) (7 * tau + 1) (390 * (v * tau)) HQH HQL HHL H0 QB BHL) as (AH & AL & G1 & G2 & G3 & G4); [rewrite Rabs_R0; lra|lra|split; [apply low; lra|apply high; lra]|]. exists AH, AL. split; [exact G1|]. split; [exact G2|]. lra.
    - destruct (dd_add_g RNE (lo, lit 0 0) pr HL 0 QH QL (7 * tau + 1) (3.3 * tau) (390 * (v * tau)) HHL H0 HQH HQL BHL QB) as (AH & AL & G1 & G2 & G3 & G4); [rewrite Rabs_R0; lra|lra|split; [apply low; lra|apply high; lra]|]. exists AH, AL. split; [exact G1|]. split; [exact G2|]. rewrite (Rplus_comm QH). lra. }
  destruct L6 as (AH & AL & HAH & HAL & EAH & EAL).
  assert (EAT : (Rabs (AH - t) <= 177000000 * v)%R).
  { replace (AH - t)%R with ((AH - (QH + HL)) + ((QH - Y6 * H) + (Y6 * H + HL - t)))%R by ring. eapply Rle_trans; [apply tri; [exact EAH|apply tri; [exact EQH|exact ET]]|]. lra. }
  assert (AB : (Rabs AH <= 1)%R) by (eapply Rle_trans; [apply (near_b _ _ _ _ EAT BT)|lra]).
  destruct (poly_ddexp RNE lo6 AH AL HAH HAL AB EAL) as (PH & PLo & HPH & HPL & EPH & EPL). set (pp := dd_poly RNE lo6 pf_dd_exp) in *.
  pose proof (dd_exp_poly AH AB) as DE. rewrite K45 in DE. pose proof (pow_shift AH t _ EAT ltac:(lra) ltac:(lra)) as PS.
  set (R := Rpower 2 (t / 64)) in *. assert (RB : (0.99 <= R <= 1.01)%R) by (unfold R, Rpower; split; interval with (i_prec 40)).
  assert (EP : (Rabs (PH - R) <= 3800000 * v)%R). { replace (PH - R)%R with ((PH - hr AH rde) + ((hr AH rde - Rpower 2 (AH / 64)) + (Rpower 2 (AH / 64) - R)))%R by ring. eapply Rle_trans; [apply tri; [exact EPH|apply tri; [exact DE|exact PS]]|]. lra. }
  assert (PB : (Rabs PH <= 1.1)%R) by (eapply Rle_trans; [apply (near_b _ _ _ 1.01 EP); rewrite Rabs_pos_eq; lra|lra]).
  rewrite K53 in *. assert (GP : (0 < G)%R) by lra. assert (VG : (0 < v * G <= / 1000000000000 * G)%R) by (split; [apply Rmult_lt_0_compat; lra|apply Rmult_le_compat_r; lra]).
  assert (AG : (Rabs A <= 1.01 * G)%R). { eapply Rle_trans; [apply (near_b _ _ _ G EA); rewrite Rabs_pos_eq; lra|]. lra. }
  destruct (qm_g RNE (h, l) pp (pm s * A) B PH PLo (1.01 * G) 1.1 (/ 4 * v * G) (50 * v) Hh Hl HPH HPL) as (RH & RL & HRH & HRL & ERH & ERL); [rewrite pm_abs; exact AG|exact PB|exact EB|exact EPL|lra|lra|split; [apply low; lra|apply high; lra]|split; [apply low; lra|apply high; lra]|split; [apply low; lra|apply high; lra]|].
  set (rr := quick_mult D RNE 27 (h, l) pp) in *.
  assert (RLB : (Rabs RL <= 110 * (v * G))%R) by lra.
  assert (ER : (Rabs (RH - pm s * (A * PH)) <= 1.2 * (v * G))%R) by (replace (pm s * (A * PH))%R with (pm s * A * PH)%R by ring; lra).
  assert (APH : (Rabs (A * PH - G * R) <= 3900000 * (v * G))%R).
  { assert (X1 : (Rabs G <= G)%R) by (rewrite Rabs_pos_eq; lra). pose proof (mul_near A PH G R _ _ _ _ EA EP X1 PB) as MN. lra. }
  assert (GR : (0.99 * G <= G * R <= 1.01 * G)%R) by (rewrite (Rmult_comm 0.99), (Rmult_comm 1.01); split; apply Rmult_le_compat_l; lra).
  assert (RHB : (Rabs RH <= 1.2 * G)%R). { eapply Rle_trans; [apply (near_b _ _ _ (1.02 * G) ER)|lra]. rewrite pm_abs. eapply Rle_trans; [apply (near_b _ _ _ (1.01 * G) APH); rewrite Rabs_pos_eq; lra|lra]. }
  destruct (fast_two_sum D RNE (fst rr) (snd rr)) as (hi & loo) eqn:EF.
  destruct (fts_g RNE (fst rr) (snd rr) RH RL (1.2 * G) (110 * (v * G)) HRH HRL RHB RLB) as (FH & FL & HFH & _ & EFH & _); [split; [apply low; lra|apply high; lra]|].
  rewrite EF in HFH. cbn [fst] in HFH.
  assert (EV : (Rabs (FH - pm s * (G * R)) <= 4000000 * (v * G))%R).
  { replace (FH - pm s * (G * R))%R with ((FH - (RH + RL)) + (RL + ((RH - pm s * (A * PH)) + pm s * (A * PH - G * R))))%R by ring. eapply Rle_trans; [apply tri; [exact EFH|apply tri; [exact RLB|apply tri; [exact ER|rewrite pm_abs; exact APH]]]|].
    assert (v * (110 * (v * G)) <= v * G)%R by (apply Rmult_le_compat_l; lra). lra. }
  assert (FB : (0.9 * G <= Rabs FH <= 1.1 * G)%R).
  { split; [|eapply Rle_trans; [apply (near_b _ _ _ (1.01 * G) EV); rewrite pm_abs, Rabs_pos_eq; lra|lra]].
    assert (Rabs (pm s * (G * R)) <= Rabs FH + 4000000 * (v * G))%R. { replace (pm s * (G * R))%R with (FH - (FH - pm s * (G * R)))%R by ring. eapply Rle_trans; [apply Rabs_triang|]. rewrite Rabs_Ropp. lra. }
    rewrite pm_abs, Rabs_pos_eq in H1 by lra. lra. }
  destruct (round_odd_cases hi loo) as (d & Hd & C).
  assert (X : (bp (-1000) <= Rabs FH <= bp 1000)%R). { split; [apply Rle_trans with (bp (-310)); [apply bpow_le; lia|]|apply Rle_trans with (bp 310); [|apply bpow_le; lia]]; [|lra]. replace (bp (-310)) with (/ 1024 * bp (-300))%R by (replace (/ 1024)%R with (bp (-10)) by (bpn; lra); rewrite <- bpow_plus; reflexivity). lra. }
  destruct C as [C|C]; rewrite C.
  - destruct (near_pat hi d FH HFH X ltac:(lia)) as (V' & RV & EVV). exists V'. split; [exact RV|]. rewrite K44 in EVV. rewrite K28.
    replace (V' - pm s * (G * R))%R with ((V' - FH) + (FH - pm s * (G * R)))%R by ring. eapply Rle_trans; [apply (tri _ _ _ _ EVV EV)|].
    assert (v * Rabs FH <= v * (1.1 * G))%R by (apply Rmult_le_compat_l; lra). assert (v * (0.99 * G) <= v * (G * R))%R by (apply Rmult_le_compat_l; lra). lra.
  - exists FH. split; [exact HFH|]. rewrite K28. eapply Rle_trans; [exact EV|]. assert (v * (0.99 * G) <= v * (G * R))%R by (apply Rmult_le_compat_l; lra). lra.
Qed.
