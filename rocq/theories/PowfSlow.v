(** * powf: the second approximation *)
From Coq Require Import ZArith Lia Reals Lra List.
From Flocq Require Import Core Mult_error.
From Interval Require Import Tactic.
From Verif Require Import MachInt Fmt FloatSpec RoundProofs FmtProofs ExtFloatSpec FOps FOpsProofs RemProofs FmanipWide ErrLib LogfNum ExtInterp Expm1Proofs Exp2fProofs ExtFloatProofs Eft NearestProofs NearestInt SinRedF LogfProofs ExpoData ExpoF Nearest PowfData Powf PowfSpecial PowfTab PowfNum PowfDD PowfRed PowfFast.
Import ListNotations.
Open Scope Z_scope.

(** The coefficients with bounds of their magnitudes. *)
Definition gl : list (R * R) := [ (IZR 0x171547652b82fe * bp (-52), IZR 0x171547652b82fe * bp (-52)); (IZR (-0x171547652b82fe) * bp (-53), IZR 0x171547652b82fe * bp (-53)); (IZR 0x1ec709dc3a03fd * bp (-54), IZR 0x1ec709dc3a03fd * bp (-54)); (IZR (-0x171547652b82fb) * bp (-54), IZR 0x171547652b82fb * bp (-54)); (IZR 0x12776c516a92a2 * bp (-54), IZR 0x12776c516a92a2 * bp (-54)); (IZR (-0x1ec70af1929ca6) * bp (-55), IZR 0x1ec70af1929ca6 * bp (-55)) ]%R.
Definition ge : list (R * R) := map (fun a => (a, a)) rde.
Ltac cfx m e lm le := exists (IZR lm * bp le)%R; cbn [fst snd];
  split; [exact (lit_r false m e ltac:(lia) ltac:(lia))|]; split; [exact (lit_r false lm le ltac:(lia) ltac:(lia))|]; unfold v; bpn; repeat split; try (interval with (i_prec 60)).
Lemma cf_log : Forall2 cf pf_dd_log gl.
Proof.
  unfold pf_dd_log, gl.
  repeat match goal with |- Forall2 cf ((lit ?m ?e, lit ?lm ?le) :: _) _ => constructor; [exists (IZR lm * bp le)%R; cbn [fst snd]; split; [exact (lit_r false m e ltac:(lia) ltac:(lia))|]; split; [exact (lit_r false lm le ltac:(lia) ltac:(lia))|]|] end; [..|constructor].
  all: unfold v; split; [|split]; [bpn; interval with (i_prec 60)|bpn; interval with (i_prec 60)|apply Rle_trans with (bp (-80)); [apply bpow_le; lia|bpn; lra]].
Qed.
Lemma cf_exp : Forall2 cf pf_dd_exp ge.
Proof.
  unfold pf_dd_exp, ge, rde. cbn [map].
  repeat match goal with |- Forall2 cf ((lit ?m ?e, lit ?lm ?le) :: _) _ => constructor; [exists (IZR lm * bp le)%R; cbn [fst snd]; split; [exact (lit_r false m e ltac:(lia) ltac:(lia))|]; split; [exact (lit_r false lm le ltac:(lia) ltac:(lia))|]|] end; [..|constructor].
  all: unfold v; split; [|split]; [bpn; interval with (i_prec 60)|bpn; interval with (i_prec 60)|apply Rle_trans with (bp (-110)); [apply bpow_le; lia|bpn; lra]].
Qed.
Lemma poly_ddlog : forall rm x X, is_real D x X -> (Rabs X <= / 8192)%R -> exists H L, is_real D (fst (dd_poly rm (x, lit 0 0) pf_dd_log)) H /\ is_real D (snd (dd_poly rm (x, lit 0 0) pf_dd_log)) L /\ (Rabs (H - hr X rdl) <= 2700 * v)%R /\ (Rabs L <= 70 * v)%R.
Proof.
  intros rm x X Hx HX. pose proof v_pos as VP. assert (H0 : is_real D (lit 0 0) 0). { replace 0%R with (IZR 0 * bp 0)%R by ring. apply (lit_r false 0 0); lia. }
  assert (HB : (hb (/ 8192) gl <= 1.45)%R) by (unfold hb, gl; cbn [map snd hr]; bpn; lra).
  destruct (dd_poly_g rm (x, lit 0 0) X 0 (/ 8192) 0 1 Hx H0 HX) with (cs := pf_dd_log) (gs := gl) as (H & L & RH & RL & EH & EL & _).
  { rewrite Rabs_R0; lra. } { split; [apply Rle_trans with (bp (-20)); [apply bpow_le; lia|bpn; lra]|bpn; lra]. } { lra. } { lra. } { lra. } { exact cf_log. } { discriminate. }
  { unfold gl, hb. cbn [dec map snd hr]. unfold hb. cbn [map snd hr]. bpn. repeat split; lra. } { lra. } { cbn [length gl INR]. lra. }
  exists H, L. split; [exact RH|]. split; [exact RL|]. replace (hv X gl) with (hr X rdl) in EH by reflexivity. replace (INR (length gl)) with 6%R in EH by (cbn [length gl INR]; lra).
  assert (v * hb (/ 8192) gl <= v * 1.45)%R by (apply Rmult_le_compat_l; lra). split; (eapply Rle_trans; [eassumption|]); lra.
Qed.
Lemma poly_ddexp : forall rm x XH XL, is_real D (fst x) XH -> is_real D (snd x) XL -> (Rabs XH <= 1)%R -> (Rabs XL <= 2300000 * v)%R -> exists H L, is_real D (fst (dd_poly rm x pf_dd_exp)) H /\ is_real D (snd (dd_poly rm x pf_dd_exp)) L /\ (Rabs (H - hr XH rde) <= 1600000 * v)%R /\ (Rabs L <= 50 * v)%R.
Proof.
  intros rm x XH XL Hx Hl HX HL. pose proof v_pos as VP.
  assert (HB : (0 <= hb 1 ge <= 1.02)%R) by (unfold hb, ge, rde; cbn [map snd hr]; bpn; lra).
  destruct (dd_poly_g rm x XH XL 1 (2300000 * v) (/ 64) Hx Hl HX HL) with (cs := pf_dd_exp) (gs := ge) as (H & L & RH & RL & EH & EL & _).
  { split; [apply Rle_trans with (bp (-20)); [apply bpow_le; lia|bpn; lra]|bpn; lra]. } { lra. } { lra. } { lra. } { exact cf_exp. } { discriminate. }
  { unfold ge, rde, hb. cbn [dec map snd hr]. unfold hb. cbn [map snd hr]. bpn. repeat split; lra. } { lra. } { cbn [length ge rde map INR]. lra. }
  exists H, L. split; [exact RH|]. split; [exact RL|]. replace (hv XH ge) with (hr XH rde) in EH by reflexivity. replace (INR (length ge)) with 10%R in EH by (cbn [length ge rde map INR]; lra).
  assert (v * hb 1 ge <= v * 1.02)%R by (apply Rmult_le_compat_l; lra). split; (eapply Rle_trans; [eassumption|]); lra.
Qed.
Lemma at_row2 : forall j, 0 <= j < 193 -> exists r a b, at_opt pf_R2 j = Some r /\ at_opt pf_LOG2_R2_DD j = Some (a, b) /\ good2 j r a b.
Proof.
  intros j Hj. pose proof (tab2 j Hj) as T. unfold row2 in T. destruct (at_d pf_LOG2_R2_DD (0, 0) j) as (a & b) eqn:E.
  exists (at_d pf_R2 0 j), a, b. split; [|split; [|exact T]]; [apply at_opt_d; exact Hj|]. rewrite <- E. apply at_opt_d. exact Hj.
Qed.
Lemma lit_p2 : forall e, -1000 <= e <= 800 -> is_real D (lit 1 e) (bp e).
Proof. intros e He. rewrite <- (Rmult_1_l (bp e)). apply (lit_r false 1 e); lia. Qed.

(** The index of the second table and the second reduced argument, both exact. *)
Lemma red2 : forall ct dx DX z, is_real D dx DX -> DX = (IZR z * bp (-32))%R -> (- / 256 <= DX <= / 128)%R ->
  exists j r a b n A B, f_to_int D 32 (cc_nearest_integer D RNE ct (madd D RNE dx (lit 1 14) (lit 1 6))) = Some j /\ at_opt pf_R2 j = Some r /\ at_opt pf_LOG2_R2_DD j = Some (a, b) /\
    is_real D a A /\ is_real D b B /\ is_real D (madd D RNE (f_add D RNE (lit 1 0) dx) r (lit (-1) 0)) n /\ (Rabs n <= / 16000)%R /\
    (Rabs (log2 (1 + DX) - (log2 (1 + n) + B)) <= bp (-60))%R /\ (Rabs A <= bp (-60))%R /\ ((n = DX /\ A = 0%R /\ B = 0%R) \/ (/ 32768 <= Rabs DX)%R).
Proof.
  intros ct dx DX z Hd EZ (B1 & B2).
  assert (ZB : - 2 ^ 24 <= z <= 2 ^ 25). { split; apply le_IZR; [change (IZR (- 2 ^ 24)) with (-16777216)%R|change (IZR (2 ^ 25)) with 33554432%R]; rewrite EZ in *; revert B1 B2; bpn; lra. }
  assert (M1 : is_real D (madd D RNE dx (lit 1 14) (lit 1 6)) (IZR (z + 2 ^ 24) * bp (-18))).
  { unfold madd. apply (add_x D good64 RNE _ _ (IZR z * bp (-18)) (bp 6)); [|apply lit_p2; lia|rewrite plus_IZR; change (IZR (2 ^ 24)) with 16777216%R; bpn; lra|apply gfD; lia|].
    - apply (mul_x D good64 RNE _ _ DX (bp 14)); [exact Hd|apply lit_p2; lia|rewrite EZ; bpn; lra|apply gfD; lia|].
      apply (bigD 50); [lia|]. rewrite Rabs_mult, (Rabs_pos_eq (bp _)) by apply bpow_ge_0. rewrite <- abs_IZR. apply Rle_trans with (IZR (2 ^ 26) * bp (-18))%R; [apply Rmult_le_compat_r; [apply bpow_ge_0|apply IZR_le; lia]|bpn; lra].
    - apply (bigD 50); [lia|]. rewrite Rabs_mult, (Rabs_pos_eq (bp _)) by apply bpow_ge_0. rewrite <- abs_IZR. apply Rle_trans with (IZR (2 ^ 26) * bp (-18))%R; [apply Rmult_le_compat_r; [apply bpow_ge_0|apply IZR_le; lia]|bpn; lra]. }
  set (t := (IZR (z + 2 ^ 24) * bp (-18))%R) in *. assert (TE : t = (DX * 16384 + 64)%R) by (unfold t; rewrite EZ, plus_IZR; change (IZR (2 ^ 24)) with 16777216%R; bpn; lra).
  destruct M1 as (PM & FM & VM).
  destruct (ni_rne D good64 RNE eq_refl ct _ PM FM) as (N1 & N2 & N3). { rewrite VM. change (fl D) with 52. apply Rle_lt_trans with 200%R; [apply Rabs_le; lra|bpn; lra]. }
  rewrite VM in N3. set (j := ZnearestE t) in *. assert (JB : (Rabs (t - IZR j) <= / 2)%R) by apply Znearest_half. pose proof (Rabs_le_inv _ _ JB) as JC.
  assert (JR : 0 <= j < 193). { assert (-1 < j) by (apply lt_IZR; lra). assert (j < 193) by (apply lt_IZR; lra). lia. }
  destruct (at_row2 j JR) as (r & a & b & A1 & A2 & n & A & B & Hr & NB & NE & HA & HB & EB & EA & Z64).
  set (N2' := (IZR ((2 ^ 32 + z) * n - 2 ^ 48) * bp (-48))%R).
  assert (NE2 : (N2' = (1 + DX) * (IZR n / 65536) - 1)%R). { unfold N2'. rewrite minus_IZR, mult_IZR, plus_IZR, EZ. change (IZR (2 ^ 32)) with 4294967296%R. change (IZR (2 ^ 48)) with 281474976710656%R. bpn. field. }
  assert (NR : (0.99 <= IZR n / 65536 <= 1.004)%R) by (destruct NB as (n1 & n2); apply IZR_le in n1, n2; lra).
  assert (NX : (Rabs N2' <= / 16000)%R).
  { rewrite NE2. set (w := (IZR j - 64)%R) in *. set (rr := (IZR n / 65536)%R) in *.
    assert (S1 : (Rabs ((1 + w / 16384) * rr - 1) <= / 131072)%R). { apply IZR_le in NE. rewrite abs_IZR, minus_IZR, mult_IZR, plus_IZR, minus_IZR in NE. fold w in NE. change (IZR (2 ^ 14)) with 16384%R in NE. change (IZR (2 ^ 30)) with 1073741824%R in NE. change (IZR (2 ^ 13)) with 8192%R in NE. apply Rabs_le_inv in NE. apply Rabs_le. unfold rr. lra. }
    replace ((1 + DX) * rr - 1)%R with (((1 + w / 16384) * rr - 1) + (DX - w / 16384) * rr)%R by field.
    assert (S2 : (Rabs (DX - w / 16384) <= / 32768)%R) by (apply Rabs_le; unfold w; lra).
    assert (S3 : (Rabs rr <= 1.004)%R) by (apply Rabs_le; lra). eapply Rle_trans; [apply (tri _ _ _ _ S1 (mulb _ _ _ _ S2 S3))|]. lra. }
  exists j, r, a, b, N2', A, B. split; [apply (to_int_w D 32 _ j good64 N1 N2 N3); unfold inS; lia|]. split; [exact A1|]. split; [exact A2|]. split; [exact HA|]. split; [exact HB|].
  split. { unfold madd. apply (add_x D good64 RNE _ _ (IZR ((2 ^ 32 + z) * n) * bp (-48)) (-1)); [|replace (-1)%R with (IZR (-1) * bp 0)%R by (bpn; lra); apply (lit_r false (-1) 0); lia| | |].
    - apply (mul_x D good64 RNE _ _ (IZR (2 ^ 32 + z) * bp (-32)) (IZR n / 65536)); [|exact Hr|rewrite mult_IZR; bpn; field|apply gfD; nia|].
      + apply (add_x D good64 RNE _ _ 1 DX); [replace 1%R with (bp 0) by reflexivity; apply lit_p2; lia|exact Hd|rewrite EZ, plus_IZR; change (IZR (2 ^ 32)) with 4294967296%R; bpn; lra|apply gfD; lia|].
        apply (bigD 50); [lia|]. rewrite Rabs_mult, (Rabs_pos_eq (bp _)) by apply bpow_ge_0. rewrite <- abs_IZR. apply Rle_trans with (IZR (2 ^ 33) * bp (-32))%R; [apply Rmult_le_compat_r; [apply bpow_ge_0|apply IZR_le; lia]|bpn; lra].
      + apply (bigD 50); [lia|]. rewrite Rabs_mult, (Rabs_pos_eq (bp _)) by apply bpow_ge_0. rewrite <- abs_IZR. apply Rle_trans with (IZR (2 ^ 50) * bp (-48))%R; [apply Rmult_le_compat_r; [apply bpow_ge_0|apply IZR_le; nia]|bpn; lra].
    - unfold N2'. rewrite minus_IZR. change (IZR (2 ^ 48)) with 281474976710656%R. bpn. lra.
    - apply gfD; [nia|lia]. - apply (bigD 50); [lia|]. eapply Rle_trans; [exact NX|bpn; lra]. }
  split; [exact NX|]. split. { assert (LG : (log2 (1 + N2') = log2 (1 + DX) + log2 (IZR n / 65536))%R) by (replace (1 + N2')%R with ((1 + DX) * (IZR n / 65536))%R by lra; apply log2_mult; lra). rewrite LG. replace (log2 (1 + DX) - (log2 (1 + DX) + log2 (IZR n / 65536) + B))%R with (- (B + log2 (IZR n / 65536)))%R by ring. rewrite Rabs_Ropp. exact EB. }
  split; [exact EA|]. destruct (Z.eq_dec j 64) as [J|J].
  - left. destruct (Z64 J) as (-> & -> & ->). split; [rewrite NE2; lra|split; reflexivity].
  - right. assert (C : j <= 63 \/ 65 <= j) by lia. destruct C as [C|C]; apply IZR_le in C; [rewrite Rabs_left1|rewrite Rabs_pos_eq]; lra.
Qed.
Lemma ddlog_g : forall ct i E L DX L2 HI MID LO z dx tl tm th, redn i E L DX L2 HI MID LO -> DX = (IZR z * bp (-32))%R -> at_opt pf_LOG2_R_TD i = Some (tl, tm, th) -> is_real D dx DX -> is_real D tl LO -> is_real D tm MID ->
  (bp (-30) <= Rabs L <= 205)%R ->
  exists lg H Lo, pf_dd_log2 RNE ct i dx = Some lg /\ is_real D (fst lg) H /\ is_real D (snd lg) Lo /\ (Rabs (H - (MID + log2 (1 + DX))) <= 12600 * (v * Rabs L))%R /\ (Rabs Lo <= 250 * (v * Rabs L))%R /\ (Rabs H <= 3.2 * Rabs L)%R.
Proof.
  intros ct i E L DX L2 HI MID LO z dx tl tm th [Rd Rl RL RS Rdd Rh R2 Rm Ro Rz] EZ AT HD HO HM (LL & LU). pose proof (Rabs_le_inv _ _ Rd) as RD2.
  destruct (red2 ct dx DX z HD EZ ltac:(lra)) as (j & r & a & b & n & A & B & EJ & AR & A2 & HA & HB & Hn & NX & EB & EA & CS).
  unfold pf_dd_log2. rewrite EJ. cbn [bindo]. rewrite AR. cbn [bindo]. rewrite AT. cbn [bindo]. rewrite A2. cbn [bindo].
  set (dx2 := madd D RNE (f_add D RNE (lit 1 0) dx) r (lit (-1) 0)) in *. pose proof v_pos as VP. destruct vk as (K38 & K40 & K45 & K60 & K37 & K50).
  set (La := Rabs L) in *. assert (PL : (0 < bp (-30))%R) by apply bpow_gt_0. assert (PL1 : (bp (-30) <= 1)%R) by (bpn; lra).
  assert (VL : (0 < v * La <= / 1000000000 * La)%R) by (split; [apply Rmult_lt_0_compat; lra|apply Rmult_le_compat_r; lra]).
  pose proof (log2_near DX ltac:(lra)) as (_ & N1). pose proof (log2_near n ltac:(lra)) as (_ & N2).
  rewrite K60 in *.
  assert (U : (Rabs n <= 4.1 * La)%R /\ (Rabs B <= 9.1 * La)%R /\ (Rabs (log2 (1 + DX) - (log2 (1 + n) + B)) <= 128 * (v * La))%R /\ (Rabs A <= 128 * (v * La))%R).
  { destruct CS as [(E1 & E2 & E3)|C].
    - rewrite E1, E2, E3 in *. rewrite !Rplus_0_r, Rabs_R0. replace (log2 (1 + DX) - log2 (1 + DX))%R with 0%R by ring. rewrite Rabs_R0. lra.
    - assert (VQ : (/ 512 * v <= 128 * (v * La))%R). { replace (128 * (v * La))%R with (v * (128 * La))%R by ring. rewrite Rmult_comm. apply Rmult_le_compat_l; lra. }
      split; [lra|]. split; [|lra]. replace B with ((log2 (1 + DX) - log2 (1 + n)) - (log2 (1 + DX) - (log2 (1 + n) + B)))%R by ring. eapply Rle_trans; [apply Rabs_triang|]. rewrite Rabs_Ropp. eapply Rle_trans; [apply Rplus_le_compat; [apply Rabs_triang|eapply Rle_trans; [exact EB|exact VQ]]|]. rewrite Rabs_Ropp. lra. }
  destruct U as (U1 & U2 & U3 & U4). clear CS EB EA N1.
  assert (Rm' : (Rabs MID <= 0.01 * La)%R). { eapply Rle_trans; [exact Rm|]. apply Rmult_le_compat_r; [lra|]. bpn. lra. }
  assert (Ro' : (Rabs LO <= v * La)%R). { eapply Rle_trans; [exact Ro|]. apply Rmult_le_compat_r; [lra|]. unfold v. apply bpow_le. lia. }
  assert (low : forall k, (bp (-30) <= 4 * k)%R -> (bp (-900) <= k /\ bp (-990) <= k)%R). { intros k K. assert (bp (-32) <= k)%R by (replace (bp (-32)) with (/ 4 * bp (-30))%R by (bpn; lra); lra). split; apply Rle_trans with (bp (-32)); auto; apply bpow_le; lia. }
  assert (high : forall k, (k <= 100000)%R -> (k <= bp 900 /\ k <= bp 890)%R). { intros k K. assert (k <= bp 30)%R by (eapply Rle_trans; [exact K|bpn; lra]). split; (eapply Rle_trans; [eassumption|apply bpow_le; lia]). }
  (* the polynomial *)
  destruct (poly_ddlog RNE dx2 n Hn ltac:(lra)) as (PH & PLo & HPH & HPL & EPH & EPL). set (p := dd_poly RNE (dx2, lit 0 0) pf_dd_log) in *.
  pose proof (dd_log_poly n ltac:(lra)) as LP. rewrite K50 in LP.
  assert (HB2 : (Rabs (hr n rdl) <= 1.46)%R). { unfold rdl. cbn [hr]. bpn. interval with (i_prec 50). }
  assert (PB : (Rabs PH <= 1.5)%R) by (eapply Rle_trans; [apply (near_b _ _ _ _ EPH HB2)|lra]).
  destruct (qmd_g RNE dx2 p n PH PLo (4.1 * La) 1.5 (70 * v) Hn HPH HPL U1 PB EPL) as (QH & QL & HQH & HQL & EQH & EQL); [lra|split; [apply low; lra|apply high; lra]|split; [apply low; lra|apply high; lra]|split; [apply low; lra|apply high; lra]|].
  set (q := quick_mult_d D RNE 27 dx2 p) in *.
  assert (EQ : (Rabs (QH - log2 (1 + n)) <= 11100 * (v * La))%R).
  { replace (QH - log2 (1 + n))%R with ((QH - n * PH) + (n * (PH - hr n rdl) + (n * hr n rdl - log2 (1 + n))))%R by ring. eapply Rle_trans; [apply tri; [exact EQH|apply tri; [apply mulb; [exact U1|exact EPH]|exact LP]]|].
    assert (v * Rabs n <= v * (4.1 * La))%R by (apply Rmult_le_compat_l; lra). lra. }
  assert (QB : (Rabs QH <= 6.2 * La)%R) by (eapply Rle_trans; [apply (near_b _ _ _ (1.47 * Rabs n) EQ); lra|lra]).
  assert (QLB : (Rabs QL <= 550 * (v * La))%R) by lra.
  (* the tables *)
  assert (X8 : (bp (-900) <= 9.1 * La + 0.01 * La <= bp 890)%R) by (split; [apply low; lra|apply high; lra]).
  destruct (dd_add_g RNE (b, a) (tm, tl) B A MID LO (9.1 * La) (0.01 * La) (129 * (v * La)) HB HA HM HO U2 Rm') as (MH & ML & HMH & HML & EMH & EML); [lra|lra|exact X8|].
  set (m := dd_add D RNE (b, a) (tm, tl)) in *.
  assert (EM : (Rabs (MH - (B + MID)) <= 240 * (v * La))%R) by lra. assert (EML' : (Rabs ML <= 150 * (v * La))%R) by lra.
  assert (MB : (Rabs MH <= 9.2 * La)%R) by (eapply Rle_trans; [apply (near_b _ _ _ _ EM (tri _ _ _ _ U2 Rm'))|lra]).
  assert (X9 : (bp (-900) <= 9.2 * La + 6.2 * La <= bp 890)%R) by (split; [apply low; lra|apply high; lra]).
  assert (FIN : exists H Lo, is_real D (fst (if pf_larger (fst m) (fst q) then dd_add D RNE m q else dd_add D RNE q m)) H /\ is_real D (snd (if pf_larger (fst m) (fst q) then dd_add D RNE m q else dd_add D RNE q m)) Lo /\ (Rabs (H - (MH + QH)) <= 900 * (v * La))%R /\ (Rabs Lo <= 250 * (v * La))%R).
  { destruct (pf_larger _ _).
    - destruct (dd_add_g RNE m q MH ML QH QL (9.2 * La) (6.2 * La) (700 * (v * La)) HMH HML HQH HQL MB QB) as (H & Lo & G1 & G2 & G3 & G4); [lra|lra|exact X9|]. exists H, Lo. split; [exact G1|]. split; [exact G2|]. lra.
    - destruct (dd_add_g RNE q m QH QL MH ML (6.2 * La) (9.2 * La) (700 * (v * La)) HQH HQL HMH HML QB MB) as (H & Lo & G1 & G2 & G3 & G4); [lra|lra|lra|]. exists H, Lo. split; [exact G1|]. split; [exact G2|]. rewrite (Rplus_comm MH). lra. }
  destruct FIN as (H & Lo & F1 & F2 & F3 & F4). eexists _, H, Lo. split; [reflexivity|]. split; [exact F1|]. split; [exact F2|].
  assert (EH : (Rabs (H - (MID + log2 (1 + DX))) <= 12600 * (v * La))%R).
  { replace (H - (MID + log2 (1 + DX)))%R with ((H - (MH + QH)) + ((MH - (B + MID)) + ((QH - log2 (1 + n)) - (log2 (1 + DX) - (log2 (1 + n) + B)))))%R by ring. eapply Rle_trans; [apply tri; [exact F3|apply tri; [exact EM|eapply Rle_trans; [apply Rabs_triang|rewrite Rabs_Ropp; apply Rplus_le_compat; [exact EQ|exact U3]]]]|]. lra. }
  split; [exact EH|]. split; [exact F4|]. pose proof (log2_near DX ltac:(lra)) as (_ & N1).
  eapply Rle_trans; [apply (near_b _ _ _ _ EH (tri _ _ _ _ Rm' N1))|]. lra.
Qed.
