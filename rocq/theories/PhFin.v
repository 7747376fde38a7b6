(** * Payne-Hanek: from the accumulator to the reduced argument *)
From Coq Require Import ZArith Lia List Bool Reals Lra.
From Flocq Require Import Core Mult_error.
From Interval Require Import Tactic.
From Verif Require Import MachInt Fmt FloatSpec FmtProofs RoundProofs FOps FOpsProofs ExactOps ExtFloatSpec ExtFloatProofs ExtInterp FmanipWide RemProofs ErrLib Exp2fProofs ExpoFWrap LogDRed Expm1Proofs Expm1Wrap HypotProofs ExpoData Trig PhInt PhReal.
Import ListNotations.
Open Scope Z_scope.
Notation bp := (bpow radix2).

(** ph_finish on the two words of the fraction *)
Definition ph_tail (rm : rmode) (k w0 w1 : Z) : Z * Z :=
  let r_hi := f_mul D rm (f_of_Z D rm (w0 / 2 ^ 11)) (lit 1 (-53)) in
  let r_lo := f_add D rm (f_mul D rm (f_of_Z D rm (w0 mod 2 ^ 11)) (lit 1 (-64))) (f_mul D rm (f_of_Z D rm w1) (lit 1 (-128))) in
  let '(r_hi, k) := if 2 ^ 63 <=? w0 then (f_sub D rm r_hi (lit 1 0), (k + 1) mod 16) else (r_hi, k) in
  (k, f_add D rm (f_mul D rm r_hi pi8_hi) (f_add D rm (f_mul D rm r_hi pi8_lo) (f_mul D rm r_lo pi8_hi))).

Lemma ph_split : forall rm acc, acc4 acc -> exists k w0 w1 rest, ph_finish rm acc = ph_tail rm k w0 w1 /\
  0 <= k < 16 /\ 0 <= w0 < 2 ^ 64 /\ 0 <= w1 < 2 ^ 64 /\ 0 <= rest < 2 ^ 124 /\ aval acc = k * 2 ^ 252 + w0 * 2 ^ 188 + w1 * 2 ^ 124 + rest.
Proof.
  intros rm acc (HL & E4). destruct acc as [|a0 [|a1 [|a2 [|a3 [|]]]]]; try discriminate E4.
  inversion HL as [|? ? R0 HL1]; subst. inversion HL1 as [|? ? R1 HL2]; subst. inversion HL2 as [|? ? R2 HL3]; subst. inversion HL3 as [|? ? R3 HL4]; subst. clear HL HL1 HL2 HL3 HL4 E4.
  unfold ph_finish. cbn [nth].
  assert (M : forall z n, 0 <= n -> Z.land z (Z.ones n) = z mod 2 ^ n) by (intros z n Hn; apply Z.land_ones; lia).
  change 15 with (Z.ones 4). change 0x0fffffffffffffff with (Z.ones 60). change (Z.land (Z.shiftr (Z.land a3 (Z.ones 60)) 59) 1) with (Z.land (Z.shiftr (Z.land a3 (Z.ones 60)) 59) (Z.ones 1)). change 0x7ff with (Z.ones 11).
  rewrite !M by lia. rewrite !Z.shiftr_div_pow2, !Z.shiftl_mul_pow2 by lia.
  pose proof (Z.div_mod a3 (2 ^ 60) ltac:(lia)) as E3. pose proof (Z.mod_pos_bound a3 (2 ^ 60) ltac:(lia)) as B3.
  pose proof (Z.div_mod a2 (2 ^ 60) ltac:(lia)) as E2. pose proof (Z.mod_pos_bound a2 (2 ^ 60) ltac:(lia)) as B2.
  pose proof (Z.div_mod a1 (2 ^ 60) ltac:(lia)) as E1. pose proof (Z.mod_pos_bound a1 (2 ^ 60) ltac:(lia)) as B1.
  set (k := a3 / 2 ^ 60) in *. set (c3 := a3 mod 2 ^ 60) in *. set (q2 := a2 / 2 ^ 60) in *. set (r2 := a2 mod 2 ^ 60) in *.
  set (q1 := a1 / 2 ^ 60) in *. set (r1 := a1 mod 2 ^ 60) in *.
  assert (K : 0 <= k < 16) by lia. assert (Q2 : 0 <= q2 < 16) by lia. assert (Q1 : 0 <= q1 < 16) by lia.
  rewrite (Z.mod_small k (2 ^ 4)) by lia.
  assert (W0 : Z.lor (wrap 64 (c3 * 2 ^ 4)) q2 = c3 * 2 ^ 4 + q2) by (rewrite wrap_small by (unfold inU; lia); apply lor_add; lia).
  assert (W1 : Z.lor (wrap 64 (a2 * 2 ^ 4)) q1 = r2 * 2 ^ 4 + q1).
  { assert (EW : wrap 64 (a2 * 2 ^ 4) = r2 * 2 ^ 4). { apply (wrap_unique 64 _ _ q2); [unfold inU|]; lia. } rewrite EW. apply lor_add; lia. }
  rewrite W0, W1.
  assert (RU : negb (c3 / 2 ^ 59 mod 2 ^ 1 =? 0) = (2 ^ 63 <=? c3 * 2 ^ 4 + q2)).
  { assert (0 <= c3 / 2 ^ 59 < 2) by (split; [apply Z.div_pos; lia|apply Z.div_lt_upper_bound; lia]). rewrite (Z.mod_small (c3 / 2 ^ 59)) by lia.
    pose proof (Z.div_mod c3 (2 ^ 59) ltac:(lia)). pose proof (Z.mod_pos_bound c3 (2 ^ 59) ltac:(lia)).
    destruct (Z.eqb_spec (c3 / 2 ^ 59) 0) as [Z0|Z0], (Z.leb_spec (2 ^ 63) (c3 * 2 ^ 4 + q2)); cbn [negb]; try reflexivity; lia. }
  rewrite RU. exists k, (c3 * 2 ^ 4 + q2), (r2 * 2 ^ 4 + q1), (a0 + 2 ^ 64 * r1).
  split; [|split; [lia|split; [lia|split; [lia|split; [lia|cbn [aval]; lia]]]]].
  unfold ph_tail. change (2 ^ 4) with 16. destruct (2 ^ 63 <=? c3 * 16 + q2); reflexivity.
Qed.

(** the absolute error of an operation that underflows *)
Definition etaD : R := bp (-1074).

Section Fin.
Context (rm : rmode).
Notation u := (uF D rm).
Notation fr := (fround D rm).

Lemma uD2 : (0 < u <= bp (-52))%R. Proof. destruct rm; cbn [uF]; split; try apply bpow_gt_0; apply bpow_le; vm_compute; discriminate. Qed.

Lemma mulD : forall a b A B, is_real D a A -> is_real D b B -> (Rabs (A * B) <= 4)%R ->
  exists R, is_real D (f_mul D rm a b) R /\ (Rabs (R - A * B) <= u * Rabs (A * B) + etaD)%R.
Proof. unfold etaD. apply (mul_s D good64); vm_compute; try discriminate; reflexivity. Qed.
Lemma addD : forall a b A B, is_real D a A -> is_real D b B -> (Rabs (A + B) <= 4)%R ->
  exists R, is_real D (f_add D rm a b) R /\ (Rabs (R - (A + B)) <= u * Rabs (A + B) + etaD)%R.
Proof. unfold etaD. apply (add_s D good64); vm_compute; try discriminate; reflexivity. Qed.
Lemma eta_s : (0 < etaD <= bp (-200))%R. Proof. unfold etaD; split; [apply bpow_gt_0|apply bpow_le; lia]. Qed.

(** the low word of the fraction *)
Lemma r_lo_err : forall l w1, 0 <= l < 2 ^ 11 -> 0 <= w1 < 2 ^ 64 ->
  exists L, is_real D (f_add D rm (f_mul D rm (f_of_Z D rm l) (lit 1 (-64))) (f_mul D rm (f_of_Z D rm w1) (lit 1 (-128)))) L /\
    (Rabs (L - (IZR l * bp (-64) + IZR w1 * bp (-128))) <= bp (-105))%R.
Proof.
  intros l w1 Hl Hw.
  assert (L1 : is_real D (f_mul D rm (f_of_Z D rm l) (lit 1 (-64))) (IZR l * bp (-64))).
  { eapply (mul_x D good64); [apply (ofz_r D good64); change (2 ^ prec D) with (2 ^ 53); lia|apply (lit_r false); lia|ring|apply gfD; lia|].
    apply (bigD _ 0); [lia|]. rewrite Rabs_pos_eq by (apply Rmult_le_pos; [apply IZR_le; lia|apply bpow_ge_0]).
    apply Rlt_le_trans with (bp 11 * bp (-64))%R; [apply Rmult_lt_compat_r; [apply bpow_gt_0|rewrite bpZ by lia; apply IZR_lt; lia]|rewrite <- bpow_plus; apply bpow_le; lia]. }
  assert (W : (0 <= IZR w1 <= bp 64)%R) by (rewrite bpZ by lia; split; apply IZR_le; lia).
  assert (LL : (0 <= IZR l <= 2047)%R) by (split; apply IZR_le; lia).
  destruct (round_int_spec D good64 rm false w1 0) as (Pw & _ & Vw & _). cbn [bpow] in Vw. rewrite Rmult_1_r in Vw.
  assert (Rw : is_real D (f_of_Z D rm w1) (fr (IZR w1))).
  { destruct Vw as (V1 & V2). { apply (bound_big rm _ 64); [lia|rewrite Rabs_pos_eq; lra]. } split; [exact Pw|split; [exact V1|exact V2]]. }
  assert (B0 : (0 <= fr (IZR w1) <= bp 64)%R).
  { split; [apply (fround_ge_gen D good64); [apply generic_format_0|lra]|apply (fround_le_gen D good64); [apply bpD; lia|lra]]. }
  pose proof (err_abs rm (IZR w1) 64 ltac:(lia) ltac:(rewrite Rabs_pos_eq; lra)) as E1.
  set (v := fr (IZR w1)) in *.
  assert (G2 : is_real D (f_mul D rm (f_of_Z D rm w1) (lit 1 (-128))) (v * bp (-128))).
  { eapply (mul_x D good64); [exact Rw|apply (lit_r false); lia|ring| |].
    - pose proof (real_fmt D good64 _ _ Rw) as Gv. destruct (Req_dec v 0) as [->|N]; [rewrite Rmult_0_l; apply generic_format_0|].
      apply (mult_bpow_exact_FLT radix2 (emin D) (prec D)); [exact Gv|].
      assert (1 <= v)%R.
      { destruct (Z.eq_dec w1 0) as [->|N']; [unfold v in N; rewrite (fround_exact D rm 0) in N by apply generic_format_0; lra|].
        apply (fround_ge_gen D good64); [apply (bpD 0); lia|]. apply IZR_le. lia. }
      assert (0 < mag radix2 v); [|change (emin D) with (-1074); change (prec D) with 53; lia]. apply mag_gt_bpow. rewrite Rabs_pos_eq by lra. cbn [bpow]. lra.
    - apply (bigD _ 0); [lia|]. rewrite Rabs_pos_eq by (apply Rmult_le_pos; [lra|apply bpow_ge_0]).
      apply Rle_lt_trans with (bp 64 * bp (-128))%R; [apply Rmult_le_compat_r; [apply bpow_ge_0|lra]|rewrite <- bpow_plus; apply bpow_lt; lia]. }
  clearbody v.
  assert (S : (Rabs (IZR l * bp (-64) + v * bp (-128)) <= bp (-53))%R).
  { rewrite Rabs_pos_eq by (apply Rplus_le_le_0_compat; apply Rmult_le_pos; try lra; apply bpow_ge_0). bpn_in B0. bpn. lra. }
  eexists. split; [apply (add_r D good64); [exact L1|exact G2|apply (bound_big rm _ (-53)); [lia|exact S]]|].
  pose proof (err_abs rm _ (-53) ltac:(lia) S) as E2. set (z := (IZR l * bp (-64) + v * bp (-128))%R) in *.
  replace (fr z - (IZR l * bp (-64) + IZR w1 * bp (-128)))%R with ((fr z - z) + (v - IZR w1) * bp (-128))%R by (unfold z; ring).
  apply Rle_trans with (1 := Rabs_triang _ _). rewrite Rabs_mult, (Rabs_pos_eq (bp (-128))) by apply bpow_ge_0.
  assert (Rabs (v - IZR w1) * bp (-128) <= bp (64 - 53) * bp (-128))%R by (apply Rmult_le_compat_r; [apply bpow_ge_0|exact E1]).
  rewrite <- bpow_plus in H. assert (bp (64 - 53 + -128) <= bp (-106))%R by (apply bpow_le; lia). assert (bp (-53 - 53) <= bp (-106))%R by (apply bpow_le; lia).
  replace (bp (-105)) with (2 * bp (-106))%R by (change (-105) with (1 + -106); rewrite bpow_plus; reflexivity). lra.
Qed.

Lemma pi8_r : is_real D pi8_hi (IZR 0x1921fb54442d18 * bp (-54)) /\ is_real D pi8_lo (IZR 0x11a62633145c07 * bp (-108)).
Proof. split; apply (lit_r false); lia. Qed.
Lemma pi8_err : (Rabs (PI / 8 - (IZR 0x1921fb54442d18 * bp (-54) + IZR 0x11a62633145c07 * bp (-108))) <= bp (-109))%R.
Proof. bpn. interval with (i_prec 200). Qed.

(** y from the exact high part and a low part known up to 2^-105 *)
Lemma y_err : forall hi lo R L r, is_real D hi R -> is_real D lo L -> (Rabs R <= / 2)%R ->
  (Rabs (R + L - r) <= bp (-104))%R -> (Rabs L <= bp (-52))%R ->
  exists Y, is_real D (f_add D rm (f_mul D rm hi pi8_hi) (f_add D rm (f_mul D rm hi pi8_lo) (f_mul D rm lo pi8_hi))) Y /\
    (Rabs (Y - r * (PI / 8)) <= 2.001 * u * Rabs (r * (PI / 8)) + bp (-101))%R.
Proof.
  intros hi lo R L r Hh Hl HR Hr HL. destruct pi8_r as (PH & PL). pose proof pi8_err as PE.
  set (p := (IZR 0x1921fb54442d18 * bp (-54))%R) in *. set (q := (IZR 0x11a62633145c07 * bp (-108))%R) in *.
  assert (Bp : (0.39 <= p <= 0.4)%R) by (unfold p; bpn; lra). assert (Bq : (0 <= q <= bp (-55))%R) by (unfold q; bpn; lra).
  assert (Bpi : (0.39 <= PI / 8 <= 0.4)%R) by (split; interval with (i_prec 40)).
  clearbody p q. pose proof uD2 as U. pose proof eta_s as ES. set (P8 := (PI / 8)%R) in *. clearbody P8.
  pose proof (bpow_gt_0 radix2 (-109)). pose proof (bpow_gt_0 radix2 (-104)).
  assert (A1 : (Rabs (R * p) <= 0.2)%R) by (rewrite Rabs_mult, (Rabs_pos_eq p) by lra; nra).
  assert (A2 : (Rabs (R * q) <= bp (-56))%R) by (rewrite Rabs_mult, (Rabs_pos_eq q) by lra; change (bp (-56)) with (bp (-1 + -55)); rewrite bpow_plus; change (bp (-1)) with (/ 2)%R; apply Rmult_le_compat; try lra; apply Rabs_pos).
  assert (A3 : (Rabs (L * p) <= 0.4 * bp (-52))%R) by (rewrite Rabs_mult, (Rabs_pos_eq p), Rmult_comm by lra; apply Rmult_le_compat; try lra; apply Rabs_pos).
  assert (A4 : (Rabs (L * q) <= bp (-107))%R) by (rewrite Rabs_mult, (Rabs_pos_eq q) by lra; change (bp (-107)) with (bp (-52 + -55)); rewrite bpow_plus; apply Rmult_le_compat; try lra; apply Rabs_pos).
  bpn_in A2; bpn_in A3.
  destruct (mulD _ _ _ _ Hh PH) as (P1 & R1' & E1); [lra|].
  destruct (mulD _ _ _ _ Hh PL) as (P2 & R2' & E2); [lra|].
  destruct (mulD _ _ _ _ Hl PH) as (P3 & R3' & E3); [lra|].
  bpn_in U. bpn_in ES.
  assert (U1 : (u * Rabs (R * q) <= bp (-52) * bp (-56))%R) by (apply Rmult_le_compat; try (apply Rabs_pos); bpn; lra). rewrite <- bpow_plus in U1.
  assert (U2 : (u * Rabs (L * p) <= bp (-52) * (0.4 * bp (-52)))%R) by (apply Rmult_le_compat; try (apply Rabs_pos); bpn; lra).
  bpn_in U1. bpn_in U2.
  assert (B23 : (Rabs (P2 + P3) <= 0.5 * bp (-52))%R).
  { replace (P2 + P3)%R with ((P2 - R * q) + (P3 - L * p) + R * q + L * p)%R by ring. bpn.
    apply Rle_trans with (1 := Rabs_triang _ _). apply Rle_trans with (Rabs (P2 - R * q + (P3 - L * p)) + Rabs (R * q) + Rabs (L * p))%R; [apply Rplus_le_compat_r, Rabs_triang|].
    pose proof (Rabs_triang (P2 - R * q) (P3 - L * p)). lra. }
  assert (U3 : (u * Rabs (P2 + P3) <= bp (-52) * (0.5 * bp (-52)))%R) by (apply Rmult_le_compat; try (apply Rabs_pos); bpn; bpn_in B23; lra).
  bpn_in B23. bpn_in U3.
  destruct (addD _ _ _ _ R2' R3') as (S & RS & ES'); [lra|].
  set (w := (r * P8)%R).
  (* error before the last rounding *)
  assert (UR : (Rabs (R * p) <= Rabs w * (1 + / 100000) + bp (-52))%R).
  { assert (T : (Rabs (R * P8) <= Rabs w + 0.41 * bp (-52))%R).
    { replace (R * P8)%R with (w + (R + L - r) * P8 - L * P8)%R by (unfold w; ring). unfold Rminus at 1. apply Rle_trans with (1 := Rabs_triang _ _). rewrite Rabs_Ropp.
      apply Rle_trans with (Rabs w + Rabs ((R + L - r) * P8) + Rabs (L * P8))%R; [apply Rplus_le_compat_r, Rabs_triang|]. rewrite (Rabs_mult (_ - _)), (Rabs_mult L), (Rabs_pos_eq P8) by lra.
      assert (Rabs (R + L - r) * P8 <= bp (-104) * 0.4)%R by (apply Rmult_le_compat; try lra; apply Rabs_pos).
      assert (Rabs L * P8 <= bp (-52) * 0.4)%R by (apply Rmult_le_compat; try lra; apply Rabs_pos). bpn_in H1. bpn_in H2. bpn. lra. }
    assert (PQ : (p <= P8 * (1 + / 100000))%R). { apply Rabs_le_inv in PE. bpn_in PE. bpn_in Bq. lra. }
    rewrite Rabs_mult, (Rabs_pos_eq p) by lra. rewrite Rabs_mult, (Rabs_pos_eq P8) in T by lra. pose proof (Rabs_pos R).
    assert (Rabs R * p <= Rabs R * P8 * (1 + / 100000))%R by (rewrite Rmult_assoc; apply Rmult_le_compat_l; lra). bpn_in T. bpn. lra. }
  assert (MAIN : (Rabs (P1 + S - w) <= u * Rabs w * 1.0001 + bp (-102))%R).
  { replace (P1 + S - w)%R with ((P1 - R * p) + (S - (P2 + P3)) + (P2 - R * q) + (P3 - L * p) + R * (p + q - P8) - L * q + L * (p + q - P8) + (R + L - r) * P8)%R by (unfold w; ring).
    assert (T1 : (Rabs (R * (p + q - P8)) <= / 2 * bp (-109))%R) by (rewrite Rabs_mult, (Rabs_minus_sym (p + q) P8); apply Rmult_le_compat; try apply Rabs_pos; auto).
    assert (T2 : (Rabs (L * (p + q - P8)) <= / 2 * bp (-109))%R).
    { rewrite Rabs_mult, (Rabs_minus_sym (p + q) P8). apply Rmult_le_compat; try apply Rabs_pos; auto. bpn_in HL. lra. }
    assert (T3 : (Rabs ((R + L - r) * P8) <= bp (-104) * 0.4)%R) by (rewrite Rabs_mult, (Rabs_pos_eq P8) by lra; apply Rmult_le_compat; try lra; apply Rabs_pos).
    assert (T4 : (u * Rabs (R * p) <= u * Rabs w * 1.0001 + bp (-52) * bp (-52))%R).
    { apply Rle_trans with (u * (Rabs w * (1 + / 100000) + bp (-52)))%R; [apply Rmult_le_compat_l; lra|]. pose proof (Rabs_pos w).
      assert (0 <= u * Rabs w)%R by (apply Rmult_le_pos; lra). assert (u * bp (-52) <= bp (-52) * bp (-52))%R by (apply Rmult_le_compat_r; [apply bpow_ge_0|bpn; lra]). lra. }
    bpn_in T1. bpn_in T2. bpn_in T3. bpn_in T4. bpn_in A4. bpn.
    set (c1 := (P1 - R * p)%R) in *. set (c2 := (S - (P2 + P3))%R) in *. set (c3 := (P2 - R * q)%R) in *. set (c4 := (P3 - L * p)%R) in *. set (c5 := (R * (p + q - P8))%R) in *.
    set (c6 := (L * q)%R) in *. set (c7 := (L * (p + q - P8))%R) in *. set (c8 := ((R + L - r) * P8)%R) in *.
    apply Rabs_le_inv in E1. apply Rabs_le_inv in ES'. apply Rabs_le_inv in E2. apply Rabs_le_inv in E3. apply Rabs_le_inv in T1. apply Rabs_le_inv in A4. apply Rabs_le_inv in T2. apply Rabs_le_inv in T3.
    apply Rabs_le. split; lra. }
  assert (BW : (Rabs w <= 0.3)%R).
  { unfold w. replace (r * P8)%R with (R * P8 + L * P8 - (R + L - r) * P8)%R by ring. unfold Rminus at 1. apply Rle_trans with (1 := Rabs_triang _ _). rewrite Rabs_Ropp.
    apply Rle_trans with (Rabs (R * P8) + Rabs (L * P8) + Rabs ((R + L - r) * P8))%R; [apply Rplus_le_compat_r, Rabs_triang|]. rewrite !Rabs_mult, (Rabs_pos_eq P8) by lra.
    assert (Rabs R * P8 <= / 2 * 0.4)%R by (apply Rmult_le_compat; try lra; apply Rabs_pos). assert (Rabs L * P8 <= bp (-52) * 0.4)%R by (apply Rmult_le_compat; try lra; apply Rabs_pos).
    assert (Rabs (R + L - r) * P8 <= bp (-104) * 0.4)%R by (apply Rmult_le_compat; try lra; apply Rabs_pos). bpn_in H2. bpn_in H3. lra. }
  assert (BS : (Rabs (P1 + S) <= Rabs w * 1.0002 + bp (-102))%R).
  { replace (P1 + S)%R with ((P1 + S - w) + w)%R by ring. apply Rle_trans with (1 := Rabs_triang _ _). pose proof (Rabs_pos w). assert (u * Rabs w <= / 100000 * Rabs w)%R by (apply Rmult_le_compat_r; lra). lra. }
  bpn_in BS. bpn_in MAIN.
  destruct (addD _ _ _ _ R1' RS) as (Y & RY & EY); [lra|]. exists Y. split; [exact RY|]. fold w.
  assert (UY : (u * Rabs (P1 + S) <= u * Rabs w * 1.0002 + / 1000000 * bp (-102))%R).
  { apply Rle_trans with (u * (Rabs w * 1.0002 + bp (-102)))%R; [apply Rmult_le_compat_l; [lra|bpn; lra]|]. assert (u * bp (-102) <= / 1000000 * bp (-102))%R by (apply Rmult_le_compat_r; [apply bpow_ge_0|lra]). lra. }
  bpn_in UY. bpn. replace (Y - w)%R with ((Y - (P1 + S)) + (P1 + S - w))%R by ring. apply Rle_trans with (1 := Rabs_triang _ _).
  assert (0 <= u * Rabs w)%R by (apply Rmult_le_pos; [lra|apply Rabs_pos]). lra.
Qed.
End Fin.

Lemma ph_tail_err : forall rm k w0 w1 rest, 0 <= k < 16 -> 0 <= w0 < 2 ^ 64 -> 0 <= w1 < 2 ^ 64 -> 0 <= rest < 2 ^ 124 ->
  exists j y Y, (j = 0 \/ j = 1) /\ ph_tail rm k w0 w1 = ((k + j) mod 16, y) /\ is_real D y Y /\
    (let r := IZR (w0 * 2 ^ 188 + w1 * 2 ^ 124 + rest) * bp (-252) - IZR j in
    - / 2 <= r <= / 2 /\ Rabs (Y - r * (PI / 8)) <= 2.001 * uF D rm * Rabs (r * (PI / 8)) + bp (-101))%R.
Proof.
  intros rm k w0 w1 rest Hk H0 H1 Hr. unfold ph_tail.
  pose proof (Z.div_mod w0 (2 ^ 11) ltac:(lia)) as E. pose proof (Z.mod_pos_bound w0 (2 ^ 11) ltac:(lia)) as M.
  set (h := w0 / 2 ^ 11) in *. set (l := w0 mod 2 ^ 11) in *. assert (Hh : 0 <= h < 2 ^ 53) by lia.
  destruct (r_lo_err rm l w1 M H1) as (L & RL & EL). set (lo := f_add D rm _ _) in *. clearbody lo.
  set (j := if 2 ^ 63 <=? w0 then 1 else 0).
  set (hi := if 2 ^ 63 <=? w0 then f_sub D rm (f_mul D rm (f_of_Z D rm h) (lit 1 (-53))) (lit 1 0) else f_mul D rm (f_of_Z D rm h) (lit 1 (-53))).
  assert (HJ : j = 0 \/ j = 1) by (unfold j; destruct (2 ^ 63 <=? w0); auto).
  assert (G0 : forall m, Z.abs m < 2 ^ 53 -> generic_format radix2 fexpD (IZR m * bp (-53)) /\ (Rabs (IZR m * bp (-53)) < bp (bias D + 1))%R).
  { intros m Hm. split; [apply gfD; lia|]. apply (bigD _ 0); [lia|]. rewrite Rabs_mult, (Rabs_pos_eq (bp _)), <- abs_IZR by apply bpow_ge_0.
    change (bp 0) with (bp (53 + -53)). rewrite bpow_plus. apply Rmult_lt_compat_r; [apply bpow_gt_0|]. rewrite (bpZ 53) by lia. apply IZR_lt. lia. }
  assert (HH : is_real D (f_mul D rm (f_of_Z D rm h) (lit 1 (-53))) (IZR h * bp (-53))).
  { eapply (mul_x D good64); [apply (ofz_r D good64); change (2 ^ prec D) with (2 ^ 53); lia|apply (lit_r false); lia|ring|apply G0; lia|apply G0; lia]. }
  assert (RH : is_real D hi (IZR (h - j * 2 ^ 53) * bp (-53)) /\ Z.abs (h - j * 2 ^ 53) <= 2 ^ 52 /\ - 2 ^ 63 <= w0 - j * 2 ^ 64 < 2 ^ 63).
  { unfold hi, j. destruct (Z.leb_spec (2 ^ 63) w0) as [K|K].
    - split; [|lia]. eapply (sub_x D good64); [exact HH|apply (lit_r false); lia| |apply G0; lia|apply G0; lia].
      change (bp 0) with 1%R. rewrite minus_IZR, mult_IZR. rewrite <- (bpZ 53) by lia. assert (Q : (bp 53 * bp (-53) = 1)%R) by (rewrite <- bpow_plus; reflexivity). rewrite Rmult_minus_distr_r, Rmult_assoc, Q. reflexivity.
    - rewrite Z.mul_0_l, Z.sub_0_r. split; [exact HH|]. lia. }
  destruct RH as (RH & BH & BJ). set (R := (IZR (h - j * 2 ^ 53) * bp (-53))%R) in *.
  set (r := (IZR (w0 * 2 ^ 188 + w1 * 2 ^ 124 + rest) * bp (-252) - IZR j)%R).
  assert (ER : (r = R + (IZR l * bp (-64) + IZR w1 * bp (-128)) + IZR rest * bp (-252))%R).
  { unfold r, R. rewrite E. rewrite !plus_IZR, !minus_IZR, !mult_IZR, !plus_IZR, !mult_IZR, <- !bpZ by lia.
    change (bp (-53)) with (bp (11 + (188 + -252))). change (bp (-64)) with (bp (188 + -252)). change (bp (-128)) with (bp (124 + -252)). rewrite !bpow_plus.
    assert (Q : (bp 53 * (bp 11 * (bp 188 * bp (-252))) = 1)%R) by (rewrite <- !bpow_plus; reflexivity).
    transitivity ((bp 11 * IZR h + IZR l) * bp 188 * bp (-252) + IZR w1 * bp 124 * bp (-252) + IZR rest * bp (-252) - IZR j * (bp 53 * (bp 11 * (bp 188 * bp (-252)))))%R; [rewrite Q|]; ring. }
  assert (BR : (Rabs R <= / 2)%R).
  { unfold R. rewrite Rabs_mult, (Rabs_pos_eq (bp _)), <- abs_IZR by apply bpow_ge_0. apply Rle_trans with (bp 52 * bp (-53))%R; [apply Rmult_le_compat_r; [apply bpow_ge_0|rewrite (bpZ 52) by lia; apply IZR_le; lia]|].
    rewrite <- bpow_plus. apply Rle_refl. }
  assert (Brest : (0 <= IZR rest * bp (-252) <= bp (-128))%R).
  { split; [apply Rmult_le_pos; [apply IZR_le; lia|apply bpow_ge_0]|]. change (bp (-128)) with (bp (124 + -252)). rewrite bpow_plus. apply Rmult_le_compat_r; [apply bpow_ge_0|rewrite bpZ by lia; apply IZR_le; lia]. }
  assert (C1 : (Rabs (R + L - r) <= bp (-104))%R).
  { rewrite ER. replace (R + L - (R + (IZR l * bp (-64) + IZR w1 * bp (-128)) + IZR rest * bp (-252)))%R with (L - (IZR l * bp (-64) + IZR w1 * bp (-128)) - IZR rest * bp (-252))%R by ring.
    unfold Rminus at 1. apply Rle_trans with (1 := Rabs_triang _ _). rewrite Rabs_Ropp, (Rabs_pos_eq (IZR rest * _)) by lra.
    set (e := (L - _)%R) in *. bpn_in EL. bpn_in Brest. bpn. lra. }
  assert (C2 : (Rabs L <= bp (-52))%R).
  { assert (0 <= IZR l * bp (-64) + IZR w1 * bp (-128) <= bp (-53))%R.
    { assert (0 <= IZR l <= 2047)%R by (split; apply IZR_le; lia). assert (0 <= IZR w1 <= bp 64)%R by (rewrite bpZ by lia; split; apply IZR_le; lia). bpn_in H2. bpn. lra. }
    set (e := (IZR l * bp (-64) + IZR w1 * bp (-128))%R) in *. apply Rabs_le_inv in EL. apply Rabs_le. bpn_in EL. bpn_in H. bpn. lra. }
  destruct (y_err rm hi lo R L r RH RL BR C1 C2) as (Y & RY & EY).
  exists j. eexists _, Y. split; [exact HJ|]. split; [|split; [exact RY|split; [|exact EY]]].
  - unfold hi, j. destruct (2 ^ 63 <=? w0); [reflexivity|]. rewrite Z.add_0_r, Z.mod_small by lia. reflexivity.
  - assert (EI : (r = IZR ((w0 - j * 2 ^ 64) * 2 ^ 188 + w1 * 2 ^ 124 + rest) * bp (-252))%R).
    { unfold r. rewrite !plus_IZR, !mult_IZR, minus_IZR, mult_IZR, <- !bpZ by lia. assert (Q : (bp 64 * (bp 188 * bp (-252)) = 1)%R) by (rewrite <- !bpow_plus; reflexivity).
      transitivity ((IZR w0 * bp 188 + IZR w1 * bp 124 + IZR rest) * bp (-252) - IZR j * (bp 64 * (bp 188 * bp (-252))))%R; [rewrite Q|]; ring. }
    change (- / 2 <= r <= / 2)%R. rewrite EI. set (N := (w0 - j * 2 ^ 64) * 2 ^ 188 + w1 * 2 ^ 124 + rest).
    assert (- 2 ^ 251 <= N <= 2 ^ 251) by (unfold N; lia).
    assert (A : (- bp 251 <= IZR N <= bp 251)%R) by (rewrite bpZ, <- opp_IZR by lia; split; apply IZR_le; lia).
    assert (Q : (bp 251 * bp (-252) = / 2)%R) by (rewrite <- bpow_plus; reflexivity). pose proof (bpow_gt_0 radix2 (-252)). nra.
Qed.

(** ** payne_hanek_reduce *)
Lemma ph_abs : forall rm p X, 2 ^ 52 <= p < 2047 * 2 ^ 52 -> is_real D p X ->
  exists k y Y n, ph_finish rm (ph_acc (Z.lor (Z.land p 0xfffffffffffff) 0x10000000000000) (Z.land (Z.shiftr p 52) 0x7ff - 1023 - 52)) = (k, y) /\
    0 <= k < 16 /\ is_real D y Y /\
    (let w := X - IZR (16 * n + k) * (PI / 8) in Rabs w <= PI / 16 + bp (-200) /\ Rabs (Y - w) <= 2.002 * uF D rm * Rabs w + bp (-100))%R.
Proof.
  intros rm p X Hp HX. pose proof (pos_pat p Hp) as HP.
  assert (EM : Z.lor (Z.land p 0xfffffffffffff) 0x10000000000000 = 2 ^ 52 + p mod 2 ^ 52).
  { change 0xfffffffffffff with (Z.ones 52). rewrite Z.land_ones, Z.lor_comm by lia. change 0x10000000000000 with (1 * 2 ^ 52). pose proof (Z.mod_pos_bound p (2 ^ 52) ltac:(lia)). rewrite lor_add by lia. lia. }
  assert (EE : Z.land (Z.shiftr p 52) 0x7ff - 1023 - 52 = p / 2 ^ 52 - 1075).
  { change 0x7ff with (Z.ones 11). rewrite Z.land_ones, Z.shiftr_div_pow2 by lia. assert (0 <= p / 2 ^ 52 < 2047) by (split; [apply Z.div_pos; lia|apply Z.div_lt_upper_bound; lia]).
    rewrite Z.mod_small by lia. lia. }
  rewrite EM, EE. assert (EX : X = (IZR (2 ^ 52 + p mod 2 ^ 52) * bp (p / 2 ^ 52 - 1075))%R). { destruct HX as (_ & _ & <-), HP as (_ & _ & <-). reflexivity. }
  set (m := 2 ^ 52 + p mod 2 ^ 52) in *. set (be := p / 2 ^ 52 - 1075) in *.
  assert (Hm : 0 <= m < 2 ^ 53) by (pose proof (Z.mod_pos_bound p (2 ^ 52) ltac:(lia)); unfold m; lia).
  assert (Hbe : be <= 971). { assert (p / 2 ^ 52 < 2047) by (apply Z.div_lt_upper_bound; lia). unfold be. lia. }
  clearbody m be. clear EM EE HP. destruct (ph_acc_R m be Hm Hbe) as (A4 & n & e & EA & RE).
  destruct (ph_split rm _ A4) as (k & w0 & w1 & rest & EF & Rk & R0 & R1 & Rr & EV).
  destruct (ph_tail_err rm k w0 w1 rest Rk R0 R1 Rr) as (j & y & Y & HJ & ET & RY & BR & EY).
  set (r := (IZR (w0 * 2 ^ 188 + w1 * 2 ^ 124 + rest) * bp (-252) - IZR j)%R) in *.
  exists ((k + j) mod 16), y, Y, (n + (k + j) / 16). split; [rewrite EF; exact ET|]. split; [apply Z.mod_pos_bound; lia|]. split; [exact RY|].
  rewrite Z.mul_add_distr_l, <- Z.add_assoc, <- (Z.div_mod (k + j) 16) by lia.
  assert (HPI : (0 < PI)%R) by apply PI_RGT_0.
  assert (EW : (X - IZR (16 * n + (k + j)) * (PI / 8) = r * (PI / 8) + e * bp (-252) * (PI / 8))%R).
  { assert (Q : (X * (8 / PI) = IZR (16 * n + (k + j)) + r + e * bp (-252))%R).
    { rewrite EX. apply Rmult_eq_reg_r with (bp 252); [|apply Rgt_not_eq, bpow_gt_0]. rewrite EA, EV. unfold r.
      assert (Q : (bp (-252) * bp 252 = 1)%R) by (rewrite <- bpow_plus; reflexivity).
      transitivity ((IZR (16 * n + (k + j)) - IZR j) * bp 252 + (IZR (w0 * 2 ^ 188 + w1 * 2 ^ 124 + rest) + e) * (bp (-252) * bp 252))%R; [rewrite Q|ring].
      rewrite !plus_IZR, !mult_IZR, <- !bpZ by lia. change (bp 256) with (bp (4 + 252)). rewrite (bpow_plus radix2 4 252). change (bp 4) with 16%R. ring. }
    transitivity (X * (8 / PI) * (PI / 8) - IZR (16 * n + (k + j)) * (PI / 8))%R; [field; lra|]. rewrite Q. ring. }
  rewrite EW. set (t := (e * bp (-252) * (PI / 8))%R).
  assert (T : (0 <= t <= bp (-246))%R).
  { assert (PI <= 3.2)%R by interval with (i_prec 30). unfold t. split; [apply Rmult_le_pos; [apply Rmult_le_pos; [lra|apply bpow_ge_0]|lra]|].
    change (bp (-246)) with (bp (6 + -252)). rewrite bpow_plus. change (bp 6) with 64%R. pose proof (bpow_gt_0 radix2 (-252)).
    replace (e * bp (-252) * (PI / 8))%R with (e * (PI / 8) * bp (-252))%R by ring. apply Rmult_le_compat_r; [lra|]. nra. }
  assert (T2 : (bp (-246) <= bp (-200))%R) by (apply bpow_le; lia). clearbody t. set (w := (r * (PI / 8))%R) in *.
  assert (BW : (Rabs w <= PI / 16)%R). { unfold w. rewrite Rabs_mult, (Rabs_pos_eq (PI / 8)) by lra. assert (Rabs r <= / 2)%R by (apply Rabs_le; lra). nra. }
  split.
  - apply Rle_trans with (1 := Rabs_triang _ _). rewrite (Rabs_pos_eq t) by lra. lra.
  - replace (Y - (w + t))%R with ((Y - w) - t)%R by ring. unfold Rminus at 1. apply Rle_trans with (1 := Rabs_triang _ _). rewrite Rabs_Ropp, (Rabs_pos_eq t) by lra.
    pose proof (uD2 rm) as U. assert (W2 : (Rabs w <= Rabs (w + t) + t)%R). { replace w with ((w + t) - t)%R at 1 by ring. unfold Rminus. apply Rle_trans with (1 := Rabs_triang _ _). rewrite Rabs_Ropp, (Rabs_pos_eq t); lra. }
    assert (uF D rm * Rabs w <= uF D rm * (Rabs (w + t) + t))%R by (apply Rmult_le_compat_l; lra). pose proof (Rabs_pos (w + t)).
    bpn_in U. assert (0 <= uF D rm * Rabs (w + t))%R by (apply Rmult_le_pos; lra). assert (uF D rm * t <= 1 * t)%R by (apply Rmult_le_compat_r; lra).
    assert (bp (-101) + 4 * bp (-200) <= bp (-100))%R by (bpn; lra). lra.
Qed.

Lemma land15 : forall z, Z.land (wrap 32 z) 15 = z mod 16.
Proof. intros z. change 15 with (Z.ones 4). rewrite Z.land_ones by lia. unfold wrap. symmetry. apply Znumtheory.Zmod_div_mod; try lia. exists (2 ^ 28). reflexivity. Qed.
Lemma mag_real : forall F x X, good_fmt F -> is_real F x X -> is_real F (mag_of F x) (Rabs X).
Proof.
  intros F x X HF (P & Fi & <-). rewrite (Rabs_fval F HF x Fi). pose proof (mag_range F HF x) as M. pose proof Fi as Fi'. unfold is_fin in Fi. apply Z.ltb_lt in Fi.
  assert (MM : mag_of F (mag_of F x) = mag_of F x) by (unfold mag_of; apply Z.mod_mod; unfold sign_unit; pose proof (gf_fl F HF); pose proof (gf_el F HF); apply Z.pow_nonzero; lia).
  split; [|split].
  - split; [apply M|]. destruct P as [P1 P2]. apply Z.le_lt_trans with x; [|exact P2]. unfold mag_of. apply Z.mod_le; [lia|]. unfold sign_unit. pose proof (gf_fl F HF); pose proof (gf_el F HF); apply Z.pow_pos_nonneg; lia.
  - unfold is_fin. rewrite MM. apply Z.ltb_lt. exact Fi.
  - symmetry. apply (mval_c F _ HF). lia.
Qed.

Lemma ph_reduce : forall rm x X, is_real D x X -> (bp (-1022) <= Rabs X)%R ->
  exists k y Y n, payne_hanek_reduce rm x = (k, y) /\ 0 <= k < 16 /\ is_real D y Y /\
    (let w := X - IZR (16 * n + k) * (PI / 8) in Rabs w <= PI / 16 + bp (-200) /\ Rabs (Y - w) <= 2.002 * uF D rm * Rabs w + bp (-100))%R.
Proof.
  intros rm x X HX HN. pose proof HX as (PX & FX & VX). pose proof (bpow_gt_0 radix2 (-1022)) as BP.
  assert (X0 : X <> 0%R). { intros ->. rewrite Rabs_R0 in HN. lra. }
  unfold payne_hanek_reduce. assert (HS : sign_of D x = Rlt_bool X 0) by (rewrite <- VX; apply (sign_fval D good64 x FX); rewrite VX; exact X0).
  pose proof (Rabs_fval D good64 x FX) as AM. rewrite VX in AM.
  assert (HM : is_real D (mag_of D x) (Rabs X)).
  { apply mag_real; [exact good64|exact HX]. }
  assert (RM : 2 ^ 52 <= mag_of D x < 2047 * 2 ^ 52).
  { split.
    - apply (mag_ge D x _ X good64 HX); [lia|]. rewrite (mval_c D _ good64) by (change (inf_mag D) with (2047 * 2 ^ 52); lia).
      destruct (pos_pat (2 ^ 52) ltac:(lia)) as (_ & _ & ->). rewrite Z.mod_same, Z.div_same, Z.add_0_r, <- bpZ, <- bpow_plus by lia. exact HN.
    - unfold is_fin in FX. apply Z.ltb_lt in FX. exact FX. }
  destruct (ph_abs rm _ _ RM HM) as (k & y & Y & n & EF & Rk & RY & BW & EY). rewrite EF. rewrite HS. destruct (Rlt_bool_spec X 0) as [NEG|POS].
  - assert (EK : Z.land (wrap 32 (0 - k)) 15 = (- k) mod 16).
    { apply land15. }
    rewrite EK. exists ((- k) mod 16), (f_neg D y), (- Y)%R, (- n + (- k) / 16). split; [reflexivity|]. split; [apply Z.mod_pos_bound; lia|]. split; [apply (neg_rl D good64); exact RY|].
    rewrite Z.mul_add_distr_l, <- Z.add_assoc, <- (Z.div_mod (- k) 16) by lia.
    replace (X - IZR (16 * - n + - k) * (PI / 8))%R with (- (Rabs X - IZR (16 * n + k) * (PI / 8)))%R.
    2: { rewrite (Rabs_left X) by exact NEG. rewrite !plus_IZR, !mult_IZR, !opp_IZR. ring. }
    set (w := (Rabs X - IZR (16 * n + k) * (PI / 8))%R) in *. cbv zeta. rewrite Rabs_Ropp. split; [exact BW|]. replace (- Y - - w)%R with (- (Y - w))%R by ring. rewrite Rabs_Ropp. exact EY.
  - exists k, y, Y, n. rewrite (Rabs_pos_eq X) in BW, EY by exact POS. split; [|auto]. change 15 with (Z.ones 4). rewrite Z.land_ones, Z.mod_small by lia. reflexivity.
Qed.
