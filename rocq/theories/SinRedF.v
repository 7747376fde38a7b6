(** * The range reduction of sin and cos for float *)
From Coq Require Import ZArith Lia List Bool Reals Lra.
From Flocq Require Import Core.
From Interval Require Import Tactic.
From Verif Require Import MachInt Fmt FloatSpec FmtProofs RoundProofs FOps FOpsProofs ExactOps ExtFloatSpec ExtFloatProofs ExtInterp FmanipWide RemProofs ErrLib Exp2fProofs ExpoFWrap LogDRed Log1pWrap Expm1Proofs Expm1Wrap HypotProofs ExpoData ExpoF Nearest NearestInt Trig PhInt PhReal PhFin SinPoly SinRed.
Import ListNotations.
Open Scope Z_scope.
Notation bp := (bpow radix2).
Notation S32 := binary32.

Lemma h24 : 24 <= prec S32. Proof. vm_compute. discriminate. Qed.
Lemma hem : emin S32 <= - 2 * prec S32. Proof. vm_compute. discriminate. Qed.
Lemma hbs : 4 <= bias S32. Proof. vm_compute. discriminate. Qed.
Definition etaF : R := bp (-149).
Lemma uF24 : forall rm, (bp (-24) <= uF S32 rm <= bp (-23))%R. Proof. intros []; cbn [uF]; split; apply bpow_le; vm_compute; discriminate. Qed.
Lemma etaF_s : (0 < etaF <= bp (-140))%R. Proof. unfold etaF; split; [apply bpow_gt_0|apply bpow_le; lia]. Qed.
Lemma mulF : forall rm a b A B, is_real S32 a A -> is_real S32 b B -> (Rabs (A * B) <= 4)%R ->
  exists R, is_real S32 (f_mul S32 rm a b) R /\ (Rabs (R - A * B) <= uF S32 rm * Rabs (A * B) + etaF)%R.
Proof. intros rm. exact (mul_s S32 good32 h24 hem hbs rm). Qed.
Lemma addF : forall rm a b A B, is_real S32 a A -> is_real S32 b B -> (Rabs (A + B) <= 4)%R ->
  exists R, is_real S32 (f_add S32 rm a b) R /\ (Rabs (R - (A + B)) <= uF S32 rm * Rabs (A + B) + etaF)%R.
Proof. intros rm. exact (add_s S32 good32 h24 hem hbs rm). Qed.
Lemma bigF : forall x k, k <= 127 -> (Rabs x <= bp k)%R -> (Rabs x < bp (bias S32 + 1))%R.
Proof. intros x k Hk H. apply Rle_lt_trans with (1 := H). apply bpow_lt. change (bias S32) with 127. lia. Qed.
Lemma bound_bigF : forall rm x k, k <= 127 -> (Rabs x <= bp k)%R -> (Rabs (fround S32 rm x) < bp (bias S32 + 1))%R.
Proof.
  intros rm x k Hk H. apply Rle_lt_trans with (bp 127); [|apply bpow_lt; reflexivity].
  assert (G : generic_format radix2 (FLT_exp (emin S32) (prec S32)) (bp 127)) by (apply generic_format_bpow; vm_compute; congruence).
  assert (H' : (Rabs x <= bp 127)%R) by (apply Rle_trans with (1 := H); apply bpow_le; auto). apply Rabs_le_inv in H'.
  apply Rabs_le. split; [apply (fround_ge_gen S32 good32); [apply generic_format_opp; auto|lra]|apply (fround_le_gen S32 good32); [auto|lra]].
Qed.

(** the multiple of pi/8 *)
Lemma near_f : forall rm ct x X, (ct = true -> rm = RNE) -> is_real S32 x X -> (Rabs X < bp 18)%R ->
  exists z, let k := cc_nearest_integer S32 rm ct (f_mul S32 rm x one_over_pi_f) in is_real S32 k (IZR z) /\
    (Rabs (X * (8 / PI) - IZR z) <= / 2 + 4 * bp (-23) + 3.42 * bp (-23) * Rabs X)%R /\ (Rabs (IZR z) <= 2.55 * Rabs X + 0.6)%R /\ f_to_int S32 32 k = Some z.
Proof.
  intros rm ct x X HC HX BX.
  assert (OP : is_real S32 one_over_pi_f (IZR 0xa2f983 * bp (-22))) by (apply litf_r; lia).
  assert (BO : (Rabs (IZR 0xa2f983 * bp (-22) - 8 / PI) <= 0.87 * bp (-23))%R) by (bpn; interval with (i_prec 80)).
  set (o := (IZR 0xa2f983 * bp (-22))%R) in *. assert (Oo : (2.54 <= o <= 2.547)%R) by (unfold o; bpn; lra). clearbody o.
  pose proof (uF24 rm) as U. pose proof etaF_s as ES. pose proof (Rabs_pos X) as AX.
  assert (BP : (Rabs (X * o) <= 2.547 * Rabs X)%R). { rewrite Rabs_mult, (Rabs_pos_eq o) by lra. nra. }
  assert (BP2 : (Rabs (X * o) <= bp 20)%R) by (revert BX; bpn; intros; lra).
  pose proof (mul_r S32 good32 rm _ _ _ _ HX OP (bound_bigF rm _ 20 ltac:(lia) BP2)) as RP.
  pose proof (rel_e S32 good32 h24 rm (X * o)) as EP. change (bp (emin S32)) with etaF in EP.
  set (P := fround S32 rm (X * o)) in *. clearbody P.
  assert (UB : (uF S32 rm * Rabs (X * o) <= bp (-23) * (2.547 * Rabs X))%R) by (apply Rmult_le_compat; try lra; [pose proof (bpow_gt_0 radix2 (-24)); lra|apply Rabs_pos]).
  assert (BPP : (Rabs P < bp 23)%R).
  { replace P with ((P - X * o) + X * o)%R by ring. apply Rle_lt_trans with (1 := Rabs_triang _ _). revert EP BP2 UB ES BX. bpn. intros. lra. }
  destruct (ni_near S32 good32 h24 hem hbs rm ct _ P HC RP BPP) as (z & RZ & BZ).
  change (bp (1 - prec S32)) with (bp (-23)) in BZ. exists z. cbv zeta. split; [exact RZ|].
  assert (BN : (Rabs (X * (8 / PI) - IZR z) <= / 2 + 4 * bp (-23) + 3.42 * bp (-23) * Rabs X)%R).
  { replace (X * (8 / PI) - IZR z)%R with ((P - IZR z) - (P - X * o) - X * (o - 8 / PI))%R by ring.
    pose proof (rm_le _ _ _ _ (Rle_refl (Rabs X)) BO) as EX.
    apply Rle_trans with (1 := Rabs_triang _ _). rewrite Rabs_Ropp. apply Rle_trans with ((Rabs (P - IZR z) + Rabs (P - X * o)) + Rabs (X * (o - 8 / PI)))%R.
    { apply Rplus_le_compat_r. apply Rle_trans with (1 := Rabs_triang _ _). rewrite Rabs_Ropp. lra. }
    revert BZ EP UB EX ES. bpn. intros. lra. }
  split; [exact BN|].
  assert (BZA : (Rabs (IZR z) <= 2.55 * Rabs X + 0.6)%R).
  { replace (IZR z) with (X * (8 / PI) - (X * (8 / PI) - IZR z))%R by ring. apply Rle_trans with (1 := Rabs_triang _ _). rewrite Rabs_Ropp, Rabs_mult.
    assert (P8 : (2.546 <= 8 / PI <= 2.5466)%R) by (split; interval with (i_prec 40)). rewrite (Rabs_pos_eq (8 / PI)) by lra. revert BN. bpn. intros. nra. }
  split; [exact BZA|]. apply (to_int_r S32 good32 h24 _ z RZ). assert (Z.abs z <= 700000); [|lia]. apply le_IZR. rewrite abs_IZR. revert BX. bpn. intros. lra.
Qed.

Lemma mpi_f_r : is_real S32 mpi_f0 (- IZR 0x3243f * bp (-19)) /\ is_real S32 mpi_f1 (- IZR 0xd511 * bp (-36)) /\ is_real S32 mpi_f2 (- IZR 0xb4611a * bp (-64)).
Proof.
  split; [|split].
  - replace (- IZR 0x3243f * bp (-19))%R with (IZR (-0x1921f8) * bp (-22))%R by (bpn; lra). apply litf_r; lia.
  - replace (- IZR 0xd511 * bp (-36))%R with (IZR (-0x1aa22) * bp (-37))%R by (bpn; lra). apply litf_r; lia.
  - replace (- IZR 0xb4611a * bp (-64))%R with (IZR (-0xb4611a) * bp (-64))%R by (bpn; lra). apply litf_r; lia.
Qed.
Lemma pi8_f : (Rabs (PI / 8 - IZR 0x3243f * bp (-19)) <= bp (-20))%R /\ (Rabs (PI / 8 - IZR 0x3243f * bp (-19) - IZR 0xd511 * bp (-36)) <= bp (-40))%R /\
  (Rabs (PI / 8 - IZR 0x3243f * bp (-19) - IZR 0xd511 * bp (-36) - IZR 0xb4611a * bp (-64)) <= bp (-65))%R.
Proof. repeat split; bpn; interval with (i_prec 120). Qed.

Lemma w_of_n : forall X z t, (Rabs (X * (8 / PI) - IZR z) <= t)%R -> (Rabs (X - IZR z * (PI / 8)) <= PI / 8 * t)%R.
Proof.
  intros X z t H. pose proof PI_RGT_0 as HP. replace (X - IZR z * (PI / 8))%R with ((PI / 8) * (X * (8 / PI) - IZR z))%R by (field; lra).
  rewrite Rabs_mult, (Rabs_pos_eq (PI / 8)) by lra. apply Rmult_le_compat_l; lra.
Qed.

Lemma red_f : forall rm ct x X, (ct = true -> rm = RNE) -> is_real S32 x X -> (Rabs X <= 25)%R ->
  exists z y Y, range_reduction_small S32 one_over_pi_f mpi_f0 mpi_f1 mpi_f2 rm ct x = Some (wrap 32 z, y) /\ is_real S32 y Y /\
    (let w := X - IZR z * (PI / 8) in Rabs w <= 0.1964 /\ Rabs (Y - w) <= 2.002 * uF S32 rm * Rabs w + Rabs X * bp (-58))%R.
Proof.
  intros rm ct x X HC HX BX. assert (BX18 : (Rabs X < bp 18)%R) by (bpn; lra).
  destruct (near_f rm ct x X HC HX BX18) as (z & RZ & NZ & AZ & TI). unfold range_reduction_small. rewrite TI. cbv zeta.
  set (k := cc_nearest_integer S32 rm ct (f_mul S32 rm x one_over_pi_f)) in *. clearbody k. clear TI.
  destruct mpi_f_r as (R0 & R1' & R2). destruct pi8_f as (E0 & E1 & E2). pose proof (uF24 rm) as U. pose proof etaF_s as ES. pose proof (Rabs_pos X) as AX.
  assert (PI8 : (3.1415 <= PI <= 3.1416)%R) by (split; interval with (i_prec 40)).
  assert (BW : (Rabs (X - IZR z * (PI / 8)) <= 0.1964)%R). { apply Rle_trans with (1 := w_of_n _ _ _ NZ). revert NZ. bpn. intros. nra. }
  assert (ZI : Z.abs z <= 64). { apply Z.lt_succ_r. apply lt_IZR. rewrite abs_IZR. change (IZR (Z.succ 64)) with 65%R. lra. }
  exists z. destruct (Z.eq_dec z 0) as [->|Z0].
  { eexists _, X. split; [reflexivity|]. split.
    - eapply (z_add S32); [exact good32|exact RZ|exact R2|]. eapply (z_add S32); [exact good32|exact RZ|exact R1'|]. eapply (z_add S32); [exact good32|exact RZ|exact R0|exact HX].
    - replace (X - 0 * (PI / 8))%R with X in * by ring. split; [exact BW|]. rewrite Rminus_eq_0, Rabs_R0. pose proof (bpow_gt_0 radix2 (-24)). apply Rplus_le_le_0_compat; apply Rmult_le_pos; try apply Rabs_pos; [lra|apply bpow_ge_0]. }
  assert (Z1 : (1 <= Rabs (IZR z))%R) by (rewrite <- abs_IZR; apply IZR_le; lia).
  assert (XL : (0.19 <= Rabs X)%R).
  { assert (TR : (Rabs (IZR z * (PI / 8)) <= Rabs X + Rabs (X - IZR z * (PI / 8)))%R).
    { replace (IZR z * (PI / 8))%R with (X - (X - IZR z * (PI / 8)))%R by ring. apply Rle_trans with (1 := Rabs_triang _ _). rewrite Rabs_Ropp. replace (X - (X - (X - IZR z * (PI / 8))))%R with (X - IZR z * (PI / 8))%R by ring. lra. }
    rewrite Rabs_mult, (Rabs_pos_eq (PI / 8)) in TR by lra. nra. }
  assert (XZ : (Rabs (IZR z) <= 5.9 * Rabs X)%R) by lra.
  assert (AZ64 : (Rabs (IZR z) <= 64)%R) by (rewrite <- abs_IZR; apply IZR_le; lia).
  assert (M0 : is_real S32 (f_mul S32 rm k mpi_f0) (IZR (- z * 0x3243f) * bp (-19))).
  { apply (mul_x S32 good32 rm _ _ _ _ _ RZ R0); [rewrite mult_IZR, opp_IZR; ring|apply (fmt_scaled S32); [change (2 ^ prec S32) with 16777216; lia|vm_compute; discriminate]|]. apply bigF with 60; [lia|]. rewrite Rabs_mult, (Rabs_pos_eq (bp (-19))), <- abs_IZR by apply bpow_ge_0.
    assert (IZR (Z.abs (- z * 0x3243f)) <= 16777216)%R by (apply IZR_le; lia). revert H. bpn. intros. lra. }
  assert (M1 : is_real S32 (f_mul S32 rm k mpi_f1) (IZR (- z * 0xd511) * bp (-36))).
  { apply (mul_x S32 good32 rm _ _ _ _ _ RZ R1'); [rewrite mult_IZR, opp_IZR; ring|apply (fmt_scaled S32); [change (2 ^ prec S32) with 16777216; lia|vm_compute; discriminate]|]. apply bigF with 60; [lia|]. rewrite Rabs_mult, (Rabs_pos_eq (bp (-36))), <- abs_IZR by apply bpow_ge_0.
    assert (IZR (Z.abs (- z * 0xd511)) <= 16777216)%R by (apply IZR_le; lia). revert H. bpn. intros. lra. }
  destruct (multF S32 X (-3) (real_fmt S32 good32 _ _ HX) ltac:(vm_compute; discriminate)) as (n & EN); [bpn; lra|]. change (-3 - prec S32 + 1) with (-26) in EN.
  set (Yh := (IZR (- z * 0x3243f) * bp (-19) + X)%R).
  assert (EYh : Yh = (IZR (- z * 0x3243f * 2 ^ 7 + n) * bp (-26))%R).
  { unfold Yh. rewrite EN, plus_IZR, (mult_IZR _ (2 ^ 7)), Rmult_plus_distr_r. f_equal. bpn. lra. }
  assert (DYh : Yh = ((X - IZR z * (PI / 8)) + IZR z * (PI / 8 - IZR 0x3243f * bp (-19)))%R) by (unfold Yh; rewrite mult_IZR, opp_IZR; ring).
  assert (BYh : (Rabs Yh <= 0.2)%R).
  { rewrite DYh. apply Rle_trans with (1 := Rabs_triang _ _). pose proof (rm_le _ _ _ _ AZ64 E0) as H. revert H. bpn. intros. lra. }
  assert (RYh : is_real S32 (f_add S32 rm (f_mul S32 rm k mpi_f0) x) Yh).
  { apply (add_x S32 good32 rm _ _ _ _ Yh M0 HX eq_refl); [rewrite EYh; apply (gfxF S32 h24 (- z * 0x3243f * 2 ^ 7 + n) (-26)); [vm_compute; discriminate|rewrite <- EYh; change (-26 + prec S32) with (-2); bpn; lra]|]. apply bigF with 1; [lia|bpn; lra]. }
  clear EYh.
  set (B := (IZR (- z * 0xd511) * bp (-36) + Yh)%R). set (w := (X - IZR z * (PI / 8))%R) in *.
  assert (DB : (B = w + IZR z * (PI / 8 - IZR 0x3243f * bp (-19) - IZR 0xd511 * bp (-36)))%R) by (unfold B; rewrite DYh, mult_IZR, opp_IZR; ring).
  set (zz := (Rabs (IZR z) * bp (-40))%R).
  assert (ZB : (Rabs (B - w) <= zz)%R). { rewrite DB. match goal with |- (Rabs ?e <= _)%R => replace e with (IZR z * (PI / 8 - IZR 0x3243f * bp (-19) - IZR 0xd511 * bp (-36)))%R by ring end. apply rm_le; [lra|exact E1]. }
  assert (ZB' : (0 <= zz <= bp (-34))%R). { unfold zz. split; [apply Rmult_le_pos; [apply Rabs_pos|apply bpow_ge_0]|]. apply Rle_trans with (64 * bp (-40))%R; [apply Rmult_le_compat_r; [apply bpow_ge_0|auto]|bpn; lra]. }
  assert (BB : (Rabs B <= Rabs w + zz)%R). { replace B with (w + (B - w))%R by ring. apply Rle_trans with (1 := Rabs_triang _ _). lra. }
  destruct (addF rm _ _ _ _ M1 RYh) as (U1 & RU1 & EU1). { fold B. revert BB BW ZB'. bpn. intros. lra. }
  fold B in EU1. set (m2 := (- IZR 0xb4611a * bp (-64))%R) in *.
  assert (BM2 : (Rabs m2 <= bp (-40))%R) by (unfold m2; bpn; apply Rabs_le; lra).
  assert (BZM : (Rabs (IZR z * m2) <= zz)%R) by (apply rm_le; [lra|exact BM2]).
  destruct (mulF rm _ _ _ _ RZ R2) as (P2 & RP2 & EP2). { fold m2. revert BZM ZB'. bpn. intros. lra. }
  fold m2 in EP2. pose proof (bpow_gt_0 radix2 (-24)) as B24.
  assert (UZ : (uF S32 rm * Rabs (IZR z * m2) <= uF S32 rm * zz)%R) by (apply Rmult_le_compat_l; lra).
  assert (UBB : (uF S32 rm * Rabs B <= uF S32 rm * Rabs w + uF S32 rm * zz)%R) by (rewrite <- Rmult_plus_distr_l; apply Rmult_le_compat_l; lra).
  set (uz := (uF S32 rm * zz)%R) in *.
  assert (HUZ : (0 <= uz <= bp (-23) * zz)%R) by (unfold uz; split; [apply Rmult_le_pos; lra|apply Rmult_le_compat_r; lra]).
  set (uw := (uF S32 rm * Rabs w)%R) in *. pose proof (Rabs_pos w) as AW. assert (HUW : (0 <= uw <= bp (-23) * 0.2)%R). { unfold uw; split; [apply Rmult_le_pos; lra|]. apply Rmult_le_compat; try lra. }
  assert (DS : (Rabs (P2 + U1 - w) <= uw + 2 * uz + 2 * etaF + Rabs (IZR z) * bp (-65))%R).
  { replace (P2 + U1 - w)%R with ((P2 - IZR z * m2) + (U1 - B) + IZR z * (PI / 8 - IZR 0x3243f * bp (-19) - IZR 0xd511 * bp (-36) - IZR 0xb4611a * bp (-64)))%R by (rewrite DB; unfold m2; ring).
    apply Rle_trans with (1 := Rabs_triang _ _). pose proof (rm_le _ _ _ _ (Rle_refl (Rabs (IZR z))) E2) as H.
    pose proof (Rabs_triang (P2 - IZR z * m2) (U1 - B)). lra. }
  assert (E65 : (Rabs (IZR z) * bp (-65) = bp (-25) * zz)%R) by (unfold zz; change (bp (-65)) with (bp (-25 + -40)); rewrite bpow_plus; ring). rewrite E65 in DS.
  assert (BS : (Rabs (P2 + U1) <= Rabs w + (uw + 2 * uz + 2 * etaF + bp (-25) * zz))%R). { replace (P2 + U1)%R with ((P2 + U1 - w) + w)%R by ring. apply Rle_trans with (1 := Rabs_triang _ _). lra. }
  destruct (addF rm _ _ _ _ RP2 RU1) as (Y & RY & EY). { revert BS HUZ HUW ES BW ZB'. bpn. intros. lra. }
  eexists _, Y. split; [reflexivity|]. split; [exact RY|]. cbv zeta. split; [exact BW|].
  assert (BU : (uF S32 rm * Rabs (P2 + U1) <= uw + bp (-23) * (uw + 2 * uz + 2 * etaF + bp (-25) * zz))%R).
  { apply Rle_trans with (uF S32 rm * (Rabs w + (uw + 2 * uz + 2 * etaF + bp (-25) * zz)))%R; [apply Rmult_le_compat_l; lra|]. rewrite Rmult_plus_distr_l. apply Rplus_le_compat; [unfold uw; lra|]. apply Rmult_le_compat_r; [|lra].
    pose proof (bpow_gt_0 radix2 (-25)). nra. }
  replace (Y - w)%R with ((Y - (P2 + U1)) + (P2 + U1 - w))%R by ring. apply Rle_trans with (1 := Rabs_triang _ _).
  assert (EZX : (zz <= 5.9 * bp (-40) * Rabs X)%R) by (unfold zz; rewrite (Rmult_comm 5.9), Rmult_assoc, Rmult_comm; apply Rmult_le_compat_l; [apply bpow_ge_0|lra]).
  assert (ETX : (etaF <= bp (-137) * Rabs X)%R). { apply Rle_trans with (bp (-137) * bp (-3))%R; [rewrite <- bpow_plus; apply Rle_trans with (1 := proj2 ES); apply bpow_le; lia|apply Rmult_le_compat_l; [apply bpow_ge_0|bpn; lra]]. }
  replace (2.002 * uF S32 rm * Rabs w)%R with (2.002 * uw)%R by (unfold uw; ring).
  revert EY BU DS HUZ HUW EZX ETX ES. bpn. intros. lra.
Qed.

Lemma red_f_mid : forall rm ct x X, (ct = true -> rm = RNE) -> is_real S32 x X -> (25 <= Rabs X < bp 18)%R ->
  exists z y Y, range_reduction_small S32 one_over_pi_f mpi_f0 mpi_f1 mpi_f2 rm ct x = Some (wrap 32 z, y) /\ is_real S32 y Y /\
    (let w := X - IZR z * (PI / 8) in Rabs Y <= 0.27 /\ Rabs (Y - w) <= uF S32 rm * (Rabs X + 4))%R.
Proof.
  intros rm ct x X HC HX (BX1 & BX18).
  destruct (near_f rm ct x X HC HX BX18) as (z & RZ & NZ & AZ & TI). unfold range_reduction_small. rewrite TI. cbv zeta.
  set (k := cc_nearest_integer S32 rm ct (f_mul S32 rm x one_over_pi_f)) in *. clearbody k. clear TI.
  destruct mpi_f_r as (R0 & R1' & R2). destruct pi8_f as (E0 & E1 & E2). pose proof (uF24 rm) as U. pose proof etaF_s as ES. pose proof (Rabs_pos X) as AX.
  pose proof (bpow_gt_0 radix2 (-24)) as B24.
  assert (PI8 : (3.1415 <= PI <= 3.1416)%R) by (split; interval with (i_prec 40)).
  set (w := (X - IZR z * (PI / 8))%R).
  assert (BW : (Rabs w <= 0.2384)%R).
  { apply Rle_trans with (1 := w_of_n _ _ _ NZ). assert (T : (/ 2 + 4 * bp (-23) + 3.42 * bp (-23) * Rabs X <= 0.60688)%R) by (revert BX18; bpn; intros; lra).
    apply Rle_trans with (PI / 8 * 0.60688)%R; [apply Rmult_le_compat_l; lra|lra]. }
  set (m0 := (- IZR 0x3243f * bp (-19))%R) in *. set (m1 := (- IZR 0xd511 * bp (-36))%R) in *. set (m2 := (- IZR 0xb4611a * bp (-64))%R) in *.
  assert (Hm0 : (-0.3927 <= m0 <= -0.3926)%R) by (unfold m0; bpn; lra).
  assert (Hm1 : (Rabs m1 <= bp (-20))%R) by (unfold m1; bpn; apply Rabs_le; lra).
  assert (Hm2 : (Rabs m2 <= bp (-40))%R) by (unfold m2; bpn; apply Rabs_le; lra).
  assert (F0 : (PI / 8 = - m0 + (PI / 8 - IZR 0x3243f * bp (-19)))%R) by (unfold m0; ring).
  assert (F2 : (Rabs (PI / 8 + m0 + m1 + m2) <= bp (-65))%R). { replace (PI / 8 + m0 + m1 + m2)%R with (PI / 8 - IZR 0x3243f * bp (-19) - IZR 0xd511 * bp (-36) - IZR 0xb4611a * bp (-64))%R by (unfold m0, m1, m2; ring). exact E2. }
  assert (F1 : (Rabs (PI / 8 + m0) <= bp (-20))%R). { replace (PI / 8 + m0)%R with (PI / 8 - IZR 0x3243f * bp (-19))%R by (unfold m0; ring). exact E0. }
  clearbody m0 m1 m2. clear F0 E0 E1 E2.
  assert (AZ2 : (Rabs (IZR z) <= bp 20)%R) by (revert AZ BX18; bpn; intros; lra).
  assert (BZ0 : (Rabs (IZR z * m0) <= Rabs X + 1)%R).
  { replace (IZR z * m0)%R with (- X + (w + IZR z * (PI / 8 + m0)))%R by (unfold w; ring). apply Rle_trans with (1 := Rabs_triang _ _). rewrite Rabs_Ropp. pose proof (Rabs_triang w (IZR z * (PI / 8 + m0))).
    assert (RR : (Rabs (IZR z * (PI / 8 + m0)) <= (2.55 * Rabs X + 0.6) * bp (-20))%R) by (apply rm_le; [exact AZ|exact F1]). revert RR BX18. bpn. intros. lra. }
  assert (BZ0' : (Rabs (IZR z * m0) <= bp 19)%R) by (revert BZ0 BX18; bpn; intros; lra).
  pose proof (mul_r S32 good32 rm _ _ _ _ RZ R0 (bound_bigF rm _ 19 ltac:(lia) BZ0')) as RM0.
  pose proof (rel_e S32 good32 h24 rm (IZR z * m0)) as EM0. change (bp (emin S32)) with etaF in EM0. set (M0 := fround S32 rm (IZR z * m0)) in *. clearbody M0.
  assert (BZ1 : (Rabs (IZR z * m1) <= (2.55 * Rabs X + 0.6) * bp (-20))%R) by (apply rm_le; [exact AZ|exact Hm1]).
  assert (BZ1' : (Rabs (IZR z * m1) <= 0.64)%R) by (revert BZ1 BX18; bpn; intros; lra).
  assert (BZ2 : (Rabs (IZR z * m2) <= bp 20 * bp (-40))%R) by (apply rm_le; [exact AZ2|exact Hm2]). rewrite <- bpow_plus in BZ2. change (20 + -40) with (-20) in BZ2.
  assert (BZ3 : (Rabs (IZR z * (PI / 8 + m0 + m1 + m2)) <= bp 20 * bp (-65))%R) by (apply rm_le; [exact AZ2|exact F2]). rewrite <- bpow_plus in BZ3. change (20 + -65) with (-45) in BZ3.
  set (u := uF S32 rm) in *.
  assert (UX : (u * (Rabs X + 1) <= 0.0313)%R). { apply Rle_trans with (bp (-23) * (Rabs X + 1))%R; [apply Rmult_le_compat_r; lra|]. revert BX18. bpn. intros. lra. }
  assert (UM0 : (u * Rabs (IZR z * m0) <= u * (Rabs X + 1))%R) by (apply Rmult_le_compat_l; lra).
  assert (U1 : (u <= 0.0000002)%R) by (revert U; bpn; intros; lra). assert (U0 : (0 < u)%R) by lra.
  assert (BYh : (Rabs (M0 + X) <= 0.95)%R).
  { replace (M0 + X)%R with ((M0 - IZR z * m0) + w + IZR z * (PI / 8 + m0))%R by (unfold w; ring).
    assert (RR : (Rabs (IZR z * (PI / 8 + m0)) <= (2.55 * Rabs X + 0.6) * bp (-20))%R) by (apply rm_le; [exact AZ|exact F1]).
    pose proof (Rabs_triang ((M0 - IZR z * m0) + w) (IZR z * (PI / 8 + m0))). pose proof (Rabs_triang (M0 - IZR z * m0) w). revert RR BX18 ES. bpn. intros. lra. }
  destruct (addF rm _ _ _ _ RM0 HX) as (Yh & RYh & EYh); [lra|].
  destruct (mulF rm _ _ _ _ RZ R1') as (M1 & RM1 & EM1); [lra|].
  destruct (mulF rm _ _ _ _ RZ R2) as (M2 & RM2 & EM2). { revert BZ2. bpn. intros. lra. }
  fold u in EYh, EM1, EM2. assert (ES2 : (0 < etaF <= 0.001 * u)%R). { split; [lra|]. apply Rle_trans with (0.001 * bp (-24))%R; [revert ES; bpn; intros; lra|lra]. }
  assert (V1 : (u * Rabs (M0 + X) <= 0.95 * u)%R) by (rewrite (Rmult_comm 0.95); apply Rmult_le_compat_l; lra).
  assert (V2 : (u * Rabs (IZR z * m1) <= 0.64 * u)%R) by (rewrite (Rmult_comm 0.64); apply Rmult_le_compat_l; lra).
  assert (V3 : (u * Rabs (IZR z * m2) <= 0.001 * u)%R) by (rewrite (Rmult_comm 0.001); apply Rmult_le_compat_l; [lra|]; revert BZ2; bpn; intros; lra).
  assert (D2 : (Rabs (M1 + Yh - (w - IZR z * m2 + IZR z * (PI / 8 + m0 + m1 + m2))) <= u * (Rabs X + 1) + 1.6 * u)%R).
  { match goal with |- (Rabs ?e <= _)%R => replace e with ((M1 - IZR z * m1) + (Yh - (M0 + X)) + (M0 - IZR z * m0))%R by (unfold w; ring) end.
    pose proof (Rabs_triang ((M1 - IZR z * m1) + (Yh - (M0 + X))) (M0 - IZR z * m0)). pose proof (Rabs_triang (M1 - IZR z * m1) (Yh - (M0 + X))). lra. }
  assert (B2 : (Rabs (M1 + Yh) <= 0.27)%R).
  { replace (M1 + Yh)%R with ((M1 + Yh - (w - IZR z * m2 + IZR z * (PI / 8 + m0 + m1 + m2))) + w + (- (IZR z * m2)) + IZR z * (PI / 8 + m0 + m1 + m2))%R by ring.
    set (e := (M1 + Yh - (w - IZR z * m2 + IZR z * (PI / 8 + m0 + m1 + m2)))%R) in *. pose proof (Rabs_triang (e + w + - (IZR z * m2)) (IZR z * (PI / 8 + m0 + m1 + m2))). pose proof (Rabs_triang (e + w) (- (IZR z * m2))). pose proof (Rabs_triang e w). rewrite (Rabs_Ropp (IZR z * m2)) in *.
    revert BZ2 BZ3. bpn. intros. lra. }
  destruct (addF rm _ _ _ _ RM1 RYh) as (Y1 & RY1 & EY1); [lra|]. fold u in EY1.
  assert (V4 : (u * Rabs (M1 + Yh) <= 0.27 * u)%R) by (rewrite (Rmult_comm 0.27); apply Rmult_le_compat_l; lra).
  assert (D3 : (Rabs (M2 + Y1 - w) <= u * (Rabs X + 1) + 1.6 * u + 0.3 * u)%R).
  { replace (M2 + Y1 - w)%R with ((M2 - IZR z * m2) + (Y1 - (M1 + Yh)) + (M1 + Yh - (w - IZR z * m2 + IZR z * (PI / 8 + m0 + m1 + m2))) + IZR z * (PI / 8 + m0 + m1 + m2))%R by ring.
    set (e := (M1 + Yh - (w - IZR z * m2 + IZR z * (PI / 8 + m0 + m1 + m2)))%R) in *. pose proof (Rabs_triang ((M2 - IZR z * m2) + (Y1 - (M1 + Yh)) + e) (IZR z * (PI / 8 + m0 + m1 + m2))). pose proof (Rabs_triang ((M2 - IZR z * m2) + (Y1 - (M1 + Yh))) e). pose proof (Rabs_triang (M2 - IZR z * m2) (Y1 - (M1 + Yh))).
    assert (bp (-45) <= 0.001 * u)%R. { apply Rle_trans with (0.001 * bp (-24))%R; [bpn; lra|lra]. } lra. }
  assert (B3 : (Rabs (M2 + Y1) <= 0.2699)%R). { replace (M2 + Y1)%R with ((M2 + Y1 - w) + w)%R by ring. pose proof (Rabs_triang (M2 + Y1 - w) w). lra. }
  destruct (addF rm _ _ _ _ RM2 RY1) as (Y & RY & EY); [lra|]. fold u in EY.
  assert (V5 : (u * Rabs (M2 + Y1) <= 0.27 * u)%R) by (rewrite (Rmult_comm 0.27); apply Rmult_le_compat_l; lra).
  assert (UE : (u * (Rabs X + 4) = u * (Rabs X + 1) + 3 * u)%R) by ring.
  exists z. eexists _, Y. split; [reflexivity|]. split; [exact RY|]. cbv zeta. fold w. split.
  - replace Y with ((Y - (M2 + Y1)) + (M2 + Y1))%R by ring. pose proof (Rabs_triang (Y - (M2 + Y1)) (M2 + Y1)). lra.
  - rewrite UE. replace (Y - w)%R with ((Y - (M2 + Y1)) + (M2 + Y1 - w))%R by ring. pose proof (Rabs_triang (Y - (M2 + Y1)) (M2 + Y1 - w)). lra.
Qed.
