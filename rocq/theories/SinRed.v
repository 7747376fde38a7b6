(** * The range reduction of sin and cos for small arguments *)
From Coq Require Import ZArith Lia List Bool Reals Lra.
From Flocq Require Import Core Mult_error.
From Interval Require Import Tactic.
From Verif Require Import MachInt Fmt FloatSpec FmtProofs RoundProofs FOps FOpsProofs ExactOps ExtFloatSpec ExtFloatProofs ExtInterp FmanipWide RemProofs ErrLib Exp2fProofs ExpoFWrap LogDRed Expm1Proofs Expm1Wrap HypotProofs ExpoData Nearest NearestInt Trig PhInt PhReal PhFin.
Import ListNotations.
Open Scope Z_scope.
Notation bp := (bpow radix2).

Section NI.
Context (F : fmt) (HF : good_fmt F) (H24 : 24 <= prec F) (Hem : emin F <= - 2 * prec F) (Hb : 4 <= bias F) (rm : rmode).

Lemma correct_near : forall x r z, is_pattern F x -> is_fin F x = true -> is_pattern F r -> is_fin F r = true -> fval F r = IZR z ->
  Z.abs z <= 2 ^ prec F -> (Rabs (fval F x - IZR z) <= 1)%R -> (Rabs (fval F x) < bp (prec F))%R ->
  exists z', 
  let res := (let diff := f_sub F rm x r in
      if f_gt F diff (f_pow2 F false (-1)) then f_add F rm r (f_one F false)
      else if f_lt F diff (f_pow2 F true (-1)) then f_sub F rm r (f_one F false)
      else r) in
  is_pattern F res /\ is_fin F res = true /\ fval F res = IZR z' /\ (Rabs (fval F x - IZR z') <= / 2 + 2 * bp (1 - prec F))%R.
Proof.
  intros x r z Px Fx Pr Fr Vr Bz Bd Bx. pose proof (gf_bias F HF). pose proof (gf_fl F HF). pose proof (bpow_gt_0 radix2 (1 - prec F)) as BG.
  destruct (f_pow2_props F HF false (-1) ltac:(lia)) as (P1 & F1 & S1 & V1 & _).
  destruct (f_pow2_props F HF true (-1) ltac:(lia)) as (P2 & F2 & S2 & V2 & _).
  destruct (f_one_props F HF false) as (P3 & F3 & S3 & V3 & _).
  change (bpow radix2 (-1)) with (/ 2)%R in *. unfold sg in V1, V2, V3. rewrite Rmult_1_l in V1. change 1%R with (IZR 1) in V3.
  replace (-1 * / 2)%R with (- / 2)%R in V2 by ring.
  set (v := fval F x) in *. rewrite bpow_IZR in Bx by (unfold prec; lia).
  destruct (f_sub_spec F HF rm x r Pr Fx Fr) as (Pd & _ & Vd & _). fold v in Vd. rewrite Vr in Vd.
  pose proof (fround_half F HF rm (v - IZR z)) as (H1 & H2 & H3 & H4).
  destruct Vd as (Fd & Vd). { apply (small_big F HF H24 Hem Hb). lra. }
  assert (HE : (Rabs (fround F rm (v - IZR z) - (v - IZR z)) <= 2 * bp (1 - prec F))%R).
  { apply Rle_trans with (1 := rel_e F HF H24 rm _). assert (EE : (bp (emin F) <= bp (1 - prec F))%R) by (apply bpow_le; lia).
    assert (UU : (uF F rm <= bp (1 - prec F))%R) by (destruct rm; cbn [uF]; apply bpow_le; lia). pose proof (Rabs_pos (v - IZR z)).
    assert (uF F rm * Rabs (v - IZR z) <= bp (1 - prec F) * 1)%R by (apply Rmult_le_compat; auto; destruct rm; apply bpow_ge_0). lra. }
  apply Rabs_def2 in Bx. assert (Bd' := Bd). apply Rabs_le_inv in Bd'. apply Rabs_le_inv in HE.
  cbv zeta. rewrite (f_gt_fin F HF), V1, Vd, (f_lt_fin F HF), V2, Vd by auto.
  destruct (Rlt_bool_spec (/ 2) (fround F rm (v - IZR z))) as [C|C].
  - destruct (Rle_or_lt (v - IZR z) (/ 2)) as [D|D]; [specialize (H1 D); lra|].
    destruct (add_int F HF rm r (f_one F false) z 1 Fr F3 Vr V3) as (A1 & A2 & A3).
    { assert (z < 2 ^ prec F) by (apply lt_IZR; lra). assert (- 2 ^ prec F <= z) by lia. lia. }
    exists (z + 1). split; auto. split; auto. split; auto. rewrite plus_IZR. apply Rabs_le; lra.
  - destruct (Rlt_bool_spec (fround F rm (v - IZR z)) (- / 2)) as [E|E].
    + destruct (Rle_or_lt (- / 2) (v - IZR z)) as [D|D]; [specialize (H3 D); lra|].
      destruct (sub_int F HF rm r (f_one F false) z 1 P3 Fr F3 Vr V3) as (A1 & A2 & A3).
      { assert (- 2 ^ prec F < z) by (apply lt_IZR; rewrite opp_IZR; lra). lia. }
      exists (z - 1). split; auto. split; auto. split; auto. rewrite minus_IZR. apply Rabs_le; lra.
    + exists z. split; auto. split; auto. split; auto. apply Rabs_le; lra.
Qed.

Lemma ni_near : forall ct p P, (ct = true -> rm = RNE) -> is_real F p P -> (Rabs P < bp (fl F))%R ->
  exists z, is_real F (cc_nearest_integer F rm ct p) (IZR z) /\ (Rabs (P - IZR z) <= / 2 + 2 * bp (1 - prec F))%R.
Proof.
  intros ct p P HC (PP & PF & <-) HB. pose proof (bpow_gt_0 radix2 (1 - prec F)) as BG.
  destruct ct.
  - destruct (ni_rne F HF rm (HC eq_refl) true p PP PF HB) as (A1 & A2 & A3). exists (ZnearestE (fval F p)). split; [split; [exact A1|split; [exact A2|exact A3]]|].
    pose proof (Znearest_half (fun x => negb (Z.even x)) (fval F p)). lra.
  - assert (Sx : small F p). { split; auto. apply Rlt_trans with (1 := HB). apply bpow_lt. unfold prec. lia. }
    rewrite (ni_small F HF rm false p Sx). destruct (shifter_near F HF rm p PP Sx) as (z & A1 & A2 & A3 & A4 & A5 & _).
    destruct (correct_near p (shifter F rm p) z PP PF A1 A2 A3 A4 A5 (proj2 Sx)) as (z' & B1 & B2 & B3 & B4). exists z'. split; [split; [exact B1|split; [exact B2|exact B3]]|exact B4].
Qed.

Lemma to_int_r : forall b z, is_real F b (IZR z) -> - 2 ^ 31 <= z < 2 ^ 31 -> f_to_int F 32 b = Some z.
Proof.
  intros b z (PB & FB & VB) Hz. unfold f_to_int. unfold fval in VB.
  destruct (decode_fin F HF b FB) as (m & e & ED & M0 & _). rewrite ED in *. cbn [dval] in VB.
  set (s := sign_of F b) in *.
  assert (EZ : szval s (if 0 <=? e then m * 2 ^ e else m / 2 ^ (- e)) = z).
  { destruct (Z.leb_spec 0 e) as [E0|E0].
    - apply eq_IZR. rewrite <- VB. rewrite (bpZ e E0). destruct s; cbn [szval]; rewrite ?opp_IZR, mult_IZR; ring.
    - assert (EM : szval s m = z * 2 ^ (- e)).
      { apply eq_IZR. rewrite mult_IZR, <- VB, <- (bpZ (- e)) by lia. rewrite Rmult_assoc, <- bpow_plus. replace (e + - e) with 0 by lia. change (bp 0) with 1%R. destruct s; cbn [szval]; rewrite ?opp_IZR; ring. }
      assert (P2 : 0 < 2 ^ (- e)) by (apply Z.pow_pos_nonneg; lia).
      destruct s; cbn [szval] in *; [replace m with ((- z) * 2 ^ (- e)) by lia|rewrite EM]; rewrite Z.div_mul; lia. }
  rewrite EZ. unfold sarith. destruct (inSb 32 z) eqn:EI; [reflexivity|]. exfalso. assert (TT : inSb 32 z = true) by (apply inSb_spec; unfold inS; change (32 - 1) with 31; lia). congruence.
Qed.
End NI.

Lemma rz0 : forall rm b b' c B, is_real D b 0 -> is_real D b' B -> is_real D c 0 -> is_real D (f_add D rm (f_mul D rm b b') c) 0.
Proof.
  intros rm b b' c B Hb Hb' Hc. apply (add_x D good64 rm _ _ 0 0 0); auto; [|lra|apply generic_format_0|rewrite Rabs_R0; apply bpow_gt_0].
  apply (mul_x D good64 rm _ _ 0 B 0); auto; [ring|apply generic_format_0|rewrite Rabs_R0; apply bpow_gt_0].
Qed.
Lemma z_add : forall F rm b b' c B C, good_fmt F -> is_real F b 0 -> is_real F b' B -> is_real F c C -> is_real F (f_add F rm (f_mul F rm b b') c) C.
Proof.
  intros F rm b b' c B C HF Hb Hb' Hc. apply (add_x F HF rm _ _ 0 C C); auto; [|lra|exact (real_fmt F HF _ _ Hc)|exact (real_bound F HF _ _ Hc)].
  apply (mul_x F HF rm _ _ 0 B 0); auto; [ring|apply generic_format_0|rewrite Rabs_R0; apply bpow_gt_0].
Qed.

Lemma red_d : forall rm ct x X, (ct = true -> rm = RNE) -> is_real D x X -> (Rabs X <= bp 20)%R ->
  exists z y Y, range_reduction_small D one_over_pi_d mpi_d0 mpi_d1 mpi_d2 rm ct x = Some (wrap 32 z, y) /\ is_real D y Y /\
    (let w := X - IZR z * (PI / 8) in Rabs w <= PI / 16 + bp (-28) /\ Rabs (Y - w) <= 2.002 * uF D rm * Rabs w + Rabs X * bp (-114))%R.
Proof.
  intros rm ct x X HC HX BX. unfold range_reduction_small.
  assert (OP : is_real D one_over_pi_d (IZR 0x145f306dc9c883 * bp (-51))) by (apply (lit_r false); lia).
  assert (R0 : is_real D mpi_d0 (IZR (-0x1921fb544) * bp (-34))) by (apply (lit_r false); lia).
  assert (R1' : is_real D mpi_d1 (IZR (-0x10b4611a8) * bp (-68))) by (apply (lit_r false); lia).
  assert (R2 : is_real D mpi_d2 (IZR 0x1d9cceba3f91f2 * bp (-120))) by (apply (lit_r false); lia).
  assert (BO : (Rabs (IZR 0x145f306dc9c883 * bp (-51) - 8 / PI) <= bp (-53) * 4)%R) by (bpn; interval with (i_prec 80)).
  set (o := (IZR 0x145f306dc9c883 * bp (-51))%R) in *. assert (Oo : (2.54 <= o <= 2.55)%R) by (unfold o; bpn; lra). clearbody o.
  pose proof (uD2 rm) as U. pose proof eta_s as ES. assert (PI8 : (3.1415 <= PI <= 3.1416)%R) by (split; interval with (i_prec 40)).
  pose proof (Rabs_pos X) as AX.
  assert (BP : (Rabs (X * o) <= bp 22)%R). { rewrite Rabs_mult, (Rabs_pos_eq o) by lra. bpn. bpn_in BX. nra. }
  pose proof (mul_r D good64 rm _ _ _ _ HX OP (bound_big rm _ 22 ltac:(lia) BP)) as RP.
  pose proof (rel_e D good64 ltac:(vm_compute; discriminate) rm (X * o)) as EP. change (bp (emin D)) with etaD in EP.
  set (P := fround D rm (X * o)) in *. clearbody P.
  assert (UB : (uF D rm * Rabs (X * o) <= bp (-52) * bp 22)%R) by (apply Rmult_le_compat; auto; [lra|apply Rabs_pos|lra]). rewrite <- bpow_plus in UB. change (-52 + 22) with (-30) in UB.
  assert (BPP : (Rabs P < bp 52)%R).
  { replace P with ((P - X * o) + X * o)%R by ring. apply Rle_lt_trans with (1 := Rabs_triang _ _). revert EP BP UB ES. bpn. intros. lra. }
  destruct (ni_near D good64 ltac:(vm_compute; discriminate) ltac:(vm_compute; discriminate) ltac:(vm_compute; discriminate) rm ct _ P HC RP BPP) as (z & RZ & BZ).
  change (bp (1 - prec D)) with (bp (-52)) in BZ.
  set (k := cc_nearest_integer D rm ct (f_mul D rm x one_over_pi_d)) in *. clearbody k.
  assert (NZ : (Rabs (X * (8 / PI) - IZR z) <= / 2 + bp (-28))%R).
  { replace (X * (8 / PI) - IZR z)%R with ((P - IZR z) - (P - X * o) - X * (o - 8 / PI))%R by ring.
    assert (EX : (Rabs (X * (o - 8 / PI)) <= bp 20 * (bp (-53) * 4))%R) by (rewrite Rabs_mult; apply Rmult_le_compat; auto; apply Rabs_pos).
    apply Rle_trans with (1 := Rabs_triang _ _). rewrite Rabs_Ropp. apply Rle_trans with ((Rabs (P - IZR z) + Rabs (P - X * o)) + Rabs (X * (o - 8 / PI)))%R.
    { apply Rplus_le_compat_r. apply Rle_trans with (1 := Rabs_triang _ _). rewrite Rabs_Ropp. lra. }
    revert BZ EP UB EX ES. bpn. intros. lra. }
  assert (BW : (Rabs (X - IZR z * (PI / 8)) <= PI / 16 + bp (-28))%R).
  { replace (X - IZR z * (PI / 8))%R with ((PI / 8) * (X * (8 / PI) - IZR z))%R by (field; lra). rewrite Rabs_mult, (Rabs_pos_eq (PI / 8)) by lra.
    apply Rle_trans with (PI / 8 * (/ 2 + bp (-28)))%R; [apply Rmult_le_compat_l; lra|]. pose proof (bpow_gt_0 radix2 (-28)). nra. }
  assert (AZ : (Rabs (IZR z) <= 2730000)%R).
  { replace (IZR z) with (P - (P - IZR z))%R by ring. apply Rle_trans with (1 := Rabs_triang _ _). rewrite Rabs_Ropp.
    assert (AP : (Rabs P <= 2.6 * bp 20)%R). { replace P with ((P - X * o) + X * o)%R by ring. apply Rle_trans with (1 := Rabs_triang _ _). rewrite (Rabs_mult X o), (Rabs_pos_eq o) by lra. rewrite (Rabs_mult X o), (Rabs_pos_eq o) in EP, UB by lra.
      assert (Rabs X * o <= bp 20 * 2.55)%R by (apply Rmult_le_compat; lra). revert H EP UB ES. bpn. intros. lra. }
    revert AP BZ. bpn. intros. lra. }
  assert (ZI : Z.abs z <= 2730000) by (apply le_IZR; rewrite abs_IZR; exact AZ).
  rewrite (to_int_r D good64 ltac:(vm_compute; discriminate) k z RZ) by lia. cbv zeta.
  exists z. destruct (Z.eq_dec z 0) as [->|Z0].
  { eexists _, X. split; [reflexivity|]. split.
    - eapply (z_add D); [exact good64|exact RZ|exact R2|]. eapply (z_add D); [exact good64|exact RZ|exact R1'|]. eapply (z_add D); [exact good64|exact RZ|exact R0|exact HX].
    - replace (X - 0 * (PI / 8))%R with X by ring. split; [replace X with (X - 0 * (PI / 8))%R at 1 by ring; exact BW|]. rewrite Rminus_eq_0, Rabs_R0. apply Rplus_le_le_0_compat; apply Rmult_le_pos; try apply Rabs_pos; [lra|apply bpow_ge_0]. }
  assert (Z1 : (1 <= Rabs (IZR z))%R) by (rewrite <- abs_IZR; apply IZR_le; lia).
  assert (XL : (0.19 <= Rabs X)%R).
  { assert (TR : (Rabs (IZR z * (PI / 8)) <= Rabs X + Rabs (X - IZR z * (PI / 8)))%R).
    { replace (IZR z * (PI / 8))%R with (X - (X - IZR z * (PI / 8)))%R by ring. apply Rle_trans with (1 := Rabs_triang _ _). rewrite Rabs_Ropp. replace (X - (X - (X - IZR z * (PI / 8))))%R with (X - IZR z * (PI / 8))%R by ring. lra. }
    rewrite Rabs_mult, (Rabs_pos_eq (PI / 8)) in TR by lra. revert TR BW. bpn. intros. nra. }
  assert (XZ : (Rabs (IZR z) <= 5.4 * Rabs X)%R).
  { replace (IZR z) with (X * (8 / PI) - (X * (8 / PI) - IZR z))%R by ring. apply Rle_trans with (1 := Rabs_triang _ _). rewrite Rabs_Ropp, Rabs_mult.
    assert (P8 : (2.54 <= 8 / PI <= 2.55)%R) by (split; interval with (i_prec 40)). rewrite (Rabs_pos_eq (8 / PI)) by lra. revert NZ. bpn. intros. nra. }
  set (m0 := (IZR 0x1921fb544 * bp (-34))%R) in *.
  (* k mpi0 is exact *)
  assert (M0 : is_real D (f_mul D rm k mpi_d0) (IZR (- z * 0x6487ed51) * bp (-32))).
  { apply (mul_x D good64 rm _ _ _ _ _ RZ R0); [rewrite mult_IZR, opp_IZR; bpn; lra|apply gfD; lia|]. apply bigD with 60; [lia|]. rewrite Rabs_mult, (Rabs_pos_eq (bp (-32))), <- abs_IZR by apply bpow_ge_0.
    assert (IZR (Z.abs (- z * 0x6487ed51)) <= IZR (2 ^ 53))%R by (apply IZR_le; lia). change (IZR (2 ^ 53)) with (bp 53) in H. revert H. bpn. intros. lra. }
  assert (M1 : is_real D (f_mul D rm k mpi_d1) (IZR (- z * 0x2168c235) * bp (-65))).
  { apply (mul_x D good64 rm _ _ _ _ _ RZ R1'); [rewrite mult_IZR, opp_IZR; bpn; lra|apply gfD; lia|]. apply bigD with 60; [lia|]. rewrite Rabs_mult, (Rabs_pos_eq (bp (-65))), <- abs_IZR by apply bpow_ge_0.
    assert (IZR (Z.abs (- z * 0x2168c235)) <= IZR (2 ^ 53))%R by (apply IZR_le; lia). change (IZR (2 ^ 53)) with (bp 53) in H. revert H. bpn. intros. lra. }
  (* the sum with x is exact *)
  destruct (fmt_mult X (-3) (real_fmt D good64 _ _ HX) ltac:(lia)) as (n & EN); [bpn; lra|]. change (-3 - 52) with (-55) in EN.
  set (Yh := (IZR (- z * 0x6487ed51) * bp (-32) + X)%R).
  assert (EYh : Yh = (IZR (- z * 0x6487ed51 * 2 ^ 23 + n) * bp (-55))%R).
  { unfold Yh. rewrite EN, plus_IZR, (mult_IZR _ (2 ^ 23)), Rmult_plus_distr_r. f_equal. bpn. lra. }
  assert (DYh : Yh = ((X - IZR z * (PI / 8)) + IZR z * (PI / 8 - IZR 0x6487ed51 * bp (-32)))%R) by (unfold Yh; rewrite mult_IZR, opp_IZR; ring).
  assert (E0 : (Rabs (PI / 8 - IZR 0x6487ed51 * bp (-32)) <= bp (-35))%R) by (bpn; interval with (i_prec 80)).
  assert (E1 : (Rabs (PI / 8 - IZR 0x6487ed51 * bp (-32) - IZR 0x2168c235 * bp (-65)) <= bp (-67))%R) by (bpn; interval with (i_prec 120)).
  assert (E2 : (Rabs (PI / 8 - IZR 0x6487ed51 * bp (-32) - IZR 0x2168c235 * bp (-65) + IZR 0x1d9cceba3f91f2 * bp (-120)) <= bp (-121))%R) by (bpn; interval with (i_prec 200)).
  assert (BYh : (Rabs Yh <= 0.2)%R).
  { rewrite DYh. apply Rle_trans with (1 := Rabs_triang _ _). rewrite (Rabs_mult (IZR z)). assert (Rabs (IZR z) * Rabs (PI / 8 - IZR 0x6487ed51 * bp (-32)) <= 2730000 * bp (-35))%R by (apply Rmult_le_compat; auto; apply Rabs_pos). revert H BW. bpn. intros. lra. }
  assert (RYh : is_real D (f_add D rm (f_mul D rm k mpi_d0) x) Yh).
  { apply (add_x D good64 rm _ _ _ _ Yh M0 HX eq_refl); [rewrite EYh; apply gfx; [lia|rewrite <- EYh; bpn; lra]|]. apply bigD with 1; [lia|bpn; lra]. }
  clear EYh.
  set (B := (IZR (- z * 0x2168c235) * bp (-65) + Yh)%R).
  set (w := (X - IZR z * (PI / 8))%R) in *.
  assert (DB : (B = w + IZR z * (PI / 8 - IZR 0x6487ed51 * bp (-32) - IZR 0x2168c235 * bp (-65)))%R) by (unfold B; rewrite DYh, mult_IZR, opp_IZR; ring).
  assert (ZB : (Rabs (B - w) <= Rabs (IZR z) * bp (-67))%R) by (rewrite DB; match goal with |- (Rabs ?e <= _)%R => replace e with (IZR z * (PI / 8 - IZR 0x6487ed51 * bp (-32) - IZR 0x2168c235 * bp (-65)))%R by ring end; rewrite Rabs_mult; apply Rmult_le_compat_l; auto; apply Rabs_pos).
  assert (ZB' : (Rabs (IZR z) * bp (-67) <= bp (-40))%R). { apply Rle_trans with (2730000 * bp (-67))%R; [apply Rmult_le_compat_r; [apply bpow_ge_0|auto]|bpn; lra]. }
  assert (BB : (Rabs B <= Rabs w + Rabs (IZR z) * bp (-67))%R). { replace B with (w + (B - w))%R by ring. apply Rle_trans with (1 := Rabs_triang _ _). lra. }
  destruct (addD rm _ _ _ _ M1 RYh) as (U1 & RU1 & EU1). { fold B. revert BB BW ZB'. bpn. intros. lra. }
  fold B in EU1. set (m2 := (IZR 0x1d9cceba3f91f2 * bp (-120))%R) in *. assert (BM2 : (0 <= m2 <= bp (-67))%R) by (unfold m2; bpn; lra).
  assert (BZM : (Rabs (IZR z * m2) <= Rabs (IZR z) * bp (-67))%R) by (rewrite Rabs_mult, (Rabs_pos_eq m2) by lra; apply Rmult_le_compat_l; [apply Rabs_pos|lra]).
  destruct (mulD rm _ _ _ _ RZ R2) as (P2 & RP2 & EP2). { fold m2. revert BZM ZB'. bpn. intros. lra. }
  fold m2 in EP2.
  assert (UZ : (uF D rm * Rabs (IZR z * m2) <= uF D rm * (Rabs (IZR z) * bp (-67)))%R) by (apply Rmult_le_compat_l; lra).
  assert (UBB : (uF D rm * Rabs B <= uF D rm * Rabs w + uF D rm * (Rabs (IZR z) * bp (-67)))%R) by (rewrite <- Rmult_plus_distr_l; apply Rmult_le_compat_l; lra).
  set (zz := (Rabs (IZR z) * bp (-67))%R) in *. set (uz := (uF D rm * zz)%R) in *.
  assert (Z0' : (0 <= zz)%R) by (unfold zz; apply Rmult_le_pos; [apply Rabs_pos|apply bpow_ge_0]).
  assert (HUZ : (0 <= uz <= bp (-52) * zz)%R) by (unfold uz; split; [apply Rmult_le_pos; lra|apply Rmult_le_compat_r; lra]).
  set (uw := (uF D rm * Rabs w)%R) in *. pose proof (Rabs_pos w) as AW. assert (HUW : (0 <= uw <= bp (-52) * 0.2)%R). { unfold uw; split; [apply Rmult_le_pos; lra|]. apply Rmult_le_compat; try lra. revert BW. bpn. intros. lra. }
  assert (DS : (Rabs (P2 + U1 - w) <= uw + 2 * uz + 2 * etaD + Rabs (IZR z) * bp (-121))%R).
  { replace (P2 + U1 - w)%R with ((P2 - IZR z * m2) + (U1 - B) + IZR z * (PI / 8 - IZR 0x6487ed51 * bp (-32) - IZR 0x2168c235 * bp (-65) + m2))%R by (rewrite DB; ring).
    apply Rle_trans with (1 := Rabs_triang _ _). assert (Rabs (IZR z * (PI / 8 - IZR 0x6487ed51 * bp (-32) - IZR 0x2168c235 * bp (-65) + m2)) <= Rabs (IZR z) * bp (-121))%R by (rewrite Rabs_mult; apply Rmult_le_compat_l; [apply Rabs_pos|exact E2]).
    pose proof (Rabs_triang (P2 - IZR z * m2) (U1 - B)). lra. }
  assert (E121 : (Rabs (IZR z) * bp (-121) = bp (-54) * zz)%R) by (unfold zz; change (bp (-121)) with (bp (-54 + -67)); rewrite bpow_plus; ring). rewrite E121 in DS.
  assert (BS : (Rabs (P2 + U1) <= 1.00000001 * Rabs w + uw + 2 * uz + 2 * etaD + bp (-54) * zz)%R). { replace (P2 + U1)%R with ((P2 + U1 - w) + w)%R by ring. apply Rle_trans with (1 := Rabs_triang _ _). lra. }
  destruct (addD rm _ _ _ _ RP2 RU1) as (Y & RY & EY). { revert BS HUZ HUW ES BW ZB'. bpn. intros. lra. }
  eexists _, Y. split; [reflexivity|]. split; [exact RY|]. cbv zeta. split; [exact BW|].
  assert (BU : (uF D rm * Rabs (P2 + U1) <= 1.00000001 * uw + bp (-52) * (uw + 2 * uz + 2 * etaD + bp (-54) * zz))%R).
  { apply Rle_trans with (uF D rm * (1.00000001 * Rabs w + (uw + 2 * uz + 2 * etaD + bp (-54) * zz)))%R; [apply Rmult_le_compat_l; lra|]. rewrite Rmult_plus_distr_l. apply Rplus_le_compat; [unfold uw; lra|]. apply Rmult_le_compat_r; [|lra].
    pose proof (bpow_gt_0 radix2 (-54)). nra. }
  replace (Y - w)%R with ((Y - (P2 + U1)) + (P2 + U1 - w))%R by ring. apply Rle_trans with (1 := Rabs_triang _ _).
  assert (EZX : (zz <= 5.4 * bp (-67) * Rabs X)%R) by (unfold zz; rewrite (Rmult_comm 5.4), Rmult_assoc, Rmult_comm; apply Rmult_le_compat_l; [apply bpow_ge_0|lra]).
  assert (ETX : (etaD <= bp (-1000) * Rabs X)%R). { apply Rle_trans with (bp (-1000) * bp (-3))%R; [rewrite <- bpow_plus; apply bpow_le; lia|apply Rmult_le_compat_l; [apply bpow_ge_0|bpn; lra]]. }
  assert (ET2 : (bp (-1000) * Rabs X <= bp (-200) * Rabs X)%R) by (apply Rmult_le_compat_r; [auto|apply bpow_le; lia]).
  replace (2.002 * uF D rm * Rabs w)%R with (2.002 * uw)%R by (unfold uw; ring).
  revert EY BU DS HUZ HUW EZX ETX ET2 ES. generalize (bp (-1000) * Rabs X)%R. intros t. bpn. intros. lra.
Qed.
