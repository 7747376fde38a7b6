(** * ccm::ext on floating-point numbers: cubic, lerp_angle, move_towards_angle *)
From Coq Require Import ZArith Lia Bool Reals Lra.
From Flocq Require Import Core.
From Verif Require Import MachInt Bits Fmt FloatSpec FmtProofs RoundProofs FOps FOpsProofs ExactOps
  Basic BasicProofs LerpProofs RemProofs ExtFloatSpec ExtFloat ExtFloatProofs ExtInterp ExtFract.
Open Scope Z_scope.

(** The cubic with values y1, y2 at 0, 1 and slopes y2 - y0, y3 - y1 there, in the Hermite basis. *)
Definition hermite (y0 y1 y2 y3 t : R) : R :=
  (y1 * (2 * t ^ 3 - 3 * t ^ 2 + 1) + (y2 - y0) * (t ^ 3 - 2 * t ^ 2 + t) +
   y2 * (3 * t ^ 2 - 2 * t ^ 3) + (y3 - y1) * (t ^ 3 - t ^ 2))%R.

Section Cubic.
Context (F : fmt) (HF : good_fmt F) (HelF : el F <= 16).
Notation fexp := (FLT_exp (emin F) (prec F)).
Notation big := (bpow radix2 (bias F + 1)).
Notation u := (bpow radix2 (- fl F)).
Notation eta := (bpow radix2 (emin F)).

Lemma any_err : forall rm x, (Rabs (fround F rm x - x) <= u * Rabs x + eta)%R.
Proof.
  intros rm x. assert (PG : Prec_gt_0 (prec F)) by (pose proof (gf_fl F HF); unfold Prec_gt_0, prec; lia).
  pose proof (bpow_gt_0 radix2 (emin F)). pose proof (bpow_gt_0 radix2 (- fl F)). pose proof (Rabs_pos x).
  apply Rle_trans with (ulp radix2 fexp x).
  - unfold fround. apply error_le_ulp; [typeclasses eauto|]. destruct rm; simpl; auto with typeclass_instances.
  - destruct (Rle_or_lt (bpow radix2 (emin F + prec F - 1)) (Rabs x)) as [L|L].
    + pose proof (ulp_FLT_le radix2 (emin F) (prec F) x L) as U. replace (1 - prec F) with (- fl F) in U by (unfold prec; lia). nra.
    + rewrite ulp_FLT_small; [nra|auto|]. apply Rlt_le_trans with (1 := L). apply bpow_le. lia.
Qed.

Context (Hfl : 6 <= fl F) (rm : rmode) (M : R) (HM : (0 <= M <= bpow radix2 (bias F - 4))%R).
Lemma u_le : (0 < u <= / 64)%R.
Proof. split; [apply bpow_gt_0|]. change (/ 64)%R with (bpow radix2 (-6)). apply bpow_le. lia. Qed.
Lemma eta_pos : (0 < eta)%R. Proof. apply bpow_gt_0. Qed.
Lemma big_M : (16 * M + 40 * eta < big)%R.
Proof.
  pose proof (gf_bias F HF). assert (A : (16 * bpow radix2 (bias F - 4) = bpow radix2 (bias F))%R).
  { change 16%R with (bpow radix2 4). rewrite <- bpow_plus. f_equal. lia. }
  assert (B : (64 * eta <= bpow radix2 (bias F - 1))%R).
  { change 64%R with (bpow radix2 6). rewrite <- bpow_plus. apply bpow_le. unfold emin. lia. }
  assert (C : big = (2 * bpow radix2 (bias F))%R) by (change 2%R with (bpow radix2 1); rewrite <- bpow_plus; f_equal; lia).
  assert (E : bpow radix2 (bias F) = (2 * bpow radix2 (bias F - 1))%R) by (change 2%R with (bpow radix2 1); rewrite <- bpow_plus; f_equal; lia).
  pose proof eta_pos. lra.
Qed.

(** [b] is finite and within c u M + d eta of X. *)
Definition near (b : Z) (X c d : R) : Prop := exists x, is_real F b x /\ (Rabs (x - X) <= c * (u * M) + d * eta)%R.
Lemma near_real : forall b X, is_real F b X -> near b X 0 0.
Proof. intros b X H. exists X. split; auto. replace (X - X)%R with 0%R by ring. rewrite Rabs_R0. lra. Qed.
Lemma near_round : forall b z Z B c d, (Rabs Z <= B * M)%R -> (Rabs (z - Z) <= c * (u * M) + d * eta)%R ->
  (0 <= B <= 13)%R -> (0 <= c <= 105)%R -> (0 <= d <= 25)%R ->
  ((Rabs (fround F rm z) < big)%R -> is_real F b (fround F rm z)) -> near b Z (c + B + c / 64) (d + d / 64 + 1).
Proof.
  intros b z Z B c d HZ Hz HB Hc Hd H. pose proof (any_err rm z) as E. pose proof u_le as U. pose proof eta_pos as P. pose proof big_M as BM.
  assert (V : (0 <= u * M <= M / 64)%R) by nra.
  assert (Az : (Rabs z <= B * M + c * (u * M) + d * eta)%R).
  { replace z with (Z + (z - Z))%R by ring. eapply Rle_trans; [apply Rabs_triang|]. lra. }
  assert (UA : (u * Rabs z <= B * (u * M) + c / 64 * (u * M) + d / 64 * eta)%R).
  { apply Rle_trans with (u * (B * M + c * (u * M) + d * eta))%R; [apply Rmult_le_compat_l; lra|].
    assert (u * (c * (u * M)) <= / 64 * (c * (u * M)))%R by (apply Rmult_le_compat_r; [nra|lra]).
    assert (u * (d * eta) <= / 64 * (d * eta))%R by (apply Rmult_le_compat_r; [nra|lra]). nra. }
  assert (T : (Rabs (fround F rm z - Z) <= (c + B + c / 64) * (u * M) + (d + d / 64 + 1) * eta)%R).
  { replace (fround F rm z - Z)%R with ((fround F rm z - z) + (z - Z))%R by ring. eapply Rle_trans; [apply Rabs_triang|]. lra. }
  exists (fround F rm z). split; auto. apply H.
  replace (fround F rm z) with (Z + (fround F rm z - Z))%R by ring. eapply Rle_lt_trans; [apply Rabs_triang|].
  assert (B * M <= 13 * M)%R by nra. assert ((c + B + c / 64) * (u * M) <= 120 * (M / 64))%R by nra.
  assert ((d + d / 64 + 1) * eta <= 27 * eta)%R by nra. lra.
Qed.
Lemma near_add : forall a b X Y B c d c' d', near a X c d -> near b Y c' d' -> (Rabs (X + Y) <= B * M)%R ->
  (0 <= B <= 13)%R -> (0 <= c + c' <= 105)%R -> (0 <= d + d' <= 25)%R ->
  near (f_add F rm a b) (X + Y) (c + c' + B + (c + c') / 64) (d + d' + (d + d') / 64 + 1).
Proof.
  intros a b X Y B c d c' d' (x & Rx & Ex) (y & Ry & Ey) HB B1 B2 B3.
  apply near_round with (z := (x + y)%R); auto; [|intros L; apply (add_r F HF); auto].
  replace (x + y - (X + Y))%R with ((x - X) + (y - Y))%R by ring. eapply Rle_trans; [apply Rabs_triang|]. lra.
Qed.
Lemma near_sub : forall a b X Y B c d c' d', near a X c d -> near b Y c' d' -> (Rabs (X - Y) <= B * M)%R ->
  (0 <= B <= 13)%R -> (0 <= c + c' <= 105)%R -> (0 <= d + d' <= 25)%R ->
  near (f_sub F rm a b) (X - Y) (c + c' + B + (c + c') / 64) (d + d' + (d + d') / 64 + 1).
Proof.
  intros a b X Y B c d c' d' (x & Rx & Ex) (y & Ry & Ey) HB B1 B2 B3.
  apply near_round with (z := (x - y)%R); auto; [|intros L; apply (sub_r F HF); auto].
  replace (x - y - (X - Y))%R with ((x - X) + - (y - Y))%R by ring. eapply Rle_trans; [apply Rabs_triang|]. rewrite Rabs_Ropp. lra.
Qed.
(** A factor in [0, 1] with error at most k u. *)
Lemma near_mul : forall a b X s S B c d k, near a X c d -> is_real F b s -> (0 <= s <= 1)%R -> (0 <= S <= 1)%R -> (Rabs (s - S) <= k * u)%R ->
  (Rabs X <= B * M)%R -> (0 <= B <= 13)%R -> (0 <= k)%R -> (0 <= c)%R -> (c + k * B <= 105)%R -> (0 <= d <= 25)%R ->
  near (f_mul F rm a b) (X * S) (c + k * B + B + (c + k * B) / 64) (d + d / 64 + 1).
Proof.
  intros a b X s S B c d k (x & Rx & Ex) Rs H1 H2 Hk HX HB K0 C0 CK Hd. pose proof u_le as U. pose proof eta_pos as P.
  apply near_round with (z := (x * s)%R); auto; [| |split; nra|intros L; apply (mul_r F HF); auto].
  - rewrite Rabs_mult, (Rabs_pos_eq S) by lra. pose proof (Rabs_pos X). nra.
  - replace (x * s - X * S)%R with ((x - X) * s + X * (s - S))%R by ring. eapply Rle_trans; [apply Rabs_triang|]. rewrite !Rabs_mult, (Rabs_pos_eq s) by lra.
    pose proof (Rabs_pos (x - X)). pose proof (Rabs_pos X). pose proof (Rabs_pos (s - S)).
    assert (Rabs (x - X) * s <= Rabs (x - X) * 1)%R by (apply Rmult_le_compat_l; lra).
    assert (Rabs X * Rabs (s - S) <= (B * M) * (k * u))%R by (apply Rmult_le_compat; lra).
    replace (B * M * (k * u))%R with (k * B * (u * M))%R in * by ring. lra.
Qed.
Lemma near_weak : forall b X Y c d c' d', near b X c d -> X = Y -> (c <= c')%R -> (d <= d')%R -> near b Y c' d'.
Proof.
  intros b X Y c d c' d' (x & R & E) <- H1 H2. exists x. split; auto. pose proof u_le. pose proof eta_pos.
  assert (0 <= u * M)%R by nra. nra.
Qed.

Context (y0 y1 y2 y3 : Z) (Y0 Y1 Y2 Y3 : R).
Context (R0 : is_real F y0 Y0) (R1 : is_real F y1 Y1) (R2 : is_real F y2 Y2) (R3 : is_real F y3 Y3).
Context (M0 : (Rabs Y0 <= M)%R) (M1 : (Rabs Y1 <= M)%R) (M2 : (Rabs Y2 <= M)%R) (M3 : (Rabs Y3 <= M)%R).
Notation a0 := (f_add F rm (f_sub F rm (f_sub F rm y3 y2) y0) y1).
Notation a1 := (f_sub F rm (f_sub F rm y0 y1) a0).
Notation a2 := (f_sub F rm y2 y0).
Ltac absm := apply Rabs_le; repeat match goal with H : (Rabs _ <= M)%R |- _ => apply Rabs_le_inv in H end; lra.
Lemma near_a0 : near a0 (Y3 - Y2 - Y0 + Y1) 10 4.
Proof.
  assert (A : near (f_sub F rm y3 y2) (Y3 - Y2) 2 1).
  { eapply near_weak; [eapply near_sub with (B := 2%R); [apply near_real, R3|apply near_real, R2|absm|lra|lra|lra]|reflexivity|lra|lra]. }
  assert (B : near (f_sub F rm (f_sub F rm y3 y2) y0) (Y3 - Y2 - Y0) 5.1 2.1).
  { eapply near_weak; [eapply near_sub with (B := 3%R); [exact A|apply near_real, R0|absm|lra|lra|lra]|reflexivity|lra|lra]. }
  eapply near_weak; [eapply near_add with (B := 4%R); [exact B|apply near_real, R1|absm|lra|lra|lra]|reflexivity|lra|lra].
Qed.
Lemma near_a1 : near a1 (Y0 - Y1 - (Y3 - Y2 - Y0 + Y1)) 19 7.
Proof.
  assert (A : near (f_sub F rm y0 y1) (Y0 - Y1) 2 1).
  { eapply near_weak; [eapply near_sub with (B := 2%R); [apply near_real, R0|apply near_real, R1|absm|lra|lra|lra]|reflexivity|lra|lra]. }
  eapply near_weak; [eapply near_sub with (B := 6%R); [exact A|exact near_a0|absm|lra|lra|lra]|reflexivity|lra|lra].
Qed.
Lemma near_a2 : near a2 (Y2 - Y0) 2 1.
Proof. eapply near_weak; [eapply near_sub with (B := 2%R); [apply near_real, R2|apply near_real, R0|absm|lra|lra|lra]|reflexivity|lra|lra]. Qed.

Theorem cubic_err : forall t T, is_real F t T -> (0 <= T <= 1)%R ->
  exists r, is_real F (cubic F rm y0 y1 y2 y3 t) r /\ (Rabs (r - hermite Y0 Y1 Y2 Y3 T) <= 128 * u * M + 32 * eta)%R.
Proof.
  intros t T Rt HT. pose proof u_le as U. pose proof eta_pos as P.
  assert (T2 : (0 <= T * T <= 1)%R) by nra.
  assert (F2 : (0 <= fround F rm (T * T) <= 1)%R).
  { split; [apply (fround_ge_gen F HF); [apply generic_format_0|lra]|apply (fround_le_gen F HF); [apply (one_fmt F HF)|lra]]. }
  assert (Q : is_real F (f_mul F rm t t) (fround F rm (T * T))).
  { apply (mul_r F HF); auto. rewrite Rabs_pos_eq by lra. pose proof (one_big F HF). lra. }
  assert (EU : (eta <= u)%R) by (apply bpow_le; unfold emin; pose proof (gf_bias F HF); lia).
  assert (E2 : (Rabs (fround F rm (T * T) - T * T) <= 2 * u)%R).
  { pose proof (any_err rm (T * T)) as E. rewrite (Rabs_pos_eq (T * T)) in E by lra. assert (u * (T * T) <= u * 1)%R by (apply Rmult_le_compat_l; lra). lra. }
  assert (EX : (Rabs (T - T) <= 0 * u)%R) by (replace (T - T)%R with 0%R by ring; rewrite Rabs_R0; lra).
  assert (A : near (f_mul F rm a0 t) ((Y3 - Y2 - Y0 + Y1) * T) 14.2 5.1).
  { eapply near_weak; [eapply near_mul with (B := 4%R) (k := 0%R) (S := T); [exact near_a0|exact Rt|lra|lra|exact EX|absm|lra|lra|lra|lra|lra]|reflexivity|lra|lra]. }
  assert (AB : (Rabs ((Y3 - Y2 - Y0 + Y1) * T) <= 4 * M)%R).
  { rewrite Rabs_mult, (Rabs_pos_eq T) by lra. assert (Rabs (Y3 - Y2 - Y0 + Y1) <= 4 * M)%R by absm. pose proof (Rabs_pos (Y3 - Y2 - Y0 + Y1)). nra. }
  assert (B : near (f_mul F rm (f_mul F rm a0 t) (f_mul F rm t t)) ((Y3 - Y2 - Y0 + Y1) * T * (T * T)) 27 6.2).
  { eapply near_weak; [eapply near_mul with (B := 4%R) (k := 2%R) (S := (T * T)%R); [exact A|exact Q|lra|lra|exact E2|exact AB|lra|lra|lra|lra|lra]|reflexivity|lra|lra]. }
  assert (C : near (f_mul F rm a1 (f_mul F rm t t)) ((Y0 - Y1 - (Y3 - Y2 - Y0 + Y1)) * (T * T)) 37.5 8.2).
  { eapply near_weak; [eapply near_mul with (B := 6%R) (k := 2%R) (S := (T * T)%R); [exact near_a1|exact Q|lra|lra|exact E2|absm|lra|lra|lra|lra|lra]|reflexivity|lra|lra]. }
  assert (D : near (f_mul F rm a2 t) ((Y2 - Y0) * T) 4.1 2.1).
  { eapply near_weak; [eapply near_mul with (B := 2%R) (k := 0%R) (S := T); [exact near_a2|exact Rt|lra|lra|exact EX|absm|lra|lra|lra|lra|lra]|reflexivity|lra|lra]. }
  set (P1 := ((Y3 - Y2 - Y0 + Y1) * T * (T * T))%R) in *. set (P2 := ((Y0 - Y1 - (Y3 - Y2 - Y0 + Y1)) * (T * T))%R) in *. set (P3 := ((Y2 - Y0) * T)%R) in *.
  assert (B1 : (Rabs P1 <= 4 * M)%R).
  { unfold P1. rewrite Rabs_mult, (Rabs_pos_eq (T * T)) by lra. pose proof (Rabs_pos ((Y3 - Y2 - Y0 + Y1) * T)). nra. }
  assert (B2 : (Rabs P2 <= 6 * M)%R).
  { unfold P2. rewrite Rabs_mult, (Rabs_pos_eq (T * T)) by lra. assert (Rabs (Y0 - Y1 - (Y3 - Y2 - Y0 + Y1)) <= 6 * M)%R by absm. pose proof (Rabs_pos (Y0 - Y1 - (Y3 - Y2 - Y0 + Y1))). nra. }
  assert (B3 : (Rabs P3 <= 2 * M)%R).
  { unfold P3. rewrite Rabs_mult, (Rabs_pos_eq T) by lra. assert (Rabs (Y2 - Y0) <= 2 * M)%R by absm. pose proof (Rabs_pos (Y2 - Y0)). nra. }
  apply Rabs_le_inv in B1, B2, B3.
  assert (S1 : near (f_add F rm (f_mul F rm (f_mul F rm a0 t) (f_mul F rm t t)) (f_mul F rm a1 (f_mul F rm t t))) (P1 + P2) 76 15.7).
  { eapply near_weak; [eapply near_add with (B := 10%R); [exact B|exact C|apply Rabs_le; lra|lra|lra|lra]|reflexivity|lra|lra]. }
  assert (S2 : near (f_add F rm (f_add F rm (f_mul F rm (f_mul F rm a0 t) (f_mul F rm t t)) (f_mul F rm a1 (f_mul F rm t t))) (f_mul F rm a2 t)) (P1 + P2 + P3) 94 19.2).
  { eapply near_weak; [eapply near_add with (B := 12%R); [exact S1|exact D|apply Rabs_le; lra|lra|lra|lra]|reflexivity|lra|lra]. }
  assert (S3 : near (cubic F rm y0 y1 y2 y3 t) (hermite Y0 Y1 Y2 Y3 T) 128 32).
  { eapply near_weak; [eapply near_add with (B := 13%R); [exact S2|apply near_real, R1|pose proof (Rabs_le_inv _ _ M1); apply Rabs_le; lra|lra|lra|lra]| |lra|lra].
    unfold hermite, P1, P2, P3. ring. }
  destruct S3 as (r & Rr & Er). exists r. split; auto. lra.
Qed.

(** At t = 0 the second value is returned exactly. *)
Theorem cubic_start : forall t, is_real F t 0 -> is_real F (cubic F rm y0 y1 y2 y3 t) Y1.
Proof.
  intros t Rt. destruct near_a0 as (x0 & X0 & _). destruct near_a1 as (x1 & X1 & _). destruct near_a2 as (x2 & X2 & _).
  assert (Z : forall a x, is_real F a x -> is_real F (f_mul F rm a t) 0).
  { intros a x H. eapply (mul_x F HF); [exact H|exact Rt|ring|apply fmt_0|apply abs_0]. }
  assert (Z2 : forall a x, is_real F a x -> is_real F (f_mul F rm a (f_mul F rm t t)) 0).
  { intros a x H. eapply (mul_x F HF); [exact H|exact (Z _ _ Rt)|ring|apply fmt_0|apply abs_0]. }
  unfold cubic. cbv zeta. eapply (add_x F HF); [|exact R1|apply Rplus_0_l|apply (real_fmt F HF _ _ R1)|apply (real_bound F HF _ _ R1)].
  eapply (add_x F HF); [|exact (Z _ _ X2)|apply Rplus_0_l|apply fmt_0|apply abs_0].
  eapply (add_x F HF); [exact (Z2 _ _ (Z _ _ X0))|exact (Z2 _ _ X1)|apply Rplus_0_l|apply fmt_0|apply abs_0].
Qed.
End Cubic.

Section Grid.
Context (F : fmt) (HF : good_fmt F) (HelF : el F <= 16).
Notation fexp := (FLT_exp (emin F) (prec F)).
Notation big := (bpow radix2 (bias F + 1)).

Lemma grid_fmt : forall e k, emin F <= e -> e + fl F <= bias F -> Z.abs k <= 2 ^ fl F ->
  generic_format radix2 fexp (IZR k * bpow radix2 e) /\ (Rabs (IZR k * bpow radix2 e) < big)%R.
Proof.
  intros e k He1 He2 Hk. pose proof (gf_fl F HF) as Hf. pose proof (bpow_gt_0 radix2 e) as PE.
  pose proof (pow2_lt (fl F) (prec F) ltac:(unfold prec; lia) ltac:(unfold prec; lia)) as PL.
  split; [apply (fmt_scaled F); auto; lia|]. rewrite Rabs_mult, (Rabs_pos_eq (bpow _ _)) by lra. rewrite <- abs_IZR.
  apply Rle_lt_trans with (bpow radix2 (fl F) * bpow radix2 e)%R; [apply Rmult_le_compat_r; [lra|]; rewrite bpow_IZR by lia; apply IZR_le; auto|].
  rewrite <- bpow_plus. apply bpow_lt. lia.
Qed.

(** ** lerp_angle *)
Theorem lerp_angle_spec : forall rm c g t C T e s, emin F <= e <= 0 -> Z.abs (T - C) + 360 * 2 ^ (- e) <= 2 ^ fl F -> Z.abs C + 180 * 2 ^ (- e) <= 2 ^ fl F ->
  is_real F c (IZR C * bpow radix2 e) -> is_real F g (IZR T * bpow radix2 e) -> is_real F t s -> (0 <= s <= 1)%R ->
  exists d k r, let C' := (IZR C * bpow radix2 e)%R in
    (d = IZR T * bpow radix2 e - C' - 360 * IZR k)%R /\ (-180 < d <= 180)%R /\
    is_real F (lerp_angle F rm c g t) r /\ r = fround F rm (C' + fround F rm (d * s)) /\ (Rmin C' (C' + d) <= r <= Rmax C' (C' + d))%R /\
    (s = 0%R -> r = C') /\ (s = 1%R -> r = C' + d)%R.
Proof.
  intros rm c g t C T e s He HB HC Rc Rg Rt Hs.
  destruct (delta_angle_spec F HF HelF rm c g C T e He HB Rc Rg) as (d & k & Rd & Ed & Bd).
  set (C' := (IZR C * bpow radix2 e)%R) in *. pose proof (bpow_gt_0 radix2 e) as PE. pose proof (gf_bias F HF) as GB. pose proof (gf_fl F HF) as GF.
  assert (UE : (IZR (2 ^ (- e)) * bpow radix2 e = 1)%R) by (rewrite <- bpow_IZR, <- bpow_plus by lia; replace (- e + e) with 0 by lia; reflexivity).
  set (w := 2 ^ (- e)) in *. assert (W1 : 1 <= w) by (apply pow2_ge1; lia).
  assert (ED : (d = IZR (T - C - 360 * w * k) * bpow radix2 e)%R).
  { rewrite Ed. unfold C'. rewrite !minus_IZR, !mult_IZR. replace (360 * IZR k)%R with (360 * (IZR w * bpow radix2 e) * IZR k)%R by (rewrite UE; ring). ring. }
  set (N := T - C - 360 * w * k) in *.
  assert (HN : Z.abs N <= 180 * w).
  { assert (I1 : (IZR N <= IZR (180 * w))%R) by (apply Rmult_le_reg_r with (bpow radix2 e); [lra|]; rewrite mult_IZR, Rmult_assoc, UE, <- ED; lra).
    assert (I2 : (IZR (- (180 * w)) <= IZR N)%R) by (apply Rmult_le_reg_r with (bpow radix2 e); [lra|]; rewrite opp_IZR, mult_IZR; replace (- (180 * IZR w) * bpow radix2 e)%R with (- (180 * (IZR w * bpow radix2 e)))%R by ring; rewrite UE, <- ED; lra).
    apply le_IZR in I1, I2. lia. }
  assert (G : generic_format radix2 fexp (C' + d) /\ (Rabs (C' + d) < big)%R).
  { replace (C' + d)%R with (IZR (C + N) * bpow radix2 e)%R by (rewrite ED, plus_IZR; unfold C'; ring). apply grid_fmt; lia. }
  assert (G0 : generic_format radix2 fexp C' /\ (Rabs C' < big)%R) by (apply grid_fmt; lia).
  assert (GD := real_fmt F HF _ _ Rd). assert (BD := real_bound F HF _ _ Rd).
  assert (PB : (Rmin 0 d <= fround F rm (d * s) <= Rmax 0 d)%R).
  { unfold Rmin, Rmax. destruct (Rle_dec 0 d).
    - split; [apply (fround_ge_gen F HF); [apply generic_format_0|nra]|apply (fround_le_gen F HF); [auto|nra]].
    - split; [apply (fround_ge_gen F HF); [auto|nra]|apply (fround_le_gen F HF); [apply generic_format_0|nra]]. }
  set (p := fround F rm (d * s)) in *.
  assert (RP : is_real F (f_mul F rm (delta_angle F rm c g) t) p).
  { apply (mul_r F HF); auto. fold p. apply Rabs_lt. apply Rabs_lt_inv in BD. pose proof (big_pos F). revert PB. unfold Rmin, Rmax. destruct (Rle_dec 0 d); lra. }
  assert (RB : (Rmin C' (C' + d) <= fround F rm (C' + p) <= Rmax C' (C' + d))%R).
  { destruct G as (G & _), G0 as (G0 & _). revert PB. unfold Rmin, Rmax. destruct (Rle_dec 0 d), (Rle_dec C' (C' + d)); intros PB; try lra;
    (split; [apply (fround_ge_gen F HF); [auto|lra]|apply (fround_le_gen F HF); [auto|lra]]). }
  exists d, k, (fround F rm (C' + p)). cbv zeta. split; [auto|]. split; [auto|]. split.
  { unfold lerp_angle. apply (add_r F HF); auto. destruct G as (_ & G), G0 as (_ & G0). apply Rabs_lt. apply Rabs_lt_inv in G, G0. revert RB. unfold Rmin, Rmax. destruct (Rle_dec C' (C' + d)); lra. }
  split; [reflexivity|]. split; [exact RB|]. split; intros ->.
  - unfold p. rewrite Rmult_0_r, (fround_0 F), Rplus_0_r. apply (fround_exact F). apply G0.
  - unfold p. rewrite Rmult_1_r, (fround_exact F rm d) by auto. apply (fround_exact F). apply G.
Qed.

(** ** move_towards_angle *)
Theorem move_towards_angle_spec : forall rm c g m C T e X, emin F <= e <= 0 -> Z.abs (T - C) + 360 * 2 ^ (- e) <= 2 ^ fl F -> Z.abs C + 180 * 2 ^ (- e) <= 2 ^ fl F ->
  is_real F c (IZR C * bpow radix2 e) -> is_real F g (IZR T * bpow radix2 e) -> is_real F m X -> (0 <= X)%R ->
  exists d k r, let C' := (IZR C * bpow radix2 e)%R in
    (d = IZR T * bpow radix2 e - C' - 360 * IZR k)%R /\ (-180 < d <= 180)%R /\
    is_real F (move_towards_angle F rm c g m) r /\ (Rmin C' (C' + d) <= r <= Rmax C' (C' + d))%R /\
    ((Rabs d <= X)%R -> r = C' + d)%R /\ (r <> (C' + d)%R -> r = fround F rm (if Rlt_bool 0 d then C' + X else C' - X)).
Proof.
  intros rm c g m C T e X He HB HC Rc Rg (Pm & Fm & Vm) HX. destruct (one_r F HF) as (P1 & F1 & V1).
  destruct (lerp_angle_spec rm c g (f_one F false) C T e 1 He HB HC Rc Rg ltac:(split; auto) ltac:(lra)) as (d & k & r & H).
  cbv zeta in H. destruct H as (Ed & Bd & Rr & _ & _ & _ & E1). specialize (E1 eq_refl).
  set (C' := (IZR C * bpow radix2 e)%R) in *. 
  destruct (delta_angle_spec F HF HelF rm c g C T e He HB Rc Rg) as (d' & k' & Rd & Ed' & Bd'). fold C' in Ed'.
  assert (KK : k' = k).
  { assert (L1 : (IZR k' - 1 < IZR k)%R) by lra. assert (L2 : (IZR k - 1 < IZR k')%R) by lra. rewrite <- minus_IZR in L1, L2. apply lt_IZR in L1, L2. lia. }
  subst k'. assert (DD : d' = d) by lra. rewrite DD in *. rewrite E1 in Rr.
  assert (RT : is_real F (f_add F rm c (delta_angle F rm c g)) (C' + d)).
  { eapply (add_x F HF); [exact Rc|exact Rd|reflexivity|apply (real_fmt F HF _ _ Rr)|apply (real_bound F HF _ _ Rr)]. }
  pose proof Rc as (Pc & Fc & Vc). pose proof RT as (Pt & Ft & Vt).
  pose proof (move_towards_spec F HF HelF rm c _ m Pc Pt Pm Fc Ft Fm ltac:(lra)) as S. cbv zeta in S. fold (move_towards_angle F rm c g m) in S.
  rewrite Vc, Vt, Vm in S. fold C' in S. destruct S as (Q1 & Q2 & Q3 & Q4 & Q5).
  exists d, k, (fval F (move_towards_angle F rm c g m)). cbv zeta. split; [auto|]. split; [auto|]. split; [split; auto|]. split; [auto|]. split.
  - intros L. rewrite Q4; auto. replace (C' + d - C')%R with d by ring. auto.
  - intros N. rewrite Q5.
    + f_equal. destruct (Rlt_bool_spec C' (C' + d)), (Rlt_bool_spec 0 d); auto; lra.
    + intros E. apply N. rewrite E. auto.
Qed.

(** ** cubic on short dyadic numbers *)
Lemma cube_bounds : forall K P, 0 <= K <= P -> 1 <= P -> 0 <= K * (P * P) <= P * P * P /\ 0 <= K * K * P <= P * P * P /\ 0 <= K * K * K <= P * P * P /\ 0 <= K * K <= P * P * P /\ 1 <= P * P * P.
Proof.
  intros K P HK HP. assert (A : 0 <= K * K <= P * P) by nia. assert (B : 1 <= P * P) by nia. set (k := K * K) in *. set (p := P * P) in *. clearbody k p.
  assert (0 <= k * K <= p * P) by nia. assert (0 <= K * p <= P * p) by nia. assert (0 <= k * P <= p * P) by nia. assert (p * 1 <= p * P) by nia. lia.
Qed.
Theorem cubic_exact : forall rm y0 y1 y2 y3 t Y0 Y1 Y2 Y3 K M n e, 0 <= n -> 1 <= M -> Z.abs Y0 <= M -> Z.abs Y1 <= M -> Z.abs Y2 <= M -> Z.abs Y3 <= M ->
  0 <= K <= 2 ^ n -> 16 * M * 2 ^ (3 * n) <= 2 ^ fl F -> emin F <= e - 3 * n -> e - 3 * n + fl F <= bias F ->
  is_real F y0 (IZR Y0 * bpow radix2 e) -> is_real F y1 (IZR Y1 * bpow radix2 e) -> is_real F y2 (IZR Y2 * bpow radix2 e) -> is_real F y3 (IZR Y3 * bpow radix2 e) ->
  is_real F t (IZR K * bpow radix2 (- n)) ->
  is_real F (cubic F rm y0 y1 y2 y3 t)
    (hermite (IZR Y0 * bpow radix2 e) (IZR Y1 * bpow radix2 e) (IZR Y2 * bpow radix2 e) (IZR Y3 * bpow radix2 e) (IZR K * bpow radix2 (- n))).
Proof.
  intros rm y0 y1 y2 y3 t Y0 Y1 Y2 Y3 K M n e Hn HM H0 H1 H2 H3 HK HB He1 He2 R0 R1 R2 R3 Rt.
  set (q := e - 3 * n) in *. pose proof (gf_fl F HF) as GF. pose proof (gf_bias F HF) as GB. pose proof (bpow_gt_0 radix2 q) as PQ.
  set (P := 2 ^ n) in *. assert (P1 : 1 <= P) by (apply pow2_ge1; lia).
  assert (P3 : 2 ^ (3 * n) = P * P * P) by (unfold P; rewrite <- !Z.pow_add_r by lia; f_equal; lia). rewrite P3 in HB.
  assert (EE : bpow radix2 e = (IZR (P * P * P) * bpow radix2 q)%R).
  { rewrite <- P3, <- bpow_IZR, <- bpow_plus by lia. f_equal. unfold q. lia. }
  assert (EN : (IZR P * bpow radix2 (- n) = 1)%R) by (unfold P; rewrite <- bpow_IZR, <- bpow_plus by lia; replace (n + - n) with 0 by lia; reflexivity).
  assert (GR : forall k, Z.abs k <= 16 * M * (P * P * P) -> generic_format radix2 fexp (IZR k * bpow radix2 q) /\ (Rabs (IZR k * bpow radix2 q) < big)%R) by (intros k Hk; apply grid_fmt; lia).
  set (h := bpow radix2 (- n)) in *. assert (Hh : h = (/ IZR P)%R) by (apply Rmult_eq_reg_l with (IZR P); [rewrite EN, Rinv_r; auto|]; apply not_0_IZR; lia).
  assert (NP : (IZR P <> 0)%R) by (apply not_0_IZR; lia).
  set (A0 := Y3 - Y2 - Y0 + Y1). set (A1 := Y0 - Y1 - A0). set (A2 := Y2 - Y0).
  assert (B0 : Z.abs A0 <= 4 * M) by (clear - H0 H1 H2 H3; unfold A0; lia). assert (B1 : Z.abs A1 <= 6 * M) by (clear - H0 H1 H2 H3; unfold A1, A0; lia).
  assert (B2 : Z.abs A2 <= 2 * M) by (clear - H0 H2; unfold A2; lia). assert (B3 : Z.abs (Y3 - Y2) <= 2 * M) by (clear - H3 H2; lia).
  assert (B4 : Z.abs (Y3 - Y2 - Y0) <= 3 * M) by (clear - H0 H3 H2; lia). assert (B5 : Z.abs (Y0 - Y1) <= 2 * M) by (clear - H0 H1; lia).
  destruct (cube_bounds K P HK P1) as (K1 & K2 & K3 & K4 & Q0). set (Q := P * P * P) in *. assert (MQ : Q <= M * Q) by (rewrite <- (Z.mul_1_l Q) at 1; apply Z.mul_le_mono_nonneg_r; [clear - Q0; lia|exact HM]).
  assert (SC : forall a b c, Z.abs a <= c * M -> (0 <=? c) = true -> 0 <= b <= Q -> Z.abs (a * b) <= c * M * Q).
  { clear - HM. intros a b c Ha Hc Hb. rewrite Z.abs_mul, (Z.abs_eq b) by lia. apply Z.mul_le_mono_nonneg; lia. }
  assert (QQ : 0 <= Q <= Q) by (clear - Q0; lia).
  assert (LE : forall z c, Z.abs z <= c * M * Q -> (c <=? 16) = true -> Z.abs z <= 16 * M * Q) by (clear - MQ Q0; intros z c Hz Hc; assert (c * (M * Q) <= 16 * (M * Q)) by (apply Z.mul_le_mono_nonneg_r; lia); lia).
  assert (TR : forall x y c d, Z.abs x <= c * M * Q -> Z.abs y <= d * M * Q -> Z.abs (x + y) <= (c + d) * M * Q) by (clear; intros; rewrite !Z.mul_add_distr_r; lia).
  assert (L : forall k, (IZR k * (IZR Q * bpow radix2 q) = IZR (k * Q) * bpow radix2 q)%R) by (intros; rewrite mult_IZR; ring).
  assert (R0' := R0). assert (R1' := R1). assert (R2' := R2). assert (R3' := R3). rewrite EE, L in R0', R1', R2', R3'.
  assert (ADD : forall a b x y, is_real F a (IZR x * bpow radix2 q) -> is_real F b (IZR y * bpow radix2 q) -> Z.abs (x + y) <= 16 * M * Q -> is_real F (f_add F rm a b) (IZR (x + y) * bpow radix2 q)).
  { intros a b x y Ha Hb HH. destruct (GR _ HH). eapply (add_x F HF); [exact Ha|exact Hb|rewrite plus_IZR; ring|auto|auto]. }
  assert (SUB : forall a b x y, is_real F a (IZR x * bpow radix2 q) -> is_real F b (IZR y * bpow radix2 q) -> Z.abs (x - y) <= 16 * M * Q -> is_real F (f_sub F rm a b) (IZR (x - y) * bpow radix2 q)).
  { intros a b x y Ha Hb HH. destruct (GR _ HH). eapply (sub_x F HF); [exact Ha|exact Hb|rewrite minus_IZR; ring|auto|auto]. }
  assert (V0 : is_real F (f_add F rm (f_sub F rm (f_sub F rm y3 y2) y0) y1) (IZR (A0 * Q) * bpow radix2 q)).
  { replace (A0 * Q) with (Y3 * Q - Y2 * Q - Y0 * Q + Y1 * Q) by (unfold A0; ring). apply ADD; [apply SUB; [apply SUB; auto|auto|]|auto|].
    - replace (Y3 * Q - Y2 * Q) with ((Y3 - Y2) * Q) by ring. eapply LE; [apply SC; [exact B3|reflexivity|auto]|reflexivity].
    - replace (Y3 * Q - Y2 * Q - Y0 * Q) with ((Y3 - Y2 - Y0) * Q) by ring. eapply LE; [apply SC; [exact B4|reflexivity|auto]|reflexivity].
    - replace (Y3 * Q - Y2 * Q - Y0 * Q + Y1 * Q) with (A0 * Q) by (unfold A0; ring). eapply LE; [apply SC; [exact B0|reflexivity|auto]|reflexivity]. }
  assert (V1 : is_real F (f_sub F rm (f_sub F rm y0 y1) (f_add F rm (f_sub F rm (f_sub F rm y3 y2) y0) y1)) (IZR (A1 * Q) * bpow radix2 q)).
  { replace (A1 * Q) with (Y0 * Q - Y1 * Q - A0 * Q) by (unfold A1; ring). apply SUB; [apply SUB; auto|auto|].
    - replace (Y0 * Q - Y1 * Q) with ((Y0 - Y1) * Q) by ring. eapply LE; [apply SC; [exact B5|reflexivity|auto]|reflexivity].
    - replace (Y0 * Q - Y1 * Q - A0 * Q) with (A1 * Q) by (unfold A1; ring). eapply LE; [apply SC; [exact B1|reflexivity|auto]|reflexivity]. }
  assert (V2 : is_real F (f_sub F rm y2 y0) (IZR (A2 * Q) * bpow radix2 q)).
  { replace (A2 * Q) with (Y2 * Q - Y0 * Q) by (unfold A2; ring). apply SUB; auto.
    replace (Y2 * Q - Y0 * Q) with (A2 * Q) by (unfold A2; ring). eapply LE; [apply SC; [exact B2|reflexivity|auto]|reflexivity]. }
  assert (VT : is_real F (f_mul F rm t t) (IZR (K * K) * (h * h))).
  { assert (G : generic_format radix2 fexp (IZR (K * K) * bpow radix2 (- n + - n)) /\ (Rabs (IZR (K * K) * bpow radix2 (- n + - n)) < big)%R).
    { assert (N3 : 3 * n <= fl F) by (apply (Z.pow_le_mono_r_iff 2); [lia|lia|]; rewrite P3; fold Q; clear - HB MQ Q0; lia).
      apply grid_fmt; [clear - N3 GB GF Hn; unfold emin; lia|clear - GB Hn; lia|]. rewrite Z.abs_eq by apply K4. clear - K4 HB MQ Q0. lia. }
    rewrite bpow_plus in G. fold h in G. eapply (mul_x F HF); [exact Rt|exact Rt|rewrite mult_IZR; ring|apply G|apply G]. }
  assert (HQ : IZR Q = (IZR P * IZR P * IZR P)%R) by (unfold Q; rewrite !mult_IZR; ring).
  assert (MUL : forall a b x y z, is_real F a (IZR x * bpow radix2 q) -> is_real F b y -> (IZR x * y = IZR z)%R -> Z.abs z <= 16 * M * Q -> is_real F (f_mul F rm a b) (IZR z * bpow radix2 q)).
  { intros a b x y z Ha Hb E HH. destruct (GR _ HH). eapply (mul_x F HF); [exact Ha|exact Hb|rewrite <- E; ring|auto|auto]. }
  unfold cubic. cbv zeta.
  replace (hermite _ _ _ _ _) with (IZR (A0 * (K * K * K) + A1 * (K * K * P) + A2 * (K * (P * P)) + Y1 * Q) * bpow radix2 q)%R.
  - assert (U1 : Z.abs (A0 * (K * K * K)) <= 4 * M * Q) by (apply SC; auto). assert (U2 : Z.abs (A1 * (K * K * P)) <= 6 * M * Q) by (apply SC; auto).
    assert (U3 : Z.abs (A2 * (K * (P * P))) <= 2 * M * Q) by (apply SC; auto). assert (U4 : Z.abs (Y1 * Q) <= 1 * M * Q) by (apply SC; [clear - H1; lia|auto|auto]).
    pose proof (TR _ _ _ _ U1 U2) as S1. pose proof (TR _ _ _ _ S1 U3) as S2. pose proof (TR _ _ _ _ S2 U4) as S3.
    apply ADD; [|auto|eapply LE; [exact S3|reflexivity]]. apply ADD; [| |eapply LE; [exact S2|reflexivity]]. apply ADD; [| |eapply LE; [exact S1|reflexivity]].
    + apply MUL with (x := A0 * (K * (P * P))) (y := (IZR (K * K) * (h * h))%R); [|auto| |eapply LE; [exact U1|reflexivity]].
      * apply MUL with (x := A0 * Q) (y := (IZR K * h)%R); [auto|auto| |eapply LE; [apply SC; [exact B0|reflexivity|exact K1]|reflexivity]]. rewrite !mult_IZR, HQ, Hh. field. auto.
      * rewrite !mult_IZR, Hh. field. auto.
    + apply MUL with (x := A1 * Q) (y := (IZR (K * K) * (h * h))%R); [auto|auto| |eapply LE; [exact U2|reflexivity]]. rewrite !mult_IZR, HQ, Hh. field. auto.
    + apply MUL with (x := A2 * Q) (y := (IZR K * h)%R); [auto|auto| |eapply LE; [exact U3|reflexivity]]. rewrite !mult_IZR, HQ, Hh. field. auto.
  - unfold hermite. rewrite EE, HQ, Hh. unfold A1, A2, A0. rewrite !plus_IZR, !mult_IZR, !minus_IZR, !plus_IZR, !minus_IZR. rewrite HQ. field. auto.
Qed.
End Grid.
