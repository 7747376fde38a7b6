(** * exp2f: the computed value against the real 2^x *)
From Coq Require Import ZArith Lia Bool Reals Lra List.
From Flocq Require Import Core.
From Interval Require Import Tactic.
From Verif Require Import MachInt Fmt FloatSpec FmtProofs RoundProofs FOps FOpsProofs ExactOps ExtFloatSpec ExtFloatProofs ExtInterp FmanipWide ErrLib ExpoData ExpoF.
Import ListNotations.
Open Scope Z_scope.

(** Powers of two as fractions, for the interval tactic. *)
Ltac bpn := repeat match goal with |- context [bpow radix2 ?k] => let v := eval cbn in (bpow radix2 k) in change (bpow radix2 k) with v end.
Ltac bpn_in H := repeat match type of H with context [bpow radix2 ?k] => let v := eval cbn in (bpow radix2 k) in change (bpow radix2 k) with v in H end.
Ltac zenum i n := match n with
  | O => exfalso; lia
  | S ?m => let z := eval vm_compute in (Z.of_nat m) in destruct (Z.eq_dec i z) as [->|?]; [|zenum i m] end.

(** tab[i] + (i << 47) is 2^(i/32) up to half a unit in the last place. *)
Lemma tab32 : forall i, 0 <= i < 32 -> exists V, is_real D (at_ exp2f_tab i + i * 2 ^ 47) V /\
  1023 * 2 ^ 52 <= at_ exp2f_tab i + i * 2 ^ 47 < 1024 * 2 ^ 52 /\ (Rabs (V - Rpower 2 (IZR i / 32)) <= bp (-53))%R.
Proof.
  intros i Hi.
  assert (H : 1023 * 2 ^ 52 <= at_ exp2f_tab i + i * 2 ^ 47 < 1024 * 2 ^ 52 /\
    (Rabs (IZR (2 ^ 52 + (at_ exp2f_tab i + i * 2 ^ 47) mod 2 ^ 52) * bp (-52) - Rpower 2 (IZR i / 32)) <= bp (-53))%R).
  { zenum i 32%nat; (split; [vm_compute; split; congruence|]);
    match goal with |- context [IZR (2 ^ 52 + ?m)] => let v := eval vm_compute in (2 ^ 52 + m) in change (2 ^ 52 + m) with v end;
    bpn; unfold Rpower; interval with (i_prec 70). }
  destruct H as [H1 H2]. eexists. split; [|split; [exact H1|exact H2]].
  pose proof (pos_pat (at_ exp2f_tab i + i * 2 ^ 47) ltac:(lia)) as P.
  replace ((at_ exp2f_tab i + i * 2 ^ 47) / 2 ^ 52) with 1023 in P; [exact P|].
  apply Z.div_unique with (at_ exp2f_tab i + i * 2 ^ 47 - 1023 * 2 ^ 52); lia.
Qed.

(** The index and exponent arithmetic on the bits of the shifted argument. *)
Lemma scale_index : forall b tab sp k, 0 <= b <= 52 -> (2 ^ (12 + b) | sp) ->
  let i := k mod 2 ^ b in let j := k / 2 ^ b in let P := at_ tab i + i * 2 ^ (52 - b) in
  0 <= P + j * 2 ^ 52 < 2 ^ 64 ->
  wrap 64 (at_ tab ((sp + k) mod 2 ^ b) + wrap 64 (Z.shiftl (sp + k) (52 - b))) = P + j * 2 ^ 52.
Proof.
  intros b tab sp k Hb [q Hq] i j P HP.
  assert (E : (sp + k) mod 2 ^ b = i).
  { unfold i. rewrite Hq, Z.pow_add_r, Z.mul_assoc by lia. rewrite Z.add_comm. apply Z.mod_add. apply Z.pow_nonzero; lia. }
  rewrite E. unfold wrap. rewrite Z.add_mod_idemp_r by lia. rewrite Z.shiftl_mul_pow2 by lia.
  assert (KD : k = j * 2 ^ b + i) by (unfold i, j; pose proof (Z.div_mod k (2 ^ b) ltac:(apply Z.pow_nonzero; lia)); lia).
  assert (P1 : 2 ^ b * 2 ^ (52 - b) = 2 ^ 52) by (rewrite <- Z.pow_add_r by lia; f_equal; lia).
  assert (P2 : 2 ^ (12 + b) * 2 ^ (52 - b) = 2 ^ 64) by (rewrite <- Z.pow_add_r by lia; f_equal; lia).
  replace (at_ tab i + (sp + k) * 2 ^ (52 - b)) with (P + j * 2 ^ 52 + q * 2 ^ 64).
  - rewrite Z.mod_add by lia. apply Z.mod_small. exact HP.
  - rewrite <- P2, <- P1, Hq. unfold P. clearbody i j. rewrite KD. ring.
Qed.
Lemma Rpower2_Z : forall j, Rpower 2 (IZR j) = bp j.
Proof. intros j. change 2%R with (IZR radix2). rewrite bpow_powerRZ. apply Rpower_powerRZ || (rewrite <- powerRZ_Rpower; [reflexivity|apply IZR_lt; reflexivity]). Qed.
Lemma scale32 : forall sp k, (2 ^ 17 | sp) -> -32000 <= k <= 32000 ->
  exists V T, is_real D (wrap 64 (at_ exp2f_tab ((sp + k) mod 32) + wrap 64 (Z.shiftl (sp + k) 47))) (V * bp (k / 32)) /\
   (Rabs (V - T) <= bp (-53))%R /\ (1 <= T < 2)%R /\ (T * bp (k / 32) = Rpower 2 (IZR k / 32))%R.
Proof.
  intros sp k Hs Hk. pose proof (Z.mod_pos_bound k 32 ltac:(lia)) as MB. pose proof (Z.div_mod k 32 ltac:(lia)) as KD.
  destruct (tab32 (k mod 32) MB) as (V & RV & BV & EV). exists V, (Rpower 2 (IZR (k mod 32) / 32)).
  split; [|split; [exact EV|split]].
  - pose proof (scale_index 5 exp2f_tab sp k ltac:(lia) Hs) as SI. cbv zeta in SI. change (2 ^ 5) with 32 in SI. change (52 - 5) with 47 in SI.
    rewrite SI by lia. apply scale_pat; auto; try lia.
    replace ((at_ exp2f_tab (k mod 32) + k mod 32 * 2 ^ 47) / 2 ^ 52) with 1023; [lia|].
    apply Z.div_unique with (at_ exp2f_tab (k mod 32) + (k mod 32) * 2 ^ 47 - 1023 * 2 ^ 52); lia.
  - assert (0 <= IZR (k mod 32) / 32 <= 31 / 32)%R.
    { pose proof (IZR_le 0 (k mod 32) ltac:(lia)). pose proof (IZR_le (k mod 32) 31 ltac:(lia)). lra. }
    set (t := (IZR (k mod 32) / 32)%R) in *. unfold Rpower. split.
    + rewrite <- exp_0. apply Raux.exp_le. pose proof ln_lt_2. apply Rmult_le_pos; lra.
    + interval with (i_prec 60).
  - rewrite <- Rpower2_Z, <- Rpower_plus. f_equal. rewrite KD at 3. rewrite plus_IZR, mult_IZR. field.
Qed.

Lemma widen : forall rm x X, is_real F32 x X -> is_real D (f_cast F32 F64 rm x) X.
Proof.
  intros rm x X (P & Fi & V). destruct (NextProofs.cast_fin F32 F64 good32 good64 ltac:(vm_compute; repeat split; congruence) rm x Fi) as (P' & F' & V' & _).
  split; [auto|split; [auto|congruence]].
Qed.

Definition C0 : R := (IZR 0x1c6af84b912394 * bp (-57))%R.
Definition C1 : R := (IZR 0x1ebfce50fac4f3 * bp (-55))%R.
Definition C2 : R := (IZR 0x162e42ff0c52d6 * bp (-53))%R.
Definition P3 (r : R) : R := ((C0 * r + C1) * (r * r) + (C2 * r + 1))%R.

(** The polynomial against 2^r. *)
Lemma P3_near : forall r, (Rabs r <= / 64 + bp (-50))%R -> (Rabs (P3 r - exp (r * ln 2)) <= 100 / 1000000000000)%R.
Proof. intros r H. unfold P3, C0, C1, C2. bpn_in H. bpn. interval with (i_prec 60, i_bisect r, i_taylor r, i_degree 8). Qed.
Lemma P3_far : forall r, (Rabs r <= / 32 + bp (-50))%R -> (Rabs (P3 r - exp (r * ln 2)) <= 76 / 10000000000)%R.
Proof. intros r H. unfold P3, C0, C1, C2. bpn_in H. bpn. interval with (i_prec 60, i_bisect r, i_taylor r, i_degree 8). Qed.

(** The evaluation of the polynomial in double. *)
Lemma poly_eval : forall rm rem r, is_real D rem r -> (Rabs r <= / 32 + bp (-50))%R ->
  exists Y, is_real D (f_add F64 rm (f_mul F64 rm (f_add F64 rm (f_mul F64 rm (at_ exp2f_poly 0) rem) (at_ exp2f_poly 1)) (f_mul F64 rm rem rem))
     (f_add F64 rm (f_mul F64 rm (at_ exp2f_poly 2) rem) (f_of_Z F64 rm 1))) Y /\ (Rabs (Y - P3 r) <= bp (-50))%R.
Proof.
  intros rm rem r Hr HB. bpn_in HB.
  assert (H0 : is_real D (at_ exp2f_poly 0) C0) by (apply lit_r; lia).
  assert (H1 : is_real D (at_ exp2f_poly 1) C1) by (apply lit_r; lia).
  assert (H2 : is_real D (at_ exp2f_poly 2) C2) by (apply lit_r; lia).
  assert (HO : is_real D (f_of_Z F64 rm 1) 1) by (apply (ofz_r D good64 rm 1); vm_compute; congruence).
  destruct (mul_e rm _ _ _ _ (-9) H0 Hr ltac:(lia) ltac:(unfold C0; bpn; interval with (i_prec 60))) as (e1 & E1 & R1).
  assert (B1 : (Rabs (C0 * r + e1) <= bp (-8))%R) by (unfold C0; bpn_in E1; bpn; interval with (i_prec 60)).
  destruct (add_e rm _ _ _ _ (-1) R1 H1 ltac:(lia) ltac:(unfold C1; bpn_in B1; bpn; interval with (i_prec 60))) as (e2 & E2 & R2).
  destruct (mul_e rm _ _ _ _ (-9) Hr Hr ltac:(lia) ltac:(bpn; interval with (i_prec 60))) as (e3 & E3 & R3).
  destruct (mul_e rm _ _ _ _ (-5) H2 Hr ltac:(lia) ltac:(unfold C2; bpn; interval with (i_prec 60))) as (e4 & E4 & R4).
  destruct (add_e rm _ _ _ _ 1 R4 HO ltac:(lia) ltac:(unfold C2; bpn_in E4; bpn; interval with (i_prec 60))) as (e5 & E5 & R5).
  destruct (mul_e rm _ _ _ _ (-10) R2 R3 ltac:(lia) ltac:(unfold C0, C1; bpn_in E1; bpn_in E2; bpn_in E3; bpn; interval with (i_prec 60))) as (e6 & E6 & R6).
  destruct (add_e rm _ _ _ _ 1 R6 R5 ltac:(lia) ltac:(unfold C0, C1, C2; bpn_in E1; bpn_in E2; bpn_in E3; bpn_in E4; bpn_in E5; bpn_in E6; bpn; interval with (i_prec 60))) as (e7 & E7 & R7).
  eexists. split; [exact R7|].
  match goal with |- (Rabs ?t <= _)%R => replace t with ((C0 * r + C1 + e1 + e2) * e3 + (e1 + e2) * (r * r) + e6 + e4 + e5 + e7)%R by (unfold P3; ring) end.
  unfold C0, C1. bpn_in E1; bpn_in E2; bpn_in E3; bpn_in E4; bpn_in E5; bpn_in E6; bpn_in E7; bpn. interval with (i_prec 60).
Qed.

Lemma combine : forall V T Y G j e8 dl eps g, (Rabs (V - T) <= bp (-53))%R -> (1 <= T < 2)%R -> (Rabs (Y - G) <= dl)%R -> (0 < g <= G)%R -> (G <= 3 / 2)%R ->
  (0 <= dl <= 1)%R -> (0 <= eps)%R -> (Rabs e8 <= bp (j - 51))%R -> (dl + bp (-50) <= eps * g)%R ->
  (Rabs (V * bp j * Y + e8 - T * bp j * G) <= eps * (T * bp j * G))%R.
Proof.
  intros V T Y G j e8 dl eps g HV HT HY Hg HG Hd He HE HS.
  assert (B : (0 < bp j)%R) by apply bpow_gt_0.
  set (f := (e8 * / bp j)%R).
  assert (E8 : e8 = (f * bp j)%R) by (unfold f; field; lra).
  assert (Hf : (Rabs f <= bp (-51))%R).
  { apply Rmult_le_reg_r with (bp j); auto. rewrite <- (Rabs_pos_eq (bp j)) at 1 by lra. rewrite <- Rabs_mult, <- E8, <- bpow_plus.
    replace (-51 + j) with (j - 51) by ring. auto. }
  rewrite E8. replace (V * bp j * Y + f * bp j - T * bp j * G)%R with (((V - T) * G + V * (Y - G) + f) * bp j)%R by ring.
  replace (eps * (T * bp j * G))%R with (eps * T * G * bp j)%R by ring.
  rewrite Rabs_mult, (Rabs_pos_eq (bp j)) by lra. apply Rmult_le_compat_r; [lra|].
  apply Rle_trans with (T * (eps * g))%R.
  2: { replace (eps * T * G)%R with (T * (eps * G))%R by ring. apply Rmult_le_compat_l; [lra|]. apply Rmult_le_compat_l; lra. }
  apply Rle_trans with (T * (dl + bp (-50)))%R; [|apply Rmult_le_compat_l; lra].
  apply Rle_trans with (Rabs ((V - T) * G) + Rabs (V * (Y - G)) + Rabs f)%R.
  { apply Rle_trans with (1 := Rabs_triang _ _). apply Rplus_le_compat_r. apply Rabs_triang. }
  rewrite !Rabs_mult.
  assert (V1 : (Rabs V <= T + bp (-53))%R). { replace V with (T + (V - T))%R by ring. apply Rle_trans with (1 := Rabs_triang _ _). rewrite (Rabs_pos_eq T) by lra. lra. }
  assert (A1 : (Rabs (V - T) * Rabs G <= bp (-53) * (3 / 2))%R).
  { rewrite (Rabs_pos_eq G) by lra. apply Rmult_le_compat; try lra. apply Rabs_pos. }
  assert (A2 : (Rabs V * Rabs (Y - G) <= T * dl + bp (-53))%R).
  { apply Rle_trans with ((T + bp (-53)) * dl)%R; [apply Rmult_le_compat; auto; apply Rabs_pos|].
    rewrite Rmult_plus_distr_r. apply Rplus_le_compat_l. rewrite <- (Rmult_1_r (bp (-53))) at 2. apply Rmult_le_compat_l; [apply bpow_ge_0|lra]. }
  bpn. bpn_in A1. bpn_in A2. bpn_in Hf. lra.
Qed.

Lemma shift_exp2f : exp2f_shift = (1075 - 5) * 2 ^ 52 + 2 ^ 51. Proof. vm_compute. reflexivity. Qed.

(** exp2_float_impl: the double that is finally rounded to float. *)
Lemma exp2f_core : forall rm x X, is_real F32 x X -> (-150 <= X <= 128)%R -> exists y W, exp2f_main rm x = f_cast F64 F32 rm y /\ is_real D y W /\
  (Rabs (W - Rpower 2 X) <= bp (-26) * Rpower 2 X)%R /\ (rm = RNE -> (Rabs (W - Rpower 2 X) <= bp (-33) * Rpower 2 X)%R).
Proof.
  intros rm x X Hx HX. pose proof (widen rm x X Hx) as Hd. unfold exp2f_main.
  destruct (shift_trick rm 5 _ X ltac:(lia) Hd) as (k & K1 & K2 & K3 & K4 & K5 & _).
  { change (50 - 5) with 45. apply Rabs_le. bpn. lra. }
  change (- (5)) with (-5) in *. change (-5 - 1) with (-6) in *. rewrite <- shift_exp2f in *. set (xd := f_cast F32 F64 rm x) in *. set (kd := f_sub F64 rm (f_add F64 rm xd exp2f_shift) exp2f_shift) in *.
  set (d := (X - IZR k * bp (-5))%R) in *.
  assert (KB : -32000 <= k <= 32000).
  { assert (Rabs (IZR k) <= 32000)%R.
    { replace (IZR k) with ((X - d) * 32)%R by (unfold d; bpn; field). apply Rabs_le_inv in K4. bpn_in K4. apply Rabs_le. lra. }
    apply Rabs_le_inv in H. split; apply le_IZR; lra. }
  change (bp (-5)) with (/ 32)%R in K4.
  destruct (sub_e rm _ _ _ _ (-4) Hd K3 ltac:(lia)) as (e0 & E0 & R0).
  { fold d. bpn. lra. }
  fold d in R0. set (rem := f_sub F64 rm xd kd) in *.
  assert (RB : (Rabs (d + e0) <= / 32 + bp (-50))%R).
  { apply Rle_trans with (1 := Rabs_triang _ _). bpn. bpn_in E0. lra. }
  destruct (poly_eval rm rem _ R0 RB) as (Y & RY & EY).
  destruct (scale32 exp2f_shift k) as (V & T & RV & EV & TB & TE); [exists ((1075 - 5) * 2 ^ 35 + 2 ^ 34); vm_compute; reflexivity|exact KB|].
  rewrite K1. set (sc := wrap 64 _) in *. set (yp := f_add F64 rm (f_mul F64 rm _ _) _) in *.
  set (j := k / 32) in *.
  assert (JB : -1000 <= j <= 1000) by (unfold j; split; [apply Z.div_le_lower_bound|apply Z.div_le_upper_bound]; lia).
  set (G := exp (d * ln 2)).
  assert (XE : (Rpower 2 X = T * bp j * G)%R).
  { rewrite TE. unfold G. fold (Rpower 2 d). rewrite <- Rpower_plus. f_equal. unfold d. change (bp (-5)) with (/ 32)%R. field. }
  assert (GE : (Rabs (exp ((d + e0) * ln 2) - G) <= bp (-55))%R).
  { unfold G. rewrite Rmult_plus_distr_r, exp_plus. replace (exp (d * ln 2) * exp (e0 * ln 2) - exp (d * ln 2))%R with (exp (d * ln 2) * (exp (e0 * ln 2) - 1))%R by ring.
    bpn_in E0. bpn. interval with (i_prec 80). }
  assert (GB : (97 / 100 <= G <= 3 / 2)%R) by (unfold G; interval with (i_prec 60)).
  assert (YB : (Rabs Y <= 7 / 4)%R).
  { pose proof (P3_far _ RB). replace Y with (Y - P3 (d + e0) + (P3 (d + e0) - exp ((d + e0) * ln 2)) + (exp ((d + e0) * ln 2) - G) + G)%R by ring. bpn_in EY. bpn_in GE.
    repeat match goal with HH : (Rabs _ <= _)%R |- _ => apply Rabs_le_inv in HH end. apply Rabs_le. lra. }
  destruct (mul_e rm _ _ _ _ (j + 2) RY RV ltac:(lia)) as (e8 & E8 & R8).
  { rewrite Z.add_comm, bpow_plus. change (bp 2) with 4%R. rewrite !Rabs_mult, (Rabs_pos_eq (bp j)) by apply bpow_ge_0. rewrite <- Rmult_assoc. apply Rmult_le_compat_r; [apply bpow_ge_0|].
    assert (Rabs V <= 21 / 10)%R by (bpn_in EV; apply Rabs_le_inv in EV; apply Rabs_le; lra).
    apply Rle_trans with (7 / 4 * (21 / 10))%R; [|lra]. apply Rmult_le_compat; auto; apply Rabs_pos. }
  replace (j + 2 - 53) with (j - 51) in E8 by ring.
  exists (f_mul F64 rm yp sc), (Y * (V * bp j) + e8)%R. split; [reflexivity|split; [exact R8|]]. rewrite XE.
  replace (Y * (V * bp j) + e8)%R with (V * bp j * Y + e8)%R by ring. split.
  - pose proof (P3_far _ RB) as PF. apply combine with (dl := (76 / 10000000000 + bp (-49))%R) (g := (97 / 100)%R); auto; try (bpn; lra).
    + replace (Y - G)%R with (Y - P3 (d + e0) + (P3 (d + e0) - exp ((d + e0) * ln 2)) + (exp ((d + e0) * ln 2) - G))%R by ring. bpn_in EY. bpn_in GE.
      repeat match goal with HH : (Rabs _ <= _)%R |- _ => apply Rabs_le_inv in HH end. apply Rabs_le. bpn. lra.
  - intros EM. specialize (K5 EM). change (bp (-6)) with (/ 64)%R in K5.
    assert (RB' : (Rabs (d + e0) <= / 64 + bp (-50))%R).
    { apply Rle_trans with (1 := Rabs_triang _ _). bpn. bpn_in E0. lra. }
    assert (GB' : (989 / 1000 <= G)%R) by (unfold G; interval with (i_prec 60)).
    pose proof (P3_near _ RB') as PF. apply combine with (dl := (100 / 1000000000000 + bp (-49))%R) (g := (989 / 1000)%R); auto; try (bpn; lra).
    + replace (Y - G)%R with (Y - P3 (d + e0) + (P3 (d + e0) - exp ((d + e0) * ln 2)) + (exp ((d + e0) * ln 2) - G))%R by ring. bpn_in EY. bpn_in GE.
      repeat match goal with HH : (Rabs _ <= _)%R |- _ => apply Rabs_le_inv in HH end. apply Rabs_le. bpn. lra.
Qed.

(** Integral arguments: every step is exact. *)
Lemma gfD : forall m e, Z.abs m < 2 ^ 53 -> -1074 <= e -> generic_format radix2 fexpD (IZR m * bp e).
Proof. intros m e H1 H2. apply (fmt_scaled D); auto. Qed.
Lemma bpD : forall e, -1074 <= e -> generic_format radix2 fexpD (bp e).
Proof. intros e H. rewrite <- (Rmult_1_l (bp e)). apply (gfD 1); [reflexivity|auto]. Qed.
Lemma exp2f_int : forall rm x n, is_real F32 x (IZR n) -> -150 <= n <= 128 -> exists y, exp2f_main rm x = f_cast F64 F32 rm y /\ is_real D y (bp n).
Proof.
  intros rm x n Hx Hn. pose proof (widen rm x _ Hx) as Hd. unfold exp2f_main.
  destruct (shift_trick rm 5 _ (IZR n) ltac:(lia) Hd) as (k & K1 & K2 & K3 & _ & _ & K6).
  { change (50 - 5) with 45. rewrite <- abs_IZR. change (bp 45) with (IZR (2 ^ 45)). apply IZR_le. lia. }
  change (- (5)) with (-5) in *.
  assert (KE : k = 32 * n) by (apply K6; rewrite mult_IZR; change (bp (-5)) with (/ 32)%R; field). subst k.
  replace (IZR (32 * n) * bp (-5))%R with (IZR n) in K3 by (rewrite mult_IZR; change (bp (-5)) with (/ 32)%R; field).
  rewrite <- shift_exp2f in *. set (xd := f_cast F32 F64 rm x) in *. set (kd := f_sub F64 rm (f_add F64 rm xd exp2f_shift) exp2f_shift) in *.
  assert (big1 : forall z, (Rabs z <= 2)%R -> (Rabs z < bp (bias D + 1))%R).
  { intros z Hz. apply Rle_lt_trans with (1 := Hz). change 2%R with (bp 1). apply bpow_lt. reflexivity. }
  assert (G0 : generic_format radix2 fexpD 0) by apply generic_format_0.
  assert (B0 : (Rabs 0 < bp (bias D + 1))%R) by (apply big1; rewrite Rabs_R0; lra).
  assert (R0 : is_real D (f_sub F64 rm xd kd) 0) by (apply (sub_x D good64 rm _ _ _ _ 0 Hd K3); auto; ring).
  set (rem := f_sub F64 rm xd kd) in *.
  assert (H0 : is_real D (at_ exp2f_poly 0) C0) by (apply lit_r; lia).
  assert (H1 : is_real D (at_ exp2f_poly 1) C1) by (apply lit_r; lia).
  assert (H2 : is_real D (at_ exp2f_poly 2) C2) by (apply lit_r; lia).
  assert (HO : is_real D (f_of_Z F64 rm 1) 1) by (apply (ofz_r D good64 rm 1); vm_compute; congruence).
  assert (G1 : generic_format radix2 fexpD 1) by (apply (bpD 0); lia).
  assert (B1 : (Rabs 1 < bp (bias D + 1))%R) by (apply big1; rewrite Rabs_R1; lra).
  pose proof (mul_x D good64 rm _ _ _ _ 0 H0 R0 (Rmult_0_r _) G0 B0) as M0.
  pose proof (add_x D good64 rm _ _ _ _ C1 M0 H1 (Rplus_0_l _) ltac:(apply gfD; [reflexivity|lia]) ltac:(apply big1; unfold C1; bpn; interval with (i_prec 60))) as M1.
  pose proof (mul_x D good64 rm _ _ _ _ 0 R0 R0 (Rmult_0_r _) G0 B0) as M2.
  pose proof (mul_x D good64 rm _ _ _ _ 0 H2 R0 (Rmult_0_r _) G0 B0) as M3.
  pose proof (add_x D good64 rm _ _ _ _ 1 M3 HO (Rplus_0_l _) G1 B1) as M4.
  pose proof (mul_x D good64 rm _ _ _ _ 0 M1 M2 (Rmult_0_r _) G0 B0) as M5.
  pose proof (add_x D good64 rm _ _ _ _ 1 M5 M4 (Rplus_0_l _) G1 B1) as M6.
  rewrite K1.
  pose proof (scale_index 5 exp2f_tab exp2f_shift (32 * n) ltac:(lia) ltac:(exists ((1075 - 5) * 2 ^ 35 + 2 ^ 34); vm_compute; reflexivity)) as SI.
  cbv zeta in SI. change (2 ^ 5) with 32 in SI. change (52 - 5) with 47 in SI. rewrite (Z.mul_comm 32 n), Z.mod_mul, Z.div_mul in SI by lia.
  rewrite (Z.mul_comm 32 n) in *. change (at_ exp2f_tab 0 + 0 * 2 ^ 47) with (1023 * 2 ^ 52) in SI. rewrite SI by lia.
  assert (SC : is_real D (1023 * 2 ^ 52 + n * 2 ^ 52) (bp n)).
  { rewrite <- (Rmult_1_l (bp n)). apply scale_pat; try lia.
    - rewrite Z.div_mul; lia.
    - pose proof (pos_pat (1023 * 2 ^ 52) ltac:(lia)) as PP. rewrite Z.mod_mul, Z.div_mul in PP by lia. replace 1%R with (IZR (2 ^ 52 + 0) * bp (1023 - 1075))%R; [exact PP|].
      change (IZR (2 ^ 52 + 0)) with (bp 52). rewrite <- bpow_plus. reflexivity. }
  eexists. split; [reflexivity|]. apply (mul_x D good64 rm _ _ _ _ (bp n) M6 SC (Rmult_1_l _)); [apply bpD; lia|].
  rewrite Rabs_pos_eq by apply bpow_ge_0. apply bpow_lt. change (bias D + 1) with 1024. lia.
Qed.
