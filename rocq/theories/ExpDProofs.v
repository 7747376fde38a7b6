(** * exp, exp2 (double): the computed value against the real exponential *)
From Coq Require Import ZArith Lia Bool Reals Lra List.
From Flocq Require Import Core.
From Interval Require Import Tactic.
From Verif Require Import MachInt Fmt FloatSpec FmtProofs RoundProofs FOps FOpsProofs ExactOps RemProofs ExtFloatSpec ExtFloatProofs ExtInterp FmanipWide ErrLib ExpoData ExpoF Exp2fProofs LogfNum LogfProofs ExpoDataD ExpD ExpDNum ExpDFin.
Import ListNotations.
Open Scope Z_scope.

(** The sign test on the bits of the shifted argument. *)
Lemma sign_bit31 : forall sp k, (2 ^ 32 | sp) -> - 2 ^ 31 < k < 2 ^ 31 -> (Z.land (sp + k) 0x80000000 =? 0) = (0 <=? k / 128).
Proof.
  intros sp k [c Hc] Hk. change 0x80000000 with (2 ^ 31).
  assert (E : Z.land (sp + k) (2 ^ 31) = if Z.testbit (sp + k) 31 then 2 ^ 31 else 0).
  { apply Z.bits_inj'. intros n Hn. rewrite Z.land_spec, Z.pow2_bits_eqb by lia. destruct (Z.eqb_spec 31 n) as [<-|N].
    - rewrite andb_true_r. destruct (Z.testbit (sp + k) 31); [rewrite Z.pow2_bits_eqb by lia; reflexivity|rewrite Z.bits_0; reflexivity].
    - rewrite andb_false_r. symmetry. destruct (Z.testbit (sp + k) 31); [rewrite Z.pow2_bits_eqb by lia; apply Z.eqb_neq; auto|apply Z.bits_0]. }
  rewrite E. rewrite Z.testbit_odd, Z.shiftr_div_pow2 by lia.
  replace (sp + k) with (k + 2 * c * 2 ^ 31) by (rewrite Hc; ring). rewrite Z.div_add by lia. rewrite Z.odd_add, Z.odd_mul. cbn [Z.odd]. rewrite xorb_false_r.
  destruct (Z_lt_le_dec k 0) as [L|L].
  - replace (k / 2 ^ 31) with (-1) by (apply Z.div_unique with (k + 2 ^ 31); lia). cbn. symmetry. apply Z.leb_gt. apply Z.div_lt_upper_bound; lia.
  - rewrite Z.div_small by lia. cbn. symmetry. apply Z.leb_le. apply Z.div_pos; lia.
Qed.
(** The table lookup and the exponent. *)
Lemma lookup : forall sp k, (2 ^ 19 | sp) -> exists P V T, 1023 * 2 ^ 52 <= P < 1024 * 2 ^ 52 /\ is_real D P V /\ is_real D (at_ exp2d_tab (2 * ((sp + k) mod 128))) T /\
  wrap 64 (at_ exp2d_tab (2 * ((sp + k) mod 128) + 1) + wrap 64 (Z.shiftl (sp + k) 45)) = wrap 64 (P + (k / 128) * 2 ^ 52) /\ (Rabs T <= bp (-53))%R /\
  (Rabs (V * (1 + T) - Rpower 2 (IZR (k mod 128) / 128)) <= bp (-80))%R /\ (k mod 128 = 0 -> V = 1%R /\ T = 0%R).
Proof.
  intros sp k [c Hc]. pose proof (Z.mod_pos_bound k 128 ltac:(lia)) as MB. destruct (tab128 (k mod 128) MB) as (V & T & R1 & R2 & HP & HT & HA & HZ).
  assert (E : (sp + k) mod 128 = k mod 128).
  { replace (sp + k) with (k + c * 2 ^ 12 * 128) by (rewrite Hc; ring). apply Z.mod_add. lia. }
  exists (at_ exp2d_tab (2 * (k mod 128) + 1) + k mod 128 * 2 ^ 45), V, T. rewrite E. split; [exact HP|split; [exact R1|split; [exact R2|split; [|auto]]]].
  unfold wrap. rewrite Z.add_mod_idemp_r by lia. rewrite Z.shiftl_mul_pow2 by lia.
  replace (at_ exp2d_tab (2 * (k mod 128) + 1) + (sp + k) * 2 ^ 45) with (at_ exp2d_tab (2 * (k mod 128) + 1) + k mod 128 * 2 ^ 45 + k / 128 * 2 ^ 52 + c * 2 ^ 64).
  - apply Z.mod_add. lia.
  - rewrite Hc. pose proof (Z.div_mod k 128 ltac:(lia)) as KD. set (i := k mod 128) in *. set (j := k / 128) in *. clearbody i j. rewrite KD. ring.
Qed.
Lemma pow_split : forall k, Rpower 2 (IZR k / 128) = (Rpower 2 (IZR (k mod 128) / 128) * bp (k / 128))%R.
Proof. intros k. rewrite <- Rpower2_Z, <- Rpower_plus. f_equal. rewrite (Z.div_mod k 128) at 1 by lia. rewrite plus_IZR, mult_IZR. field. Qed.

Lemma combine2 : forall V T TM Tt G d g D0 q eps, (1 <= V < 2)%R -> (Rabs T <= bp (-53))%R -> (Rabs (V * (1 + T) - Tt) <= bp (-80))%R ->
  TM = (T + (G - 1) + d)%R -> (Rabs d <= D0)%R -> (Rabs (G - 1) <= g)%R -> (0 <= g <= / 2)%R ->
  (bp (-79) + (1 + bp (-50)) * (D0 + bp (-53) * g) + (1 + bp (-50)) * bp (-52 - q) <= eps * (1 - g))%R -> (0 <= eps)%R ->
  (Rabs (V * (1 + TM) - Tt * G) + bp (-52 - q) <= eps * (Tt * G))%R.
Proof.
  intros V T TM Tt G d g D0 q eps HV HT HA -> Hd HG Hg HS He.
  replace (V * (1 + (T + (G - 1) + d)) - Tt * G)%R with ((V * (1 + T) - Tt) * G + V * (d + T * (1 - G)))%R by ring.
  assert (VT : (V <= Tt * (1 + bp (-50)))%R).
  { apply Rabs_le_inv in HA. apply Rabs_le_inv in HT. bpn_in HA. bpn_in HT. bpn.
    assert (V * (1 + T) >= V * (1 - 1 / 9007199254740992))%R by (apply Rmult_ge_compat_l; lra). lra. }
  assert (T1 : (/ 2 <= Tt)%R).
  { bpn_in VT. lra. }
  assert (T2 : (1 <= Tt * (1 + bp (-50)))%R) by lra.
  apply Rabs_le_inv in HG.
  assert (D0' : (0 <= D0)%R) by (apply Rle_trans with (2 := Hd); apply Rabs_pos).
  assert (A1 : (Rabs ((V * (1 + T) - Tt) * G) <= bp (-80) * (1 + g))%R).
  { rewrite Rabs_mult. apply Rmult_le_compat; auto using Rabs_pos. rewrite Rabs_pos_eq; lra. }
  assert (A2 : (Rabs (d + T * (1 - G)) <= D0 + bp (-53) * g)%R).
  { apply Rle_trans with (1 := Rabs_triang _ _). apply Rplus_le_compat; auto. rewrite Rabs_mult. apply Rmult_le_compat; auto using Rabs_pos. apply Rabs_le. lra. }
  assert (A3 : (Rabs (V * (d + T * (1 - G))) <= Tt * (1 + bp (-50)) * (D0 + bp (-53) * g))%R).
  { rewrite Rabs_mult. apply Rmult_le_compat; auto using Rabs_pos. rewrite Rabs_pos_eq; lra. }
  pose proof (bpow_gt_0 radix2 (-52 - q)) as Bq.
  assert (A4 : (bp (-52 - q) <= Tt * ((1 + bp (-50)) * bp (-52 - q)))%R).
  { replace (Tt * ((1 + bp (-50)) * bp (-52 - q)))%R with ((Tt * (1 + bp (-50))) * bp (-52 - q))%R by ring. rewrite <- (Rmult_1_l (bp (-52 - q))) at 1. apply Rmult_le_compat_r; lra. }
  assert (A5 : (bp (-80) * (1 + g) <= Tt * bp (-79))%R).
  { assert (N80 : bp (-79) = (2 * bp (-80))%R) by (change (-79) with (1 + -80); rewrite bpow_plus; reflexivity). rewrite N80. pose proof (bpow_gt_0 radix2 (-80)).
    assert (bp (-80) * (1 + g) <= bp (-80) * (3 / 2))%R by (apply Rmult_le_compat_l; lra).
    assert (Tl : (3 / 4 <= Tt)%R) by (bpn_in T2; lra).
    assert (bp (-80) * (3 / 4) <= bp (-80) * Tt)%R by (apply Rmult_le_compat_l; lra). lra. }
  apply Rle_trans with (Tt * (eps * (1 - g)))%R.
  - apply Rle_trans with (Tt * (bp (-79) + (1 + bp (-50)) * (D0 + bp (-53) * g) + (1 + bp (-50)) * bp (-52 - q)))%R; [|apply Rmult_le_compat_l; lra].
    apply Rle_trans with (Rabs ((V * (1 + T) - Tt) * G) + Rabs (V * (d + T * (1 - G))) + bp (-52 - q))%R; [apply Rplus_le_compat_r; apply Rabs_triang|]. lra.
  - replace (eps * (Tt * G))%R with (Tt * (eps * G))%R by ring. apply Rmult_le_compat_l; [lra|]. apply Rmult_le_compat_l; lra.
Qed.

(** The evaluation of the polynomial: [q] is 8 to nearest, 7 otherwise. *)
Definition bA (q : Z) : R := if q =? 8 then (273 / 100000)%R else (545 / 100000)%R.
Definition bR (q : Z) : R := if q =? 8 then (/ 255)%R else (/ 127)%R.
Lemma polyD : forall rm q tail ra rem p2 p3 p4 p5 T A r c2 c3 c4 c5, q = 7 \/ q = 8 -> is_real D tail T -> is_real D ra A -> is_real D rem r ->
  is_real D p2 c2 -> is_real D p3 c3 -> is_real D p4 c4 -> is_real D p5 c5 -> (Rabs T <= bp (-53))%R -> (Rabs A <= bA q)%R -> (Rabs r <= bR q)%R ->
  (Rabs c2 <= 51 / 100)%R -> (Rabs c3 <= 17 / 100)%R -> (Rabs c4 <= 5 / 100)%R -> (Rabs c5 <= / 100)%R ->
  exists TM, is_real D (f_add D rm (f_add D rm (f_add D rm tail ra) (f_mul D rm (f_mul D rm rem rem) (f_add D rm p2 (f_mul D rm rem p3))))
    (f_mul D rm (f_mul D rm (f_mul D rm rem rem) (f_mul D rm rem rem)) (f_add D rm p4 (f_mul D rm rem p5)))) TM /\
   (Rabs TM <= bp (- q))%R /\ (Rabs (TM - (T + A + r * r * (c2 + r * c3) + r * r * (r * r) * (c4 + r * c5))) <= 3 * bp (- q - 53) + bp (-64))%R.
Proof.
  intros rm q tail ra rem p2 p3 p4 p5 T A r c2 c3 c4 c5 Hq HT HA Hr H2 H3 H4 H5 BT BA BR B2 B3 B4 B5.
  bpn_in BT.
  assert (BR' : (Rabs r <= / 127)%R) by (unfold bR in BR; destruct Hq as [-> | ->]; cbn in BR; lra).
  destruct (mul_e rm _ _ _ _ (-9) Hr H3 ltac:(lia) ltac:(bpn; interval with (i_prec 60))) as (f1 & E1 & R1). bpn_in E1.
  destruct (add_e rm _ _ _ _ 0 H2 R1 ltac:(lia) ltac:(bpn; interval with (i_prec 60))) as (f2 & E2 & R2). bpn_in E2.
  destruct (mul_e rm _ _ _ _ (-13) Hr Hr ltac:(lia) ltac:(bpn; interval with (i_prec 60))) as (f3 & E3 & R3). bpn_in E3.
  destruct (mul_e rm _ _ _ _ (-14) R3 R2 ltac:(lia) ltac:(bpn; interval with (i_prec 60))) as (f4 & E4 & R4). bpn_in E4.
  destruct (mul_e rm _ _ _ _ (-27) R3 R3 ltac:(lia) ltac:(bpn; interval with (i_prec 60))) as (f5 & E5 & R5). bpn_in E5.
  destruct (mul_e rm _ _ _ _ (-9) Hr H5 ltac:(lia) ltac:(bpn; interval with (i_prec 60))) as (f6 & E6 & R6). bpn_in E6.
  destruct (add_e rm _ _ _ _ (-3) H4 R6 ltac:(lia) ltac:(bpn; interval with (i_prec 60))) as (f7 & E7 & R7). bpn_in E7.
  destruct (mul_e rm _ _ _ _ (-30) R5 R7 ltac:(lia) ltac:(bpn; interval with (i_prec 60))) as (f8 & E8 & R8). bpn_in E8.
  assert (CORE : exists f9 f10 f11, (Rabs f9 <= bp (- q - 53))%R /\ (Rabs f10 <= bp (- q - 53))%R /\ (Rabs f11 <= bp (- q - 53))%R /\
    is_real D (f_add D rm (f_add D rm (f_add D rm tail ra) (f_mul D rm (f_mul D rm rem rem) (f_add D rm p2 (f_mul D rm rem p3))))
    (f_mul D rm (f_mul D rm (f_mul D rm rem rem) (f_mul D rm rem rem)) (f_add D rm p4 (f_mul D rm rem p5))))
     (T + A + f9 + ((r * r + f3) * (c2 + (r * c3 + f1) + f2) + f4) + f10 + ((r * r + f3) * (r * r + f3) + f5) * (c4 + (r * c5 + f6) + f7) + f8 + f11)%R /\
    (Rabs (T + A + f9 + ((r * r + f3) * (c2 + (r * c3 + f1) + f2) + f4) + f10 + ((r * r + f3) * (r * r + f3) + f5) * (c4 + (r * c5 + f6) + f7) + f8 + f11) <= bp (- q))%R).
  { destruct Hq as [-> | ->]; unfold bA, bR in BA, BR; cbn [Z.eqb Pos.eqb] in BA, BR.
    - destruct (add_e rm _ _ _ _ (-7) HT HA ltac:(lia) ltac:(bpn; interval with (i_prec 60))) as (f9 & E9 & R9). pose proof E9 as E9'. bpn_in E9.
      destruct (add_e rm _ _ _ _ (-7) R9 R4 ltac:(lia) ltac:(bpn; interval with (i_prec 60))) as (f10 & E10 & R10). pose proof E10 as E10'. bpn_in E10.
      destruct (add_e rm _ _ _ _ (-7) R10 R8 ltac:(lia) ltac:(bpn; interval with (i_prec 60))) as (f11 & E11 & R11). pose proof E11 as E11'. bpn_in E11.
      exists f9, f10, f11. split; [exact E9'|split; [exact E10'|split; [exact E11'|split]]].
      + match goal with |- is_real _ _ ?t => match type of R11 with is_real _ _ ?u => replace t with u by ring end end. exact R11.
      + change (- (7)) with (-7). bpn. interval with (i_prec 60).
    - destruct (add_e rm _ _ _ _ (-8) HT HA ltac:(lia) ltac:(bpn; interval with (i_prec 60))) as (f9 & E9 & R9). pose proof E9 as E9'. bpn_in E9.
      destruct (add_e rm _ _ _ _ (-8) R9 R4 ltac:(lia) ltac:(bpn; interval with (i_prec 60))) as (f10 & E10 & R10). pose proof E10 as E10'. bpn_in E10.
      destruct (add_e rm _ _ _ _ (-8) R10 R8 ltac:(lia) ltac:(bpn; interval with (i_prec 60))) as (f11 & E11 & R11). pose proof E11 as E11'. bpn_in E11.
      exists f9, f10, f11. split; [exact E9'|split; [exact E10'|split; [exact E11'|split]]].
      + match goal with |- is_real _ _ ?t => match type of R11 with is_real _ _ ?u => replace t with u by ring end end. exact R11.
      + change (- (8)) with (-8). bpn. interval with (i_prec 60). }
  destruct CORE as (f9 & f10 & f11 & E9 & E10 & E11 & RR & BB). eexists. split; [exact RR|split; [exact BB|]].
  match goal with |- (Rabs ?t <= _)%R => replace t with ((f9 + f10 + f11) + (f3 * (c2 + r * c3) + (r * r + f3) * (f1 + f2) + f4 + (2 * r * r * f3 + f3 * f3 + f5) * (c4 + r * c5 + f6 + f7) + r * r * (r * r) * (f6 + f7) + f8))%R by ring end.
  apply Rle_trans with (1 := Rabs_triang _ _). apply Rplus_le_compat.
  - apply Rle_trans with (1 := Rabs_triang _ _). pose proof (Rabs_triang f9 f10). lra.
  - bpn. interval with (i_prec 60).
Qed.

Definition epsD (rm : rmode) : R := match rm with RNE => bp (-57) | _ => bp (-54) end.
Definition qD (rm : rmode) : Z := match rm with RNE => 8 | _ => 7 end.
Lemma qD_cases : forall rm, qD rm = 7 \/ qD rm = 8. Proof. destruct rm; auto. Qed.
Definition hD (rm : rmode) : R := match rm with RNE => (/ 2)%R | _ => 1%R end.

Lemma shift_expd : expd_shift = (1075 - 0) * 2 ^ 52 + 2 ^ 51. Proof. vm_compute. reflexivity. Qed.
Lemma shift_exp2d : exp2d_shift = (1075 - 7) * 2 ^ 52 + 2 ^ 51. Proof. vm_compute. reflexivity. Qed.
Definition iL : R := (IZR 0x171547652b82fe * bp (-45))%R.
Definition hiN : R := (IZR (-0x162e42fefa0000) * bp (-60))%R.
Definition loN : R := (IZR (-0x1cf79abc9e3b3a) * bp (-99))%R.
Lemma iL_real : is_real D expd_invln2N iL.
Proof. replace expd_invln2N with (lit 0x171547652b82fe (-45)) by (vm_compute; reflexivity). apply lit_r; lia. Qed.
Lemma iL_val : (Rabs (1 - iL * (ln 2 / 128)) <= bp (-52))%R. Proof. unfold iL. bpn. interval with (i_prec 80). Qed.
Lemma hi_val : (Rabs (hiN + ln 2 / 128) <= bp (-46))%R. Proof. unfold hiN. bpn. interval with (i_prec 80). Qed.
Lemma hilo_val : (Rabs (hiN + loN + ln 2 / 128) <= bp (-97))%R. Proof. unfold hiN, loN. bpn. interval with (i_prec 130). Qed.
Lemma lo_val : (Rabs loN <= bp (-46))%R. Proof. unfold loN. bpn. interval with (i_prec 80). Qed.

(** The argument reduction: X = k ln2 / 128 + R. *)
Lemma expd_reduce : forall rm x X, is_real D x X -> (Rabs X <= 1024)%R -> exists k rem r,
  f_add D rm (f_mul D rm expd_invln2N x) expd_shift = expd_shift + k /\
  (let kd := f_sub D rm (f_add D rm (f_mul D rm expd_invln2N x) expd_shift) expd_shift in
   rem = f_add D rm (f_add D rm x (f_mul D rm kd expd_negln2hi)) (f_mul D rm kd expd_negln2lo)) /\
  is_real D rem r /\ (Rabs (X - IZR k * (ln 2 / 128)) <= (hD rm + / 1000) * (ln 2 / 128))%R /\
  (Rabs (r - (X - IZR k * (ln 2 / 128))) <= bp (-41))%R /\
  ((Rabs X <= 1023)%R -> (Rabs (r - (X - IZR k * (ln 2 / 128))) <= 2 * bp (- qD rm - 53) + bp (-78))%R).
Proof.
  intros rm x X Hx HX.
  destruct (mul_e rm _ _ _ _ 18 iL_real Hx ltac:(lia) ltac:(unfold iL; bpn; interval with (i_prec 60))) as (e0 & E0 & R0).
  change (18 - 53) with (-35) in E0.
  assert (BS : (Rabs (iL * X + e0) <= 190000)%R) by (unfold iL; bpn_in E0; bpn; interval with (i_prec 60)).
  destruct (shift_trick rm 0 _ _ ltac:(lia) R0) as (k & K1 & _ & K3 & K4 & K5 & _).
  { change (bp (50 - 0)) with (IZR (2 ^ 50)). change (2 ^ 50) with 1125899906842624. lra. }
  rewrite <- shift_expd in *. change (bp (- 0)) with 1%R in *. change (- 0 - 1) with (-1) in K5. change (bp (-1)) with (/ 2)%R in K5. rewrite Rmult_1_r in *.
  set (m := (iL * X + e0 - IZR k)%R) in *.
  assert (HM : (Rabs m <= hD rm)%R) by (destruct rm; [apply K5; reflexivity|exact K4|exact K4|exact K4]).
  set (Rr := (X - IZR k * (ln 2 / 128))%R).
  set (z := (1 - iL * (ln 2 / 128))%R). pose proof iL_val as ZV. fold z in ZV.
  assert (RE : Rr = ((m - e0) * (ln 2 / 128) + X * z)%R) by (unfold Rr, m, z; ring).
  assert (L2 : (541 / 100000 <= ln 2 / 128 <= 5416 / 1000000)%R) by (split; interval with (i_prec 60)).
  assert (RB : (Rabs Rr <= (hD rm + / 1000) * (ln 2 / 128))%R).
  { rewrite RE. apply Rle_trans with (1 := Rabs_triang _ _). rewrite Rabs_mult, (Rabs_pos_eq (ln 2 / 128)) by lra. bpn_in E0. bpn_in ZV.
    assert (Rabs (X * z) <= 1024 * (/ 4503599627370496))%R by (rewrite Rabs_mult; apply Rmult_le_compat; auto using Rabs_pos).
    assert (Rabs (m - e0) <= hD rm + / 34359738368)%R by (unfold Rminus; apply Rle_trans with (1 := Rabs_triang _ _); rewrite Rabs_Ropp; lra).
    assert (Rabs (m - e0) * (ln 2 / 128) <= (hD rm + / 34359738368) * (ln 2 / 128))%R by (apply Rmult_le_compat_r; lra). lra. }
  assert (KB : (Rabs (IZR k) <= 190000)%R).
  { replace (IZR k) with ((iL * X + e0) - m)%R by (unfold m; ring). assert (Rabs (iL * X + e0) <= 189100)%R by (unfold iL; bpn_in E0; bpn; interval with (i_prec 60)).
    unfold Rminus. apply Rle_trans with (1 := Rabs_triang _ _). rewrite Rabs_Ropp. assert (hD rm <= 1)%R by (destruct rm; cbn [hD]; lra). lra. }
  assert (KZ : -190000 <= k <= 190000) by (apply Rabs_le_inv in KB; split; apply le_IZR; lra).
  assert (HH : is_real D expd_negln2hi hiN) by (apply lit_r; lia).
  assert (HL : is_real D expd_negln2lo loN) by (apply lit_r; lia).
  set (kd := f_sub D rm (f_add D rm (f_mul D rm expd_invln2N x) expd_shift) expd_shift) in *.
  pose proof hi_val as HV. pose proof lo_val as LV. pose proof hilo_val as HLV.
  (* k * hi *)
  assert (MH : exists eh, is_real D (f_mul D rm kd expd_negln2hi) (IZR k * hiN + eh) /\ (Rabs eh <= bp (-42))%R /\ ((Rabs X <= 1023)%R -> eh = 0%R)).
  { destruct (Rle_dec (Rabs X) 1023) as [XL|XL].
    - exists 0%R. split; [|split; [rewrite Rabs_R0; apply bpow_ge_0|auto]]. apply (mul_x D good64 rm _ _ _ _ _ K3 HH); [ring| |].
      + rewrite Rplus_0_r. unfold hiN. replace (IZR k * (IZR (-0x162e42fefa0000) * bp (-60)))%R with (IZR (k * -47632711549) * bp (-43))%R.
        * apply gfD; [|lia]. assert (KS : -189000 <= k <= 189000); [|lia].
          assert (Rabs (IZR k) <= 189000)%R; [|apply Rabs_le_inv in H; split; apply le_IZR; lra].
          replace (IZR k) with ((iL * X + e0) - m)%R by (unfold m; ring). assert (Rabs (iL * X + e0) <= 188930)%R by (unfold iL; bpn_in E0; bpn; interval with (i_prec 60)).
          unfold Rminus. apply Rle_trans with (1 := Rabs_triang _ _). rewrite Rabs_Ropp. assert (hD rm <= 1)%R by (destruct rm; cbn [hD]; lra). lra.
        * rewrite mult_IZR. bpn. lra.
      + apply Rle_lt_trans with (bp 20); [|apply bpow_lt; reflexivity]. unfold hiN. bpn. rewrite Rplus_0_r. interval with (i_prec 60).
    - destruct (mul_e rm _ _ _ _ 11 K3 HH ltac:(lia) ltac:(unfold hiN; bpn; interval with (i_prec 60))) as (eh & EH & RH).
      exists eh. split; [exact RH|split; [exact EH|intros; lra]]. }
  destruct MH as (eh & RH & EH & EH0).
  assert (BR1 : (Rabs (X + (IZR k * hiN + eh)) <= (hD rm + / 500) * (ln 2 / 128))%R).
  { replace (X + (IZR k * hiN + eh))%R with (Rr + (IZR k * (hiN + ln 2 / 128) + eh))%R by (unfold Rr; ring). apply Rle_trans with (1 := Rabs_triang _ _).
    assert (Rabs (IZR k * (hiN + ln 2 / 128) + eh) <= / 1000000)%R by (bpn_in HV; bpn_in EH; interval with (i_prec 60)). lra. }
  assert (BQ : (Rabs (X + (IZR k * hiN + eh)) <= bp (- qD rm))%R).
  { apply Rle_trans with (1 := BR1). destruct rm; cbn [hD qD]; bpn; interval with (i_prec 60). }
  destruct (add_e rm _ _ _ _ (- qD rm) Hx RH ltac:(destruct rm; cbn [qD]; lia) BQ) as (e1 & E1 & R1).
  destruct (mul_e rm _ _ _ _ (-28) K3 HL ltac:(lia) ltac:(bpn_in LV; bpn; interval with (i_prec 60))) as (e2 & E2 & R2).
  set (r0 := (X + (IZR k * hiN + eh) + e1 + (IZR k * loN + e2))%R).
  assert (E1s : (Rabs e1 <= bp (-60))%R) by (apply Rle_trans with (1 := E1); apply bpow_le; destruct rm; cbn [qD]; lia).
  assert (BQ2 : (Rabs r0 <= bp (- qD rm))%R).
  { unfold r0. replace (X + (IZR k * hiN + eh) + e1 + (IZR k * loN + e2))%R with ((X + (IZR k * hiN + eh)) + (e1 + IZR k * loN + e2))%R by ring. apply Rle_trans with (1 := Rabs_triang _ _).
    assert (Rabs (e1 + IZR k * loN + e2) <= / 1000000)%R by (bpn_in E1s; bpn_in E2; bpn_in LV; interval with (i_prec 60)).
    assert ((hD rm + / 500) * (ln 2 / 128) + / 1000000 <= bp (- qD rm))%R by (destruct rm; cbn [hD qD]; bpn; interval with (i_prec 60)). lra. }
  destruct (add_e rm _ _ _ _ (- qD rm) R1 R2 ltac:(destruct rm; cbn [qD]; lia) BQ2) as (e3' & E3 & R3). fold r0 in R3.
  exists k, (f_add D rm (f_add D rm x (f_mul D rm kd expd_negln2hi)) (f_mul D rm kd expd_negln2lo)), (r0 + e3')%R.
  split; [exact K1|split; [reflexivity|split; [exact R3|split; [exact RB|]]]].
  fold Rr. replace (r0 + e3' - Rr)%R with (eh + ((e1 + e3') + (IZR k * (hiN + loN + ln 2 / 128) + e2)))%R by (unfold r0, Rr; ring).
  assert (SM : (Rabs (IZR k * (hiN + loN + ln 2 / 128) + e2) <= bp (-78))%R) by (remember (hiN + loN + ln 2 / 128)%R as w; bpn_in HLV; change (-28 - 53) with (-81) in E2; bpn_in E2; bpn; interval with (i_prec 60)).
  assert (E3s : (Rabs e3' <= bp (-60))%R) by (apply Rle_trans with (1 := E3); apply bpow_le; destruct rm; cbn [qD]; lia).
  split.
  - bpn_in EH. bpn_in E1s. bpn_in E3s. bpn_in SM. apply Rabs_le_inv in EH. apply Rabs_le_inv in E1s. apply Rabs_le_inv in E3s. apply Rabs_le_inv in SM. apply Rabs_le. bpn. lra.
  - intros XL. rewrite (EH0 XL), Rplus_0_l. apply Rle_trans with (1 := Rabs_triang _ _). apply Rplus_le_compat; [|exact SM].
    apply Rle_trans with (1 := Rabs_triang _ _). lra.
Qed.

Lemma exp_m1 : forall w, (Rabs w <= / 1000)%R -> (Rabs (exp w - 1) <= 1009 / 1000 * Rabs w)%R.
Proof.
  intros w H. apply Rabs_le_inv in H. pose proof (exp_ineq1_le w) as A. pose proof (exp_ineq1_le (- w)) as B. pose proof (exp_pos w) as P.
  assert (E : (exp w * exp (- w) = 1)%R) by (rewrite <- exp_plus, Rplus_opp_r; apply exp_0).
  assert (C : (exp w - 1 <= w * exp w)%R) by (assert (exp w * (1 + - w) <= exp w * exp (- w))%R by (apply Rmult_le_compat_l; lra); lra).
  assert (EB : (exp w <= 1009 / 1000)%R) by interval with (i_prec 60).
  unfold Rabs at 2. destruct (Rcase_abs w); apply Rabs_le; [assert (0 <= (- w) * exp w)%R by (apply Rmult_le_pos; lra); lra|]. assert (w * exp w <= w * (1009 / 1000))%R by (apply Rmult_le_compat_l; lra). lra.
Qed.
(** What the kernels deliver: a scale [P] with value [V], a correction [TM], and a bound on the
    error of [V * (1 + TM)] that includes the final product. *)
Definition kernel_ok (rm : rmode) (res : Z * Z * Z) (sp k : Z) (W : R -> Prop) : Prop :=
  exists tm P V TM, res = (tm, wrap 64 (P + k / 128 * 2 ^ 52), sp + k) /\ 1023 * 2 ^ 52 <= P < 1024 * 2 ^ 52 /\ is_real D P V /\ is_real D tm TM /\
    (Rabs TM <= bp (- qD rm))%R /\ (k mod 128 = 0 -> V = 1%R) /\ W (V * (1 + TM))%R.
Lemma scale_up : forall V TM Tt G j q eps, (Rabs (V * (1 + TM) - Tt * G) + bp (-52 - q) <= eps * (Tt * G))%R ->
  (Rabs (V * (1 + TM) * bp j - Tt * bp j * G) + bp (j - 52 - q) <= eps * (Tt * bp j * G))%R.
Proof.
  intros V TM Tt G j q eps HE. pose proof (bpow_gt_0 radix2 j). replace (V * (1 + TM) * bp j - Tt * bp j * G)%R with ((V * (1 + TM) - Tt * G) * bp j)%R by ring.
  replace (j - 52 - q) with ((-52 - q) + j) by ring. rewrite Rabs_mult, bpow_plus, (Rabs_pos_eq (bp j)) by lra. rewrite <- Rmult_plus_distr_r.
  replace (eps * (Tt * bp j * G))%R with (eps * (Tt * G) * bp j)%R by ring. apply Rmult_le_compat_r; lra.
Qed.
Lemma expd_kernel_spec : forall rm x X, is_real D x X -> (Rabs X <= 1024)%R -> exists k, (Rabs (X - IZR k * (ln 2 / 128)) <= (hD rm + / 1000) * (ln 2 / 128))%R /\
  kernel_ok rm (expd_kernel rm x) expd_shift k (fun A =>
    (Rabs (A * bp (k / 128) - exp X) + bp (k / 128 - 52 - qD rm) <= bp (-40) * exp X)%R /\
    ((Rabs X <= 1023)%R -> (Rabs (A * bp (k / 128) - exp X) + bp (k / 128 - 52 - qD rm) <= epsD rm * exp X)%R)).
Proof.
  intros rm x X Hx HX. destruct (expd_reduce rm x X Hx HX) as (k & rem & r & K1 & K2 & RR & RB & W1 & W2). cbv zeta in K2.
  exists k. split; [exact RB|]. unfold expd_kernel. cbv zeta. rewrite K1 in *. rewrite <- K2. rewrite expd_tab_eq.
  destruct (lookup expd_shift k ltac:(exists ((1075 - 0) * 2 ^ 33 + 2 ^ 32); vm_compute; reflexivity)) as (P & V & T & HP & RV & RT & WE & BT & AT & VZ).
  set (Rr := (X - IZR k * (ln 2 / 128))%R) in *.
  assert (RBn : (Rabs Rr <= match rm with RNE => 2714 / 1000000 | _ => 5422 / 1000000 end)%R).
  { apply Rle_trans with (1 := RB). destruct rm; cbn [hD]; interval with (i_prec 60). }
  set (w := (r - Rr)%R) in *. assert (RW : r = (Rr + w)%R) by (unfold w; ring).
  assert (Rn : (Rabs r <= match rm with RNE => 272 / 100000 | _ => 543 / 100000 end)%R).
  { rewrite RW. apply Rle_trans with (1 := Rabs_triang _ _). bpn_in W1. destruct rm; lra. }
  destruct e_real as (H2 & H3 & H4 & H5).
  destruct (polyD rm (qD rm) _ rem rem _ _ _ _ T r r e2 e3 e4 e5 (qD_cases rm) RT RR RR H2 H3 H4 H5 BT) as (TM & RTM & BTM & ETM).
  { unfold bA. destruct rm; cbn [qD Z.eqb Pos.eqb]; lra. } { unfold bR. destruct rm; cbn [qD Z.eqb Pos.eqb]; lra. }
  { unfold e2. bpn. interval with (i_prec 60). } { unfold e3. bpn. interval with (i_prec 60). } { unfold e4. bpn. interval with (i_prec 60). } { unfold e5. bpn. interval with (i_prec 60). }
  eexists. exists P, V, TM. split; [rewrite WE; reflexivity|split; [exact HP|split; [exact RV|split; [exact RTM|split; [exact BTM|split; [intros HZ; apply VZ; exact HZ|]]]]]].
  set (G := exp Rr). set (Tt := Rpower 2 (IZR (k mod 128) / 128)) in *. set (j := k / 128) in *.
  assert (XE : exp X = (Tt * bp j * G)%R).
  { unfold Tt, j, G. rewrite <- pow_split. unfold Rpower. rewrite <- exp_plus. f_equal. unfold Rr. field. }
  pose proof (pat_V P V HP RV) as VB. pose proof (bpow_gt_0 radix2 j) as Bj.
  set (d := (TM - T - (G - 1))%R).
  assert (TME : TM = (T + (G - 1) + d)%R) by (unfold d; ring).
  assert (DE : d = ((TM - (T + PE r)) + (PE r - (exp r - 1)) + (exp r - G))%R) by (unfold d; ring).
  assert (ETM' : (Rabs (TM - (T + PE r)) <= 3 * bp (- qD rm - 53) + bp (-64))%R).
  { replace (T + PE r)%R with (T + r + r * r * (e2 + r * e3) + r * r * (r * r) * (e4 + r * e5))%R by (unfold PE; ring). exact ETM. }
  assert (PP : (Rabs (PE r - (exp r - 1)) <= match rm with RNE => bp (-64) | _ => 7 * bp (-58) end)%R).
  { apply Rabs_le_inv in Rn. destruct rm; [apply PE_near; lra|apply PE_far; lra|apply PE_far; lra|apply PE_far; lra]. }
  assert (GW : exp r = (G * exp w)%R) by (unfold G; rewrite RW, exp_plus; reflexivity).
  assert (GB : (Rabs (G - 1) <= match rm with RNE => 272 / 100000 | _ => 544 / 100000 end)%R).
  { unfold G. destruct rm; apply Rabs_le_inv in RBn; interval with (i_prec 60). }
  assert (GB2 : (0 <= G <= 101 / 100)%R) by (apply Rabs_le_inv in GB; destruct rm; lra).
  assert (EW : forall c, (Rabs w <= c)%R -> (c <= / 1000)%R -> (Rabs (exp r - G) <= 102 / 100 * c)%R).
  { intros c Hc1 Hc2. rewrite GW. replace (G * exp w - G)%R with (G * (exp w - 1))%R by ring. rewrite Rabs_mult, (Rabs_pos_eq G) by lra.
    assert (W0 : (Rabs (exp w - 1) <= 1009 / 1000 * Rabs w)%R).
    { apply exp_m1. lra. }
    apply Rle_trans with (101 / 100 * (1009 / 1000 * c))%R; [apply Rmult_le_compat; try lra; apply Rabs_pos|]. pose proof (Rabs_pos w). lra. }
  assert (SC : forall eps, (Rabs (V * (1 + TM) - Tt * G) + bp (-52 - qD rm) <= eps * (Tt * G))%R -> (Rabs (V * (1 + TM) * bp j - exp X) + bp (j - 52 - qD rm) <= eps * exp X)%R).
  { intros eps HE. rewrite XE. apply scale_up. exact HE. }
  split.
  - apply SC. apply combine2 with (T := T) (d := d) (g := (544 / 100000)%R) (D0 := (10 * bp (-44))%R); auto; try (bpn; lra).
    + specialize (EW (bp (-41)) W1 ltac:(bpn; lra)). rewrite DE. apply Rabs_le_inv in EW. apply Rabs_le_inv in PP. apply Rabs_le_inv in ETM'. apply Rabs_le. destruct rm; cbn [qD] in *; bpn_in EW; bpn_in PP; bpn_in ETM'; bpn; lra.
    + destruct rm; lra.
    + destruct rm; cbn [qD]; bpn; lra.
  - intros XL. specialize (W2 XL). apply SC.
    specialize (EW _ W2 ltac:(destruct rm; cbn [qD]; bpn; lra)).
    apply combine2 with (T := T) (d := d) (g := (match rm with RNE => 272 / 100000 | _ => 544 / 100000 end)%R) (D0 := (match rm with RNE => 6 * bp (-61) | _ => 35 * bp (-60) end)%R); auto.
    + rewrite DE. apply Rabs_le_inv in EW. apply Rabs_le_inv in PP. apply Rabs_le_inv in ETM'. apply Rabs_le. destruct rm; cbn [qD] in *; bpn_in EW; bpn_in PP; bpn_in ETM'; bpn; lra.
    + destruct rm; lra.
    + destruct rm; cbn [qD epsD]; bpn; lra.
    + destruct rm; apply bpow_ge_0.
Qed.

Lemma exp2d_kernel_spec : forall rm x X, is_real D x X -> (Rabs X <= 1100)%R -> exists k, (Rabs (X - IZR k / 128) <= / 128)%R /\ (forall m, X = IZR m -> k = 128 * m) /\
  kernel_ok rm (exp2d_kernel rm x) exp2d_shift k (fun A =>
    (Rabs (A * bp (k / 128) - Rpower 2 X) + bp (k / 128 - 52 - qD rm) <= epsD rm * Rpower 2 X)%R).
Proof.
  intros rm x X Hx HX.
  destruct (shift_trick rm 7 _ _ ltac:(lia) Hx) as (k & K1 & _ & K3 & K4 & K5 & K6).
  { change (bp (50 - 7)) with (IZR (2 ^ 43)). change (2 ^ 43) with 8796093022208. lra. }
  rewrite <- shift_exp2d in *. change (- (7)) with (-7) in *. change (-7 - 1) with (-8) in K5.
  exists k. split; [change (bp (-7)) with (/ 128)%R in K4; exact K4|split; [intros m E; apply K6; rewrite E, mult_IZR; change (bp (-7)) with (/ 128)%R; field|]].
  unfold exp2d_kernel. cbv zeta. rewrite K1 in *.
  set (kd := f_sub D rm (exp2d_shift + k) exp2d_shift) in *. set (d0 := (X - IZR k * bp (-7))%R) in *.
  assert (DB : (Rabs d0 <= bp (- qD rm))%R) by (destruct rm; [apply K5; reflexivity|exact K4|exact K4|exact K4]).
  destruct (sub_e rm _ _ _ _ (- qD rm) Hx K3 ltac:(destruct rm; cbn [qD]; lia) DB) as (w & WB & RR). fold d0 in RR.
  set (rem := f_sub D rm x kd) in *. set (r := (d0 + w)%R) in *.
  assert (WS : (Rabs w <= bp (-60))%R) by (apply Rle_trans with (1 := WB); apply bpow_le; destruct rm; cbn [qD]; lia).
  destruct (lookup exp2d_shift k ltac:(exists ((1075 - 7) * 2 ^ 33 + 2 ^ 32); vm_compute; reflexivity)) as (P & V & T & HP & RV & RT & WE & BT & AT & VZ).
  assert (Rn : (Rabs r <= match rm with RNE => / 256 + bp (-58) | _ => / 128 + bp (-58) end)%R).
  { unfold r. apply Rle_trans with (1 := Rabs_triang _ _). bpn_in WS. destruct rm; cbn [qD] in DB; bpn_in DB; bpn; lra. }
  destruct t_real as (H1 & H2 & H3 & H4 & H5).
  assert (AB : (Rabs (r * t1) <= bp (- qD rm))%R).
  { destruct rm; cbn [qD]; bpn_in Rn; unfold t1; bpn; interval with (i_prec 60). }
  destruct (mul_e rm _ _ _ _ (- qD rm) RR H1 ltac:(destruct rm; cbn [qD]; lia) AB) as (ea & EA & RA).
  destruct (polyD rm (qD rm) _ _ rem _ _ _ _ T (r * t1 + ea)%R r t2 t3 t4 t5 (qD_cases rm) RT RA RR H2 H3 H4 H5 BT) as (TM & RTM & BTM & ETM).
  { unfold bA. destruct rm; cbn [qD Z.eqb Pos.eqb]; cbn [qD] in EA; bpn_in EA; bpn_in Rn; unfold t1; bpn; interval with (i_prec 60). }
  { unfold bR. destruct rm; cbn [qD Z.eqb Pos.eqb]; bpn_in Rn; lra. }
  { unfold t2. bpn. interval with (i_prec 60). } { unfold t3. bpn. interval with (i_prec 60). } { unfold t4. bpn. interval with (i_prec 60). } { unfold t5. bpn. interval with (i_prec 60). }
  eexists. exists P, V, TM. split; [rewrite WE; reflexivity|split; [exact HP|split; [exact RV|split; [exact RTM|split; [exact BTM|split; [intros HZ; apply VZ; exact HZ|]]]]]].
  set (G := exp (d0 * ln 2)). set (Tt := Rpower 2 (IZR (k mod 128) / 128)) in *. set (j := k / 128) in *.
  assert (XE : Rpower 2 X = (Tt * bp j * G)%R).
  { unfold Tt, j, G. rewrite <- pow_split. fold (Rpower 2 d0). rewrite <- Rpower_plus. f_equal. unfold d0. change (bp (-7)) with (/ 128)%R. field. }
  pose proof (pat_V P V HP RV) as VB.
  set (d := (TM - T - (G - 1))%R).
  assert (TME : TM = (T + (G - 1) + d)%R) by (unfold d; ring).
  assert (DE : d = ((TM - (T + ea + PT r)) + ea + (PT r - (exp (r * ln 2) - 1)) + (exp (r * ln 2) - G))%R) by (unfold d; ring).
  assert (ETM' : (Rabs (TM - (T + ea + PT r)) <= 3 * bp (- qD rm - 53) + bp (-64))%R).
  { replace (T + ea + PT r)%R with (T + (r * t1 + ea) + r * r * (t2 + r * t3) + r * r * (r * r) * (t4 + r * t5))%R by (unfold PT; ring). exact ETM. }
  assert (PP : (Rabs (PT r - (exp (r * ln 2) - 1)) <= match rm with RNE => bp (-64) | _ => 8 * bp (-58) end)%R).
  { apply Rabs_le_inv in Rn. destruct rm; [apply PT_near; lra|apply PT_far; lra|apply PT_far; lra|apply PT_far; lra]. }
  assert (GB : (Rabs (G - 1) <= match rm with RNE => 272 / 100000 | _ => 544 / 100000 end)%R).
  { unfold G. destruct rm; cbn [qD] in DB; bpn_in DB; apply Rabs_le_inv in DB; interval with (i_prec 60). }
  assert (GB2 : (0 <= G <= 101 / 100)%R) by (apply Rabs_le_inv in GB; destruct rm; lra).
  assert (EW : (Rabs (exp (r * ln 2) - G) <= bp (- qD rm - 53))%R).
  { assert (L2 : (0 <= ln 2 <= 7 / 10)%R) by (split; interval with (i_prec 60)).
    unfold r. rewrite Rmult_plus_distr_r, exp_plus. fold G. replace (G * exp (w * ln 2) - G)%R with (G * (exp (w * ln 2) - 1))%R by ring. rewrite Rabs_mult, (Rabs_pos_eq G) by lra.
    assert (WL : (Rabs (w * ln 2) <= 7 / 10 * bp (- qD rm - 53))%R) by (rewrite Rabs_mult, (Rabs_pos_eq (ln 2)), Rmult_comm by lra; apply Rmult_le_compat; try lra; apply Rabs_pos).
    assert (WL2 : (Rabs (w * ln 2) <= / 1000)%R) by (apply Rle_trans with (1 := WL); destruct rm; cbn [qD]; bpn; lra).
    pose proof (exp_m1 _ WL2) as EM. pose proof (bpow_gt_0 radix2 (- qD rm - 53)).
    apply Rle_trans with (101 / 100 * (1009 / 1000 * (7 / 10 * bp (- qD rm - 53))))%R; [|lra]. apply Rmult_le_compat; try lra; apply Rabs_pos. }
  rewrite XE. apply scale_up.
  apply combine2 with (T := T) (d := d) (g := (match rm with RNE => 272 / 100000 | _ => 544 / 100000 end)%R) (D0 := (match rm with RNE => 6 * bp (-61) | _ => 38 * bp (-60) end)%R); auto.
  - rewrite DE. apply Rabs_le_inv in EW. apply Rabs_le_inv in PP. apply Rabs_le_inv in ETM'. apply Rabs_le_inv in EA. apply Rabs_le. destruct rm; cbn [qD] in *; bpn_in EW; bpn_in PP; bpn_in ETM'; bpn_in EA; bpn; lra.
  - destruct rm; lra.
  - destruct rm; cbn [qD epsD]; bpn; lra.
  - destruct rm; apply bpow_ge_0.
Qed.

(** Integral arguments: the remainder is zero and every step is exact. *)
Lemma exp2d_kernel_int : forall rm x n, is_real D x (IZR n) -> -1100 <= n <= 1100 -> exists tm, exp2d_kernel rm x = (tm, wrap 64 (1023 * 2 ^ 52 + n * 2 ^ 52), exp2d_shift + 128 * n) /\ is_real D tm 0.
Proof.
  intros rm x n Hx Hn.
  destruct (shift_trick rm 7 _ _ ltac:(lia) Hx) as (k & K1 & _ & K3 & _ & _ & K6).
  { change (bp (50 - 7)) with (IZR (2 ^ 43)). rewrite <- abs_IZR. apply IZR_le. lia. }
  rewrite <- shift_exp2d in *. change (- (7)) with (-7) in *.
  assert (KE : k = 128 * n) by (apply K6; rewrite mult_IZR; change (bp (-7)) with (/ 128)%R; field). subst k.
  replace (IZR (128 * n) * bp (-7))%R with (IZR n) in K3 by (rewrite mult_IZR; change (bp (-7)) with (/ 128)%R; field).
  unfold exp2d_kernel. cbv zeta. rewrite K1 in *. set (kd := f_sub D rm (exp2d_shift + 128 * n) exp2d_shift) in *.
  assert (G0 : generic_format radix2 fexpD 0) by apply generic_format_0.
  assert (B0 : (Rabs 0 < bp (bias D + 1))%R) by (rewrite Rabs_R0; apply bpow_gt_0).
  assert (R0 : is_real D (f_sub D rm x kd) 0) by (apply (sub_x D good64 rm _ _ _ _ 0 Hx K3); auto; ring).
  set (rem := f_sub D rm x kd) in *.
  destruct (lookup exp2d_shift (128 * n) ltac:(exists ((1075 - 7) * 2 ^ 33 + 2 ^ 32); vm_compute; reflexivity)) as (P & V & T & HP & RV & RT & WE & _ & _ & Z0).
  rewrite (Z.mul_comm 128 n), Z.mod_mul in Z0 by lia. destruct (Z0 eq_refl) as (-> & ->).
  assert (P1 : P = 1023 * 2 ^ 52) by (apply (real_unique _ _ 1%R RV); [apply (pow_real 0); lia|lra]). subst P.
  destruct t_real as (H1 & H2 & H3 & H4 & H5).
  assert (BT : forall c, (Rabs c <= 1)%R -> (Rabs c < bp (bias D + 1))%R) by (intros c Hc; apply Rle_lt_trans with (1 := Hc); change 1%R with (bp 0); apply bpow_lt; reflexivity).
  pose proof (mul_x D good64 rm _ _ _ _ 0 R0 H1 (Rmult_0_l _) G0 B0) as M1.
  pose proof (add_x D good64 rm _ _ _ _ 0 RT M1 (Rplus_0_l _) G0 B0) as M2.
  pose proof (mul_x D good64 rm _ _ _ _ 0 R0 R0 (Rmult_0_l _) G0 B0) as M3.
  pose proof (mul_x D good64 rm _ _ _ _ 0 R0 H3 (Rmult_0_l _) G0 B0) as M4.
  pose proof (add_x D good64 rm _ _ _ _ _ H2 M4 (Rplus_0_r _) (real_fmt D good64 _ _ H2) (real_bound D good64 _ _ H2)) as M5.
  pose proof (mul_x D good64 rm _ _ _ _ 0 M3 M5 (Rmult_0_l _) G0 B0) as M6.
  pose proof (add_x D good64 rm _ _ _ _ 0 M2 M6 (Rplus_0_l _) G0 B0) as M7.
  pose proof (mul_x D good64 rm _ _ _ _ 0 M3 M3 (Rmult_0_l _) G0 B0) as M8.
  pose proof (mul_x D good64 rm _ _ _ _ 0 R0 H5 (Rmult_0_l _) G0 B0) as M9.
  pose proof (add_x D good64 rm _ _ _ _ _ H4 M9 (Rplus_0_r _) (real_fmt D good64 _ _ H4) (real_bound D good64 _ _ H4)) as M10.
  pose proof (mul_x D good64 rm _ _ _ _ 0 M8 M10 (Rmult_0_l _) G0 B0) as M11.
  pose proof (add_x D good64 rm _ _ _ _ 0 M7 M11 (Rplus_0_l _) G0 B0) as M12.
  eexists. split; [rewrite WE; replace (128 * n / 128) with n by (rewrite Z.mul_comm, Z.div_mul; lia); reflexivity|exact M12].
Qed.
