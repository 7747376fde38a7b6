(** * log for double away from 1 *)
From Coq Require Import ZArith Lia Bool Reals Lra List.
From Flocq Require Import Core Relative.
From Interval Require Import Tactic.
From Verif Require Import MachInt Fmt FloatSpec FmtProofs RoundProofs FOps FOpsProofs ExactOps ExtFloatSpec ExtFloatProofs ExtInterp FmanipWide ErrLib ExpoData LogDataD ExpoF LogD Exp2fProofs ExpoFWrap LogRed LogfNum LogfProofs LogDTab LogDNum LogDRed LogDRem.
Import ListNotations.
Open Scope Z_scope.

(** An error as a multiple of the unit. *)
Lemma as_unit : forall h e c, (0 < h)%R -> (Rabs e <= c * h)%R -> exists s, (Rabs s <= c)%R /\ e = (h * s)%R.
Proof.
  intros h e c Hh H. exists (e / h)%R. split; [|field; lra]. unfold Rdiv. rewrite Rabs_mult, Rabs_inv, (Rabs_pos_eq h) by lra.
  apply Rmult_le_reg_r with h; [auto|]. rewrite Rmult_assoc, Rinv_l, Rmult_1_r by lra. exact H.
Qed.
Lemma addS : forall rm a b A B k, is_real D a A -> is_real D b B -> -1021 <= k <= 1023 -> (Rabs (A + B) <= bp k)%R ->
  exists s, (Rabs s <= bp k)%R /\ is_real D (f_add D rm a b) (A + B + hD rm * s).
Proof. intros. destruct (add_h rm a b A B k) as (e & E & R); auto. destruct (as_unit _ _ _ (proj1 (hD_b rm)) E) as (s & S & ->). eauto. Qed.
Lemma subS : forall rm a b A B k, is_real D a A -> is_real D b B -> -1021 <= k <= 1023 -> (Rabs (A - B) <= bp k)%R ->
  exists s, (Rabs s <= bp k)%R /\ is_real D (f_sub D rm a b) (A - B + hD rm * s).
Proof. intros. destruct (sub_h rm a b A B k) as (e & E & R); auto. destruct (as_unit _ _ _ (proj1 (hD_b rm)) E) as (s & S & ->). eauto. Qed.
Lemma mulS : forall rm a b A B k, is_real D a A -> is_real D b B -> -1021 <= k <= 1023 -> (Rabs (A * B) <= bp k)%R ->
  exists s, (Rabs s <= bp k)%R /\ is_real D (f_mul D rm a b) (A * B + hD rm * s).
Proof. intros. destruct (mul_h rm a b A B k) as (e & E & R); auto. destruct (as_unit _ _ _ (proj1 (hD_b rm)) E) as (s & S & ->). eauto. Qed.
Ltac iv := bpn; interval with (i_prec 60).

(** The polynomial: r2*p0, r*r2*q and their sum with the low part. *)
Lemma logd_poly_e : forall rm r lo R L h, is_real D r R -> is_real D lo L -> (Rabs R <= 39 / 10000)%R -> (Rabs L <= bp (-31))%R -> h = hD rm ->
  let r2 := f_mul D rm r r in let P := at_ logd_poly in
  let q := f_add D rm (f_add D rm (P 1) (f_mul D rm r (P 2))) (f_mul D rm r2 (f_add D rm (P 3) (f_mul D rm r (P 4)))) in
  exists s, (Rabs s <= bp (-14))%R /\ is_real D (f_add D rm (f_add D rm lo (f_mul D rm r2 (P 0))) (f_mul D rm (f_mul D rm r r2) q)) (L + (ldP R - R) + h * s).
Proof.
  intros rm r lo R L h Hr HL HB LB Hh r2 P q. pose proof (hD_b rm) as HH. rewrite <- Hh in HH. bpn_in HH. bpn_in LB.
  realof D (at_ logd_poly 0) H0. realof D (at_ logd_poly 1) H1. realof D (at_ logd_poly 2) H2. realof D (at_ logd_poly 3) H3. realof D (at_ logd_poly 4) H4. fold P in H0, H1, H2, H3, H4.
  match type of H0 with is_real _ _ ?v => replace v with ld0 in H0 by (unfold ld0; bpn; lra) end.
  match type of H1 with is_real _ _ ?v => replace v with ld1 in H1 by (unfold ld1; bpn; lra) end.
  match type of H2 with is_real _ _ ?v => replace v with ld2 in H2 by (unfold ld2; bpn; lra) end.
  match type of H3 with is_real _ _ ?v => replace v with ld3 in H3 by (unfold ld3; bpn; lra) end.
  match type of H4 with is_real _ _ ?v => replace v with ld4 in H4 by (unfold ld4; bpn; lra) end.
  assert (B0 : (-0.5001 <= ld0 <= -0.4999)%R) by (unfold ld0; bpn; lra).
  assert (B1 : (0.333 <= ld1 <= 0.3334)%R) by (unfold ld1; bpn; lra).
  assert (B2 : (-0.2501 <= ld2 <= -0.2499)%R) by (unfold ld2; bpn; lra).
  assert (B3 : (0.2 <= ld3 <= 0.201)%R) by (unfold ld3; bpn; lra).
  assert (B4 : (-0.1667 <= ld4 <= -0.1666)%R) by (unfold ld4; bpn; lra).
  destruct (mulS rm _ _ _ _ (-16) Hr Hr ltac:(lia) ltac:(iv)) as (s8 & E8 & R8). rewrite <- Hh in R8. fold r2 in R8. bpn_in E8.
  destruct (mulS rm _ _ _ _ (-17) R8 H0 ltac:(lia) ltac:(iv)) as (s9 & E9 & R9). rewrite <- Hh in R9. bpn_in E9.
  destruct (addS rm _ _ _ _ (-16) HL R9 ltac:(lia) ltac:(iv)) as (s10 & E10 & R10). rewrite <- Hh in R10. bpn_in E10.
  destruct (mulS rm _ _ _ _ (-9) Hr H2 ltac:(lia) ltac:(iv)) as (s11 & E11 & R11). rewrite <- Hh in R11. bpn_in E11.
  destruct (addS rm _ _ _ _ (-1) H1 R11 ltac:(lia) ltac:(iv)) as (s12 & E12 & R12). rewrite <- Hh in R12. bpn_in E12.
  destruct (mulS rm _ _ _ _ (-9) Hr H4 ltac:(lia) ltac:(iv)) as (s13 & E13 & R13). rewrite <- Hh in R13. bpn_in E13.
  destruct (addS rm _ _ _ _ (-2) H3 R13 ltac:(lia) ltac:(iv)) as (s14 & E14 & R14). rewrite <- Hh in R14. bpn_in E14.
  destruct (mulS rm _ _ _ _ (-18) R8 R14 ltac:(lia) ltac:(iv)) as (s15 & E15 & R15). rewrite <- Hh in R15. bpn_in E15.
  destruct (addS rm _ _ _ _ (-1) R12 R15 ltac:(lia) ltac:(iv)) as (s16 & E16 & R16). rewrite <- Hh in R16. bpn_in E16. fold q in R16.
  destruct (mulS rm _ _ _ _ (-24) Hr R8 ltac:(lia) ltac:(iv)) as (s17 & E17 & R17). rewrite <- Hh in R17. bpn_in E17.
  destruct (mulS rm _ _ _ _ (-25) R17 R16 ltac:(lia) ltac:(iv)) as (s18 & E18 & R18). rewrite <- Hh in R18. bpn_in E18.
  destruct (addS rm _ _ _ _ (-16) R10 R18 ltac:(lia) ltac:(iv)) as (s19 & E19 & R19). rewrite <- Hh in R19. bpn_in E19.
  clear R8 R9 R10 R11 R12 R13 R14 R15 R16 R17 R18 H0 H1 H2 H3 H4.
  exists (s8 * ld0 + s9 + s10 + s18 + s19 + (R * s8 + s17) * (ldQ R + h * (s11 + s12 + s8 * (ld3 + R * ld4) + (R * R + h * s8) * (s13 + s14) + s15 + s16)) + R * R * R * (s11 + s12 + s8 * (ld3 + R * ld4) + (R * R + h * s8) * (s13 + s14) + s15 + s16))%R.
  split; [unfold ldQ; iv|]. match type of R19 with is_real _ _ ?v => match goal with |- is_real _ _ ?w => replace w with v by (unfold ldP, ldQ; ring) end end. exact R19.
Qed.

(** The sum of a coarse and a small term with its rounding error recovered. *)
Lemma hilo : forall rm w t W T n, is_real D w W -> is_real D t T -> W = (IZR n * bp (-43))%R -> (48 / 1000 <= Rabs W <= 1100)%R -> (Rabs T <= 115 / 10000)%R ->
  exists d s, (Rabs d <= bp 11 * hD rm)%R /\ (Rabs s <= bp (-42))%R /\ is_real D (f_add D rm w t) (W + T + d) /\
   is_real D (f_add D rm (f_sub D rm w (f_add D rm w t)) t) (- d + hD rm * s).
Proof.
  intros rm w t W T n Hw Ht MW WB TB. pose proof (hD_b rm) as HH.
  assert (SB : (Rabs (W + T) <= bp 11)%R) by (pose proof (Rabs_triang W T); bpn; lra).
  destruct (add_h rm _ _ _ _ 11 Hw Ht ltac:(lia) SB) as (d & Ed & Rd).
  assert (DB : (Rabs d <= bp (-42))%R). { apply Rle_trans with (1 := Ed). change (bp (-42)) with (bp (11 + -53)). rewrite bpow_plus. apply Rmult_le_compat_l; [apply bpow_ge_0|apply HH]. }
  set (hi := f_add D rm w t) in *. set (HI := (W + T + d)%R) in *.
  assert (TD : (Rabs (T + d) <= 116 / 10000)%R) by (bpn_in DB; pose proof (Rabs_triang T d); lra).
  assert (HL : (bp (-5) <= Rabs HI)%R).
  { assert (Rabs W <= Rabs HI + Rabs (T + d))%R. { replace W with (HI + - (T + d))%R by (unfold HI; ring). apply Rle_trans with (1 := Rabs_triang _ _). rewrite Rabs_Ropp. unfold HI. lra. } bpn. lra. }
  destruct (fmt_mult HI (-5)) as (m & M); [destruct Rd as (P & Fi & <-); apply (fval_format D good64); auto|lia|exact HL|]. change (-5 - 52) with (-57) in M.
  assert (R4 : is_real D (f_sub D rm w hi) (- (T + d))).
  { apply (sub_x D good64) with (1 := Hw) (2 := Rd); [unfold HI; ring| |].
    - assert (E : (- (T + d) = IZR (n * 2 ^ 14 - m) * bp (-57))%R).
      { replace (- (T + d))%R with (W - HI)%R by (unfold HI; ring). rewrite M, MW, minus_IZR, mult_IZR. change (IZR (2 ^ 14)) with (bp 14). change (-43) with (14 + -57). rewrite bpow_plus. ring. }
      rewrite E. apply gfx; [lia|]. rewrite <- E, Rabs_Ropp. change (-57 + 53) with (-4). bpn. lra.
    - apply bigD with 0; [lia|]. rewrite Rabs_Ropp. bpn. lra. }
  destruct (addS rm _ _ _ _ (-42) R4 Ht ltac:(lia)) as (s & Es & R5). { replace (- (T + d) + T)%R with (- d)%R by ring. rewrite Rabs_Ropp. exact DB. }
  exists d, s. split; [exact Ed|]. split; [exact Es|]. split; [exact Rd|]. replace (- d + hD rm * s)%R with (- (T + d) + T + hD rm * s)%R by ring. exact R5.
Qed.
Lemma ln_away : forall X, (0 < X)%R -> (X <= 15 / 16 \/ 17 / 16 <= X)%R -> (6 / 100 <= Rabs (ln X))%R.
Proof.
  intros X HX [H|H].
  - assert (ln X <= ln (15 / 16))%R by (apply Rcomplements.ln_le; auto). assert (ln (15 / 16) <= - (6 / 100))%R by interval with (i_prec 40). rewrite Rabs_left1; lra.
  - assert (ln (17 / 16) <= ln X)%R by (apply Rcomplements.ln_le; lra). assert (6 / 100 <= ln (17 / 16))%R by interval with (i_prec 40). rewrite Rabs_pos_eq; lra.
Qed.
Definition lhm : Z := 0x2c5c85fdf47.
Theorem logd_far_core : forall rm x X, is_real D x X -> (0 < X)%R -> (X <= 15 / 16 \/ 17 / 16 <= X)%R ->
  exists a b S H, logd_far rm x = f_add D rm a b /\ is_real D a S /\ is_real D b H /\ (Rabs (S + H - ln X) <= bp (match rm with RNE => -60 | _ => -59 end))%R.
Proof.
  intros rm x X Hx HX FX. destruct (logd_reduce_spec 7 rm x X ltac:(auto) Hx HX) as (i & k & z & Z & E & Hi & Hk & Hz & XE & ZI & ZB & ZM).
  change (2 ^ 7) with 128 in Hi. unfold logd_far. change F64 with D. rewrite E.
  destruct (tab_spec logd_tab logd_tab2 7 43 i ltac:(auto) ltac:(lia) (tab_ok_at _ _ _ _ _ i logd_tab_ok Hi)) as (IV & LV & CH & CL & kk & RI & RL & RH & RC & TI & BI & BC & (n & ML) & BL & MC & BCL & Hkk & BK & TZ & EL & EC).
  destruct (TZ Z ZI) as [TZ1 TZ2]. clear TZ.
  pose proof (tab_ln_at _ _ _ _ i logd_tab_ln Hi) as TL. cbn [fst snd] in TL. rewrite <- EL, <- EC in TL. clear EL EC.
  destruct (at2 logd_tab i) as [invc logc]. destruct (at2 logd_tab2 i) as [chi clo]. cbn [fst snd] in *.
  destruct (rem_d rm 7 z invc chi clo Z IV CH CL kk ltac:(auto) Hz RI RH RC ZM MC BCL ZB TI BI BC Hkk BK TZ1 TZ2) as (R & RR & RB & RE).
  change (bp (7 - 7)) with 1%R in RB. rewrite Rmult_1_r in RB. clear TZ1 TZ2.
  set (r := f_mul D rm (f_sub D rm (f_sub D rm z chi) clo) invc) in *.
  assert (XL : ln X = (IZR k * ln 2 + ln Z)%R). { rewrite XE, ln_mult by (try lra; apply bpow_gt_0). rewrite <- Rpower2_Z. unfold Rpower. rewrite ln_exp. ring. }
  pose proof (ln_away X HX FX) as LA. pose proof (hD_b rm) as HH. assert (HB := HH). bpn_in HB.
  assert (KB : (-1075 <= IZR k <= 1024)%R) by (split; apply IZR_le; lia).
  pose proof (ofZ_r rm k ltac:(lia)) as RK. change F64 with D in RK. set (kd := f_of_Z D rm k) in *.
  realof D logd_ln2hi H2. realof D logd_ln2lo H3.
  match type of H2 with is_real _ _ ?v => replace v with (IZR lhm * bp (-42))%R in H2 by (unfold lhm; bpn; lra) end.
  match type of H3 with is_real _ _ ?v => remember v as LL eqn:ELL end.
  set (LH := (IZR lhm * bp (-42))%R) in *.
  assert (L2 : (Rabs (LH + LL - ln 2) <= bp (-90))%R) by (rewrite ELL; unfold LH, lhm; bpn; interval with (i_prec 120)).
  assert (LB : (Rabs LL <= bp (-44))%R) by (rewrite ELL; bpn; apply Rabs_le; lra).
  assert (LHB : (0.69 <= LH <= 0.694)%R) by (unfold LH, lhm; bpn; lra). clear ELL.
  set (W := (IZR k * LH + LV)%R). assert (MW : W = (IZR (2 * k * lhm + n) * bp (-43))%R).
  { unfold W, LH. rewrite ML, plus_IZR, !mult_IZR. change (bp (-42)) with (bp (1 + -43)). rewrite bpow_plus. change (bp 1) with 2%R. change (- (43)) with (-43). ring. }
  assert (KL : (-747 <= IZR k * LH <= 711)%R) by nra.
  assert (WU : (Rabs W <= 750)%R) by (unfold W; apply Rabs_le_inv in BL; apply Rabs_le; lra).
  assert (RWp : is_real D (f_mul D rm kd logd_ln2hi) (IZR k * LH)).
  { apply (mul_x D good64) with (1 := RK) (2 := H2); [reflexivity| |].
    - unfold LH. rewrite <- Rmult_assoc, <- mult_IZR. apply gfx; [lia|]. rewrite mult_IZR, Rmult_assoc. fold LH. apply Rle_lt_trans with 750%R; [apply Rabs_le; lra|]. change (-42 + 53) with 11. bpn. lra.
    - apply bigD with 11; [lia|]. apply Rle_lt_trans with 750%R; [apply Rabs_le; lra|]. bpn. lra. }
  assert (RW : is_real D (f_add D rm (f_mul D rm kd logd_ln2hi) logc) W).
  { apply (add_x D good64) with (1 := RWp) (2 := RL); [reflexivity| |].
    - rewrite MW. apply gfx; [lia|]. rewrite <- MW. apply Rle_lt_trans with (1 := WU). change (-43 + 53) with 10. bpn. lra.
    - apply bigD with 11; [lia|]. apply Rle_lt_trans with (1 := WU). bpn. lra. }
  set (w := f_add D rm (f_mul D rm kd logd_ln2hi) logc) in *.
  assert (LR : (Rabs (ln (1 + R)) <= 4 / 1000)%R) by interval with (i_prec 40).
  set (lz := (ln Z - (ln (CH + CL) + ln (1 + R)))%R) in *.
  set (lc := (LV - ln (CH + CL))%R) in *. set (l2 := (LH + LL - ln 2)%R) in *.
  assert (WX : (W + IZR k * LL + ln (1 + R) - ln X = IZR k * l2 + lc - lz)%R) by (rewrite XL; unfold W, l2, lc, lz; ring).
  assert (KLL : (Rabs (IZR k * LL) <= bp (-33))%R). { rewrite Rabs_mult. apply Rle_trans with (1075 * bp (-44))%R; [apply Rmult_le_compat; try apply Rabs_pos; [apply Rabs_le; lra|exact LB]|bpn; lra]. }
  assert (KL2 : (Rabs (IZR k * l2) <= bp (-79))%R). { rewrite Rabs_mult. apply Rle_trans with (1075 * bp (-90))%R; [apply Rmult_le_compat; try apply Rabs_pos; [apply Rabs_le; lra|exact L2]|bpn; lra]. }
  assert (REb : (Rabs lz <= / 100000)%R). { apply Rle_trans with (1 := RE). change (bp (- (7))) with (/ 128)%R. bpn. lra. }
  assert (WB : (48 / 1000 <= Rabs W <= 1100)%R).
  { split; [|lra]. assert (Rabs (ln X) <= Rabs W + (Rabs (IZR k * LL) + Rabs (ln (1 + R)) + Rabs (IZR k * l2) + Rabs lc + Rabs lz))%R.
    { replace (ln X) with (W + (IZR k * LL + (ln (1 + R) + (- (IZR k * l2) + (- lc + lz)))))%R by lra.
      pose proof (Rabs_triang W (IZR k * LL + (ln (1 + R) + (- (IZR k * l2) + (- lc + lz))))). pose proof (Rabs_triang (IZR k * LL) (ln (1 + R) + (- (IZR k * l2) + (- lc + lz)))).
      pose proof (Rabs_triang (ln (1 + R)) (- (IZR k * l2) + (- lc + lz))). pose proof (Rabs_triang (- (IZR k * l2)) (- lc + lz)). pose proof (Rabs_triang (- lc) lz). rewrite !Rabs_Ropp in *. lra. }
    bpn_in KLL. bpn_in KL2. bpn_in TL. lra. }
  destruct (hilo rm w r W R _ RW RR MW WB ltac:(lra)) as (d & s5 & Ed & E5 & RHI & R5).
  set (hi := f_add D rm w r) in *. set (h := hD rm) in *.
  assert (DB : (Rabs d <= bp (-42))%R). { apply Rle_trans with (1 := Ed). change (bp (-42)) with (bp (11 + -53)). rewrite bpow_plus. apply Rmult_le_compat_l; [apply bpow_ge_0|apply HH]. }
  bpn_in DB. bpn_in KLL. bpn_in E5.
  destruct (mulS rm _ _ _ _ (-33) RK H3 ltac:(lia) ltac:(bpn; exact KLL)) as (s6 & E6 & R6). fold h in R6. bpn_in E6.
  destruct (addS rm _ _ _ _ (-32) R5 R6 ltac:(lia)) as (s7 & E7 & R7).
  { set (kl := (IZR k * LL)%R) in *. clearbody kl. clear - DB KLL E5 E6 HB. clearbody h. iv. }
  fold h in R7. bpn_in E7. set (lo := f_add D rm (f_add D rm (f_sub D rm w hi) r) (f_mul D rm kd logd_ln2lo)) in *.
  destruct (logd_poly_e rm r lo R _ h RR R7 RB) as (s & Es & RS); [|reflexivity|].
  { set (kl := (IZR k * LL)%R) in *. clearbody kl. clear - DB KLL E5 E6 E7 HB. clearbody h. iv. }
  eexists _, _, _, _. split; [reflexivity|]. split; [exact RS|]. split; [exact RHI|].
  pose proof (ldP_abs R RB) as PA.
  match goal with |- (Rabs ?t <= _)%R => replace t with ((ldP R - ln (1 + R)) + (IZR k * l2 + lc - lz) + h * (s5 + s6 + s7 + s))%R by (rewrite <- WX; ring) end.
  assert (T : (Rabs (s5 + s6 + s7 + s) <= bp (-13))%R) by (bpn_in Es; clear - E5 E6 E7 Es; iv).
  assert (T' : (Rabs (h * (s5 + s6 + s7 + s)) <= h * bp (-13))%R) by (rewrite Rabs_mult, (Rabs_pos_eq h) by lra; apply Rmult_le_compat_l; lra).
  apply Rabs_le_inv in T'. apply Rabs_le_inv in PA. apply Rabs_le_inv in KL2. apply Rabs_le_inv in TL. apply Rabs_le_inv in RE. fold h in RE.
  assert (B99 : (bp (-99) <= bp (-70))%R) by (apply bpow_le; lia). change (bp (- (7))) with (/ 128)%R in RE.
  assert (HV : h = bp (match rm with RNE => -54 | _ => -53 end)) by reflexivity. clearbody h lc lz l2. set (t99 := bp (-99)) in *. clearbody t99. clear - T' PA KL2 TL RE B99 HV. 
  apply Rabs_le. destruct rm; rewrite HV in *; bpn_in T'; bpn_in PA; bpn_in KL2; bpn_in TL; bpn_in RE; bpn_in B99; bpn; lra.
Qed.
