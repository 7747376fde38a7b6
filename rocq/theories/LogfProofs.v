(** * logf and log2f: the computed value against the real logarithm *)
From Coq Require Import ZArith Lia Bool Reals Lra List.
From Flocq Require Import Core.
From Interval Require Import Tactic.
From Verif Require Import MachInt Fmt FloatSpec FmtProofs RoundProofs FOps FOpsProofs ExactOps ExtFloatSpec ExtFloatProofs ExtInterp FmanipWide ErrLib ExpoData ExpoF Exp2fProofs ExpoFWrap LogRed LogfNum.
Import ListNotations.
Open Scope Z_scope.

(** ** The argument reduction *)
Lemma logf_reduce_spec : forall rm x X, is_real F32 x X -> (0 < X)%R ->
  exists i k z Z, logf_reduce rm x = (i, k, z) /\ 0 <= i < 16 /\ -150 <= k <= 128 /\ is_real D z Z /\ X = (Z * bp k)%R /\
   (zl i <= Z <= zl (i + 1))%R /\ (zl 0 <= Z <= zl 16)%R /\ (exists m, Z = (IZR m * bp (-24))%R).
Proof.
  intros rm x X Hx HX. pose proof good32 as HF.
  assert (SG : 0 < x < 0x7f800000).
  { destruct Hx as ([P1 P2] & Fi & V). assert (S : sign_of F32 x = false).
    { rewrite (sign_fval F32 HF x Fi) by lra. apply Rlt_bool_false. lra. }
    rewrite (sign_of_eq F32 HF) in S by (split; auto). apply Z.leb_gt in S. change (sign_unit F32) with (2 ^ 31) in S.
    unfold is_fin in Fi. apply Z.ltb_lt in Fi. unfold mag_of in Fi. rewrite Z.mod_small in Fi by (change (sign_unit F32) with (2 ^ 31); lia).
    change (inf_mag F32) with 0x7f800000 in Fi. split; [|auto]. destruct (Z.eq_dec x 0) as [->|]; [|lia]. exfalso. pose proof (proj2 (proj2 (zero_r F32 HF))) as V0. change (f_zero F32 false) with 0 in V0. lra. }
  assert (PX : exists p s, (s = 0 \/ s = 23) /\ 2 ^ 23 <= p < 0x7f800000 /\ (X = fval F32 p * bp (- s))%R /\
    (if (0x7f800000 - 0x00800000) <=? wrap 32 (x - 0x00800000) then wrap 32 (f_mul F32 rm x (litf 1 23) - 23 * 2 ^ 23) else x) = wrap 32 (p - s * 2 ^ 23)).
  { destruct (Z.leb_spec (0x7f800000 - 0x00800000) (wrap 32 (x - 0x00800000))) as [H|H].
    - assert (HS : x < 2 ^ 23). { destruct (Z_lt_le_dec x (2 ^ 23)); auto. rewrite wrap_small in H by (unfold inU; lia). lia. }
      assert (L : is_real F32 (litf 1 23) (bp 23)) by (pose proof (litf_r 1 23 ltac:(lia) ltac:(lia)) as L; rewrite Rmult_1_l in L; exact L).
      assert (VX : X = (IZR x * bp (-149))%R).
      { destruct Hx as ([P1 P2] & Fi & V). rewrite <- V. unfold fval, decode. replace (mag_of F32 x) with x by (unfold mag_of; rewrite Z.mod_small; [auto|change (sign_unit F32) with (2 ^ 31); lia]).
        replace (x <? inf_mag F32) with true by (symmetry; apply Z.ltb_lt; change (inf_mag F32) with 0x7f800000; lia). cbn [dval].
        replace (sign_of F32 x) with false. 2: { symmetry. rewrite (sign_of_eq F32 HF) by (split; auto). apply Z.leb_gt. change (sign_unit F32) with (2 ^ 31). lia. }
        unfold sig_of, exp_of. change (fl F32) with 23. destruct (Z.ltb_spec x (2 ^ 23)); [|lia]. change (emin F32) with (-149). rewrite Rmult_1_l. reflexivity. }
      assert (M : is_real F32 (f_mul F32 rm x (litf 1 23)) (IZR x * bp (-126))).
      { apply (mul_x F32 HF) with (1 := Hx) (2 := L).
        - rewrite VX, Rmult_assoc, <- bpow_plus. reflexivity.
        - apply (fmt_scaled F32); [change (prec F32) with 24; lia|vm_compute; congruence].
        - rewrite Rabs_pos_eq by (apply Rmult_le_pos; [apply IZR_le; lia|apply bpow_ge_0]). apply Rlt_le_trans with (bp 23 * bp (-126))%R.
          + apply Rmult_lt_compat_r; [apply bpow_gt_0|]. change (bp 23) with (IZR (2 ^ 23)). apply IZR_lt. lia.
          + rewrite <- bpow_plus. apply bpow_le. vm_compute. congruence. }
      exists (f_mul F32 rm x (litf 1 23)), 23. split; [auto|]. split.
      + set (p := f_mul F32 rm x (litf 1 23)) in *. destruct M as ([Q1 Q2] & Fi & V).
        assert (XP : (1 <= IZR x)%R) by (apply (IZR_le 1); lia).
        assert (VP : (bp (-126) <= IZR x * bp (-126))%R) by (pose proof (bpow_gt_0 radix2 (-126)); nra).
        assert (S : sign_of F32 p = false).
        { pose proof (bpow_gt_0 radix2 (-126)). rewrite (sign_fval F32 HF p Fi) by lra. apply Rlt_bool_false. lra. }
        rewrite (sign_of_eq F32 HF) in S by (split; auto). apply Z.leb_gt in S. change (sign_unit F32) with (2 ^ 31) in S.
        assert (MG : mag_of F32 p = p) by (unfold mag_of; apply Z.mod_small; change (sign_unit F32) with (2 ^ 31); lia).
        unfold is_fin in Fi. rewrite MG in Fi. apply Z.ltb_lt in Fi. split; [|exact Fi].
        rewrite <- MG. apply (mag_ge F32 p (2 ^ 23) (IZR x * bp (-126))%R HF); [split; [split; auto|split; auto]; unfold is_fin; rewrite MG; apply Z.ltb_lt; auto|lia|].
        rewrite Rabs_pos_eq by (pose proof (bpow_gt_0 radix2 (-126)); lra). unfold mval. change (sig_of F32 (2 ^ 23)) with (2 ^ 23). change (exp_of F32 (2 ^ 23)) with (-149).
        change (IZR (2 ^ 23)) with (bp 23). rewrite <- bpow_plus. exact VP.
      + split; [|reflexivity]. destruct M as (_ & _ & ->). rewrite VX, Rmult_assoc, <- bpow_plus. reflexivity.
    - exists x, 0. split; [auto|]. assert (2 ^ 23 <= x).
      { destruct (Z_le_gt_dec (2 ^ 23) x); auto. exfalso. unfold wrap in H. replace ((x - 8388608) mod 2 ^ 32) with (x - 8388608 + 2 ^ 32) in H; [lia|].
        apply Z.mod_unique with (-1); lia. }
      split; [lia|]. split; [destruct Hx as (_ & _ & <-); change (- 0) with 0; change (bp 0) with 1%R; ring|]. rewrite Z.mul_0_l, Z.sub_0_r, wrap_small; [auto|unfold inU; lia]. }
  destruct PX as (p & s & Hs & Hp & VX & EQ). unfold logf_reduce. rewrite EQ. clear EQ.
  pose proof (reduce_gen F32 HF 0x3f330000 4 0x1ff p s) as RG. cbv zeta in RG. change (width F32) with 32 in RG. change (fl F32) with 23 in RG. change (23 - 4) with 19 in RG. change (2 ^ 4) with 16 in RG.
  destruct RG as (I & IZ & EI & K & V); [lia|vm_compute; congruence|lia|change (inf_mag F32) with 0x7f800000; exact Hp|lia|change (32 - 1) with 31; destruct Hs; subst s; lia|reflexivity|].
  set (u := wrap 32 (p - s * 2 ^ 23)) in *. set (i := Z.shiftr (wrap 32 (u - 0x3f330000)) 19 mod 16) in *.
  set (k := Z.shiftr (to_signed 32 (wrap 32 (u - 0x3f330000))) 23) in *.
  set (iz := wrap 32 (u - Z.land (wrap 32 (u - 0x3f330000)) (wrap 32 (Z.shiftl 0x1ff 23)))) in *.
  assert (RI : is_real F32 iz (fval F32 iz)).
  { destruct (pos_patF F32 HF iz) as (A & B & _); [change (fl F32) with 23; change (inf_mag F32) with 0x7f800000; lia|]. split; auto. }
  exists i, k, (f_cast F32 F64 rm iz), (fval F32 iz). split; [reflexivity|]. split; [auto|]. split.
  { rewrite K. destruct Hs; subst s; (split; [apply Z.div_le_lower_bound; lia|apply Zlt_succ_le, Z.div_lt_upper_bound; lia]). }
  split; [apply widen; exact RI|]. split; [rewrite VX; exact V|].
  assert (ML : forall a, 0x3f330000 <= a <= 0x3fb30000 -> fval F32 a = mval F32 a) by (intros a Ha; symmetry; apply mval_c; [exact HF|change (inf_mag F32) with 0x7f800000; lia]).
  split; [|split].
  - unfold zl. rewrite !ML by lia. split; apply (mval_le F32 HF); lia.
  - unfold zl. rewrite !ML by lia. split; apply (mval_le F32 HF); lia.
  - destruct (pos_patF F32 HF iz) as (_ & _ & ->); [change (fl F32) with 23; change (inf_mag F32) with 0x7f800000; lia|].
    change (fl F32) with 23. change (emin F32) with (-149).
    assert (E : iz / 2 ^ 23 = 126 \/ iz / 2 ^ 23 = 127).
    { assert (126 <= iz / 2 ^ 23) by (apply Z.div_le_lower_bound; lia). assert (iz / 2 ^ 23 < 128) by (apply Z.div_lt_upper_bound; lia). lia. }
    destruct E as [-> | ->].
    + exists (2 ^ 23 + iz mod 2 ^ 23). reflexivity.
    + exists (2 * (2 ^ 23 + iz mod 2 ^ 23)). rewrite mult_IZR. change (127 + -149 - 1) with (1 + -24). rewrite bpow_plus. change (bp 1) with 2%R. ring.
Qed.

(** ** The polynomial part in double *)
Lemma log_poly_eval : forall rm a0 a1 a2 rem A0 A1 A2 R m, is_real D a0 A0 -> is_real D a1 A1 -> is_real D a2 A2 -> is_real D rem R ->
  (Rabs A0 <= 1 / 2)%R -> (Rabs A1 <= 1 / 2)%R -> (Rabs A2 <= 3 / 4)%R -> -100 <= m <= -5 -> (Rabs R <= bp m)%R ->
  let r2 := f_mul F64 rm rem rem in
  exists e, (Rabs e <= bp m * bp m * bp (-50))%R /\
    is_real D (f_mul F64 rm (f_add F64 rm (f_mul F64 rm a0 r2) (f_add F64 rm (f_mul F64 rm a1 rem) a2)) r2) (R * R * (A2 + A1 * R + A0 * (R * R)) + e).
Proof.
  intros rm a0 a1 a2 rem A0 A1 A2 R m H0 H1 H2 Hr B0 B1 B2 Hm HB r2.
  pose proof (bpow_gt_0 radix2 m) as MP. assert (ML : (bp m <= / 32)%R) by (change (/ 32)%R with (bp (-5)); apply bpow_le; lia).
  set (M := bp m) in *. assert (RB : (Rabs R <= / 32)%R) by lra.
  assert (MM : (bp (2 * m) = M * M)%R) by (replace (2 * m) with (m + m) by ring; apply bpow_plus).
  assert (RR : (Rabs (R * R) <= M * M)%R) by (rewrite Rabs_mult; apply Rmult_le_compat; auto; apply Rabs_pos).
  destruct (mul_e rm _ _ _ _ (2 * m) Hr Hr ltac:(lia) ltac:(rewrite MM; exact RR)) as (e3 & E3 & R3). fold r2 in R3.
  unfold Zminus in E3. rewrite bpow_plus, MM in E3.
  assert (X3 : exists s3, (e3 = M * M * s3)%R /\ (Rabs s3 <= / 9007199254740992)%R).
  { exists (e3 / (M * M))%R. split; [field; lra|]. unfold Rdiv. rewrite Rabs_mult, Rabs_inv, (Rabs_pos_eq (M * M)) by nra. apply Rmult_le_reg_r with (M * M)%R; [nra|].
    rewrite Rmult_assoc, Rinv_l, Rmult_1_r by nra. rewrite Rmult_comm. exact E3. }
  assert (XR : exists q, (R = M * q)%R /\ (Rabs q <= 1)%R).
  { exists (R / M)%R. split; [field; lra|]. unfold Rdiv. rewrite Rabs_mult, Rabs_inv, (Rabs_pos_eq M) by lra. apply Rmult_le_reg_r with M; [lra|]. rewrite Rmult_assoc, Rinv_l by lra. lra. }
  assert (MB : (0 <= M <= / 32)%R) by lra.
  destruct X3 as (s3 & -> & S3). destruct XR as (q & -> & Q1). clear E3 RR.
  destruct (mul_e rm _ _ _ _ (-4) H1 Hr ltac:(lia) ltac:(bpn; interval with (i_prec 40))) as (e1 & E1 & R1). bpn_in E1.
  destruct (add_e rm _ _ _ _ 0 R1 H2 ltac:(lia) ltac:(bpn; interval with (i_prec 40))) as (e2 & E2 & R2). bpn_in E2.
  destruct (mul_e rm _ _ _ _ (-4) H0 R3 ltac:(lia) ltac:(bpn; interval with (i_prec 40))) as (e4 & E4 & R4). bpn_in E4.
  destruct (add_e rm _ _ _ _ 0 R4 R2 ltac:(lia) ltac:(bpn; interval with (i_prec 40))) as (e5 & E5 & R5). bpn_in E5.
  destruct (mul_e rm _ _ _ _ (2 * m) R5 R3 ltac:(lia)) as (e6 & E6 & R6).
  { rewrite MM. match goal with |- (Rabs (?a * _) <= _)%R => replace (a * (M * q * (M * q) + M * M * s3))%R with (M * M * (a * (q * q + s3)))%R by ring end.
    rewrite Rabs_mult, (Rabs_pos_eq (M * M)) by nra. apply Rle_trans with (M * M * 1)%R; [|lra]. apply Rmult_le_compat_l; [nra|]. interval with (i_prec 40). }
  unfold Zminus in E6. rewrite bpow_plus, MM in E6. change (bp (- (53))) with (/ 9007199254740992)%R in E6.
  match type of R6 with is_real _ _ ?v => exists (v - M * q * (M * q) * (A2 + A1 * (M * q) + A0 * (M * q * (M * q))))%R; split;
    [|match goal with |- is_real _ _ ?w => replace w with v by ring; exact R6 end] end.
  match goal with |- (Rabs ?t <= _)%R => replace t with (M * M * ((A0 * (M * M * s3) + e4 + e1 + e2 + e5) * (q * q + s3) + (A2 + A1 * (M * q) + A0 * (M * q * (M * q))) * s3) + e6)%R by ring end.
  eapply Rle_trans; [apply Rabs_triang|]. rewrite Rabs_mult, (Rabs_pos_eq (M * M)) by nra.
  match goal with |- (_ * Rabs ?t + _ <= _)%R => assert (T : (Rabs t <= / 2000000000000000)%R) by interval with (i_prec 60) end.
  apply Rle_trans with (M * M * (/ 2000000000000000) + M * M * / 9007199254740992)%R; [apply Rplus_le_compat; [apply Rmult_le_compat_l; [nra|exact T]|exact E6]|].
  rewrite <- Rmult_plus_distr_l. apply Rmult_le_compat_l; [nra|]. bpn. lra.
Qed.

Lemma ofZ_r : forall rm n, Z.abs n < 2 ^ 53 -> is_real D (f_of_Z F64 rm n) (IZR n).
Proof. intros rm n Hn. apply (ofz_r D good64 rm n). change (prec D) with 53. lia. Qed.
(** rem = z * invc - 1. *)
Lemma rem_spec : forall rm i z c Z IV, is_real D z Z -> is_real D c IV -> (Rabs (Z * IV - 1) <= 309 / 10000)%R -> (i = 9 -> IV = 1%R) -> (exists m, Z = (IZR m * bp (-24))%R) ->
  exists R, is_real D (f_sub F64 rm (f_mul F64 rm z c) (f_of_Z F64 rm 1)) R /\ (Rabs (R - (Z * IV - 1)) <= bp (-50))%R /\ (Rabs R <= 31 / 1000)%R /\ (i = 9 -> R = (Z - 1)%R).
Proof.
  intros rm i z c Z IV Hz Hc HB H9 (m & HZ). pose proof (ofZ_r rm 1 ltac:(lia)) as HO.
  destruct (Z.eq_dec i 9) as [E|E].
  - specialize (H9 E). subst IV. rewrite Rmult_1_r in HB. exists (Z - 1)%R. rewrite Rmult_1_r. split.
    + assert (HM : is_real D (f_mul F64 rm z c) Z).
      { apply (mul_x D good64) with (1 := Hz) (2 := Hc); [ring| |].
        - destruct Hz as (P & Fi & <-). apply (fval_format D good64); auto.
        - destruct Hz as (P & Fi & <-). apply (fin_bound D good64); auto. }
      apply (sub_x D good64) with (1 := HM) (2 := HO); [reflexivity| |].
      * replace (Z - 1)%R with (IZR (m - 2 ^ 24) * bp (-24))%R.
        2: { rewrite minus_IZR, HZ. change (IZR (2 ^ 24)) with (bp 24). rewrite Rmult_minus_distr_r, <- bpow_plus. change (bp (24 + -24)) with 1%R. ring. }
        apply gfD; [|lia]. apply lt_IZR. rewrite abs_IZR.
        assert (Q : (IZR (m - 2 ^ 24) = (Z - 1) * bp 24)%R). { rewrite minus_IZR, HZ. change (IZR (2 ^ 24)) with (bp 24). rewrite Rmult_minus_distr_r, Rmult_assoc, <- bpow_plus. change (bp (-24 + 24)) with 1%R. ring. }
        rewrite Q, Rabs_mult, (Rabs_pos_eq (bp 24)) by apply bpow_ge_0. bpn. change (IZR (2 ^ 53)) with 9007199254740992%R. lra.
      * apply Rle_lt_trans with 1%R; [lra|]. change 1%R with (bp 0). apply bpow_lt. reflexivity.
    + split; [rewrite Rminus_diag_eq, Rabs_R0 by reflexivity; apply bpow_ge_0|]. split; [lra|auto].
  - apply Rabs_le_inv in HB.
    destruct (mul_e rm _ _ _ _ 1 Hz Hc ltac:(lia) ltac:(bpn; apply Rabs_le; lra)) as (e1 & E1 & R1). bpn_in E1. apply Rabs_le_inv in E1.
    destruct (sub_e rm _ _ _ _ (-3) R1 HO ltac:(lia) ltac:(bpn; apply Rabs_le; lra)) as (e2 & E2 & R2). bpn_in E2. apply Rabs_le_inv in E2.
    eexists. split; [exact R2|]. split; [bpn; apply Rabs_le; lra|]. split; [apply Rabs_le; lra|intros; contradiction].
Qed.

(** A number as 2^m * q with |q| <= 1 and |q| >= 1/2. *)
Lemma mag_bound : forall R, R <> 0%R -> (Rabs R <= / 32)%R -> (bp (-24) <= Rabs R)%R -> exists m, -100 <= m <= -5 /\ (Rabs R <= bp m)%R /\ (bp m <= 2 * Rabs R)%R.
Proof.
  intros R N HB HL. destruct (Rle_or_lt (Rabs R) (bp (-5))) as [_|H]; [|bpn_in H; lra].
  destruct (Req_dec (Rabs R) (bp (-5))) as [E|E]; [exists (-5); split; [lia|]; rewrite E; bpn; lra|].
  exists (mag radix2 R). destruct (mag radix2 R) as [m Hm]. cbn [mag_val]. specialize (Hm N).
  assert (m <= -5). { apply Z.nlt_ge. intros C. assert (bp (-5) <= bp (m - 1))%R by (apply bpow_le; lia). bpn_in HB. change (bp (-5)) with (/ 32)%R in *. lra. }
  assert (-24 < m). { apply (lt_bpow radix2). lra. }
  split; [lia|]. split; [lra|]. replace (bp m) with (2 * bp (m - 1))%R by (unfold Zminus; rewrite bpow_plus; change (bp (- (1))) with (/ 2)%R; field). lra.
Qed.

Lemma zl_0 : zl 0 = (11730944 / 16777216)%R. Proof. unfold zl. change (0x3f330000 + 0 * 2 ^ 19) with 1060306944. fvalof F32 1060306944. bpn. lra. Qed.
Lemma zl_16 : zl 16 = (11730944 / 8388608)%R. Proof. unfold zl. change (0x3f330000 + 16 * 2 ^ 19) with 1068695552. fvalof F32 1068695552. bpn. lra. Qed.
(** x outside [0.699, 1.399): the logarithm is bounded away from 0. *)
Lemma ln_far : forall Z k, (zl 0 <= Z <= zl 16)%R -> k <> 0 -> (33 / 100 <= Rabs (IZR k * ln 2 + ln Z))%R.
Proof.
  intros Z k HZ Hk. rewrite zl_0, zl_16 in HZ. assert (L : (-359 / 1000 <= ln Z <= 336 / 1000)%R) by (split; interval with (i_prec 40)).
  assert (L2 : (693 / 1000 <= ln 2 <= 694 / 1000)%R) by (split; interval with (i_prec 40)).
  destruct (Z_lt_le_dec k 0) as [H|H].
  - assert (IZR k <= -1)%R by (apply IZR_le; lia). rewrite Rabs_left1; nra.
  - assert (1 <= IZR k)%R by (apply IZR_le; lia). rewrite Rabs_pos_eq; nra.
Qed.
(** The logarithm of 1 + R against that of Z = (1 + R - e) / IV. *)
Lemma ln_shift : forall Z IV R, (0 < Z)%R -> (0 < IV)%R -> (Rabs (R - (Z * IV - 1)) <= bp (-50))%R -> (Rabs R <= 31 / 1000)%R ->
  (Rabs (ln Z - (ln (1 + R) - ln IV)) <= bp (-49))%R.
Proof.
  intros Z IV R HZ HI HE HR. remember (R - (Z * IV - 1))%R as e eqn:E. bpn_in HE. assert (B : (0 < 1 + R)%R) by (apply Rabs_le_inv in HR; lra).
  assert (Q : (Z * IV = (1 + R) * (1 - e / (1 + R)))%R) by (rewrite E; field; lra).
  assert (P : (0 < 1 - e / (1 + R))%R). { apply Rmult_lt_reg_l with (1 + R)%R; [auto|]. rewrite Rmult_0_r, <- Q. apply Rmult_lt_0_compat; auto. }
  assert (LQ : (ln Z + ln IV = ln (1 + R) + ln (1 - e / (1 + R)))%R) by (rewrite <- !ln_mult by auto; rewrite Q; reflexivity).
  replace (ln Z - (ln (1 + R) - ln IV))%R with (ln (1 - e / (1 + R))) by lra. clear Q P LQ E. bpn. interval with (i_prec 80).
Qed.
Lemma mul_zero : forall rm a b A, is_real D a A -> is_real D b 0 -> is_real D (f_mul D rm b a) 0.
Proof.
  intros rm a b A Ha Hb. apply (mul_x D good64) with (1 := Hb) (2 := Ha); [ring|apply generic_format_0|rewrite Rabs_R0; apply bpow_gt_0].
Qed.
Lemma add_zero : forall rm a b A, is_real D a A -> is_real D b 0 -> is_real D (f_add D rm a b) A /\ is_real D (f_add D rm b a) A.
Proof.
  intros rm a b A Ha Hb. split; [apply (add_x D good64) with (1 := Ha) (2 := Hb)|apply (add_x D good64) with (1 := Hb) (2 := Ha)]; try ring;
    destruct Ha as (P & Fi & <-); first [apply (fval_format D good64)|apply (fin_bound D good64)]; auto.
Qed.

(** As in Exp2fProofs, but leaving symbolic exponents alone. *)
Ltac isz k := let k' := eval cbv in k in match k' with Zneg ?p => idtac | Zpos ?p => idtac | Z0 => idtac end.
Ltac bpn ::= repeat match goal with |- context [bpow radix2 ?k] => isz k; let v := eval cbn in (bpow radix2 k) in change (bpow radix2 k) with v end.
Ltac bpn_in H ::= repeat match type of H with context [bpow radix2 ?k] => isz k; let v := eval cbn in (bpow radix2 k) in change (bpow radix2 k) with v in H end.
Lemma logf_core : forall rm x X, is_real F32 x X -> (0 < X)%R -> X <> 1%R -> exists y W, logf_impl rm x = f_cast F64 F32 rm y /\ is_real D y W /\
  (Rabs (W - ln X) <= bp (-25) * Rabs (ln X))%R.
Proof.
  intros rm x X Hx HX N1. destruct (logf_reduce_spec rm x X Hx HX) as (i & k & z & Z & E & Hi & Hk & Hz & XE & ZI & ZB & ZM).
  unfold logf_impl. replace (x =? 0x3f800000) with false.
  2: { symmetry. apply Z.eqb_neq. intros ->. apply N1. destruct Hx as (_ & _ & <-). fvalof F32 0x3f800000. bpn. lra. }
  rewrite E. destruct (logf_table i Hi) as (IV & LV & RI & RL & TL & BI & BZ & T9 & TN).
  destruct (at2 logf_tab i) as [invc logc]. cbn [fst snd] in *.
  assert (ZP : (0 < Z)%R) by (rewrite zl_0 in ZB; lra).
  destruct (rem_spec rm i z invc Z IV Hz RI (BZ Z ZI) ltac:(intros; apply T9; auto) ZM) as (R & RR & RE & RB & R9).
  pose proof (ln_shift Z IV R ZP ltac:(lra) RE RB) as LS.
  realof D (at_ logf_poly 0) H0. realof D (at_ logf_poly 1) H1. realof D (at_ logf_poly 2) H2. realof D logf_ln2 HL.
  assert (XL : ln X = (IZR k * ln 2 + ln Z)%R).
  { rewrite XE, ln_mult by (auto; apply bpow_gt_0). rewrite <- Rpower2_Z. unfold Rpower. rewrite ln_exp. ring. }
  match type of H0 with is_real _ _ ?v => replace v with lA0 in H0 by (unfold lA0; ring) end.
  match type of H1 with is_real _ _ ?v => replace v with lA1 in H1 by (unfold lA1; ring) end.
  match type of H2 with is_real _ _ ?v => replace v with lA2 in H2 by (unfold lA2; ring) end.
  match type of HL with is_real _ _ ?v => set (L2 := v) in HL; assert (HL2 : (Rabs (L2 - ln 2) <= bp (-54))%R) by (unfold L2; bpn; interval with (i_prec 80)) end.
  assert (A0 : (Rabs lA0 <= 1 / 2)%R) by (unfold lA0; bpn; apply Rabs_le; lra).
  assert (A1 : (Rabs lA1 <= 1 / 2)%R) by (unfold lA1; bpn; apply Rabs_le; lra).
  assert (A2 : (Rabs lA2 <= 3 / 4)%R) by (unfold lA2; bpn; apply Rabs_le; lra).
  set (rem := f_sub F64 rm (f_mul F64 rm z invc) (f_of_Z F64 rm 1)) in *.
  assert (PE : forall m, -100 <= m <= -5 -> (Rabs R <= bp m)%R -> exists e, (Rabs e <= bp m * bp m * bp (-50))%R /\
    is_real D (f_mul F64 rm (f_add F64 rm (f_mul F64 rm (at_ logf_poly 0) (f_mul F64 rm rem rem)) (f_add F64 rm (f_mul F64 rm (at_ logf_poly 1) rem) (at_ logf_poly 2))) (f_mul F64 rm rem rem)) (R * R * lQ R + e)).
  { intros m Hm HB. exact (log_poly_eval rm _ _ _ rem lA0 lA1 lA2 R m H0 H1 H2 RR A0 A1 A2 Hm HB). }
  set (pol := f_mul F64 rm (f_add F64 rm (f_mul F64 rm (at_ logf_poly 0) (f_mul F64 rm rem rem)) (f_add F64 rm (f_mul F64 rm (at_ logf_poly 1) rem) (at_ logf_poly 2))) (f_mul F64 rm rem rem)) in *.
  set (y0 := f_add F64 rm logc (f_mul F64 rm (f_of_Z F64 rm k) logf_ln2)) in *.
  pose proof (ofZ_r rm k ltac:(lia)) as RK. clear H0 H1 H2 A0 A1 A2 E.
  assert (P5 : (Rabs R <= bp (-5))%R) by (bpn; lra).
  assert (HLP : lP R = (R + R * R * lQ R)%R) by reflexivity.
  exists (f_add F64 rm pol (f_add F64 rm y0 rem)).
  destruct (Z.eq_dec k 0) as [K0|K0].
  - subst k. assert (Y0 : is_real D y0 LV) by (refine (proj1 (add_zero rm _ _ _ RL _)); apply mul_zero with L2; auto).
    rewrite Rmult_0_l, Rplus_0_l in XL. rewrite Rmult_1_r in XE. subst Z.
    destruct (Z.eq_dec i 9) as [I9|I9].
    + destruct (T9 I9) as (-> & -> & BX). specialize (BX X ZI). specialize (R9 I9). subst R. clear TN LS RE.
      pose proof (proj2 (add_zero rm rem y0 _ RR Y0)) as RS.
      destruct (mag_bound (X - 1)) as (m & Hm & M1 & M2). { lra. } { lra. }
      { destruct ZM as (n & ->). replace (IZR n * bp (-24) - 1)%R with (IZR (n - 2 ^ 24) * bp (-24))%R.
        2: { rewrite minus_IZR. change (IZR (2 ^ 24)) with (bp 24). rewrite Rmult_minus_distr_r, <- bpow_plus. reflexivity. }
        rewrite Rabs_mult, (Rabs_pos_eq (bp (-24))) by apply bpow_ge_0. rewrite <- (Rmult_1_l (bp (-24))) at 1. apply Rmult_le_compat_r; [apply bpow_ge_0|].
        rewrite <- abs_IZR. apply (IZR_le 1). assert (n <> 2 ^ 24); [|lia]. intros ->. apply N1. change (IZR (2 ^ 24)) with (bp 24). rewrite <- bpow_plus. reflexivity. }
      destruct (PE m Hm M1) as (e6 & E6 & R6).
      assert (MP := bpow_gt_0 radix2 m). assert (ML : (bp m <= / 32)%R) by (change (/ 32)%R with (bp (-5)); apply bpow_le; lia).
      assert (E6' : (Rabs e6 <= bp (-55) * bp m)%R). { eapply Rle_trans; [exact E6|]. assert (bp m * bp m <= bp m * / 32)%R by (apply Rmult_le_compat_l; lra). bpn. lra. }
      assert (S1 : (Rabs (ln (1 + (X - 1))) <= 3 / 2 * bp m)%R).
      { pose proof (ln1p_upper (X - 1)). pose proof (ln1p_lower (X - 1)). apply Rabs_le_inv in BX. apply Rabs_le_inv in M1.
        assert (- (3 / 2 * bp m) <= (X - 1) / (1 + (X - 1)))%R; [|apply Rabs_le; lra].
        replace ((X - 1) / (1 + (X - 1)))%R with (1 - / X)%R by (field; lra).
        apply Rmult_le_reg_r with X; [lra|]. replace ((1 - / X) * X)%R with (X - 1)%R by (field; lra). nra. }
      pose proof (lP_rel (X - 1) BX) as LR. replace (1 + (X - 1))%R with X in * by ring.
      destruct (add_e rm _ _ _ _ (m + 1) R6 RS ltac:(lia)) as (e7 & E7 & R7).
      { replace ((X - 1) * (X - 1) * lQ (X - 1) + e6 + (X - 1))%R with ((lP (X - 1) - ln X) + (ln X + e6))%R by (unfold lP; ring).
        eapply Rle_trans; [apply Rabs_triang|]. assert (Rabs (ln X + e6) <= Rabs (ln X) + Rabs e6)%R by apply Rabs_triang. rewrite bpow_plus. change (bp 1) with 2%R. bpn_in LR. bpn_in E6'. lra. }
      eexists. split; [reflexivity|]. split; [exact R7|].
      match goal with |- (Rabs (?a - _) <= _)%R => replace (a - ln X)%R with ((lP (X - 1) - ln X) + (e6 + e7))%R by (unfold lP; ring) end.
      eapply Rle_trans; [apply Rabs_triang|]. assert (Rabs (e6 + e7) <= Rabs e6 + Rabs e7)%R by apply Rabs_triang.
      replace (m + 1 - 53) with (m + -52) in E7 by ring. rewrite bpow_plus in E7.
      assert (LA := ln1p_abs (X - 1) ltac:(lra)). replace (1 + (X - 1))%R with X in LA by ring. bpn_in LR. bpn_in E6'. bpn_in E7. bpn. lra.
    + specialize (TN I9 X R ZI RE). destruct (PE (-5) ltac:(lia) P5) as (e6 & E6 & R6). bpn_in E6. apply Rabs_le_inv in E6.
      assert (LB : (Rabs LV <= 6 / 10)%R). { bpn_in TL. assert (-52 / 100 <= ln IV <= 42 / 100)%R by (split; interval with (i_prec 40)). apply Rabs_le_inv in TL. apply Rabs_le. lra. }
      apply Rabs_le_inv in LB. assert (RB' := RB). apply Rabs_le_inv in RB'.
      destruct (add_e rm _ _ _ _ 0 Y0 RR ltac:(lia) ltac:(bpn; apply Rabs_le; lra)) as (e7 & E7 & R7). bpn_in E7. apply Rabs_le_inv in E7.
      assert (QB : (Rabs (R * R * lQ R) <= / 1000)%R) by (unfold lQ, lA0, lA1, lA2; bpn; interval with (i_prec 40)). apply Rabs_le_inv in QB.
      destruct (add_e rm _ _ _ _ 0 R6 R7 ltac:(lia) ltac:(bpn; apply Rabs_le; lra)) as (e8 & E8 & R8). bpn_in E8. apply Rabs_le_inv in E8.
      eexists. split; [reflexivity|]. split; [exact R8|].
      match goal with |- (Rabs (?a - _) <= _)%R => replace (a - ln X)%R with ((lP R - ln (1 + R)) + ((LV + ln IV) - (ln X - (ln (1 + R) - ln IV)) + e6 + e7 + e8))%R by (unfold lP; ring) end.
      eapply Rle_trans; [apply Rabs_triang|]. bpn_in TL. apply Rabs_le_inv in TL.
      assert (TR : (Rabs (ln (1 + R) - ln IV) <= Rabs (ln X) + Rabs (ln X - (ln (1 + R) - ln IV)))%R).
      { replace (ln (1 + R) - ln IV)%R with (ln X + - (ln X - (ln (1 + R) - ln IV)))%R at 1 by ring. eapply Rle_trans; [apply Rabs_triang|]. rewrite Rabs_Ropp. lra. }
      bpn_in LS. assert (LS' := LS). apply Rabs_le_inv in LS'.
      match goal with |- (_ + Rabs ?t <= _)%R => assert (TT : (Rabs t <= / 100000000000000)%R) by (apply Rabs_le; lra) end. bpn_in TN. bpn. lra.
  - pose proof (ln_far Z k ZB K0) as LF. rewrite <- XL in LF. pose proof (lP_abs R RB) as LA. bpn_in LA. apply Rabs_le_inv in LA.
    assert (KB : (-150 <= IZR k <= 128)%R) by (split; apply IZR_le; lia).
    assert (L2B : (0 <= L2 <= 7 / 10)%R) by (unfold L2; bpn; lra).
    destruct (PE (-5) ltac:(lia) P5) as (e6 & E6 & R6). bpn_in E6. apply Rabs_le_inv in E6.
    assert (LB : (Rabs LV <= 6 / 10)%R). { bpn_in TL. assert (-52 / 100 <= ln IV <= 42 / 100)%R by (split; interval with (i_prec 40)). apply Rabs_le_inv in TL. apply Rabs_le. lra. }
    apply Rabs_le_inv in LB. assert (RB' := RB). apply Rabs_le_inv in RB'.
    destruct (mul_e rm _ _ _ _ 7 RK HL ltac:(lia) ltac:(bpn; apply Rabs_le; nra)) as (e1 & E1 & R1). bpn_in E1. apply Rabs_le_inv in E1.
    assert (KL : (-105 <= IZR k * L2 <= 105)%R) by nra.
    destruct (add_e rm _ _ _ _ 7 RL R1 ltac:(lia) ltac:(bpn; apply Rabs_le; lra)) as (e2 & E2 & R2). bpn_in E2. apply Rabs_le_inv in E2. fold y0 in R2.
    destruct (add_e rm _ _ _ _ 7 R2 RR ltac:(lia) ltac:(bpn; apply Rabs_le; lra)) as (e7 & E7 & R7). bpn_in E7. apply Rabs_le_inv in E7.
    assert (QB : (Rabs (R * R * lQ R) <= / 1000)%R) by (unfold lQ, lA0, lA1, lA2; bpn; interval with (i_prec 40)). apply Rabs_le_inv in QB.
    destruct (add_e rm _ _ _ _ 7 R6 R7 ltac:(lia) ltac:(bpn; apply Rabs_le; lra)) as (e8 & E8 & R8). bpn_in E8. apply Rabs_le_inv in E8.
    eexists. split; [reflexivity|]. split; [exact R8|].
    rewrite XL at 1.
    match goal with |- (Rabs (?a - ?b) <= _)%R => replace (a - b)%R with (IZR k * (L2 - ln 2) + ((lP R - ln (1 + R)) + ((LV + ln IV) - (ln Z - (ln (1 + R) - ln IV)) + e1 + e2 + e6 + e7 + e8)))%R by (unfold lP; ring) end.
    bpn_in TL. apply Rabs_le_inv in TL. bpn_in LS. apply Rabs_le_inv in LS. bpn_in HL2. apply Rabs_le_inv in HL2.
    assert (KD : (- / 100000000000 <= IZR k * (L2 - ln 2) <= / 100000000000)%R) by nra.
    match goal with |- (Rabs ?t <= _)%R => assert (TT : (Rabs t <= / 250000000)%R) by (apply Rabs_le; lra) end. bpn. lra.
Qed.
