(** * exp and exp2 for double: the argument checks and the complete functions *)
From Coq Require Import ZArith Lia Bool Reals Lra List.
From Flocq Require Import Core Relative.
From Interval Require Import Tactic.
From Verif Require Import MachInt Fmt FloatSpec FmtProofs RoundProofs FOps FOpsProofs ExactOps NextProofs ExtFloatSpec ExtFloatProofs ExtInterp RemProofs LerpProofs FmanipWide ErrLib ExpoData ExpoDataD ExpoF ExpD Exp2fProofs ExpoFWrap ExpDNum ExpDFin ExpDProofs.
Import ListNotations.
Open Scope Z_scope.

Lemma top12_eq : forall x, is_pattern D x -> Z.land (top12d x) 0x7ff = mag_of D x / 2 ^ 52.
Proof.
  intros x [P1 P2]. change 0x7ff with (Z.ones 11). rewrite Z.land_ones by lia. unfold top12d. rewrite Z.shiftr_div_pow2 by lia.
  change (2 ^ width D) with (2 ^ 64) in P2. unfold mag_of. change (sign_unit D) with (2 ^ 63).
  change (2 ^ 63) with (2 ^ 52 * 2 ^ 11). rewrite Z.rem_mul_r by lia.
  replace (x mod 2 ^ 52 + 2 ^ 52 * ((x / 2 ^ 52) mod 2 ^ 11)) with ((x / 2 ^ 52) mod 2 ^ 11 * 2 ^ 52 + x mod 2 ^ 52) by ring.
  rewrite Z.div_add_l by lia. rewrite (Z.div_small (x mod 2 ^ 52)) by (apply Z.mod_pos_bound; lia). ring.
Qed.
Lemma tops : top12d (lit 1 9) = 1032 /\ top12d (lit 1 (-54)) = 969 /\ top12d (lit 1 10) = 1033 /\ top12d (f_inf D false) = 2047.
Proof. vm_compute. auto. Qed.
(** The thresholds on the top bits are thresholds on the absolute value. *)
Lemma top_ge : forall c e x X, is_real D x X -> 1 <= c < 2047 -> e = c - 1023 -> (c <= mag_of D x / 2 ^ 52 <-> (bp e <= Rabs X)%R).
Proof.
  intros c e x X Hx Hc ->.
  assert (M : mval D (c * 2 ^ 52) = bp (c - 1023)).
  { rewrite mval_c; [|exact good64|change (inf_mag D) with (2047 * 2 ^ 52); lia].
    destruct (pos_pat (c * 2 ^ 52) ltac:(lia)) as (_ & _ & H). rewrite H. rewrite Z.div_mul, Z.mod_mul by lia.
    rewrite Z.add_0_r. change (IZR (2 ^ 52)) with (bp 52). rewrite <- bpow_plus. f_equal. lia. }
  rewrite <- M, <- (mag_ge D x (c * 2 ^ 52) X good64 Hx) by lia. split; intros H.
  - pose proof (Z.mul_div_le (mag_of D x) (2 ^ 52) ltac:(lia)). lia.
  - apply Z.div_le_lower_bound; lia.
Qed.

Lemma top_bd : forall x, is_fin D x = true -> 0 <= mag_of D x / 2 ^ 52 < 2047.
Proof.
  intros x Fi. unfold is_fin in Fi. apply Z.ltb_lt in Fi. change (inf_mag D) with (2047 * 2 ^ 52) in Fi. pose proof (mag_range D good64 x). split; [apply Z.div_pos; lia|apply Z.div_lt_upper_bound; lia].
Qed.
Lemma wrap_top : forall A, 0 <= A <= 2047 -> (1032 - 969 <=? wrap 32 (A - 969)) = (A <? 969) || (1032 <=? A) /\ (0x80000000 <=? wrap 32 (A - 969)) = (A <? 969).
Proof.
  intros A HA. unfold wrap. destruct (Z.ltb_spec A 969).
  - replace ((A - 969) mod 2 ^ 32) with (A - 969 + 2 ^ 32) by (apply Z.mod_unique with (-1); lia). split; apply Z.leb_le; lia.
  - rewrite Z.mod_small by lia. split; [|apply Z.leb_gt; lia]. cbn [orb]. apply eq_true_iff_eq. rewrite !Z.leb_le. lia.
Qed.
Lemma sgn_shift : forall x, is_pattern D x -> (Z.shiftr x 63 =? 0) = negb (sign_of D x).
Proof.
  intros x P. rewrite (sign_of_eq D good64) by auto. destruct P as [P1 P2]. change (2 ^ width D) with (2 ^ 64) in P2. change (sign_unit D) with (2 ^ 63). rewrite Z.shiftr_div_pow2 by lia.
  destruct (Z.leb_spec (2 ^ 63) x); cbn [negb].
  - apply Z.eqb_neq. replace (x / 2 ^ 63) with 1; [lia|]. apply Z.div_unique with (x - 2 ^ 63); lia.
  - apply Z.eqb_eq. apply Z.div_small. lia.
Qed.
Lemma sgn_real : forall x X, is_real D x X -> X <> 0%R -> sign_of D x = Rlt_bool X 0.
Proof. intros x X (P & Fi & <-) N. apply (sign_fval D good64); auto. Qed.
Lemma not_inf : forall x s, is_fin D x = true -> (x =? f_inf D s) = false.
Proof. intros x s Fi. apply Z.eqb_neq. intros ->. destruct s; vm_compute in Fi; discriminate. Qed.
Lemma folds : f_mul D RNE (lit 1 (-767)) (lit 1 (-767)) = 0 /\ f_mul D RNE (lit 1 769) (lit 1 769) = inf_mag D.
Proof. vm_compute. auto. Qed.

Definition expd_fin (rm : rmode) (x : Z) (special : bool) : Z :=
  let '(tmp, sign_bits, ki) := expd_kernel rm x in if special then special_case 1009 rm tmp sign_bits ki else f_add D rm sign_bits (f_mul D rm sign_bits tmp).
Definition exp2d_fin (rm : rmode) (x : Z) (special : bool) : Z :=
  let '(tmp, sign_bits, ki) := exp2d_kernel rm x in if special then special_case 1 rm tmp sign_bits ki else f_add D rm sign_bits (f_mul D rm sign_bits tmp).

Lemma exp_d_cases : forall rm x X, is_real D x X -> exp_d rm x =
  (if Rlt_bool (Rabs X) (bp (-54)) then f_add D rm (lit 1 0) x else if Rlt_bool (Rabs X) 512 then expd_fin rm x false
   else if Rlt_bool (Rabs X) 1024 then expd_fin rm x true else if Rlt_bool X 0 then 0 else inf_mag D).
Proof.
  intros rm x X Hx. pose proof Hx as (P & Fi & _). unfold exp_d. rewrite top12_eq by auto. destruct tops as (-> & -> & -> & ->). destruct folds as [-> ->].
  pose proof (top_ge 969 (-54) x X Hx ltac:(lia) eq_refl) as T1. pose proof (top_ge 1032 9 x X Hx ltac:(lia) eq_refl) as T2. pose proof (top_ge 1033 10 x X Hx ltac:(lia) eq_refl) as T3.
  pose proof (top_bd x Fi) as TB. set (A := mag_of D x / 2 ^ 52) in *. destruct (wrap_top A ltac:(lia)) as [-> ->].
  change (bp 9) with 512%R in T2. change (bp 10) with 1024%R in T3. rewrite not_inf by auto. replace (2047 <=? A) with false by (symmetry; apply Z.leb_gt; lia).
  destruct (Rlt_bool_spec (Rabs X) (bp (-54))) as [L1|L1].
  - replace (A <? 969) with true; [reflexivity|]. symmetry. apply Z.ltb_lt. destruct (Z_lt_le_dec A 969) as [|G]; auto. apply T1 in G. lra.
  - apply T1 in L1. replace (A <? 969) with false by (symmetry; apply Z.ltb_ge; lia). cbn [orb].
    destruct (Rlt_bool_spec (Rabs X) 512) as [L2|L2].
    + replace (1032 <=? A) with false. 2: { symmetry. apply Z.leb_gt. destruct (Z_lt_le_dec A 1032) as [|G]; auto. apply T2 in G. lra. }
      replace (A =? 0) with false by (symmetry; apply Z.eqb_neq; lia). reflexivity.
    + apply T2 in L2. replace (1032 <=? A) with true by (symmetry; apply Z.leb_le; lia).
      destruct (Rlt_bool_spec (Rabs X) 1024) as [L3|L3].
      * replace (1033 <=? A) with false; [reflexivity|]. symmetry. apply Z.leb_gt. destruct (Z_lt_le_dec A 1033) as [|G]; auto. apply T3 in G. lra.
      * pose proof L3 as L4. apply T3 in L3. replace (1033 <=? A) with true by (symmetry; apply Z.leb_le; lia).
        rewrite sgn_shift, (sgn_real x X Hx), negb_involutive by (auto; intros ->; rewrite Rabs_R0 in L4; lra). reflexivity.
Qed.

Lemma mag_lit : forall m e x X, is_real D x X -> is_real D (lit m e) (IZR m * bp e) -> sign_of D (lit m e) = false -> (0 <= IZR m * bp e)%R ->
  (lit m e <= mag_of D x <-> (IZR m * bp e <= Rabs X)%R).
Proof.
  intros m e x X Hx (P & Fi & V) S HV. rewrite (sign_of_eq D good64) in S by auto. apply Z.leb_gt in S. destruct P as [P1 P2].
  assert (M : mag_of D (lit m e) = lit m e) by (unfold mag_of; apply Z.mod_small; lia). unfold is_fin in Fi. apply Z.ltb_lt in Fi. rewrite M in Fi.
  rewrite (mag_ge D x _ X good64 Hx P1), mval_c, V by (try exact good64; lia). reflexivity.
Qed.
Lemma wrap_dbl : forall x, wrap 64 (2 * x) = 2 * mag_of D x.
Proof. intros x. unfold wrap, mag_of. change (sign_unit D) with (2 ^ 63). change (2 ^ 64) with (2 * 2 ^ 63). apply Z.mul_mod_distr_l; lia. Qed.
Lemma neg_pat : forall x, is_pattern D x -> sign_of D x = true -> x = 2 ^ 63 + mag_of D x.
Proof.
  intros x P S. rewrite (sign_of_eq D good64) in S by auto. apply Z.leb_le in S. destruct P as [P1 P2]. change (2 ^ width D) with (2 ^ 64) in P2. unfold mag_of. change (sign_unit D) with (2 ^ 63) in *.
  replace (x mod 2 ^ 63) with (x - 2 ^ 63); [ring|]. apply Z.mod_unique with 1; lia.
Qed.
Lemma exp2_d_cases : forall rm x X, is_real D x X -> exp2_d rm x =
  (if Rlt_bool (Rabs X) (bp (-54)) then f_add D rm x (lit 1 0) else if Rle_bool 1024 X then inf_mag D
   else if Rle_bool X (-1075) then 0 else if Rle_bool (Rabs X) 928 then exp2d_fin rm x false else exp2d_fin rm x true).
Proof.
  intros rm x X Hx. pose proof Hx as (P & Fi & _). unfold exp2_d. rewrite top12_eq by auto. destruct tops as (-> & -> & -> & ->). destruct folds as [-> ->].
  pose proof (top_ge 969 (-54) x X Hx ltac:(lia) eq_refl) as T1. pose proof (top_ge 1032 9 x X Hx ltac:(lia) eq_refl) as T2. pose proof (top_ge 1033 10 x X Hx ltac:(lia) eq_refl) as T3.
  assert (LR : forall m, Z.abs m < 2 ^ 53 -> is_real D (lit m 0) (IZR m * bp 0)) by (intros; apply lit_r; lia).
  pose proof (mag_lit 1075 0 x X Hx (LR 1075 ltac:(lia)) ltac:(vm_compute; reflexivity) ltac:(cbn; lra)) as T5. cbn [bpow] in T5. rewrite Rmult_1_r in T5.
  assert (T4 : mag_of D x <= lit 928 0 <-> (Rabs X <= 928)%R).
  { replace (lit 928 0) with (lit 928 0 + 1 - 1) by ring. assert (E : mag_of D x <= lit 928 0 + 1 - 1 <-> ~ (lit 928 0 + 1 <= mag_of D x)) by lia. rewrite E.
    assert (M : mval D (lit 928 0) = 928%R).
    { rewrite mval_c; [|exact good64|vm_compute; split; congruence]. destruct (LR 928 ltac:(lia)) as (_ & _ & ->). cbn. ring. }
    destruct Hx as (_ & _ & HV). rewrite <- HV, (Rabs_fval D good64) by auto. rewrite <- M. pose proof (mag_range D good64 x). rewrite <- (mval_le D good64) by (try lia; vm_compute; congruence). lia. }
  pose proof (top_bd x Fi) as TB. set (A := mag_of D x / 2 ^ 52) in *. destruct (wrap_top A ltac:(lia)) as [-> ->].
  change (bp 9) with 512%R in T2. change (bp 10) with 1024%R in T3. rewrite not_inf by auto. replace (2047 <=? A) with false by (symmetry; apply Z.leb_gt; lia).
  assert (LG : (wrap 64 (2 * lit 928 0) <? wrap 64 (2 * x)) = negb (Rle_bool (Rabs X) 928)).
  { rewrite !wrap_dbl. replace (mag_of D (lit 928 0)) with (lit 928 0) by (vm_compute; reflexivity). destruct (Rle_bool_spec (Rabs X) 928) as [H|H]; cbn [negb].
    - apply Z.ltb_ge. apply T4 in H. lia.
    - apply Z.ltb_lt. destruct (Z_lt_le_dec (lit 928 0) (mag_of D x)) as [|G]; [lia|]. apply T4 in G. lra. }
  rewrite LG. rewrite sgn_shift by auto.
  destruct (Rlt_bool_spec (Rabs X) (bp (-54))) as [L1|L1].
  - replace (A <? 969) with true; [reflexivity|]. symmetry. apply Z.ltb_lt. destruct (Z_lt_le_dec A 969) as [|G]; auto. apply T1 in G. lra.
  - assert (NZ : X <> 0%R). { intros ->. rewrite Rabs_R0 in L1. pose proof (bpow_gt_0 radix2 (-54)). lra. }
    rewrite (sgn_real x X Hx NZ). apply T1 in L1. replace (A <? 969) with false by (symmetry; apply Z.ltb_ge; lia). cbn [orb].
    replace (A =? 0) with false by (symmetry; apply Z.eqb_neq; lia).
    destruct (Rlt_le_dec (Rabs X) 512) as [L2|L2].
    + replace (1032 <=? A) with false. 2: { symmetry. apply Z.leb_gt. destruct (Z_lt_le_dec A 1032) as [|G]; auto. apply T2 in G. lra. }
      rewrite (Rle_bool_false 1024), (Rle_bool_false X (-1075)), Rle_bool_true by (try lra; apply Rabs_def2 in L2; lra). reflexivity.
    + apply T2 in L2. replace (1032 <=? A) with true by (symmetry; apply Z.leb_le; lia).
      assert (LA : (if negb (Rle_bool (Rabs X) 928) then exp2d_fin rm x true else exp2d_fin rm x false) = (if Rle_bool (Rabs X) 928 then exp2d_fin rm x false else exp2d_fin rm x true)) by (destruct (Rle_bool (Rabs X) 928); reflexivity).
      destruct (Rlt_le_dec (Rabs X) 1024) as [L3|L3].
      * replace (1033 <=? A) with false. 2: { symmetry. apply Z.leb_gt. destruct (Z_lt_le_dec A 1033) as [|G]; auto. apply T3 in G. lra. }
        rewrite (Rle_bool_false 1024), (Rle_bool_false X (-1075)) by (apply Rabs_def2 in L3; lra). exact LA.
      * pose proof L3 as L4. apply T3 in L3. replace (1033 <=? A) with true by (symmetry; apply Z.leb_le; lia).
        destruct (Rlt_bool_spec X 0) as [S|S]; cbn [negb].
        -- rewrite (Rle_bool_false 1024) by lra. rewrite Rabs_left in L4, T5 by auto.
           assert (SX : sign_of D x = true) by (rewrite (sgn_real x X Hx NZ); apply Rlt_bool_true; auto).
           assert (E1 : lit (-1075) 0 = 2 ^ 63 + lit 1075 0) by (vm_compute; reflexivity).
           assert (E2 : (lit (-1075) 0 <=? x) = Rle_bool X (-1075)).
           { rewrite E1, (neg_pat x P SX) at 1. destruct (Rle_bool_spec X (-1075)).
             - apply Z.leb_le. assert (lit 1075 0 <= mag_of D x) by (apply T5; lra). lia.
             - apply Z.leb_gt. destruct (Z_lt_le_dec (mag_of D x) (lit 1075 0)) as [|G]; [lia|]. apply T5 in G. lra. }
           rewrite E2. destruct (Rle_bool X (-1075)); [reflexivity|exact LA].
        -- rewrite Rabs_pos_eq in L4 by auto. rewrite (Rle_bool_true 1024) by auto. reflexivity.
Qed.

(** The last step without the special cases, in the form of [special_fin]. *)
Lemma main_fin : forall rm tm P V TM j q, 1023 * 2 ^ 52 <= P < 1024 * 2 ^ 52 -> is_real D P V -> is_real D tm TM ->
  7 <= q <= 8 -> (Rabs TM <= bp (- q))%R -> -960 <= j <= 1022 ->
  exists v, rounded D rm v false (let s := wrap 64 (P + j * 2 ^ 52) in f_add D rm s (f_mul D rm s tm)) /\ (0 < v)%R /\
    (Rabs (v - V * bp j * (1 + TM)) <= bp (j - 52 - q))%R /\ (TM = 0%R -> V = 1%R -> v = bp j).
Proof.
  intros rm tm P V TM j q HP HV HT Hq HB Hj. pose proof (pat_V P V HP HV) as VB. cbv zeta.
  assert (E : wrap 64 (P + j * 2 ^ 52) = P + j * 2 ^ 52) by (unfold wrap; apply Z.mod_small; lia). rewrite E.
  pose proof (pat_scale P V j HP HV ltac:(lia)) as RS. pose proof (HU_small V j VB ltac:(left; lia)) as HU.
  pose proof (fin_main rm _ tm V TM j q VB RS HT ltac:(lia) HU Hq HB) as M. eexists. split; [exact M|].
  pose proof (v_bounds rm V TM j q VB ltac:(lia) Hq HB) as B. pose proof (v_err rm V TM j q VB ltac:(lia) Hq HB) as EE. pose proof (bpow_gt_0 radix2 j). split; [lra|]. split; [exact EE|].
  intros -> ->. rewrite !Rmult_1_l, Rmult_0_r, (fround_0 D). ring.
Qed.
Lemma qD_range : forall rm, 7 <= qD rm <= 8. Proof. destruct rm; cbn; lia. Qed.
Lemma shift_div : (2 ^ 32 | expd_shift) /\ (2 ^ 32 | exp2d_shift).
Proof. split; [exists (expd_shift / 2 ^ 32)|exists (exp2d_shift / 2 ^ 32)]; vm_compute; reflexivity. Qed.
Lemma k_j : forall k a b, (IZR a <= IZR k / 128 < IZR b)%R -> a <= k / 128 < b.
Proof.
  intros k a b [H1 H2]. assert (128 * a <= k). { apply le_IZR. rewrite mult_IZR. lra. } assert (k < 128 * b). { apply lt_IZR. rewrite mult_IZR. lra. }
  split; [apply Z.div_le_lower_bound; lia|apply Z.div_lt_upper_bound; lia].
Qed.
Definition eD (rm : rmode) : Z := match rm with RNE => -57 | _ => -54 end.
Lemma epsD_eq : forall rm, epsD rm = bp (eD rm). Proof. destruct rm; reflexivity. Qed.
Lemma qD_small : forall rm j, (bp (j - 52 - qD rm) = bp j * bp (-52 - qD rm))%R.
Proof. intros. rewrite <- bpow_plus. f_equal. ring. Qed.
Lemma one_D : is_real D (lit 1 0) 1. Proof. replace 1%R with (IZR 1 * bp 0)%R by (cbn; ring). apply lit_r; lia. Qed.
(** 1 + X for tiny X. *)
Lemma add_tiny : forall rm x X b, is_real D x X -> (Rabs X < bp (-54))%R -> b = f_add D rm (lit 1 0) x \/ b = f_add D rm x (lit 1 0) ->
  rounded D rm (1 + X) false b.
Proof.
  intros rm x X b Hx HX Hb. pose proof one_D as R1. assert (B54 : (bp (-54) < / 2)%R) by (bpn; lra). apply Rabs_def2 in HX.
  assert (N : (Rabs (fround D rm (1 + X)) < bp (bias D + 1))%R) by (apply bound_big with 1; [lia|]; change (bp 1) with 2%R; apply Rabs_le; lra).
  assert (R : is_real D b (fround D rm (1 + X))).
  { destruct Hb as [->| ->]; [apply (add_r D good64); auto|]. rewrite Rplus_comm. rewrite Rplus_comm in N. apply (add_r D good64); auto. }
  assert (L : (/ 2 <= fround D rm (1 + X))%R). { apply (fround_ge_gen D good64); [apply (bpD (-1)); lia|lra]. }
  apply rounded_pos; auto; [lra| |apply (pos_sign _ _ R); lra]. apply Rle_lt_trans with (1 := Rle_abs _). exact N.
Qed.

Lemma exp_d_gen : forall rm x X, is_real D x X -> (Rabs X < 1024)%R ->
  exists v, rounded D rm v false (exp_d rm x) /\ (0 < v)%R /\ (Rabs (v - exp X) <= bp (-40) * exp X + bp (-1124))%R /\
    ((Rabs X <= 1023)%R -> (Rabs (v - exp X) <= bp (eD rm) * exp X + bp (-1124))%R).
Proof.
  intros rm x X Hx HX. rewrite (exp_d_cases rm x X Hx). pose proof (exp_pos X) as EP. pose proof (bpow_gt_0 radix2 (-1124)) as TP.
  destruct (Rlt_bool_spec (Rabs X) (bp (-54))) as [L1|L1].
  { exists (1 + X)%R. pose proof (add_tiny rm x X _ Hx L1 (or_introl eq_refl)) as A. split; [exact A|]. assert (B54 : (bp (-54) < / 1000000)%R) by (bpn; lra).
    pose proof (Rabs_def2 _ _ L1). split; [lra|].
    assert (EE : (Rabs (1 + X - exp X) <= bp (-60) * exp X)%R).
    { bpn_in L1. apply Rabs_def2 in L1. bpn. assert (- / 18014398509481984 <= X <= / 18014398509481984)%R by lra.
      apply Rabs_le; split; apply Rminus_le; interval with (i_prec 120, i_taylor X, i_bisect X, i_degree 5). }
    assert (bp (-60) * exp X <= bp (-40) * exp X)%R by (apply Rmult_le_compat_r; [lra|apply bpow_le; lia]).
    assert (bp (-60) * exp X <= bp (eD rm) * exp X)%R by (apply Rmult_le_compat_r; [lra|apply bpow_le; destruct rm; cbn; lia]).
    split; [|intros _]; lra. }
  destruct (expd_kernel_spec rm x X Hx ltac:(lra)) as (k & KB & tm & P & V & TM & KE & HP & HV & HT & BT & _ & W1 & W2).
  assert (KX : (Rabs (IZR k / 128 * ln 2 - X) <= / 100)%R).
  { rewrite Rabs_minus_sym. replace (IZR k / 128 * ln 2)%R with (IZR k * (ln 2 / 128))%R by field. apply Rle_trans with (1 := KB).
    assert (0 <= hD rm <= 1)%R by (destruct rm; cbn; lra). assert (0 < ln 2 / 128 < / 184)%R by (split; interval with (i_prec 60)). apply Rle_trans with ((1 + / 1000) * / 184)%R; [apply Rmult_le_compat; lra|lra]. }
  assert (L2 : (0.693 < ln 2 < 0.694)%R) by (split; interval with (i_prec 60)).
  assert (KJ : forall lo hi a b, (lo <= X <= hi)%R -> (IZR a * 0.693 <= lo - / 100)%R -> (IZR a * 0.694 <= lo - / 100)%R -> (hi + / 100 < IZR b * 0.693)%R -> (hi + / 100 < IZR b * 0.694)%R -> a <= k / 128 < b).
  { intros lo hi a b HL H1 H1' H2 H2'. apply Rabs_le_inv in KX. apply k_j. split.
    - apply Rmult_le_reg_r with (ln 2); [lra|]. apply Rle_trans with (lo - / 100)%R; [|lra]. destruct (Rle_lt_dec 0 (IZR a)); [apply Rle_trans with (IZR a * 0.694)%R; [apply Rmult_le_compat_l; lra|lra]|].
      apply Rle_trans with (IZR a * 0.693)%R; [apply Rmult_le_compat_neg_l; lra|lra].
    - apply Rmult_lt_reg_r with (ln 2); [lra|]. apply Rle_lt_trans with (hi + / 100)%R; [lra|]. destruct (Rle_lt_dec 0 (IZR b)); [apply Rlt_le_trans with (IZR b * 0.693)%R; [lra|apply Rmult_le_compat_l; lra]|].
      apply Rlt_le_trans with (IZR b * 0.694)%R; [lra|apply Rmult_le_compat_neg_l; lra]. }
  assert (fin : forall r t, (exists v, rounded D rm v false r /\ (0 < v)%R /\ (Rabs (v - V * bp (k / 128) * (1 + TM)) <= bp (k / 128 - 52 - qD rm) + bp (-1124))%R /\ t v) ->
    exists v, rounded D rm v false r /\ (0 < v)%R /\ (Rabs (v - exp X) <= bp (-40) * exp X + bp (-1124))%R /\
    ((Rabs X <= 1023)%R -> (Rabs (v - exp X) <= bp (eD rm) * exp X + bp (-1124))%R)).
  { intros r t (v & RV & PV & EV & _). exists v. split; [exact RV|]. split; [exact PV|].
    assert (G : (Rabs (v - exp X) <= Rabs (V * (1 + TM) * bp (k / 128) - exp X) + bp (k / 128 - 52 - qD rm) + bp (-1124))%R).
    { replace (v - exp X)%R with ((v - V * bp (k / 128) * (1 + TM)) + (V * (1 + TM) * bp (k / 128) - exp X))%R by ring. apply Rle_trans with (1 := Rabs_triang _ _). lra. }
    split; [lra|]. intros HX3. specialize (W2 HX3). rewrite epsD_eq in W2. lra. }
  unfold expd_fin. rewrite KE. apply Rabs_def2 in HX. pose proof (qD_range rm) as QR.
  destruct (Rlt_bool_spec (Rabs X) 512) as [H2|H2].
  - apply Rabs_def2 in H2. assert (JB : -760 <= k / 128 < 760) by (apply (KJ (-512)%R 512%R); lra).
    destruct (main_fin rm tm P V TM (k / 128) (qD rm) HP HV HT QR BT ltac:(lia)) as (v & A1 & A2 & A3 & A4). cbv zeta in A1.
    apply (fin _ (fun _ => True)). exists v. split; [exact A1|]. split; [auto|]. split; [lra|auto].
  - rewrite Rlt_bool_true by (apply Rabs_def1; lra).
    assert (JC : (0 <= k / 128 /\ 700 <= k / 128 < 1500) \/ (k / 128 < -700 /\ -1500 <= k / 128)).
    { destruct (Rle_lt_dec 0 X) as [S|S].
      - rewrite Rabs_pos_eq in H2 by auto. assert (700 <= k / 128 < 1500) by (apply (KJ 512%R 1024%R); lra). lia.
      - rewrite Rabs_left in H2 by auto. assert (-1500 <= k / 128 < -700) by (apply (KJ (-1024)%R (-512)%R); lra). lia. }
    assert (KR : - 2 ^ 31 < k < 2 ^ 31) by (pose proof (Z.div_mod k 128 ltac:(lia)); pose proof (Z.mod_pos_bound k 128 ltac:(lia)); lia).
    pose proof (sign_bit31 expd_shift k (proj1 shift_div) KR) as SB.
    set (j := k / 128) in *. assert (J1 : 0 <= j -> -960 <= j - 1009 /\ (j - 1009 <= 1022 \/ (j - 1009 <= 1023 /\ V = 1%R))) by (intros; split; [lia|left; lia]).
    assert (J2 : j < 0 -> -900 <= j + 1022 <= 1000) by lia.
    destruct (special_fin 1009 rm tm P V TM j (expd_shift + k) (qD rm) (or_intror eq_refl) HP HV HT QR BT SB J1 J2) as (v & A1 & A2 & A3 & A4).
    apply (fin _ (fun _ => True)). exists v. auto.
Qed.

(** Correct rounding next to one. *)
Lemma near1_up : forall rm A, (0 < A < bp (-53))%R -> fround D rm (1 + A) = (if match rm with RUP => true | _ => false end then 1 + bp (-52) else 1)%R.
Proof.
  intros rm A H. assert (B52 : (bp (-53) * bp 52 = / 2)%R) by (rewrite <- bpow_plus; reflexivity). pose proof (bpow_gt_0 radix2 52) as P52.
  assert (a : (0 < A * bp 52 < / 2)%R). { split; [apply Rmult_lt_0_compat; lra|]. rewrite <- B52. apply Rmult_lt_compat_r; lra. }
  assert (N0 : forall z, rnd rm (A * bp 52) = z -> grid rm A = (IZR z * bp (-52))%R) by (intros z <-; reflexivity).
  rewrite fround_grid1 by (bpn_in H; lra). remember (A * bp 52)%R as t eqn:Et. clear Et. destruct rm; cbn [rnd] in N0.
  - rewrite (N0 0); [ring|]. apply Znearest_imp. rewrite Rminus_0_r, Rabs_pos_eq; lra.
  - rewrite (N0 0); [ring|]. apply Zfloor_imp. cbn. lra.
  - rewrite (N0 1); [ring|]. apply Zceil_imp. cbn. lra.
  - rewrite (N0 0); [ring|]. rewrite Ztrunc_floor by lra. apply Zfloor_imp. cbn. lra.
Qed.
Lemma near1_dn : forall rm A, (- bp (-54) < A < 0)%R -> fround D rm (1 + A) = (if match rm with RDN | RZR => true | _ => false end then IZR (2 ^ 53 - 1) * bp (-53) else 1)%R.
Proof.
  intros rm A H. assert (B52 : (bp (-54) * bp 53 = / 2)%R) by (rewrite <- bpow_plus; reflexivity). pose proof (bpow_gt_0 radix2 53) as P52.
  assert (a : (- / 2 < A * bp 53 < 0)%R). { rewrite <- B52. split; [rewrite Ropp_mult_distr_l; apply Rmult_lt_compat_r; lra|]. assert (0 < (- A) * bp 53)%R by (apply Rmult_lt_0_compat; lra). lra. }
  rewrite (fround_cexp rm _ (-53)). 2: { rewrite (cexpD _ 0); [reflexivity|]. change (bp (0 - 1)) with (/ 2)%R. change (bp 0) with 1%R. bpn_in H. lra. }
  change (- -53) with 53. replace ((1 + A) * bp 53)%R with (IZR (2 ^ 53) + A * bp 53)%R by (change (IZR (2 ^ 53)) with (bp 53); ring).
  assert (O : (IZR (2 ^ 53) * bp (-53) = 1)%R) by (change (IZR (2 ^ 53)) with (bp 53); rewrite <- bpow_plus; reflexivity).
  assert (E1 : IZR (2 ^ 53 - 1) = (IZR (2 ^ 53) - 1)%R) by apply minus_IZR. assert (G : (2 <= IZR (2 ^ 53))%R) by (apply IZR_le; lia).
  destruct rm; cbn [rnd].
  - rewrite (Znearest_imp _ _ (2 ^ 53)); [exact O|]. replace (IZR (2 ^ 53) + A * bp 53 - IZR (2 ^ 53))%R with (A * bp 53)%R by ring. rewrite Rabs_left; lra.
  - rewrite (Zfloor_imp (2 ^ 53 - 1)); [reflexivity|]. rewrite plus_IZR, E1. lra.
  - rewrite (Zceil_imp (2 ^ 53)); [exact O|]. rewrite E1. lra.
  - rewrite Ztrunc_floor by lra. rewrite (Zfloor_imp (2 ^ 53 - 1)); [reflexivity|]. rewrite plus_IZR, E1. lra.
Qed.
Lemma exp2_tiny : forall X, (Rabs X < bp (-54))%R -> X <> 0%R ->
  ((0 < X -> 0 < Rpower 2 X - 1 < bp (-53)) /\ (X < 0 -> - bp (-54) < Rpower 2 X - 1 < 0))%R.
Proof.
  intros X H N. apply Rabs_def2 in H. assert (L2 : (0.69 < ln 2 < 0.7)%R) by (split; interval with (i_prec 60)). unfold Rpower. bpn_in H. split; intros S; bpn.
  - assert (Y : (0 < X * ln 2 < 0.7 * X)%R). { split; [apply Rmult_lt_0_compat; lra|]. rewrite Rmult_comm. apply Rmult_lt_compat_r; lra. }
    split. { assert (exp 0 < exp (X * ln 2))%R by (apply exp_increasing; lra). rewrite exp_0 in *. lra. }
    assert (1 + - (X * ln 2) < exp (- (X * ln 2)))%R by (apply exp_ineq1; lra). rewrite exp_Ropp in *. pose proof (exp_pos (X * ln 2)) as EP.
    assert (exp (X * ln 2) < / (1 - 0.7 * X))%R.
    { rewrite <- (Rinv_inv (exp (X * ln 2))). apply Rinv_lt_contravar; [apply Rmult_lt_0_compat; [lra|apply Rinv_0_lt_compat; lra]|lra]. }
    assert (/ (1 - 0.7 * X) <= 1 + X)%R.
    { apply Rmult_le_reg_r with (1 - 0.7 * X)%R; [lra|]. rewrite Rinv_l by lra. assert (X * X <= 0.01 * X)%R by (apply Rmult_le_compat_r; lra). lra. }
    lra.
  - assert (Y : (0.7 * X < X * ln 2 < 0)%R). { assert (0 < (- X) * ln 2 < 0.7 * (- X))%R by (split; [apply Rmult_lt_0_compat; lra|rewrite Rmult_comm; apply Rmult_lt_compat_r; lra]). lra. }
    split. { assert (1 + X * ln 2 < exp (X * ln 2))%R by (apply exp_ineq1; lra). lra. }
    assert (exp (X * ln 2) < exp 0)%R by (apply exp_increasing; lra). rewrite exp_0 in *. lra.
Qed.
Lemma exp2_d_tiny : forall rm x X, is_real D x X -> (Rabs X < bp (-54))%R -> rounded D rm (Rpower 2 X) false (exp2_d rm x).
Proof.
  intros rm x X Hx L. rewrite (exp2_d_cases rm x X Hx). rewrite Rlt_bool_true by auto. pose proof (add_tiny rm x X _ Hx L (or_intror eq_refl)) as A.
  assert (P2 : (0 < Rpower 2 X)%R) by apply exp_pos. assert (B54 : (bp (-54) < / 1000000)%R) by (bpn; lra). pose proof (Rabs_def2 _ _ L) as L'.
  assert (E : fround D rm (1 + X) = fround D rm (Rpower 2 X)).
  { destruct (Req_dec X 0) as [->|N]. { rewrite Rpower_O by lra. f_equal. ring. }
    destruct (exp2_tiny X L N) as [T1 T2]. replace (Rpower 2 X) with (1 + (Rpower 2 X - 1))%R by ring. destruct (Rlt_le_dec 0 X) as [S|S].
    - specialize (T1 S). assert (bp (-54) < bp (-53))%R by (apply bpow_lt; lia). rewrite !near1_up by lra. reflexivity.
    - assert (S' : (X < 0)%R) by lra. specialize (T2 S'). rewrite !near1_dn by lra. reflexivity. }
  apply (rounded_ext rm (1 + X)%R _ _ false); auto; lra.
Qed.
Lemma exp2_d_gen : forall rm x X, is_real D x X -> (-1075 < X < 1024)%R ->
  exists v, rounded D rm v false (exp2_d rm x) /\ (0 < v)%R /\ (Rabs (v - Rpower 2 X) <= bp (eD rm) * Rpower 2 X + bp (-1124))%R.
Proof.
  intros rm x X Hx HX. pose proof (bpow_gt_0 radix2 (-1124)) as TP. assert (P2 : (0 < Rpower 2 X)%R) by apply exp_pos.
  destruct (Rlt_le_dec (Rabs X) (bp (-54))) as [L|L].
  { exists (Rpower 2 X). split; [apply exp2_d_tiny; auto|]. split; [auto|]. rewrite Rminus_eq_0, Rabs_R0. pose proof (bpow_gt_0 radix2 (eD rm)).
    assert (0 < bp (eD rm) * Rpower 2 X)%R by (apply Rmult_lt_0_compat; lra). lra. }
  rewrite (exp2_d_cases rm x X Hx). rewrite Rlt_bool_false, (Rle_bool_false 1024), (Rle_bool_false X (-1075)) by lra.
  destruct (exp2d_kernel_spec rm x X Hx) as (k & KB & _ & tm & P & V & TM & KE & HP & HV & HT & BT & VZ & W). { apply Rabs_le. lra. }
  apply Rabs_le_inv in KB. pose proof (qD_range rm) as QR.
  assert (fin : forall r t, (exists v, rounded D rm v false r /\ (0 < v)%R /\ (Rabs (v - V * bp (k / 128) * (1 + TM)) <= bp (k / 128 - 52 - qD rm) + bp (-1124))%R /\ t v) ->
    exists v, rounded D rm v false r /\ (0 < v)%R /\ (Rabs (v - Rpower 2 X) <= bp (eD rm) * Rpower 2 X + bp (-1124))%R).
  { intros r t (v & RV & PV & EV & _). exists v. split; [exact RV|]. split; [exact PV|].
    assert (G : (Rabs (v - Rpower 2 X) <= Rabs (V * (1 + TM) * bp (k / 128) - Rpower 2 X) + bp (k / 128 - 52 - qD rm) + bp (-1124))%R).
    { replace (v - Rpower 2 X)%R with ((v - V * bp (k / 128) * (1 + TM)) + (V * (1 + TM) * bp (k / 128) - Rpower 2 X))%R by ring. apply Rle_trans with (1 := Rabs_triang _ _). lra. }
    rewrite epsD_eq in W. lra. }
  unfold exp2d_fin. rewrite KE. destruct (Rle_bool_spec (Rabs X) 928) as [H|H].
  - apply Rabs_le_inv in H. assert (JB : -930 <= k / 128 < 930) by (apply k_j; lra).
    destruct (main_fin rm tm P V TM (k / 128) (qD rm) HP HV HT QR BT ltac:(lia)) as (v & A1 & A2 & A3 & A4). cbv zeta in A1.
    apply (fin _ (fun _ => True)). exists v. split; [exact A1|]. split; [auto|]. split; [lra|auto].
  - assert (JC : (927 <= k / 128 < 1024 \/ k = 128 * 1024) \/ (-1077 <= k / 128 < -926)).
    { destruct (Rle_lt_dec 0 X) as [S|S].
      - rewrite Rabs_pos_eq in H by auto. left. assert (K2 : k < 128 * 1024 + 1) by (apply lt_IZR; rewrite plus_IZR, mult_IZR; lra).
        assert (128 * 927 <= k) by (apply le_IZR; rewrite mult_IZR; lra). destruct (Z.eq_dec k (128 * 1024)) as [E|E]; [right; auto|left].
        split; [apply Z.div_le_lower_bound; lia|apply Z.div_lt_upper_bound; lia].
      - right. rewrite Rabs_left in H by auto. apply k_j. lra. }
    assert (J0 : (927 <= k / 128 < 1024 \/ (k / 128 = 1024 /\ V = 1%R)) \/ (-1077 <= k / 128 < -926)).
    { destruct JC as [[JC| ->]|JC]; [auto|left; right; split; [reflexivity|apply VZ; reflexivity]|auto]. }
    assert (KR : - 2 ^ 31 < k < 2 ^ 31) by (clear fin; pose proof (Z.div_mod k 128 ltac:(lia)); pose proof (Z.mod_pos_bound k 128 ltac:(lia)); lia).
    pose proof (sign_bit31 exp2d_shift k (proj2 shift_div) KR) as SB. clear JC.
    set (j := k / 128) in *. assert (J1 : 0 <= j -> -960 <= j - 1 /\ (j - 1 <= 1022 \/ (j - 1 <= 1023 /\ V = 1%R))).
    { intros. destruct J0 as [[J0|[J0 J0']]|J0]; [split; [lia|left; lia]|split; [lia|right; split; [lia|auto]]|lia]. }
    assert (J2 : j < 0 -> -900 <= j + 1022 <= 1000) by (intros; destruct J0 as [[J0|[J0 J0']]|J0]; lia).
    destruct (special_fin 1 rm tm P V TM j (exp2d_shift + k) (qD rm) (or_introl eq_refl) HP HV HT QR BT SB J1 J2) as (v & A1 & A2 & A3 & A4).
    apply (fin _ (fun _ => True)). exists v. auto.
Qed.
Lemma exp2_d_int : forall rm x n, is_real D x (IZR n) -> -1074 <= n <= 1023 -> is_real D (exp2_d rm x) (bp n).
Proof.
  intros rm x n Hx Hn. assert (HN : (-1074 <= IZR n <= 1023)%R) by (split; apply IZR_le; lia). pose proof VED as VE'.
  assert (FB : forall v b, v = bp n -> rounded D rm v false b -> is_real D b (bp n)).
  { intros v b -> (Pb & _ & C & O). assert (GF : generic_format radix2 fexpD (bp n)) by (apply bpD; lia).
    assert (FR : fround D rm (bp n) = bp n) by (apply round_generic; [apply VR|auto]).
    destruct (C ) as [C1 C2]. { rewrite FR, Rabs_pos_eq by apply bpow_ge_0. apply bpow_lt. change (bias D + 1) with 1024. lia. } rewrite FR in C2. split; auto. }
  destruct (Z.eq_dec n 0) as [->|N0].
  { pose proof (exp2_d_tiny rm x 0 Hx) as T. rewrite Rpower_O in T by lra. apply (FB 1%R); [reflexivity|]. apply T. rewrite Rabs_R0. apply bpow_gt_0. }
  assert (A1 : (1 <= Rabs (IZR n))%R) by (rewrite <- abs_IZR; apply IZR_le; lia).
  rewrite (exp2_d_cases rm x _ Hx). rewrite Rlt_bool_false, (Rle_bool_false 1024), (Rle_bool_false _ (-1075)) by (bpn; lra).
  destruct (exp2d_kernel_int rm x n Hx ltac:(lia)) as (tm & KE & HT). unfold exp2d_fin. rewrite KE.
  assert (HV : is_real D (1023 * 2 ^ 52) 1). { pose proof one_D as O. replace (1023 * 2 ^ 52) with (lit 1 0) by (vm_compute; reflexivity). exact O. }
  assert (BT : (Rabs 0 <= bp (- qD rm))%R) by (rewrite Rabs_R0; apply bpow_ge_0). pose proof (qD_range rm) as QR.
  destruct (Rle_bool_spec (Rabs (IZR n)) 928) as [H|H].
  - rewrite <- abs_IZR in H. apply le_IZR in H. destruct (main_fin rm tm (1023 * 2 ^ 52) 1 0 n (qD rm) ltac:(lia) HV HT QR BT ltac:(lia)) as (v & B1 & B2 & B3 & B4). cbv zeta in B1.
    apply (FB v); auto.
  - rewrite <- abs_IZR in H. apply lt_IZR in H. assert (KR : - 2 ^ 31 < 128 * n < 2 ^ 31) by lia.
    pose proof (sign_bit31 exp2d_shift (128 * n) (proj2 shift_div) KR) as SB. replace (128 * n / 128) with n in SB by (rewrite Z.mul_comm, Z.div_mul; lia).
    destruct (special_fin 1 rm tm (1023 * 2 ^ 52) 1 0 n (exp2d_shift + 128 * n) (qD rm) (or_introl eq_refl) ltac:(lia) HV HT QR BT SB ltac:(intros; split; [lia|left; lia]) ltac:(intros; lia)) as (v & B1 & B2 & B3 & B4).
    apply (FB v); [apply B4; auto; lia|exact B1].
Qed.

(** Results out of range. *)
Lemma rounded_huge64 : forall dm v, (bp 1024 <= v)%R -> rounded D dm v false (match dm with RDN | RZR => max_mag D | _ => inf_mag D end).
Proof.
  intros dm v H. pose proof (bpow_gt_0 radix2 1024).
  assert (G : (bp 1024 <= fround D dm v)%R).
  { apply (RemProofs.fround_ge_gen D good64); auto. apply generic_format_bpow. vm_compute. congruence. }
  split; [destruct dm; split; vm_compute; congruence|]. split; [rewrite Req_bool_false, Rlt_bool_false by lra; destruct dm; reflexivity|].
  change (bias D + 1) with 1024. rewrite Rabs_pos_eq by lra. split; [intros; lra|]. intros _. rewrite Rlt_bool_false by lra. destruct dm; vm_compute; reflexivity.
Qed.
Lemma rounded_tiny64 : forall dm v, (0 < v < bp (-1074))%R -> (dm = RNE -> (v <= bp (-1075))%R) -> rounded D dm v false (match dm with RUP => 1 | _ => 0 end).
Proof.
  intros dm v H HN. pose proof (bpow_gt_0 radix2 1074) as B149.
  assert (BB : (bp (-1074) * bp 1074 = 1)%R) by (rewrite <- bpow_plus; reflexivity).
  assert (HV : (0 < v * bp 1074 < 1)%R) by (split; [apply Rmult_lt_0_compat; lra|rewrite <- BB; apply Rmult_lt_compat_r; lra]).
  assert (HC : cexp radix2 fexpD v = -1074).
  { unfold cexp, FLT_exp. change (emin D) with (-1074). change (prec D) with 53.
    assert (mag radix2 v <= -1022); [|lia]. apply mag_le_bpow; [lra|rewrite Rabs_pos_eq by lra]. apply Rlt_trans with (bp (-1074)); [lra|apply bpow_lt; lia]. }
  assert (V : fround D dm v = fval D (match dm with RUP => 1 | _ => 0 end)).
  { rewrite (fround_cexp dm v _ HC). change (- -1074) with 1074.
    assert (Z0 : fval D 0 = 0%R) by (unfold fval; replace (decode D 0) with (DFin false 0 (-1074)) by (vm_compute; reflexivity); cbn [dval]; ring).
    assert (Z1 : fval D 1 = bp (-1074)) by (unfold fval; replace (decode D 1) with (DFin false 1 (-1074)) by (vm_compute; reflexivity); cbn [dval]; ring).
    destruct dm; rewrite ?Z0, ?Z1.
    - rewrite znear_half; [ring|]. split; [lra|]. replace (/ 2)%R with (bp (-1075) * bp 1074)%R by (rewrite <- bpow_plus; reflexivity). apply Rmult_le_compat_r; [lra|auto].
    - cbn [rnd]. replace (Zfloor (v * bp 1074)) with 0; [ring|]. symmetry. apply Zfloor_imp. rewrite plus_IZR. lra.
    - cbn [rnd]. replace (Zceil (v * bp 1074)) with 1; [ring|]. symmetry. apply Zceil_imp. rewrite minus_IZR. lra.
    - cbn [rnd]. rewrite Ztrunc_floor by lra. replace (Zfloor (v * bp 1074)) with 0; [ring|]. symmetry. apply Zfloor_imp. rewrite plus_IZR. lra. }
  assert (Fi : is_fin D (match dm with RUP => 1 | _ => 0 end) = true) by (destruct dm; reflexivity).
  split; [destruct dm; split; vm_compute; congruence|]. split; [rewrite Req_bool_false, Rlt_bool_false by lra; destruct dm; reflexivity|].
  split; [intros _; split; auto|]. intros HB. exfalso. rewrite V in HB. pose proof (fin_bound D good64 _ Fi). lra.
Qed.
Lemma exp_big : forall X, (710 <= X)%R -> (1.2 * bp 1024 <= exp X)%R.
Proof.
  intros X H. assert (E : bp 1024 = exp (1024 * ln 2)) by (rewrite <- (Rpower2_Z 1024); reflexivity). rewrite E.
  replace X with ((X - 1024 * ln 2) + 1024 * ln 2)%R by ring. rewrite exp_plus. apply Rmult_le_compat_r; [left; apply exp_pos|].
  assert (0.2 <= X - 1024 * ln 2)%R. { assert (ln 2 <= 0.69315)%R by interval with (i_prec 60). lra. } pose proof (exp_ineq1 (X - 1024 * ln 2) ltac:(lra)). lra.
Qed.
Lemma exp_small : forall X, (X <= -746)%R -> (exp X <= / 2 * bp (-1075))%R.
Proof.
  intros X H. assert (E : bp (-1075) = exp (-1075 * ln 2)) by (rewrite <- (Rpower2_Z (-1075)); reflexivity). rewrite E.
  replace X with ((X + 1075 * ln 2) + (-1075) * ln 2)%R by ring. rewrite exp_plus. apply Rmult_le_compat_r; [left; apply exp_pos|].
  assert (A : (X + 1075 * ln 2 <= -0.8)%R). { assert (ln 2 <= 0.69315)%R by interval with (i_prec 60). lra. } apply Rle_trans with (exp (-0.8)); [|interval with (i_prec 60)].
  destruct A as [A| ->]; [left; apply exp_increasing; exact A|right; reflexivity].
Qed.
Lemma exp_d_over : forall rm x X, is_real D x X -> (710 <= X)%R -> exp_d rm x = (if Rlt_bool X 1024 then match rm with RDN | RZR => max_mag D | _ => inf_mag D end else inf_mag D).
Proof.
  intros rm x X Hx H. destruct (Rlt_bool_spec X 1024) as [L|L].
  - destruct (exp_d_gen rm x X Hx) as (v & RV & PV & EV & _). { rewrite Rabs_pos_eq; lra. }
    pose proof (exp_big X H) as B. assert (G : (bp 1024 <= v)%R).
    { assert (T : (bp (-1124) <= bp (-40) * bp 1024)%R) by (rewrite <- bpow_plus; apply bpow_le; lia). apply Rabs_le_inv in EV. pose proof (bpow_gt_0 radix2 1024). assert (E40 : bp (-40) = (/ 1099511627776)%R) by reflexivity. rewrite E40 in EV, T. lra. }
    apply (rounded_unique D good64 rm v false _ _ RV). apply rounded_huge64. exact G.
  - rewrite (exp_d_cases rm x X Hx). rewrite Rabs_pos_eq by lra. rewrite !Rlt_bool_false; auto; try lra. bpn. lra.
Qed.
Lemma exp_d_under : forall rm x X, is_real D x X -> (X <= -746)%R -> exp_d rm x = (if Rlt_bool (-1024) X then match rm with RUP => 1 | _ => 0 end else 0).
Proof.
  intros rm x X Hx H. destruct (Rlt_bool_spec (-1024) X) as [L|L].
  - destruct (exp_d_gen rm x X Hx) as (v & RV & PV & EV & _). { apply Rabs_def1; lra. }
    pose proof (exp_small X H) as B. assert (G : (v < bp (-1075))%R).
    { assert (T : (bp (-1124) <= / 4 * bp (-1075))%R) by (change (/ 4)%R with (bp (-2)); rewrite <- bpow_plus; apply bpow_le; lia). apply Rabs_le_inv in EV. pose proof (bpow_gt_0 radix2 (-1075)). assert (E40 : bp (-40) = (/ 1099511627776)%R) by reflexivity. rewrite E40 in EV. lra. }
    apply (rounded_unique D good64 rm v false _ _ RV). apply rounded_tiny64; [split; [auto|]|intros; lra]. apply Rlt_trans with (1 := G). apply bpow_lt. lia.
  - rewrite (exp_d_cases rm x X Hx). rewrite Rabs_left by lra. rewrite 3!Rlt_bool_false, Rlt_bool_true; auto; try lra. bpn. lra.
Qed.
Lemma exp2_d_over : forall rm x X, is_real D x X -> (1024 <= X)%R -> exp2_d rm x = inf_mag D.
Proof. intros rm x X Hx H. rewrite (exp2_d_cases rm x X Hx), Rlt_bool_false, Rle_bool_true; auto. rewrite Rabs_pos_eq by lra. bpn. lra. Qed.
Lemma exp2_d_under : forall rm x X, is_real D x X -> (X <= -1075)%R -> exp2_d rm x = 0.
Proof. intros rm x X Hx H. rewrite (exp2_d_cases rm x X Hx), Rlt_bool_false, (Rle_bool_false 1024), Rle_bool_true; auto; [lra|]. rewrite Rabs_left by lra. bpn. lra. Qed.

Lemma top_special64 : forall x, is_pattern D x -> is_fin D x = false -> mag_of D x / 2 ^ 52 = 2047.
Proof.
  intros x P Fi. unfold is_fin in Fi. apply Z.ltb_ge in Fi. change (inf_mag D) with (2047 * 2 ^ 52) in Fi. pose proof (mag_range D good64 x). change (sign_unit D) with (2 ^ 63) in *.
  symmetry. apply Z.div_unique with (mag_of D x - 2047 * 2 ^ 52); lia.
Qed.
Lemma inf_pat : forall x, is_pattern D x -> is_inf D x = true -> x = if sign_of D x then f_inf D true else inf_mag D.
Proof.
  intros x P H. unfold is_inf in H. apply Z.eqb_eq in H. destruct (sign_of D x) eqn:S.
  - rewrite (neg_pat x P S), H. vm_compute. reflexivity.
  - rewrite <- H. unfold mag_of. symmetry. apply Z.mod_small. rewrite (sign_of_eq D good64) in S by auto. apply Z.leb_gt in S. destruct P. lia.
Qed.
Lemma nan_not_inf : forall x s, is_nan D x = true -> (x =? f_inf D s) = false.
Proof. intros x s H. apply Z.eqb_neq. intros ->. destruct s; vm_compute in H; discriminate. Qed.
Theorem exp_d_special : forall rm x, is_pattern D x -> (is_nan D x = true -> is_nan D (exp_d rm x) = true) /\
  (is_inf D x = true -> exp_d rm x = if sign_of D x then 0 else inf_mag D).
Proof.
  intros rm x P. split; intros H.
  - unfold exp_d. rewrite top12_eq, top_special64 by (auto; unfold is_fin, is_nan in *; lia). destruct tops as (-> & -> & -> & ->). destruct (wrap_top 2047 ltac:(lia)) as [-> ->].
    rewrite nan_not_inf by auto. change (is_nan D (f_add D rm (lit 1 0) x) = true). unfold f_add. rewrite (decode_of_nan D x H).
    replace (decode D (lit 1 0)) with (DFin false (2 ^ 52) (-52)) by (vm_compute; reflexivity). apply (qnan_props D good64).
  - rewrite (inf_pat x P H) at 1. destruct (sign_of D x); destruct rm; vm_compute; reflexivity.
Qed.
Theorem exp2_d_special : forall rm x, is_pattern D x -> (is_nan D x = true -> is_nan D (exp2_d rm x) = true) /\
  (is_inf D x = true -> exp2_d rm x = if sign_of D x then 0 else inf_mag D).
Proof.
  intros rm x P. split; intros H.
  - unfold exp2_d. rewrite top12_eq, top_special64 by (auto; unfold is_fin, is_nan in *; lia). destruct tops as (-> & -> & -> & ->). destruct (wrap_top 2047 ltac:(lia)) as [-> ->].
    rewrite nan_not_inf by auto. change (is_nan D (f_add D rm x (lit 1 0)) = true). unfold f_add. rewrite (decode_of_nan D x H). apply (qnan_props D good64).
  - rewrite (inf_pat x P H) at 1. destruct (sign_of D x); destruct rm; vm_compute; reflexivity.
Qed.
