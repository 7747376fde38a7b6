(** * powf: the exceptional cases *)
From Coq Require Import ZArith List Reals Lia Lra Bool.
From Flocq Require Import Core.
From Verif Require Import MachInt Bits BitsSpec BitsProofs Fmt FOps FPBits FloatSpec FmtProofs RoundProofs ExactOps FOpsProofs FmanipWide FPBitsProofs Sqrt ExpoData ExpoF ExpD LogD ErrLib PowfData Powf.
Import ListNotations.
Open Scope Z_scope.

(** ** is_integer and is_odd_integer *)
Lemma lt_bit : forall f i, 0 <= f < 2 ^ 23 -> 23 <= i -> Z.testbit f i = false.
Proof. intros f i Hf Hi. destruct (Z.eq_dec f 0) as [->|N]; [apply Z.bits_0|]. apply Z.bits_above_log2; [lia|]. assert (Z.log2 f < 23) by (apply Z.log2_lt_pow2; lia). lia. Qed.
Lemma mask_bit : forall i, 0 <= i -> Z.testbit 0x7f800000 i = (23 <=? i) && (i <? 31).
Proof.
  intros i Hi. change 0x7f800000 with (Z.shiftl (Z.ones 8) 23). rewrite Z.shiftl_spec by lia. destruct (Z.leb_spec 23 i) as [L|L]; cbn [andb].
  - destruct (Z.ltb_spec i 31); [apply Z.ones_spec_low; lia|apply Z.ones_spec_high; lia].
  - apply Z.testbit_neg_r. lia.
Qed.
Lemma exp_land : forall y, is_pattern binary32 y -> Z.shiftr (Z.land y 0x7f800000) 23 = mag_of binary32 y / 2 ^ 23.
Proof.
  intros y Py. change (mag_of binary32 y) with (y mod 2 ^ 31). rewrite <- Z.shiftr_div_pow2 by lia. apply Z.bits_inj'. intros i Hi. rewrite !Z.shiftr_spec by lia. rewrite Z.land_spec, mask_bit by lia.
  rewrite Z.testbit_mod_pow2 by lia. destruct (Z.leb_spec 23 (i + 23)); [|lia]. destruct (Z.ltb_spec (i + 23) 31); cbn [andb]; [rewrite Bool.andb_true_r; reflexivity|rewrite Bool.andb_false_r; reflexivity].
Qed.

Lemma ctz_sig : forall y, is_pattern binary32 y -> exists t, countr_zero 32 (Z.lor y 0x7f800000) = Some t /\ 0 <= t <= 23 /\
  (2 ^ 23 <= mag_of binary32 y -> exists q, sig_of binary32 (mag_of binary32 y) = (2 * q + 1) * 2 ^ t).
Proof.
  intros y Py. assert (Py' : 0 <= y < 2 ^ 32) by exact Py.
  destruct (countr_zero_spec 5 (Z.lor y 0x7f800000)) as (t & ET & T0 & TZ & TO).
  { unfold inU. change (2 ^ 2 ^ Z.of_nat 5) with (2 ^ 32). split; [apply Z.lor_nonneg; lia|].
    destruct (Z.eq_dec (Z.lor y 0x7f800000) 0) as [->|N]; [reflexivity|]. apply Z.log2_lt_pow2; [assert (0 <= Z.lor y 0x7f800000) by (apply Z.lor_nonneg; lia); lia|].
    rewrite Z.log2_lor by lia. apply Z.max_lub_lt; [|reflexivity]. destruct (Z.eq_dec y 0) as [->|]; [reflexivity|]. apply Z.log2_lt_pow2; lia. }
  change (2 ^ Z.of_nat 5) with 32 in *. exists t. split; [exact ET|].
  assert (B23 : Z.testbit (Z.lor y 0x7f800000) 23 = true) by (rewrite Z.lor_spec, mask_bit by lia; apply Bool.orb_true_r).
  assert (T23 : t <= 23) by (destruct (Z.le_gt_cases t 23); auto; rewrite TZ in B23 by lia; discriminate). split; [lia|]. intros HM.
  set (a := mag_of binary32 y) in *. unfold sig_of. change (fl binary32) with 23. destruct (Z.ltb_spec a (2 ^ 23)); [lia|].
  set (f := a mod 2 ^ 23). assert (Hf : 0 <= f < 2 ^ 23) by (apply Z.mod_pos_bound; lia).
  assert (SB : forall i, 0 <= i <= 23 -> Z.testbit (2 ^ 23 + f) i = Z.testbit (Z.lor y 0x7f800000) i).
  { intros i Hi. assert (EL : 2 ^ 23 + f = Z.lor (2 ^ 23) f).
    { rewrite <- Z.lxor_lor, <- Z.add_nocarry_lxor; [reflexivity|..]; apply Z.bits_inj'; intros j Hj; rewrite Z.land_spec, Z.bits_0, Z.pow2_bits_eqb by lia; (destruct (Z.eqb_spec 23 j) as [<-|]; [rewrite lt_bit by lia|]; reflexivity). }
    rewrite EL, !Z.lor_spec, mask_bit, Z.pow2_bits_eqb by lia. destruct (Z.eqb_spec 23 i) as [<-|N]; [cbn; rewrite Bool.orb_true_r; reflexivity|].
    destruct (Z.leb_spec 23 i); [lia|]. cbn [orb andb]. rewrite Bool.orb_false_r. unfold f, a. change (mag_of binary32 y) with (y mod 2 ^ 31). rewrite !Z.testbit_mod_pow2 by lia.
    destruct (Z.ltb_spec i 23), (Z.ltb_spec i 31); try lia. reflexivity. }
  assert (M0 : (2 ^ 23 + f) mod 2 ^ t = 0).
  { apply Z.bits_inj'. intros i Hi. rewrite Z.bits_0, Z.testbit_mod_pow2 by lia. destruct (Z.ltb_spec i t); [|reflexivity]. rewrite SB by lia. rewrite TZ by lia. reflexivity. }
  assert (O1 : Z.odd ((2 ^ 23 + f) / 2 ^ t) = true).
  { rewrite <- Z.bit0_odd, <- Z.shiftr_div_pow2, Z.shiftr_spec by lia. rewrite Z.add_0_l, SB by lia. apply TO. lia. }
  apply Z.odd_spec in O1. destruct O1 as (q & Eq). exists q. assert (P2 : 0 < 2 ^ t) by (apply Z.pow_pos_nonneg; lia). pose proof (Z.div_mod (2 ^ 23 + f) (2 ^ t) ltac:(lia)). rewrite M0, Eq in H0. lia.
Qed.

Lemma odd_scale : forall q k n, (IZR (2 * q + 1) * bpow radix2 k = IZR n)%R -> 0 <= k /\ n = (2 * q + 1) * 2 ^ k.
Proof.
  intros q k n E. assert (K : 0 <= k).
  { destruct (Z.le_gt_cases 0 k) as [|K]; auto. exfalso. assert (E2 : 2 * q + 1 = n * 2 ^ (- k)).
    { apply eq_IZR. rewrite mult_IZR, <- E, <- bpow_IZR by lia. rewrite Rmult_assoc, <- bpow_plus. replace (k + - k) with 0 by lia. simpl. ring. }
    replace (- k) with (Z.succ (- k - 1)) in E2 by lia. rewrite Z.pow_succ_r in E2 by lia. lia. }
  split; auto. apply eq_IZR. rewrite <- E, mult_IZR, <- bpow_IZR by lia. reflexivity.
Qed.

Lemma small_not_int : forall v n, (0 < Rabs v < 1)%R -> v <> IZR n.
Proof. intros v n H ->. rewrite <- abs_IZR in H. destruct H as [A B]. apply lt_IZR in A. apply lt_IZR in B. lia. Qed.

Definition intval (v : R) : Prop := exists n, v = IZR n.
Definition oddval (v : R) : Prop := exists n, v = IZR (2 * n + 1).

Lemma pf_tests : forall y, is_pattern binary32 y -> is_fin binary32 y = true -> (fval binary32 y <> 0)%R ->
  (exists b, pf_integer y = Some b /\ (b = true <-> intval (fval binary32 y))) /\ (exists b, pf_odd y = Some b /\ (b = true <-> oddval (fval binary32 y))).
Proof.
  intros y Py Fy NZ. unfold pf_integer, pf_odd. rewrite exp_land by auto. destruct (ctz_sig y Py) as (t & ET & TB & SG). rewrite ET. cbn [bindo].
  set (a := mag_of binary32 y) in *. assert (A0 : 0 <= a < 2 ^ 31) by (apply Z.mod_pos_bound; reflexivity).
  assert (FV : (Rabs (fval binary32 y) = IZR (sig_of binary32 a) * bpow radix2 (exp_of binary32 a))%R) by (rewrite (Rabs_fval binary32 good32) by auto; reflexivity).
  assert (SGN : (fval binary32 y = Rabs (fval binary32 y) \/ fval binary32 y = - Rabs (fval binary32 y))%R) by (unfold Rabs; destruct (Rcase_abs _); lra).
  destruct (Z.lt_ge_cases a (2 ^ 23)) as [LA|LA].
  - assert (E0 : a / 2 ^ 23 = 0) by (apply Z.div_small; lia). rewrite E0. clear SG.
    assert (SM : (0 < Rabs (fval binary32 y) < 1)%R).
    { split; [apply Rabs_pos_lt; exact NZ|]. rewrite FV. unfold sig_of, exp_of. change (fl binary32) with 23. destruct (Z.ltb_spec a (2 ^ 23)); [|lia]. change (emin binary32 + 0) with (-149).
      apply Rlt_trans with (IZR (2 ^ 23) * bpow radix2 (-149))%R; [apply Rmult_lt_compat_r; [apply bpow_gt_0|apply IZR_lt; lia]|]. rewrite <- bpow_IZR, <- bpow_plus by lia. change 1%R with (bpow radix2 0). apply bpow_lt. lia. }
    split; eexists; (split; [reflexivity|]); split.
    + intros H. apply Z.leb_le in H. lia.
    + intros (n & E). exfalso. exact (small_not_int _ n SM E).
    + intros H. apply Z.eqb_eq in H. lia.
    + intros (n & E). exfalso. exact (small_not_int _ _ SM E).
  - destruct (SG LA) as (q & ES). rewrite ES in FV. unfold exp_of in FV. change (fl binary32) with 23 in FV. destruct (Z.ltb_spec a (2 ^ 23)); [lia|]. change (emin binary32) with (-149) in FV.
    assert (AV : Rabs (fval binary32 y) = (IZR (2 * q + 1) * bpow radix2 (a / 2 ^ 23 + t - 150))%R).
    { rewrite FV, mult_IZR, <- bpow_IZR, Rmult_assoc, <- bpow_plus by lia. do 2 f_equal. lia. }
    clear FV SG ES. set (k := a / 2 ^ 23 + t - 150) in *.
    assert (IA : forall n, fval binary32 y = IZR n -> Rabs (fval binary32 y) = IZR (Z.abs n)) by (intros n ->; symmetry; apply abs_IZR).
    split; eexists; (split; [reflexivity|]); split.
    + intros H1. apply Z.leb_le in H1. assert (K : 0 <= k) by lia. assert (AI : Rabs (fval binary32 y) = IZR ((2 * q + 1) * 2 ^ k)) by (rewrite AV, mult_IZR, bpow_IZR by lia; reflexivity).
      destruct SGN as [S|S]; [exists ((2 * q + 1) * 2 ^ k)|exists (- ((2 * q + 1) * 2 ^ k)); rewrite opp_IZR]; rewrite <- AI; exact S.
    + intros (n & E). apply Z.leb_le. pose proof (IA n E) as E2. rewrite AV in E2. apply odd_scale in E2. lia.
    + intros H1. apply Z.eqb_eq in H1. assert (K : k = 0) by lia. rewrite K in AV. simpl in AV. rewrite Rmult_1_r in AV.
      destruct SGN as [S|S]; [exists q|exists (- q - 1); replace (2 * (- q - 1) + 1) with (- (2 * q + 1)) by lia; rewrite opp_IZR]; (rewrite S; rewrite AV; reflexivity).
    + intros (n & E). apply Z.eqb_eq. pose proof (IA _ E) as E2. rewrite AV in E2. apply odd_scale in E2. destruct E2 as (K & E2). assert (k = 0); [|lia].
      destruct (Z.eq_dec k 0) as [|N]; auto. exfalso. replace k with (Z.succ (k - 1)) in E2 by lia. rewrite Z.pow_succ_r in E2 by lia. lia.
Qed.

(** ** Zeros and infinities *)
Lemma to_int_w : forall F w b z, good_fmt F -> is_pattern F b -> is_fin F b = true -> fval F b = IZR z -> inS w z -> f_to_int F w b = Some z.
Proof.
  intros F w b z HF PB FB VB Hz. unfold f_to_int. unfold fval in VB.
  destruct (decode_fin F HF b FB) as (m & e & ED & M0 & _). rewrite ED in *. cbn [dval] in VB.
  set (s := sign_of F b) in *.
  assert (EZ : szval s (if 0 <=? e then m * 2 ^ e else m / 2 ^ (- e)) = z).
  { destruct (Z.leb_spec 0 e) as [E0|E0].
    - apply eq_IZR. rewrite <- VB. rewrite (bpow_IZR e E0). destruct s; cbn [szval]; rewrite ?opp_IZR, mult_IZR; ring.
    - assert (EM : szval s m = z * 2 ^ (- e)).
      { apply eq_IZR. rewrite mult_IZR, <- VB, <- (bpow_IZR (- e)) by lia. rewrite Rmult_assoc, <- bpow_plus. replace (e + - e) with 0 by lia. change (bpow radix2 0) with 1%R. destruct s; cbn [szval]; rewrite ?opp_IZR; ring. }
      assert (P2 : 0 < 2 ^ (- e)) by (apply Z.pow_pos_nonneg; lia).
      destruct s; cbn [szval] in *; [replace m with ((- z) * 2 ^ (- e)) by lia|rewrite EM]; rewrite Z.div_mul; lia. }
  rewrite EZ. unfold sarith. destruct (inSb w z) eqn:EI; [reflexivity|]. exfalso. apply inSb_spec in Hz. congruence.
Qed.

Ltac cval t := let v := eval vm_compute in t in change t with v.

Definition sp (F : fmt) (k s : bool) : Z := if k then f_inf F s else f_zero F s.
Lemma sp_mul : forall rm k s t, f_mul F64 rm (sp F64 k s) (sp F64 k t) = sp F64 k (xorb s t).
Proof. intros [] [] [] []; vm_compute; reflexivity. Qed.
Lemma sp_mul32 : forall rm k s, f_mul F32 rm (sp F32 k s) (sp F32 k s) = sp F32 k false.
Proof. intros [] [] []; vm_compute; reflexivity. Qed.
Lemma sp_cast : forall rm k s, f_cast F32 F64 rm (sp F32 k s) = sp F64 k s.
Proof. intros [] [] []; vm_compute; reflexivity. Qed.
Lemma sp_cast' : forall rm k s, f_cast F64 F32 rm (sp F64 k s) = sp F32 k s.
Proof. intros [] [] []; vm_compute; reflexivity. Qed.
Lemma sp_loop : forall n rm k s a, pf_loop n rm (sp F64 k s) (sp F64 k a) = sp F64 k (xorb a (s && Z.odd (Z.of_nat n))).
Proof.
  induction n as [|n IH]; intros rm k s a; cbn [pf_loop].
  - rewrite Bool.andb_false_r, Bool.xorb_false_r. reflexivity.
  - rewrite sp_mul, IH. f_equal. rewrite Nat2Z.inj_succ, Z.odd_succ, <- Z.negb_odd. destruct a, s, (Z.odd (Z.of_nat n)); reflexivity.
Qed.

(** An integer exponent between 2 and 24. *)
Lemma small_y : forall y, is_pattern binary32 y -> is_fin binary32 y = true -> (fval binary32 y <> 0)%R -> 0x40000000 < y <= 0x41c00000 -> pf_integer y = Some true ->
  exists n, fval binary32 y = IZR n /\ 2 < n <= 24 /\ f_to_int F32 64 y = Some n.
Proof.
  intros y Py Fy NZ HB HI. destruct (proj1 (pf_tests y Py Fy NZ)) as (b & Eb & Hb). rewrite HI in Eb. injection Eb as <-. destruct (proj1 Hb eq_refl) as (n & EN). exists n. split; [exact EN|].
  assert (MY : mag_of binary32 y = y) by (change (mag_of binary32 y) with (y mod 2 ^ 31); apply Z.mod_small; lia).
  assert (SY : sign_of binary32 y = false) by (rewrite (sign_of_eq binary32 good32) by auto; change (sign_unit binary32) with 2147483648; apply Z.leb_gt; lia).
  assert (FV : fval binary32 y = mval binary32 y) by (rewrite (fval_fin binary32) by auto; rewrite SY, MY; unfold sg; lra).
  assert (L : (2 < fval binary32 y)%R). { rewrite FV. replace 2%R with (mval binary32 0x40000000); [apply (mval_lt binary32 good32); lia|]. unfold mval. cval (sig_of binary32 0x40000000). cval (exp_of binary32 0x40000000). simpl. lra. }
  assert (U : (fval binary32 y <= 24)%R). { rewrite FV. replace 24%R with (mval binary32 0x41c00000); [apply (mval_le binary32 good32); lia|]. unfold mval. cval (sig_of binary32 0x41c00000). cval (exp_of binary32 0x41c00000). simpl. lra. }
  rewrite EN in L, U. apply lt_IZR in L. apply le_IZR in U. split; [lia|]. apply (to_int_w F32 64 y n good32 Py Fy EN). unfold inS. lia.
Qed.

Lemma small_sp : forall rm k s y o, is_pattern binary32 y -> is_fin binary32 y = true -> (fval binary32 y <> 0)%R -> pf_odd y = Some o ->
  (pf_small rm (sp F32 k s) y = Some (Some (sp F32 k (s && o))) /\ y < 2 ^ 31) \/ pf_small rm (sp F32 k s) y = Some None.
Proof.
  intros rm k s y o Py Fy NZ Ho. unfold pf_small. destruct (pf_tests y Py Fy NZ) as ((i & Ei & Hi) & (o' & Eo & Hodd)). rewrite Ho in Eo. injection Eo as <-. pose proof Ei as Ei'. rewrite Ei. cbn [bindo].
  destruct i; [|right; reflexivity]. cbn [andb]. destruct (Z.ltb_spec 0x40000000 y) as [B1|B1]; [|right; reflexivity]. destruct (Z.leb_spec y 0x41c00000) as [B2|B2]; [|right; reflexivity]. cbn [andb].
  destruct (small_y y Py Fy NZ ltac:(lia) Ei') as (n & EN & NB & TI). rewrite TI.
  assert (OD : o = Z.odd n).
  { destruct (Z.odd n) eqn:E.
    - apply Hodd. apply Z.odd_spec in E. destruct E as (m & ->). exists m. exact EN.
    - destruct o; auto. exfalso. destruct (proj1 Hodd eq_refl) as (m & Em). rewrite EN in Em. apply eq_IZR in Em. rewrite Em, Z.add_comm, Z.odd_add_mul_2 in E. discriminate. }
  left. split; [|lia].
  assert (EX : f_cast F64 F32 rm (pf_loop (Z.to_nat (n - 1)) rm (f_cast F32 F64 rm (sp F32 k s)) (f_cast F32 F64 rm (sp F32 k s))) = sp F32 k (s && o)).
  { rewrite sp_cast, sp_loop, sp_cast', Z2Nat.id by lia. f_equal. rewrite OD. replace n with (Z.succ (n - 1)) at 2 by lia. rewrite Z.odd_succ, <- Z.negb_odd. destruct s, (Z.odd (n - 1)); reflexivity. }
  assert (EC : forall extra, extra <= 0 -> (extra * n <=? 25) = true) by (intros extra He; apply Z.leb_le; nia).
  destruct k, s; unfold sp in *; change (f_inf F32 true) with 0xff800000 in *; change (f_inf F32 false) with 0x7f800000 in *; change (f_zero F32 true) with 0x80000000 in *; change (f_zero F32 false) with 0 in *;
   match goal with |- context [mag_of F32 ?x] => cval (mag_of F32 x) end; match goal with |- context [countl_zero 32 ?x] => cval (countl_zero 32 x) end; match goal with |- context [countr_zero 32 ?x] => cval (countr_zero 32 x) end; cbv beta iota zeta delta [bindo];
   rewrite EC by (vm_compute; congruence); rewrite EX; reflexivity.
Qed.

Lemma exc_y_sp : forall dm rm k s y o, is_pattern binary32 y -> is_fin binary32 y = true -> (fval binary32 y <> 0)%R -> pf_odd y = Some o ->
  (pf_exc_y dm rm (sp F32 k s) y = Some (inl (sp F32 k (s && o))) /\ y < 2 ^ 31) \/ (exists y', pf_exc_y dm rm (sp F32 k s) y = Some (inr y')).
Proof.
  intros dm rm k s y o Py Fy NZ Ho. unfold pf_exc_y. destruct (_ || _); [|right; eexists; reflexivity]. change (f_zero F32 false) with 0. rewrite !(f_eq_zero F32 good32).
  assert (MN : mag_of F32 y <> 0) by (intros E; apply NZ, (fval_zero F32 good32 y Fy), E). destruct (Z.eqb_spec (mag_of F32 y) 0); [contradiction|].
  assert (MF : mag_of F32 y < 0x7f800000) by (apply Z.ltb_lt; exact Fy). destruct (Z.eqb_spec (mag_of F32 y) 0x7f800000); [lia|].
  destruct (Z.eqb_spec y 0x3f000000) as [E|E].
  { left. subst y. change (pf_odd 0x3f000000) with (Some false) in Ho. injection Ho as <-. split; [|lia]. rewrite Bool.andb_false_r. destruct k, s; vm_compute; destruct rm; reflexivity. }
  destruct (Z.eqb_spec y 0x3f800000) as [E1|E1].
  { left. subst y. change (pf_odd 0x3f800000) with (Some true) in Ho. injection Ho as <-. split; [|lia]. rewrite Bool.andb_true_r. reflexivity. }
  destruct (Z.eqb_spec y 0x40000000) as [E2|E2].
  { left. subst y. change (pf_odd 0x40000000) with (Some false) in Ho. injection Ho as <-. split; [|lia]. rewrite Bool.andb_false_r, sp_mul32. reflexivity. }
  destruct (small_sp rm k s y o Py Fy NZ Ho) as [(ES & B)|ES]; rewrite ES; cbn [bindo]; [left; auto|]. right.
  destruct (_ <? mag_of F32 y); [|eexists; reflexivity]. destruct (Z.ltb_spec 0x7f800000 (mag_of F32 y)); [lia|]. eexists; reflexivity.
Qed.

Lemma exc_x_sp : forall dm rm k s y y' ex o, is_pattern binary32 y -> (fval binary32 y <> 0)%R -> is_fin binary32 y = true -> pf_odd y = Some o ->
  pf_exc_x dm rm (sp F32 k s) y y' ex = Some (PF_ret (sp F32 (if y <? 2 ^ 31 then k else negb k) (s && o))).
Proof.
  intros dm rm k s y y' ex o Py NZ Fy Ho. unfold pf_exc_x. rewrite Ho. cbn [bindo]. assert (N31 : y <> 2 ^ 31). { intros ->. apply NZ. apply (fval_zero F32 good32); auto. }
  destruct (Z.ltb_spec y (2 ^ 31)) as [B|B].
  - destruct k, s, o; unfold sp; change (f_inf F32 true) with 0xff800000; change (f_inf F32 false) with 0x7f800000; change (f_zero F32 true) with 0x80000000; change (f_zero F32 false) with 0;
    match goal with |- context [mag_of F32 ?x] => cval (mag_of F32 x) end; match goal with |- context [f_eq F32 ?x 0] => cval (f_eq F32 x 0) end; cbn - [Z.leb Z.ltb]; try (destruct (Z.leb_spec 0x80000000 y); [lia|]); try (destruct (Z.ltb_spec 0x80000000 y); [lia|]); reflexivity.
  - destruct k, s, o; unfold sp; change (f_inf F32 true) with 0xff800000; change (f_inf F32 false) with 0x7f800000; change (f_zero F32 true) with 0x80000000; change (f_zero F32 false) with 0;
    match goal with |- context [mag_of F32 ?x] => cval (mag_of F32 x) end; match goal with |- context [f_eq F32 ?x 0] => cval (f_eq F32 x 0) end; cbn - [Z.leb Z.ltb]; try (destruct (Z.leb_spec 0x80000000 y); [|lia]); try (destruct (Z.ltb_spec 0x80000000 y); [|lia]); reflexivity.
Qed.

Lemma sign_lt : forall y, is_pattern binary32 y -> is_fin binary32 y = true -> (fval binary32 y <> 0)%R -> (y <? 2 ^ 31) = Rlt_bool 0 (fval binary32 y).
Proof.
  intros y Py Fy NZ. pose proof (sign_fval binary32 good32 y Fy NZ) as S. rewrite (sign_of_eq binary32 good32) in S by auto. change (sign_unit binary32) with (2 ^ 31) in S.
  rewrite (Z.ltb_antisym (2 ^ 31) y), S. destruct (Rlt_bool_spec (fval binary32 y) 0), (Rlt_bool_spec 0 (fval binary32 y)); auto; lra.
Qed.

Theorem powf_sp : forall fma ct dm rm k s y o, is_pattern binary32 y -> is_fin binary32 y = true -> (fval binary32 y <> 0)%R -> (o = true <-> oddval (fval binary32 y)) ->
  powf fma ct dm rm (sp F32 k s) y = Some (sp F32 (if Rlt_bool 0 (fval binary32 y) then k else negb k) (s && o)).
Proof.
  intros fma ct dm rm k s y o Py Fy NZ HO. destruct (proj2 (pf_tests y Py Fy NZ)) as (o' & Eo & Ho'). assert (o' = o) by (destruct o, o'; intuition). subst o'.
  unfold powf, pf_exceptional. rewrite <- sign_lt by auto. destruct (exc_y_sp dm rm k s y o Py Fy NZ Eo) as [(E & B)|(y' & E)]; rewrite E; cbn [bindo].
  - destruct (Z.ltb_spec y (2 ^ 31)); [reflexivity|lia].
  - rewrite (exc_x_sp dm rm k s y y' _ o) by auto. cbn [bindo]. reflexivity.
Qed.

(** ** The exponents 0 and infinity, the bases 1 and NaN *)
Theorem powf_y_zero : forall fma ct dm rm x s, powf fma ct dm rm x (f_zero F32 s) = Some (f_one F32 false).
Proof. intros fma ct dm rm x []; reflexivity. Qed.

Theorem powf_y_inf : forall fma ct dm rm x s, is_pattern binary32 x -> is_nan F32 x = false ->
  powf fma ct dm rm x (f_inf F32 s) = Some (if mag_of F32 x =? mag_of F32 (f_one F32 false) then f_one F32 false
    else if Bool.eqb (mag_of F32 x <? mag_of F32 (f_one F32 false)) s then f_inf F32 false else f_zero F32 false).
Proof.
  intros fma ct dm rm x s Px Nx. unfold powf, pf_exceptional, pf_exc_y. change (f_zero F32 false) with 0. rewrite !(f_eq_zero F32 good32). unfold is_nan in Nx. change (inf_mag F32) with 0x7f800000 in Nx. rewrite Nx.
  change (mag_of F32 (f_one F32 false)) with 0x3f800000. destruct s; [change (f_inf F32 true) with 0xff800000; change (mag_of F32 0xff800000) with 0x7f800000|change (f_inf F32 false) with 0x7f800000; change (mag_of F32 0x7f800000) with 0x7f800000];
   cbv beta iota zeta delta [bindo]; cbn - [mag_of Z.eqb Z.ltb f_inf f_one]; destruct (Z.eqb_spec (mag_of F32 x) 0x3f800000) as [E|E]; [reflexivity| |reflexivity|].
  - change (4286578688 =? 4286578688) with true. rewrite Bool.andb_true_r. destruct (Z.eqb_spec (mag_of F32 x) 0) as [Z0|Z0]; [rewrite Z0; reflexivity|]. destruct (_ <? _); reflexivity.
  - change (2139095040 =? 4286578688) with false. rewrite Bool.andb_false_r. destruct (_ <? _); reflexivity.
Qed.

Theorem powf_x_one : forall fma ct dm rm y, is_pattern binary32 y -> powf fma ct dm rm (f_one F32 false) y = Some (f_one F32 false).
Proof.
  intros fma ct dm rm y Py. change (f_one F32 false) with 0x3f800000. unfold powf, pf_exceptional.
  assert (E : pf_exc_y dm rm 0x3f800000 y = Some (inl 0x3f800000) \/ exists y', pf_exc_y dm rm 0x3f800000 y = Some (inr y')).
  { unfold pf_exc_y. destruct (_ || _); [|right; eexists; reflexivity]. destruct (f_eq F32 y _); [left; reflexivity|]. destruct (_ =? 0x7f800000); [left; reflexivity|].
    destruct (_ =? 0x3f000000); [left; destruct dm; vm_compute; reflexivity|]. destruct (_ =? 0x3f800000); [left; reflexivity|]. destruct (_ =? 0x40000000); [left; destruct rm; vm_compute; reflexivity|].
    assert (ES : pf_small rm 0x3f800000 y = Some None \/ pf_small rm 0x3f800000 y = Some (Some 0x3f800000)).
    { unfold pf_small. destruct (ctz_sig y Py) as (t & ET & _). unfold pf_integer. rewrite ET. cbn [bindo]. destruct (150 <=? _) eqn:EI; [|left; reflexivity]. cbn [andb].
      destruct (Z.ltb_spec 0x40000000 y) as [B1|B1]; [|left; reflexivity]. destruct (Z.leb_spec y 0x41c00000) as [B2|B2]; [|left; reflexivity]. cbn [andb].
      assert (MY : mag_of binary32 y = y) by (change (mag_of binary32 y) with (y mod 2 ^ 31); apply Z.mod_small; lia).
      assert (Fy : is_fin binary32 y = true) by (unfold is_fin; rewrite MY; apply Z.ltb_lt; change (inf_mag binary32) with 0x7f800000; lia).
      assert (NZ : (fval binary32 y <> 0)%R) by (intros E0; apply (fval_zero binary32 good32 y Fy) in E0; lia).
      destruct (small_y y Py Fy NZ ltac:(lia)) as (n & _ & NB & TI). { unfold pf_integer. rewrite ET. cbn [bindo]. rewrite EI. reflexivity. }
      right. cval (mag_of F32 0x3f800000). cval (countl_zero 32 0x3f800000). cval (countr_zero 32 0x3f800000). cbv beta iota zeta delta [bindo]. rewrite TI.
      match goal with |- context [?a <=? 25] => replace (a <=? 25) with true by (symmetry; apply Z.leb_le; change (a <= 25) with (-1 * n <= 25); lia) end.
      replace (f_cast F32 F64 rm 0x3f800000) with 0x3ff0000000000000 by (destruct rm; vm_compute; reflexivity).
      assert (LP : forall k, pf_loop k rm 0x3ff0000000000000 0x3ff0000000000000 = 0x3ff0000000000000) by (induction k; cbn [pf_loop]; [reflexivity|]; replace (f_mul F64 rm 0x3ff0000000000000 0x3ff0000000000000) with 0x3ff0000000000000 by (destruct rm; vm_compute; reflexivity); exact IHk).
      rewrite LP. destruct rm; vm_compute; reflexivity. }
    destruct ES as [ES|ES]; rewrite ES; cbn [bindo]; [|left; reflexivity]. destruct (_ <? mag_of F32 y); [|right; eexists; reflexivity]. destruct (_ <? mag_of F32 y); [left; reflexivity|right; eexists; reflexivity]. }
  destruct E as [E|(y' & E)]; rewrite E; reflexivity.
Qed.

Lemma nan_mul : forall F rm a b, good_fmt F -> is_nan F a = true \/ is_nan F b = true -> is_nan F (f_mul F rm a b) = true.
Proof. intros F rm a b HF H. pose proof (proj1 (proj2 (qnan_props F HF))) as Q. unfold f_mul. destruct H as [H|H]; rewrite (decode_nan F _ H); [exact Q|]. destruct (decode F a); exact Q. Qed.
Lemma nan_loop : forall n rm x, is_nan F64 x = true -> forall a, is_nan F64 a = true -> is_nan F64 (pf_loop n rm x a) = true.
Proof. induction n; intros rm x Hx a Ha; cbn [pf_loop]; auto. apply IHn; auto. apply nan_mul; auto. exact good64. Qed.
Lemma nan_cast : forall F G rm x, good_fmt F -> good_fmt G -> is_nan F x = true -> is_nan G (f_cast F G rm x) = true.
Proof. intros F G rm x HF HG H. unfold f_cast. rewrite (decode_nan F x H). apply (proj1 (proj2 (qnan_props G HG))). Qed.

Lemma small_some : forall rm x y, is_pattern binary32 x -> is_pattern binary32 y -> exists r, pf_small rm x y = Some r.
Proof.
  intros rm x y Px Py. unfold pf_small. destruct (ctz_sig y Py) as (t & ET & _). unfold pf_integer. rewrite ET. cbn [bindo]. destruct (150 <=? _) eqn:EI; [|eexists; reflexivity]. cbn [andb].
  destruct (Z.ltb_spec 0x40000000 y) as [B1|B1]; [|eexists; reflexivity]. destruct (Z.leb_spec y 0x41c00000) as [B2|B2]; [|eexists; reflexivity]. cbn [andb].
  assert (MY : mag_of binary32 y = y) by (change (mag_of binary32 y) with (y mod 2 ^ 31); apply Z.mod_small; lia).
  assert (Fy : is_fin binary32 y = true) by (unfold is_fin; rewrite MY; apply Z.ltb_lt; change (inf_mag binary32) with 0x7f800000; lia).
  assert (NZ : (fval binary32 y <> 0)%R) by (intros E0; apply (fval_zero binary32 good32 y Fy) in E0; lia).
  destruct (small_y y Py Fy NZ ltac:(lia)) as (n & _ & NB & TI). { unfold pf_integer. rewrite ET. cbn [bindo]. rewrite EI. reflexivity. }
  assert (MX : 0 <= mag_of F32 x < 2 ^ 32) by (change (mag_of F32 x) with (x mod 2 ^ 31); pose proof (Z.mod_pos_bound x (2 ^ 31)); lia).
  destruct (countl_zero_spec 5 (mag_of F32 x)) as (c & EC & _); [exact MX|]. destruct (countr_zero_spec 5 (mag_of F32 x)) as (d & ED & _); [exact MX|]. change (2 ^ Z.of_nat 5) with 32 in *.
  rewrite EC, ED, TI. cbv beta iota zeta delta [bindo]. destruct (_ <=? 25); eexists; reflexivity.
Qed.
Lemma small_nan : forall rm x y r, is_nan F32 x = true -> pf_small rm x y = Some (Some r) -> is_nan F32 r = true.
Proof.
  intros rm x y r Nx. unfold pf_small. destruct (pf_integer y) as [i|]; cbn [bindo]; [|discriminate]. destruct (_ && _); [|discriminate]. destruct (countl_zero _ _); cbn [bindo]; [|discriminate]. destruct (countr_zero _ _); cbn [bindo]; [|discriminate].
  destruct (f_to_int _ _ _); cbn [bindo]; [|discriminate]. cbv zeta. destruct (_ <=? 25); [|discriminate]. intros E. injection E as <-. apply nan_cast; [exact good64|exact good32|]. assert (NC : is_nan F64 (f_cast F32 F64 rm x) = true) by (apply nan_cast; auto using good32, good64). apply nan_loop; exact NC.
Qed.

(** A NaN operand gives a NaN, unless the exponent is a zero or the base is 1. *)
Theorem powf_nan : forall fma ct dm rm x y, is_pattern binary32 x -> is_pattern binary32 y ->
  (is_nan F32 x = true /\ mag_of F32 y <> 0) \/ (is_nan F32 y = true /\ x <> f_one F32 false) -> exists r, powf fma ct dm rm x y = Some r /\ is_nan F32 r = true.
Proof.
  intros fma ct dm rm x y Px Py H. unfold powf, pf_exceptional.
  destruct (is_nan F32 y) eqn:Ny.
  - assert (YN : 0x7f800000 < mag_of F32 y) by (apply Z.ltb_lt; exact Ny). assert (EY : exists r, pf_exc_y dm rm x y = Some (inl r) /\ is_nan F32 r = true).
    { unfold pf_exc_y. replace (0x4f170000 <? mag_of F32 y) with true by (symmetry; apply Z.ltb_lt; lia). rewrite Bool.orb_true_r. change (f_zero F32 false) with 0. rewrite !(f_eq_zero F32 good32).
      destruct (Z.eqb_spec (mag_of F32 y) 0); [lia|]. destruct (Z.eqb_spec (mag_of F32 y) 0x7f800000); [lia|].
      assert (N1 : forall c, mag_of F32 c < 0x7f800000 -> (y =? c) = false) by (intros c Hc; apply Z.eqb_neq; intros ->; lia). rewrite !N1 by reflexivity.
      destruct (small_some rm x y Px Py) as (r & ES). rewrite ES. cbn [bindo]. destruct r as [r|].
      - exists r. split; [reflexivity|]. exfalso. unfold pf_small in ES. destruct (pf_integer y) as [i|]; cbn [bindo] in ES; [|discriminate].
        destruct (Z.ltb_spec 0x40000000 y); [|rewrite Bool.andb_false_r in ES; discriminate]. destruct (Z.leb_spec y 0x41c00000); [|rewrite Bool.andb_false_r in ES; discriminate]. change (mag_of F32 y) with (y mod 2 ^ 31) in YN. rewrite Z.mod_small in YN by lia. lia.
      - replace (0x7f800000 <? mag_of F32 y) with true by (symmetry; apply Z.ltb_lt; lia). destruct (Z.eqb_spec x 0x3f800000) as [E|E].
        + exfalso. destruct H as [(A & _)|(_ & B)]; [rewrite E in A; discriminate|exact (B E)].
        + exists y. split; auto. }
    destruct EY as (r & E & Nr). exists r. rewrite E. cbn [bindo]. auto.
  - destruct H as [(Nx & YZ)|(B & _)]; [|congruence]. assert (XN : 0x7f800000 < mag_of F32 x) by (apply Z.ltb_lt; exact Nx).
    assert (EY : (exists r, pf_exc_y dm rm x y = Some (inl r) /\ is_nan F32 r = true) \/ exists y', pf_exc_y dm rm x y = Some (inr y')).
    { unfold pf_exc_y. destruct (_ || _); [|right; eexists; reflexivity]. change (f_zero F32 false) with 0. rewrite !(f_eq_zero F32 good32). destruct (Z.eqb_spec (mag_of F32 y) 0); [contradiction|].
      replace (0x7f800000 <? mag_of F32 x) with true by (symmetry; apply Z.ltb_lt; lia). destruct (_ =? 0x7f800000); [left; exists x; auto|].
      assert (N1 : forall c, mag_of F32 c <= 0x7f800000 -> (x =? c) = false) by (intros c Hc; apply Z.eqb_neq; intros ->; lia).
      destruct (y =? 0x3f000000).
      - destruct (Z.eqb_spec (mag_of F32 x) 0); [lia|]. rewrite (N1 0xff800000) by (vm_compute; congruence). cbn [orb].
        replace (f_lt F32 x 0) with false by (symmetry; unfold f_lt, f_cmp; rewrite Nx; reflexivity).
        left. exists x. split; auto. replace (cc_sqrt F32 dm x) with (Some x); [reflexivity|].
        unfold cc_sqrt. rewrite (fp_is_nan_eq F32 good32), Nx, Bool.orb_true_r; [reflexivity|vm_compute; congruence].
      - destruct (y =? 0x3f800000); [left; exists x; auto|]. destruct (y =? 0x40000000); [left; eexists; split; [reflexivity|apply nan_mul; auto using good32]|].
        destruct (small_some rm x y Px Py) as (r & ES). rewrite ES. cbn [bindo]. destruct r as [r|]; [left; exists r; split; [reflexivity|eapply small_nan; eauto]|].
        destruct (_ <? mag_of F32 y); [|right; eexists; reflexivity]. unfold is_nan in Ny. change (inf_mag F32) with 0x7f800000 in Ny. rewrite Ny. right. eexists; reflexivity. }
    destruct EY as [(r & E & Nr)|(y' & E)]; rewrite E; cbn [bindo]; [exists r; auto|]. exists x. split; [|exact Nx]. unfold pf_exc_x.
    assert (XB : 0x7f800000 <= x) by (change (mag_of F32 x) with (x mod 2 ^ 31) in XN; pose proof (Z.mod_le x (2 ^ 31) ltac:(destruct Px; lia)); lia).
    replace (0x7f800000 <=? x) with true by (symmetry; apply Z.leb_le; lia). rewrite Bool.orb_true_r. cbn [orb].
    assert (N1 : forall c, mag_of F32 c <= 0x7f800000 -> (x =? c) = false) by (intros c Hc; apply Z.eqb_neq; intros ->; lia). rewrite !N1 by (vm_compute; congruence).
    destruct (ctz_sig y Py) as (t & ET & _). unfold pf_odd. rewrite ET. cbn [bindo]. change (f_zero F32 false) with 0. rewrite (f_eq_zero F32 good32). destruct (Z.eqb_spec (mag_of F32 x) 0); [lia|]. destruct (Z.eqb_spec (mag_of F32 x) 0x7f800000); [lia|].
    replace (0x7f800000 <? mag_of F32 x) with true by (symmetry; apply Z.ltb_lt; lia). reflexivity.
Qed.

(** ** Negative bases *)
Lemma some_inj : forall (A : Type) (a b : A), Some a = Some b -> a = b.
Proof. intros A a b E. congruence. Qed.
Theorem powf_negative : forall fma ct dm rm x y, is_pattern binary32 x -> is_pattern binary32 y -> is_fin F32 x = true -> is_fin F32 y = true -> (fval F32 x < 0)%R -> ~ intval (fval F32 y) ->
  powf fma ct dm rm x y = Some (qnan F32).
Proof.
  intros fma ct dm rm x y Px Py Fx Fy XN NI.
  assert (NZ : (fval F32 y <> 0)%R) by (intros E; apply NI; exists 0; exact E).
  destruct (pf_tests y Py Fy NZ) as ((i & Ei & Hi) & (o & Eo & _)). assert (i = false) by (destruct i; auto; exfalso; apply NI, Hi; reflexivity). subst i.
  assert (MN : mag_of F32 y <> 0) by (intros E; apply NZ, (fval_zero F32 good32 y Fy), E). assert (MF : mag_of F32 y < 0x7f800000) by (apply Z.ltb_lt; exact Fy).
  assert (XZ : mag_of F32 x <> 0) by (intros E; apply (fval_zero F32 good32 x Fx) in E; lra). assert (XF : mag_of F32 x < 0x7f800000) by (apply Z.ltb_lt; exact Fx).
  assert (SX : sign_of F32 x = true) by (rewrite (sign_fval F32 good32 x Fx ltac:(lra)); apply Rlt_bool_true; exact XN).
  assert (XB : 0x80000000 <= x) by (rewrite (sign_of_eq F32 good32) in SX by auto; apply Z.leb_le in SX; exact SX).
  assert (LT : f_lt F32 x (f_zero F32 false) = true) by (rewrite (f_lt_zero F32 good32) by (apply fin_nan; auto); rewrite SX; apply Z.eqb_neq in XZ; rewrite XZ; reflexivity).
  unfold powf, pf_exceptional.
  assert (EY : pf_exc_y dm rm x y = Some (inl (qnan F32)) \/ pf_exc_y dm rm x y = Some (inr y)).
  { unfold pf_exc_y. rewrite LT. change (f_zero F32 false) with 0. rewrite !(f_eq_zero F32 good32). apply Z.eqb_neq in MN. rewrite MN. apply Z.eqb_neq in XZ. rewrite XZ.
    assert (BIG : mag_of F32 y <= 0x4f170000). { destruct (Z.le_gt_cases (mag_of F32 y) 0x4f170000) as [|B]; auto. exfalso. apply NI. apply (Hi). destruct (ctz_sig y Py) as (t & ET & TB & _). unfold pf_integer in Ei. rewrite ET in Ei. cbn [bindo] in Ei. apply some_inj in Ei. apply Z.leb_gt in Ei. rewrite exp_land in Ei by auto.
      assert (158 <= mag_of F32 y / 2 ^ 23) by (apply Z.div_le_lower_bound; lia). lia. }
    destruct (Z.ltb_spec 0x4f170000 (mag_of F32 y)); [lia|]. rewrite Bool.orb_false_r. destruct (Z.land (mag_of F32 y) 524287 =? 0); [|right; reflexivity]. destruct (Z.eqb_spec (mag_of F32 y) 0x7f800000); [lia|].
    destruct (y =? 0x3f000000). { left. destruct (Z.eqb_spec x 0xff800000) as [->|]; [exfalso; vm_compute in XF; discriminate|reflexivity]. }
    destruct (Z.eqb_spec y 0x3f800000) as [->|]; [vm_compute in Ei; discriminate|]. destruct (Z.eqb_spec y 0x40000000) as [->|]; [vm_compute in Ei; discriminate|].
    unfold pf_small. rewrite Ei. cbn [bindo andb]. right. reflexivity. }
  destruct EY as [EY|EY]; rewrite EY; cbn [bindo]; [reflexivity|]. unfold pf_exc_x. replace (0x7f800000 <=? x) with true by (symmetry; apply Z.leb_le; lia). rewrite Bool.orb_true_r. cbn [orb].
  assert (N1 : forall c, c < 0x80000000 -> (x =? c) = false) by (intros c Hc; apply Z.eqb_neq; lia). rewrite !N1 by lia. rewrite Eo. cbn [bindo]. change (f_zero F32 false) with 0. rewrite (f_eq_zero F32 good32). destruct (Z.eqb_spec (mag_of F32 x) 0); [contradiction|].
  destruct (Z.eqb_spec (mag_of F32 x) 0x7f800000); [lia|]. destruct (Z.ltb_spec 0x7f800000 (mag_of F32 x)); [lia|]. replace (0x80000000 <=? x) with true by (symmetry; apply Z.leb_le; lia). rewrite Ei. cbn [bindo]. reflexivity.
Qed.
