(** * powf: the base -1 *)
From Coq Require Import ZArith Lia Reals Lra List Bool.
From Flocq Require Import Core.
From Verif Require Import MachInt Bits Fmt FloatSpec RoundProofs FmtProofs ExtFloatSpec FOps FOpsProofs ExactOps RemProofs FmanipWide ErrLib LogfNum ExtInterp Expm1Proofs Exp2fProofs ExtFloatProofs Eft EftProofs Nearest NearestProofs SinRedF ExpoData ExpoF ExpoFWrap PowfData Powf PowfSpecial PowfTab PowfNum PowfDD PowfRed PowfFast PowfScale PowfKer PowfAcc PowfSmall PowfBase.
Import ListNotations.
Open Scope Z_scope.

Lemma zero_prod : forall a b, is_fin D a = true -> is_fin D b = true -> (fval D a * fval D b = 0)%R -> f_mul D RNE a b = f_zero D (xorb (sign_of D a) (sign_of D b)).
Proof.
  intros a b Fa Fb E. destruct (f_mul_spec D good64 RNE a b Fa Fb) as (P & S & M & _). rewrite E in *. rewrite Req_bool_true in S by reflexivity.
  assert (Z0 : fround D RNE 0 = 0%R) by (apply round_0; apply valid_rnd_N). rewrite Z0, Rabs_R0 in M. destruct (M ltac:(apply bpow_gt_0)) as (F1 & V1). apply (fval_zero D good64 _ F1) in V1.
  rewrite (pattern_split D good64 _ P), S, V1. unfold f_zero. ring.
Qed.
Lemma zv : forall s, is_fin D (f_zero D s) = true /\ fval D (f_zero D s) = 0%R /\ sign_of D (f_zero D s) = s.
Proof. intros s. destruct (f_zero_props D good64 s) as (_ & A & B & C & E). auto. Qed.

Lemma mp0 : forall p, is_fin D p = true -> madd D RNE 0 p 0 = 0.
Proof.
  intros p FP. destruct (zv false) as (A & B & C). unfold madd. change (f_mul D RNE 0 p) with (f_mul D RNE (f_zero D false) p). rewrite zero_prod by (auto; rewrite B; ring).
  generalize (xorb (sign_of D (f_zero D false)) (sign_of D p)). intros [|]; vm_compute; reflexivity.
Qed.
Lemma ker1 : forall ct y Y (s : bool), is_real S32 y Y -> (Rabs Y <= bp 32)%R ->
  (do q <- pf_reduce false ct RNE 0x3f800000 y (-127); do h <- pf_scale (pr_hm q) (if s then 0x8000000000000000 else 0); pf_finish false ct RNE q h) = Some (f_one S32 s).
Proof.
  intros ct y Y s Hy YB. destruct (y6_r y Y Hy YB) as (P6 & F6 & V6). set (y6 := f_cast S32 D RNE (f_mul S32 RNE y (litf 1 6))) in *.
  assert (Z1 : forall t, f_mul D RNE (f_zero D t) y6 = f_zero D (xorb t (sign_of D y6))) by (intros t; destruct (zv t) as (A & B & C); rewrite zero_prod, C by (auto; rewrite B; ring); reflexivity).
  assert (Z2 : forall t, f_mul D RNE y6 (f_zero D t) = f_zero D (xorb (sign_of D y6) t)) by (intros t; destruct (zv t) as (A & B & C); rewrite zero_prod, C by (auto; rewrite B; ring); reflexivity).
  assert (E : exists p, pf_reduce false ct RNE 0x3f800000 y (-127) = Some (PFRed 0 0 p y6 (cc_nearest_integer D RNE ct (f_mul D RNE 0 y6)) (madd D RNE y6 0 (f_neg D (cc_nearest_integer D RNE ct (f_mul D RNE 0 y6)))) (madd D RNE y6 0 (madd D RNE y6 0 (f_neg D (cc_nearest_integer D RNE ct (f_mul D RNE 0 y6))))))).
  { assert (MP : madd D RNE 0 (pf_poly RNE pf_log 0) 0 = 0).
    { destruct (zv false) as (A & B & C). assert (R0 : is_real D 0 0) by (split; [split; vm_compute; congruence|split; [exact A|exact B]]). destruct (poly_log_g RNE 0 0 R0) as (P & RP & _); [rewrite Rabs_R0; lra|]. destruct RP as (_ & FP & _). exact (mp0 _ FP). }
    eexists. unfold pf_reduce. fold y6. cval (f_of_Z D RNE (-127 + Z.shiftr 0x3f800000 23)). cval (Z.land 0x3f800000 0x7fffff). cbv zeta. cval (Z.shiftr 0 16). cval (Z.lor 0 0x3f800000).
    cval (at_opt pf_R 0). cval (at_opt pf_RD 0). cval (at_opt pf_LOG2_R 0). cval (at_opt pf_LOG2_R_TD 0). cbn [bindo]. cbv iota beta.
    cval (pf_dx false RNE 0x3f800000 4607182418800017408 4607182418800017408).
    cval (f_add D RNE 0 0). rewrite !MP. reflexivity. }
  destruct E as (p & E). rewrite E. cbn [bindo]. unfold madd.
  assert (Z1' : f_mul D RNE 0 y6 = f_zero D (sign_of D y6)) by (rewrite <- (xorb_false_l (sign_of D y6)); exact (Z1 false)). assert (Z2' : f_mul D RNE y6 0 = f_zero D (sign_of D y6)) by (rewrite <- (xorb_false_r (sign_of D y6)); exact (Z2 false)).
  rewrite Z1', Z2'. clear. generalize (sign_of D y6). generalize y6. intros z t. destruct t, ct, s; vm_compute; reflexivity.
Qed.
Lemma one_loop : forall n t, pf_loop n RNE (f_one D true) (f_one D t) = f_one D (xorb t (Nat.odd n)).
Proof.
  induction n as [|n IH]; intros t; cbn [pf_loop]; [rewrite xorb_false_r; reflexivity|]. replace (f_mul D RNE (f_one D t) (f_one D true)) with (f_one D (negb t)) by (destruct t; vm_compute; reflexivity).
  rewrite IH, Nat.odd_succ, <- Nat.negb_odd. f_equal. destruct t, (Nat.odd n); reflexivity.
Qed.
Lemma nat_odd : forall n, 0 <= n -> Nat.odd (Z.to_nat n) = Z.odd n.
Proof. intros n H. rewrite <- (Z2Nat.id n) at 2 by lia. generalize (Z.to_nat n). intros m. induction m as [|m IH]; [reflexivity|]. rewrite Nat.odd_succ, <- Nat.negb_odd, IH, Nat2Z.inj_succ, Z.odd_succ, <- Z.negb_odd. reflexivity. Qed.

Theorem powf_minus_one : forall ct dm y Y o, is_real S32 y Y -> intval Y -> (o = true <-> oddval Y) -> powf false ct dm RNE (f_one S32 true) y = Some (f_one S32 o).
Proof.
  intros ct dm y Y o Hy IY HO. pose proof Hy as (Py & Fy & Vy).
  destruct (Req_dec Y 0) as [Y0|YZ].
  { assert (OF : o = false). { destruct o; auto. destruct (proj1 HO eq_refl) as (m & Em). rewrite Y0 in Em. apply eq_IZR in Em. lia. } rewrite OF.
    assert (E : y = f_zero S32 (sign_of S32 y)). { assert (M : mag_of S32 y = 0) by (apply (fval_zero S32 good32 y Fy); lra). rewrite (pattern_split S32 good32 y Py) at 1. rewrite M. unfold f_zero. ring. }
    rewrite E. apply powf_y_zero. }
  assert (NY : fval S32 y <> 0%R) by (rewrite Vy; exact YZ). destruct (pf_tests y Py Fy NY) as ((i & Ei & Hi) & (o' & Eo & Ho)). rewrite Vy in Hi, Ho.
  assert (o' = o) by (destruct o, o'; intuition). subst o'. assert (i = true) by (apply Hi; exact IY). subst i. change (f_one S32 true) with 0xbf800000.
  assert (OC : forall c n, y = c -> fval S32 c = IZR n -> o = Z.odd n).
  { intros c n -> E. rewrite Vy in E. destruct (Z.odd n) eqn:O; [apply HO; apply Z.odd_spec in O; destruct O as (m & ->); exists m; exact E|]. destruct o; auto. exfalso. destruct (proj1 HO eq_refl) as (m & Em). rewrite E in Em. apply eq_IZR in Em. rewrite Em, Z.add_comm, Z.odd_add_mul_2 in O. discriminate. }
  destruct (Z.eq_dec y 0x3f000000) as [C|N1]. { exfalso. subst y. destruct IY as (n & En). assert (V : fval S32 0x3f000000 = (/ 2)%R) by (fvalof S32 0x3f000000; bpn; lra). rewrite V in Vy. assert (E2 : (IZR (2 * n) = 1)%R) by (rewrite mult_IZR; lra). apply (eq_IZR _ 1) in E2. lia. }
  destruct (Z.eq_dec y 0x3f800000) as [C|N2]. { rewrite (OC _ 1 C) by (fvalof S32 0x3f800000; bpn; lra). subst y. reflexivity. }
  destruct (Z.eq_dec y 0x40000000) as [C|N3]. { rewrite (OC _ 2 C) by (fvalof S32 0x40000000; bpn; lra). subst y. vm_compute. reflexivity. }
  destruct (small_some RNE 0xbf800000 y ltac:(split; vm_compute; congruence) Py) as (sm & ESM). destruct sm as [r|].
  - unfold powf, pf_exceptional. replace (pf_exc_y dm RNE 0xbf800000 y) with (@Some (Z + Z) (inl (f_one S32 o))); [reflexivity|].
    assert (ER : r = f_one S32 o /\ Z.land (mag_of S32 y) 0x7ffff = 0).
    { pose proof Ei as Ei'. revert ESM. unfold pf_small. rewrite Ei. cbn [bindo andb]. destruct (Z.ltb_spec 0x40000000 y) as [B1|B1]; [|discriminate]. destruct (Z.leb_spec y 0x41c00000) as [B2|B2]; [|discriminate]. cbn [andb].
      destruct (small_y y Py Fy NY ltac:(lia) Ei') as (n & EN & NB & TI). rewrite TI. cval (mag_of S32 0xbf800000). cval (countl_zero 32 0x3f800000). cval (countr_zero 32 0x3f800000). cbn [bindo]. cbv zeta. destruct (_ <=? 25); [|discriminate]. intros E. apply some_inj in E. apply some_inj in E.
      change (f_cast S32 D RNE 0xbf800000) with (f_one D true) in E. rewrite one_loop in E. split.
      - rewrite <- E. rewrite nat_odd by lia. replace (xorb true (Z.odd (n - 1))) with o; [destruct o; vm_compute; reflexivity|]. rewrite (OC y n eq_refl EN). replace n with (Z.succ (n - 1)) at 1 by lia. rewrite Z.odd_succ, <- Z.negb_odd. destruct (Z.odd (n - 1)); reflexivity.
      - apply (small_low n); [lia|apply (mag_range S32 good32 y)|]. rewrite <- (Rabs_fval S32 good32) by auto. rewrite EN. apply Rabs_pos_eq. apply IZR_le; lia. }
    destruct ER as (-> & LW). unfold pf_exc_y. rewrite ESM. cbn [bindo]. change (f_zero S32 false) with 0. rewrite (f_eq_zero S32 good32 y).
    assert (MN : mag_of S32 y <> 0) by (intros E; apply (fval_zero S32 good32 y Fy) in E; lra). assert (MF : mag_of S32 y < 0x7f800000) by (apply Z.ltb_lt; exact Fy).
    apply Z.eqb_neq in MN, N1, N2, N3. rewrite MN, N1, N2, N3, LW. destruct (Z.eqb_spec (mag_of S32 y) 0x7f800000); [lia|]. reflexivity.
  - unfold powf, pf_exceptional. rewrite (exc_y_go dm _ y Y Hy YZ N1 N2 N3 ESM). cbn [bindo].
    destruct (exc_y_val y Y Hy YZ) as (Y' & HY' & YB & YY). cbv zeta in HY'.
    assert (EI : pf_integer (if 0x4f170000 <? mag_of S32 y then Z.land y 0x80000000 + 0x4f800000 else y) = Some true /\ pf_odd (if 0x4f170000 <? mag_of S32 y then Z.land y 0x80000000 + 0x4f800000 else y) = Some o).
    { destruct (Z.ltb_spec 0x4f170000 (mag_of S32 y)) as [BG|BG]; [|split; [exact Ei|exact Eo]]. rewrite (land_sign y Py).
      assert (OF : o = false). { unfold pf_odd in Eo. destruct (ctz_sig y Py) as (t & ET & TB & _). rewrite ET in Eo. cbn [bindo] in Eo. apply some_inj in Eo. rewrite exp_land in Eo by auto. assert (158 <= mag_of S32 y / 2 ^ 23) by (apply Z.div_le_lower_bound; lia). rewrite <- Eo. apply Z.eqb_neq. lia. }
      rewrite OF. destruct (sign_of S32 y); split; vm_compute; reflexivity. }
    set (y' := if 0x4f170000 <? mag_of S32 y then Z.land y 0x80000000 + 0x4f800000 else y) in *. clearbody y'. destruct EI as (Ei' & Eo').
    assert (EX : pf_exc_x dm RNE 0xbf800000 y y' (-127) = Some (PF_go 0x3f800000 y' (-127) (if o then 0x8000000000000000 else 0))).
    { unfold pf_exc_x. cval ((Z.land 0xbf800000 0x801fffff =? 0) || (0x7f800000 <=? 0xbf800000) || (0xbf800000 <? 0x00800000)). cbv iota. cval (0xbf800000 =? 0x3f800000). cval (0xbf800000 =? 0x40000000). cval (0xbf800000 =? 0x41200000). cbv iota. rewrite Eo. cbn [bindo].
      cval (f_eq S32 0xbf800000 (f_zero S32 false)). cval (mag_of S32 0xbf800000). cval (0x3f800000 =? 0x7f800000). cval (0x7f800000 <? 0x3f800000). cval (0x3f800000 <? 0x00800000). cval (0x80000000 <=? 0xbf800000). cbv iota. rewrite Ei'. cbn [bindo]. rewrite Eo'. cbn [bindo]. reflexivity. }
    rewrite EX. cbn [bindo]. rewrite Ei'. cbn [bindo]. cval (f_lt S32 0x3f800000 (f_zero S32 false)). cbn [andb]. apply (ker1 ct y' Y' o HY'). lra.
Qed.
