(** * op::mul and fp::cast are correctly rounded *)
From Coq Require Import ZArith Lia Bool Reals Lra.
From Flocq Require Import Core.
From Verif Require Import MachInt Bits Fmt FloatSpec FmtProofs RoundProofs RoundMore FOps FOpsProofs ExactOps FPBits FPBitsProofs
  CompareProofs FmanipProofs Fma FmaSpec FmaProofs BigIntMul Basic Dyadic DyadicSpec DyadicProofs DyadicFast DyadicArith DyadicQuick GenOps.
Open Scope Z_scope.

Lemma mag_qnan : forall G, good_fmt G -> mag_of G (qnan G) = qnan G.
Proof. intros G HG. pose proof (mag_of_sbit G false (qnan G) (qnan_pattern G HG)) as H. exact H. Qed.

Section Ops.
Context (F G : fmt) (HF : good_fmt F) (HG : good_fmt G) (HelF : el F <= 16) (HelG : el G <= 16) (HFG : fl G <= fl F).

(** ** Quiet NaNs *)
Lemma fp_quiet_nan_val : forall s p, 0 <= p -> 2 ^ (fl G - 1) <= p mod 2 ^ fl G ->
  fp_quiet_nan G s p = sbit G s + (inf_mag G + p mod 2 ^ fl G).
Proof.
  intros s p Hp Hl. pose proof (gf_fl G HG) as Hf1. pose proof (fl_pos G HG) as HP.
  pose proof (pow2_pos (fl G - 1) ltac:(lia)) as HQ. pose proof (pow2_half (fl G) ltac:(lia)) as Hh.
  unfold fp_quiet_nan. rewrite (encode_eq G HG HelG), (biased_inf G HG HelG). unfold pack.
  assert (L : Z.lor (Significand_msb G) p mod 2 ^ fl G = p mod 2 ^ fl G).
  { rewrite <- !Z.land_ones by lia. rewrite Z.land_lor_distr_l. rewrite !Z.land_ones by lia.
    unfold Significand_msb. rewrite (Z.mod_small (2 ^ (fl G - 1))) by lia.
    pose proof (Z.mod_pos_bound p (2 ^ fl G) HP) as R.
    set (l := p mod 2 ^ fl G) in *. set (k := fl G - 1) in *.
    replace l with (1 * 2 ^ k + (l - 2 ^ k)) at 1 by lia.
    rewrite <- lor_add by lia. rewrite Z.mul_1_l, Z.lor_assoc, Z.lor_diag.
    rewrite <- (Z.mul_1_l (2 ^ k)) at 1. rewrite lor_add by lia. lia. }
  rewrite L. unfold inf_mag. lia.
Qed.

Definition narrowed (x : Z) : Z := sbit G (sign_of F x) + (inf_mag G + (x mod 2 ^ fl F) / 2 ^ (fl F - fl G)).

Lemma quiet_low : forall x, quiet F x -> 2 ^ (fl F - 1) <= x mod 2 ^ fl F < 2 ^ fl F.
Proof.
  intros x [_ Hb]. pose proof (gf_fl F HF). pose proof (fl_pos F HF) as HP. pose proof (Z.mod_pos_bound x (2 ^ fl F) HP) as R.
  split; [|lia]. rewrite <- (Z.mod_pow2_bits_low x (fl F)) in Hb by lia.
  apply testbit_ge; [lia|lia|exact Hb].
Qed.

Lemma shift_high : forall p, 2 ^ (fl F - 1) <= p < 2 ^ fl F ->
  2 ^ (fl G - 1) <= p / 2 ^ (fl F - fl G) < 2 ^ fl G.
Proof.
  intros p Hp. pose proof (gf_fl F HF). pose proof (gf_fl G HG). pose proof (pow2_pos (fl F - fl G) ltac:(lia)) as HP. split.
  - apply Z.div_le_lower_bound; [lia|]. rewrite <- Z.pow_add_r by lia. replace (fl F - fl G + (fl G - 1)) with (fl F - 1) by lia. lia.
  - apply Z.div_lt_upper_bound; [lia|]. rewrite <- Z.pow_add_r by lia. replace (fl F - fl G + fl G) with (fl F) by lia. lia.
Qed.

Lemma narrow_nan_eq : forall x, quiet F x -> narrow_nan F G x = narrowed x.
Proof.
  intros x Hq. pose proof (quiet_low x Hq) as HL. pose proof (shift_high _ HL) as HS. pose proof (fl_pos G HG) as HP. pose proof (gf_fl G HG).
  pose proof (gf_el G HG). pose proof (pow2_pos (fl F - fl G) ltac:(lia)).
  unfold narrow_nan, narrowed. rewrite (get_mantissa_eq F HF), (fp_sign_eq F HF), Z.shiftr_div_pow2 by lia.
  rewrite wrap_small by (unfold inU, width; pose proof (pow2_le (fl G) (fl G + el G + 1)); lia).
  rewrite fp_quiet_nan_val; rewrite ?Z.mod_small by lia; try lia.
Qed.

Lemma narrowed_quiet : forall x, quiet F x -> is_pattern G (narrowed x) /\ quiet G (narrowed x) /\ sign_of G (narrowed x) = sign_of F x.
Proof.
  intros x Hq. pose proof (quiet_low x Hq) as HL. pose proof (shift_high _ HL) as HS. unfold narrowed.
  set (p := (x mod 2 ^ fl F) / 2 ^ (fl F - fl G)) in *. pose proof (gf_fl G HG) as Hf. pose proof (fl_pos G HG) as HP.
  assert (E : sbit G (sign_of F x) + (inf_mag G + p) = pack G (sign_of F x) (expmax G) p) by (unfold pack, inf_mag; lia).
  rewrite E. pose proof (gf_el G HG). assert (HE : 0 <= expmax G < 2 ^ el G) by (unfold expmax; pose proof (pow2_pos (el G)); lia).
  pose proof (pow2_pos (fl G - 1) ltac:(lia)).
  pose proof (pack_pattern G HG HelG (sign_of F x) (expmax G) p HE ltac:(lia)) as PP.
  destruct (pack_fields G HG HelG (sign_of F x) (expmax G) p HE ltac:(lia)) as (P1 & P2 & P3 & P4).
  split; [exact PP|]. split; [|exact P1].
  split.
  - unfold is_nan. rewrite P2. unfold inf_mag. apply Z.ltb_lt. lia.
  - rewrite <- (Z.mod_pow2_bits_low _ (fl G)) by lia. rewrite P4. rewrite Z.testbit_eqb by lia.
    rewrite (pow2_half (fl G)) in HS by lia.
    assert (EQ : p / 2 ^ (fl G - 1) = 1) by (symmetry; apply Z.div_unique with (p - 2 ^ (fl G - 1)); lia).
    rewrite EQ. reflexivity.
Qed.

(** ** The dyadic mantissa of a float has at least B - prec trailing zeros. *)
Lemma dy_of_divide : forall B b, prec F <= B -> is_fin F b = true -> (2 ^ (B - prec F) | dmant (dy_of F B b)).
Proof.
  intros B b HB Hf. unfold prec in *. pose proof (gf_fl F HF). pose proof (fl_pos F HF).
  unfold dy_of. rewrite (explicit_mantissa_eq F HF HelF) by auto.
  assert (HM : 0 <= sig_of F (mag_of F b) < 2 ^ (fl F + 1)).
  { pose proof (sig_exp_spec F HF (mag_of F b) ltac:(apply mag_range; auto)) as S. unfold prec in S. lia. }
  set (m := sig_of F (mag_of F b)) in *. pose proof (pow2_le (fl F + 1) B ltac:(lia)).
  rewrite (wrap_small B m) by (unfold inU; lia). unfold normalize. cbn [dmant dsign dexp].
  destruct (Z.eqb_spec m 0) as [E|E]; cbn [dmant]. { rewrite E. apply Z.divide_0_r. }
  assert (HL : 0 <= Z.log2 m <= fl F) by (split; [apply Z.log2_nonneg|apply Z.lt_succ_r, Z.log2_lt_pow2; [lia|]; replace (Z.succ (fl F)) with (fl F + 1) by lia; lia]).
  rewrite Z.shiftl_mul_pow2 by lia. unfold wrap.
  set (n := B - 1 - Z.log2 m). apply Z.mod_divide; [pose proof (pow2_pos (B - (fl F + 1))); lia|].
  rewrite <- Znumtheory.Zmod_div_mod; [|apply pow2_pos; lia|apply pow2_pos; lia|].
  - replace n with ((fl F - Z.log2 m) + (B - (fl F + 1))) by (unfold n; lia). rewrite Z.pow_add_r by lia.
    rewrite Z.mul_assoc. apply Z.mod_mul. pose proof (pow2_pos (B - (fl F + 1))). lia.
  - exists (2 ^ (fl F + 1)). rewrite <- Z.pow_add_r by lia. f_equal. lia.
Qed.

Lemma rounded_zero : forall rm s, rounded G rm 0 s (f_zero G s).
Proof.
  intros rm s. destruct (f_zero_props G HG s) as (P & Fi & M & S & V).
  unfold rounded. rewrite Req_bool_true by auto. split; [auto|]. split; [auto|].
  rewrite (fround_exact G rm 0) by apply generic_format_0. split; [auto|].
  rewrite Rabs_R0. intros H. pose proof (bpow_gt_0 radix2 (bias G + 1)). lra.
Qed.

Section Mul.
Context (native : bool) (w : Z) (n : nat).
Context (Hw : 2 <= w) (Hm : mul2_width native w) (Hn : (1 <= n)%nat) (HK : Z.of_nat n < 2 ^ w).
Notation B := (w * Z.of_nat n).
Context (HB : 2 * prec F <= B <= 2 ^ 20) (Hb3 : fl G + 3 <= bias G).

Lemma op_mul_fin : forall rm h x y, is_pattern F x -> is_pattern F y -> is_fin F x = true -> is_fin F y = true ->
  rounded G rm (fval F x * fval F y) (xorb (sign_of F x) (sign_of F y)) (op_mul F G rm h native w n x y).
Proof.
  intros rm h x y Px Py Hx Hy. pose proof (gf_fl F HF) as Hf. unfold op_mul.
  rewrite !(fp_is_nan_eq F HF HelF), !(fp_is_inf_eq F HF HelF), !(fp_is_zero_eq F HF), !(fp_sign_eq F HF).
  rewrite (fin_nan F x), (fin_nan F y), (fin_inf F x), (fin_inf F y) by auto. cbn [orb].
  assert (ES : negb (Bool.eqb (sign_of F x) (sign_of F y)) = xorb (sign_of F x) (sign_of F y)) by (destruct (sign_of F x), (sign_of F y); reflexivity).
  rewrite ES.
  destruct (Z.eqb_spec (mag_of F x) 0) as [Zx|Zx].
  { cbn [orb]. rewrite (fp_zero_eq2 G HG HelG). apply (fval_zero F HF x Hx) in Zx. rewrite Zx, Rmult_0_l. apply rounded_zero. }
  destruct (Z.eqb_spec (mag_of F y) 0) as [Zy|Zy].
  { cbn [orb]. rewrite (fp_zero_eq2 G HG HelG). apply (fval_zero F HF y Hy) in Zy. rewrite Zy, Rmult_0_r. apply rounded_zero. }
  cbn [orb]. unfold prec in HB.
  destruct (dy_of_spec F B x HF HelF ltac:(lia) Px Hx) as (X1 & X2 & X3 & X4 & X5).
  destruct (dy_of_spec F B y HF HelF ltac:(lia) Py Hy) as (Y1 & Y2 & Y3 & Y4 & Y5).
  pose proof (dy_of_divide B x ltac:(unfold prec; lia) Hx) as DX. pose proof (dy_of_divide B y ltac:(unfold prec; lia) Hy) as DY.
  pose proof (quick_mul_exact native w n Hw Hm Hn HK _ _ (B - prec F) X3 Y3 X4 Y4 ltac:(unfold prec; lia) DX DY) as QE.
  destruct (quick_mul_spec native w n Hw Hm Hn HK _ _ X3 Y3 X4 Y4) as (Q1 & Q2 & Q3 & Q4 & _).
  set (d := quick_mul native w n (dy_of F B x) (dy_of F B y)) in *.
  pose proof (fast_as_spec G HG HelG Hb3 B ltac:(lia) rm h d) as FS.
  rewrite QE, X1, Y1, Q1, X2, Y2 in FS. apply FS; [|exact Q3]. split; [exact Q2|]. lia.
Qed.

(** Specials. *)
Lemma op_mul_special : forall rm h x y, is_pattern F x -> is_pattern F y ->
  let r := op_mul F G rm h native w n x y in
  (is_nan F x = true \/ is_nan F y = true -> is_pattern G r /\ quiet G r /\
     (quiet F x -> r = narrowed x) /\ (~ quiet F x -> quiet F y -> r = narrowed y)) /\
  (is_inf F x = true /\ mag_of F y = 0 \/ mag_of F x = 0 /\ is_inf F y = true -> r = qnan G) /\
  (is_nan F x = false -> is_nan F y = false -> is_inf F x = true \/ is_inf F y = true -> mag_of F x <> 0 -> mag_of F y <> 0 ->
     r = f_inf G (xorb (sign_of F x) (sign_of F y))).
Proof.
  intros rm h x y Px Py r. unfold r, op_mul.
  rewrite !(fp_is_nan_eq F HF HelF), !(fp_is_inf_eq F HF HelF), !(fp_is_zero_eq F HF), !(fp_sign_eq F HF).
  assert (ES : negb (Bool.eqb (sign_of F x) (sign_of F y)) = xorb (sign_of F x) (sign_of F y)) by (destruct (sign_of F x), (sign_of F y); reflexivity).
  rewrite ES. rewrite (qnan0_eq G HG HelG), (fp_inf_eq G HG HelG).
  assert (ZN : forall z, mag_of F z = 0 -> is_nan F z = false /\ is_inf F z = false).
  { intros z Hz. unfold is_nan, is_inf. rewrite Hz. pose proof (inf_mag_ge F HF). pose proof (fl_pos F HF). split; [apply Z.ltb_ge|apply Z.eqb_neq]; lia. }
  split; [|split].
  - intros HN. replace (is_nan F x || is_nan F y) with true by (symmetry; apply orb_true_iff; auto).
    unfold op_nan. pose proof (quiet_eq F HF HelF x) as QX. pose proof (quiet_eq F HF HelF y) as QY.
    destruct (fp_is_quiet_nan F x) eqn:EX.
    { assert (Q : quiet F x) by (apply QX; auto). rewrite narrow_nan_eq by auto. destruct (narrowed_quiet x Q) as (A1 & A2 & _). tauto. }
    assert (NX : ~ quiet F x) by (rewrite <- QX; discriminate).
    destruct (fp_is_quiet_nan F y) eqn:EY.
    { assert (Q : quiet F y) by (apply QY; auto). rewrite narrow_nan_eq by auto. destruct (narrowed_quiet y Q) as (A1 & A2 & _). tauto. }
    assert (NY : ~ quiet F y) by (rewrite <- QY; discriminate).
    rewrite (qnan0_eq G HG HelG). destruct (qnan_props G HG) as (A1 & A2 & A3).
    split; [auto|]. split; [|tauto]. apply (quiet_eq G HG HelG). rewrite (fp_is_quiet_nan_eq G HG HelG).
    apply Z.leb_le. rewrite (mag_qnan G HG). lia.
  - intros [[H1 H2]|[H1 H2]].
    + rewrite (inf_nan F x H1). destruct (ZN y H2) as [E1 E2]. rewrite E1, H1, H2. reflexivity.
    + rewrite (inf_nan F y H2). destruct (ZN x H1) as [E1 E2]. rewrite E1, E2, H1, H2. reflexivity.
  - intros N1 N2 HI Z1 Z2. rewrite N1, N2. cbn [orb].
    replace (mag_of F x =? 0) with false by lia. replace (mag_of F y =? 0) with false by lia.
    destruct (is_inf F x); [reflexivity|]. destruct HI as [HI|HI]; [discriminate|]. rewrite HI. reflexivity.
Qed.
End Mul.

(** ** cast *)
Lemma bit_ceil_z_ge : forall v, 2 <= v -> v <= bit_ceil_z v < 2 * v.
Proof.
  intros v Hv. unfold bit_ceil_z. pose proof (Z.log2_up_spec v ltac:(lia)) as [H1 H2]. split; [lia|].
  assert (1 <= Z.log2_up v) by (change 1 with (Z.log2_up 2); apply Z.log2_up_le_mono; lia).
  replace (2 ^ Z.log2_up v) with (2 * 2 ^ Z.pred (Z.log2_up v)); [lia|].
  rewrite <- Z.pow_succ_r by lia. f_equal. lia.
Qed.

Lemma op_cast_fin : forall rm h x, fl F <= 2 ^ 20 -> fl G + 3 <= bias G -> fl G < fl F -> width G < width F ->
  is_pattern F x -> is_fin F x = true ->
  rounded G rm (fval F x) (sign_of F x) (op_cast F G rm h x).
Proof.
  intros rm h x HfF Hb3 Hlt Hw Px Hx. pose proof (gf_fl G HG). unfold op_cast.
  replace (width F <=? width G) with false by lia.
  rewrite (fp_is_nan_eq F HF HelF), (fp_is_inf_eq F HF HelF). rewrite (fin_nan F x), (fin_inf F x) by auto.
  replace (Z.max (fl F) (fl G) + 1) with (fl F + 1) by lia.
  pose proof (bit_ceil_z_ge (fl F + 1) ltac:(lia)) as HB. set (B := bit_ceil_z (fl F + 1)) in *.
  destruct (dy_of_spec F B x HF HelF ltac:(lia) Px Hx) as (X1 & X2 & X3 & X4 & X5).
  pose proof (fast_as_spec G HG HelG Hb3 B ltac:(lia) rm h (dy_of F B x)) as FS. rewrite X1, X2 in FS.
  apply FS; [|exact X4]. split; [exact X3|]. lia.
Qed.
Lemma op_cast_special : forall rm h x, fl G < fl F -> width G < width F -> is_pattern F x ->
  let r := op_cast F G rm h x in
  (is_nan F x = true -> is_pattern G r /\ quiet G r /\ (quiet F x -> r = narrowed x)) /\
  (is_inf F x = true -> r = f_inf G (sign_of F x)).
Proof.
  intros rm h x Hlt Hw Px r. unfold r, op_cast. replace (width F <=? width G) with false by lia.
  rewrite (fp_is_nan_eq F HF HelF), (fp_is_inf_eq F HF HelF). rewrite (fp_inf_eq G HG HelG), (fp_sign_eq F HF).
  split.
  - intros HN. rewrite HN. unfold fp_is_signaling_nan. rewrite (fp_is_nan_eq F HF HelF), HN. cbn [andb].
    pose proof (quiet_eq F HF HelF x) as QX. destruct (fp_is_quiet_nan F x) eqn:EX; cbn [negb].
    + assert (Q : quiet F x) by (apply QX; auto). replace (fl G <? fl F) with true by lia.
      pose proof (narrow_nan_eq x Q) as NE. unfold narrow_nan in NE. rewrite (fp_sign_eq F HF) in NE. rewrite NE.
      destruct (narrowed_quiet x Q) as (A1 & A2 & _). tauto.
    + assert (NX : ~ quiet F x) by (rewrite <- QX; discriminate).
      rewrite (qnan0_eq G HG HelG). destruct (qnan_props G HG) as (A1 & A2 & A3).
      split; [auto|]. split; [|tauto]. apply (quiet_eq G HG HelG). rewrite (fp_is_quiet_nan_eq G HG HelG).
      apply Z.leb_le. rewrite (mag_qnan G HG). lia.
  - intros HI. rewrite (inf_nan F x HI), HI. reflexivity.
Qed.
End Ops.
