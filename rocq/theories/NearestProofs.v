(** * Proofs about trunc, floor, ceil, round, rint *)
From Coq Require Import ZArith Lia Bool Reals Lra.
From Flocq Require Import Core Bracket Round.
From Verif Require Import MachInt Bits BitsSpec BitsProofs Fmt FloatSpec FmtProofs RoundProofs FOps FOpsProofs ExactOps FPBits FPBitsProofs Compare CompareProofs Nearest.
Open Scope Z_scope.

Definition irnd (dm : imode) : R -> Z := match dm with IM rm => rnd rm | IFromZero => ZnearestA end.
Global Instance valid_irnd : forall dm, Valid_rnd (irnd dm).
Proof. intros [[| | |]|]; simpl; auto with typeclass_instances. Qed.

Definition incr (dm : imode) (s : bool) (q : Z) (l : location) : bool :=
  match dm with
  | IM RNE => round_N (negb (Z.even q)) l
  | IM RDN => round_sign_DN s l
  | IM RUP => round_sign_UP s l
  | IM RZR => false
  | IFromZero => round_N true l
  end.
Lemma irnd_inbetween : forall dm x q l, inbetween_int q (Rabs x) l ->
  irnd dm x = cond_Zopp (Rlt_bool x 0) (cond_incr (incr dm (Rlt_bool x 0) q l) q).
Proof.
  intros [[| | |]|] x q l H; simpl.
  - apply inbetween_int_NE_sign; auto.
  - apply inbetween_int_DN_sign; auto.
  - apply inbetween_int_UP_sign; auto.
  - apply inbetween_int_ZR_sign with (1 := H).
  - apply inbetween_int_NA_sign; auto.
Qed.

Section N.
Context (F : fmt) (HF : good_fmt F) (Hel : el F <= 16).

(** What an integer-valued result must be. *)
Definition intres (b z r : Z) : Prop :=
  is_pattern F r /\ is_fin F r = true /\ sign_of F r = sign_of F b /\ fval F r = IZR z.

Lemma clear_low_eq : forall m n, 0 <= m < 2 ^ fl F -> 0 <= n -> clear_low F m n = m - m mod 2 ^ n.
Proof.
  intros m n Hm Hn. unfold clear_low. rewrite Z.shiftr_div_pow2, Z.shiftl_mul_pow2 by auto.
  pose proof (pow2_pos n Hn). pose proof (Z.div_mod m (2 ^ n) ltac:(lia)). pose proof (Z.mod_pos_bound m (2 ^ n) ltac:(lia)).
  assert (E : m / 2 ^ n * 2 ^ n = m - m mod 2 ^ n) by lia. rewrite E. apply wrap_small. unfold inU.
  pose proof (Z.mod_le m (2 ^ n) ltac:(lia) ltac:(lia)).
  pose proof (pow2_lt (fl F) (width F) ltac:(unfold width; pose proof (gf_fl F HF); pose proof (gf_el F HF); lia) ltac:(unfold width; pose proof (gf_el F HF); lia)). lia.
Qed.

Lemma exp_range : forall b, 0 <= mag_of F b / 2 ^ fl F <= expmax F.
Proof. intros. destruct (mag_div F HF b) as (_ & _ & R). exact R. Qed.

(** A normal number through its fields. *)
Lemma normal_val : forall b E m, 1 <= E < expmax F -> 0 <= m < 2 ^ fl F -> mag_of F b = E * 2 ^ fl F + m ->
  is_fin F b = true /\ fval F b = (sg (sign_of F b) * (IZR (2 ^ fl F + m) * bpow radix2 (E - bias F - fl F)))%R.
Proof.
  intros b E m HE Hm HM. pose proof (fl_pos F HF).
  assert (Hf : is_fin F b = true) by (unfold is_fin, inf_mag; rewrite HM; apply Z.ltb_lt; nia).
  split; auto. rewrite fval_fin by auto. f_equal. rewrite HM.
  replace (E * 2 ^ fl F + m) with (enc F (2 ^ fl F + m) (E - bias F - fl F)) by (unfold enc, emin; ring).
  apply mval_enc; auto; try (unfold emin; lia); rewrite (prec_split F HF); lia.
Qed.

Lemma trunc_core : forall b, is_pattern F b -> is_fin F b = true ->
  let e := get_exponent F b in let k := fl F - e in let m := get_mantissa F b in let N := 2 ^ fl F + m in
  let t := set_mantissa F b (clear_low F m k) in
  0 <= e < fl F ->
  is_pattern F t /\ is_fin F t = true /\ sign_of F t = sign_of F b /\
  fval F t = (sg (sign_of F b) * IZR (N / 2 ^ k))%R /\
  fval F b = (sg (sign_of F b) * (IZR N * bpow radix2 (- k)))%R /\
  N mod 2 ^ k = m mod 2 ^ k /\ 2 ^ fl F <= N < 2 ^ prec F /\ get_mantissa F t = m - m mod 2 ^ k /\ 0 <= m < 2 ^ fl F /\
  2 ^ e <= N / 2 ^ k < 2 ^ (e + 1).
Proof.
  intros b Hb Hf e k m N t He. pose proof (fl_pos F HF) as HP. pose proof (gf_fl F HF).
  assert (He' : e = mag_of F b / 2 ^ fl F - bias F) by (apply get_exponent_eq; auto).
  assert (Hm' : m = mag_of F b mod 2 ^ fl F) by (unfold m; rewrite get_mantissa_eq, field_mod by auto; auto).
  assert (Hm : 0 <= m < 2 ^ fl F) by (rewrite Hm'; apply Z.mod_pos_bound; auto).
  set (E := mag_of F b / 2 ^ fl F) in *.
  assert (HM : mag_of F b = E * 2 ^ fl F + m) by (rewrite Hm'; unfold E; rewrite Z.mul_comm; apply Z.div_mod; lia).
  assert (HE : 1 <= E < expmax F).
  { pose proof (gf_bias F HF). rewrite (expmax_bias F HF). lia. }
  assert (Hk : 0 < k <= fl F) by (unfold k; lia). pose proof (pow2_pos k ltac:(lia)) as HK.
  assert (Hdiv : 2 ^ fl F = 2 ^ k * 2 ^ (fl F - k)) by (apply pow2_split; lia).
  assert (HNm : N mod 2 ^ k = m mod 2 ^ k).
  { unfold N. rewrite Hdiv, Z.add_comm, Z.mul_comm. apply Z.mod_add. lia. }
  pose proof (Z.div_mod N (2 ^ k) ltac:(lia)) as HN. pose proof (Z.mod_pos_bound m (2 ^ k) HK) as Hmk.
  pose proof (Z.mod_le m (2 ^ k) ltac:(lia) ltac:(lia)) as Hml.
  assert (Ht : t = pack F (sign_of F b) E (m - m mod 2 ^ k)).
  { unfold t. rewrite clear_low_eq by (auto; lia). rewrite (set_mantissa_eq F HF) by auto. rewrite (Z.mod_small (m - _)) by lia.
    rewrite (field_div F HF). reflexivity. }
  assert (HE2 : 0 <= E < 2 ^ el F) by (unfold expmax in HE; lia).
  destruct (pack_fields F HF Hel (sign_of F b) E (m - m mod 2 ^ k) HE2 ltac:(lia)) as (T1 & T2 & T3 & T4).
  assert (HNr : 2 ^ fl F <= N < 2 ^ prec F) by (rewrite (prec_split F HF); unfold N; lia).
  destruct (normal_val t E (m - m mod 2 ^ k) HE ltac:(lia)) as (FT & VT); [rewrite Ht; auto|].
  destruct (normal_val b E m HE Hm HM) as (_ & VB).
  replace (E - bias F - fl F) with (- k) in VT, VB by (unfold k; lia).
  split; [rewrite Ht; apply pack_pattern; auto; lia|]. split; auto. split; [rewrite Ht; auto|].
  split.
  { rewrite VT. rewrite Ht, T1. f_equal. fold N. replace (2 ^ fl F + (m - m mod 2 ^ k)) with (N / 2 ^ k * 2 ^ k) by (unfold N in *; lia).
    rewrite mult_IZR, <- bpow_IZR, Rmult_assoc, <- bpow_plus by lia. replace (k + - k) with 0 by lia. simpl. ring. }
  split; [rewrite VB; f_equal|]. split; auto. split; auto. split.
  { rewrite get_mantissa_eq by auto. rewrite Ht. auto. }
  split; auto.
  replace (fl F - k) with e in Hdiv by (unfold k; lia).
  assert (Hd2 : 2 ^ prec F = 2 ^ k * 2 ^ (e + 1)) by (rewrite (prec_split F HF), pow2_succ by lia; lia).
  split; [apply Z.div_le_lower_bound; lia|apply Z.div_lt_upper_bound; lia].
Qed.

(** Adding one away from zero is exact. *)
Lemma away_one : forall rm t s q, is_pattern F t -> is_fin F t = true -> sign_of F t = s -> fval F t = (sg s * IZR q)%R ->
  0 <= q < 2 ^ prec F ->
  let r := if s then f_sub F rm t (f_one F false) else f_add F rm t (f_one F false) in
  is_pattern F r /\ is_fin F r = true /\ sign_of F r = s /\ fval F r = (sg s * IZR (q + 1))%R.
Proof.
  intros rm t s q Ht Hf Hs Hv Hq r. destruct (f_one_props F HF false) as (P1 & F1 & S1 & V1 & M1).
  assert (G : generic_format radix2 (FLT_exp (emin F) (prec F)) (sg s * IZR (q + 1))%R).
  { pose proof (format_int F HF (q + 1) ltac:(lia)) as G. unfold sg. destruct s; [|rewrite Rmult_1_l; auto].
    replace (-1 * IZR (q + 1))%R with (- IZR (q + 1))%R by ring. apply generic_format_opp; auto. }
  assert (B : (Rabs (sg s * IZR (q + 1)) < bpow radix2 (bias F + 1))%R) by (rewrite Rabs_sg; apply int_bound; auto; lia).
  assert (NZ : (0 < IZR (q + 1))%R) by (apply IZR_lt; lia).
  assert (R : exists zs, rounded F rm (sg s * IZR (q + 1)) zs r).
  { unfold r. destruct s.
    - pose proof (f_sub_spec F HF rm t (f_one F false) P1 Hf F1) as R. rewrite Hv, V1 in R.
      eexists. replace (sg true * IZR (q + 1))%R with (sg true * IZR q - sg false)%R; eauto. rewrite plus_IZR. unfold sg. ring.
    - pose proof (f_add_spec F HF rm t (f_one F false) Hf F1) as R. rewrite Hv, V1 in R.
      eexists. replace (sg false * IZR (q + 1))%R with (sg false * IZR q + sg false)%R; eauto. rewrite plus_IZR. unfold sg. ring. }
  destruct R as [zs R]. destruct (rounded_repr F rm _ zs r G B R) as (A1 & A2 & A3 & A4).
  split; auto. split; auto. split; auto. rewrite A4. rewrite Req_bool_false.
  - unfold sg. destruct s; [apply Rlt_bool_true|apply Rlt_bool_false]; lra.
  - intros Z. apply Rmult_integral in Z. destruct Z as [Z|Z]; [eapply sg_nz; eauto|lra].
Qed.

(** Fixed points: the number is already an integer. *)
Lemma int_self : forall dm b z, is_pattern F b -> is_fin F b = true -> fval F b = IZR z ->
  intres b (irnd dm (fval F b)) b.
Proof. intros dm b z Pb Hf Hv. unfold intres. rewrite Hv, Zrnd_IZR by apply valid_irnd. auto. Qed.
Lemma big_int : forall b, is_pattern F b -> is_fin F b = true -> fl F <= get_exponent F b -> exists z, fval F b = IZR z.
Proof.
  intros b Hb Hf He. pose proof (fl_pos F HF). pose proof (gf_fl F HF). pose proof (bias_ge2 F HF).
  rewrite get_exponent_eq in He by auto. set (E := mag_of F b / 2 ^ fl F) in *.
  pose proof (Z.mod_pos_bound (mag_of F b) (2 ^ fl F) ltac:(lia)).
  assert (HM : mag_of F b = E * 2 ^ fl F + mag_of F b mod 2 ^ fl F) by (unfold E; rewrite Z.mul_comm; apply Z.div_mod; lia).
  destruct (normal_val b E (mag_of F b mod 2 ^ fl F)) as (_ & V); auto.
  { unfold is_fin, inf_mag in Hf. apply Z.ltb_lt in Hf. nia. }
  exists (szval (sign_of F b) ((2 ^ fl F + mag_of F b mod 2 ^ fl F) * 2 ^ (E - bias F - fl F))).
  rewrite V, sg_sz, mult_IZR, <- bpow_IZR by lia. ring.
Qed.

(** Numbers below one in magnitude. *)
Lemma small_val : forall b, is_pattern F b -> is_fin F b = true -> mag_of F b <> 0 -> get_exponent F b <= -1 ->
  (0 < Rabs (fval F b) < 1)%R /\
  Rcompare (Rabs (fval F b)) (/ 2) =
    if get_exponent F b <=? -2 then Lt else if get_mantissa F b =? 0 then Eq else Gt.
Proof.
  intros b Hb Hf Hz He. pose proof (mag_range F HF b). pose proof (fl_pos F HF) as HP. pose proof (bias_ge2 F HF).
  rewrite get_exponent_eq, get_mantissa_eq, field_mod in * by auto. rewrite Rabs_fval by auto.
  set (a := mag_of F b) in *. set (E := a / 2 ^ fl F) in *.
  pose proof (Z.mod_pos_bound a (2 ^ fl F) ltac:(lia)).
  assert (HM : a = E * 2 ^ fl F + a mod 2 ^ fl F) by (unfold E; rewrite Z.mul_comm; apply Z.div_mod; lia).
  assert (HE : 0 <= E) by (apply Z.div_pos; lia).
  destruct (f_one_props F HF false) as (_ & F1 & S1 & V1 & M1).
  destruct (f_pow2_props F HF false (-1) ltac:(lia)) as (_ & F2 & S2 & V2 & M2).
  rewrite fval_fin, S1, M1 in V1 by auto. rewrite fval_fin, S2, M2 in V2 by auto. unfold sg in *. rewrite Rmult_1_l in *.
  assert (V1' : mval F (bias F * 2 ^ fl F) = 1%R) by lra. 
  assert (V2' : mval F ((bias F + -1) * 2 ^ fl F) = (/ 2)%R) by (rewrite V2; simpl; lra).
  split.
  - split; [apply mval_pos; auto; lia|]. rewrite <- V1'. apply mval_lt; auto; nia.
  - rewrite <- V2'. destruct (Z.leb_spec (E - bias F) (-2)); [|destruct (Z.eqb_spec (a mod 2 ^ fl F) 0)].
    + apply Rcompare_Lt. apply mval_lt; auto; nia.
    + apply Rcompare_Eq. f_equal. nia.
    + apply Rcompare_Gt. apply mval_lt; auto; nia.
Qed.

Lemma small_inbetween : forall b, is_pattern F b -> is_fin F b = true -> mag_of F b <> 0 -> get_exponent F b <= -1 ->
  inbetween_int 0 (Rabs (fval F b)) (loc_Inexact (if get_exponent F b <=? -2 then Lt else if get_mantissa F b =? 0 then Eq else Gt)).
Proof.
  intros b Hb Hf Hz He. destruct (small_val b Hb Hf Hz He) as (R & C).
  apply inbetween_Inexact; auto. rewrite <- C. f_equal. simpl. lra.
Qed.
Lemma zero_intres : forall b, intres b 0 (f_zero F (sign_of F b)).
Proof. intros b. destruct (f_zero_props F HF (sign_of F b)) as (A & B & C & D & E). unfold intres. auto. Qed.
Lemma one_intres : forall b s, s = sign_of F b -> intres b (szval s 1) (f_one F s).
Proof. intros b s ->. destruct (f_one_props F HF (sign_of F b)) as (A & B & C & D & E). unfold intres. rewrite sg_sz, Rmult_1_r. auto. Qed.
Lemma cond_Zopp_sz : forall s z, cond_Zopp s z = szval s z.
Proof. intros [|] z; reflexivity. Qed.
Lemma fin_nz_sign : forall b, is_fin F b = true -> mag_of F b <> 0 -> Rlt_bool (fval F b) 0 = sign_of F b.
Proof. intros b Hf Hz. symmetry. apply sign_fval; auto. intros H. apply Hz. apply (fval_zero F HF); auto. Qed.
Lemma zero_self : forall dm b, is_pattern F b -> is_fin F b = true -> mag_of F b = 0 -> intres b (irnd dm (fval F b)) b.
Proof. intros dm b Hb Hf Hz. apply int_self with 0; auto. apply (fval_zero F HF); auto. Qed.

Theorem directional_round_fin : forall rm dm b, is_pattern F b -> is_fin F b = true ->
  intres b (irnd dm (fval F b)) (directional_round F rm dm b).
Proof.
  intros rm dm b Hb Hf. unfold directional_round, fp_is_inf_or_nan.
  rewrite fp_is_finite_eq, fp_is_zero_eq, fp_sign_eq, Hf by auto. simpl negb. rewrite orb_false_l.
  destruct (Z.eqb_spec (mag_of F b) 0) as [Hz|Hz]; [apply zero_self; auto|].
  set (e := get_exponent F b). destruct (Z.leb_spec (fl F) e) as [He|He].
  { destruct (big_int b Hb Hf He) as [z Hv]. apply int_self with z; auto. }
  destruct (Z.leb_spec e (-1)) as [He1|He1].
  - pose proof (small_inbetween b Hb Hf Hz He1) as HI.
    rewrite (irnd_inbetween dm _ _ _ HI). rewrite fin_nz_sign by auto. rewrite cond_Zopp_sz. fold e.
    assert (SZ : szval (sign_of F b) 0 = 0) by (destruct (sign_of F b); reflexivity).
    assert (Z0 : intres b (szval (sign_of F b) 0) (f_zero F (sign_of F b))) by (rewrite SZ; apply zero_intres).
    assert (O1 : intres b (szval (sign_of F b) 1) (f_one F (sign_of F b))) by (apply one_intres; auto).
    destruct dm as [[| | |]|]; cbn [incr].
    + destruct (Z.leb_spec e (-2)); cbn [orb]; [|destruct (Z.eqb_spec (get_mantissa F b) 0)]; cbn; auto.
    + destruct (sign_of F b); cbn; auto.
    + destruct (sign_of F b); cbn; auto.
    + cbn. auto.
    + replace (e <? -1) with (e <=? -2) by (destruct (Z.leb_spec e (-2)), (Z.ltb_spec e (-1)); lia).
      destruct (Z.leb_spec e (-2)); cbn [orb]; [|destruct (Z.eqb_spec (get_mantissa F b) 0)]; cbn; auto.
  - destruct (trunc_core b Hb Hf) as (T1 & T2 & T3 & T4 & T5 & T6 & T7 & T8 & T9 & T10); [fold e; lia|]. fold e in T1, T2, T3, T4, T5, T6, T7, T8, T10.
    set (k := fl F - e) in *. set (m := get_mantissa F b) in *. set (N := 2 ^ fl F + m) in *.
    set (t := set_mantissa F b (clear_low F m k)) in *. set (s := sign_of F b) in *.
    pose proof (gf_fl F HF). pose proof (gf_el F HF).
    assert (Hk : 1 <= k <= fl F) by (unfold k; lia). pose proof (pow2_pos k ltac:(lia)) as HK.
    set (q := N / 2 ^ k) in *. set (r := N mod 2 ^ k) in *.
    assert (Hr : 0 <= r < 2 ^ k) by (apply Z.mod_pos_bound; auto).
    assert (HN : N = 2 ^ k * q + r) by (apply Z.div_mod; lia).
    assert (HI : inbetween_int q (Rabs (fval F b)) (locof (2 * r) (2 ^ k))).
    { rewrite T5, Rabs_sg, Rabs_pos_eq.
      2:{ apply Rmult_le_pos; [apply IZR_le; pose proof (fl_pos F HF); lia|apply bpow_ge_0]. }
      pose proof (inbetween_drop N (- k) k false (IZR N * bpow radix2 (- k)) ltac:(pose proof (fl_pos F HF); lia) ltac:(lia) eq_refl ltac:(discriminate)) as HI.
      cbn [b2z] in HI. rewrite Z.add_0_r in HI. unfold inbetween_float, F2R in HI. replace (- k + k) with 0 in HI by lia. cbn [Fnum Fexp bpow] in HI.
      rewrite !Rmult_1_r in HI. exact HI. }
    assert (Etb : f_eq F t b = (r =? 0)).
    { rewrite f_eq_fin by auto. rewrite T4, T5. destruct (Z.eqb_spec r 0) as [E|E].
      - apply Req_bool_true. f_equal. rewrite HN, E, Z.add_0_r, mult_IZR, <- bpow_IZR by lia.
        rewrite (Rmult_comm (bpow _ k)), Rmult_assoc, <- bpow_plus. replace (k + - k) with 0 by lia. simpl. ring.
      - apply Req_bool_false. intros HE. apply Rmult_eq_reg_l in HE; [|apply sg_nz].
        apply E. assert (IZR (q * 2 ^ k) = IZR N)%R.
        { rewrite mult_IZR, HE, <- bpow_IZR, Rmult_assoc, <- bpow_plus by lia. replace (- k + k) with 0 by lia. simpl. ring. }
        apply eq_IZR in H1. lia. }
    rewrite Etb. destruct (Z.eqb_spec r 0) as [E|E].
    { apply int_self with (szval s q); auto. rewrite f_eq_fin in Etb by auto. 
      destruct (Req_bool_spec (fval F t) (fval F b)); [|congruence]. rewrite <- H1, T4, sg_sz. reflexivity. }
    rewrite (irnd_inbetween dm _ _ _ HI). rewrite fin_nz_sign by auto. fold s. rewrite cond_Zopp_sz.
    assert (Hq : 0 <= q < 2 ^ prec F).
    { pose proof (pow2_pos e ltac:(lia)). pose proof (pow2_le (e + 1) (prec F) ltac:(unfold prec; lia)). lia. }
    assert (TR : intres b (szval s q) t) by (unfold intres; rewrite sg_sz; auto).
    assert (AW : intres b (szval s (q + 1)) (if s then f_sub F rm t (f_one F false) else f_add F rm t (f_one F false))).
    { unfold intres. rewrite sg_sz. apply away_one; auto. }
    assert (W1 : wrap (width F) (Z.shiftl 1 k) = 2 ^ k).
    { rewrite Z.shiftl_mul_pow2, Z.mul_1_l by lia. apply wrap_small. unfold inU. pose proof (pow2_lt k (width F) ltac:(unfold width; lia) ltac:(unfold width; lia)). lia. }
    assert (W2 : wrap (width F) (Z.shiftl 1 (k - 1)) = 2 ^ (k - 1)).
    { rewrite Z.shiftl_mul_pow2, Z.mul_1_l by lia. apply wrap_small. unfold inU. pose proof (pow2_pos (k - 1) ltac:(lia)). pose proof (pow2_lt (k - 1) (width F) ltac:(unfold width; lia) ltac:(unfold width; lia)). lia. }
    assert (W3 : wrap (width F) (2 ^ k - 1) = 2 ^ k - 1).
    { apply wrap_small. unfold inU. pose proof (pow2_lt k (width F) ltac:(unfold width; lia) ltac:(unfold width; lia)). lia. }
    rewrite W1, W2, W3, land_low by lia. rewrite <- T6. fold r.
    assert (HH : 2 ^ k = 2 * 2 ^ (k - 1)) by (apply pow2_half; lia).
    unfold locof. replace (2 * r =? 0) with false by lia.
    destruct dm as [[| | |]|]; cbn [incr].
    + (* nearest even *)
      destruct (Z.ltb_spec (2 ^ (k - 1)) r) as [C|C].
      { replace (2 * r ?= 2 ^ k) with Gt by (symmetry; apply Z.compare_gt_iff; lia). exact AW. }
      destruct (Z.eqb_spec r (2 ^ (k - 1))) as [C2|C2].
      2:{ replace (2 * r ?= 2 ^ k) with Lt by (symmetry; apply Z.compare_lt_iff; lia). exact TR. }
      replace (2 * r ?= 2 ^ k) with Eq by (symmetry; apply Z.compare_eq_iff; lia). cbn [round_N].
      destruct (Z.eqb_spec e 0) as [E0|E0].
      * (* q = 1 *)
        rewrite E0 in T10. change (2 ^ 0) with 1 in T10. change (2 ^ (0 + 1)) with 2 in T10. assert (Hq1 : q = 1) by lia. rewrite Hq1.
        cbn [Z.even negb cond_incr].
        destruct (f_pow2_props F HF s 1 ltac:(pose proof (bias_ge2 F HF); lia)) as (X1 & X2 & X3 & X4 & X5).
        unfold intres. split; auto. split; auto. split; auto. rewrite X4, sg_sz. reflexivity.
      * (* parity of the quotient is a mantissa bit *)
        assert (HO : negb (Z.land (get_mantissa F t) (2 ^ k) =? 0) = negb (Z.even q)).
        { f_equal. rewrite T8. rewrite <- (Z.mul_1_l (2 ^ k)) at 2. change 1 with (2 ^ 1 - 1) at 1. rewrite land_field by lia.
          assert (Hmq : m - m mod 2 ^ k = 2 ^ k * (q - 2 ^ (fl F - k))).
          { pose proof (pow2_split k (fl F) ltac:(lia)). rewrite <- T6. fold r. unfold N in HN. lia. }
          rewrite Hmq, (Z.mul_comm (2 ^ k)), Z.div_mul by lia. change (2 ^ 1) with 2.
          rewrite Zeven_mod. unfold Zeq_bool.
          assert (Hp2 : 2 ^ (fl F - k) mod 2 = 0).
          { replace (fl F - k) with e by (unfold k; lia). rewrite (pow2_half e) by lia. rewrite Z.mul_comm. apply Z.mod_mul. lia. }
          rewrite Zminus_mod, Hp2, Z.sub_0_r, Z.mod_mod by lia.
          pose proof (Z.mod_pos_bound q 2 ltac:(lia)). destruct (Z.eqb_spec (q mod 2 * 2 ^ k) 0) as [P|P]; destruct (Z.compare_spec (q mod 2) 0) as [P2|P2|P2]; auto; exfalso; nia. }
        rewrite HO. destruct (Z.even q); cbn; auto.
    + destruct s; cbn; [exact AW|exact TR].
    + destruct s; cbn; [exact TR|exact AW].
    + exact TR.
    + destruct (Z.leb_spec (2 ^ (k - 1)) r) as [C|C].
      * destruct (Z.compare_spec (2 * r) (2 ^ k)); cbn; auto. lia.
      * replace (2 * r ?= 2 ^ k) with Lt by (symmetry; apply Z.compare_lt_iff; lia). exact TR.
Qed.

(** ** trunc, floor, ceil, round, rint *)
Lemma fp_zero_eq : forall s, fp_zero F s = f_zero F s.
Proof.
  intros s. unfold fp_zero. rewrite encode_eq by auto. rewrite biased_sub, Z.mod_0_l by (pose proof (fl_pos F HF); lia).
  unfold pack, f_zero. lia.
Qed.
Lemma exp_lt_fl : forall b, is_fin F b = true -> get_exponent F b < fl F -> (Rabs (fval F b) < bpow radix2 (fl F))%R.
Proof.
  intros b Hf He. rewrite get_exponent_eq in He by auto. rewrite Rabs_fval by auto.
  pose proof (gf_bias F HF). pose proof (gf_fl F HF). pose proof (fl_pos F HF). pose proof (mag_range F HF b).
  destruct (f_pow2_props F HF false (fl F) ltac:(lia)) as (_ & F1 & S1 & V1 & M1).
  rewrite fval_fin, S1, M1 in V1 by auto. unfold sg in V1. rewrite !Rmult_1_l in V1. rewrite <- V1.
  apply mval_lt; auto; [lia|nia|]. pose proof (Z.div_lt_upper_bound (mag_of F b) (2 ^ fl F) (bias F + fl F)).
  pose proof (Z.mul_succ_div_gt (mag_of F b) (2 ^ fl F) ltac:(lia)). nia.
Qed.
Lemma trunc_dir : forall rm b, is_pattern F b -> is_fin F b = true -> cc_trunc F b = directional_round F rm (IM RZR) b.
Proof.
  intros rm b Hb Hf. unfold cc_trunc, directional_round, fp_is_inf_or_nan.
  rewrite fp_is_finite_eq, fp_is_zero_eq, f_eq_zero, Hf, fp_zero_eq by auto. cbn [negb orb].
  destruct (mag_of F b =? 0); auto.
  destruct (Z.leb_spec (fl F) (get_exponent F b)) as [He|He]; auto.
  destruct (Z.leb_spec (get_exponent F b) (-1)) as [He1|He1]; auto.
  destruct (trunc_core b Hb Hf ltac:(lia)) as (T1 & T2 & T3 & _).
  destruct (f_eq F _ b) eqn:E; auto. apply (fval_inj F HF); auto. rewrite (f_eq_fin F HF) in E by auto.
  destruct (Req_bool_spec (fval F (set_mantissa F b (clear_low F (get_mantissa F b) (fl F - get_exponent F b)))) (fval F b)); congruence.
Qed.
Lemma nonfin : forall b, is_fin F b = false -> is_inf F b = true \/ is_nan F b = true.
Proof. intros b H. destruct (class_cases F b) as [?|[?|?]]; auto. congruence. Qed.

Theorem trunc_fin : forall b, is_pattern F b -> is_fin F b = true -> intres b (Ztrunc (fval F b)) (cc_trunc F b).
Proof. intros b Hb Hf. rewrite (trunc_dir RNE) by auto. apply (directional_round_fin RNE (IM RZR)); auto. Qed.
Theorem trunc_special : forall b, is_fin F b = false -> cc_trunc F b = b.
Proof. intros b H. unfold cc_trunc, fp_is_inf_or_nan. rewrite fp_is_finite_eq, H by auto. reflexivity. Qed.
Theorem dir_special : forall rm dm b, is_fin F b = false -> directional_round F rm dm b = b.
Proof. intros rm dm b H. unfold directional_round, fp_is_inf_or_nan. rewrite fp_is_finite_eq, H by auto. reflexivity. Qed.

Lemma guard_eq : forall b, cc_isinf F b || f_eq F b 0 || cc_isnan F b = (negb (is_fin F b) || (mag_of F b =? 0)).
Proof.
  intros b. rewrite isinf_eq, isnan_eq, f_eq_zero by auto.
  unfold is_inf, is_fin, is_nan. pose proof (inf_mag_pos F HF).
  destruct (Z.eqb_spec (mag_of F b) (inf_mag F)), (Z.eqb_spec (mag_of F b) 0), (Z.ltb_spec (inf_mag F) (mag_of F b)), (Z.ltb_spec (mag_of F b) (inf_mag F)); auto; lia.
Qed.
(** Below 2^fl, |trunc x| fits. *)
Lemma trunc_bound : forall b, is_pattern F b -> is_fin F b = true -> f_eq F (cc_trunc F b) b = false -> Z.abs (Ztrunc (fval F b)) < 2 ^ prec F.
Proof.
  intros b Hb Hf Hne. pose proof (gf_fl F HF).
  assert (He : get_exponent F b < fl F).
  { apply Z.nle_gt. intros He. unfold cc_trunc, fp_is_inf_or_nan in Hne. rewrite fp_is_finite_eq, Hf in Hne by auto. cbn [negb] in Hne.
    replace (fl F <=? get_exponent F b) with true in Hne by lia.
    rewrite f_eq_fin, Req_bool_true in Hne by (destruct (f_eq F b 0); auto). congruence. }
  pose proof (exp_lt_fl b Hf He) as HB. rewrite <- Ztrunc_abs. apply Z.lt_le_trans with (2 ^ fl F).
  2:{ apply pow2_le. unfold prec. lia. }
  apply lt_IZR. rewrite <- bpow_IZR by lia. apply Rle_lt_trans with (2 := HB).
  rewrite Ztrunc_floor by apply Rabs_pos. apply Zfloor_lb.
Qed.
Theorem floor_fin : forall rm b, is_pattern F b -> is_fin F b = true -> intres b (Zfloor (fval F b)) (cc_floor F rm b).
Proof.
  intros rm b Hb Hf. unfold cc_floor. rewrite guard_eq, Hf. cbn [negb orb].
  destruct (Z.eqb_spec (mag_of F b) 0) as [Hz|Hz]; [apply (zero_self (IM RDN)); auto|].
  destruct (trunc_fin b Hb Hf) as (T1 & T2 & T3 & T4). destruct (f_zero_props F HF false) as (_ & FZ & _ & _ & VZ). change (f_zero F false) with 0 in *.
  rewrite f_gt_fin, VZ by auto.
  destruct (f_eq F (cc_trunc F b) b) eqn:E; cbn [orb].
  { rewrite f_eq_fin in E by auto. destruct (Req_bool_spec (fval F (cc_trunc F b)) (fval F b)) as [E2|]; [|congruence].
    unfold intres. split; auto. split; auto. split; auto. rewrite T4 in E2. rewrite <- E2, Zfloor_IZR. congruence. }
  destruct (Rlt_bool_spec 0 (fval F b)) as [Hp|Hp].
  { unfold intres. rewrite Ztrunc_floor in T4 by lra. auto. }
  assert (Hn : (fval F b < 0)%R). { destruct Hp; auto. exfalso. apply Hz, (fval_zero F HF); auto. }
  pose proof (trunc_bound b Hb Hf E) as HB.
  assert (Hs : sign_of F b = true) by (rewrite sign_fval by (auto; lra); apply Rlt_bool_true; auto).
  rewrite Ztrunc_ceil in T4 by lra. rewrite Ztrunc_ceil in HB by lra.
  destruct (away_one rm (cc_trunc F b) true (- Zceil (fval F b))) as (A1 & A2 & A3 & A4); auto; try congruence.
  { rewrite T4, opp_IZR. unfold sg. ring. }
  { assert (Zceil (fval F b) <= 0) by (apply Zceil_glb; lra). lia. }
  unfold intres. split; auto. split; auto. split; [congruence|]. cbn iota in A4. rewrite A4.
  assert (Hc : Zceil (fval F b) = Zfloor (fval F b) + 1).
  { apply Zceil_floor_neq. intros Hx. rewrite f_eq_fin in E by auto. rewrite T4 in E.
    rewrite Req_bool_true in E; [congruence|]. rewrite <- Hx at 2. rewrite <- Hx at 1. rewrite Zceil_IZR. reflexivity. }
  rewrite Hc. rewrite plus_IZR, opp_IZR, plus_IZR. unfold sg. ring.
Qed.
Theorem ceil_fin : forall rm b, is_pattern F b -> is_fin F b = true -> intres b (Zceil (fval F b)) (cc_ceil F rm b).
Proof.
  intros rm b Hb Hf. unfold cc_ceil. rewrite guard_eq, Hf. cbn [negb orb].
  destruct (Z.eqb_spec (mag_of F b) 0) as [Hz|Hz]; [apply (zero_self (IM RUP)); auto|].
  destruct (trunc_fin b Hb Hf) as (T1 & T2 & T3 & T4). destruct (f_zero_props F HF false) as (_ & FZ & _ & _ & VZ). change (f_zero F false) with 0 in *.
  rewrite f_lt_fin, VZ by auto.
  destruct (f_eq F (cc_trunc F b) b) eqn:E; cbn [orb].
  { rewrite f_eq_fin in E by auto. destruct (Req_bool_spec (fval F (cc_trunc F b)) (fval F b)) as [E2|]; [|congruence].
    unfold intres. split; auto. split; auto. split; auto. rewrite T4 in E2. rewrite <- E2, Zceil_IZR. congruence. }
  destruct (Rlt_bool_spec (fval F b) 0) as [Hp|Hp].
  { unfold intres. rewrite Ztrunc_ceil in T4 by lra. auto. }
  assert (Hn : (0 < fval F b)%R). { destruct Hp; auto. exfalso. apply Hz, (fval_zero F HF); auto. }
  pose proof (trunc_bound b Hb Hf E) as HB.
  assert (Hs : sign_of F b = false) by (rewrite sign_fval by (auto; lra); apply Rlt_bool_false; lra).
  rewrite Ztrunc_floor in T4 by lra. rewrite Ztrunc_floor in HB by lra.
  destruct (away_one rm (cc_trunc F b) false (Zfloor (fval F b))) as (A1 & A2 & A3 & A4); auto; try congruence.
  { rewrite T4. unfold sg. ring. }
  { assert (0 <= Zfloor (fval F b)) by (apply Zfloor_lub; lra). lia. }
  unfold intres. split; auto. split; auto. split; [congruence|]. cbn iota in A4. rewrite A4.
  assert (Hc : Zceil (fval F b) = Zfloor (fval F b) + 1).
  { apply Zceil_floor_neq. intros Hx. rewrite f_eq_fin in E by auto. rewrite T4 in E.
    rewrite Req_bool_true in E; [congruence|]. auto. }
  rewrite Hc. unfold sg. ring.
Qed.
Theorem floor_special : forall rm b, is_fin F b = false -> cc_floor F rm b = b.
Proof. intros rm b H. unfold cc_floor. rewrite guard_eq, H. reflexivity. Qed.
Theorem ceil_special : forall rm b, is_fin F b = false -> cc_ceil F rm b = b.
Proof. intros rm b H. unfold cc_ceil. rewrite guard_eq, H. reflexivity. Qed.
Theorem round_fin : forall rm b, is_pattern F b -> is_fin F b = true -> intres b (ZnearestA (fval F b)) (cc_round F rm b).
Proof.
  intros rm b Hb Hf. unfold cc_round. rewrite guard_eq, Hf. cbn [negb orb].
  destruct (Z.eqb_spec (mag_of F b) 0) as [Hz|Hz]; [apply (zero_self IFromZero); auto|]. apply (directional_round_fin rm IFromZero); auto.
Qed.
Theorem round_special : forall rm b, is_fin F b = false -> cc_round F rm b = b.
Proof. intros rm b H. unfold cc_round. rewrite guard_eq, H. reflexivity. Qed.
Theorem rint_fin : forall rm dm b, is_pattern F b -> is_fin F b = true -> intres b (rnd dm (fval F b)) (cc_rint F rm dm b).
Proof. intros rm dm b. apply (directional_round_fin rm (IM dm)). Qed.

Theorem trunc_fixed : forall b, is_pattern F b -> is_fin F b = false \/ (exists z, fval F b = IZR z) -> cc_trunc F b = b.
Proof.
  intros b Hb [H|[z Hz]]; [apply trunc_special; auto|].
  destruct (is_fin F b) eqn:Hf; [|apply trunc_special; auto].
  destruct (trunc_fin b Hb Hf) as (T1 & T2 & T3 & T4). rewrite Hz, Ztrunc_IZR, <- Hz in T4. apply (fval_inj F HF); auto.
Qed.
Theorem ceil_neg_zero : forall rm b, is_pattern F b -> is_fin F b = true -> (-1 < fval F b < 0)%R -> cc_ceil F rm b = f_zero F true.
Proof.
  intros rm b Hb Hf Hr. destruct (ceil_fin rm b Hb Hf) as (T1 & T2 & T3 & T4).
  destruct (f_zero_props F HF true) as (Z1 & Z2 & _ & Z3 & Z5).
  apply (fval_inj F HF); auto.
  - rewrite T4, Z5. f_equal. apply Zceil_imp. simpl. lra.
  - intros _. rewrite T3, Z3, sign_fval by (auto; lra). apply Rlt_bool_true. lra.
Qed.
End N.
