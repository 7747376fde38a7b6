(** * [round_encode] is IEEE 754 rounding *)
From Coq Require Import ZArith Lia Bool Reals Lra Psatz.
From Flocq Require Import Core Bracket Round.
From Verif Require Import MachInt Fmt FloatSpec FmtProofs.
Open Scope Z_scope.

Definition digits (m : Z) : Z := if m =? 0 then 0 else Z.log2 m + 1.

Lemma digits_bounds : forall m, 0 < m -> 2 ^ (digits m - 1) <= m < 2 ^ digits m.
Proof.
  intros m Hm. unfold digits. replace (m =? 0) with false by lia.
  replace (Z.log2 m + 1 - 1) with (Z.log2 m) by lia. apply (Z.log2_spec m Hm).
Qed.
Lemma digits_nonneg : forall m, 0 <= digits m.
Proof. intros. unfold digits. destruct (m =? 0); [lia|]. pose proof (Z.log2_nonneg m). lia. Qed.
Lemma digits_unique : forall m d, 1 <= d -> 2 ^ (d - 1) <= m < 2 ^ d -> digits m = d.
Proof.
  intros m d Hd H. pose proof (pow2_pos (d - 1) ltac:(lia)). unfold digits. replace (m =? 0) with false by lia.
  rewrite (Z.log2_unique m (d - 1)); [lia..|]. replace (Z.succ (d - 1)) with d by lia. auto.
Qed.

(** The location of the remainder. *)
Definition locof (r2 u : Z) : location :=
  if r2 =? 0 then loc_Exact else loc_Inexact (r2 ?= u).

Lemma round_up_choice : forall rm s q r2 u, 0 <= r2 -> 0 < u ->
  q + b2z (round_up rm s q r2 u) =
  match rm with
  | RNE => cond_incr (round_N (negb (Z.even q)) (locof r2 u)) q
  | RDN => cond_incr (round_sign_DN s (locof r2 u)) q
  | RUP => cond_incr (round_sign_UP s (locof r2 u)) q
  | RZR => q
  end.
Proof.
  intros rm s q r2 u Hr Hu. unfold round_up, locof.
  destruct (Z.eqb_spec r2 0) as [->|Hn].
  - destruct rm; cbv [round_N round_sign_DN round_sign_UP cond_incr]; simpl b2z; rewrite ?Z.add_0_r; auto.
    + destruct u; simpl; lia.
    + rewrite andb_false_r. simpl. lia.
    + rewrite andb_false_r. simpl. lia.
  - replace (0 <? r2) with true by lia. rewrite !andb_true_r. destruct rm; cbv [round_N round_sign_DN round_sign_UP cond_incr]; simpl b2z; rewrite ?Z.add_0_r; auto.
    + rewrite Z.negb_even. destruct (r2 ?= u); simpl; try lia. destruct (Z.odd q); simpl; lia.
    + destruct s; simpl; lia.
    + destruct s; simpl; lia.
Qed.

Section Round.
Context (F : fmt) (HF : good_fmt F).
Notation fexp := (FLT_exp (emin F) (prec F)).

Lemma fround_inbetween : forall rm x q l, 
  inbetween_float radix2 q (cexp radix2 fexp x) (Rabs x) l ->
  fround F rm x = F2R (Float radix2 (cond_Zopp (Rlt_bool x 0)
    (match rm with
     | RNE => cond_incr (round_N (negb (Z.even q)) l) q
     | RDN => cond_incr (round_sign_DN (Rlt_bool x 0) l) q
     | RUP => cond_incr (round_sign_UP (Rlt_bool x 0) l) q
     | RZR => q end)) (cexp radix2 fexp x)).
Proof.
  intros rm x q l H. unfold fround. destruct rm; simpl rnd.
  - apply inbetween_float_NE_sign; auto.
  - apply inbetween_float_DN_sign; auto.
  - apply inbetween_float_UP_sign; auto.
  - apply inbetween_float_ZR_sign with (1 := H).
Qed.

(** Bracketing after dropping [k] bits. *)
Lemma inbetween_drop : forall m e k st y, 0 <= m -> 0 <= k ->
  (if st : bool then (IZR m * bpow radix2 e < y < IZR (m + 1) * bpow radix2 e)%R
   else y = (IZR m * bpow radix2 e)%R) ->
  (st = true -> 1 <= k) ->
  inbetween_float radix2 (m / 2 ^ k) (e + k) y (locof (2 * (m mod 2 ^ k) + b2z st) (2 ^ k)).
Proof.
  intros m e k st y Hm Hk Hy Hst.
  pose proof (pow2_pos k Hk) as HK. pose proof (Z.div_mod m (2 ^ k) ltac:(lia)) as Hdm.
  pose proof (Z.mod_pos_bound m (2 ^ k) HK) as Hr.
  set (q := m / 2 ^ k) in *. set (r := m mod 2 ^ k) in *. clearbody q r.
  pose proof (bpow_gt_0 radix2 e) as He.
  assert (Hq : forall z, F2R (Float radix2 z (e + k)) = (IZR (z * 2 ^ k) * bpow radix2 e)%R).
  { intros z. unfold F2R. simpl. rewrite bpow_plus, (bpow_IZR k), mult_IZR by auto. ring. }
  unfold inbetween_float. rewrite !Hq. unfold locof.
  set (E := bpow radix2 e) in *. clearbody E.
  destruct (Z.eqb_spec (2 * r + b2z st) 0) as [H0|H0].
  - assert (r = 0) by (destruct st; cbn [b2z] in *; lia). assert (st = false) by (destruct st; cbn [b2z] in *; auto; lia). subst.
    apply inbetween_Exact. rewrite Hy. do 2 f_equal. ring.
  - (* scaled integer bounds on y *)
    assert (Hb : (IZR (q * 2 ^ k) * E < y < IZR ((q + 1) * 2 ^ k) * E)%R).
    { destruct st; cbn [b2z] in *.
      - split; [apply Rle_lt_trans with (2 := proj1 Hy)|apply Rlt_le_trans with (1 := proj2 Hy)];
        apply Rmult_le_compat_r; try lra; apply IZR_le; lia.
      - rewrite Hy. split; apply Rmult_lt_compat_r; auto; apply IZR_lt; lia. }
    apply inbetween_Inexact; auto.
    replace ((IZR (q * 2 ^ k) * E + IZR ((q + 1) * 2 ^ k) * E) / 2)%R with (IZR (2 * q * 2 ^ k + 2 ^ k) / 2 * E)%R.
    2:{ rewrite !plus_IZR, !mult_IZR, plus_IZR. lra. }
    assert (Hc : forall a b, (IZR a / 2 * E < IZR b / 2 * E)%R <-> a < b).
    { intros a b. split; intros H.
      - apply lt_IZR. apply Rmult_lt_reg_r in H; auto. lra.
      - apply Rmult_lt_compat_r; auto. apply IZR_lt in H. lra. }
    assert (Hd : forall a, (IZR a * E)%R = (IZR (2 * a) / 2 * E)%R) by (intros; rewrite mult_IZR; field).
    destruct st; cbn [b2z] in *.
    + destruct Hy as [Hy1 Hy2]. rewrite Hd in Hy1, Hy2. specialize (Hst eq_refl).
      assert (Hev : 2 ^ k = 2 * 2 ^ (k - 1)) by (apply pow2_half; auto).
      destruct (Z.compare_spec (2 * r + 1) (2 ^ k)) as [Hx|Hx|Hx].
      * lia.
      * apply Rcompare_Lt. apply Rlt_le_trans with (1 := Hy2). apply Rmult_le_compat_r; [lra|].
        apply Rmult_le_compat_r; [lra|]. apply IZR_le. lia.
      * apply Rcompare_Gt. apply Rle_lt_trans with (2 := Hy1). apply Rmult_le_compat_r; [lra|].
        apply Rmult_le_compat_r; [lra|]. apply IZR_le. lia.
    + rewrite Hy, Hd. rewrite Z.add_0_r in *.
      destruct (Z.compare_spec (2 * r) (2 ^ k)) as [Hx|Hx|Hx].
      * apply Rcompare_Eq. do 3 f_equal. lia.
      * apply Rcompare_Lt. apply Hc. lia.
      * apply Rcompare_Gt. apply Hc. lia.
Qed.

(** The target exponent is the canonical one. *)
Lemma cexp_target : forall m e (st : bool) x, 0 <= m ->
  (if st then (IZR m * bpow radix2 e < Rabs x < IZR (m + 1) * bpow radix2 e)%R
   else Rabs x = (IZR m * bpow radix2 e)%R) ->
  (m = 0 -> st = true /\ e <= emin F) ->
  cexp radix2 fexp x = Z.max (emin F) (digits m + e - prec F).
Proof.
  intros m e st x Hm Hx H0. unfold cexp, FLT_exp.
  destruct (Z.eq_dec m 0) as [->|Hn].
  - destruct (H0 eq_refl) as [-> He]. change (digits 0) with 0.
    assert (mag radix2 x <= e).
    { apply mag_le_bpow; [|].
      - intros ->. rewrite Rabs_R0 in Hx. lra.
      - destruct Hx as [_ Hx]. rewrite Rmult_1_l in Hx. lra. }
    unfold prec. pose proof (gf_fl F HF). lia.
  - rewrite (mag_unique radix2 x (digits m + e)); [lia|].
    pose proof (digits_bounds m ltac:(lia)) as [D1 D2]. pose proof (digits_nonneg m).
    assert (1 <= digits m) by (unfold digits in *; replace (m =? 0) with false by lia; pose proof (Z.log2_nonneg m); lia).
    replace (digits m + e - 1) with (digits m - 1 + e) by lia. rewrite !bpow_plus.
    rewrite (bpow_IZR (digits m)), (bpow_IZR (digits m - 1)) by lia. pose proof (bpow_gt_0 radix2 e) as He.
    destruct st.
    + split; [apply Rlt_le; apply Rle_lt_trans with (2 := proj1 Hx)|apply Rlt_le_trans with (1 := proj2 Hx)];
      apply Rmult_le_compat_r; try lra; apply IZR_le; lia.
    + rewrite Hx. split; [apply Rmult_le_compat_r; try lra; apply IZR_le; lia|
        apply Rmult_lt_compat_r; auto; apply IZR_lt; lia].
Qed.

Lemma cond_Zopp_sg : forall s z, IZR (cond_Zopp s z) = (sg s * IZR z)%R.
Proof. intros [|] z; simpl; [rewrite opp_IZR|]; ring. Qed.

Lemma overflow_mag_range : forall rm s, 0 <= overflow_mag F rm s < sign_unit F.
Proof.
  intros. pose proof (inf_lt_sign F HF). pose proof (inf_mag_pos F HF).
  unfold overflow_mag, max_mag. destruct rm; try lia; destruct s; lia.
Qed.

Theorem round_encode_spec : forall rm s m e st x, 0 <= m ->
  (if st : bool then (IZR m * bpow radix2 e < Rabs x < IZR (m + 1) * bpow radix2 e)%R
   else Rabs x = (IZR m * bpow radix2 e)%R) ->
  (x <> 0%R -> Rlt_bool x 0 = s) ->
  (st = true -> e < Z.max (emin F) (digits m + e - prec F)) ->
  rounded F rm x s (round_encode F rm s m e st).
Proof.
  intros rm s m e st x Hm Hx Hs Hst. unfold round_encode. fold (digits m).
  pose proof (bpow_gt_0 radix2 e) as He0.
  destruct ((m =? 0) && negb st) eqn:Hz.
  - apply andb_prop in Hz. destruct Hz as [Hz1 Hz2]. apply Z.eqb_eq in Hz1. subst m.
    destruct st; [discriminate|]. assert (x = 0%R).
    { rewrite Rmult_0_l in Hx. destruct (Req_dec x 0); auto. apply Rabs_no_R0 in H. lra. }
    subst x. assert (Hr : fround F rm 0 = 0%R).
    { unfold fround. apply round_0. destruct rm; simpl; auto with typeclass_instances. }
    pose proof (inf_mag_pos F HF). pose proof (inf_lt_sign F HF).
    unfold rounded. rewrite Hr, Rabs_R0, Req_bool_true by auto.
    replace (sbit F s) with (sbit F s + 0) by lia.
    split; [apply sbit_pattern; auto; lia|]. split; [apply sign_of_sbit; auto; lia|].
    split; intros Hb.
    + split; [|rewrite fval_sbit by (auto; lia); rewrite mval_0 by auto; ring].
      unfold is_fin. rewrite mag_of_sbit by (auto; lia). apply Z.ltb_lt. lia.
    + pose proof (bpow_gt_0 radix2 (bias F + 1)). lra.
  - assert (Hx0 : x <> 0%R).
    { intros ->. rewrite Rabs_R0 in Hx. destruct st.
      - assert (0 <= IZR m)%R by (apply IZR_le; auto). nra.
      - simpl in Hz. rewrite andb_true_r in Hz. apply Z.eqb_neq in Hz.
        assert (0 < IZR m)%R by (apply IZR_lt; lia). nra. }
    specialize (Hs Hx0).
    assert (Hce : cexp radix2 fexp x = Z.max (emin F) (digits m + e - prec F)).
    { apply cexp_target with st; auto. intros ->. destruct st; [|discriminate].
      split; auto. specialize (Hst eq_refl). change (digits 0) with 0 in Hst. pose proof (gf_fl F HF). unfold prec in Hst. lia. }
    set (et := Z.max (emin F) (digits m + e - prec F)) in *.
    set (k := Z.max 0 (et - e)).
    set (q := if et <=? e then _ else _). set (r := if et <=? e then _ else _).
    pose proof (pow2_pos k ltac:(lia)) as Hu.
    assert (HIB : inbetween_float radix2 q et (Rabs x) (locof (2 * r + b2z st) (2 ^ k)) /\ 0 <= 2 * r + b2z st).
    { destruct (Z.leb_spec et e) as [Hk|Hk].
      - destruct st; [specialize (Hst eq_refl); lia|]. unfold r, q. cbn [b2z].
        split; [|lia]. change (locof (2 * 0 + 0) (2 ^ k)) with loc_Exact.
        apply inbetween_Exact. unfold F2R. simpl. rewrite Hx, mult_IZR, <- bpow_IZR by lia.
        rewrite Rmult_assoc, <- bpow_plus. do 2 f_equal. lia.
      - split; [|unfold r; pose proof (Z.mod_pos_bound m (2 ^ k) ltac:(lia)); destruct st; cbn [b2z]; lia].
        unfold q, r. assert (Ee : et = e + k) by lia. rewrite Ee at 1.
        apply inbetween_drop; auto; lia. }
    destruct HIB as (HIB & Hr2).
    assert (Hfr := fround_inbetween rm x q _ ltac:(rewrite Hce; exact HIB)). rewrite Hce, Hs in Hfr.
    rewrite <- (round_up_choice rm s q (2 * r + b2z st) (2 ^ k) Hr2 Hu) in Hfr.
    unfold F2R in Hfr. cbn [Fnum Fexp] in Hfr. rewrite cond_Zopp_sg in Hfr.
    assert (Hq : 0 <= q < 2 ^ prec F /\ (2 ^ fl F <= q \/ et = emin F)).
    { pose proof (inbetween_float_bounds _ _ _ _ _ HIB) as [Hb1 Hb2]. unfold F2R in Hb1, Hb2. simpl in Hb1, Hb2.
      assert (Hce2 : et = Z.max (mag radix2 x - prec F) (emin F)) by (rewrite <- Hce; reflexivity).
      destruct (mag radix2 x) as [ex Hex]. simpl in Hce2. specialize (Hex Hx0). clear -Hb1 Hb2 Hce2 Hex HF.
      pose proof (gf_fl F HF). pose proof (bpow_gt_0 radix2 et) as Het.
      assert (-1 < q).
      { apply lt_IZR. apply Rmult_lt_reg_r with (bpow radix2 et); auto.
        pose proof (Rabs_pos x). rewrite plus_IZR in Hb2. lra. }
      split.
      - split; [lia|]. apply lt_IZR. rewrite <- bpow_IZR by (unfold prec; lia).
        apply Rmult_lt_reg_r with (bpow radix2 et); auto. rewrite <- bpow_plus.
        apply Rle_lt_trans with (1 := Hb1). apply Rlt_le_trans with (1 := proj2 Hex). apply bpow_le. lia.
      - destruct (Z_le_gt_dec (ex - prec F) (emin F)); [right; lia|left].
        apply Zlt_succ_le. apply lt_IZR. rewrite <- bpow_IZR by lia. 
        apply Rmult_lt_reg_r with (bpow radix2 et); auto. rewrite <- bpow_plus.
        apply Rle_lt_trans with (2 := Hb2). apply Rle_trans with (2 := proj1 Hex). apply bpow_le. unfold prec in *. lia. }
    set (inc := b2z (round_up rm s q (2 * r + b2z st) (2 ^ k))) in *.
    assert (Hinc : 0 <= inc <= 1) by (unfold inc, b2z; destruct (round_up _ _ _ _ _); lia).
    assert (Het : emin F <= et) by lia.
    assert (Hen : mval F (enc F (q + inc) et) = (IZR (q + inc) * bpow radix2 et)%R) by (apply mval_enc; auto; lia).
    assert (Henc : 0 <= enc F (q + inc) et).
    { unfold enc. pose proof (fl_pos F HF). assert (0 <= (et - emin F) * 2 ^ fl F) by (apply Z.mul_nonneg_nonneg; lia). lia. }
    rewrite Rmult_assoc, <- Hen in Hfr.
    assert (Habs : Rabs (fround F rm x) = mval F (enc F (q + inc) et)).
    { rewrite Hfr, Rabs_sg, Rabs_pos_eq; auto. apply mval_nonneg; auto. }
    pose proof (mval_lt_inf F HF _ Henc) as Hlt. unfold rounded.
    rewrite Habs, Req_bool_false, Hs by auto. pose proof (inf_lt_sign F HF).
    pose proof (overflow_mag_range rm s).
    destruct (Z.ltb_spec (enc F (q + inc) et) (inf_mag F)) as [Hi|Hi].
    + split; [apply sbit_pattern; auto; lia|]. split; [apply sign_of_sbit; auto; lia|]. split; intros Hc.
      * split; [|rewrite fval_sbit by (auto; lia); auto]. unfold is_fin. rewrite mag_of_sbit by (auto; lia).
        apply Z.ltb_lt; auto.
      * exfalso. apply Hlt in Hi. lra.
    + split; [apply sbit_pattern; auto; lia|]. split; [apply sign_of_sbit; auto; lia|]. split; intros Hc.
      * exfalso. apply Hlt in Hc. lia.
      * apply mag_of_sbit; auto.
Qed.

(** A correctly rounded pattern is unique. *)
Lemma rounded_unique : forall rm x zs b1 b2, rounded F rm x zs b1 -> rounded F rm x zs b2 -> b1 = b2.
Proof.
  intros rm x zs b1 b2 (P1 & S1 & V1 & O1) (P2 & S2 & V2 & O2).
  rewrite (pattern_split F HF b1), (pattern_split F HF b2) by auto.
  rewrite S1, S2. f_equal.
  destruct (Rlt_or_le (Rabs (fround F rm x)) (bpow radix2 (bias F + 1))) as [H|H].
  - destruct (V1 H) as [F1 E1], (V2 H) as [F2 E2].
    apply (mval_inj F HF); try apply mag_range; auto.
    rewrite <- !Rabs_fval by auto. congruence.
  - rewrite O1, O2; auto.
Qed.
End Round.
