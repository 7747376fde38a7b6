(** * Proofs: the fixed-width fma kernel *)
From Coq Require Import ZArith Reals Bool Lia Lra.
From Flocq Require Import Core.
From Verif Require Import MachInt Bits Fmt FloatSpec FmtProofs RoundProofs RoundMore FOps FOpsProofs ExactOps
  FPBits FPBitsProofs FmanipProofs LdexpProofs NextProofs SqrtProofs CompareProofs FmanipWide Fma FmaSpec.
Open Scope Z_scope.

Lemma any_bit_spec : forall n v, any_bit n v = negb (v mod 2 ^ Z.of_nat n =? 0).
Proof.
  induction n; intros v.
  - cbn [any_bit]. change (2 ^ Z.of_nat 0) with 1. rewrite Z.mod_1_r. reflexivity.
  - cbn [any_bit]. rewrite IHn. destruct (rem_split v (Z.of_nat (S n)) ltac:(lia)) as (E & R). rewrite E.
    replace (Z.of_nat (S n) - 1) with (Z.of_nat n) in * by lia.
    destruct (Z.testbit v (Z.of_nat n)); cbn [b2z orb].
    + symmetry. apply negb_true_iff. apply Z.eqb_neq. lia.
    + f_equal.
Qed.

Lemma lower_bits_eq : forall digits v n, 0 <= v < 2 ^ digits -> 0 <= n ->
  lower_bits_nonzero digits v n = negb (v mod 2 ^ n =? 0).
Proof.
  intros digits v n Hv Hn. unfold lower_bits_nonzero, int_is_zero.
  destruct (Z.leb_spec n 0). { replace n with 0 by lia. change (2 ^ 0) with 1. rewrite Z.mod_1_r. reflexivity. }
  destruct (Z.leb_spec digits n).
  - assert (2 ^ digits <= 2 ^ n).
    { apply pow2_le. lia. }
    rewrite Z.mod_small by lia. reflexivity.
  - rewrite any_bit_spec, Z2Nat.id by lia. reflexivity.
Qed.

Theorem shift_sticky_spec : forall digits v n, 0 <= v < 2 ^ digits -> 0 <= n ->
  shift_right_with_sticky digits n v = (negb (v mod 2 ^ n =? 0), v / 2 ^ n).
Proof.
  intros digits v n Hv Hn. unfold shift_right_with_sticky, int_is_zero.
  destruct (Z.leb_spec n 0). { replace n with 0 by lia. change (2 ^ 0) with 1. rewrite Z.mod_1_r, Z.div_1_r. reflexivity. }
  pose proof (pow2_pos n Hn).
  destruct (Z.eqb_spec v 0) as [->|Hz]; cbn [orb]. { rewrite Z.mod_0_l, Z.div_0_l by lia. reflexivity. }
  destruct (Z.leb_spec digits n).
  - assert (2 ^ digits <= 2 ^ n) by (apply pow2_le; lia).
    rewrite Z.mod_small, Z.div_small by lia. replace (v =? 0) with false by lia. reflexivity.
  - rewrite lower_bits_eq, Z.shiftr_div_pow2 by lia. reflexivity.
Qed.

Section S0.
Context (F : fmt) (HF : good_fmt F) (Hel : el F <= 16) (dm : rmode) (T : fma_traits).
Notation A := (accumulator_bits T).
Notation acc := (acc_int T).
Context (HA : prec F + 1 <= A) (Hacc : A + 1 <= acc).

Lemma fp_zero_eq2 : forall s, fp_zero F s = f_zero F s.
Proof.
  intros s. unfold fp_zero. rewrite (encode_eq F HF Hel), (biased_sub F).
  rewrite Z.mod_0_l by (pose proof (fl_pos F HF); lia). unfold pack, f_zero. lia.
Qed.

(** ** round_normalized is one rounding *)
Lemma create_eq : forall s be om, 0 <= be < 2 ^ el F -> uintval F (create_value F s be om) = sbit F s + (be * 2 ^ fl F + om mod 2 ^ fl F).
Proof.
  intros s be om Hb. pose proof (fl_pos F HF) as HP. pose proof (Z.mod_pos_bound om (2 ^ fl F) HP) as HM.
  unfold create_value. rewrite (encode_eq F HF Hel).
  assert (2 ^ el F <= 2 ^ 16) by (apply pow2_le; lia). change (2 ^ 16) with 65536 in *.
  rewrite (wrap_small 32) by (unfold inU; change (2 ^ 32) with 4294967296; lia). rewrite (Z.mod_small be) by auto.
  rewrite (uint_eq F HF). unfold pack. lia. apply (pack_pattern F HF); lia.
Qed.

Lemma round_normalized_weak : forall s base m st, 2 ^ (A - 1) <= m < 2 ^ A ->
  round_normalized F dm T s base m st = round_encode F dm s m base st.
Proof.
  intros s base m st Hm. pose proof (fl_pos F HF) as HP. pose proof (gf_fl F HF) as Hf1. pose proof (gf_bias F HF) as Hb1.
  pose proof (expmax_bias F HF) as Hem. pose proof (gf_el F HF) as He2.
  unfold prec in HA. pose proof (pow2_pos (A - 1) ltac:(lia)).
  assert (Hma : 0 <= m < 2 ^ acc) by (pose proof (pow2_le A acc ltac:(lia)); lia).
  unfold round_normalized, int_is_zero. replace (m =? 0) with false by lia.
  unfold round_encode. replace (m =? 0) with false by lia. cbn [andb].
  replace (Z.log2 m + 1) with A.
  2:{ rewrite (Z.log2_unique m (A - 1)); [lia..|]. replace (Z.succ (A - 1)) with A by lia. auto. }
  set (et := Z.max (emin F) (A + base - prec F)).
  assert (Het : base < et) by (unfold et, prec; lia).
  replace (et <=? base) with false by lia. replace (Z.max 0 (et - base)) with (et - base) by lia.
  set (K := et - base) in *. rewrite round_up_tbl by lia.
  set (q := m / 2 ^ K). set (rb := Z.testbit m (K - 1)). set (sb := st || negb (m mod 2 ^ (K - 1) =? 0)).
  set (up := round_tbl dm s q rb sb).
  assert (Hup : 0 <= b2z up <= 1) by (destruct up; cbn; lia).
  assert (HKp : 0 < 2 ^ K) by (apply pow2_pos; lia).
  destruct (Z.ltb_spec (bias F) (base + (A - 1))) as [HO|HO].
  - (* overflow *)
    assert (EK : K = A - prec F) by (unfold K, et, emin, prec; lia).
    assert (Hq : 2 ^ fl F <= q).
    { unfold q. apply Z.div_le_lower_bound; [lia|]. rewrite <- Z.pow_add_r by (unfold prec in *; lia).
      replace (K + fl F) with (A - 1) by (unfold prec in *; lia). lia. }
    replace (enc F (q + b2z up) et <? inf_mag F) with false.
    2:{ symmetry. apply Z.ltb_ge. unfold enc, inf_mag. rewrite Hem.
        assert (2 * bias F <= et - emin F) by (unfold et, emin, prec; lia).
        assert (2 * bias F * 2 ^ fl F <= (et - emin F) * 2 ^ fl F) by (apply Z.mul_le_mono_nonneg_r; lia). lia. }
    unfold rn_overflow, overflow_mag. rewrite !(fp_inf_eq F HF Hel), !(fp_max_normal_eq F HF Hel).
    unfold f_inf. destruct dm, s; reflexivity.
  - (* within range *)
    assert (HS : exists be om, rn_split F T base m st = (be, om, rb, sb) /\ om = q /\ 0 <= be < 2 ^ el F /\
       be * 2 ^ fl F + q mod 2 ^ fl F = enc F q et /\ enc F q et < inf_mag F /\ 0 <= enc F q et).
    { unfold rn_split. pose proof (emin_neg F HF).
      assert (EX : 2 ^ el F = expmax F + 1) by (unfold expmax; lia).
      destruct (Z.leb_spec (1 - bias F) (base + (A - 1))) as [HN|HN].
      - assert (EK : K = A - prec F) by (unfold K, et, emin, prec; lia).
        assert (EK' : A - (fl F + 1) = K) by (unfold prec in *; lia). rewrite EK'.
        assert (Hq : 2 ^ fl F <= q < 2 * 2 ^ fl F).
        { unfold q. split.
          - apply Z.div_le_lower_bound; [lia|]. rewrite <- Z.pow_add_r by (unfold prec in *; lia).
            replace (K + fl F) with (A - 1) by (unfold prec in *; lia). lia.
          - apply Z.div_lt_upper_bound; [lia|]. rewrite Z.mul_assoc, (Z.mul_comm _ 2), <- Z.mul_assoc.
            rewrite <- Z.pow_add_r by (unfold prec in *; lia). rewrite <- pow2_succ by (unfold prec in *; lia).
            replace (K + fl F + 1) with A by (unfold prec in *; lia). lia. }
        assert (HW : 2 * 2 ^ fl F <= 2 ^ width F) by (rewrite <- pow2_succ by lia; apply pow2_le; unfold width; lia).
        assert (HW2 : 2 ^ el F <= 2 ^ width F) by (apply pow2_le; unfold width; lia).
        rewrite Z.shiftr_div_pow2 by lia. fold q. rewrite (wrap_small _ q) by (unfold inU; lia).
        rewrite (wrap_small _ (base + (A - 1) + bias F)) by (unfold inU; lia).
        exists (base + (A - 1) + bias F), q.
        assert (EE : enc F q et = (base + (A - 1) + bias F) * 2 ^ fl F + (q - 2 ^ fl F)).
        { unfold enc. replace (et - emin F) with (base + (A - 1) + bias F - 1) by (unfold et, emin, prec; lia). ring. }
        assert (QM : q mod 2 ^ fl F = q - 2 ^ fl F) by (symmetry; apply Z.mod_unique with 1; lia).
        split. { f_equal; [f_equal|]. - unfold int_get_bit. replace (K - 1 <? 0) with false by lia. reflexivity.
                 - unfold sb. rewrite lower_bits_eq by lia. reflexivity. }
        split; [reflexivity|]. split; [lia|]. rewrite QM, EE. split; [lia|]. split; [|nia].
        unfold inf_mag. assert ((base + (A - 1) + bias F) * 2 ^ fl F <= (2 * bias F) * 2 ^ fl F) by (apply Z.mul_le_mono_nonneg_r; lia). nia.
      - assert (EK : K = 1 - bias F - fl F - base) by (unfold K, et, emin, prec; lia). rewrite <- EK.
        assert (EE : enc F q et = q) by (unfold enc; replace et with (emin F) by (unfold et, emin, prec; lia); lia).
        assert (Hq : 0 <= q < 2 ^ fl F).
        { unfold q. split; [apply Z.div_pos; lia|]. apply Z.div_lt_upper_bound; [lia|].
          rewrite <- Z.pow_add_r by lia. pose proof (pow2_le A (K + fl F) ltac:(lia)). lia. }
        assert (HIM : 2 ^ fl F <= inf_mag F) by (unfold inf_mag; nia).
        assert (Hfin : 0 <= 0 < 2 ^ el F /\ 0 * 2 ^ fl F + q mod 2 ^ fl F = enc F q et /\ enc F q et < inf_mag F /\ 0 <= enc F q et).
        { rewrite EE, Z.mod_small by lia. pose proof (pow2_pos (el F) ltac:(lia)). lia. }
        exists 0, q. split; [|split; [reflexivity|exact Hfin]].
        destruct (Z.ltb_spec A K).
        + pose proof (pow2_le A (K - 1) ltac:(lia)). pose proof (pow2_lt A K ltac:(lia) ltac:(lia)).
          assert (q = 0) by (unfold q; apply Z.div_small; lia).
          assert (rb = false).
          { unfold rb. rewrite Z.testbit_eqb by lia. rewrite Z.div_small by lia. reflexivity. }
          assert (sb = true). { unfold sb. rewrite Z.mod_small by lia. replace (m =? 0) with false by lia. apply orb_true_r. }
          congruence.
        + destruct (Z.eqb_spec K A) as [E|E].
          * assert (q = 0) by (unfold q; rewrite E; apply Z.div_small; lia).
            unfold int_get_bit. replace (A - 1 <? 0) with false by lia. rewrite lower_bits_eq by lia.
            unfold rb, sb. rewrite E. congruence.
          * unfold int_get_bit. replace (K - 1 <? 0) with false by lia. rewrite lower_bits_eq by lia.
            rewrite Z.shiftr_div_pow2 by lia. fold q. rewrite wrap_small. reflexivity.
            unfold inU. pose proof (pow2_lt (fl F) (width F)). unfold width in *. lia. }
    destruct HS as (be & om & Es & Eom & Hbe & Ee & Hi & He0). rewrite Es, Eom, land1.
    rewrite create_eq by auto. rewrite Ee.
    assert (Eup : enc F (q + b2z up) et = enc F q et + b2z up) by (unfold enc; ring). rewrite Eup.
    assert (HWr : forall v, 0 <= v <= inf_mag F -> inU (width F) (sbit F s + v)).
    { intros v Hv. pose proof (inf_lt_sign F HF). unfold inU. pose proof (sbit_pattern F HF s v ltac:(lia)) as HH.
      unfold is_pattern in HH. lia. }
    assert (HR : (if up then wrap (width F) (sbit F s + enc F q et + 1) else sbit F s + enc F q et) =
      sbit F s + (if enc F q et + b2z up <? inf_mag F then enc F q et + b2z up else overflow_mag F dm s)).
    { destruct up eqn:Eu; cbn [b2z].
      - rewrite wrap_small by (rewrite <- Z.add_assoc; apply HWr; lia).
        destruct (Z.ltb_spec (enc F q et + 1) (inf_mag F)); [lia|].
        rewrite (overflow_up F dm s q rb sb Eu). lia.
      - rewrite Z.add_0_r. replace (enc F q et <? inf_mag F) with true by lia. reflexivity. }
    rewrite <- HR. unfold up, round_tbl. destruct dm; reflexivity.
Qed.

End S0.

Section S.
Context (F : fmt) (HF : good_fmt F) (Hel : el F <= 16) (dm : rmode) (T : fma_traits).
Notation A := (accumulator_bits T).
Notation acc := (acc_int T).
Context (HA : 2 * prec F + 2 <= A) (Hacc : A + 1 <= acc) (Hprod : 2 * prec F <= product_int T).

Lemma round_normalized_eq : forall s base m st, 2 ^ (A - 1) <= m < 2 ^ A ->
  round_normalized F dm T s base m st = round_encode F dm s m base st.
Proof. apply (round_normalized_weak F HF Hel); [pose proof (gf_fl F HF); unfold prec in *; lia|exact Hacc]. Qed.

Lemma int_bit_width_eq : forall v, int_bit_width v = digits v.
Proof. reflexivity. Qed.

(** Normalising the significand before [round_normalized]. *)
Lemma rn_norm : forall s base m st, 0 < m < 2 ^ A -> (st = true -> prec F < digits m) ->
  round_normalized F dm T s (base - (A - int_bit_width m)) (wrap acc (Z.shiftl m (A - int_bit_width m))) st =
  round_encode F dm s m base st.
Proof.
  intros s base m st Hm Hst. rewrite int_bit_width_eq. pose proof (digits_bounds m ltac:(lia)) as HD.
  assert (HA1 : 2 <= A) by (pose proof (gf_fl F HF); unfold prec in *; lia).
  assert (Hd : 1 <= digits m <= A).
  { unfold digits. replace (m =? 0) with false by lia. pose proof (Z.log2_nonneg m).
    assert (Z.log2 m < A) by (apply Z.log2_lt_pow2; lia). lia. }
  set (k := A - digits m) in *. pose proof (pow2_pos k ltac:(unfold k; lia)).
  assert (HN : 2 ^ (A - 1) <= m * 2 ^ k < 2 ^ A).
  { replace (2 ^ (A - 1)) with (2 ^ (digits m - 1) * 2 ^ k) by (rewrite <- Z.pow_add_r by (unfold k; lia); f_equal; unfold k; lia).
    replace (2 ^ A) with (2 ^ digits m * 2 ^ k) by (rewrite <- Z.pow_add_r by (unfold k; lia); f_equal; unfold k; lia).
    split; [apply Z.mul_le_mono_nonneg_r|apply Z.mul_lt_mono_pos_r]; lia. }
  rewrite Z.shiftl_mul_pow2 by (unfold k; lia). rewrite wrap_small.
  2:{ unfold inU. pose proof (pow2_le A acc ltac:(lia)). lia. }
  rewrite round_normalized_eq by auto. apply round_encode_shift; [lia|unfold k; lia|].
  intros E. specialize (Hst E). lia.
Qed.

(** ** Operands *)
Lemma decode_op : forall x, is_fin F x = true -> mag_of F x <> 0 ->
  exists m e, decode_finite_nonzero F x = Decoded (sign_of F x) m (digits m) e (e + digits m - 1) /\
    0 < m < 2 ^ prec F /\ fval F x = (sg (sign_of F x) * (IZR m * bpow radix2 e))%R.
Proof.
  intros x Fx Zx. exists (sig_of F (mag_of F x)), (exp_of F (mag_of F x)).
  pose proof (mag_range F HF x) as HR. destruct (sig_exp_spec F HF (mag_of F x) ltac:(lia)) as (H1 & H2 & H3 & H4).
  split.
  - unfold decode_finite_nonzero. rewrite (fp_sign_eq F HF), (explicit_mantissa_eq F HF Hel), (explicit_exponent_eq F HF Hel) by auto.
    replace (mag_of F x =? 0) with false by lia. rewrite int_bit_width_eq. f_equal; lia.
  - split; [|apply (fval_fin F); auto]. split; [|lia]. unfold sig_of. destruct (Z.ltb_spec (mag_of F x) (2 ^ fl F)); [lia|].
    pose proof (fl_pos F HF). pose proof (Z.mod_pos_bound (mag_of F x) (2 ^ fl F)). lia.
Qed.

Lemma digits_le : forall m p, 0 < m < 2 ^ p -> 1 <= digits m <= p.
Proof.
  intros m p Hm. unfold digits. replace (m =? 0) with false by lia. pose proof (Z.log2_nonneg m).
  assert (Z.log2 m < p) by (apply Z.log2_lt_pow2; lia). lia.
Qed.

(** A significand placed at the top of the accumulator, then shifted right. *)
Definition top_acc (m : Z) : Z := m * 2 ^ (A - digits m).
Lemma top_acc_spec : forall m, 0 < m < 2 ^ (2 * prec F) ->
  wrap acc (Z.shiftl m (A - digits m)) = top_acc m /\ 2 ^ (A - 1) <= top_acc m < 2 ^ A /\
  (forall e, IZR m * bpow radix2 e = IZR (top_acc m) * bpow radix2 (e + digits m - 1 - (A - 1)))%R /\
  forall D, 0 <= D -> top_acc m mod 2 ^ D <> 0 -> top_acc m / 2 ^ D < 2 ^ (A - 2).
Proof.
  intros m Hm. pose proof (digits_bounds m ltac:(lia)) as HD. destruct (digits_le m _ Hm) as [Hd1 Hd2].
  unfold top_acc. set (k := A - digits m) in *. assert (Hk : 2 <= k) by (unfold k; lia). pose proof (pow2_pos k ltac:(lia)).
  assert (HN : 2 ^ (A - 1) <= m * 2 ^ k < 2 ^ A).
  { replace (2 ^ (A - 1)) with (2 ^ (digits m - 1) * 2 ^ k) by (rewrite <- Z.pow_add_r by (unfold k; lia); f_equal; unfold k; lia).
    replace (2 ^ A) with (2 ^ digits m * 2 ^ k) by (rewrite <- Z.pow_add_r by (unfold k; lia); f_equal; unfold k; lia).
    split; [apply Z.mul_le_mono_nonneg_r|apply Z.mul_lt_mono_pos_r]; lia. }
  split. { rewrite Z.shiftl_mul_pow2 by lia. apply wrap_small. unfold inU. pose proof (pow2_le A acc ltac:(lia)). lia. }
  split; [exact HN|]. split.
  - intros e. rewrite mult_IZR, <- (bpow_IZR k), Rmult_assoc, <- bpow_plus by lia. f_equal. f_equal. unfold k. lia.
  - intros D HD0 Hnz. assert (k < D).
    { destruct (Z_lt_le_dec k D); auto. exfalso. apply Hnz.
      replace (2 ^ k) with (2 ^ (k - D) * 2 ^ D) by (rewrite <- Z.pow_add_r by lia; f_equal; lia).
      rewrite Z.mul_assoc. apply Z.mod_mul. pose proof (pow2_pos D). lia. }
    pose proof (pow2_pos D ltac:(lia)). apply Z.div_lt_upper_bound; [lia|].
    assert (2 ^ A <= 2 ^ D * 2 ^ (A - 2)).
    { rewrite <- Z.pow_add_r by lia. apply pow2_le. lia. }
    lia.
Qed.

Lemma fma_align_spec : forall mp ep mz ez, 0 < mp < 2 ^ (2 * prec F) -> 0 < mz < 2 ^ (2 * prec F) ->
  exists pa pst za zst base,
    fma_align T (ep + digits mp - 1) (ez + digits mz - 1) (top_acc mp) (top_acc mz) = (pa, pst, za, zst, base) /\
    brk pa pst base (IZR mp * bpow radix2 ep) /\ brk za zst base (IZR mz * bpow radix2 ez) /\
    0 <= pa < 2 ^ A /\ 0 <= za < 2 ^ A /\ (2 ^ (A - 1) <= pa \/ 2 ^ (A - 1) <= za) /\
    (pst = true -> zst = false /\ pa < 2 ^ (A - 2)) /\ (zst = true -> pst = false /\ za < 2 ^ (A - 2)).
Proof.
  intros mp ep mz ez Hp Hz.
  destruct (top_acc_spec mp Hp) as (_ & Rp & Vp & Sp). destruct (top_acc_spec mz Hz) as (_ & Rz & Vz & Sz).
  pose proof (pow2_pos (A - 1) ltac:(pose proof (gf_fl F HF); unfold prec in *; lia)).
  pose proof (pow2_le A acc ltac:(lia)).
  assert (DR : forall v D, 0 <= v < 2 ^ A -> 0 <= D -> 0 <= v / 2 ^ D < 2 ^ A).
  { intros v D Hv HD. pose proof (pow2_pos D HD). split; [apply Z.div_pos; lia|]. apply Z.div_lt_upper_bound; nia. }
  unfold fma_align. set (tp := ep + digits mp - 1). set (tz := ez + digits mz - 1).
  destruct (Z.ltb_spec tz tp); [|destruct (Z.ltb_spec tp tz)].
  - rewrite shift_sticky_spec by lia. do 5 eexists. split; [reflexivity|].
    split; [rewrite Vp; apply brk_exact|].
    split. { rewrite Vz. fold tz. replace (tp - (A - 1)) with (tz - (A - 1) + (tp - tz)) by lia. apply brk_shift; lia. }
    split; [lia|]. split; [apply DR; lia|]. split; [left; lia|]. split; [discriminate|].
    intros E. split; auto. apply Sz; [lia|]. apply negb_true_iff in E. lia.
  - rewrite shift_sticky_spec by lia. do 5 eexists. split; [reflexivity|].
    split. { rewrite Vp. fold tp. replace (tz - (A - 1)) with (tp - (A - 1) + (tz - tp)) by lia. apply brk_shift; lia. }
    split; [rewrite Vz; apply brk_exact|].
    split; [apply DR; lia|]. split; [lia|]. split; [right; lia|]. split; [|discriminate].
    intros E. split; auto. apply Sp; [lia|]. apply negb_true_iff in E. lia.
  - do 5 eexists. split; [reflexivity|]. split; [rewrite Vp; apply brk_exact|].
    split. { rewrite Vz. fold tz. replace tp with tz by lia. apply brk_exact. }
    split; [lia|]. split; [lia|]. split; [left; lia|]. split; discriminate.
Qed.

(** ** Rounding a bracketed magnitude *)
Lemma brk_pos : forall a st e x, 0 <= a -> (a <> 0 \/ st = true) -> brk a st e x -> (0 < x)%R.
Proof.
  intros a st e x Ha Hc H. pose proof (bpow_gt_0 radix2 e). assert (0 <= IZR a)%R by (apply IZR_le; lia).
  unfold brk in H. destruct st.
  - apply Rle_lt_trans with (2 := proj1 H). apply Rmult_le_pos; lra.
  - subst x. apply Rmult_lt_0_compat; auto. apply IZR_lt. destruct Hc; [lia|discriminate].
Qed.
Lemma brk_rounded : forall s m st e x zs, 0 < m -> brk m st e x -> (st = true -> prec F < digits m) ->
  rounded F dm (sg s * x) zs (round_encode F dm s m e st).
Proof.
  intros s m st e x zs Hm HB Hst. pose proof (brk_pos m st e x ltac:(lia) ltac:(left; lia) HB) as Hx.
  assert (HR : rounded F dm (sg s * x) s (round_encode F dm s m e st)).
  { apply (round_encode_spec F HF).
    - lia.
    - rewrite Rabs_sg, Rabs_pos_eq by lra. exact HB.
    - intros _. unfold sg. destruct s; [apply Rlt_bool_true|apply Rlt_bool_false]; lra.
    - intros E. specialize (Hst E). lia. }
  assert (Hn : (sg s * x <> 0)%R) by (unfold sg; destruct s; lra).
  unfold rounded in *. rewrite Req_bool_false in * by auto. exact HR.
Qed.

Lemma fma_add_spec : forall s pa za base st x y zs, 0 <= pa < 2 ^ A -> 0 <= za < 2 ^ A ->
  (2 ^ (A - 1) <= pa \/ 2 ^ (A - 1) <= za) -> brk (pa + za) st base (x + y) ->
  rounded F dm (sg s * (x + y)) zs (fma_add F dm T s pa za base st).
Proof.
  intros s pa za base st x y zs Hp Hz Ht HB. pose proof (gf_fl F HF) as Hf1.
  assert (HA1 : 0 <= A - 1) by (unfold prec in *; lia).
  assert (E2 : 2 ^ A = 2 * 2 ^ (A - 1)) by (rewrite <- pow2_succ by lia; f_equal; lia). pose proof (pow2_pos (A - 1) HA1).
  pose proof (pow2_le (A + 1) acc ltac:(lia)) as HC. rewrite pow2_succ in HC by lia.
  unfold fma_add. rewrite wrap_small by (unfold inU; lia). rewrite int_bit_width_eq.
  destruct (Z_lt_le_dec (pa + za) (2 ^ A)) as [H1|H1].
  - assert (D : digits (pa + za) = A) by (apply digits_unique; lia).
    rewrite D, Z.ltb_irrefl. rewrite round_normalized_eq by lia. apply brk_rounded; auto; lia.
  - assert (D : digits (pa + za) = A + 1).
    { apply digits_unique; [lia|]. replace (A + 1 - 1) with A by lia. rewrite pow2_succ by lia. lia. }
    rewrite D. replace (A <? A + 1) with true by lia.
    assert (HH : 2 ^ (A - 1) <= (pa + za) / 2 < 2 ^ A).
    { split; [apply Z.div_le_lower_bound; lia|apply Z.div_lt_upper_bound; lia]. }
    rewrite Z.shiftr_div_pow2 by lia. change (2 ^ 1) with 2. rewrite round_normalized_eq by auto.
    unfold int_get_bit. change (0 <? 0) with false. rewrite Z.bit0_odd.
    apply brk_rounded; [lia|apply brk_half; auto|].
    intros _. rewrite (digits_unique _ A) by lia. lia.
Qed.

(** Subtraction, the larger operand being exact. *)
Lemma fma_sub_core : forall s a b st base x y zs, 0 <= b -> b < a < 2 ^ A ->
  (st = true -> 2 ^ (A - 1) <= a /\ b < 2 ^ (A - 2)) ->
  brk a false base x -> brk b st base y ->
  let m := if st then wrap acc (wrap acc (a - b) - 1) else wrap acc (a - b) in
  0 < m /\ rounded F dm (sg s * (x - y)) zs
    (round_normalized F dm T s (base - (A - int_bit_width m)) (wrap acc (Z.shiftl m (A - int_bit_width m))) st).
Proof.
  intros s a b st base x y zs Hb Ha Hst Bx By m. pose proof (gf_fl F HF) as Hf1.
  pose proof (pow2_le A acc ltac:(lia)).
  assert (E1 : 2 ^ (A - 1) = 2 * 2 ^ (A - 2)) by (rewrite <- pow2_succ by (unfold prec in *; lia); f_equal; lia).
  pose proof (pow2_pos (A - 2) ltac:(unfold prec in *; lia)).
  assert (Em : m = if st then a - b - 1 else a - b).
  { unfold m. rewrite (wrap_small _ (a - b)) by (unfold inU; lia). destruct st; auto.
    apply wrap_small. unfold inU. specialize (Hst eq_refl). lia. }
  assert (Hm : 0 < m < 2 ^ A). { rewrite Em. destruct st; [specialize (Hst eq_refl)|]; lia. }
  assert (Hd : st = true -> prec F < digits m).
  { intros E. specialize (Hst E). rewrite E in Em.
    destruct (Z_lt_le_dec (prec F) (digits m)); auto. exfalso.
    assert (2 <= prec F) by (unfold prec; lia).
    pose proof (digits_bounds m ltac:(lia)). pose proof (pow2_le (digits m) (A - 2) ltac:(lia)). lia. }
  split; [lia|]. rewrite rn_norm by auto. apply brk_rounded; auto; [lia|].
  rewrite Em. apply brk_sub; auto.
Qed.

Lemma fma_sub_spec : forall ps zs pa pst za zst base x y, 0 <= pa < 2 ^ A -> 0 <= za < 2 ^ A ->
  (2 ^ (A - 1) <= pa \/ 2 ^ (A - 1) <= za) ->
  (pst = true -> zst = false /\ pa < 2 ^ (A - 2)) -> (zst = true -> pst = false /\ za < 2 ^ (A - 2)) ->
  brk pa pst base x -> brk za zst base y -> zs = negb ps ->
  exists b, fma_sub F dm T ps zs pa pst za zst base = FVal b /\
    rounded F dm (sg ps * x + sg zs * y) (down_sign dm) b.
Proof.
  intros ps zs pa pst za zst base x y Hp Hz Ht Hps Hzs Bp Bz Es. pose proof (gf_fl F HF) as Hf1.
  assert (E1 : 2 ^ (A - 1) = 2 * 2 ^ (A - 2)) by (rewrite <- pow2_succ by (unfold prec in *; lia); f_equal; lia).
  pose proof (pow2_pos (A - 2) ltac:(unfold prec in *; lia)).
  assert (EV1 : (sg ps * x + sg zs * y = sg ps * (x - y))%R) by (subst zs; unfold sg; destruct ps; cbn; ring).
  assert (EV2 : (sg ps * x + sg zs * y = sg zs * (y - x))%R) by (subst zs; unfold sg; destruct ps; cbn; ring).
  unfold fma_sub. destruct (Z.ltb_spec za pa); [|destruct (Z.ltb_spec pa za)].
  - change (1 =? 0) with false. change (0 <? 1) with true. cbv iota.
    assert (pst = false) as -> by (destruct pst; auto; specialize (Hps eq_refl); lia).
    assert (zst = true -> 2 ^ (A - 1) <= pa /\ za < 2 ^ (A - 2)) by (intros E; specialize (Hzs E); lia).
    destruct (fma_sub_core ps pa za zst base x y (down_sign dm)) as (Hm & HR); auto; try lia.
    rewrite EV1. destruct zst; unfold int_is_zero; cbv beta iota in Hm, HR |- *;
      (match goal with |- context [?m =? 0] => replace (m =? 0) with false by lia end; eexists; split; [reflexivity|exact HR]).
  - change (-1 =? 0) with false. change (0 <? -1) with false. cbv iota.
    assert (zst = false) as -> by (destruct zst; auto; specialize (Hzs eq_refl); lia).
    assert (pst = true -> 2 ^ (A - 1) <= za /\ pa < 2 ^ (A - 2)) by (intros E; specialize (Hps E); lia).
    destruct (fma_sub_core zs za pa pst base y x (down_sign dm)) as (Hm & HR); auto; try lia.
    rewrite EV2. destruct pst; unfold int_is_zero; cbv beta iota in Hm, HR |- *;
      (match goal with |- context [?m =? 0] => replace (m =? 0) with false by lia end; eexists; split; [reflexivity|exact HR]).
  - assert (pst = false) as -> by (destruct pst; auto; specialize (Hps eq_refl); lia).
    assert (zst = false) as -> by (destruct zst; auto; specialize (Hzs eq_refl); lia).
    change (Bool.eqb false false) with true. cbn [negb]. change (0 =? 0) with true. cbv iota.
    eexists. split; [reflexivity|]. rewrite (fp_zero_eq2 F HF Hel), EV1.
    replace (x - y)%R with 0%R. 2:{ unfold brk in *. replace za with pa in * by lia. lra. }
    rewrite Rmult_0_r. destruct (f_zero_props F HF (down_sign dm)) as (Pz & Fz & _ & Sz & Vz).
    rewrite <- Sz at 1. rewrite <- Vz. apply (rounded_self F HF); auto.
Qed.

Lemma rounded_zs : forall x zs zs' b, x <> 0%R -> rounded F dm x zs b -> rounded F dm x zs' b.
Proof. intros x zs zs' b Hx. unfold rounded. rewrite Req_bool_false by auto. auto. Qed.

Lemma prod_sign_eq : forall x y, prod_sign F x y = xorb (sign_of F x) (sign_of F y).
Proof. intros. unfold prod_sign. rewrite !(fp_sign_eq F HF). destruct (sign_of F x), (sign_of F y); reflexivity. Qed.
Lemma down_sign_eq : down_sign dm = is_rdn dm.
Proof. destruct dm; reflexivity. Qed.
Lemma fin_nan' : forall x, is_fin F x = true -> is_nan F x = false /\ is_inf F x = false.
Proof. intros x. unfold is_fin, is_nan, is_inf. intros. lia. Qed.

Lemma special_fin : forall x y z, is_fin F x = true -> is_fin F y = true -> is_fin F z = true ->
  special_case_fma F dm x y z =
  if (mag_of F x =? 0) || (mag_of F y =? 0) then
    if mag_of F z =? 0
    then Some (f_zero F (if Bool.eqb (xorb (sign_of F x) (sign_of F y)) (sign_of F z) then sign_of F z else is_rdn dm))
    else Some z
  else None.
Proof.
  intros x y z Hx Hy Hz. unfold special_case_fma.
  rewrite !(fp_is_nan_eq F HF Hel), !(fp_is_inf_eq F HF Hel), !(fp_is_zero_eq F HF), !prod_sign_eq, !(fp_sign_eq F HF), (fp_zero_eq2 F HF Hel), down_sign_eq by assumption.
  destruct (fin_nan' x Hx) as [-> ->], (fin_nan' y Hy) as [-> ->], (fin_nan' z Hz) as [-> ->]. cbn [orb].
  destruct (Bool.eqb (xorb (sign_of F x) (sign_of F y)) (sign_of F z)) eqn:E; cbn [negb]; auto.
  apply eqb_prop in E. rewrite E. reflexivity.
Qed.

Lemma qnan0_eq : fp_quiet_nan F false 0 = qnan F.
Proof.
  unfold fp_quiet_nan. rewrite (encode_eq F HF Hel), (biased_inf F HF Hel).
  rewrite Z.lor_0_r. unfold Significand_msb. pose proof (gf_fl F HF).
  rewrite Z.mod_small. { unfold pack, qnan, inf_mag, sbit. lia. }
  rewrite (pow2_half (fl F)) by lia. pose proof (pow2_pos (fl F - 1) ltac:(lia)). lia.
Qed.
Lemma sign_pos_range : forall b, is_pattern F b -> sign_of F b = false -> 0 <= b < sign_unit F.
Proof.
  intros b Pb Sb. rewrite (pattern_split F HF b) by auto. rewrite Sb. change (sbit F false) with 0.
  pose proof (mag_range F HF b). lia.
Qed.
Theorem fixed_fma_fin : forall x y z, is_pattern F z ->
  is_fin F x = true -> is_fin F y = true -> is_fin F z = true ->
  exists b, fixed_fma F dm T x y z = FVal b /\
  rounded F dm (fval F x * fval F y + fval F z)
    (if Bool.eqb (xorb (sign_of F x) (sign_of F y)) (sign_of F z) then sign_of F z else is_rdn dm) b.
Proof.
  intros x y z Pz Hx Hy Hz. unfold fixed_fma. rewrite special_fin by auto.
  destruct ((mag_of F x =? 0) || (mag_of F y =? 0)) eqn:E0.
  - assert (V0 : (fval F x * fval F y = 0)%R).
    { rewrite (fval_fin F x), (fval_fin F y) by auto. apply orb_prop in E0.
      destruct E0 as [E|E]; apply Z.eqb_eq in E; rewrite E, (mval_0 F HF); ring. }
    rewrite V0, Rplus_0_l. destruct (Z.eqb_spec (mag_of F z) 0) as [Ez|Ez].
    + eexists. split; [reflexivity|]. set (s := if Bool.eqb _ _ then sign_of F z else is_rdn dm).
      rewrite (fval_fin F z), Ez, (mval_0 F HF), Rmult_0_r by auto.
      destruct (f_zero_props F HF s) as (Pz' & Fz' & _ & Sz & Vz).
      rewrite <- Sz at 1. rewrite <- Vz. apply (rounded_self F HF); auto.
    + eexists. split; [reflexivity|]. apply rounded_zs with (sign_of F z); [|apply (rounded_self F HF); auto].
      rewrite (fval_fin F z) by auto. assert (0 < mval F (mag_of F z))%R by (apply (mval_pos F HF); pose proof (mag_range F HF z); lia).
      unfold sg. destruct (sign_of F z); lra.
  - apply orb_false_elim in E0. destruct E0 as [Zx Zy]. apply Z.eqb_neq in Zx, Zy.
    destruct (decode_op x Hx Zx) as (mx & ex & -> & Rx & Vx). destruct (decode_op y Hy Zy) as (my & ey & -> & Ry & Vy).
    cbn [d_mant d_sign d_width d_lsb d_top].
    set (mp := mx * my). set (ep := ex + ey). set (ps := negb (Bool.eqb (sign_of F x) (sign_of F y))).
    pose proof (gf_fl F HF) as Hf1.
    assert (Rp : 0 < mp < 2 ^ (2 * prec F)).
    { unfold mp. replace (2 * prec F) with (prec F + prec F) by lia. rewrite Z.pow_add_r by (unfold prec; lia). nia. }
    assert (EP : ps = xorb (sign_of F x) (sign_of F y)) by (unfold ps; destruct (sign_of F x), (sign_of F y); reflexivity).
    rewrite <- EP.
    assert (VP : (fval F x * fval F y = sg ps * (IZR mp * bpow radix2 ep))%R).
    { rewrite Vx, Vy, EP, sg_xorb. unfold mp, ep. rewrite mult_IZR, bpow_plus. ring. }
    rewrite (wrap_small (product_int T)).
    2:{ unfold inU. pose proof (pow2_le (2 * prec F) (product_int T) Hprod). lia. }
    rewrite !int_bit_width_eq. destruct (top_acc_spec mp Rp) as (-> & RT & VT & _).
    rewrite (fp_is_zero_eq F HF). rewrite VP.
    destruct (Z.eqb_spec (mag_of F z) 0) as [Ez|Ez].
    + eexists. split; [reflexivity|]. rewrite (fval_fin F z), Ez, (mval_0 F HF), Rmult_0_r, Rplus_0_r by auto.
      rewrite round_normalized_eq by auto. rewrite VT.
      pose proof (pow2_pos (A - 1) ltac:(unfold prec in *; lia)).
      apply brk_rounded; [lia|apply brk_exact|discriminate].
    + destruct (decode_op z Hz Ez) as (mz & ez & -> & Rz & Vz). cbn [d_mant d_sign d_width d_lsb d_top].
      assert (Rz2 : 0 < mz < 2 ^ (2 * prec F)) by (pose proof (pow2_le (prec F) (2 * prec F) ltac:(unfold prec; lia)); lia).
      destruct (top_acc_spec mz Rz2) as (-> & _).
      destruct (fma_align_spec mp ep mz ez Rp Rz2) as (pa & pst & za & zst & base & -> & Bp & Bz & Hp & Hz' & Ht & Sp & Sz).
      rewrite Vz. destruct (Bool.eqb ps (sign_of F z)) eqn:ES.
      * eexists. split; [reflexivity|]. apply eqb_prop in ES. rewrite <- ES.
        rewrite <- Rmult_plus_distr_l. apply fma_add_spec; auto.
        destruct zst.
        -- destruct (Sz eq_refl) as [-> _]. cbn [orb]. rewrite Z.add_comm, Rplus_comm. apply brk_add; auto.
        -- rewrite orb_false_r. apply brk_add; auto.
      * destruct (fma_sub_spec ps (sign_of F z) pa pst za zst base _ _ Hp Hz' Ht Sp Sz Bp Bz) as (b & Eb & Rb).
        { destruct ps, (sign_of F z); cbn in *; congruence. }
        exists b. split; [exact Eb|exact Rb].
Qed.

(** ** Special operands *)
Lemma quiet_prop : forall x, is_pattern F x -> fp_is_quiet_nan F x = true -> propagate_quiet_nan F x = x /\ is_nan F x = true.
Proof.
  intros x Px Hq. pose proof (fl_pos F HF) as HP. pose proof (gf_fl F HF) as Hf1.
  rewrite (fp_is_quiet_nan_eq F HF Hel) in Hq. apply Z.leb_le in Hq.
  assert (Hh : 2 ^ fl F = 2 * 2 ^ (fl F - 1)) by (rewrite <- pow2_succ by lia; f_equal; lia).
  pose proof (pow2_pos (fl F - 1) ltac:(lia)).
  split.
  - unfold propagate_quiet_nan, fp_quiet_nan. rewrite (fp_sign_eq F HF), (get_mantissa_eq F HF).
    rewrite (encode_eq F HF Hel), (biased_inf F HF Hel).
    pose proof (man_mag F HF x) as EM. unfold man_field in EM. rewrite EM.
    unfold qnan, inf_mag in Hq. pose proof (mag_range F HF x) as HR. rewrite (sign_unit_split F HF) in HR.
    assert (EX : 2 ^ el F = expmax F + 1) by (unfold expmax; lia). rewrite EX in HR.
    assert (QD : mag_of F x / 2 ^ fl F = expmax F) by (symmetry; apply Z.div_unique with (mag_of F x - expmax F * 2 ^ fl F); lia).
    pose proof (Z.div_mod (mag_of F x) (2 ^ fl F) ltac:(lia)) as DM. rewrite QD in DM.
    set (l := mag_of F x mod 2 ^ fl F) in *.
    assert (L : Z.lor (Significand_msb F) l = l).
    { unfold Significand_msb. set (k := fl F - 1) in *. 
      replace l with (1 * 2 ^ k + (l - 2 ^ k)) at 1 by lia.
      rewrite <- lor_add by lia. rewrite Z.mul_1_l, Z.lor_assoc, Z.lor_diag.
      rewrite <- (Z.mul_1_l (2 ^ k)) at 1. rewrite lor_add by lia. lia. }
    rewrite L. pose proof (Z.mod_pos_bound (mag_of F x) (2 ^ fl F) HP). rewrite Z.mod_small by (unfold l; lia).
    unfold pack. rewrite (pattern_split F HF x) at 2 by auto. lia.
  - unfold is_nan, qnan in *. apply Z.ltb_lt. lia.
Qed.

Notation quiet := (quiet F).
Lemma quiet_eq : forall b, fp_is_quiet_nan F b = true <-> quiet b.
Proof.
  intros b. destruct (quiet_spec F HF Hel b) as (H & _). destruct (decode_cases F b) as (D & _).
  unfold quiet. rewrite H, <- D. tauto.
Qed.

Theorem fixed_fma_nan : forall x y z, is_pattern F x -> is_pattern F y -> is_pattern F z ->
  is_nan F x = true \/ is_nan F y = true \/ is_nan F z = true ->
  exists b, fixed_fma F dm T x y z = FVal b /\ is_pattern F b /\ quiet b /\
    (quiet x -> b = x) /\ (~ quiet x -> quiet y -> b = y) /\ (~ quiet x -> ~ quiet y -> quiet z -> b = z).
Proof.
  intros x y z Px Py Pz Hn. unfold fixed_fma, special_case_fma. rewrite !(fp_is_nan_eq F HF Hel).
  replace (is_nan F x || is_nan F y || is_nan F z) with true
    by (destruct Hn as [->|[->| ->]]; rewrite ?orb_true_r; reflexivity).
  destruct (fp_is_quiet_nan F x) eqn:Qx.
  { destruct (quiet_prop x Px Qx) as (E & _). rewrite E. exists x. apply quiet_eq in Qx. tauto. }
  assert (NQx : ~ quiet x) by (rewrite <- quiet_eq; congruence).
  destruct (fp_is_quiet_nan F y) eqn:Qy.
  { destruct (quiet_prop y Py Qy) as (E & _). rewrite E. exists y. apply quiet_eq in Qy. tauto. }
  assert (NQy : ~ quiet y) by (rewrite <- quiet_eq; congruence).
  destruct (fp_is_quiet_nan F z) eqn:Qz.
  { destruct (quiet_prop z Pz Qz) as (E & _). rewrite E. exists z. apply quiet_eq in Qz. tauto. }
  assert (NQz : ~ quiet z) by (rewrite <- quiet_eq; congruence).
  rewrite qnan0_eq. destruct (qnan_props F HF) as (Pq & Nq & Sq). exists (qnan F). split; [reflexivity|]. split; [auto|].
  split; [|tauto]. apply quiet_eq. rewrite (fp_is_quiet_nan_eq F HF Hel). apply Z.leb_le.
  unfold mag_of. rewrite Z.mod_small; [lia|]. apply (sign_pos_range (qnan F)); auto.
Qed.

Theorem fixed_fma_inf : forall x y z, is_pattern F x -> is_pattern F y -> is_pattern F z ->
  is_nan F x = false -> is_nan F y = false -> is_nan F z = false ->
  ((is_inf F x = true /\ mag_of F y = 0) \/ (mag_of F x = 0 /\ is_inf F y = true) ->
     exists b, fixed_fma F dm T x y z = FVal b /\ is_pattern F b /\ is_nan F b = true) /\
  (is_inf F x = true \/ is_inf F y = true -> mag_of F x <> 0 -> mag_of F y <> 0 ->
     (is_inf F z = true -> sign_of F z <> xorb (sign_of F x) (sign_of F y) ->
        exists b, fixed_fma F dm T x y z = FVal b /\ is_pattern F b /\ is_nan F b = true) /\
     (is_fin F z = true \/ sign_of F z = xorb (sign_of F x) (sign_of F y) ->
        exists b, fixed_fma F dm T x y z = FVal b /\ is_pattern F b /\ is_inf F b = true /\
          sign_of F b = xorb (sign_of F x) (sign_of F y))) /\
  (is_fin F x = true -> is_fin F y = true -> is_inf F z = true -> fixed_fma F dm T x y z = FVal z).
Proof.
  intros x y z Px Py Pz Nx Ny Nz.
  unfold fixed_fma, special_case_fma.
  rewrite !(fp_is_nan_eq F HF Hel), !(fp_is_inf_eq F HF Hel), !(fp_is_zero_eq F HF), !prod_sign_eq, !(fp_sign_eq F HF), qnan0_eq, (fp_inf_eq F HF Hel) by assumption.
  rewrite Nx, Ny, Nz. cbn [orb]. destruct (qnan_props F HF) as (Pq & Nq & _).
  set (s := xorb (sign_of F x) (sign_of F y)). destruct (f_inf_props F HF s) as (Pi & Ii & Si).
  split; [|split].
  - intros [[H1 H2]|[H1 H2]].
    + rewrite H1, H2. change (0 =? 0) with true. rewrite orb_true_r. cbn [orb]. exists (qnan F). auto.
    + rewrite H1, H2. change (0 =? 0) with true. rewrite orb_true_r. cbn [orb]. exists (qnan F). auto.
  - intros Hi Zx Zy. replace (is_inf F x || is_inf F y) with true by (destruct Hi as [->| ->]; rewrite ?orb_true_r; reflexivity).
    replace (mag_of F x =? 0) with false by lia. replace (mag_of F y =? 0) with false by lia. cbn [orb]. split.
    + intros Iz Hs. rewrite Iz. replace (Bool.eqb (sign_of F z) s) with false by (symmetry; apply eqb_false_iff; auto).
      cbn [negb andb]. exists (qnan F). auto.
    + intros Hc. replace (is_inf F z && negb (Bool.eqb (sign_of F z) s)) with false; [exists (f_inf F s); auto|].
      symmetry. destruct Hc as [Hf|Hs].
      * destruct (fin_nan' z Hf) as [_ ->]. reflexivity.
      * rewrite Hs. unfold s at 1 2. rewrite eqb_reflx. apply andb_false_r.
  - intros Fx Fy Iz. destruct (fin_nan' x Fx) as [_ ->], (fin_nan' y Fy) as [_ ->]. cbn [orb]. rewrite Iz. reflexivity.
Qed.
End S.

Lemma fma_kernel : forall F dm T x y z, good_fmt F -> el F <= 16 ->
  2 * prec F + 2 <= accumulator_bits T -> accumulator_bits T + 1 <= acc_int T -> 2 * prec F <= product_int T ->
  is_pattern F z -> is_fin F x = true -> is_fin F y = true -> is_fin F z = true ->
  exists b, fixed_fma F dm T x y z = FVal b /\
    rounded F dm (fval F x * fval F y + fval F z) (zero_sum_sign dm (xorb (sign_of F x) (sign_of F y)) (sign_of F z)) b.
Proof.
  intros F dm T x y z HF Hel H1 H2 H3. exact (fixed_fma_fin F HF Hel dm T H1 H2 H3 x y z).
Qed.
Lemma fmaf_fin : forall dm x y z, is_pattern binary32 z ->
  is_fin binary32 x = true -> is_fin binary32 y = true -> is_fin binary32 z = true ->
  exists b, cc_fmaf dm x y z = FVal b /\
    rounded binary32 dm (fval binary32 x * fval binary32 y + fval binary32 z)
      (zero_sum_sign dm (xorb (sign_of binary32 x) (sign_of binary32 y)) (sign_of binary32 z)) b.
Proof.
  intros dm x y z. apply fma_kernel; [exact good32|..]; cbn; lia.
Qed.
Lemma fma_fin : forall dm x y z, is_pattern binary64 z ->
  is_fin binary64 x = true -> is_fin binary64 y = true -> is_fin binary64 z = true ->
  exists b, cc_fma dm x y z = FVal b /\
    rounded binary64 dm (fval binary64 x * fval binary64 y + fval binary64 z)
      (zero_sum_sign dm (xorb (sign_of binary64 x) (sign_of binary64 y)) (sign_of binary64 z)) b.
Proof.
  intros dm x y z. apply fma_kernel; [exact good64|..]; cbn; lia.
Qed.
Lemma fixed_fma_zero : forall F, good_fmt F -> el F <= 16 -> forall dm T x y z,
  is_fin F x = true -> is_fin F y = true -> is_fin F z = true -> mag_of F x = 0 \/ mag_of F y = 0 ->
  exists b, fixed_fma F dm T x y z = FVal b /\
    (mag_of F z <> 0 -> b = z) /\
    (mag_of F z = 0 -> is_pattern F b /\ mag_of F b = 0 /\
       sign_of F b = zero_sum_sign dm (xorb (sign_of F x) (sign_of F y)) (sign_of F z)).
Proof.
  intros F HF Hel dm T x y z Fx Fy Fz H0. unfold fixed_fma. rewrite special_fin by auto.
  replace ((mag_of F x =? 0) || (mag_of F y =? 0)) with true by (destruct H0 as [->| ->]; rewrite ?orb_true_r; reflexivity).
  destruct (Z.eqb_spec (mag_of F z) 0) as [E|E].
  - eexists. split; [reflexivity|]. split; [intros; contradiction|]. intros _.
    set (s := if Bool.eqb _ _ then sign_of F z else is_rdn dm). destruct (f_zero_props F HF s) as (P & _ & M & S & _). auto.
  - exists z. split; [reflexivity|]. split; auto. intros; contradiction.
Qed.
Lemma shift_sticky_prop : forall digits v n, 0 <= v < 2 ^ digits -> 0 <= n ->
  exists flag r, shift_right_with_sticky digits n v = (flag, r) /\ r = v / 2 ^ n /\ (flag = true <-> r * 2 ^ n <> v).
Proof.
  intros digits v n Hv Hn. rewrite shift_sticky_spec by auto. do 2 eexists. split; [reflexivity|]. split; [reflexivity|].
  pose proof (pow2_pos n Hn). pose proof (Z.div_mod v (2 ^ n) ltac:(lia)).
  destruct (Z.eqb_spec (v mod 2 ^ n) 0); cbn; split; intros; try discriminate; try lia; auto.
Qed.
