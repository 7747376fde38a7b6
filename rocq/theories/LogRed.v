(** * The argument reduction of the logarithms: x = z * 2^k with z near 1 *)
From Coq Require Import ZArith Lia Bool Reals Lra.
From Flocq Require Import Core.
From Verif Require Import MachInt Fmt FloatSpec FmtProofs RoundProofs FOps FOpsProofs ExactOps ExtFloatSpec ExtFloatProofs ExtInterp FmanipWide.
Open Scope Z_scope.

Section Gen.
Context (F : fmt) (HF : good_fmt F).
Local Notation f := (fl F).
Local Notation bp := (bpow radix2).

(** Positive normal patterns. *)
Lemma pos_patF : forall p, 2 ^ f <= p < inf_mag F -> is_real F p (IZR (2 ^ f + p mod 2 ^ f) * bp (p / 2 ^ f + emin F - 1)).
Proof.
  intros p Hp. pose proof (gf_fl F HF) as Hf. pose proof (gf_el F HF) as He. pose proof (Z.pow_pos_nonneg 2 f ltac:(lia) ltac:(lia)) as P2.
  assert (IS : inf_mag F < sign_unit F). { unfold inf_mag, sign_unit, expmax. rewrite Z.pow_add_r by lia. nia. }
  assert (SW : 2 ^ width F = 2 * sign_unit F). { unfold width, sign_unit. rewrite <- Z.pow_succ_r by lia. f_equal; lia. }
  assert (P : is_pattern F p) by (split; lia).
  assert (M : mag_of F p = p) by (unfold mag_of; apply Z.mod_small; lia).
  assert (Fi : is_fin F p = true) by (unfold is_fin; rewrite M; apply Z.ltb_lt; apply Hp).
  split; [auto|split; [auto|]]. unfold fval, decode. rewrite M. replace (p <? inf_mag F) with true by (symmetry; apply Z.ltb_lt; apply Hp).
  cbn [dval]. replace (sign_of F p) with false.
  2: { symmetry. rewrite (sign_of_eq F HF) by auto. apply Z.leb_gt. lia. }
  unfold sig_of, exp_of. destruct (Z.ltb_spec p (2 ^ f)); [lia|]. rewrite Rmult_1_l. do 2 f_equal. lia.
Qed.
Lemma scale_patF : forall p j, 2 ^ f <= p < inf_mag F -> 2 ^ f <= p + j * 2 ^ f < inf_mag F -> fval F (p + j * 2 ^ f) = (fval F p * bp j)%R.
Proof.
  intros p j Hp Hq. pose proof (gf_fl F HF) as Hf. pose proof (Z.pow_pos_nonneg 2 f ltac:(lia) ltac:(lia)) as P2.
  destruct (pos_patF p Hp) as (_ & _ & ->). destruct (pos_patF _ Hq) as (_ & _ & ->).
  rewrite Z.mod_add, Z.div_add by lia. rewrite Rmult_assoc, <- bpow_plus. do 2 f_equal. lia.
Qed.
(** [off] is the pattern of the least z; b bits after the exponent select the table entry. *)
Lemma reduce_gen : forall off b mk p s, let w := width F in
  2 ^ f <= off -> off + 2 ^ f <= inf_mag F -> 0 <= b <= f -> 2 ^ f <= p < inf_mag F -> 0 <= s -> p - s * 2 ^ f - off >= - 2 ^ (w - 1) ->
  wrap w (Z.shiftl mk f) = 2 ^ w - 2 ^ f ->
  let u := wrap w (p - s * 2 ^ f) in let tmp := wrap w (u - off) in
  let iz := wrap w (u - Z.land tmp (wrap w (Z.shiftl mk f))) in let k := Z.shiftr (to_signed w tmp) f in let i := Z.shiftr tmp (f - b) mod 2 ^ b in
  0 <= i < 2 ^ b /\ off + i * 2 ^ (f - b) <= iz < off + (i + 1) * 2 ^ (f - b) /\ iz = p - (k + s) * 2 ^ f /\
  k = (p - s * 2 ^ f - off) / 2 ^ f /\ (fval F p * bp (- s) = fval F iz * bp k)%R.
Proof.
  intros off b mk p s w H1 H2 Hb Hp Hs HL HM u tmp iz k i.
  pose proof (gf_fl F HF) as Hf. pose proof (gf_el F HF) as He. pose proof (Z.pow_pos_nonneg 2 f ltac:(lia) ltac:(lia)) as P2.
  assert (Hw : f + 1 <= w - 1) by (unfold w, width; lia).
  assert (IS : inf_mag F < 2 ^ (w - 1)). { unfold w, width, inf_mag, expmax. replace (f + el F + 1 - 1) with (el F + f) by ring. rewrite Z.pow_add_r by lia. nia. }
  set (d := p - s * 2 ^ f - off) in *.
  assert (T : tmp = wrap w d). { unfold tmp, u, d, wrap. rewrite Zminus_mod_idemp_l. reflexivity. }
  assert (Q1 : 0 <= s * 2 ^ f) by nia. assert (DS : inS w d) by (unfold inS, d; split; lia).
  assert (K : k = d / 2 ^ f). { unfold k. rewrite T, to_signed_of_S by (auto; lia). apply Z.shiftr_div_pow2. lia. }
  assert (WF : 2 ^ w = 2 ^ f * 2 ^ (w - f)) by (rewrite <- Z.pow_add_r by lia; f_equal; lia).
  assert (TM : tmp mod 2 ^ f = d mod 2 ^ f). { rewrite T. unfold wrap. rewrite WF. rewrite Z.rem_mul_r by lia. rewrite Z.mul_comm, Z.mod_add, Z.mod_mod by lia. reflexivity. }
  assert (TR : 0 <= tmp < 2 ^ w) by (apply Z.mod_pos_bound; lia).
  assert (LA : Z.land tmp (wrap w (Z.shiftl mk f)) = tmp - d mod 2 ^ f).
  { rewrite HM. replace (2 ^ w - 2 ^ f) with (Z.shiftl (Z.ones (w - f)) f). 2: { rewrite Z.shiftl_mul_pow2, Z.ones_equiv, WF by lia. lia. }
    rewrite <- TM, <- (Z.land_ones tmp f) by lia.
    assert (X : tmp = Z.lor (Z.land tmp (Z.shiftl (Z.ones (w - f)) f)) (Z.land tmp (Z.ones f))).
    { apply Z.bits_inj'. intros n Hn. rewrite Z.lor_spec, !Z.land_spec. destruct (Z.ltb_spec n f).
      - rewrite Z.shiftl_spec_low, Z.ones_spec_low by lia. destruct (Z.testbit tmp n); reflexivity.
      - rewrite Z.shiftl_spec by lia. rewrite (Z.ones_spec_high f) by lia. destruct (Z.ltb_spec n w).
        + rewrite Z.ones_spec_low by lia. destruct (Z.testbit tmp n); reflexivity.
        + replace (Z.testbit tmp n) with false; [reflexivity|]. symmetry. destruct (Z.eq_dec tmp 0) as [->|]; [apply Z.bits_0|].
          apply Z.bits_above_log2; [lia|]. apply Z.log2_lt_pow2; [lia|]. apply Z.lt_le_trans with (2 ^ w); [lia|]. apply Z.pow_le_mono_r; lia. }
    assert (Y : Z.land (Z.land tmp (Z.shiftl (Z.ones (w - f)) f)) (Z.land tmp (Z.ones f)) = 0).
    { apply Z.bits_inj'. intros n Hn. rewrite !Z.land_spec, Z.bits_0. destruct (Z.ltb_spec n f).
      - rewrite Z.shiftl_spec_low by lia. destruct (Z.testbit tmp n); reflexivity.
      - rewrite (Z.ones_spec_high f) by lia. destruct (Z.testbit tmp n), (Z.testbit (Z.shiftl (Z.ones (w - f)) f) n); reflexivity. }
    rewrite <- Z.lxor_lor in X by auto. rewrite <- Z.add_nocarry_lxor in X by auto. lia. }
  pose proof (Z.div_mod d (2 ^ f) ltac:(lia)) as DM. pose proof (Z.mod_pos_bound d (2 ^ f) ltac:(lia)) as MB.
  assert (IZ : iz = off + d mod 2 ^ f).
  { unfold iz. rewrite LA. rewrite <- (wrap_small w (off + d mod 2 ^ f)).
    2: { unfold inU. split; [lia|]. assert (2 ^ w = 2 * 2 ^ (w - 1)) by (rewrite <- Z.pow_succ_r by lia; f_equal; lia). lia. }
    unfold wrap. rewrite T. unfold u, wrap. replace ((p - s * 2 ^ f) mod 2 ^ w - (d mod 2 ^ w - d mod 2 ^ f)) with ((p - s * 2 ^ f) mod 2 ^ w - d mod 2 ^ w + d mod 2 ^ f) by ring.
    rewrite <- (Zplus_mod_idemp_l (_ - _)). rewrite <- Zminus_mod. rewrite Zplus_mod_idemp_l. f_equal. unfold d. ring. }
  assert (FB : 2 ^ f = 2 ^ (f - b) * 2 ^ b) by (rewrite <- Z.pow_add_r by lia; f_equal; lia).
  pose proof (Z.pow_pos_nonneg 2 (f - b) ltac:(lia) ltac:(lia)) as P3. pose proof (Z.pow_pos_nonneg 2 b ltac:(lia) ltac:(lia)) as P4.
  assert (I : i = d mod 2 ^ f / 2 ^ (f - b)).
  { unfold i. rewrite Z.shiftr_div_pow2 by lia. rewrite <- TM, FB. rewrite Z.rem_mul_r by lia.
    rewrite Z.mul_comm, Z.div_add by lia. rewrite (Z.div_small (tmp mod _)) by (apply Z.mod_pos_bound; lia). reflexivity. }
  pose proof (Z.div_mod (d mod 2 ^ f) (2 ^ (f - b)) ltac:(lia)) as DM2. pose proof (Z.mod_pos_bound (d mod 2 ^ f) (2 ^ (f - b)) ltac:(lia)) as MB2.
  rewrite <- I in DM2. assert (E : iz = p - (k + s) * 2 ^ f) by (rewrite IZ, K; unfold d in *; lia).
  split; [apply Z.mod_pos_bound; lia|]. split; [lia|]. split; [auto|]. split; [auto|].
  assert (E' : p = iz + (k + s) * 2 ^ f) by lia. rewrite E' at 1. rewrite scale_patF by lia.
  rewrite Rmult_assoc, <- bpow_plus. do 2 f_equal. lia.
Qed.
End Gen.
