(** * Proofs: sqrt is correctly rounded *)
From Coq Require Import ZArith Reals Bool Lia Lra.
From Flocq Require Import Core.
From Verif Require Import MachInt Bits BitsProofs Fmt FloatSpec FmtProofs RoundProofs FOps FOpsProofs ExactOps
  FPBits FPBitsProofs FmanipProofs NextProofs Sqrt SqrtSpec.
Open Scope Z_scope.

Lemma sq_lt : forall a b, 0 <= a -> 0 <= b -> a * a < b * b -> a < b.
Proof. intros. nia. Qed.

(** ** The digit recurrence *)
Lemma sqrt_loop_spec : forall w p M, 0 <= p -> p + 4 <= w -> 0 <= M < 4 * 2 ^ p ->
  forall n fuel y r, Z.of_nat n <= p -> (n <= fuel)%nat ->
  2 ^ Z.of_nat n * r = M * 2 ^ p - y * y -> 0 <= r < 2 * y + 2 ^ Z.of_nat n -> 2 ^ p <= y ->
  exists y' r', sqrt_loop w fuel (2 ^ Z.of_nat n / 2) y r = Some (y', r') /\
    r' = M * 2 ^ p - y' * y' /\ 0 <= r' <= 2 * y' /\ 2 ^ p <= y' < 2 * 2 ^ p.
Proof.
  intros w p M Hp Hw HM. assert (HP : 0 < 2 ^ p) by (apply pow2_pos; lia).
  assert (HW : 16 * 2 ^ p <= 2 ^ w).
  { change 16 with (2 ^ 4). rewrite <- Z.pow_add_r by lia. apply pow2_le. lia. }
  assert (HY : forall n y r, 2 ^ Z.of_nat n * r = M * 2 ^ p - y * y -> 0 <= r -> 2 ^ p <= y -> y < 2 * 2 ^ p).
  { intros n y r E Hr Hy. pose proof (pow2_pos (Z.of_nat n) ltac:(lia)). apply sq_lt; [lia..|]. nia. }
  induction n; intros fuel y r Hn Hf E Hr Hy.
  - exists y, r. change (2 ^ Z.of_nat 0) with 1 in *. change (1 / 2) with 0.
    assert (y < 2 * 2 ^ p) by (apply (HY O y r); change (2 ^ Z.of_nat 0) with 1; lia).
    destruct fuel; cbn [sqrt_loop Z.eqb]; repeat split; lia.
  - destruct fuel as [|fuel]; [lia|].
    assert (Hy2 : y < 2 * 2 ^ p) by (apply (HY (S n) y r); lia).
    rewrite Nat2Z.inj_succ in *. unfold Z.succ in *.
    rewrite pow2_succ in * by lia. set (b := 2 ^ Z.of_nat n) in *.
    assert (Hb : 0 < b) by (unfold b; apply pow2_pos; lia).
    assert (Hbp : 2 * b <= 2 ^ p).
    { unfold b. rewrite <- pow2_succ by lia. apply pow2_le. lia. }
    replace (2 * b / 2) with b by (rewrite Z.mul_comm, Z.div_mul; lia).
    cbn [sqrt_loop]. replace (b =? 0) with false by lia.
    rewrite !Z.shiftl_mul_pow2 by lia. change (2 ^ 1) with 2.
    rewrite (wrap_small w (r * 2)) by (unfold inU; lia).
    rewrite (wrap_small w (y * 2)) by (unfold inU; lia).
    rewrite (wrap_small w (y * 2 + b)) by (unfold inU; lia).
    rewrite Z.shiftr_div_pow2 by lia. change (2 ^ 1) with 2.
    destruct (Z.leb_spec (y * 2 + b) (r * 2)).
    + rewrite (wrap_small w (y + b)) by (unfold inU; lia).
      rewrite (wrap_small w (r * 2 - (y * 2 + b))) by (unfold inU; lia).
      apply IHn; fold b; try lia.
    + apply IHn; fold b; try lia.
Qed.

Lemma sqrt_digit_spec : forall w p y r, 0 <= p -> p + 4 <= w -> 0 <= r <= 2 * y -> 0 <= y < 2 * 2 ^ p ->
  exists rb r', sqrt_round_digit w y r = (rb, r') /\
    r' = 4 * (r + y * y) - (2 * y + b2z rb) * (2 * y + b2z rb) /\
    0 <= r' <= 2 * (2 * y + b2z rb).
Proof.
  intros w p y r Hp Hw Hr Hy. assert (HP : 0 < 2 ^ p) by (apply pow2_pos; lia).
  assert (HW : 16 * 2 ^ p <= 2 ^ w).
  { change 16 with (2 ^ 4). rewrite <- Z.pow_add_r by lia. apply pow2_le. lia. }
  unfold sqrt_round_digit. rewrite !Z.shiftl_mul_pow2 by lia. change (2 ^ 2) with 4.
  rewrite (wrap_small w (r * 4)) by (unfold inU; lia).
  rewrite (wrap_small w (y * 4)) by (unfold inU; lia).
  rewrite (wrap_small w (y * 4 + 1)) by (unfold inU; lia).
  destruct (Z.leb_spec (y * 4 + 1) (r * 4)).
  - rewrite wrap_small by (unfold inU; lia). do 2 eexists. split; [reflexivity|]. cbn [b2z]. lia.
  - do 2 eexists. split; [reflexivity|]. cbn [b2z]. lia.
Qed.

(** ** Real square root bracketed by the integer one *)
Lemma sqrt_bracket : forall N Y r, 0 <= Y -> r = N - Y * Y -> 0 <= r <= 2 * Y ->
  if negb (r =? 0) then (IZR Y < sqrt (IZR N) < IZR (Y + 1))%R else sqrt (IZR N) = IZR Y.
Proof.
  intros N Y r HY Er Hr. assert (H0 : (0 <= IZR Y)%R) by (apply IZR_le; lia).
  destruct (Z.eqb_spec r 0) as [E|E]; cbn [negb].
  - replace N with (Y * Y) by lia. rewrite mult_IZR. apply sqrt_square. auto.
  - split.
    + rewrite <- (sqrt_square (IZR Y)) by auto. rewrite <- mult_IZR. apply sqrt_lt_1_alt.
      split; [apply IZR_le; nia|apply IZR_lt; lia].
    + rewrite <- (sqrt_square (IZR (Y + 1))) by (apply IZR_le; lia). rewrite <- mult_IZR. apply sqrt_lt_1_alt.
      split; [apply IZR_le; nia|apply IZR_lt; lia].
Qed.

Lemma sqrt_scale : forall N k, (0 <= N)%R -> (sqrt (N * bpow radix2 (2 * k)) = sqrt N * bpow radix2 k)%R.
Proof.
  intros N k HN. rewrite sqrt_mult_alt by auto. f_equal.
  replace (2 * k) with (k + k) by lia. rewrite bpow_plus. apply sqrt_square. apply bpow_ge_0.
Qed.

Lemma norm_shift : forall a p, 0 <= p -> 0 < a < 2 ^ p ->
  let s := p + 1 - digits a in 1 <= s <= p /\ 2 ^ p <= a * 2 ^ s < 2 * 2 ^ p.
Proof.
  intros a p Hp Ha s. pose proof (digits_bounds a ltac:(lia)) as HD.
  assert (Hd1 : 1 <= digits a <= p).
  { unfold digits. replace (a =? 0) with false by lia. pose proof (Z.log2_nonneg a).
    assert (Z.log2 a < p) by (apply Z.log2_lt_pow2; lia). lia. }
  split; [unfold s; lia|]. pose proof (pow2_pos s ltac:(unfold s; lia)).
  assert (E1 : 2 ^ p = 2 ^ (digits a - 1) * 2 ^ s) by (rewrite <- Z.pow_add_r by (unfold s; lia); f_equal; unfold s; lia).
  assert (E2 : 2 * 2 ^ p = 2 ^ digits a * 2 ^ s).
  { rewrite <- pow2_succ by lia. rewrite <- Z.pow_add_r by (unfold s; lia); f_equal; unfold s; lia. }
  rewrite E1 at 1. rewrite E2. split; [apply Z.mul_le_mono_nonneg_r|apply Z.mul_lt_mono_pos_r]; lia.
Qed.

Section S.
Context (F : fmt) (HF : good_fmt F).

Lemma rounded_self : forall rm x, is_pattern F x -> is_fin F x = true -> rounded F rm (fval F x) (sign_of F x) x.
Proof.
  intros rm x Px Fx. assert (E : fround F rm (fval F x) = fval F x) by (apply (fround_exact F); apply (fval_format F HF)).
  pose proof (fin_bound F HF x Fx). unfold rounded. rewrite E. split; [auto|]. split; [|split; [auto|intros; lra]].
  destruct (Req_bool_spec (fval F x) 0); auto. apply (sign_fval F HF); auto.
Qed.

(** ** The packed and rounded result *)
Definition sqrt_packed (dm : rmode) (h y r : Z) (rb : bool) : Z :=
  (h + bias F) * 2 ^ fl F + (y - 2 ^ fl F) +
  b2z (match dm with
       | RNE => rb && (Z.odd y || negb (r =? 0))
       | RUP => rb || negb (r =? 0)
       | _ => false end).

Lemma land1 : forall v, negb (Z.land v 1 =? 0) = Z.odd v.
Proof.
  intros v. change 1 with (Z.ones 1). rewrite Z.land_ones by lia.
  change (2 ^ 1) with 2. rewrite Zmod_odd. destruct (Z.odd v); reflexivity.
Qed.

Lemma sqrt_round_eq : forall dm h y r rb, 2 ^ fl F <= y < 2 * 2 ^ fl F -> 1 - bias F <= h < bias F ->
  sqrt_round (width F) dm ((h + bias F) * 2 ^ fl F + (y - 2 ^ fl F)) r rb = sqrt_packed dm h y r rb.
Proof.
  intros dm h y r rb Hy Hh. pose proof (fl_pos F HF) as HP. pose proof (gf_fl F HF).
  assert (Ho : Z.odd ((h + bias F) * 2 ^ fl F + (y - 2 ^ fl F)) = Z.odd y).
  { assert (E : Z.odd (2 ^ fl F) = false).
    { replace (fl F) with (fl F - 1 + 1) by lia. rewrite pow2_succ by lia. rewrite Z.odd_mul. reflexivity. }
    rewrite Z.odd_add, Z.odd_mul, Z.odd_sub, E. destruct (Z.odd (h + bias F)), (Z.odd y); reflexivity. }
  assert (HB : (h + bias F) * 2 ^ fl F + (y - 2 ^ fl F) + 1 < 2 ^ width F).
  { rewrite (width_split F HF), (sign_unit_split F HF). pose proof (expmax_bias F HF).
    assert ((h + bias F) * 2 ^ fl F <= (2 * bias F - 1) * 2 ^ fl F) by (apply Z.mul_le_mono_nonneg_r; lia).
    assert (2 ^ el F = expmax F + 1) by (unfold expmax; lia). nia. }
  assert (HB0 : 0 <= (h + bias F) * 2 ^ fl F) by (apply Z.mul_nonneg_nonneg; lia).
  unfold sqrt_round, sqrt_packed. rewrite land1, Ho.
  destruct dm; try (cbn [b2z]; lia).
  - destruct (rb && (Z.odd y || negb (r =? 0))); cbn [b2z]; [rewrite wrap_small by (unfold inU; lia)|]; lia.
  - destruct (rb || negb (r =? 0)); cbn [b2z]; [rewrite wrap_small by (unfold inU; lia)|]; lia.
Qed.

Lemma sqrt_packed_encode : forall dm h y r rb, 2 ^ fl F <= y < 2 * 2 ^ fl F -> 1 - bias F <= h < bias F ->
  round_encode F dm false (2 * y + b2z rb) (h - fl F - 1) (negb (r =? 0)) = sqrt_packed dm h y r rb.
Proof.
  intros dm h y r rb Hy Hh. pose proof (fl_pos F HF) as HP. pose proof (gf_fl F HF) as Hf1.
  assert (Hrb : 0 <= b2z rb <= 1) by (destruct rb; cbn; lia).
  unfold round_encode. fold (digits (2 * y + b2z rb)).
  replace (2 * y + b2z rb =? 0) with false by lia. cbn [andb].
  assert (HD : digits (2 * y + b2z rb) = fl F + 2).
  { apply digits_unique; [lia|]. replace (fl F + 2 - 1) with (fl F + 1) by lia.
    replace (2 ^ (fl F + 2)) with (2 * 2 ^ (fl F + 1)) by (rewrite <- pow2_succ by lia; f_equal; lia).
    rewrite pow2_succ by lia. lia. }
  rewrite HD.
  assert (ET : Z.max (emin F) (fl F + 2 + (h - fl F - 1) - prec F) = h - fl F) by (unfold emin, prec; lia).
  rewrite ET. replace (h - fl F <=? h - fl F - 1) with false by lia.
  replace (Z.max 0 (h - fl F - (h - fl F - 1))) with 1 by lia. change (2 ^ 1) with 2.
  assert (Q : (2 * y + b2z rb) / 2 = y) by (symmetry; apply Z.div_unique with (b2z rb); lia).
  assert (M : (2 * y + b2z rb) mod 2 = b2z rb) by (symmetry; apply Z.mod_unique with y; lia).
  rewrite Q, M.
  set (up := round_up dm false y (2 * b2z rb + b2z (negb (r =? 0))) 2).
  assert (HU : b2z up = b2z (match dm with
       | RNE => rb && (Z.odd y || negb (r =? 0)) | RUP => rb || negb (r =? 0) | _ => false end)).
  { unfold up, round_up. destruct dm, rb, (negb (r =? 0)); cbn; try reflexivity; destruct (Z.odd y); reflexivity. }
  unfold enc. unfold sbit. cbn [b2z].
  assert (HA : (h - fl F - emin F) * 2 ^ fl F + (y + b2z up) = sqrt_packed dm h y r rb).
  { unfold sqrt_packed. rewrite <- HU. unfold emin. ring. }
  rewrite HA. replace (sqrt_packed dm h y r rb <? inf_mag F) with true; [lia|].
  symmetry. apply Z.ltb_lt. unfold sqrt_packed, inf_mag. rewrite <- HU, (expmax_bias F HF).
  assert (b2z up <= 1) by (destruct up; cbn; lia).
  assert ((h + bias F) * 2 ^ fl F <= (2 * bias F - 1) * 2 ^ fl F) by (apply Z.mul_le_mono_nonneg_r; lia). nia.
Qed.

(** The whole kernel on a normalized argument [M * 2^(2h - fl)]. *)
Lemma sqrt_kernel : forall dm M h y r rb r',
  2 ^ fl F <= y < 2 * 2 ^ fl F -> 1 - bias F <= h < bias F ->
  r = M * 2 ^ fl F - y * y ->
  r' = 4 * (r + y * y) - (2 * y + b2z rb) * (2 * y + b2z rb) ->
  0 <= r' <= 2 * (2 * y + b2z rb) ->
  rounded F dm (sqrt (IZR M * bpow radix2 (2 * h - fl F))) false (sqrt_packed dm h y r' rb).
Proof.
  intros dm M h y r rb r' Hy Hh Er Er' Hr'. pose proof (fl_pos F HF) as HP. pose proof (gf_fl F HF) as Hf1.
  assert (Hrb : 0 <= b2z rb <= 1) by (destruct rb; cbn; lia).
  rewrite <- sqrt_packed_encode by auto.
  set (Y := 2 * y + b2z rb) in *. set (N := 4 * (M * 2 ^ fl F)).
  assert (Ex : (sqrt (IZR M * bpow radix2 (2 * h - fl F)) = sqrt (IZR N) * bpow radix2 (h - fl F - 1))%R).
  { rewrite <- sqrt_scale. 2:{ apply IZR_le. unfold N. nia. }
    f_equal. unfold N. rewrite !mult_IZR. rewrite <- (bpow_IZR (fl F)) by lia.
    change 4%R with (bpow radix2 2). rewrite (Rmult_comm (bpow radix2 2)), !Rmult_assoc, <- !bpow_plus.
    f_equal. f_equal. lia. }
  assert (HB : if negb (r' =? 0) then (IZR Y < sqrt (IZR N) < IZR (Y + 1))%R else sqrt (IZR N) = IZR Y).
  { apply sqrt_bracket; unfold N, Y; nia. }
  rewrite Ex. pose proof (bpow_gt_0 radix2 (h - fl F - 1)) as Hb.
  assert (H0 : (0 <= sqrt (IZR N) * bpow radix2 (h - fl F - 1))%R).
  { apply Rmult_le_pos; [apply sqrt_pos|lra]. }
  apply (round_encode_spec F HF).
  - unfold Y. lia.
  - rewrite Rabs_pos_eq by auto. destruct (negb (r' =? 0)).
    + split; apply Rmult_lt_compat_r; tauto.
    + rewrite HB. reflexivity.
  - intros _. apply Rlt_bool_false. auto.
  - intros _. assert (HD : digits Y = fl F + 2).
    { apply digits_unique; [lia|]. replace (fl F + 2 - 1) with (fl F + 1) by lia.
      replace (2 ^ (fl F + 2)) with (2 * 2 ^ (fl F + 1)) by (rewrite <- pow2_succ by lia; f_equal; lia).
      rewrite pow2_succ by lia. unfold Y. lia. }
    rewrite HD. unfold prec. lia.
Qed.

(** ** The whole computation from a normalized pair (x_exp, x_mant) *)
Lemma sqrt_core : forall dm w x_exp x_mant, fl F + 4 <= w ->
  2 ^ fl F <= x_mant < 2 * 2 ^ fl F -> emin F <= x_exp <= bias F ->
  let p := if Z.odd x_exp then (x_exp - 1, wrap w (Z.shiftl x_mant 1)) else (x_exp, x_mant) in
  exists y r rb r', sqrt_loop w (Z.to_nat (fl F)) (2 ^ fl F / 2) (2 ^ fl F) (wrap w (snd p - 2 ^ fl F)) = Some (y, r) /\
    sqrt_round_digit w y r = (rb, r') /\
    2 ^ fl F <= y < 2 * 2 ^ fl F /\ 1 - bias F <= Z.shiftr (fst p) 1 < bias F /\
    rounded F dm (sqrt (IZR x_mant * bpow radix2 (x_exp - fl F))) false
       (sqrt_packed dm (Z.shiftr (fst p) 1) y r' rb) /\
    (y = 2 * 2 ^ fl F - 1 -> x_mant = 2 * 2 ^ fl F - 1 /\ Z.odd x_exp = true /\ rb = false).
Proof.
  intros dm w x_exp x_mant Hw Hm He p. pose proof (fl_pos F HF) as HP. pose proof (gf_fl F HF) as Hf1.
  assert (HW : 16 * 2 ^ fl F <= 2 ^ w).
  { change 16 with (2 ^ 4). rewrite <- Z.pow_add_r by lia. apply pow2_le. lia. }
  assert (Hp : 2 ^ fl F <= snd p < 4 * 2 ^ fl F /\
    exists h, fst p = 2 * h /\ 1 - bias F <= h < bias F /\
    (IZR x_mant * bpow radix2 (x_exp - fl F) = IZR (snd p) * bpow radix2 (2 * h - fl F))%R).
  { pose proof (gf_bias F HF). pose proof (bias_ge2 F HF). unfold emin in He.
    unfold p. destruct (Z.odd x_exp) eqn:Ho; cbn [fst snd].
    - apply Z.odd_spec in Ho. destruct Ho as [h Hh].
      rewrite Z.shiftl_mul_pow2 by lia. change (2 ^ 1) with 2. rewrite wrap_small by (unfold inU; lia).
      split; [lia|]. exists h. split; [lia|]. split; [lia|].
      rewrite mult_IZR. change (IZR 2) with (bpow radix2 1). rewrite Rmult_assoc, <- bpow_plus.
      f_equal. f_equal. lia.
    - rewrite <- Z.negb_even in Ho. apply negb_false_iff in Ho. apply Z.even_spec in Ho. destruct Ho as [h Hh].
      split; [lia|]. exists h. split; [lia|]. split; [lia|]. rewrite Hh. reflexivity. }
  assert (HO : 4 * 2 ^ fl F - 4 < snd p -> x_mant = 2 * 2 ^ fl F - 1 /\ Z.odd x_exp = true /\ snd p = 4 * 2 ^ fl F - 2).
  { assert (2 ^ 1 <= 2 ^ fl F) by (apply pow2_le; lia). change (2 ^ 1) with 2 in *.
    unfold p. destruct (Z.odd x_exp) eqn:Ho; cbn [fst snd].
    - rewrite Z.shiftl_mul_pow2 by lia. change (2 ^ 1) with 2. rewrite wrap_small by (unfold inU; lia). repeat split; lia.
    - lia. }
  destruct Hp as (Hm2 & h & Eh & Hh & Ev). clearbody p. destruct p as [pe M]; cbn [fst snd] in *.
  assert (Es : Z.shiftr pe 1 = h).
  { rewrite Z.shiftr_div_pow2 by lia. change (2 ^ 1) with 2. rewrite Eh, Z.mul_comm, Z.div_mul; lia. }
  rewrite Es, Ev. rewrite wrap_small by (unfold inU; lia).
  destruct (sqrt_loop_spec w (fl F) M ltac:(lia) Hw ltac:(lia) (Z.to_nat (fl F)) (Z.to_nat (fl F))
     (2 ^ fl F) (M - 2 ^ fl F)) as (y & r & El & Er & Hr & Hy).
  { rewrite Z2Nat.id; lia. } { lia. } { rewrite Z2Nat.id by lia. lia. } { rewrite Z2Nat.id by lia. lia. } { lia. }
  rewrite Z2Nat.id in El by lia.
  destruct (sqrt_digit_spec w (fl F) y r ltac:(lia) Hw Hr ltac:(lia)) as (rb & r' & Ed & Er' & Hr').
  exists y, r, rb, r'. split; [exact El|]. split; [exact Ed|]. split; [lia|]. split; [lia|].
  split; [apply (sqrt_kernel dm M h y r rb r'); auto; lia|].
  intros Ey. destruct HO as (O1 & O2 & O3).
  { apply (Z.mul_lt_mono_pos_r (2 ^ fl F)); [lia|]. rewrite Ey in Er. lia. }
  repeat split; auto. destruct rb; auto. exfalso. cbn [b2z] in *. rewrite Ey, O3 in *. lia.
Qed.

(** ** The function *)
Context (Hel : 3 <= el F <= 16).

Lemma sqrt_calc_fin : forall dm k x, width F = 2 ^ Z.of_nat k -> is_pattern F x -> is_fin F x = true ->
  sign_of F x = false -> mag_of F x <> 0 ->
  exists b, sqrt_calc_bits F dm x = Some b /\ rounded F dm (sqrt (fval F x)) false b.
Proof.
  intros dm k x Hk Px Fx Sx Zx. assert (Hel2 : el F <= 16) by lia.
  pose proof (fl_pos F HF) as HP. pose proof (gf_fl F HF) as Hf1. pose proof (mag_range F HF x) as HR.
  assert (Hone : wrap (width F) (Z.shiftl 1 (fl F)) = 2 ^ fl F).
  { rewrite Z.shiftl_mul_pow2 by lia. rewrite Z.mul_1_l. apply wrap_small. unfold inU. split; [lia|].
    apply pow2_lt; unfold width; lia. }
  unfold sqrt_calc_bits. rewrite Hone. rewrite (get_exponent_eq F HF Hel2), (get_mantissa_eq F HF), (fp_is_subnormal_eq F HF) by assumption.
  assert (HM : mag_of F x < inf_mag F) by (unfold is_fin in Fx; lia).
  set (a := mag_of F x) in *.
  assert (Hlow : x mod 2 ^ fl F = a mod 2 ^ fl F) by (exact (man_mag F HF x)).
  assert (HP2 : exists x_exp x_mant,
     (if a <? 2 ^ fl F then sqrt_normalize F (a / 2 ^ fl F - bias F + 1) (x mod 2 ^ fl F)
      else Some (a / 2 ^ fl F - bias F, Z.lor (x mod 2 ^ fl F) (2 ^ fl F))) = Some (x_exp, x_mant) /\
     2 ^ fl F <= x_mant < 2 * 2 ^ fl F /\ emin F <= x_exp <= bias F /\
     fval F x = (IZR x_mant * bpow radix2 (x_exp - fl F))%R).
  { rewrite Hlow. rewrite (fval_fin F) by auto. rewrite Sx. unfold sg. fold a.
    rewrite Rmult_1_l. unfold mval, sig_of, exp_of.
    destruct (Z.ltb_spec a (2 ^ fl F)) as [HA|HA].
    - rewrite (Z.mod_small a), (Z.div_small a) by lia.
      destruct (norm_shift a (fl F) ltac:(lia) ltac:(lia)) as (Hs & Hn). set (s := fl F + 1 - digits a) in *.
      exists (1 - bias F - s), (a * 2 ^ s). unfold sqrt_normalize.
      rewrite Hk at 1. rewrite (countl_zero_val k a).
      2:{ rewrite <- Hk. unfold inU. split; [lia|]. pose proof (pow2_lt (fl F) (width F)). unfold width in *. lia. }
      replace (a =? 0) with false by lia. cbn [bindo]. rewrite <- Hk.
      replace (width F - 1 - Z.log2 a - (width F - 1 - fl F)) with s by (unfold s, digits; replace (a =? 0) with false by lia; lia).
      unfold ushl. replace (0 <=? s) with true by lia. replace (s <? width F) with true by (unfold width; lia).
      cbn [andb bindo]. rewrite Z.shiftl_mul_pow2 by lia. rewrite wrap_small.
      2:{ unfold inU. split; [lia|]. pose proof (pow2_lt (fl F + 1) (width F)). rewrite pow2_succ in * by lia. unfold width in *. lia. }
      split; [f_equal; f_equal; lia|]. split; [lia|]. split; [unfold emin; pose proof (bias_ge2 F HF); lia|].
      rewrite mult_IZR, <- (bpow_IZR s), Rmult_assoc, <- bpow_plus by lia. f_equal. f_equal. unfold emin. lia.
    - exists (a / 2 ^ fl F - bias F), (2 ^ fl F + a mod 2 ^ fl F).
      pose proof (Z.mod_pos_bound a (2 ^ fl F) HP).
      assert (HQ : 1 <= a / 2 ^ fl F < expmax F).
      { split; [apply Z.div_le_lower_bound; lia|apply Z.div_lt_upper_bound; [lia|]]. unfold inf_mag in HM. lia. }
      pose proof (expmax_bias F HF).
      split.
      { f_equal. f_equal. rewrite Z.lor_comm. replace (2 ^ fl F) with (1 * 2 ^ fl F) at 1 by lia. rewrite lor_add by lia. lia. }
      split; [lia|]. split; [unfold emin; lia|]. f_equal. f_equal. unfold emin. lia. }
  destruct HP2 as (x_exp & x_mant & Ep & Hm & He & Ev). rewrite Ep. cbn [bindo].
  destruct (sqrt_core dm (width F) x_exp x_mant ltac:(unfold width; lia) Hm He)
    as (y & r & rb & r' & El & Ed & Hy & Hh & HR2 & _).
  set (p := if Z.odd x_exp then _ else _) in *. destruct p as [pe M] eqn:Ep2; cbn [fst snd] in *.
  rewrite Z.shiftr_div_pow2 by lia. change (2 ^ 1) with 2. rewrite El. cbn [bindo]. rewrite Ed.
  eexists. split; [reflexivity|]. rewrite Ev.
  set (h := Z.shiftr pe 1) in *.
  assert (E : Z.lor (wrap (width F) (y - 2 ^ fl F)) (wrap (width F) (Z.shiftl (wrap (width F) (h + bias F)) (fl F))) =
    (h + bias F) * 2 ^ fl F + (y - 2 ^ fl F)).
  { pose proof (expmax_bias F HF).
    assert (HB : (h + bias F) * 2 ^ fl F < 2 ^ width F).
    { rewrite (width_split F HF), (sign_unit_split F HF). assert (2 ^ el F = expmax F + 1) by (unfold expmax; lia). nia. }
    assert (HW : 2 * 2 ^ fl F < 2 ^ width F).
    { rewrite <- pow2_succ by lia. apply pow2_lt; unfold width; lia. }
    assert (h + bias F < 2 ^ width F) by nia.
    assert (0 <= (h + bias F) * 2 ^ fl F) by (apply Z.mul_nonneg_nonneg; lia).
    rewrite (wrap_small _ (y - 2 ^ fl F)) by (unfold inU; lia).
    rewrite (wrap_small _ (h + bias F)) by (unfold inU; lia).
    rewrite Z.shiftl_mul_pow2 by lia. rewrite wrap_small by (unfold inU; lia).
    rewrite Z.lor_comm. apply lor_add; lia. }
  rewrite E, sqrt_round_eq by lia. exact HR2.
Qed.

Theorem cc_sqrt_fin : forall dm k x, width F = 2 ^ Z.of_nat k -> is_pattern F x -> is_fin F x = true ->
  sign_of F x = false -> exists b, cc_sqrt F dm x = Some b /\ rounded F dm (sqrt (fval F x)) false b.
Proof.
  intros dm k x Hk Px Fx Sx. assert (Hel2 : el F <= 16) by lia. unfold cc_sqrt.
  rewrite (fp_inf_eq F HF Hel2), (fp_is_zero_eq F HF), (fp_is_nan_eq F HF Hel2), (fp_sign_eq F HF) by assumption.
  destruct (Z.eqb_spec (mag_of F x) 0) as [Z0|Z0].
  - rewrite orb_true_r. cbn [orb]. exists x. split; [reflexivity|].
    assert (V : fval F x = 0%R) by (rewrite (fval_fin F), Z0, (mval_0 F) by auto; ring).
    rewrite V, sqrt_0. rewrite <- Sx. rewrite <- V at 1. apply rounded_self; auto.
  - assert (Hnn : is_nan F x = false) by (unfold is_nan, is_fin in *; lia). rewrite Hnn, Sx.
    destruct (f_inf_props F HF false) as (Pi & Mi & Si).
    rewrite !(uint_eq F HF) by auto.
    replace (x =? f_inf F false) with false; [apply sqrt_calc_fin with k; auto|].
    symmetry. apply Z.eqb_neq. intros ->. unfold is_fin, is_inf in *. lia.
Qed.

Lemma fp_qnan_eq : forall s, fp_quiet_nan F s 0 = sbit F s + qnan F.
Proof.
  intros s. assert (Hel2 : el F <= 16) by lia. unfold fp_quiet_nan. rewrite (encode_eq F HF Hel2), (biased_inf F HF Hel2).
  rewrite Z.lor_0_r. unfold Significand_msb. pose proof (gf_fl F HF).
  rewrite Z.mod_small. { unfold pack, qnan, inf_mag. lia. }
  rewrite (pow2_half (fl F)) by lia. pose proof (pow2_pos (fl F - 1) ltac:(lia)). lia.
Qed.
Theorem cc_sqrt_special : forall dm x, is_pattern F x ->
  (is_nan F x = true \/ mag_of F x = 0 \/ (is_inf F x = true /\ sign_of F x = false) -> cc_sqrt F dm x = Some x) /\
  (is_nan F x = false -> mag_of F x <> 0 -> sign_of F x = true ->
     exists b, cc_sqrt F dm x = Some b /\ is_pattern F b /\ is_nan F b = true).
Proof.
  intros dm x Px. assert (Hel2 : el F <= 16) by lia. unfold cc_sqrt.
  rewrite (fp_inf_eq F HF Hel2), (fp_is_zero_eq F HF), (fp_is_nan_eq F HF Hel2), (fp_sign_eq F HF) by assumption.
  destruct (f_inf_props F HF false) as (Pi & Mi & Si).
  rewrite !(uint_eq F HF) by auto. split.
  - intros [H|[H|[H S]]].
    + rewrite H, orb_true_r. reflexivity.
    + rewrite H, Z.eqb_refl, orb_true_r. reflexivity.
    + replace (x =? f_inf F false) with true; [reflexivity|]. symmetry. apply Z.eqb_eq.
      rewrite (pattern_split F HF x), (pattern_split F HF (f_inf F false)) by auto.
      rewrite S, Si. unfold is_inf in *. f_equal. lia.
  - intros Hn Hz S. rewrite Hn, S. replace (mag_of F x =? 0) with false by lia.
    replace (x =? f_inf F false) with false.
    2:{ symmetry. apply Z.eqb_neq. intros ->. congruence. }
    cbn [orb]. eexists. split; [reflexivity|].
    rewrite fp_qnan_eq. destruct (qnan_props F HF) as (Pq & Nq & Sq). change (sbit F false) with 0. rewrite Z.add_0_l.
    destruct (f_neg_props F HF (qnan F) Pq) as (P1 & _ & M1 & _). split; auto. unfold is_nan in *. rewrite M1. auto.
Qed.
End S.

(** ** The 80-bit format *)
Lemma good80 : good_fmt fmt80.
Proof. unfold good_fmt, fmt80. cbn [fl el]. change (2 ^ (15 - 1)) with 16384. lia. Qed.

Lemma x87_sqrt_spec : forall dm x, x87_finite x -> xs x = false -> x87_is_zero x = false ->
  exists b r, sqrt_calc_80bits dm x = Some r /\ rounded fmt80 dm (sqrt (x87_val x)) false b /\
    (dm <> RUP \/ xf x <> 2 ^ 63 - 1 \/ Z.odd (xe x) = true -> r = x87_of b).
Proof.
  intros dm x (Hf & He & Hi) Sx Zx.
  assert (HP : 0 < 2 ^ 63) by lia.
  assert (NI : x87_is_inf x = false) by (unfold x87_is_inf; replace (xe x =? 32767) with false by lia; reflexivity).
  assert (NN : x87_is_nan x = false).
  { unfold x87_is_nan. replace (xe x =? 32767) with false by lia.
    destruct (Z.eqb_spec (xe x) 0) as [E|E]; cbn [negb]; auto. apply Hi in E. rewrite E. reflexivity. }
  unfold sqrt_calc_80bits. rewrite Sx, NI, Zx, NN. cbn [negb andb orb].
  assert (HE : x87_explicit_exponent x = Z.max 1 (xe x) - 16383).
  { unfold x87_explicit_exponent, x87_bias. rewrite Zx. destruct (Z.eqb_spec (xe x - 16383) (- (16383))); lia. }
  rewrite HE.
  match goal with |- exists b r, bindo ?t _ = _ /\ _ => set (P := t) end.
  assert (HP2 : exists x_exp x_mant, P = Some (x_exp, x_mant) /\ 2 ^ 63 <= x_mant < 2 * 2 ^ 63 /\
     emin fmt80 <= x_exp <= bias fmt80 /\ x87_val x = (IZR x_mant * bpow radix2 (x_exp - 63))%R /\
     (x_mant = 2 * 2 ^ 63 - 1 -> xf x = 2 ^ 63 - 1 /\ x_exp = xe x - 16383)).
  { change (emin fmt80) with (-16445). change (bias fmt80) with 16383.
    unfold P, x87_val. rewrite Sx. destruct (xi x) eqn:Xi; cbn [b2z].
    - assert (xe x <> 0) by (apply Hi; auto).
      exists (xe x - 16383), (2 ^ 63 + xf x). replace (Z.max 1 (xe x)) with (xe x) by lia.
      split. { f_equal. f_equal. rewrite Z.lor_comm. replace (2 ^ 63) with (1 * 2 ^ 63) at 1 by lia. rewrite lor_add by lia. lia. }
      split; [lia|]. split; [lia|]. split; [rewrite Rmult_1_l; f_equal; f_equal; lia|]. lia.
    - assert (xe x = 0) as E0 by (destruct (Z.eq_dec (xe x) 0); auto; rewrite <- Hi in n; discriminate).
      unfold x87_is_subnormal. rewrite E0. change (0 =? 0) with true.
      assert (xf x <> 0). { intros E. unfold x87_is_zero in Zx. rewrite E0, Xi, E in Zx. discriminate. }
      destruct (norm_shift (xf x) 63 ltac:(lia) ltac:(lia)) as (Hs & Hn). set (s := 63 + 1 - digits (xf x)) in *.
      rewrite wrap_small by (unfold inU; lia). change 64 with (2 ^ Z.of_nat 6) at 1. rewrite (countl_zero_val 6).
      2:{ unfold inU. change (2 ^ Z.of_nat 6) with 64. lia. }
      replace (xf x =? 0) with false by lia. cbn [bindo]. change (2 ^ Z.of_nat 6) with 64.
      replace (64 - 1 - Z.log2 (xf x)) with s by (unfold s, digits; replace (xf x =? 0) with false by lia; lia).
      unfold ushl. replace (0 <=? s) with true by lia. replace (s <? 128) with true by lia. cbn [andb bindo].
      rewrite Z.shiftl_mul_pow2 by lia. rewrite wrap_small by (unfold inU; lia).
      exists (Z.max 1 0 - 16383 - s), (xf x * 2 ^ s). split; [reflexivity|]. split; [lia|]. split; [lia|].
      split. { rewrite Z.mul_0_l, Z.add_0_l, Rmult_1_l, mult_IZR, <- (bpow_IZR s), Rmult_assoc, <- bpow_plus by lia. f_equal. f_equal. lia. }
      intros E. exfalso. replace s with (s - 1 + 1) in E by lia. rewrite pow2_succ in E by lia. lia. }
  destruct HP2 as (x_exp & x_mant & Ep & Hm & Hx & Ev & Hall). rewrite Ep. cbn [bindo].
  destruct (sqrt_core fmt80 good80 dm 128 x_exp x_mant ltac:(cbn; lia) Hm Hx)
    as (y & r & rb & r' & El & Ed & Hy & Hh & HR & Hedge).
  cbn [fl fmt80] in *. change (Z.to_nat 63) with 63%nat in El. change (bias fmt80) with 16383 in *.
  set (p := if Z.odd x_exp then _ else _) in *. destruct p as [pe M] eqn:Ep2; cbn [fst snd] in *.
  change (Z.shiftr (2 ^ 63) 1) with (2 ^ 63 / 2). rewrite El. cbn [bindo]. rewrite Ed.
  set (h := Z.shiftr pe 1) in *.
  do 2 eexists. split; [reflexivity|]. rewrite Ev. split; [exact HR|].
  intros Hc. unfold x87_of, x87_bias.
  set (up := match dm with RNE => rb && (Z.odd y || negb (r' =? 0)) | RUP => rb || negb (r' =? 0) | _ => false end).
  assert (Hu : y + b2z up < 2 * 2 ^ 63).
  { destruct (Z.eq_dec y (2 * 2 ^ 63 - 1)) as [E|E].
    2:{ assert (b2z up <= 1) by (destruct up; cbn; lia). lia. }
    destruct (Hedge E) as (A & B & C). destruct (Hall A) as (A1 & A2).
    assert (dm <> RUP).
    { destruct Hc as [H|[H|H]]; [auto|contradiction|]. exfalso. rewrite A2, Z.odd_sub, H in B. discriminate. }
    replace up with false; [cbn; lia|]. unfold up. rewrite C. destruct dm; auto. contradiction. }
  assert (HS : sqrt_packed fmt80 dm h y r' rb = (h + 16383) * 2 ^ 63 + (y + b2z up - 2 ^ 63)).
  { unfold sqrt_packed. fold up. cbn [fl fmt80]. change (bias fmt80) with 16383. lia. }
  assert (HU0 : 0 <= b2z up) by (destruct up; cbn; lia).
  assert (HMg : mag_of fmt80 (sqrt_packed fmt80 dm h y r' rb) = (h + 16383) * 2 ^ 63 + (y + b2z up - 2 ^ 63)).
  { rewrite HS. unfold mag_of. apply Z.mod_small. change (sign_unit fmt80) with (32768 * 2 ^ 63). lia. }
  rewrite HMg.
  assert (HQ : ((h + 16383) * 2 ^ 63 + (y + b2z up - 2 ^ 63)) / 2 ^ 63 = h + 16383).
  { symmetry. apply Z.div_unique with (y + b2z up - 2 ^ 63); lia. }
  assert (HM : ((h + 16383) * 2 ^ 63 + (y + b2z up - 2 ^ 63)) mod 2 ^ 63 = y + b2z up - 2 ^ 63).
  { symmetry. apply Z.mod_unique with (h + 16383); lia. }
  rewrite HQ, HM. replace (h + 16383 =? 0) with false by lia. cbn [negb].
  f_equal. { apply Z.mod_small. lia. }
  assert (EL : Z.lor y (wrap 128 (Z.shiftl (h + 16383) 64)) = (h + 16383) * 2 ^ 64 + y).
  { rewrite Z.shiftl_mul_pow2 by lia. rewrite wrap_small by (unfold inU; lia).
    rewrite Z.lor_comm. apply lor_add; lia. }
  rewrite EL.
  assert (ER : sqrt_round 128 dm ((h + 16383) * 2 ^ 64 + y) r' rb = (h + 16383) * 2 ^ 64 + y + b2z up).
  { unfold sqrt_round. rewrite land1.
    replace (Z.odd ((h + 16383) * 2 ^ 64 + y)) with (Z.odd y).
    2:{ rewrite Z.odd_add, Z.odd_mul. change (Z.odd (2 ^ 64)) with false. rewrite andb_false_r. destruct (Z.odd y); reflexivity. }
    unfold up. destruct dm; try (cbn [b2z]; lia).
    - destruct (rb && (Z.odd y || negb (r' =? 0))); cbn [b2z]; [rewrite wrap_small by (unfold inU; lia)|]; lia.
    - destruct (rb || negb (r' =? 0)); cbn [b2z]; [rewrite wrap_small by (unfold inU; lia)|]; lia. }
  rewrite ER. change (2 ^ 63 - 1) with (Z.ones 63). rewrite Z.land_ones by lia.
  symmetry. apply Z.mod_unique with ((h + 16383) * 2 + 1); lia.
Qed.

Lemma x87_upward_refuted : exists x, x87_finite x /\ xs x = false /\ x87_is_zero x = false /\
  x87_val x = (4 - / 2 ^ 62)%R /\
  sqrt_calc_80bits RUP x = Some (X87 false 16383 true 0) /\ x87_val (X87 false 16383 true 0) = 1%R.
Proof.
  exists (X87 false 16384 true (2 ^ 63 - 1)).
  split. { unfold x87_finite. cbn [xs xe xi xf]. split; [lia|]. split; [lia|]. split; [lia|reflexivity]. }
  split; [reflexivity|]. split; [vm_compute; reflexivity|].
  split.
  { unfold x87_val. cbn [xs xe xi xf b2z].
    change (1 * 2 ^ 63 + (2 ^ 63 - 1)) with (2 ^ 64 - 1). change (Z.max 1 16384 - 16383 - 63) with (-62).
    rewrite minus_IZR. rewrite <- (bpow_IZR 64) by lia. rewrite Rmult_1_l, Rmult_minus_distr_r, <- bpow_plus, Rmult_1_l.
    change (bpow radix2 (64 + -62)) with 4%R. f_equal.
    change (-62) with (- (62)). rewrite bpow_opp. f_equal. rewrite (bpow_IZR 62) by lia. rewrite pow_IZR. reflexivity. }
  split; [vm_compute; reflexivity|].
  unfold x87_val. cbn [xs xe xi xf b2z]. change (1 * 2 ^ 63 + 0) with (2 ^ 63). change (Z.max 1 16383 - 16383 - 63) with (-63).
  rewrite <- (bpow_IZR 63) by lia. rewrite Rmult_1_l, <- bpow_plus. reflexivity.
Qed.
