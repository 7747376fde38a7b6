(** * Proofs about the dyadic floats: rounding and arithmetic *)
From Coq Require Import ZArith Reals Bool List Lia Lra.
From Flocq Require Import Core Bracket Round.
From Verif Require Import MachInt Bits Fmt FloatSpec FmtProofs RoundProofs RoundMore FOps FOpsProofs ExactOps FPBits
  FPBitsProofs Fma FmaProofs Dyadic DyadicSpec DyadicProofs.
Open Scope Z_scope.

(** ** The integer rounding functions *)
Lemma rnd_zero : forall rm, rnd rm 0 = 0.
Proof. intros. apply (@Zrnd_IZR (rnd rm)). destruct rm; simpl; auto with typeclass_instances. Qed.

Lemma rnd_brk : forall rm s m e k st y, 0 <= m -> 0 <= k -> e + k = 0 -> brk m st e y -> (st = true -> 1 <= k) ->
  rnd rm (sg s * y) = cond_Zopp s (m / 2 ^ k + b2z (round_up rm s (m / 2 ^ k) (2 * (m mod 2 ^ k) + b2z st) (2 ^ k))).
Proof.
  intros rm s m e k st y Hm Hk He Hy Hst. pose proof (pow2_pos k Hk) as HP.
  assert (Hy0 : (0 <= y)%R /\ (y = 0%R -> m = 0 /\ st = false)).
  { pose proof (bpow_gt_0 radix2 e). assert (0 <= IZR m)%R by (apply IZR_le; lia).
    assert (0 <= IZR m * bpow radix2 e)%R by (apply Rmult_le_pos; lra).
    unfold brk in Hy. destruct st.
    - split; [lra|]. intros; lra.
    - split; [lra|]. intros ->. symmetry in Hy. apply Rmult_integral in Hy. destruct Hy as [Hy|Hy]; [|lra]. apply eq_IZR in Hy. auto. }
  destruct Hy0 as [H0 H1]. destruct (Req_dec y 0) as [E|E].
  - destruct (H1 E) as [-> ->]. rewrite E, Rmult_0_r, rnd_zero. rewrite Z.div_0_l, Z.mod_0_l by lia. cbn [b2z].
    change (2 * 0 + 0) with 0. assert (C : (0 ?= 2 ^ k) = Lt) by (apply Z.compare_lt_iff; lia).
    unfold round_up. rewrite C. destruct rm, s; reflexivity.
  - pose proof (inbetween_drop m e k st y Hm Hk Hy Hst) as I. rewrite He in I.
    assert (Ry : Rabs (sg s * y) = y) by (rewrite Rabs_sg, Rabs_pos_eq; auto).
    assert (I' : inbetween_int (m / 2 ^ k) (Rabs (sg s * y)) (locof (2 * (m mod 2 ^ k) + b2z st) (2 ^ k))).
    { rewrite Ry. unfold inbetween_float, F2R in I. cbn [Fnum Fexp bpow] in I. rewrite !Rmult_1_r in I. exact I. }
    assert (S : Rlt_bool (sg s * y) 0 = s).
    { destruct s; unfold sg; [apply Rlt_bool_true|apply Rlt_bool_false]; lra. }
    assert (R2 : 0 <= 2 * (m mod 2 ^ k) + b2z st) by (pose proof (Z.mod_pos_bound m (2 ^ k) HP); destruct st; cbn [b2z]; lia).
    rewrite round_up_choice by lia. destruct rm; cbn [rnd].
    + rewrite (inbetween_int_NE_sign _ _ _ I'), S. reflexivity.
    + rewrite (inbetween_int_DN_sign _ _ _ I'), S. reflexivity.
    + rewrite (inbetween_int_UP_sign _ _ _ I'), S. reflexivity.
    + rewrite (inbetween_int_ZR_sign _ _ _ I'), S. reflexivity.
Qed.

(** Rounding [v / 2^K] to an integer. *)
Lemma rnd_quot : forall rm s v K, 0 <= v -> 1 <= K ->
  rnd rm (sg s * (IZR v * bpow radix2 (- K))) =
  cond_Zopp s (v / 2 ^ K + b2z (round_tbl rm s (v / 2 ^ K) (Z.testbit v (K - 1)) (negb (v mod 2 ^ (K - 1) =? 0)))).
Proof.
  intros rm s v K Hv HK.
  rewrite (rnd_brk rm s v (- K) K false) by (try lia; reflexivity). rewrite round_up_tbl by lia. reflexivity.
Qed.

Lemma ushl_zero : forall B v k, 0 <= v -> 0 <= k < B -> exists t, ushl B v k = Some t /\ (t =? 0) = (v mod 2 ^ (B - k) =? 0).
Proof.
  intros B v k Hv Hk. unfold ushl. replace ((0 <=? k) && (k <? B)) with true by lia. eexists; split; [reflexivity|].
  unfold wrap. rewrite Z.shiftl_mul_pow2 by lia. pose proof (pow2_pos k ltac:(lia)). pose proof (pow2_pos (B - k) ltac:(lia)).
  replace (2 ^ B) with (2 ^ (B - k) * 2 ^ k) by (rewrite <- Z.pow_add_r by lia; f_equal; lia).
  rewrite Z.mul_mod_distr_r by lia. pose proof (Z.mod_pos_bound v (2 ^ (B - k)) ltac:(lia)).
  destruct (Z.eqb_spec (v mod 2 ^ (B - k)) 0) as [E|E]; [rewrite E; reflexivity|]. apply Z.eqb_neq. nia.
Qed.

(** The shift amounts for which [rounding_direction] is defined and right. *)
Definition dir_ok (dm : rmode) (B K : Z) : Prop :=
  K = 0 \/ 2 <= K < B \/ (K = 1 /\ dm <> RNE) \/ (B <= K /\ (dm = RNE \/ dm = RZR)).

Lemma rounding_direction_eq : forall dm B v K s, 2 <= B -> 0 <= v < 2 ^ B -> dir_ok dm B K -> K <> 0 ->
  rounding_direction dm B v K s = Some (if v mod 2 ^ K =? 0 then 0
    else if round_tbl dm s (v / 2 ^ K) (Z.testbit v (K - 1)) (negb (v mod 2 ^ (K - 1) =? 0)) then 1 else -1).
Proof.
  intros dm B v K s HB Hv HK K0. unfold rounding_direction.
  destruct (Z.ltb_spec K B) as [L|L].
  - assert (HK1 : 1 <= K) by (destruct HK as [?|[?|[?|?]]]; lia). replace (0 <? K) with true by lia. cbn [andb orb].
    destruct (ushl_zero B v (B - K) ltac:(lia) ltac:(lia)) as (t & -> & Et). cbn [bindo]. rewrite Et.
    replace (B - (B - K)) with K by lia. replace (K =? 0) with false by lia. replace (B <=? K) with false by lia. cbn [orb andb].
    rewrite orb_false_r. destruct (Z.eqb_spec (v mod 2 ^ K) 0) as [E|E]; [reflexivity|]. cbn [negb andb].
    assert (OR : Z.testbit v (K - 1) || negb (v mod 2 ^ (K - 1) =? 0) = true).
    { destruct (rem_split v K HK1) as [Er R]. destruct (Z.testbit v (K - 1)); auto. cbn [b2z orb] in *.
      apply negb_true_iff, Z.eqb_neq. lia. }
    destruct dm; cbn [round_tbl]; rewrite ?OR.
    + assert (HK2 : 2 <= K) by (destruct HK as [?|[?|[[? ?]|?]]]; try lia; congruence).
      replace (K <=? B) with true by lia. cbn [andb].
      assert (Eo : Z.odd (v / 2 ^ K) = Z.testbit v K).
      { rewrite Z.testbit_odd, Z.shiftr_div_pow2 by lia. reflexivity. }
      rewrite Eo. destruct (Z.testbit v (K - 1)); [|reflexivity]. destruct (Z.testbit v K); [reflexivity|]. cbn [andb orb].
      destruct (ushl_zero B v (B - K + 1) ltac:(lia) ltac:(lia)) as (t2 & -> & Et2). cbn [bindo]. rewrite Et2.
      replace (B - (B - K + 1)) with (K - 1) by lia. reflexivity.
    + rewrite andb_true_r. reflexivity.
    + rewrite andb_true_r. reflexivity.
    + reflexivity.
  - assert (D : dm = RNE \/ dm = RZR) by (destruct HK as [?|[?|[?|?]]]; try lia; tauto).
    rewrite andb_false_r. cbn [bindo]. replace (K =? 0) with false by lia. replace (B <=? K) with true by lia. cbn [orb andb].
    pose proof (pow2_le B K ltac:(lia)). rewrite (Z.mod_small v (2 ^ K)) by lia.
    destruct (Z.eqb_spec v 0) as [E|E]; [reflexivity|].
    destruct D as [->| ->]; [|reflexivity]. cbn [round_tbl]. rewrite (Z.div_small v (2 ^ K)) by lia.
    replace (0 <? K) with true by lia. change (Z.odd 0) with false. cbn [orb andb].
    destruct (Z.leb_spec K B) as [L2|L2].
    + assert (K = B) as -> by lia. cbn [andb]. destruct (Z.testbit v (B - 1)); [|reflexivity]. cbn [andb].
      destruct (ushl_zero B v (B - B + 1) ltac:(lia) ltac:(lia)) as (t2 & -> & Et2). cbn [bindo]. rewrite Et2.
      replace (B - (B - B + 1)) with (B - 1) by lia. reflexivity.
    + cbn [andb]. replace (Z.testbit v (K - 1)) with false; [reflexivity|]. symmetry.
      rewrite Z.testbit_odd, Z.shiftr_div_pow2 by lia. rewrite Z.div_small; [reflexivity|].
      pose proof (pow2_le B (K - 1) ltac:(lia)). lia.
Qed.

Lemma rounding_direction_zero : forall dm B v s, 0 <= v -> rounding_direction dm B v 0 s = Some 0.
Proof. intros. unfold rounding_direction. rewrite Z.ltb_irrefl. cbn [andb bindo]. rewrite Z.eqb_refl. reflexivity. Qed.

Lemma quot_sign : forall q r P up, 0 < P -> 0 <= r < P -> (r = 0 -> up = false) ->
  Z.sgn ((q + b2z up) * P - (P * q + r)) = if r =? 0 then 0 else if up then 1 else -1.
Proof.
  intros q r P up HP Hr H0. destruct (Z.eqb_spec r 0) as [E|E].
  - rewrite (H0 E), E. cbn [b2z]. replace ((q + 0) * P - (P * q + 0)) with 0 by ring. reflexivity.
  - destruct up; cbn [b2z].
    + apply Z.sgn_pos. lia.
    + apply Z.sgn_neg. lia.
Qed.
Lemma tbl_exact : forall rm s v K, 1 <= K -> 0 <= v -> v mod 2 ^ K = 0 ->
  round_tbl rm s (v / 2 ^ K) (Z.testbit v (K - 1)) (negb (v mod 2 ^ (K - 1) =? 0)) = false.
Proof.
  intros rm s v K HK Hv E. destruct (rem_split v K HK) as [Er R]. pose proof (pow2_pos (K - 1) ltac:(lia)).
  destruct (Z.testbit v (K - 1)); cbn [b2z] in Er; [lia|]. replace (v mod 2 ^ (K - 1) =? 0) with true by lia.
  destruct rm, s; reflexivity.
Qed.

(** C39: the sign of (rounded magnitude) - (exact magnitude). *)
Lemma rounding_direction_spec : forall dm B v K s, 2 <= B -> 0 <= v < 2 ^ B -> dir_ok dm B K ->
  rounding_direction dm B v K s =
    Some (Z.sgn (Z.abs (rnd dm (sg s * (IZR v * bpow radix2 (- K)))) * 2 ^ K - v)).
Proof.
  intros dm B v K s HB Hv HK. destruct (Z.eq_dec K 0) as [->|K0].
  - rewrite rounding_direction_zero by lia. f_equal.
    rewrite (rnd_brk dm s v (- 0) 0 false) by (try lia; try discriminate; reflexivity).
    change (2 ^ 0) with 1. rewrite Z.div_1_r, Z.mod_1_r. change (2 * 0 + b2z false) with 0.
    replace (round_up dm s v 0 1) with false by (destruct dm, s; reflexivity). cbn [b2z].
    destruct s; cbn [cond_Zopp]; rewrite ?Z.abs_opp; rewrite Z.abs_eq by lia; replace ((v + 0) * 1 - v) with 0 by lia; reflexivity.
  - assert (HK1 : 1 <= K) by (destruct HK as [?|[?|[?|?]]]; lia).
    rewrite rounding_direction_eq by auto. f_equal. rewrite rnd_quot by lia.
    pose proof (pow2_pos K ltac:(lia)) as HP. pose proof (Z.div_pos v (2 ^ K) ltac:(lia) HP) as Hq.
    pose proof (Z.mod_pos_bound v (2 ^ K) HP) as Hr. pose proof (Z.div_mod v (2 ^ K) ltac:(lia)) as DM.
    pose proof (tbl_exact dm s v K HK1 ltac:(lia)) as TE.
    set (up := round_tbl dm s _ _ _) in *. set (q := v / 2 ^ K) in *. set (r := v mod 2 ^ K) in *.
    assert (A : Z.abs (cond_Zopp s (q + b2z up)) = q + b2z up).
    { assert (0 <= q + b2z up) by (destruct up; cbn [b2z]; lia). destruct s; cbn [cond_Zopp]; rewrite ?Z.abs_opp; apply Z.abs_eq; auto. }
    rewrite A. replace v with (2 ^ K * q + r) by lia. symmetry. apply quot_sign; auto.
Qed.

(** ** Normalization, construction and shifts *)
Lemma normalize_spec : forall B d, 0 <= dmant d < 2 ^ B ->
  dyval (normalize B d) = dyval d /\ dsign (normalize B d) = dsign d /\
  0 <= dmant (normalize B d) < 2 ^ B /\ dy_norm B (normalize B d) /\
  dexp d - B < dexp (normalize B d) <= dexp d \/ dmant d = 0 /\ normalize B d = d.
Proof.
  intros B d Hd. unfold normalize. destruct (Z.eqb_spec (dmant d) 0) as [E|E]; [right; auto|left].
  pose proof (Z.log2_spec (dmant d) ltac:(lia)) as HL. pose proof (Z.log2_nonneg (dmant d)) as HL0.
  assert (HB : Z.log2 (dmant d) < B) by (apply Z.log2_lt_pow2; lia).
  set (l := Z.log2 (dmant d)) in *. set (n := B - 1 - l). cbn [dsign dexp dmant].
  pose proof (pow2_pos n ltac:(unfold n; lia)) as HP.
  assert (R : 2 ^ (B - 1) <= dmant d * 2 ^ n < 2 ^ B).
  { replace (2 ^ (B - 1)) with (2 ^ l * 2 ^ n) by (rewrite <- Z.pow_add_r by (unfold n; lia); f_equal; unfold n; lia).
    replace (2 ^ B) with (2 ^ Z.succ l * 2 ^ n) by (rewrite <- Z.pow_add_r by (unfold n; lia); f_equal; unfold n; lia).
    split; [apply Z.mul_le_mono_nonneg_r|apply Z.mul_lt_mono_pos_r]; lia. }
  pose proof (pow2_pos (B - 1) ltac:(lia)).
  rewrite Z.shiftl_mul_pow2 by (unfold n; lia). rewrite wrap_small by (unfold inU; lia).
  split; [|split; [reflexivity|split; [lia|split; [right; cbn [dmant]; lia|unfold n; lia]]]].
  unfold dyval. cbn [dsign dexp dmant]. rewrite mult_IZR, <- (bpow_IZR n) by (unfold n; lia).
  replace (dexp d) with ((dexp d - n) + n) at 2 by lia. rewrite bpow_plus. ring.
Qed.
Lemma normalize_id : forall B d, 1 <= B -> 0 <= dmant d < 2 ^ B -> dy_norm B d -> normalize B d = d.
Proof.
  intros B d HB Hd HN. unfold normalize. destruct (Z.eqb_spec (dmant d) 0) as [E|E]; auto.
  destruct HN as [HN|HN]; [contradiction|].
  assert (L : Z.log2 (dmant d) = B - 1).
  { apply Z.log2_unique; [lia|]. replace (Z.succ (B - 1)) with B by lia. lia. }
  rewrite L, Z.sub_diag, Z.shiftl_0_r, Z.sub_0_r, wrap_small by exact Hd. destruct d; reflexivity.
Qed.

Lemma dy_make_spec : forall B s e m, 0 <= m < 2 ^ B ->
  let d := dy_make B s e m in
  dyval d = (sg s * (IZR m * bpow radix2 e))%R /\ dsign d = s /\ 0 <= dmant d < 2 ^ B /\ dy_norm B d.
Proof.
  intros B s e m Hm d. pose proof (normalize_spec B (Dyadic s e m) Hm) as H.
  fold (dy_make B s e m) in H. fold d in H.
  destruct H as [(H1 & H2 & H3 & H4 & _)|[H1 H2]].
  - rewrite H1, dyval_sg. auto.
  - cbn [dmant] in H1. subst m. rewrite H2. cbn [dsign dmant]. rewrite dyval_sg. cbn [dsign dmant dexp].
    split; [reflexivity|]. split; [reflexivity|]. split; [lia|left; reflexivity].
Qed.

(** C37: the constructor from a native value is exact. *)
Lemma dy_of_spec : forall F B b, good_fmt F -> el F <= 16 -> fl F + 1 <= B -> is_pattern F b -> is_fin F b = true ->
  dyval (dy_of F B b) = fval F b /\ dsign (dy_of F B b) = sign_of F b /\
  0 <= dmant (dy_of F B b) < 2 ^ B /\ dy_norm B (dy_of F B b) /\ - 2 ^ 17 - B <= dexp (dy_of F B b) <= 2 ^ 17.
Proof.
  intros F B b HF Hel HB Hp Hf. pose proof (gf_fl F HF) as Hfl. pose proof (gf_bias F HF) as Hb.
  pose proof (expmax_bias F HF) as HE. pose proof (pow2_le (el F) 16 ltac:(lia)) as HE2. change (2 ^ 16) with 65536 in HE2. unfold expmax in HE.
  unfold dy_of. rewrite fp_sign_eq by auto.
  rewrite (explicit_exponent_eq F HF Hel), (explicit_mantissa_eq F HF Hel) by auto.
  pose proof (mag_range F HF b) as HM. unfold is_fin in Hf.
  pose proof (sig_exp_spec F HF (mag_of F b) ltac:(lia)) as SE.
  destruct SE as (S1 & S2 & S3 & S4).
  assert (HX : exp_of F (mag_of F b) <= bias F + 1).
  { assert (mag_of F b < inf_mag F) by lia. rewrite (inf_mag_enc F HF), <- S4 in H. unfold enc in H. pose proof (fl_pos F HF). nia. }
  pose proof (pow2_le (prec F) B ltac:(unfold prec; lia)) as PB.
  rewrite wrap_small by (unfold inU; lia).
  destruct (Z.eqb_spec (mag_of F b) 0) as [E0|E0].
  - rewrite E0. assert (ES : sig_of F 0 = 0) by (unfold sig_of; pose proof (fl_pos F HF); replace (0 <? 2 ^ fl F) with true by lia; reflexivity).
    rewrite ES. unfold normalize. cbn [dmant]. rewrite Z.eqb_refl.
    split. { rewrite fval_fin by exact Hf. rewrite E0. unfold dyval, mval. cbn [dmant]. rewrite ES. ring. }
    cbn [dsign dmant dexp]. split; [reflexivity|]. split; [pose proof (pow2_pos B); lia|]. split; [left; reflexivity|]. lia.
  - pose proof (normalize_spec B (Dyadic (sign_of F b) (exp_of F (mag_of F b) + fl F - fl F) (sig_of F (mag_of F b))) ltac:(cbn [dmant]; lia)) as H.
    cbn [dmant dsign dexp] in H. destruct H as [(H1 & H2 & H3 & H4 & H5)|[H _]].
    + rewrite H1, H2. split; [|split; [reflexivity|split; [lia|split; [auto|unfold emin in *; lia]]]].
      rewrite fval_fin by exact Hf. rewrite dyval_sg. cbn [dsign dmant dexp]. unfold mval. do 3 f_equal. lia.
    + exfalso. destruct S3 as [S3|S3]; [pose proof (fl_pos F HF); lia|]. rewrite H, S3 in S4. unfold enc in S4. lia.
Qed.

Lemma dy_neg_spec : forall B d, 1 <= B -> 0 <= dmant d < 2 ^ B -> dy_norm B d ->
  dy_neg B d = Dyadic (negb (dsign d)) (dexp d) (dmant d) /\ dyval (dy_neg B d) = (- dyval d)%R.
Proof.
  intros B d HB Hd HN. unfold dy_neg, dy_make. rewrite normalize_id by auto. split; [reflexivity|].
  rewrite !dyval_sg. cbn [dsign dmant dexp]. destruct (dsign d); unfold sg; cbn [negb]; ring.
Qed.
Lemma mul_pow_2_spec : forall d k, dyval (mul_pow_2 d k) = (dyval d * bpow radix2 k)%R.
Proof. intros. unfold mul_pow_2, dyval. cbn [dsign dmant dexp]. rewrite bpow_plus. ring. Qed.

(** shift_right truncates towards zero; shift_left is exact when no bit is lost. *)
Lemma dy_shr_spec : forall B d n, 0 <= n -> 0 <= dmant d < 2 ^ B ->
  (0 <= Rabs (dyval d) - Rabs (dyval (dy_shr B d n)) < bpow radix2 (dexp d + n))%R /\
  dsign (dy_shr B d n) = dsign d /\ (n < B -> dexp (dy_shr B d n) = dexp d + n) /\ 0 <= dmant (dy_shr B d n) < 2 ^ B.
Proof.
  intros B d n Hn Hd. unfold dy_shr. destruct (Z.ltb_spec n B) as [L|L].
  - cbn [dsign dexp dmant]. pose proof (pow2_pos n Hn) as HP.
    rewrite Z.shiftr_div_pow2 by lia. pose proof (Z.div_pos (dmant d) (2 ^ n) ltac:(lia) HP) as HQ.
    assert (HQ2 : dmant d / 2 ^ n <= dmant d) by (apply Z.div_le_upper_bound; nia).
    split; [|split; [reflexivity|split; [reflexivity|lia]]].
    rewrite !Rabs_dyval by (cbn [dmant]; lia). cbn [dsign dexp dmant].
    rewrite bpow_plus, (bpow_IZR n) by lia.
    pose proof (Z.div_mod (dmant d) (2 ^ n) ltac:(lia)) as DM. pose proof (Z.mod_pos_bound (dmant d) (2 ^ n) HP) as MB.
    set (q := dmant d / 2 ^ n) in *. set (r := dmant d mod 2 ^ n) in *. rewrite DM, plus_IZR, mult_IZR.
    apply IZR_le in HQ. destruct MB as [M1 M2]. apply IZR_le in M1. apply IZR_lt in M2.
    pose proof (bpow_gt_0 radix2 (dexp d)) as HE. set (E := bpow radix2 (dexp d)) in *. set (P := IZR (2 ^ n)) in *. set (R := IZR r) in *.
    split; nra.
  - cbn [dsign dexp dmant]. split; [|split; [reflexivity|split; [lia|pose proof (pow2_pos B); lia]]].
    rewrite !Rabs_dyval by (cbn [dmant]; lia). cbn [dmant dexp]. rewrite Rmult_0_l, Rminus_0_r.
    rewrite bpow_plus, (bpow_IZR n) by lia. pose proof (bpow_gt_0 radix2 (dexp d)).
    pose proof (pow2_le B n ltac:(lia)). split; [apply Rmult_le_pos; [apply IZR_le; lia|lra]|].
    rewrite (Rmult_comm _ (IZR (2 ^ n))). apply Rmult_lt_compat_r; [lra|]. apply IZR_lt. lia.
Qed.
Lemma dy_shl_spec : forall B d n, 0 <= n < B -> 0 <= dmant d -> dmant d * 2 ^ n < 2 ^ B ->
  dyval (dy_shl B d n) = dyval d /\ dsign (dy_shl B d n) = dsign d /\ dexp (dy_shl B d n) = dexp d - n /\
  dmant (dy_shl B d n) = dmant d * 2 ^ n.
Proof.
  intros B d n Hn Hd Hm. unfold dy_shl. replace (n <? B) with true by lia. cbn [dsign dexp dmant].
  pose proof (pow2_pos n ltac:(lia)). rewrite Z.shiftl_mul_pow2, wrap_small by (try (unfold inU; nia); lia).
  split; [|auto]. unfold dyval. cbn [dsign dmant dexp]. rewrite mult_IZR, <- (bpow_IZR n) by lia.
  replace (dexp d) with (dexp d - n + n) at 2 by lia. rewrite bpow_plus. ring.
Qed.

(** ** Rounding to [B] bits *)
Lemma brk_drop : forall q st e y j, 0 <= q -> 0 <= j -> brk q st e y ->
  brk (q / 2 ^ j) (st || negb (q mod 2 ^ j =? 0)) (e + j) y.
Proof.
  intros q st e y j Hq Hj H. pose proof (pow2_pos j Hj) as HP. destruct st; cbn [orb].
  - unfold brk in *. destruct H as [H1 H2]. pose proof (bpow_gt_0 radix2 e) as HE.
    pose proof (Z.div_mod q (2 ^ j) ltac:(lia)) as DM. pose proof (Z.mod_pos_bound q (2 ^ j) HP) as MB.
    assert (SS : forall a, (IZR a * bpow radix2 (e + j) = IZR (a * 2 ^ j) * bpow radix2 e)%R).
    { intros a. rewrite mult_IZR, <- (bpow_IZR j) by lia. rewrite bpow_plus. ring. }
    rewrite !SS. split.
    + apply Rle_lt_trans with (2 := H1). apply Rmult_le_compat_r; [lra|]. apply IZR_le. lia.
    + apply Rlt_le_trans with (1 := H2). apply Rmult_le_compat_r; [lra|]. apply IZR_le. nia.
  - unfold brk in H. subst y. apply brk_shift; auto.
Qed.
(** ORing the sticky bit into bit 0. *)
Lemma sticky_lor : forall q (st : bool) j, 0 <= q -> 1 <= j ->
  let q' := if st then Z.lor q 1 else q in
  q' / 2 ^ j = q / 2 ^ j /\ (q' mod 2 ^ j =? 0) = negb (st || negb (q mod 2 ^ j =? 0)) /\ q <= q' /\ (q' = q \/ q' = q + 1).
Proof.
  intros q st j Hq Hj. cbv zeta. destruct st; [|cbn [orb]; rewrite negb_involutive; lia]. cbn [orb negb].
  assert (EL : Z.lor q 1 = 2 * (q / 2) + 1).
  { rewrite <- Z.div2_div. destruct q as [|[p|p|]|p]; try lia; reflexivity. }
  rewrite EL. pose proof (Z.div_mod q 2 ltac:(lia)) as D2. pose proof (Z.mod_pos_bound q 2 ltac:(lia)) as M2.
  set (h := q / 2) in *. rewrite (pow2_top j) by lia. set (P := 2 ^ (j - 1)). assert (0 < P) by (apply pow2_pos; lia).
  pose proof (Z.div_mod h P ltac:(lia)) as D3. pose proof (Z.mod_pos_bound h P ltac:(lia)) as M3.
  assert (Q1 : (2 * h + 1) / (2 * P) = h / P) by (symmetry; apply Z.div_unique with (2 * (h mod P) + 1); lia).
  assert (Q2 : q / (2 * P) = h / P) by (symmetry; apply Z.div_unique with (2 * (h mod P) + q mod 2); lia).
  assert (Q3 : (2 * h + 1) mod (2 * P) = 2 * (h mod P) + 1) by (symmetry; apply Z.mod_unique with (h / P); lia).
  rewrite Q1, Q2, Q3. split; [reflexivity|]. split; [apply Z.eqb_neq; lia|lia].
Qed.

Lemma round_bits_zero : forall B rm, 1 <= B -> round_bits B rm 0 = 0%R.
Proof.
  intros B rm HB. unfold round_bits. assert (Valid_exp (FLX_exp B)) by (apply FLX_exp_valid; unfold Prec_gt_0; lia).
  apply round_0. destruct rm; simpl; auto with typeclass_instances.
Qed.

Lemma round_bits_brk : forall B rm s q rb st e y, 1 <= B -> 2 ^ (B - 1) <= q < 2 ^ B ->
  brk (2 * q + b2z rb) st (e - 1) y ->
  round_bits B rm (sg s * y) = (sg s * (IZR (q + b2z (round_tbl rm s q rb st)) * bpow radix2 e))%R.
Proof.
  intros B rm s q rb st e y HB Hq H.
  assert (By : (bpow radix2 (B - 1 + e) <= y < bpow radix2 (B + e))%R).
  { rewrite !bpow_plus. rewrite (bpow_IZR (B - 1)), (bpow_IZR B) by lia.
    assert (E1 : bpow radix2 e = (2 * bpow radix2 (e - 1))%R).
    { replace e with (1 + (e - 1)) at 1 by lia. rewrite bpow_plus. reflexivity. }
    pose proof (bpow_gt_0 radix2 (e - 1)) as HE. rewrite E1. unfold brk in H. set (E := bpow radix2 (e - 1)) in *.
    assert (L : (IZR (2 ^ (B - 1)) * (2 * E) = IZR (2 * 2 ^ (B - 1)) * E)%R) by (rewrite mult_IZR; ring).
    assert (U : (IZR (2 ^ B) * (2 * E) = IZR (2 * 2 ^ B) * E)%R) by (rewrite mult_IZR; ring).
    rewrite L, U. clear L U. assert (b2z rb = 0 \/ b2z rb = 1) by (destruct rb; auto).
    destruct st.
    - destruct H as [H1 H2]. split.
      + apply Rle_trans with (2 := Rlt_le _ _ H1). apply Rmult_le_compat_r; [lra|]. apply IZR_le; lia.
      + apply Rlt_le_trans with (1 := H2). apply Rmult_le_compat_r; [lra|]. apply IZR_le; lia.
    - subst y. split; [apply Rmult_le_compat_r; [lra|]; apply IZR_le; lia|].
      apply Rmult_lt_compat_r; [lra|]. apply IZR_lt. lia. }
  assert (Yp : (0 < y)%R) by (pose proof (bpow_gt_0 radix2 (B - 1 + e)); lra).
  assert (Hmag : mag radix2 (sg s * y) = B + e :> Z).
  { apply mag_unique. rewrite Rabs_sg, Rabs_pos_eq by lra. replace (B + e - 1) with (B - 1 + e) by lia. exact By. }
  unfold round_bits, round, F2R, scaled_mantissa, cexp. cbn [Fnum Fexp]. rewrite Hmag.
  unfold FLX_exp. replace (B + e - B) with e by lia.
  rewrite Rmult_assoc.
  assert (H' : brk (2 * q + b2z rb) st (-1) (y * bpow radix2 (- e))).
  { unfold brk in *. pose proof (bpow_gt_0 radix2 (- e)) as HE.
    assert (SS : forall a, (IZR a * bpow radix2 (-1) = IZR a * bpow radix2 (e - 1) * bpow radix2 (- e))%R).
    { intros a. rewrite Rmult_assoc, <- bpow_plus. do 2 f_equal. lia. }
    rewrite !SS. destruct st; [split; apply Rmult_lt_compat_r; tauto|]. rewrite H. reflexivity. }
  assert (b2z rb = 0 \/ b2z rb = 1) by (destruct rb; auto). pose proof (pow2_pos (B - 1) ltac:(lia)).
  rewrite (rnd_brk rm s (2 * q + b2z rb) (-1) 1 st) by (try lia; exact H').
  rewrite round_up_tbl by lia. change (2 ^ 1) with 2. change (1 - 1) with 0. change (2 ^ 0) with 1. rewrite Z.mod_1_r.
  assert (Q : (2 * q + b2z rb) / 2 = q) by (symmetry; apply Z.div_unique with (b2z rb); lia). rewrite Q.
  assert (T : Z.testbit (2 * q + b2z rb) 0 = rb) by (destruct rb; cbn [b2z]; [apply Z.testbit_odd_0|rewrite Z.add_0_r; apply Z.testbit_even_0]).
  rewrite T. change (0 =? 0) with true. cbn [negb]. rewrite orb_false_r.
  destruct s; cbn [cond_Zopp]; unfold sg; rewrite ?opp_IZR; ring.
Qed.

Lemma dy_round_spec : forall dm B IB s e m K y, 2 <= B -> 2 <= K -> B + K <= IB ->
  2 ^ (B + K - 1) <= m < 2 ^ (B + K) ->
  brk (m / 2 ^ (K - 1)) (negb (m mod 2 ^ (K - 1) =? 0)) (e - 1) y ->
  exists r, dy_round dm B IB s e m K = Some r /\ dyval r = round_bits B dm (sg s * y) /\ dsign r = s /\
    2 ^ (B - 1) <= dmant r < 2 ^ B /\ e <= dexp r <= e + 1.
Proof.
  intros dm B IB s e m K y HB HK HI Hm H. pose proof (pow2_pos K ltac:(lia)) as HP. pose proof (pow2_pos (B - 1) ltac:(lia)) as HP1.
  assert (Hq : 2 ^ (B - 1) <= m / 2 ^ K < 2 ^ B).
  { replace (B + K - 1) with (K + (B - 1)) in Hm by lia. replace (B + K) with (K + B) in Hm by lia. rewrite !Z.pow_add_r in Hm by lia.
    split; [apply Z.div_le_lower_bound; lia|apply Z.div_lt_upper_bound; lia]. }
  pose proof (pow2_le (B + K) IB ltac:(lia)) as HIB. pose proof (pow2_pos (B + K - 1) ltac:(lia)) as HP3.
  unfold dy_round. rewrite ushr_div by lia. cbn [bindo].
  rewrite rounding_direction_eq by (try lia; right; left; lia). cbn [bindo].
  assert (EQ : m / 2 ^ (K - 1) = 2 * (m / 2 ^ K) + b2z (Z.testbit m (K - 1))).
  { destruct (rem_split m K ltac:(lia)) as [Er R]. pose proof (Z.div_mod m (2 ^ K) ltac:(lia)) as DM. rewrite (pow2_top K) in DM at 1 by lia.
    symmetry. apply Z.div_unique with (m mod 2 ^ (K - 1)); [left; lia|]. lia. }
  rewrite EQ in H. rewrite (round_bits_brk B dm s _ _ _ e y ltac:(lia) Hq H).
  pose proof (tbl_exact dm s m K ltac:(lia) ltac:(lia)) as TE.
  set (q := m / 2 ^ K) in *. set (up := round_tbl dm s q _ _) in *.
  rewrite (wrap_small B q) by (unfold inU; lia).
  assert (D : (0 <? (if m mod 2 ^ K =? 0 then 0 else if up then 1 else -1)) = up).
  { destruct (Z.eqb_spec (m mod 2 ^ K) 0) as [E|E]; [rewrite TE by auto; reflexivity|]. destruct up; reflexivity. }
  rewrite D. eexists. split; [reflexivity|].
  assert (MK : forall e' m', 2 ^ (B - 1) <= m' < 2 ^ B -> dy_make B s e' m' = Dyadic s e' m').
  { intros. unfold dy_make. apply normalize_id; cbn [dmant]; try lia. right. cbn [dmant]. lia. }
  destruct up; cbn [b2z].
  - destruct (Z.eq_dec (q + 1) (2 ^ B)) as [E|E].
    + assert (W : wrap B (q + 1) = 0) by (unfold wrap; rewrite E; apply Z.mod_same; lia).
      rewrite W. change (0 =? 0) with true. cbv iota. rewrite Z.lor_0_l.
      pose proof (pow2_lt (B - 1) B ltac:(lia)).
      rewrite MK by lia. rewrite dyval_sg. cbn [dsign dmant dexp]. split; [|split; [reflexivity|lia]].
      f_equal. rewrite E, (pow2_top B) by lia. rewrite bpow_plus. change (bpow radix2 1) with 2%R. rewrite mult_IZR. ring.
    + rewrite wrap_small by (unfold inU; lia). replace (q + 1 =? 0) with false by lia.
      rewrite MK by lia. rewrite dyval_sg. cbn [dsign dmant dexp]. split; [reflexivity|split; [reflexivity|lia]].
  - rewrite MK by lia. rewrite Z.add_0_r, dyval_sg. cbn [dsign dmant dexp]. split; [reflexivity|split; [reflexivity|lia]].
Qed.

(** Range of a product of two normalized mantissas. *)
Lemma mul_range : forall B x y, 1 <= B -> 2 ^ (B - 1) <= x < 2 ^ B -> 2 ^ (B - 1) <= y < 2 ^ B ->
  2 ^ (2 * B - 2) <= x * y < 2 ^ (2 * B).
Proof.
  intros B x y HB Hx Hy. replace (2 * B - 2) with ((B - 1) + (B - 1)) by lia. replace (2 * B) with (B + B) by lia.
  rewrite !Z.pow_add_r by lia. pose proof (pow2_pos (B - 1) ltac:(lia)). split; [apply Z.mul_le_mono_nonneg|apply Z.mul_lt_mono_nonneg]; lia.
Qed.
Lemma dyval_mul : forall a b, (dyval a * dyval b = sg (negb (Bool.eqb (dsign a) (dsign b))) *
  (IZR (dmant a * dmant b) * bpow radix2 (dexp a + dexp b)))%R.
Proof.
  intros a b. rewrite !dyval_sg, mult_IZR, bpow_plus. destruct (dsign a), (dsign b); unfold sg; cbn [Bool.eqb negb]; ring.
Qed.

Definition sxor (a b : dyadic) : bool := negb (Bool.eqb (dsign a) (dsign b)).

Lemma rounded_mul_spec : forall dm B a b, 2 <= B -> 0 <= dmant a < 2 ^ B -> 0 <= dmant b < 2 ^ B -> dy_norm B a -> dy_norm B b ->
  exists r, rounded_mul dm B a b = Some r /\ dyval r = round_bits B dm (dyval a * dyval b) /\
    dsign r = xorb (dsign a) (dsign b) /\ 0 <= dmant r < 2 ^ B /\ dy_norm B r.
Proof.
  intros dm B a b HB Ha Hb Na Nb.
  assert (SX : xorb (dsign a) (dsign b) = negb (Bool.eqb (dsign a) (dsign b))) by (destruct (dsign a), (dsign b); reflexivity).
  rewrite SX. clear SX. unfold rounded_mul. set (s := negb (Bool.eqb (dsign a) (dsign b))).
  rewrite dyval_mul. fold s.
  assert (ZC : dmant a * dmant b = 0 -> exists r, rounded_mul dm B a b = Some r /\ dyval r = 0%R /\ dsign r = s /\
      0 <= dmant r < 2 ^ B /\ dy_norm B r).
  { intros E. unfold rounded_mul. fold s. rewrite E. change (wrap (2 * B) 0) with (0 mod 2 ^ (2 * B)).
    pose proof (pow2_pos (2 * B) ltac:(lia)). rewrite Z.mod_0_l by lia. rewrite Z.bits_0. rewrite Z.shiftl_0_l. unfold wrap at 1.
    rewrite Z.mod_0_l by lia. unfold dy_round. rewrite ushr_div by lia. cbn [bindo]. pose proof (pow2_pos B ltac:(lia)).
    rewrite rounding_direction_eq by (try lia; right; left; lia). rewrite Z.mod_0_l, Z.div_0_l by lia. cbn [bindo].
    change (0 =? 0) with true. cbv iota. change (0 <? 0) with false. cbv iota.
    assert (W0 : wrap B 0 = 0) by (apply Z.mod_0_l; lia). rewrite W0. eexists; split; [reflexivity|].
    destruct (dy_make_spec B s (dexp a + dexp b + B - 1) 0 ltac:(lia)) as (D1 & D2 & D3 & D4).
    rewrite D1, D2. split; [ring|]. auto. }
  destruct (Z.eq_dec (dmant a * dmant b) 0) as [E|E].
  { destruct (ZC E) as (r & R1 & R2 & R3 & R4 & R5). exists r. unfold rounded_mul in R1. fold s in R1. split; [exact R1|].
    rewrite E, Rmult_0_l, Rmult_0_r, round_bits_zero by lia. auto. }
  clear ZC. assert (Na' : 2 ^ (B - 1) <= dmant a) by (destruct Na as [H|H]; [rewrite H in E; lia|auto]).
  assert (Nb' : 2 ^ (B - 1) <= dmant b) by (destruct Nb as [H|H]; [rewrite H in E; lia|auto]).
  pose proof (mul_range B (dmant a) (dmant b) ltac:(lia) ltac:(lia) ltac:(lia)) as HM.
  set (P := dmant a * dmant b) in *. pose proof (pow2_pos (2 * B - 2) ltac:(lia)) as HPP.
  rewrite wrap_small by (unfold inU; lia).
  assert (FIN : forall e m, 2 ^ (B + B - 1) <= m < 2 ^ (B + B) -> (IZR m * bpow radix2 (e - B) = IZR P * bpow radix2 (dexp a + dexp b))%R ->
    exists r, dy_round dm B (2 * B) s e m B = Some r /\ dyval r = round_bits B dm (sg s * (IZR P * bpow radix2 (dexp a + dexp b))) /\
      dsign r = s /\ 0 <= dmant r < 2 ^ B /\ dy_norm B r).
  { intros e m Hm Hv. pose proof (pow2_pos (B + B - 1) ltac:(lia)).
    destruct (dy_round_spec dm B (2 * B) s e m B (IZR m * bpow radix2 (e - B))) as (r & R1 & R2 & R3 & R4 & R5); try lia.
    - replace (e - 1) with ((e - B) + (B - 1)) by lia. apply brk_shift; lia.
    - exists r. rewrite <- Hv. split; [exact R1|]. split; [exact R2|]. split; [exact R3|]. pose proof (pow2_pos (B - 1) ltac:(lia)). split; [lia|]. right; lia. }
  rewrite top_bit by lia. destruct (Z.leb_spec (2 ^ (2 * B - 1)) P) as [L|L].
  - apply FIN; [replace (B + B) with (2 * B) by lia; lia|]. do 2 f_equal. lia.
  - rewrite Z.shiftl_mul_pow2 by lia. change (2 ^ 1) with 2. pose proof (pow2_top (2 * B) ltac:(lia)) as T2.
    pose proof (pow2_top (2 * B - 1) ltac:(lia)) as T3. replace (2 * B - 1 - 1) with (2 * B - 2) in T3 by lia.
    rewrite wrap_small by (unfold inU; lia). apply FIN; [replace (B + B) with (2 * B) by lia; lia|].
    rewrite mult_IZR. replace (dexp a + dexp b + B - 1 - B) with (-1 + (dexp a + dexp b)) by lia. rewrite (bpow_plus radix2 (-1) (dexp a + dexp b)). change (bpow radix2 (-1)) with (/ 2)%R. field.
Qed.

(** A quotient and its remainder bracket the exact quotient. *)
Lemma div_brk : forall n d, 0 <= n -> 0 < d -> brk (n / d) (negb (n mod d =? 0)) 0 (IZR n / IZR d).
Proof.
  intros n d Hn Hd. pose proof (Z.div_mod n d ltac:(lia)) as DM. pose proof (Z.mod_pos_bound n d Hd) as MB.
  assert (0 < IZR d)%R by (apply IZR_lt; lia). unfold brk. cbn [bpow]. rewrite !Rmult_1_r.
  destruct (Z.eqb_spec (n mod d) 0) as [E|E]; cbn [negb].
  - apply Rmult_eq_reg_r with (IZR d); [|lra]. unfold Rdiv. rewrite Rmult_assoc, Rinv_l, Rmult_1_r, <- mult_IZR by lra. f_equal. lia.
  - split; apply Rmult_lt_reg_r with (IZR d); auto; unfold Rdiv; rewrite Rmult_assoc, Rinv_l, Rmult_1_r, <- mult_IZR by lra; apply IZR_lt; nia.
Qed.
Lemma brk_scale : forall a st e y k, brk a st e y -> brk a st (e + k) (y * bpow radix2 k).
Proof.
  intros a st e y k H. unfold brk in *. pose proof (bpow_gt_0 radix2 k).
  rewrite !bpow_plus, <- !Rmult_assoc. destruct st; [split; apply Rmult_lt_compat_r; tauto|]. rewrite H. reflexivity.
Qed.

Lemma rounded_div_spec : forall dm B a b, 2 <= B -> 0 <= dmant a < 2 ^ B -> 0 <= dmant b < 2 ^ B -> dy_norm B a -> dy_norm B b ->
  dmant b <> 0 ->
  exists r, rounded_div dm B a b = Some r /\ dyval r = round_bits B dm (dyval a / dyval b) /\
    dsign r = xorb (dsign a) (dsign b) /\ 0 <= dmant r < 2 ^ B /\ dy_norm B r.
Proof.
  intros dm B a b HB Ha Hb Na Nb Hb0.
  assert (SX : xorb (dsign a) (dsign b) = negb (Bool.eqb (dsign a) (dsign b))) by (destruct (dsign a), (dsign b); reflexivity).
  rewrite SX. clear SX. unfold rounded_div. set (s := negb (Bool.eqb (dsign a) (dsign b))).
  pose proof (pow2_pos (B - 1) ltac:(lia)) as HP1. pose proof (pow2_top B ltac:(lia)) as HT.
  destruct (Z.eqb_spec (dmant a) 0) as [E|E].
  { eexists; split; [reflexivity|]. destruct (dy_make_spec B s 0 0 ltac:(lia)) as (D1 & D2 & D3 & D4).
    rewrite D1, D2. split; [|auto]. assert (A0 : dyval a = 0%R) by (unfold dyval; rewrite E; ring).
    rewrite A0. unfold Rdiv. rewrite (Rmult_0_l (/ dyval b)), round_bits_zero by lia. ring. }
  replace (dmant b =? 0) with false by lia.
  assert (Na' : 2 ^ (B - 1) <= dmant a) by (destruct Na as [H|H]; [lia|auto]).
  assert (Nb' : 2 ^ (B - 1) <= dmant b) by (destruct Nb as [H|H]; [lia|auto]).
  set (u := if dmant a <? dmant b then 0 else 1). set (sh := B - u + 64).
  assert (Hu : (dmant a < dmant b /\ u = 0) \/ (dmant b <= dmant a /\ u = 1)) by (unfold u; destruct (Z.ltb_spec (dmant a) (dmant b)); auto).
  pose proof (pow2_pos sh ltac:(unfold sh; lia)) as HPs.
  assert (NUM : ushl (2 * B + 64) (dmant a) sh = Some (dmant a * 2 ^ sh)).
  { unfold ushl. replace ((0 <=? sh) && (sh <? 2 * B + 64)) with true by (unfold sh; lia).
    rewrite Z.shiftl_mul_pow2 by (unfold sh; lia). rewrite wrap_small; [reflexivity|]. unfold inU. split; [nia|].
    apply Z.lt_le_trans with (2 ^ B * 2 ^ sh); [apply Z.mul_lt_mono_pos_r; lia|]. rewrite <- Z.pow_add_r by (unfold sh; lia). apply pow2_le. unfold sh; lia. }
  fold sh. rewrite NUM. cbn [bindo]. set (num := dmant a * 2 ^ sh). assert (Hn0 : 0 <= num) by (unfold num; nia).
  assert (QR : 2 ^ (B + 63) <= num / dmant b < 2 ^ (B + 64)).
  { assert (PS : 2 ^ (B + 64) = 2 * 2 ^ (B + 63)) by (rewrite <- pow2_succ by lia; f_equal; lia).
    pose proof (pow2_pos (B + 63) ltac:(lia)) as H63. unfold num, sh. destruct Hu as [[H Hu]|[H Hu]]; rewrite Hu.
    - replace (B - 0 + 64) with (B + 64) by lia. rewrite PS. split; [apply Z.div_le_lower_bound; nia|apply Z.div_lt_upper_bound; nia].
    - replace (B - 1 + 64) with (B + 63) by lia. rewrite PS. split; [apply Z.div_le_lower_bound; nia|apply Z.div_lt_upper_bound; nia]. }
  pose proof (div_brk num (dmant b) Hn0 ltac:(lia)) as DB.
  set (q := num / dmant b) in *. set (st := negb (num mod dmant b =? 0)) in *.
  pose proof (pow2_pos (B + 63) ltac:(lia)) as HP63.
  destruct (sticky_lor q st 63 ltac:(lia) ltac:(lia)) as (L1 & L2 & L3 & L4).
  set (q' := if st then Z.lor q 1 else q) in *.
  assert (Hq' : 2 ^ (B + 63) <= q' < 2 ^ (B + 64)).
  { destruct (sticky_lor q st (B + 64) ltac:(lia) ltac:(lia)) as (M1 & _). fold q' in M1.
    rewrite (Z.div_small q) in M1 by lia. split; [lia|].
    destruct (Z_lt_le_dec q' (2 ^ (B + 64))); auto. exfalso.
    assert (1 <= q' / 2 ^ (B + 64)) by (apply Z.div_le_lower_bound; [apply pow2_pos; lia|lia]). lia. }
  set (e := dexp a - dexp b - B + (if dmant a <? dmant b then 0 else 1)).
  assert (Ee : e = dexp a - dexp b - B + u) by (unfold e, u; reflexivity).
  assert (Y : (dyval a / dyval b = sg s * (IZR num / IZR (dmant b) * bpow radix2 (e - 64)))%R).
  { rewrite !dyval_sg. assert (DBP : (0 < IZR (dmant b))%R) by (apply IZR_lt; lia).
    unfold num. rewrite mult_IZR, <- (bpow_IZR sh) by (unfold sh; lia).
    assert (EX : bpow radix2 (dexp a) = (bpow radix2 sh * bpow radix2 (e - 64) * bpow radix2 (dexp b))%R).
    { rewrite <- !bpow_plus. f_equal. unfold sh. lia. }
    rewrite EX. pose proof (bpow_gt_0 radix2 (dexp b)). unfold s, sg. destruct (dsign a), (dsign b); cbn [Bool.eqb negb]; field; lra. }
  destruct (dy_round_spec dm B (2 * B + 64) s e q' 64 (IZR num / IZR (dmant b) * bpow radix2 (e - 64))) as (r & R1 & R2 & R3 & R4 & R5); try lia.
  - replace (B + 64 - 1) with (B + 63) by lia. lia.
  - change (64 - 1) with 63. rewrite L1, L2, negb_involutive.
    replace (e - 1) with (0 + 63 + (e - 64)) by lia. apply brk_scale. apply brk_drop; auto; lia.
  - exists r. split; [exact R1|]. split; [rewrite Y; exact R2|]. split; [exact R3|]. split; [lia|]. right; lia.
Qed.
