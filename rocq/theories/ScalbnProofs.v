(** * Proofs about scalbn: up to three multiplications by powers of two round once *)
From Coq Require Import ZArith Reals Bool Lia Lra Psatz.
From Flocq Require Import Core Mult_error.
From Verif Require Import MachInt Fmt FloatSpec FmtProofs RoundProofs FOps FOpsProofs ExactOps.
From Verif Require Import FPBits FPBitsProofs Compare CompareProofs Nearest NearestProofs NearestInt Fmanip FmanipProofs.
Open Scope Z_scope.

Section S.
Context (F : fmt) (HF : good_fmt F) (rm : rmode).
Let fmtF := generic_format radix2 (FLT_exp (emin F) (prec F)).
Local Notation "x ^2^ k" := (x * bpow radix2 k)%R (at level 30).

Lemma prec_pos : Prec_gt_0 (prec F).
Proof. unfold Prec_gt_0, prec. pose proof (gf_fl F HF). lia. Qed.

Lemma scale_plus : forall x a b, ((x ^2^ a) ^2^ b = x ^2^ (a + b))%R.
Proof. intros. rewrite bpow_plus. ring. Qed.
Lemma scale_abs : forall x k, Rabs (x ^2^ k) = (Rabs x ^2^ k)%R.
Proof. intros. rewrite Rabs_mult, (Rabs_pos_eq (bpow _ _)) by apply bpow_ge_0. reflexivity. Qed.
Lemma scale_0 : forall x k, (x ^2^ k = 0)%R <-> x = 0%R.
Proof.
  intros x k. pose proof (bpow_gt_0 radix2 k). split; intros HX.
  - apply Rmult_integral in HX. destruct HX; [assumption | lra].
  - rewrite HX. ring.
Qed.
Lemma scale_sign : forall x k, Rlt_bool (x ^2^ k) 0 = Rlt_bool x 0.
Proof.
  intros x k. pose proof (bpow_gt_0 radix2 k). destruct (Rlt_bool_spec x 0) as [HX | HX].
  - apply Rlt_bool_true. nra.
  - apply Rlt_bool_false. nra.
Qed.
Lemma scale_le : forall x a b c, (Rabs x <= bpow radix2 a)%R -> a + b <= c -> (Rabs (x ^2^ b) <= bpow radix2 c)%R.
Proof.
  intros x a b c HX Hc. rewrite scale_abs.
  apply Rle_trans with (bpow radix2 (a + b)); [ | apply bpow_le; assumption].
  rewrite bpow_plus. apply Rmult_le_compat_r; [apply bpow_ge_0 | assumption].
Qed.
Lemma scale_lt : forall x a b c, (Rabs x < bpow radix2 a)%R -> a + b <= c -> (Rabs (x ^2^ b) < bpow radix2 c)%R.
Proof.
  intros x a b c HX Hc. rewrite scale_abs.
  apply Rlt_le_trans with (bpow radix2 (a + b)); [ | apply bpow_le; assumption].
  rewrite bpow_plus. apply Rmult_lt_compat_r; [apply bpow_gt_0 | assumption].
Qed.
Lemma scale_ge : forall x a b c, (bpow radix2 a <= Rabs x)%R -> c <= a + b -> (bpow radix2 c <= Rabs (x ^2^ b))%R.
Proof.
  intros x a b c HX Hc. rewrite scale_abs.
  apply Rle_trans with (bpow radix2 (a + b)); [apply bpow_le; assumption | ].
  rewrite bpow_plus. apply Rmult_le_compat_r; [apply bpow_ge_0 | assumption].
Qed.

Lemma mul_pow2_spec : forall b k, 1 - bias F <= k <= bias F -> is_fin F b = true ->
  rounded F rm (fval F b ^2^ k) (sign_of F b) (f_mul F rm b (f_pow2 F false k)).
Proof.
  intros b k Hk Hb. destruct (f_pow2_props F HF false k Hk) as (Pp & Fp & Sp & Vp & _).
  pose proof (f_mul_spec F HF rm b _ Hb Fp) as HM. rewrite Vp, Sp in HM. cbn [sg] in HM.
  rewrite Rmult_1_l, xorb_false_r in HM. exact HM.
Qed.

(** The sign of a rounding of [fval x * 2^k]. *)
Lemma sign_scaled : forall x k b, is_fin F x = true ->
  rounded F rm (fval F x ^2^ k) (sign_of F x) b -> sign_of F b = sign_of F x.
Proof.
  intros x k b Hx HR. destruct HR as (_ & HS & _). rewrite HS.
  destruct (Req_bool_spec (fval F x ^2^ k) 0) as [ | HN]; [reflexivity | ].
  rewrite scale_sign. symmetry. apply (sign_fval F HF); [assumption | ]. intros HZ. apply HN. apply scale_0. exact HZ.
Qed.

(** ** Upwards *)
Section Up.
Context (x : Z) (Hp : is_pattern F x) (Hx : is_fin F x = true).
Let s := sign_of F x.
Definition ovf (b : Z) : Prop := is_pattern F b /\ sign_of F b = s /\ mag_of F b = overflow_mag F rm s.
Definition ust (b k : Z) : Prop :=
  (is_pattern F b /\ is_fin F b = true /\ sign_of F b = s /\ fval F b = (fval F x ^2^ k)%R) \/
  (ovf b /\ (bpow radix2 (bias F + 1) <= Rabs (fval F x ^2^ k))%R).

Lemma ust_0 : ust x 0.
Proof. left. change (bpow radix2 0) with 1%R. rewrite Rmult_1_r. repeat split; try assumption; apply Hp. Qed.

Lemma rounded_ovf : forall y b, fmtF y -> (bpow radix2 (bias F + 1) <= Rabs y)%R ->
  (Rlt_bool y 0 = s) -> rounded F rm y s b <-> ovf b.
Proof.
  intros y b HY HB HS. pose proof prec_pos.
  assert (HR : fround F rm y = y) by (apply fround_exact; assumption).
  assert (HN : y <> 0%R).
  { intros HZ. rewrite HZ, Rabs_R0 in HB. pose proof (bpow_gt_0 radix2 (bias F + 1)). lra. }
  unfold rounded, ovf. rewrite HR, HS, Req_bool_false by assumption. split.
  - intros (P1 & S1 & _ & O1). split; [exact P1 | ]. split; [exact S1 | ]. apply O1. exact HB.
  - intros (P1 & S1 & O1). split; [exact P1 | ]. split; [exact S1 | ]. split; [intros HL; lra | intros _; exact O1].
Qed.

Lemma ovf_step : forall b k, ovf b -> 1 <= k <= bias F -> ovf (f_mul F rm b (f_pow2 F false k)).
Proof.
  intros b k (P1 & S1 & M1) Hk. pose proof (bias_ge2 F HF) as HB.
  destruct (f_pow2_props F HF false k ltac:(lia)) as (Pp & Fp & Sp & Vp & Mp).
  destruct (is_fin F b) eqn:HFb.
  - assert (HM : mag_of F b = max_mag F).
    { unfold is_fin in HFb. apply Z.ltb_lt in HFb. revert M1. unfold overflow_mag, max_mag in *.
      destruct rm, s; intros M1; try lia. }
    assert (HV : (bpow radix2 (bias F) <= Rabs (fval F b))%R).
    { rewrite (Rabs_fval F HF) by assumption. rewrite HM.
      destruct (f_pow2_props F HF false (bias F) ltac:(lia)) as (_ & F3 & S3 & V3 & M3).
      rewrite (fval_fin F _ F3), S3, M3 in V3. cbn [sg] in V3. rewrite !Rmult_1_l in V3. rewrite <- V3.
      pose proof (fl_pos F HF). pose proof (expmax_bias F HF) as HE.
      apply (mval_le F HF); unfold max_mag, inf_mag; rewrite ?HE; nia. }
    pose proof (mul_pow2_spec b k ltac:(lia) HFb) as HR. rewrite S1 in HR.
    apply (rounded_ovf (fval F b ^2^ k)) in HR; [exact HR | | | ].
    + apply mult_bpow_pos_exact_FLT; [apply (fval_format F HF) | lia].
    + apply scale_ge with (bias F); [assumption | lia].
    + rewrite scale_sign. rewrite <- S1. symmetry. apply (sign_fval F HF); [assumption | ].
      intros HZ. rewrite HZ, Rabs_R0 in HV. pose proof (bpow_gt_0 radix2 (bias F)). lra.
  - assert (HM : mag_of F b = inf_mag F).
    { unfold is_fin in HFb. apply Z.ltb_ge in HFb. revert M1. unfold overflow_mag, max_mag in *.
      destruct rm, s; intros M1; try lia. }
    assert (HD : decode F b = DInf s).
    { unfold decode, is_nan, is_inf. rewrite HM, S1.
      destruct (Z.ltb_spec (inf_mag F) (inf_mag F)); [lia | ]. rewrite Z.eqb_refl. reflexivity. }
    destruct (decode_fin F HF _ Fp) as (m & e & Dp & Hm & _ & _ & _ & Vp2). rewrite Sp in Dp, Vp2.
    unfold f_mul. rewrite HD, Dp.
    assert (Hm0 : m <> 0).
    { intros HZ. rewrite HZ in Vp2. rewrite Vp in Vp2. pose proof (bpow_gt_0 radix2 k). cbn [sg] in Vp2. lra. }
    destruct (Z.eqb_spec m 0); [lia | ]. rewrite xorb_false_r.
    destruct (f_inf_props F HF s) as (P3 & I3 & S3). unfold is_inf in I3. apply Z.eqb_eq in I3.
    split; [exact P3 | ]. split; [exact S3 | ]. rewrite I3, <- HM. exact M1.
Qed.

Lemma ust_step : forall b k j, ust b k -> 0 <= k -> 1 <= j <= bias F -> ust (f_mul F rm b (f_pow2 F false j)) (k + j).
Proof.
  intros b k j [(P1 & F1 & S1 & V1) | (HO & HB)] Hk Hj.
  - pose proof (mul_pow2_spec b j ltac:(lia) F1) as HR. rewrite V1, S1, scale_plus in HR.
    assert (HFm : fmtF (fval F x ^2^ (k + j))).
    { apply mult_bpow_pos_exact_FLT; [apply (fval_format F HF) | lia]. }
    destruct (Rlt_le_dec (Rabs (fval F x ^2^ (k + j))) (bpow radix2 (bias F + 1))) as [HL | HL].
    + left. destruct (rounded_repr F rm _ _ _ HFm HL HR) as (P2 & F2 & V2 & _).
      split; [exact P2 | ]. split; [exact F2 | ]. split; [ | exact V2].
      apply (sign_scaled x (k + j)); [exact Hx | exact HR].
    + right. split; [ | exact HL].
      apply (rounded_ovf (fval F x ^2^ (k + j))); [exact HFm | exact HL | | exact HR].
      rewrite scale_sign. symmetry. apply (sign_fval F HF); [exact Hx | ].
      intros HZ. rewrite HZ, Rmult_0_l, Rabs_R0 in HL. pose proof (bpow_gt_0 radix2 (bias F + 1)). lra.
  - right. split; [apply ovf_step; assumption | ].
    rewrite <- scale_plus. apply scale_ge with (bias F + 1); [exact HB | lia].
Qed.

Lemma ust_done : forall b k n, ust b k -> 0 <= k <= n -> (k = n \/ 3 * bias F <= k) ->
  rounded F rm (fval F x ^2^ n) s b.
Proof.
  intros b k n HU Hk Hn.
  assert (HFm : fmtF (fval F x ^2^ n)).
  { apply mult_bpow_pos_exact_FLT; [apply (fval_format F HF) | lia]. }
  assert (HOV : ovf b -> (bpow radix2 (bias F + 1) <= Rabs (fval F x ^2^ n))%R -> rounded F rm (fval F x ^2^ n) s b).
  { intros HO HB. apply (rounded_ovf (fval F x ^2^ n)); [exact HFm | exact HB | | exact HO].
    rewrite scale_sign. symmetry. apply (sign_fval F HF); [exact Hx | ].
    intros HZ. rewrite HZ, Rmult_0_l, Rabs_R0 in HB. pose proof (bpow_gt_0 radix2 (bias F + 1)). lra. }
  destruct HU as [(P1 & F1 & S1 & V1) | (HO & HB)].
  - assert (HV : fval F b = (fval F x ^2^ n)%R).
    { destruct Hn as [Hn | Hn]; [rewrite <- Hn; exact V1 | ].
      destruct (Req_dec (fval F x) 0) as [HZ | HZ]; [rewrite V1, HZ; ring | ]. exfalso.
      pose proof (fin_bound F HF b F1) as HBd. rewrite V1 in HBd.
      assert (HMn : (bpow radix2 (emin F) <= Rabs (fval F x))%R).
      { rewrite (Rabs_fval F HF) by assumption.
        assert (HM1 : 1 <= mag_of F x).
        { pose proof (mag_range F HF x). assert (mag_of F x <> 0); [ | lia].
          intros HM. apply HZ. apply (fval_zero F HF); assumption. }
        rewrite <- (Rmult_1_l (bpow radix2 (emin F))). rewrite <- (mval_small F HF 1).
        - apply (mval_le F HF); lia.
        - pose proof (prec_split F HF). pose proof (pow2_ge1 (prec F) ltac:(pose proof prec_pos; unfold Prec_gt_0 in *; lia)). lia. }
      assert (bpow radix2 (bias F + 1) <= Rabs (fval F x ^2^ k))%R; [ | lra].
      apply scale_ge with (emin F); [exact HMn | ]. unfold emin. pose proof (gf_bias F HF). lia. }
    destruct P1 as (P1 & P2). rewrite <- HV.
    assert (HR : fround F rm (fval F b) = fval F b) by (apply fround_exact, (fval_format F HF)).
    unfold rounded. rewrite HR. split; [split; assumption | ].
    split; [ | split].
    + destruct (Req_bool_spec (fval F b) 0) as [HZ | HZ]; [exact S1 | ]. apply (sign_fval F HF); assumption.
    + intros _. split; [exact F1 | reflexivity].
    + intros HB. pose proof (fin_bound F HF b F1). lra.
  - apply HOV; [exact HO | ]. replace n with (k + (n - k)) by lia. rewrite <- scale_plus.
    apply scale_ge with (bias F + 1); [exact HB | lia].
Qed.
End Up.

(** ** Downwards *)
Section Down.
Context (x : Z) (Hp : is_pattern F x) (Hx : is_fin F x = true) (Hsz : 3 * fl F + 7 <= bias F).
Let s := sign_of F x.
Let t := 1 - bias F + prec F.
(** The rounding of every non-zero number of sign [s] below 2^(emin-1). *)
Definition tiny_pat : Z := round_encode F rm s 0 (emin F - 1) true.

Lemma tiny_rounded : forall y zs, y <> 0%R -> Rlt_bool y 0 = s -> (Rabs y < bpow radix2 (emin F - 1))%R ->
  rounded F rm y zs tiny_pat.
Proof.
  intros y zs HY HS HB.
  assert (HR : rounded F rm y s tiny_pat).
  { apply (round_encode_spec F HF rm s 0 (emin F - 1) true y).
    - lia.
    - rewrite Rmult_0_l. change (0 + 1) with 1. rewrite Rmult_1_l. split; [apply Rabs_pos_lt; exact HY | exact HB].
    - intros _. exact HS.
    - intros _. lia. }
  destruct HR as (R1 & R2 & R3 & R4). split; [exact R1 | ]. split; [ | split; assumption].
  rewrite Req_bool_false in * by exact HY. exact R2.
Qed.

Definition est (b k : Z) : Prop :=
  is_pattern F b /\ is_fin F b = true /\ sign_of F b = s /\ fval F b = (fval F x ^2^ k)%R.
Definition tst (b : Z) : Prop :=
  fval F x <> 0%R /\ is_pattern F b /\ is_fin F b = true /\ sign_of F b = s /\
  (Rabs (fval F b) <= bpow radix2 (1 - bias F))%R /\ (fval F b = 0%R -> tiny_pat = f_zero F s).

Lemma tst_step : forall b k, tst b -> 1 - bias F <= k <= -1 - prec F ->
  f_mul F rm b (f_pow2 F false k) = tiny_pat.
Proof.
  intros b k (HX0 & P1 & F1 & S1 & B1 & Z1) Hk. pose proof (bias_ge2 F HF) as HB2. pose proof prec_pos as HPp. unfold Prec_gt_0 in HPp.
  pose proof (mul_pow2_spec b k ltac:(lia) F1) as HR. rewrite S1 in HR.
  destruct (Req_dec (fval F b) 0) as [HZ | HZ].
  - rewrite (Z1 HZ). destruct (f_zero_props F HF s) as (P2 & F2 & M2 & S2 & V2).
    apply (rounded_exact F HF rm (fval F b ^2^ k) s); try assumption.
    + rewrite V2, HZ. ring.
    + intros _. exact S2.
  - apply (rounded_unique F HF rm _ _ _ _ HR). apply tiny_rounded.
    + intros HE. apply HZ. apply scale_0 in HE. exact HE.
    + rewrite scale_sign, <- S1. symmetry. apply (sign_fval F HF); assumption.
    + apply Rle_lt_trans with (bpow radix2 (emin F - 2)).
      * apply scale_le with (1 - bias F); [exact B1 | ]. unfold emin, prec in *. lia.
      * apply bpow_lt. lia.
Qed.

(** A result that is [tiny_pat], or the rounding of a number below 2^(1-bias) of
    larger magnitude, starts or stays in [tst]. *)
Lemma tst_intro : forall y b, fval F x <> 0%R -> y <> 0%R -> Rlt_bool y 0 = s ->
  (Rabs y <= bpow radix2 (1 - bias F))%R -> rounded F rm y s b -> tst b.
Proof.
  intros y b HX0 HY HS HB HR. pose proof prec_pos as HPp.
  assert (HBr : (Rabs (fround F rm y) <= bpow radix2 (1 - bias F))%R).
  { unfold fround. apply abs_round_le_generic; [apply FLT_exp_valid; exact HPp | apply valid_rnd_mode | | exact HB].
    apply generic_format_FLT_bpow; [exact HPp | ]. unfold emin. pose proof (gf_fl F HF). lia. }
  destruct HR as (P1 & S1 & R1 & _). rewrite Req_bool_false in S1 by exact HY. rewrite HS in S1.
  destruct R1 as (F1 & V1).
  { apply Rle_lt_trans with (1 := HBr). apply bpow_lt. pose proof (bias_ge2 F HF). lia. }
  split; [exact HX0 | ]. split; [exact P1 | ]. split; [exact F1 | ]. split; [exact S1 | ].
  split; [rewrite V1; exact HBr | ].
  intros HZ. rewrite V1 in HZ.
  (* compare with a smaller tiny number *)
  set (j := Z.min 0 (emin F - 1 - (1 - bias F) - 1)).
  assert (HT : rounded F rm (y ^2^ j) s tiny_pat).
  { apply tiny_rounded.
    - rewrite scale_0. exact HY.
    - rewrite scale_sign. exact HS.
    - apply Rle_lt_trans with (bpow radix2 (emin F - 1 - 1)); [ | apply bpow_lt; lia].
      apply scale_le with (1 - bias F); [exact HB | lia]. }
  assert (HZ2 : fround F rm (y ^2^ j) = 0%R).
  { assert (Hle : (bpow radix2 j <= 1)%R) by (change 1%R with (bpow radix2 0); apply bpow_le; lia).
    pose proof (bpow_gt_0 radix2 j) as Hj.
    assert (HV : Valid_exp (FLT_exp (emin F) (prec F))) by (apply FLT_exp_valid; exact HPp).
    assert (H0 : fround F rm 0 = 0%R) by (unfold fround; apply round_0; apply valid_rnd_mode).
    unfold fround in *. pose proof (valid_rnd_mode rm) as HVr.
    destruct (Rlt_le_dec y 0) as [HN | HN].
    - apply Rle_antisym.
      + rewrite <- H0. apply round_le; [exact HV | exact HVr | nra].
      + rewrite <- HZ. apply round_le; [exact HV | exact HVr | nra].
    - apply Rle_antisym.
      + rewrite <- HZ. apply round_le; [exact HV | exact HVr | nra].
      + rewrite <- H0. apply round_le; [exact HV | exact HVr | nra]. }
  destruct HT as (P2 & S2 & R2 & _).
  rewrite HZ2, Rabs_R0 in R2. destruct (R2 (bpow_gt_0 _ _)) as (F2 & V2).
  destruct (f_zero_props F HF s) as (P3 & F3 & M3 & S3 & V3).
  apply (fval_inj F HF); try assumption.
  - rewrite V2, V3. reflexivity.
  - intros _. rewrite S2, S3. rewrite scale_sign. destruct (Req_bool_spec (y ^2^ j) 0) as [HE | _]; [reflexivity | exact HS].
Qed.

Lemma sign_x : fval F x <> 0%R -> Rlt_bool (fval F x) 0 = s.
Proof. intros HX0. symmetry. apply (sign_fval F HF); assumption. Qed.

(** One multiplication by 2^t on an exact state. *)
Lemma est_step : forall b k, est b k ->
  est (f_mul F rm b (f_pow2 F false t)) (k + t) \/
  (tst (f_mul F rm b (f_pow2 F false t)) /\ (Rabs (fval F x ^2^ (k + t)) < bpow radix2 (1 - bias F))%R).
Proof.
  intros b k (P1 & F1 & S1 & V1). pose proof prec_pos as HPp. unfold Prec_gt_0 in HPp.
  assert (Ht : 1 - bias F <= t <= bias F) by (unfold t, prec in *; lia).
  pose proof (mul_pow2_spec b t Ht F1) as HR. rewrite S1 in HR.
  assert (HFx : fmtF (fval F b)) by apply (fval_format F HF).
  destruct (Rlt_le_dec (Rabs (fval F x ^2^ (k + t))) (bpow radix2 (1 - bias F))) as [HL | HL].
  - destruct (Req_dec (fval F x) 0) as [HZ | HZ].
    + left. assert (HB0 : (fval F b ^2^ t = 0)%R) by (rewrite V1, HZ; ring).
      rewrite HB0 in HR. destruct (f_zero_props F HF s) as (P2 & F2 & M2 & S2 & V2).
      assert (HE : f_mul F rm b (f_pow2 F false t) = f_zero F s).
      { apply (rounded_exact F HF rm 0 s); try assumption. intros _. exact S2. }
      rewrite HE. split; [exact P2 | ]. split; [exact F2 | ]. split; [exact S2 | ]. rewrite V2, HZ. ring.
    + right. split; [ | exact HL]. rewrite V1, scale_plus in HR.
      apply (tst_intro (fval F x ^2^ (k + t))).
      * exact HZ.
      * rewrite scale_0. exact HZ.
      * rewrite scale_sign. apply sign_x. exact HZ.
      * lra.
      * exact HR.
  - left. rewrite V1, scale_plus in HR.
    assert (HFm : fmtF (fval F x ^2^ (k + t))).
    { rewrite <- scale_plus, <- V1. apply mult_bpow_exact_FLT; [exact HFx | ].
      assert (1 - bias F < mag radix2 (fval F b ^2^ t)) as HMg.
      { apply mag_gt_bpow. rewrite V1, scale_plus. exact HL. }
      rewrite mag_mult_bpow in HMg.
      - unfold emin, prec. lia.
      - intros HZ. rewrite <- scale_plus, <- V1, HZ, Rmult_0_l, Rabs_R0 in HL.
        pose proof (bpow_gt_0 radix2 (1 - bias F)). lra. }
    assert (HBd : (Rabs (fval F x ^2^ (k + t)) < bpow radix2 (bias F + 1))%R).
    { rewrite <- scale_plus, <- V1. apply scale_lt with (bias F + 1); [apply (fin_bound F HF); exact F1 | ].
      unfold t, prec in *. lia. }
    destruct (rounded_repr F rm _ _ _ HFm HBd HR) as (P2 & F2 & V2 & _).
    split; [exact P2 | ]. split; [exact F2 | ]. split; [ | exact V2].
    apply (sign_scaled x (k + t)); [exact Hx | exact HR].
Qed.

Lemma tiny_done : forall n, fval F x <> 0%R -> (Rabs (fval F x ^2^ n) < bpow radix2 (emin F - 1))%R ->
  rounded F rm (fval F x ^2^ n) s tiny_pat.
Proof.
  intros n HZ HB. apply tiny_rounded; [ | | exact HB].
  - rewrite scale_0. exact HZ.
  - rewrite scale_sign. apply sign_x. exact HZ.
Qed.

Lemma est_done : forall b k n, est b k -> 1 - bias F <= n - k <= bias F ->
  rounded F rm (fval F x ^2^ n) s (f_mul F rm b (f_pow2 F false (n - k))).
Proof.
  intros b k n (P1 & F1 & S1 & V1) Hn.
  pose proof (mul_pow2_spec b (n - k) Hn F1) as HR. rewrite S1, V1, scale_plus in HR.
  replace (k + (n - k)) with n in HR by lia. exact HR.
Qed.

Lemma est_0 : est x 0.
Proof. unfold est. change (bpow radix2 0) with 1%R. rewrite Rmult_1_r. repeat split; try assumption; apply Hp. Qed.
End Down.

Lemma bits_eq : forall e, 1 - bias F <= e <= bias F ->
  wrap (width F) (Z.shiftl (wrap (width F) (bias F + e)) (fl F)) = f_pow2 F false e.
Proof.
  intros e He. pose proof (gf_fl F HF). pose proof (fl_pos F HF). pose proof (gf_el F HF).
  pose proof (expmax_bias F HF) as HE. unfold expmax in HE.
  pose proof (width_split F HF) as HW. pose proof (sign_unit_split F HF) as HS.
  rewrite (wrap_small (width F) (bias F + e)).
  - rewrite Z.shiftl_mul_pow2 by lia. rewrite wrap_small; [unfold f_pow2, sbit; lia | ]. unfold inU. nia.
  - unfold inU. nia.
Qed.

Theorem scalbn_fin : forall x n, 3 * fl F + 7 <= bias F -> is_pattern F x -> is_fin F x = true ->
  rounded F rm (fval F x * bpow radix2 n) (sign_of F x) (cc_scalbn F rm x n).
Proof.
  intros x n Hsz HP Hx. pose proof (gf_fl F HF) as Hfl. pose proof prec_pos as HPp. unfold Prec_gt_0 in HPp.
  assert (HPr : prec F = fl F + 1) by reflexivity.
  set (t := 1 - bias F + prec F). unfold cc_scalbn. fold t.
  destruct (Z.ltb_spec (bias F) n) as [H1 | H1].
  - pose proof (ust_step x Hx x 0 (bias F) (ust_0 x HP Hx) ltac:(lia) ltac:(lia)) as U1.
    rewrite Z.add_0_l in U1. set (b1 := f_mul F rm x (f_pow2 F false (bias F))) in *.
    destruct (Z.ltb_spec (bias F) (n - bias F)) as [H2 | H2].
    + pose proof (ust_step x Hx b1 _ (bias F) U1 ltac:(lia) ltac:(lia)) as U2.
      rewrite bits_eq by lia.
      apply (ust_done x Hx _ (bias F + bias F + Z.min (n - bias F - bias F) (bias F))); [ | lia | lia].
      apply (ust_step x Hx); [exact U2 | lia | lia].
    + rewrite bits_eq by lia.
      apply (ust_done x Hx _ (bias F + (n - bias F))); [ | lia | lia].
      apply (ust_step x Hx); [exact U1 | lia | lia].
  - destruct (Z.ltb_spec n (1 - bias F)) as [H2 | H2].
    + replace (bias F - 1 - prec F) with (- t) by (unfold t; lia).
      assert (Ht : t = 2 - bias F + fl F) by (unfold t; lia).
      assert (Hem : emin F = 1 - bias F - fl F) by reflexivity.
      pose proof (est_step x Hx Hsz x 0 (est_0 x HP Hx)) as HE1. fold t in HE1. rewrite Z.add_0_l in HE1.
      destruct HE1 as [E1 | (T1 & B1)].
      * set (b1 := f_mul F rm x (f_pow2 F false t)) in *.
        destruct (Z.ltb_spec (n + - t) (1 - bias F)) as [H3 | H3].
        -- pose proof (est_step x Hx Hsz b1 t E1) as HE2. fold t in HE2. destruct HE2 as [E2 | (T2 & B2)];
             set (b2 := f_mul F rm b1 (f_pow2 F false t)) in *; rewrite bits_eq by lia.
           ++ destruct (Z.max_spec (n + - t + - t) (1 - bias F)) as [(H4 & ->) | (H4 & ->)].
              ** (* clamped *)
                 destruct E2 as (P2 & F2 & S2 & V2).
                 destruct (Req_dec (fval F x) 0) as [HZ | HZ].
                 { pose proof (mul_pow2_spec b2 (1 - bias F) ltac:(lia) F2) as HR.
                   rewrite S2, V2, HZ, !Rmult_0_l in HR. rewrite HZ, Rmult_0_l. exact HR. }
                 assert (HT : f_mul F rm b2 (f_pow2 F false (1 - bias F)) = tiny_pat x).
                 { pose proof (mul_pow2_spec b2 (1 - bias F) ltac:(lia) F2) as HR.
                   rewrite S2, V2, scale_plus in HR.
                   apply (rounded_unique F HF rm _ _ _ _ HR).
                   apply tiny_done; [exact Hx | exact HZ | ].
                   apply scale_lt with (bias F + 1); [apply (fin_bound F HF); exact Hx | lia]. }
                 rewrite HT. apply tiny_done; [exact Hx | exact HZ | ].
                 apply scale_lt with (bias F + 1); [apply (fin_bound F HF); exact Hx | lia].
              ** replace (n + - t + - t) with (n - (t + t)) by lia. apply est_done; [exact E2 | lia].
           ++ rewrite (tst_step x b2 _ T2) by lia.
              apply tiny_done; [exact Hx | apply T2 | ].
              replace n with ((t + t) + (n - (t + t))) by lia. rewrite <- scale_plus.
              apply scale_lt with (1 - bias F); [exact B2 | lia].
        -- rewrite bits_eq by lia. replace (n + - t) with (n - t) by lia. apply est_done; [exact E1 | lia].
      * set (b1 := f_mul F rm x (f_pow2 F false t)) in *.
        assert (HD : rounded F rm (fval F x * bpow radix2 n) (sign_of F x) (tiny_pat x)).
        { apply tiny_done; [exact Hx | apply T1 | ].
          replace n with (t + (n - t)) by lia. rewrite <- scale_plus.
          apply scale_lt with (1 - bias F); [exact B1 | lia]. }
        destruct (Z.ltb_spec (n + - t) (1 - bias F)) as [H3 | H3]; rewrite bits_eq by lia.
        -- destruct T1 as (HX0 & P1 & F1 & S1 & V1 & Z1).
           assert (T1 : tst x b1) by (repeat split; try assumption; apply P1).
           assert (T2 : tst x (f_mul F rm b1 (f_pow2 F false t))).
           { destruct (Z.le_gt_cases t (-1 - prec F)) as [HL | HL]; [ | lia].
             rewrite (tst_step x b1 t T1) by lia.
             apply (tst_intro x (fval F x * bpow radix2 n)); try assumption.
             - rewrite scale_0. exact HX0.
             - rewrite scale_sign. apply sign_x; assumption.
             - replace n with (t + (n - t)) by lia. rewrite <- scale_plus. apply Rlt_le.
               apply scale_lt with (1 - bias F); [exact B1 | lia]. }
           rewrite (tst_step x _ _ T2) by lia. exact HD.
        -- rewrite (tst_step x b1 _ T1) by lia. exact HD.
    + rewrite bits_eq by lia. apply mul_pow2_spec; [lia | exact Hx].
Qed.

Lemma mul_inf : forall b k, is_pattern F b -> is_inf F b = true -> 1 - bias F <= k <= bias F ->
  f_mul F rm b (f_pow2 F false k) = b.
Proof.
  intros b k HP HI Hk. destruct (f_pow2_props F HF false k Hk) as (Pp & Fp & Sp & Vp & Mp).
  assert (HM : mag_of F b = inf_mag F) by (unfold is_inf in HI; apply Z.eqb_eq; exact HI).
  assert (HD : decode F b = DInf (sign_of F b)).
  { unfold decode, is_nan, is_inf. rewrite HM.
    destruct (Z.ltb_spec (inf_mag F) (inf_mag F)); [lia | ]. rewrite Z.eqb_refl. reflexivity. }
  destruct (decode_fin F HF _ Fp) as (m & e & Dp & Hm & _ & _ & _ & Vp2). rewrite Sp in Dp, Vp2.
  unfold f_mul. rewrite HD, Dp.
  assert (Hm0 : m <> 0).
  { intros HZ. rewrite HZ in Vp2. rewrite Vp in Vp2. pose proof (bpow_gt_0 radix2 k). cbn [sg] in Vp2. lra. }
  destruct (Z.eqb_spec m 0); [lia | ]. rewrite xorb_false_r. unfold f_inf. rewrite <- HM.
  symmetry. apply (pattern_split F HF). exact HP.
Qed.
Lemma mul_nan : forall b c, is_nan F b = true -> is_nan F (f_mul F rm b c) = true.
Proof.
  intros b c HN. destruct (qnan_props F HF) as (_ & Q & _).
  assert (HD : decode F b = DNaN).
  { unfold is_nan in HN. apply Z.ltb_lt in HN. unfold decode.
    destruct (Z.ltb_spec (mag_of F b) (inf_mag F)); [lia | ].
    destruct (Z.eqb_spec (mag_of F b) (inf_mag F)); [lia | reflexivity]. }
  unfold f_mul. rewrite HD. destruct (decode F c); exact Q.
Qed.

Theorem scalbn_inf : forall x n, 3 * fl F + 7 <= bias F -> is_pattern F x -> is_inf F x = true ->
  cc_scalbn F rm x n = x.
Proof.
  intros x n Hsz HP HI. pose proof (gf_fl F HF).
  assert (Ht : 1 - bias F <= 1 - bias F + prec F <= bias F) by (unfold prec; lia).
  assert (HPr : prec F = fl F + 1) by reflexivity.
  unfold cc_scalbn.
  assert (M1 : f_mul F rm x (f_pow2 F false (bias F)) = x) by (apply mul_inf; assumption || lia).
  assert (M2 : f_mul F rm x (f_pow2 F false (1 - bias F + prec F)) = x) by (apply mul_inf; assumption).
  destruct (Z.ltb_spec (bias F) n) as [H1 | H1].
  - rewrite M1. destruct (Z.ltb_spec (bias F) (n - bias F)) as [H2 | H2]; rewrite ?M1, bits_eq by lia; apply mul_inf; assumption || lia.
  - destruct (Z.ltb_spec n (1 - bias F)) as [H2 | H2].
    + rewrite M2. destruct (Z.ltb_spec (n + (bias F - 1 - prec F)) (1 - bias F)) as [H3 | H3];
      rewrite ?M2, bits_eq by lia; apply mul_inf; assumption || lia.
    + rewrite bits_eq by lia. apply mul_inf; assumption || lia.
Qed.
Theorem scalbn_nan : forall x n, is_nan F x = true -> is_nan F (cc_scalbn F rm x n) = true.
Proof.
  intros x n HN. unfold cc_scalbn.
  destruct (Z.ltb_spec (bias F) n).
  - destruct (Z.ltb_spec (bias F) (n - bias F)); repeat apply mul_nan; assumption.
  - destruct (Z.ltb_spec n (1 - bias F)); [ | apply mul_nan; assumption].
    destruct (Z.ltb_spec (n + (bias F - 1 - prec F)) (1 - bias F)); repeat apply mul_nan; assumption.
Qed.
End S.
