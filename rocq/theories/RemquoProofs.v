(** * remquo *)
From Coq Require Import ZArith Lia Bool Reals Lra.
From Flocq Require Import Core Sterbenz Mult_error Operations Plus_error.
From Verif Require Import MachInt Bits Fmt FloatSpec FmtProofs RoundProofs FOps FOpsProofs ExactOps FPBits FPBitsProofs
  Compare CompareProofs Nearest NearestProofs FmaSpec FmaProofs Basic BasicProofs RemProofs.
Open Scope Z_scope.

(** The C function fmod: the exact remainder of the truncated division, with the
    sign of [x]. *)
Definition exact_fmod (F : fmt) (fm : Z -> Z -> Z) (x y : Z) : Prop :=
  is_pattern F (fm x y) /\ is_fin F (fm x y) = true /\ sign_of F (fm x y) = sign_of F x /\
  fval F (fm x y) = (fval F x - IZR (Ztrunc (fval F x / fval F y)) * fval F y)%R.

Section Remquo.
Context (F : fmt) (HF : good_fmt F) (HelF : el F <= 16) (H2 : 2 <= fl F).
Notation fexp := (FLT_exp (emin F) (prec F)).

Lemma ofz : forall rm n, 0 < n <= 8 -> is_pattern F (f_of_Z F rm n) /\ is_fin F (f_of_Z F rm n) = true /\
  fval F (f_of_Z F rm n) = IZR n /\ sign_of F (f_of_Z F rm n) = false.
Proof.
  intros rm n Hn. assert (Ha : Z.abs n <= 2 ^ prec F) by (pose proof (pow2_le 3 (prec F) ltac:(unfold prec; lia)); change (2 ^ 3) with 8 in *; lia).
  pose proof (round_int_spec F HF rm false n 0) as HR. change (bpow radix2 0) with 1%R in HR. rewrite Rmult_1_r in HR.
  destruct (rounded_repr F rm (IZR n) false (f_of_Z F rm n) (format_int F HF n Ha) (int_bound F HF n Ha) HR) as (P & Fi & V & S).
  assert (N0 : (0 < IZR n)%R) by (apply IZR_lt; lia). rewrite Req_bool_false, Rlt_bool_false in S by lra. auto.
Qed.
Lemma mulk : forall rm n k b, n = 2 ^ k -> 1 <= k <= 3 -> is_pattern F b -> is_fin F b = true ->
  (Rabs (fval F b) < bpow radix2 (bias F + 1 - k))%R ->
  is_pattern F (f_mul F rm (f_of_Z F rm n) b) /\ is_fin F (f_mul F rm (f_of_Z F rm n) b) = true /\
  fval F (f_mul F rm (f_of_Z F rm n) b) = (IZR n * fval F b)%R.
Proof.
  intros rm n k b -> Hk Pb Hb HB. pose proof (pow2_pos k ltac:(lia)). pose proof (pow2_le k 3 ltac:(lia)) as K3. change (2 ^ 3) with 8 in K3.
  destruct (ofz rm (2 ^ k) ltac:(lia)) as (P & Fi & V & S). pose proof (f_mul_spec F HF rm _ b Fi Hb) as R. rewrite V in R.
  assert (E : (IZR (2 ^ k) * fval F b = fval F b * bpow radix2 k)%R) by (rewrite <- bpow_IZR by lia; ring).
  assert (FM : generic_format radix2 fexp (IZR (2 ^ k) * fval F b)) by (rewrite E; apply mult_bpow_pos_exact_FLT; [apply (fval_format F HF); auto|lia]).
  assert (BD : (Rabs (IZR (2 ^ k) * fval F b) < bpow radix2 (bias F + 1))%R).
  { rewrite E, Rabs_mult, (Rabs_pos_eq (bpow radix2 k)) by apply bpow_ge_0.
    replace (bias F + 1) with (bias F + 1 - k + k) by lia. rewrite bpow_plus. apply Rmult_lt_compat_r; [apply bpow_gt_0|auto]. }
  destruct (rounded_repr F rm _ _ _ FM BD R) as (P1 & F1 & V1 & _). auto.
Qed.
Lemma mag_thr : forall b k, is_pattern F b -> is_fin F b = true -> 1 <= k <= 3 ->
  (mag_of F b <=? (expmax F - k) * 2 ^ fl F - 1) = Rlt_bool (Rabs (fval F b)) (bpow radix2 (bias F + 1 - k)).
Proof.
  intros b k Pb Hb Hk. pose proof (gf_bias F HF) as Hbias. pose proof (expmax_bias F HF) as HE. pose proof (fl_pos F HF) as HP. pose proof (mag_range F HF b) as MR.
  destruct (f_pow2_props F HF false (bias F + 1 - k) ltac:(lia)) as (P & Fi & S & V & M).
  replace (bias F + (bias F + 1 - k)) with (expmax F - k) in M by lia. cbn [sg] in V. rewrite Rmult_1_l in V.
  rewrite Rabs_fval by auto.
  assert (V2 : mval F ((expmax F - k) * 2 ^ fl F) = bpow radix2 (bias F + 1 - k)).
  { rewrite <- M, <- Rabs_fval, V by auto. apply Rabs_pos_eq, bpow_ge_0. }
  rewrite <- V2. set (T := (expmax F - k) * 2 ^ fl F) in *.
  assert (T0 : 0 <= T) by (rewrite <- M; apply (mag_range F HF)).
  destruct (Z.leb_spec (mag_of F b) (T - 1)) as [L|L]; symmetry.
  - apply Rlt_bool_true. apply (mval_lt F HF); lia.
  - apply Rlt_bool_false. apply (mval_le F HF); lia.
Qed.
Lemma sub_ster : forall rm a b, is_pattern F b -> is_fin F a = true -> is_fin F b = true ->
  (fval F b / 2 <= fval F a <= 2 * fval F b)%R ->
  is_pattern F (f_sub F rm a b) /\ is_fin F (f_sub F rm a b) = true /\ fval F (f_sub F rm a b) = (fval F a - fval F b)%R.
Proof.
  intros rm a b Pb Ha Hb HR. pose proof (f_sub_spec F HF rm a b Pb Ha Hb) as R. pose proof (VE F HF) as VE.
  assert (FM : generic_format radix2 fexp (fval F a - fval F b)) by (apply sterbenz; auto; try apply (fval_format F HF); auto with typeclass_instances).
  assert (BD : (Rabs (fval F a - fval F b) < bpow radix2 (bias F + 1))%R).
  { pose proof (fin_bound F HF b Hb) as B. apply Rabs_def2 in B. apply Rabs_def1; lra. }
  destruct (rounded_repr F rm _ _ _ FM BD R) as (P1 & F1 & V1 & _). auto.
Qed.

(** The state of the long division: the current remainder [x], [0 <= x], and the
    multiples of [Y] already taken off [v]. *)
Definition st (v Y : R) (x q : Z) : Prop :=
  is_pattern F x /\ is_fin F x = true /\ fval F x = (v - IZR q * Y)%R.

Lemma step_k : forall rm v y k n x q, n = 2 ^ k -> 1 <= k <= 2 -> is_pattern F y -> is_fin F y = true -> sign_of F y = false -> (0 < fval F y)%R ->
  st v (fval F y) x q -> (0 <= fval F x < 2 * IZR n * fval F y)%R ->
  let '(x', q') := if (y <=? (expmax F - k) * 2 ^ fl F - 1) && f_ge F x (f_mul F rm (f_of_Z F rm n) y)
                   then (f_sub F rm x (f_mul F rm (f_of_Z F rm n) y), q + n) else (x, q) in
  st v (fval F y) x' q' /\ (0 <= fval F x' < IZR n * fval F y)%R /\ (q' = q \/ q' = q + n).
Proof.
  intros rm v y k n x q Hn Hk Py Hy Sy Y0 (Px & Hx & Vx) HR.
  assert (My : mag_of F y = y).
  { rewrite (pattern_split F HF y Py) at 2. rewrite Sy. reflexivity. }
  pose proof (mag_thr y k Py Hy ltac:(lia)) as TH. rewrite My in TH. rewrite TH. rewrite (Rabs_pos_eq (fval F y)) by lra.
  destruct (Rlt_bool_spec (fval F y) (bpow radix2 (bias F + 1 - k))) as [L|L]; cbn [andb].
  - destruct (mulk rm n k y Hn ltac:(lia) Py Hy ltac:(rewrite Rabs_pos_eq by lra; auto)) as (P1 & F1 & V1).
    rewrite (f_ge_fin F HF), V1 by auto. destruct (Rle_bool_spec (IZR n * fval F y) (fval F x)) as [G|G].
    + destruct (sub_ster rm x _ P1 Hx F1) as (P2 & F2 & V3); [rewrite V1; lra|]. rewrite V1 in V3.
      split; [|split; [lra|auto]]. split; [auto|]. split; [auto|]. rewrite V3, Vx, plus_IZR. ring.
    + split; [unfold st; auto|]. split; [lra|auto].
  - split; [unfold st; auto|]. split; [|auto]. split; [lra|].
    pose proof (fin_bound F HF x Hx) as B. rewrite Rabs_pos_eq in B by lra.
    apply Rlt_le_trans with (1 := B). replace (bias F + 1) with (k + (bias F + 1 - k)) by lia. rewrite bpow_plus, bpow_IZR, <- Hn by lia.
    apply Rmult_le_compat_l; [apply IZR_le; rewrite Hn; apply pow2_nonneg|auto].
Qed.

(** The last step, for a comparison [hx x > half] that means [x > Y/2]. *)
Lemma step_last : forall rm v y hx half x q,
  (forall z, is_pattern F z -> is_fin F z = true -> (0 <= Rabs (fval F z) < 2 * fval F y)%R ->
     f_gt F (hx z) half = Rlt_bool (fval F y / 2) (fval F z) /\ f_ge F (hx z) half = Rle_bool (fval F y / 2) (fval F z)) ->
  is_pattern F y -> is_fin F y = true -> (0 < fval F y)%R -> st v (fval F y) x q -> (0 <= fval F x < 2 * fval F y)%R ->
  let '(x', q') := remquo_last F rm hx half y x q in
  st v (fval F y) x' q' /\ (q' = q \/ q' = q + 1 \/ q' = q + 2) /\ (Rabs (fval F x') <= fval F y / 2)%R /\
  ((Rabs (fval F x') = fval F y / 2)%R -> q' = q \/ q' = q + 2).
Proof.
  intros rm v y hx half x q HC Py Hy Y0 (Px & Hx & Vx) HR. unfold remquo_last.
  destruct (HC x Px Hx) as (C1 & _); [rewrite Rabs_pos_eq by lra; lra|]. rewrite C1.
  destruct (Rlt_bool_spec (fval F y / 2) (fval F x)) as [L|L].
  - destruct (sub_ster rm x y Py Hx Hy ltac:(lra)) as (P1 & F1 & V1).
    destruct (HC (f_sub F rm x y) P1 F1) as (_ & C2); [split; [apply Rabs_pos|]; rewrite V1; apply Rabs_def1; lra|]. rewrite C2, V1.
    destruct (Rle_bool_spec (fval F y / 2) (fval F x - fval F y)) as [G|G].
    + destruct (sub_ster rm (f_sub F rm x y) y Py F1 Hy ltac:(rewrite V1; lra)) as (P3 & F3 & V3). rewrite V1 in V3.
      split; [split; [auto|]; split; [auto|]; rewrite V3, Vx, !plus_IZR; ring|]. split; [lia|].
      split; [rewrite V3; apply Rabs_le; lra|]. intros _. right. lia.
    + split; [split; [auto|]; split; [auto|]; rewrite V1, Vx, !plus_IZR; ring|]. split; [lia|].
      split; [rewrite V1; apply Rabs_le; lra|]. rewrite V1. intros E. unfold Rabs in E. destruct (Rcase_abs _); lra.
  - split; [unfold st; auto|]. split; [auto|]. split; [apply Rabs_le; lra|auto].
Qed.

(** Doubling and halving are exact. *)
Lemma cmp_double : forall rm y z, is_pattern F y -> is_fin F y = true -> (0 < fval F y < bpow radix2 (bias F - 1))%R ->
  is_pattern F z -> is_fin F z = true -> (0 <= Rabs (fval F z) < 2 * fval F y)%R ->
  f_gt F (f_add F rm z z) y = Rlt_bool (fval F y / 2) (fval F z) /\ f_ge F (f_add F rm z z) y = Rle_bool (fval F y / 2) (fval F z).
Proof.
  intros rm y z Py Hy HY Pz Hz HZ. pose proof (f_add_spec F HF rm z z Hz Hz) as R.
  assert (E : (fval F z + fval F z = fval F z * bpow radix2 1)%R) by (change (bpow radix2 1) with 2%R; ring).
  assert (FM : generic_format radix2 fexp (fval F z + fval F z)) by (rewrite E; apply mult_bpow_pos_exact_FLT; [apply (fval_format F HF); auto|lia]).
  assert (BD : (Rabs (fval F z + fval F z) < bpow radix2 (bias F + 1))%R).
  { replace (bias F + 1) with (bias F - 1 + 2) by lia. rewrite bpow_plus. change (bpow radix2 2) with 4%R.
    replace (fval F z + fval F z)%R with (2 * fval F z)%R by ring. rewrite Rabs_mult, Rabs_pos_eq by lra. lra. }
  destruct (rounded_repr F rm _ _ _ FM BD R) as (P1 & F1 & V1 & _).
  rewrite (f_gt_fin F HF), (f_ge_fin F HF), V1 by auto. split.
  - destruct (Rlt_bool_spec (fval F y) (fval F z + fval F z)), (Rlt_bool_spec (fval F y / 2) (fval F z)); auto; lra.
  - destruct (Rle_bool_spec (fval F y) (fval F z + fval F z)), (Rle_bool_spec (fval F y / 2) (fval F z)); auto; lra.
Qed.
Lemma cmp_half : forall rm y z, is_pattern F y -> is_fin F y = true -> (bpow radix2 (2 - bias F) <= fval F y)%R ->
  is_pattern F z -> is_fin F z = true ->
  f_gt F z (f_mul F rm (f_pow2 F false (-1)) y) = Rlt_bool (fval F y / 2) (fval F z) /\
  f_ge F z (f_mul F rm (f_pow2 F false (-1)) y) = Rle_bool (fval F y / 2) (fval F z).
Proof.
  intros rm y z Py Hy HY Pz Hz. pose proof (gf_bias F HF) as Hb. pose proof (bpow_gt_0 radix2 (2 - bias F)) as B0.
  destruct (f_pow2_props F HF false (-1) ltac:(lia)) as (P & Fi & S & V & _). cbn [sg] in V. rewrite Rmult_1_l in V.
  pose proof (f_mul_spec F HF rm _ y Fi Hy) as R. rewrite V, Rmult_comm in R.
  assert (FM : generic_format radix2 fexp (fval F y * bpow radix2 (-1))).
  { apply mult_bpow_exact_FLT; [apply (fval_format F HF); auto|].
    assert (MG : 2 - bias F < mag radix2 (fval F y)) by (apply mag_gt_bpow; rewrite Rabs_pos_eq by lra; auto). unfold emin, prec. lia. }
  assert (E2 : (fval F y * bpow radix2 (-1) = fval F y / 2)%R) by (change (bpow radix2 (-1)) with (/ 2)%R; reflexivity).
  assert (BD : (Rabs (fval F y * bpow radix2 (-1)) < bpow radix2 (bias F + 1))%R).
  { rewrite E2. pose proof (fin_bound F HF y Hy) as B. rewrite Rabs_pos_eq in * by lra. lra. }
  destruct (rounded_repr F rm _ _ _ FM BD R) as (P1 & F1 & V1 & _). rewrite E2 in V1.
  rewrite (f_gt_fin F HF), (f_ge_fin F HF), V1 by auto. auto.
Qed.

(** The whole division on magnitudes. *)
Definition rq_core (rm : rmode) (x y : Z) : Z * Z :=
  let '(x, q) := if (y <=? (expmax F - 2) * 2 ^ fl F - 1) && f_ge F x (f_mul F rm (f_of_Z F rm 4) y) then (f_sub F rm x (f_mul F rm (f_of_Z F rm 4) y), 4) else (x, 0) in
  let '(x, q) := if (y <=? (expmax F - 1) * 2 ^ fl F - 1) && f_ge F x (f_mul F rm (f_of_Z F rm 2) y) then (f_sub F rm x (f_mul F rm (f_of_Z F rm 2) y), q + 2) else (x, q) in
  if y <? 2 * 2 ^ fl F then remquo_last F rm (fun x => f_add F rm x x) y y x q
  else remquo_last F rm (fun x => x) (f_mul F rm (f_pow2 F false (-1)) y) y x q.
Lemma rq_core_spec : forall rm x y, is_pattern F x -> is_fin F x = true -> is_pattern F y -> is_fin F y = true -> sign_of F y = false ->
  (0 < fval F y)%R -> (0 <= fval F x < 8 * fval F y)%R ->
  let '(x', q') := rq_core rm x y in
  st (fval F x) (fval F y) x' q' /\ 0 <= q' <= 8 /\ (Rabs (fval F x') <= fval F y / 2)%R /\ ((Rabs (fval F x') = fval F y / 2)%R -> Z.even q' = true).
Proof.
  intros rm x y Px Hx Py Hy Sy Y0 HR. unfold rq_core.
  assert (ST0 : st (fval F x) (fval F y) x 0) by (split; [auto|]; split; [auto|]; ring).
  pose proof (step_k rm (fval F x) y 2 4 x 0 eq_refl ltac:(lia) Py Hy Sy Y0 ST0 ltac:(lra)) as S1. change (0 + 4) with 4 in S1.
  destruct (if (y <=? (expmax F - 2) * 2 ^ fl F - 1) && _ then _ else _) as (x1, q1). destruct S1 as (ST1 & R1 & Q1).
  pose proof (step_k rm (fval F x) y 1 2 x1 q1 eq_refl ltac:(lia) Py Hy Sy Y0 ST1 ltac:(lra)) as S2.
  destruct (if (y <=? (expmax F - 1) * 2 ^ fl F - 1) && _ then _ else _) as (x2, q2). destruct S2 as (ST2 & R2 & Q2).
  assert (My : mag_of F y = y) by (rewrite (pattern_split F HF y Py) at 2; rewrite Sy; reflexivity).
  pose proof (gf_bias F HF) as Hb. pose proof (fl_pos F HF) as HP.
  destruct (f_pow2_props F HF false (2 - bias F) ltac:(lia)) as (Pp & Fp & _ & Vp & Mp). cbn [sg] in Vp. rewrite Rmult_1_l in Vp.
  replace (bias F + (2 - bias F)) with 2 in Mp by lia.
  assert (VT : mval F (2 * 2 ^ fl F) = bpow radix2 (2 - bias F)) by (rewrite <- Mp, <- Rabs_fval, Vp by auto; apply Rabs_pos_eq, bpow_ge_0).
  assert (VY : fval F y = mval F y) by (rewrite <- (Rabs_pos_eq (fval F y)), Rabs_fval, My by (auto; lra); reflexivity).
  pose proof (mag_range F HF y) as MR. rewrite My in MR.
  assert (FIN : forall x' q', st (fval F x) (fval F y) x' q' /\ (q' = q2 \/ q' = q2 + 1 \/ q' = q2 + 2) /\ (Rabs (fval F x') <= fval F y / 2)%R /\
    ((Rabs (fval F x') = fval F y / 2)%R -> q' = q2 \/ q' = q2 + 2) ->
    st (fval F x) (fval F y) x' q' /\ 0 <= q' <= 8 /\ (Rabs (fval F x') <= fval F y / 2)%R /\ ((Rabs (fval F x') = fval F y / 2)%R -> Z.even q' = true)).
  { intros x' q' (A & B & C & D). split; [auto|]. split; [lia|]. split; [auto|]. intros E. specialize (D E).
    assert (q' = 0 \/ q' = 2 \/ q' = 4 \/ q' = 6 \/ q' = 8) as Q by lia. destruct Q as [->|[->|[->|[->| ->]]]]; reflexivity. }
  destruct (Z.ltb_spec y (2 * 2 ^ fl F)) as [L|L].
  - assert (YS : (fval F y < bpow radix2 (bias F - 1))%R).
    { rewrite VY. apply Rlt_le_trans with (mval F (2 * 2 ^ fl F)); [apply (mval_lt F HF); lia|]. rewrite VT. apply bpow_le. lia. }
    pose proof (step_last rm (fval F x) y (fun x => f_add F rm x x) y x2 q2 (fun z a b c => cmp_double rm y z Py Hy (conj Y0 YS) a b c) Py Hy Y0 ST2 ltac:(lra)) as SL.
    destruct (remquo_last _ _ _ _ _ _ _) as (x', q'). apply FIN. exact SL.
  - assert (YS : (bpow radix2 (2 - bias F) <= fval F y)%R) by (rewrite VY, <- VT; apply (mval_le F HF); lia).
    pose proof (step_last rm (fval F x) y (fun x => x) (f_mul F rm (f_pow2 F false (-1)) y) x2 q2 (fun z a b _ => cmp_half rm y z Py Hy YS a b) Py Hy Y0 ST2 ltac:(lra)) as SL.
    destruct (remquo_last _ _ _ _ _ _ _) as (x', q'). apply FIN. exact SL.
Qed.

Lemma pattern_ext : forall a b, is_pattern F a -> is_pattern F b -> sign_of F a = sign_of F b -> mag_of F a = mag_of F b -> a = b.
Proof. intros a b Pa Pb S M. rewrite (pattern_split F HF a Pa), (pattern_split F HF b Pb), S, M. reflexivity. Qed.

Lemma sg_sq : forall s, (sg s * sg s = 1)%R.
Proof. intros []; cbn [sg]; ring. Qed.
Lemma fval_sg : forall b, is_fin F b = true -> (fval F b = sg (sign_of F b) * Rabs (fval F b))%R.
Proof. intros b Hb. rewrite Rabs_fval, (fval_fin F b) by auto. reflexivity. Qed.

(** The end of the function: the signs are put back. *)
Definition rq_finish (xs qs : bool) (xq : Z * Z) : Z * option Z :=
  let '(x, q) := xq in
  let x := if f_eq F x (f_zero F false) then f_zero F false else x in
  let x := if xs then f_neg F x else x in
  (x, Some (if qs then - q else q)).
Lemma rq_finish_spec : forall xs qs x q, is_pattern F x -> is_fin F x = true ->
  exists r, rq_finish xs qs (x, q) = (r, Some (if qs then - q else q)) /\ is_pattern F r /\ is_fin F r = true /\ fval F r = (sg xs * fval F x)%R /\
  (fval F r = 0 -> sign_of F r = xs)%R.
Proof.
  intros xs qs x q Px Hx. cbv beta iota zeta delta [rq_finish]. eexists. split; [reflexivity|].
  destruct (f_zero_props F HF false) as (ZP & ZF & ZM & ZS & ZV).
  assert (X1 : let x' := if f_eq F x (f_zero F false) then f_zero F false else x in
    is_pattern F x' /\ is_fin F x' = true /\ fval F x' = fval F x /\ (fval F x' = 0%R -> sign_of F x' = false)).
  { cbv zeta. rewrite (f_eq_fin F HF), ZV by auto. destruct (Req_bool_spec (fval F x) 0) as [E|E].
    - rewrite ZV, E. auto.
    - split; [auto|]. split; [auto|]. split; [auto|]. intros; contradiction. }
  cbv zeta in X1. set (x' := if f_eq F x (f_zero F false) then f_zero F false else x) in *. destruct X1 as (P1 & F1 & V1 & S1).
  destruct xs.
  - destruct (f_neg_props F HF x' P1) as (NP & NS & NM & NF & NV). rewrite NS, NF, NV, V1. cbn [sg].
    split; [auto|]. split; [auto|]. split; [ring|]. intros E. rewrite S1 by (rewrite V1; lra). reflexivity.
  - rewrite V1. cbn [sg]. split; [auto|]. split; [auto|]. split; [ring|]. intros E. apply S1. rewrite V1. auto.
Qed.
Lemma cc_remquo_eq : forall rm fm x y, mag_of F y <> 0 -> mag_of F x < inf_mag F -> mag_of F y <= inf_mag F ->
  cc_remquo F rm fm x y =
  let x0 := if mag_of F y <=? (expmax F - 3) * 2 ^ fl F - 1 then fm x (f_mul F rm (f_of_Z F rm 8) y) else x in
  if mag_of F x =? mag_of F y then (f_mul F rm (f_zero F false) x0, Some (if xorb (sign_of F x) (sign_of F y) then -1 else 1))
  else rq_finish (sign_of F x) (xorb (sign_of F x) (sign_of F y)) (rq_core rm (cc_abs F x0) (mag_of F y)).
Proof.
  intros rm fm x y H1 Hx Hy. unfold cc_remquo, rq_finish, rq_core. replace (mag_of F y =? 0) with false by lia.
  replace (inf_mag F <=? mag_of F x) with false by lia. replace (inf_mag F <? mag_of F y) with false by lia. cbn [orb]. cbv zeta.
  destruct (mag_of F x =? mag_of F y); [reflexivity|].
  destruct (if (mag_of F y <=? (expmax F - 2) * 2 ^ fl F - 1) && _ then _ else _) as (x1, q1).
  destruct (if (mag_of F y <=? (expmax F - 1) * 2 ^ fl F - 1) && _ then _ else _) as (x2, q2).
  destruct (mag_of F y <? 2 * 2 ^ fl F); destruct (remquo_last _ _ _ _ _ _ _); reflexivity.
Qed.

(** Truncated quotient and signs. *)
Lemma Ztrunc_sg : forall s a, (0 <= a)%R -> Ztrunc (sg s * a) = (if s then - Zfloor a else Zfloor a).
Proof.
  intros s a Ha. destruct s; cbn [sg].
  - replace (-1 * a)%R with (- a)%R by ring. rewrite Ztrunc_opp, Ztrunc_floor by auto. reflexivity.
  - rewrite Rmult_1_l. apply Ztrunc_floor. auto.
Qed.

Lemma remquo_reduced : forall rm fm x y, is_pattern F x -> is_pattern F y -> is_fin F x = true -> is_fin F y = true -> mag_of F y <> 0 ->
  ((Rabs (fval F y) < bpow radix2 (bias F - 2))%R -> exact_fmod F fm x (f_mul F rm (f_of_Z F rm 8) y)) ->
  let x0 := if mag_of F y <=? (expmax F - 3) * 2 ^ fl F - 1 then fm x (f_mul F rm (f_of_Z F rm 8) y) else x in
  exists T, 0 <= T /\ is_pattern F x0 /\ is_fin F x0 = true /\ sign_of F x0 = sign_of F x /\
    (Rabs (fval F x0) = Rabs (fval F x) - IZR T * (8 * Rabs (fval F y)))%R /\ (Rabs (fval F x0) < 8 * Rabs (fval F y))%R.
Proof.
  intros rm fm x y Px Py Hx Hy NY HF8 x0. pose proof (mag_thr y 3 Py Hy ltac:(lia)) as TH. unfold x0. rewrite TH.
  replace (bias F + 1 - 3) with (bias F - 2) in * by lia.
  assert (NZ : (0 < Rabs (fval F y))%R) by (apply Rabs_pos_lt; rewrite (fval_zero F HF y Hy); auto).
  destruct (Rlt_bool_spec (Rabs (fval F y)) (bpow radix2 (bias F - 2))) as [L|L].
  - destruct (mulk rm 8 3 y eq_refl ltac:(lia) Py Hy ltac:(replace (bias F + 1 - 3) with (bias F - 2) by lia; auto)) as (P8 & F8 & V8).
    destruct (HF8 L) as (P0 & F0 & S0 & V0). rewrite V8 in V0.
    set (r := fm x (f_mul F rm (f_of_Z F rm 8) y)) in *. set (X := Rabs (fval F x)) in *. set (Y := Rabs (fval F y)) in *.
    pose proof (Rabs_pos (fval F x) : (0 <= X)%R) as X0.
    pose proof (fval_sg x Hx) as Ex. pose proof (fval_sg y Hy) as Ey. fold X in Ex. fold Y in Ey.
    assert (EQ : (fval F x / (8 * fval F y) = sg (xorb (sign_of F x) (sign_of F y)) * (X / (8 * Y)))%R).
    { rewrite Ex, Ey, sg_xorb. pose proof (sg_sq (sign_of F y)). destruct (sign_of F y); cbn [sg]; field; lra. }
    assert (Q0 : (0 <= X / (8 * Y))%R) by (apply Rmult_le_pos; [auto|]; left; apply Rinv_0_lt_compat; lra).
    set (T := Zfloor (X / (8 * Y))). pose proof (Zfloor_lb (X / (8 * Y))) as LB. pose proof (Zfloor_ub (X / (8 * Y))) as UB. fold T in LB, UB.
    assert (XE : (X = X / (8 * Y) * (8 * Y))%R) by (field; lra).
    assert (R0 : (0 <= X - IZR T * (8 * Y) < 8 * Y)%R).
    { rewrite XE at 1 2. split.
      - assert (IZR T * (8 * Y) <= X / (8 * Y) * (8 * Y))%R by (apply Rmult_le_compat_r; lra). lra.
      - assert (X / (8 * Y) * (8 * Y) < (IZR T + 1) * (8 * Y))%R by (apply Rmult_lt_compat_r; lra). lra. }
    assert (VR : fval F r = (sg (sign_of F x) * (X - IZR T * (8 * Y)))%R).
    { rewrite V0, EQ, Ztrunc_sg by auto. fold T. rewrite Ex, Ey at 1.
      destruct (sign_of F x), (sign_of F y); cbn [xorb sg]; rewrite ?opp_IZR; ring. }
    assert (AR : Rabs (fval F r) = (X - IZR T * (8 * Y))%R) by (rewrite VR, Rabs_sg; apply Rabs_pos_eq; lra).
    exists T. split; [apply Zfloor_lub; auto|]. split; [auto|]. split; [auto|]. split; [auto|]. split; [auto|]. rewrite AR. lra.
  - exists 0. split; [lia|]. split; [auto|]. split; [auto|]. split; [auto|]. split; [ring|].
    apply Rlt_le_trans with (1 := fin_bound F HF x Hx). replace (bias F + 1) with (3 + (bias F - 2)) by lia. rewrite bpow_plus.
    change (bpow radix2 3) with 8%R. lra.
Qed.

Theorem remquo_exact : forall rm fm x y, is_pattern F x -> is_pattern F y -> is_fin F x = true -> is_fin F y = true -> mag_of F y <> 0 ->
  ((Rabs (fval F y) < bpow radix2 (bias F - 2))%R -> exact_fmod F fm x (f_mul F rm (f_of_Z F rm 8) y)) ->
  let n := ZnearestE (fval F x / fval F y) in
  exists r q, cc_remquo F rm fm x y = (r, Some q) /\ is_pattern F r /\ is_fin F r = true /\
    fval F r = (fval F x - IZR n * fval F y)%R /\ (fval F r = 0%R -> sign_of F r = sign_of F x) /\
    Z.abs q <= 8 /\ Z.abs q mod 8 = Z.abs n mod 8 /\ (0 <= IZR q * (fval F x / fval F y))%R.
Proof.
  intros rm fm x y Px Py Hx Hy NY HF8 n.
  rewrite cc_remquo_eq by (unfold is_fin in *; lia). pose proof (remquo_reduced rm fm x y Px Py Hx Hy NY HF8) as RED. cbv zeta in RED.
  cbv zeta. set (x0 := if mag_of F y <=? (expmax F - 3) * 2 ^ fl F - 1 then fm x (f_mul F rm (f_of_Z F rm 8) y) else x) in *.
  destruct RED as (T & T0 & P0 & F0 & S0 & V0 & B0).
  assert (NZ : (0 < Rabs (fval F y))%R) by (apply Rabs_pos_lt; rewrite (fval_zero F HF y Hy); auto).
  pose proof (fval_sg x Hx) as Ex. pose proof (fval_sg y Hy) as Ey. pose proof (Rabs_pos (fval F x)) as X0.
  set (X := Rabs (fval F x)) in *. set (Y := Rabs (fval F y)) in *. set (s := xorb (sign_of F x) (sign_of F y)).
  assert (EQ : (fval F x / fval F y = sg s * (X / Y))%R).
  { unfold s. rewrite Ex, Ey, sg_xorb. destruct (sign_of F y); cbn [sg]; field; lra. }
  assert (QN : (0 <= X / Y)%R) by (apply Rmult_le_pos; [auto|]; left; apply Rinv_0_lt_compat; lra).
  assert (GEN : forall r q N, is_pattern F r -> is_fin F r = true -> 0 <= q <= 8 -> 0 <= N -> N mod 8 = q mod 8 ->
    (fval F r = sg (sign_of F x) * (X - IZR N * Y))%R -> (Rabs (X - IZR N * Y) <= Y / 2)%R -> ((Rabs (X - IZR N * Y) = Y / 2)%R -> Z.even N = true) ->
    (fval F r = 0%R -> sign_of F r = sign_of F x) ->
    is_pattern F r /\ is_fin F r = true /\ fval F r = (fval F x - IZR n * fval F y)%R /\ (fval F r = 0%R -> sign_of F r = sign_of F x) /\
    Z.abs (if s then - q else q) <= 8 /\ Z.abs (if s then - q else q) mod 8 = Z.abs n mod 8 /\ (0 <= IZR (if s then - q else q) * (fval F x / fval F y))%R).
  { intros r q N Pr Hr Hq HN HM Vr HB HT HS.
    assert (EN : n = if s then - N else N).
    { unfold n. rewrite EQ. assert (D : (X / Y - IZR N = (X - IZR N * Y) / Y)%R) by (field; lra).
      assert (DA : (Rabs (sg s * (X / Y) - IZR (if s then - N else N)) = Rabs (X - IZR N * Y) / Y)%R).
      { replace (sg s * (X / Y) - IZR (if s then - N else N))%R with (sg s * ((X - IZR N * Y) / Y))%R.
        - rewrite Rabs_sg. unfold Rdiv at 1. rewrite Rabs_mult, (Rabs_pos_eq (/ Y)) by (left; apply Rinv_0_lt_compat; lra). reflexivity.
        - rewrite <- D. destruct s; cbn [sg]; rewrite ?opp_IZR; ring. }
      assert (HY : (Y / 2 / Y = / 2)%R) by (field; lra). pose proof (Rinv_0_lt_compat Y NZ) as IY.
      apply nearest_even_imp; rewrite DA.
      - rewrite <- HY. apply Rmult_le_compat_r; lra.
      - intros E. assert (Rabs (X - IZR N * Y) = Y / 2)%R.
        { replace (Rabs (X - IZR N * Y)) with (Rabs (X - IZR N * Y) / Y * Y)%R by (field; lra). rewrite E. field. }
        destruct s; rewrite ?Z.even_opp; auto. }
    split; [auto|]. split; [auto|]. split; [|split; [auto|split; [destruct s; lia|split]]].
    - rewrite Vr, EN, Ex, Ey. unfold s. destruct (sign_of F x), (sign_of F y); cbn [xorb sg]; rewrite ?opp_IZR; ring.
    - rewrite EN. replace (Z.abs (if s then - q else q)) with q by (destruct s; lia). replace (Z.abs (if s then - N else N)) with N by (destruct s; lia). auto.
    - rewrite EQ. replace (IZR (if s then - q else q) * (sg s * (X / Y)))%R with (IZR q * (X / Y))%R by (destruct s; cbn [sg]; rewrite ?opp_IZR; ring).
      apply Rmult_le_pos; [apply IZR_le; lia|auto]. }
  destruct (Z.eqb_spec (mag_of F x) (mag_of F y)) as [ME|ME].
  - assert (XY : X = Y) by (unfold X, Y; rewrite !Rabs_fval by auto; congruence).
    destruct (f_zero_props F HF false) as (ZP & ZF & ZM & ZS & ZV). pose proof (f_mul_spec F HF rm (f_zero F false) x0 ZF F0) as R.
    rewrite ZV, Rmult_0_l, ZS, xorb_false_l, S0 in R.
    assert (B : (Rabs 0 < bpow radix2 (bias F + 1))%R) by (rewrite Rabs_R0; apply bpow_gt_0).
    destruct (rounded_repr F rm _ _ _ (generic_format_0 _ _) B R) as (P1 & F1 & V1 & S1). rewrite Req_bool_true in S1 by auto.
    do 2 eexists. split; [reflexivity|]. replace (if s then -1 else 1) with (if s then - (1) else 1) by (destruct s; reflexivity).
    apply GEN with (N := 1); auto; try lia.
    + rewrite V1, XY. ring.
    + rewrite XY. replace (Y - 1 * Y)%R with 0%R by ring. rewrite Rabs_R0. lra.
    + rewrite XY. replace (Y - 1 * Y)%R with 0%R by ring. rewrite Rabs_R0. lra.
  - destruct (abs_fin F HF HelF x0 P0 F0) as (EA & FA & VA). destruct (abs_fin F HF HelF y Py Hy) as (_ & FY & VY). fold Y in VY.
    destruct (fabs_pat F HF y Py) as (PY & SY & MY). destruct (fabs_pat F HF x0 P0) as (PX & SX & MX).
    rewrite EA. pose proof (rq_core_spec rm (mag_of F x0) (mag_of F y) PX FA PY FY SY ltac:(lra) ltac:(rewrite VA, VY; split; [apply Rabs_pos|lra])) as RC.
    destruct (rq_core rm (mag_of F x0) (mag_of F y)) as (x', q'). destruct RC as ((P1 & F1 & V1) & HQ & HB & HT). rewrite VA, VY, V0 in *.
    destruct (rq_finish_spec (sign_of F x) s x' q' P1 F1) as (r & Er & Pr & Fr & Vr & Sr).
    exists r, (if s then - q' else q'). split; [exact Er|].
    assert (VN : fval F x' = (X - IZR (8 * T + q') * Y)%R) by (rewrite V1, plus_IZR, mult_IZR; ring).
    apply GEN with (N := 8 * T + q'); auto; try lia.
    + rewrite <- (Z_mod_plus_full q' T 8). f_equal. ring.
    + rewrite Vr, VN. ring.
    + rewrite <- VN. auto.
    + rewrite <- VN. intros E. rewrite Z.even_add, Z.even_mul, (HT E). reflexivity.
Qed.

Lemma decode_zero : forall b, is_fin F b = true -> mag_of F b = 0 -> exists e, decode F b = DFin (sign_of F b) 0 e.
Proof.
  intros b Hb HZ. destruct (decode_fin F HF b Hb) as (m & e & D & _ & _ & _ & _ & V). exists e. rewrite D. f_equal.
  apply (fval_zero F HF b Hb) in HZ. rewrite HZ in V. symmetry in V. apply Rmult_integral in V. destruct V as [V|V].
  - destruct (sign_of F b); cbn [sg] in V; lra.
  - apply Rmult_integral in V. destruct V as [V|V]; [apply eq_IZR in V; auto|]. pose proof (bpow_gt_0 radix2 e); lra.
Qed.
Lemma div_self_nan : forall rm p, is_fin F p = false \/ mag_of F p = 0 -> f_div F rm p p = qnan F.
Proof.
  intros rm p H. unfold f_div. destruct (class_cases F p) as [E|[E|E]].
  - destruct H as [H|H]; [congruence|]. destruct (decode_zero p E H) as (e & ->). reflexivity.
  - rewrite decode_isinf by auto. reflexivity.
  - rewrite decode_nan by auto. reflexivity.
Qed.
Lemma zero_fin : forall y, mag_of F y = 0 -> is_fin F y = true.
Proof. intros y H. unfold is_fin. rewrite H. pose proof (inf_mag_pos F HF). lia. Qed.
Lemma mul_special : forall rm x y,
  is_nan F x = true \/ is_nan F y = true \/ is_inf F x = true \/ mag_of F y = 0 ->
  is_fin F (f_mul F rm x y) = false \/ mag_of F (f_mul F rm x y) = 0.
Proof.
  intros rm x y H. destruct (qnan_props F HF) as (_ & QN & _). apply nan_fin in QN.
  assert (IF : forall s, is_fin F (f_inf F s) = false) by (intros s; destruct (f_inf_props F HF s) as (_ & I & _); unfold is_fin, is_inf in *; lia).
  destruct (is_nan F x) eqn:Nx; [left; unfold f_mul; rewrite (decode_nan F x Nx); auto|].
  destruct (is_nan F y) eqn:Ny.
  { left. unfold f_mul. rewrite (decode_nan F y Ny). destruct (decode F x); auto. }
  destruct (is_inf F x) eqn:Ix.
  - left. unfold f_mul. rewrite (decode_isinf F x Ix). destruct (class_cases F y) as [E|[E|E]]; [|rewrite decode_isinf; auto|congruence].
    destruct (decode_fin F HF y E) as (m & e & -> & _). destruct (m =? 0); auto.
  - destruct H as [H|[H|[H|H]]]; try discriminate. right.
    assert (Fx : is_fin F x = true) by (destruct (class_cases F x) as [E|[E|E]]; auto; congruence).
    pose proof (zero_fin y H) as Fy. pose proof (f_mul_spec F HF rm x y Fx Fy) as R. rewrite (proj2 (fval_zero F HF y Fy) H), Rmult_0_r in R.
    assert (B : (Rabs 0 < bpow radix2 (bias F + 1))%R) by (rewrite Rabs_R0; apply bpow_gt_0).
    destruct (rounded_repr F rm _ _ _ (generic_format_0 _ _) B R) as (P1 & F1 & V1 & S1). apply (fval_zero F HF _ F1). auto.
Qed.
Theorem remquo_special : forall rm fm x y, is_pattern F x -> is_pattern F y ->
  (is_nan F x = true \/ is_nan F y = true \/ is_inf F x = true \/ mag_of F y = 0 ->
     is_nan F (fst (cc_remquo F rm fm x y)) = true /\ snd (cc_remquo F rm fm x y) = None) /\
  (is_fin F x = true -> is_inf F y = true -> cc_remquo F rm fm x y = (x, Some 0)).
Proof.
  intros rm fm x y Px Py. destruct (qnan_props F HF) as (_ & QN & _). pose proof (inf_mag_pos F HF) as IP. split.
  - intros H. assert (E : cc_remquo F rm fm x y = (remquo_nan F rm x y, None)).
    { unfold cc_remquo. destruct (Z.eqb_spec (mag_of F y) 0) as [Z0|Z0]; [reflexivity|].
      replace ((inf_mag F <=? mag_of F x) || (inf_mag F <? mag_of F y)) with true; [reflexivity|]. unfold is_nan, is_inf in H. lia. }
    rewrite E. cbn [fst snd]. split; auto. unfold remquo_nan. rewrite div_self_nan; auto. apply mul_special. auto.
  - intros Hx Hy. assert (My : mag_of F y = inf_mag F) by (unfold is_inf in Hy; lia). unfold is_fin in Hx.
    assert (TT : forall k, 0 <= k -> (mag_of F y <=? (expmax F - k) * 2 ^ fl F - 1) = false).
    { intros k Hk. rewrite My. unfold inf_mag. pose proof (fl_pos F HF). nia. }
    rewrite cc_remquo_eq by lia. cbv zeta. rewrite TT by lia. replace (mag_of F x =? mag_of F y) with false by lia.
    assert (Hx' : is_fin F x = true) by (unfold is_fin; auto).
    destruct (abs_fin F HF HelF x Px Hx') as (EA & FA & VA). destruct (fabs_pat F HF x Px) as (PX & SX & MX). rewrite EA.
    assert (RC : rq_core rm (mag_of F x) (mag_of F y) = (mag_of F x, 0)).
    { unfold rq_core. rewrite !TT by lia. cbn [andb]. rewrite My. pose proof (expmax_bias F HF) as EB. pose proof (gf_bias F HF) as GB. pose proof (fl_pos F HF) as FP.
      replace (inf_mag F <? 2 * 2 ^ fl F) with false by (unfold inf_mag; nia). unfold remquo_last.
      destruct (f_pow2_props F HF false (-1) ltac:(lia)) as (P5 & F5 & S5 & V5 & M5).
      assert (II : is_inf F (inf_mag F) = true /\ sign_of F (inf_mag F) = false).
      { destruct (f_inf_props F HF false) as (_ & A & B). unfold f_inf, sbit in A, B. auto. }
      assert (HI : f_mul F rm (f_pow2 F false (-1)) (inf_mag F) = f_inf F false).
      { unfold f_mul. rewrite (decode_isinf F (inf_mag F)) by apply II. destruct (decode_fin F HF _ F5) as (m & e & -> & _ & _ & _ & _ & V).
        assert (m <> 0). { intros ->. rewrite V5, S5 in V. cbn [sg] in V. pose proof (bpow_gt_0 radix2 (-1)). lra. }
        replace (m =? 0) with false by lia. rewrite S5, (proj2 II). reflexivity. }
      rewrite HI, f_gt_lt. destruct (f_inf_props F HF false) as (_ & I1 & I2).
      replace (f_lt F (f_inf F false) (mag_of F x)) with false; [reflexivity|]. symmetry. unfold f_lt, f_cmp.
      rewrite (inf_nan F _ I1), (fin_nan F _ FA). cbn [orb]. rewrite I2, SX. unfold szval. unfold is_inf in I1. destruct (Z.compare_spec (mag_of F (f_inf F false)) (mag_of F (mag_of F x))); auto. rewrite MX in *. lia. }
    rewrite RC. destruct (rq_finish_spec (sign_of F x) (xorb (sign_of F x) (sign_of F y)) (mag_of F x) 0 PX FA) as (r & Er & Pr & Fr & Vr & Sr).
    rewrite Er. f_equal; [|destruct (xorb _ _); reflexivity]. rewrite VA, <- fval_sg in Vr by auto.
    apply (fval_inj F HF); auto. 
Qed.
End Remquo.

Section Corollaries.
Context (F : fmt) (HF : good_fmt F) (HelF : el F <= 16) (H2 : 2 <= fl F).

(** When |x| < 8|y| the in-tree fmod returns its first argument, as it must. *)
Theorem remquo_small : forall rm x y, is_pattern F x -> is_pattern F y -> is_fin F x = true -> is_fin F y = true ->
  (Rabs (fval F x) < 8 * Rabs (fval F y))%R ->
  let n := ZnearestE (fval F x / fval F y) in
  exists r q, cc_remquo F rm (cc_fmod F rm) x y = (r, Some q) /\ is_pattern F r /\ is_fin F r = true /\
    fval F r = (fval F x - IZR n * fval F y)%R /\ (fval F r = 0%R -> sign_of F r = sign_of F x) /\
    Z.abs q <= 8 /\ Z.abs q mod 8 = Z.abs n mod 8 /\ (0 <= IZR q * (fval F x / fval F y))%R.
Proof.
  intros rm x y Px Py Hx Hy HL. assert (NZ : (0 < Rabs (fval F y))%R) by (pose proof (Rabs_pos (fval F x)); lra).
  apply remquo_exact; auto.
  - intros E. apply (fval_zero F HF y Hy) in E. rewrite E, Rabs_R0 in NZ. lra.
  - intros L. destruct (mulk F HF H2 rm 8 3 y eq_refl ltac:(lia) Py Hy ltac:(replace (bias F + 1 - 3) with (bias F - 2) by lia; auto)) as (P8 & F8 & V8).
    assert (L8 : (Rabs (fval F x) < Rabs (fval F (f_mul F rm (f_of_Z F rm 8) y)))%R) by (rewrite V8, Rabs_mult, (Rabs_pos_eq 8) by lra; auto).
    unfold exact_fmod. rewrite (fmod_small F HF HelF rm x _ Px P8 Hx F8 L8). split; [auto|]. split; [auto|]. split; [auto|].
    replace (Ztrunc (fval F x / fval F (f_mul F rm (f_of_Z F rm 8) y))) with 0; [ring|].
    set (w := fval F (f_mul F rm (f_of_Z F rm 8) y)) in *. assert (W0 : (0 < Rabs w)%R) by (pose proof (Rabs_pos (fval F x)); lra).
    assert (Wn : w <> 0%R) by (intros ->; rewrite Rabs_R0 in W0; lra).
    assert (A : (Rabs (fval F x / w) < 1)%R).
    { unfold Rdiv. rewrite Rabs_mult, Rabs_inv. apply (Rmult_lt_reg_r (Rabs w)); auto. rewrite Rmult_assoc, Rinv_l by lra. lra. }
    apply Rabs_def2 in A. symmetry. destruct (Rle_or_lt 0 (fval F x / w)) as [G|G].
    + rewrite Ztrunc_floor by auto. apply Zfloor_imp. cbn [Z.add]. lra.
    + rewrite Ztrunc_ceil by lra. apply Zceil_imp. cbn [Z.sub Z.opp Z.add]. lra.
Qed.

(** The in-tree remainder against the IEEE remainder. *)
Theorem remainder_vs_ieee : forall rm x y X Y e, is_pattern F x -> is_pattern F y -> is_fin F x = true -> is_fin F y = true ->
  emin F <= e -> fval F x = (IZR X * bpow radix2 e)%R -> fval F y = (IZR Y * bpow radix2 e)%R -> Y <> 0 -> Z.abs X + Z.abs Y <= 2 ^ fl F ->
  let ieee := (fval F x - IZR (ZnearestE (fval F x / fval F y)) * fval F y)%R in
  (2 * Z.abs (Z.rem X Y) < Z.abs Y -> fval F (cc_remainder F rm x y) = ieee) /\
  (Z.abs Y < 2 * Z.abs (Z.rem X Y) -> fval F (cc_remainder F rm x y) <> ieee).
Proof.
  intros rm x y X Y e Px Py Hx Hy He Vx Vy HY HB ieee. pose proof (bpow_gt_0 radix2 e) as B0.
  destruct (remainder_exact F HF HelF rm x y X Y e Px Py Hx Hy He Vx Vy HY HB) as (_ & _ & V). cbv zeta in V. rewrite V. clear V.
  pose proof (Z.quot_rem X Y HY) as QR. set (Q := Z.quot X Y) in *. set (R := Z.rem X Y) in *.
  assert (YN : IZR Y <> 0%R) by (apply not_0_IZR; auto).
  assert (AY : (0 < Rabs (IZR Y))%R) by (apply Rabs_pos_lt; auto).
  assert (XR : IZR X = (IZR Y * IZR Q + IZR R)%R) by (rewrite QR at 1; rewrite plus_IZR, mult_IZR; reflexivity).
  assert (D : (fval F x / fval F y = IZR Q + IZR R / IZR Y)%R) by (rewrite Vx, Vy, XR; field; split; lra).
  assert (AD : (Rabs (IZR R / IZR Y) = Rabs (IZR R) / Rabs (IZR Y))%R) by (unfold Rdiv; rewrite Rabs_mult, Rabs_inv; reflexivity).
  split.
  - intros H. assert (EN : ZnearestE (fval F x / fval F y) = Q).
    { apply Znearest_imp. rewrite D. replace (IZR Q + IZR R / IZR Y - IZR Q)%R with (IZR R / IZR Y)%R by ring. rewrite AD.
      apply (Rmult_lt_reg_r (Rabs (IZR Y))); auto. unfold Rdiv. rewrite Rmult_assoc, Rinv_l by lra.
      rewrite <- !abs_IZR in *. apply IZR_lt in H. rewrite mult_IZR in H. lra. }
    unfold ieee. rewrite EN, Vx, Vy, XR. ring.
  - intros H E. unfold ieee in E. pose proof (Znearest_half (fun n => negb (Z.even n)) (fval F x / fval F y)) as HN.
    set (n := ZnearestE (fval F x / fval F y)) in *. rewrite Vx, Vy in E.
    assert (E2 : (IZR R = IZR X - IZR n * IZR Y)%R).
    { apply (Rmult_eq_reg_r (bpow radix2 e)); [|lra]. rewrite E. ring. }
    assert (E3 : (fval F x / fval F y - IZR n = IZR R / IZR Y)%R) by (rewrite Vx, Vy, E2; field; split; lra).
    rewrite E3, AD in HN. apply (Rmult_le_compat_r (Rabs (IZR Y))) in HN; [|lra]. unfold Rdiv in HN. rewrite Rmult_assoc, Rinv_l in HN by lra.
    rewrite <- !abs_IZR in *. apply IZR_lt in H. rewrite mult_IZR in H. lra.
Qed.
End Corollaries.
