(** * Proofs about nearest_integer *)
From Coq Require Import ZArith Lia Bool Reals Lra.
From Flocq Require Import Core.
From Verif Require Import MachInt Bits BitsSpec BitsProofs Fmt FloatSpec FmtProofs RoundProofs FOps FOpsProofs ExactOps Nearest NearestProofs.
Open Scope Z_scope.

Global Instance valid_rnd_mode : forall rm, Valid_rnd (rnd rm).
Proof. intros [| | |]; simpl; auto with typeclass_instances. Qed.

Lemma rnd_lt1 : forall rm x, (Rabs (x - IZR (rnd rm x)) < 1)%R.
Proof.
  intros rm x. pose proof (Zfloor_lb x). pose proof (Zfloor_ub x).
  destruct (Zrnd_DN_or_UP (rnd rm) x) as [E|E]; rewrite E.
  - rewrite Rabs_pos_eq; lra.
  - pose proof (Zceil_ub x). pose proof (Zceil_lb x). rewrite Rabs_left1; lra.
Qed.
Lemma rnd_range : forall rm x a b, (IZR a <= x)%R -> (x <= IZR b)%R -> a <= rnd rm x <= b.
Proof.
  intros rm x a b Ha Hb. split.
  - rewrite <- (Zrnd_IZR (rnd rm) a). apply Zrnd_le; auto with typeclass_instances.
  - rewrite <- (Zrnd_IZR (rnd rm) b). apply Zrnd_le; auto with typeclass_instances.
Qed.
Lemma Zfloor_plus : forall x n, Zfloor (x + IZR n) = Zfloor x + n.
Proof.
  intros x n. apply Zfloor_imp. pose proof (Zfloor_lb x). pose proof (Zfloor_ub x). rewrite !plus_IZR. lra.
Qed.
Lemma ZnearestE_plus : forall x n, Z.even n = true -> ZnearestE (x + IZR n) = ZnearestE x + n.
Proof.
  intros x n Hn. unfold Znearest at 1 2. rewrite Zfloor_plus.
  replace (x + IZR n - IZR (Zfloor x + n))%R with (x - IZR (Zfloor x))%R by (rewrite plus_IZR; ring).
  assert (HC : Zceil (x + IZR n) = Zceil x + n).
  { unfold Zceil. replace (- (x + IZR n))%R with (- x + IZR (- n))%R by (rewrite opp_IZR; ring). rewrite Zfloor_plus. lia. }
  rewrite HC, Z.even_add, Hn. destruct (Z.even (Zfloor x)); cbn [Bool.eqb negb]; destruct (Rcompare _ _); auto.
Qed.

Section NI.
Context (F : fmt) (HF : good_fmt F) (rm : rmode).
Notation fexp := (FLT_exp (emin F) (prec F)).

Lemma fround_at : forall y k, 0 <= k -> (bpow radix2 (fl F + k) <= Rabs y < bpow radix2 (fl F + k + 1))%R ->
  fround F rm y = IZR (2 ^ k * rnd rm (y * bpow radix2 (- k))).
Proof.
  intros y k Hk Hy. unfold fround, round.
  assert (E : cexp radix2 fexp y = k).
  { unfold cexp. rewrite (mag_unique radix2 y (fl F + k + 1)) by (replace (fl F + k + 1 - 1) with (fl F + k) by lia; auto).
    unfold FLT_exp, prec. pose proof (emin_neg F HF). lia. }
  unfold scaled_mantissa, F2R. cbn [Fnum Fexp]. rewrite E. rewrite mult_IZR, (bpow_IZR k) by auto. ring.
Qed.

Lemma add_exact : forall a b, is_fin F a = true -> is_fin F b = true ->
  generic_format radix2 fexp (fval F a + fval F b) -> (Rabs (fval F a + fval F b) < bpow radix2 (bias F + 1))%R ->
  is_pattern F (f_add F rm a b) /\ is_fin F (f_add F rm a b) = true /\ fval F (f_add F rm a b) = (fval F a + fval F b)%R.
Proof.
  intros a b Ha Hb G B. destruct (rounded_repr F rm _ _ _ G B (f_add_spec F HF rm a b Ha Hb)) as (A1 & A2 & A3 & _). auto.
Qed.
Lemma sub_exact : forall a b, is_pattern F b -> is_fin F a = true -> is_fin F b = true ->
  generic_format radix2 fexp (fval F a - fval F b) -> (Rabs (fval F a - fval F b) < bpow radix2 (bias F + 1))%R ->
  is_pattern F (f_sub F rm a b) /\ is_fin F (f_sub F rm a b) = true /\ fval F (f_sub F rm a b) = (fval F a - fval F b)%R.
Proof.
  intros a b Pb Ha Hb G B. destruct (rounded_repr F rm _ _ _ G B (f_sub_spec F HF rm a b Pb Ha Hb)) as (A1 & A2 & A3 & _). auto.
Qed.
Lemma add_int : forall a b p q, is_fin F a = true -> is_fin F b = true -> fval F a = IZR p -> fval F b = IZR q -> Z.abs (p + q) <= 2 ^ prec F ->
  is_pattern F (f_add F rm a b) /\ is_fin F (f_add F rm a b) = true /\ fval F (f_add F rm a b) = IZR (p + q).
Proof.
  intros a b p q Ha Hb Ep Eq B. rewrite plus_IZR, <- Ep, <- Eq. apply add_exact; auto; rewrite Ep, Eq, <- plus_IZR; [apply format_int|apply int_bound]; auto.
Qed.
Lemma sub_int : forall a b p q, is_pattern F b -> is_fin F a = true -> is_fin F b = true -> fval F a = IZR p -> fval F b = IZR q -> Z.abs (p - q) <= 2 ^ prec F ->
  is_pattern F (f_sub F rm a b) /\ is_fin F (f_sub F rm a b) = true /\ fval F (f_sub F rm a b) = IZR (p - q).
Proof.
  intros a b p q Pb Ha Hb Ep Eq B. rewrite minus_IZR, <- Ep, <- Eq. apply sub_exact; auto; rewrite Ep, Eq, <- minus_IZR; [apply format_int|apply int_bound]; auto.
Qed.
Lemma rounded_int : forall y z zs r, rounded F rm y zs r -> fround F rm y = IZR z -> Z.abs z < 2 ^ (prec F + 1) ->
  is_pattern F r /\ is_fin F r = true /\ fval F r = IZR z.
Proof.
  intros y z zs r (P & S & V & _) E B. rewrite E in V. pose proof (gf_bias F HF). pose proof (gf_fl F HF).
  destruct V; auto. rewrite <- abs_IZR. apply Rlt_le_trans with (IZR (2 ^ (prec F + 1))); [apply IZR_lt; auto|].
  rewrite <- bpow_IZR by (unfold prec; lia). apply bpow_le. unfold prec. lia.
Qed.

Lemma int_of_big : forall b, is_fin F b = true -> (bpow radix2 (fl F) <= Rabs (fval F b))%R -> exists z, fval F b = IZR z.
Proof.
  intros b Hf HB. pose proof (fval_format F HF b) as G. unfold generic_format in G. rewrite G.
  set (c := cexp radix2 fexp (fval F b)). assert (0 <= c).
  { unfold c, cexp. assert (fl F + 1 <= mag radix2 (fval F b)) by (apply mag_ge_bpow; replace (fl F + 1 - 1) with (fl F) by lia; auto).
    unfold FLT_exp, prec. lia. }
  exists (Ztrunc (scaled_mantissa radix2 fexp (fval F b)) * 2 ^ c). unfold F2R. cbn [Fnum Fexp]. rewrite mult_IZR, bpow_IZR by auto. reflexivity.
Qed.

(** The sum-and-subtract result, before the correction. *)
Definition shifter (x : Z) : Z :=
  if f_lt F x 0 then f_add F rm (f_sub F rm x (f_pow2 F false (fl F))) (f_pow2 F false (fl F))
  else f_sub F rm (f_add F rm x (f_pow2 F false (fl F))) (f_pow2 F false (fl F)).

Lemma half_int : forall m, (Rabs (IZR m * / 2 - IZR (rnd rm (IZR m * / 2))) <= / 2)%R.
Proof.
  intros m. pose proof (rnd_lt1 rm (IZR m * / 2)) as H. set (k := rnd rm _) in *.
  assert (E : (IZR m * / 2 - IZR k = IZR (m - 2 * k) * / 2)%R) by (rewrite minus_IZR, mult_IZR; field).
  rewrite E in *. rewrite Rabs_mult, (Rabs_pos_eq (/ 2)) in * by lra. rewrite <- abs_IZR in *.
  assert (IZR (Z.abs (m - 2 * k)) < 2)%R by lra. apply lt_IZR in H0.
  assert (IZR (Z.abs (m - 2 * k)) <= 1)%R by (apply IZR_le; lia). lra.
Qed.

Lemma shifter_spec : forall x, is_pattern F x -> is_fin F x = true -> (Rabs (fval F x) < bpow radix2 (prec F))%R ->
  let c := if Rlt_bool (fval F x) 0 then - 2 ^ fl F else 2 ^ fl F in
  exists z, is_pattern F (shifter x) /\ is_fin F (shifter x) = true /\ fval F (shifter x) = IZR z /\
    ((Rabs (fval F x) < bpow radix2 (fl F))%R -> z = rnd rm (fval F x + IZR c) - c) /\ (Z.abs z <= 2 ^ prec F) /\
    ((bpow radix2 (fl F) <= Rabs (fval F x))%R -> (Rabs (fval F x - IZR z) <= 1)%R) /\
    ((Rabs (fval F x) < bpow radix2 (fl F))%R -> Z.abs z <= 2 ^ fl F).
Proof.
  intros x Px Fx Bx. pose proof (gf_bias F HF). pose proof (gf_fl F HF). pose proof (fl_pos F HF). pose proof (prec_split F HF) as PS.
  assert (PS1 : 2 ^ (prec F + 1) = 2 * 2 ^ prec F) by (apply pow2_succ; unfold prec; lia).
  destruct (f_pow2_props F HF false (fl F) ltac:(lia)) as (Po & Fo & So & Vo & Mo).
  unfold sg in Vo. rewrite Rmult_1_l, bpow_IZR in Vo by lia.
  destruct (f_zero_props F HF false) as (_ & FZ & _ & _ & VZ). change (f_zero F false) with 0 in *.
  unfold shifter. rewrite (f_lt_fin F HF), VZ by auto.
  set (v := fval F x) in *. rewrite bpow_IZR in Bx |- * by (unfold prec; lia).
  assert (CR : exists z, forall y, y = (v + IZR (if Rlt_bool v 0 then - 2 ^ fl F else 2 ^ fl F))%R -> fround F rm y = IZR z /\ Z.abs z < 2 ^ (prec F + 1) /\
     Z.abs (z - (if Rlt_bool v 0 then - 2 ^ fl F else 2 ^ fl F)) <= 2 ^ prec F /\ 
     ((Rabs v < IZR (2 ^ fl F))%R -> z = rnd rm y /\ Z.abs (z - (if Rlt_bool v 0 then - 2 ^ fl F else 2 ^ fl F)) <= 2 ^ fl F) /\ ((IZR (2 ^ fl F) <= Rabs v)%R -> (Rabs (y - IZR z) <= 1)%R)).
  { set (y0 := (v + IZR (if Rlt_bool v 0 then - 2 ^ fl F else 2 ^ fl F))%R).
    destruct (Rlt_or_le (Rabs v) (IZR (2 ^ fl F))) as [Hv|Hv].
    - exists (rnd rm y0). intros y ->. split.
      + rewrite (fround_at y0 0); [|lia|].
        2:{ subst y0. rewrite Z.add_0_r, !bpow_IZR by lia. rewrite pow2_succ by lia. rewrite mult_IZR. apply Rabs_def2 in Hv.
            destruct (Rlt_bool_spec v 0) as [L|L]; rewrite ?opp_IZR; unfold Rabs; destruct (Rcase_abs _); lra. }
        f_equal. change (- 0) with 0. change (2 ^ 0) with 1. rewrite Z.mul_1_l. f_equal. simpl. ring.
      + assert (R : if Rlt_bool v 0 then - (2 * 2 ^ fl F) <= rnd rm y0 <= - 2 ^ fl F else 2 ^ fl F <= rnd rm y0 <= 2 * 2 ^ fl F).
        { subst y0. destruct (Rlt_bool_spec v 0); apply rnd_range; rewrite ?opp_IZR, ?mult_IZR; apply Rabs_def2 in Hv; lra. }
        destruct (Rlt_bool v 0); (split; [lia|split; [lia|split; [intros; split; [auto|lia]|intros; lra]]]).
    - destruct (int_of_big x Fx) as [m Hm]; [rewrite bpow_IZR by lia; auto|]. fold v in Hm.
      set (c := if Rlt_bool v 0 then - 2 ^ fl F else 2 ^ fl F) in *.
      assert (Ey : y0 = IZR (m + c)) by (unfold y0; rewrite plus_IZR, Hm; reflexivity).
      assert (Rm : if Rlt_bool v 0 then - 2 ^ prec F < m <= - 2 ^ fl F else 2 ^ fl F <= m < 2 ^ prec F).
      { rewrite Hm in *. rewrite <- abs_IZR in *. apply le_IZR in Hv. apply lt_IZR in Bx. destruct (Rlt_bool_spec (IZR m) 0) as [L|L]; [apply lt_IZR in L|apply le_IZR in L]; lia. }
      exists (2 ^ 1 * rnd rm (IZR (m + c) * / 2)). intros y ->.
      assert (HH : (y0 * bpow radix2 (- 1) = IZR (m + c) * / 2)%R) by (rewrite Ey; reflexivity).
      assert (E2 : (IZR (2 * (m + c)) * / 2 = IZR (m + c))%R) by (rewrite mult_IZR; field).
      split; [|pose proof (half_int (m + c)) as HI; set (k := rnd rm (IZR (m + c) * / 2)) in *; split; [|split; [|split]]].
      + rewrite (fround_at y0 1); [change (- (1)) with (-1); rewrite HH; auto|lia|]. rewrite !bpow_IZR by lia. rewrite Ey, <- abs_IZR.
        rewrite !pow2_succ by lia. unfold c in *. destruct (Rlt_bool v 0); (split; [apply IZR_le|apply IZR_lt]); lia.
      + assert (KB : if Rlt_bool v 0 then - (3 * 2 ^ (fl F - 1)) <= k <= - 2 ^ fl F else 2 ^ fl F <= k <= 3 * 2 ^ (fl F - 1)).
        { assert (2 ^ fl F = 2 * 2 ^ (fl F - 1)) by (apply pow2_half; lia).
          unfold k, c. destruct (Rlt_bool v 0); apply rnd_range; apply Rmult_le_reg_r with 2%R; try lra; rewrite Rmult_assoc, ?Rinv_l, ?Rmult_1_r, <- ?mult_IZR by lra; apply IZR_le; lia. }
        assert (2 ^ fl F = 2 * 2 ^ (fl F - 1)) by (apply pow2_half; lia).
        change (2 ^ 1) with 2. unfold c. destruct (Rlt_bool v 0); lia.
      + assert (KB : if Rlt_bool v 0 then - (3 * 2 ^ (fl F - 1)) <= k <= - 2 ^ fl F else 2 ^ fl F <= k <= 3 * 2 ^ (fl F - 1)).
        { assert (2 ^ fl F = 2 * 2 ^ (fl F - 1)) by (apply pow2_half; lia).
          unfold k, c. destruct (Rlt_bool v 0); apply rnd_range; apply Rmult_le_reg_r with 2%R; try lra; rewrite Rmult_assoc, ?Rinv_l, ?Rmult_1_r, <- ?mult_IZR by lra; apply IZR_le; lia. }
        assert (2 ^ fl F = 2 * 2 ^ (fl F - 1)) by (apply pow2_half; lia).
        change (2 ^ 1) with 2. unfold c. destruct (Rlt_bool v 0); lia.
      + intros; lra.
      + intros _. rewrite Ey. change (2 ^ 1) with 2. rewrite mult_IZR.
        replace (IZR (m + c) - 2 * IZR k)%R with (2 * (IZR (m + c) * / 2 - IZR k))%R by field. rewrite Rabs_mult, (Rabs_pos_eq 2) by lra. lra. }
  destruct CR as [z CR].
  destruct (Rlt_bool_spec v 0) as [L|L].
  - destruct (CR (v - IZR (2 ^ fl F))%R) as (C1 & C2 & C3 & C4 & C5); [rewrite opp_IZR; ring|].
    pose proof (f_sub_spec F HF rm x (f_pow2 F false (fl F)) Po Fx Fo) as R1. fold v in R1. rewrite Vo in R1.
    destruct (rounded_int _ _ _ _ R1 C1 C2) as (A1 & A2 & A3).
    destruct (add_int _ (f_pow2 F false (fl F)) z (2 ^ fl F) A2 Fo A3 Vo) as (B1 & B2 & B3); [lia|].
    exists (z + 2 ^ fl F). split; auto. split; auto. split; auto. split; [|split; [lia|split]].
    + intros HH. destruct (C4 HH) as [-> _]. rewrite opp_IZR. unfold Rminus. lia.
    + intros HH. specialize (C5 HH). rewrite plus_IZR. replace (v - (IZR z + IZR (2 ^ fl F)))%R with (v - IZR (2 ^ fl F) - IZR z)%R by ring. auto.
    + intros HH. destruct (C4 HH) as [_ C6]. lia.
  - destruct (CR (v + IZR (2 ^ fl F))%R) as (C1 & C2 & C3 & C4 & C5); [auto|].
    pose proof (f_add_spec F HF rm x (f_pow2 F false (fl F)) Fx Fo) as R1. fold v in R1. rewrite Vo in R1.
    destruct (rounded_int _ _ _ _ R1 C1 C2) as (A1 & A2 & A3).
    destruct (sub_int _ (f_pow2 F false (fl F)) z (2 ^ fl F) Po A2 Fo A3 Vo) as (B1 & B2 & B3); [lia|].
    exists (z - 2 ^ fl F). split; auto. split; auto. split; auto. split; [|split; [lia|split]].
    + intros HH. destruct (C4 HH) as [-> _]. auto.
    + intros HH. specialize (C5 HH). rewrite minus_IZR. replace (v - (IZR z - IZR (2 ^ fl F)))%R with (v + IZR (2 ^ fl F) - IZR z)%R by ring. auto.
    + intros HH. destruct (C4 HH) as [_ C6]. lia.
Qed.

Definition small (x : Z) : Prop := is_fin F x = true /\ (Rabs (fval F x) < bpow radix2 (prec F))%R.
Lemma guard_small : forall x, f_lt F x (f_pow2 F false (prec F)) && f_gt F x (f_pow2 F true (prec F)) = true <-> small x.
Proof.
  intros x. pose proof (gf_bias F HF). pose proof (gf_fl F HF). unfold small.
  destruct (f_pow2_props F HF false (prec F) ltac:(unfold prec; lia)) as (P1 & F1 & S1 & V1 & _).
  destruct (f_pow2_props F HF true (prec F) ltac:(unfold prec; lia)) as (P2 & F2 & S2 & V2 & _).
  destruct (is_fin F x) eqn:Fx.
  - rewrite (f_lt_fin F HF), (f_gt_fin F HF), V1, V2, andb_true_iff by auto. unfold sg. 
    destruct (Rlt_bool_spec (fval F x) (1 * bpow radix2 (prec F))), (Rlt_bool_spec (-1 * bpow radix2 (prec F)) (fval F x)); split; intros HH; try (destruct HH; congruence); auto.
    + split; auto. apply Rabs_def1; lra.
    + destruct HH as [_ HH]. apply Rabs_def2 in HH. lra.
    + destruct HH as [_ HH]. apply Rabs_def2 in HH. lra.
    + destruct HH as [_ HH]. apply Rabs_def2 in HH. lra.
  - split; [|intros [? _]; congruence]. intros HH. exfalso. unfold f_gt, f_lt, f_cmp in HH.
    unfold is_fin in Fx, F1, F2. rewrite S1, S2 in HH.
    destruct (is_nan F x || is_nan F (f_pow2 F false (prec F))); [discriminate|].
    destruct (is_nan F x || is_nan F (f_pow2 F true (prec F))); [rewrite andb_false_r in HH; discriminate|].
    unfold szval in HH. pose proof (mag_range F HF (f_pow2 F false (prec F))). pose proof (mag_range F HF (f_pow2 F true (prec F))).
    revert HH. destruct (sign_of F x); repeat (zcmp; try discriminate; try lia).
Qed.
Lemma ni_big : forall ct x, ~ small x -> cc_nearest_integer F rm ct x = x.
Proof. intros ct x H. unfold cc_nearest_integer. destruct (_ && _) eqn:E; auto. apply guard_small in E. tauto. Qed.
Lemma ni_small : forall ct x, small x -> cc_nearest_integer F rm ct x =
  let r := shifter x in
  if ct then r else
      let diff := f_sub F rm x r in
      if f_gt F diff (f_pow2 F false (-1)) then f_add F rm r (f_one F false)
      else if f_lt F diff (f_pow2 F true (-1)) then f_sub F rm r (f_one F false)
      else r.
Proof. intros ct x H. unfold cc_nearest_integer. apply guard_small in H. rewrite H. reflexivity. Qed.

Lemma half_format : forall s, generic_format radix2 fexp (sg s * / 2)%R.
Proof.
  intros s. pose proof (gf_bias F HF). pose proof (gf_fl F HF). destruct (f_pow2_props F HF s (-1) ltac:(lia)) as (_ & F1 & _ & V1 & _).
  change (bpow radix2 (-1)) with (/ 2)%R in V1. rewrite <- V1. apply fval_format; auto.
Qed.
(** Rounding stays on its side of 1/2 and of -1/2 (weakly). *)
Lemma fround_half : forall y, ((y <= / 2)%R -> (fround F rm y <= / 2)%R) /\ ((/ 2 <= y)%R -> (/ 2 <= fround F rm y)%R) /\
  ((- / 2 <= y)%R -> (- / 2 <= fround F rm y)%R) /\ ((y <= - / 2)%R -> (fround F rm y <= - / 2)%R).
Proof.
  intros y. pose proof (half_format false) as G1. pose proof (half_format true) as G2. unfold sg in *.
  rewrite Rmult_1_l in G1. replace (-1 * / 2)%R with (- / 2)%R in G2 by ring.
  assert (Hp : Prec_gt_0 (prec F)) by (unfold Prec_gt_0, prec; pose proof (gf_fl F HF); lia).
  unfold fround. repeat split; intros; [apply round_le_generic|apply round_ge_generic|apply round_ge_generic|apply round_le_generic]; auto with typeclass_instances.
Qed.

(** The correction step for an integer candidate z. *)
Lemma correct_spec : forall x r z, is_pattern F x -> is_fin F x = true -> is_pattern F r -> is_fin F r = true -> fval F r = IZR z ->
  Z.abs z <= 2 ^ prec F -> (Rabs (fval F x - IZR z) <= 1)%R -> (Rabs (fval F x) < bpow radix2 (prec F))%R ->
  exists z', 
  let res := (let diff := f_sub F rm x r in
      if f_gt F diff (f_pow2 F false (-1)) then f_add F rm r (f_one F false)
      else if f_lt F diff (f_pow2 F true (-1)) then f_sub F rm r (f_one F false)
      else r) in
  is_pattern F res /\ is_fin F res = true /\ fval F res = IZR z' /\ (Rabs (fval F x - IZR z') <= 1)%R /\
  ((Rabs (fval F x - IZR z) <= / 2)%R -> z' = z) /\
  (generic_format radix2 fexp (fval F x - IZR z) -> (Rabs (fval F x - IZR z') <= / 2)%R).
Proof.
  intros x r z Px Fx Pr Fr Vr Bz Bd Bx. pose proof (gf_bias F HF). pose proof (gf_fl F HF).
  destruct (f_pow2_props F HF false (-1) ltac:(lia)) as (P1 & F1 & S1 & V1 & _).
  destruct (f_pow2_props F HF true (-1) ltac:(lia)) as (P2 & F2 & S2 & V2 & _).
  destruct (f_one_props F HF false) as (P3 & F3 & S3 & V3 & _).
  change (bpow radix2 (-1)) with (/ 2)%R in *. unfold sg in V1, V2, V3. rewrite Rmult_1_l in V1. change 1%R with (IZR 1) in V3.
  replace (-1 * / 2)%R with (- / 2)%R in V2 by ring.
  set (v := fval F x) in *. rewrite bpow_IZR in Bx by (unfold prec; lia).
  destruct (f_sub_spec F HF rm x r Pr Fx Fr) as (Pd & _ & Vd & _). fold v in Vd. rewrite Vr in Vd.
  pose proof (fround_half (v - IZR z)) as (H1 & H2 & H3 & H4).
  assert (HB : (Rabs (fround F rm (v - IZR z)) <= 1)%R).
  { assert (Hp : Prec_gt_0 (prec F)) by (unfold Prec_gt_0, prec; lia).
    unfold fround. apply abs_round_le_generic; auto with typeclass_instances.
    change 1%R with (IZR 1). apply format_int; auto. pose proof (pow2_ge1 (prec F) ltac:(unfold prec; lia)). lia. }
  destruct Vd as (Fd & Vd). { apply Rle_lt_trans with (1 := HB). change 1%R with (bpow radix2 0). apply bpow_lt. lia. }
  apply Rabs_def2 in Bx. assert (Bd' := Bd). apply Rabs_le_inv in Bd'.
  cbv zeta. rewrite (f_gt_fin F HF), V1, Vd, (f_lt_fin F HF), V2, Vd by auto.
  destruct (Rlt_bool_spec (/ 2) (fround F rm (v - IZR z))) as [C|C].
  - destruct (Rle_or_lt (v - IZR z) (/ 2)) as [D|D]; [specialize (H1 D); lra|].
    destruct (add_int r (f_one F false) z 1 Fr F3 Vr V3) as (A1 & A2 & A3).
    { assert (z < 2 ^ prec F) by (apply lt_IZR; lra). assert (- 2 ^ prec F <= z) by lia. lia. }
    exists (z + 1). split; auto. split; auto. split; auto. rewrite plus_IZR. split; [apply Rabs_le; lra|]. split; [|intros _; apply Rabs_le; lra].
    intros HA. apply Rabs_le_inv in HA. lra.
  - destruct (Rlt_bool_spec (fround F rm (v - IZR z)) (- / 2)) as [E|E].
    + destruct (Rle_or_lt (- / 2) (v - IZR z)) as [D|D]; [specialize (H3 D); lra|].
      destruct (sub_int r (f_one F false) z 1 P3 Fr F3 Vr V3) as (A1 & A2 & A3).
      { assert (- 2 ^ prec F < z) by (apply lt_IZR; rewrite opp_IZR; lra). lia. }
      exists (z - 1). split; auto. split; auto. split; auto. rewrite minus_IZR. split; [apply Rabs_le; lra|]. split; [|intros _; apply Rabs_le; lra].
      intros HA. apply Rabs_le_inv in HA. lra.
    + exists z. split; auto. split; auto. split; auto. split; auto. split; auto. intros G. rewrite fround_exact in C, E by auto. apply Rabs_le; lra.
Qed.

Lemma shifter_near : forall x, is_pattern F x -> small x ->
  exists z, is_pattern F (shifter x) /\ is_fin F (shifter x) = true /\ fval F (shifter x) = IZR z /\ Z.abs z <= 2 ^ prec F /\ (Rabs (fval F x - IZR z) <= 1)%R /\
   ((Rabs (fval F x) < bpow radix2 (fl F))%R -> (Rabs (fval F x - IZR z) < 1)%R /\ (rm = RNE -> z = ZnearestE (fval F x))).
Proof.
  intros x Px [Fx Bx]. destruct (shifter_spec x Px Fx Bx) as (z & A1 & A2 & A3 & A4 & A5 & A6 & _).
  exists z. do 4 (split; auto).
  assert (K : (Rabs (fval F x) < bpow radix2 (fl F))%R -> (Rabs (fval F x - IZR z) < 1)%R).
  { intros HH. rewrite (A4 HH), minus_IZR.
    match goal with |- context [rnd rm ?y] => pose proof (rnd_lt1 rm y) as HL; replace (fval F x - (IZR (rnd rm y) - IZR (if Rlt_bool (fval F x) 0 then - 2 ^ fl F else 2 ^ fl F)))%R with (y - IZR (rnd rm y))%R by ring end. auto. }
  split.
  - destruct (Rlt_or_le (Rabs (fval F x)) (bpow radix2 (fl F))) as [HH|HH]; auto. apply Rlt_le; auto.
  - intros HH. split; auto. intros ->. rewrite (A4 HH). cbn [rnd]. rewrite ZnearestE_plus; [lia|].
    pose proof (gf_fl F HF). assert (E : Z.even (2 ^ fl F) = true) by (rewrite pow2_half by lia; apply Z.even_mul).
    destruct (Rlt_bool _ _); rewrite ?Z.even_opp; auto.
Qed.

(** Every result is the argument itself or an integer at distance at most 1. *)
Theorem ni_within1 : forall ct x, is_pattern F x -> small x ->
  exists z, is_pattern F (cc_nearest_integer F rm ct x) /\ is_fin F (cc_nearest_integer F rm ct x) = true /\
    fval F (cc_nearest_integer F rm ct x) = IZR z /\ (Rabs (fval F x - IZR z) <= 1)%R.
Proof.
  intros ct x Px Sx. rewrite ni_small by auto. destruct (shifter_near x Px Sx) as (z & A1 & A2 & A3 & A4 & A5 & _).
  destruct ct; cbv zeta; [exists z; auto|]. destruct Sx as [Fx Bx].
  destruct (correct_spec x (shifter x) z Px Fx A1 A2 A3 A4 A5 Bx) as (z' & B1 & B2 & B3 & B4 & _). exists z'. auto.
Qed.
(** In the default mode and below 2^fl: the nearest integer, ties to even. *)
Theorem ni_rne : rm = RNE -> forall ct x, is_pattern F x -> is_fin F x = true -> (Rabs (fval F x) < bpow radix2 (fl F))%R ->
  is_pattern F (cc_nearest_integer F rm ct x) /\ is_fin F (cc_nearest_integer F rm ct x) = true /\
  fval F (cc_nearest_integer F rm ct x) = IZR (ZnearestE (fval F x)).
Proof.
  intros Hrm ct x Px Fx Bx.
  assert (Sx : small x). { split; auto. apply Rlt_trans with (1 := Bx). apply bpow_lt. unfold prec. lia. }
  rewrite ni_small by auto. destruct (shifter_near x Px Sx) as (z & A1 & A2 & A3 & A4 & A5 & A6).
  destruct (A6 Bx) as (_ & Ez). specialize (Ez Hrm).
  destruct ct; cbv zeta; [rewrite <- Ez; auto|].
  destruct (correct_spec x (shifter x) z Px Fx A1 A2 A3 A4 A5 (proj2 Sx)) as (z' & B1 & B2 & B3 & _ & B5 & _). 
  rewrite <- Ez, <- B5; auto. rewrite Ez. apply Znearest_half.
Qed.
(** Outside constant evaluation, every mode: within 1/2 as soon as |x| >= 1/2. *)
Theorem ni_runtime : forall x, is_pattern F x -> is_fin F x = true -> (/ 2 <= Rabs (fval F x))%R ->
  is_pattern F (cc_nearest_integer F rm false x) /\ is_fin F (cc_nearest_integer F rm false x) = true /\
  exists z, fval F (cc_nearest_integer F rm false x) = IZR z /\ (Rabs (fval F x - IZR z) <= / 2)%R.
Proof.
  intros x Px Fx Hx. pose proof (gf_bias F HF). pose proof (gf_fl F HF).
  destruct (Rlt_or_le (Rabs (fval F x)) (bpow radix2 (prec F))) as [Bx|Bx].
  2:{ rewrite ni_big by (intros [_ ?]; lra). split; auto. split; auto. destruct (int_of_big x Fx) as [z Hz].
      - apply Rle_trans with (2 := Bx). apply bpow_le. unfold prec. lia.
      - exists z. split; auto. rewrite Hz. replace (IZR z - IZR z)%R with 0%R by ring. rewrite Rabs_R0. lra. }
  assert (Sx : small x) by (split; auto).
  rewrite ni_small by auto. destruct (shifter_near x Px Sx) as (z & A1 & A2 & A3 & A4 & A5 & A6). cbv zeta.
  destruct (correct_spec x (shifter x) z Px Fx A1 A2 A3 A4 A5 Bx) as (z' & B1 & B2 & B3 & _ & _ & B6). 
  split; auto. split; auto. exists z'. split; auto. apply B6.
  destruct (Rlt_or_le (Rabs (fval F x)) (bpow radix2 (fl F))) as [Cx|Cx].
  - destruct (A6 Cx) as [L _]. pose proof (fval_format F HF x) as G. unfold generic_format in G.
    set (c := cexp radix2 fexp (fval F x)) in *. set (M := Ztrunc (scaled_mantissa radix2 fexp (fval F x))) in *.
    assert (Hc : c <= 0 /\ - prec F <= c /\ emin F <= c).
    { unfold c, cexp. set (g := mag radix2 (fval F x) : Z).
      assert (g <= fl F) by (apply mag_le_bpow; auto; intros HZ; rewrite HZ, Rabs_R0 in Hx; lra).
      assert (0 <= g) by (apply mag_ge_bpow; change (bpow radix2 (0 - 1)) with (/ 2)%R; auto).
      unfold FLT_exp, prec. pose proof (emin_neg F HF). lia. }
    assert (E : (fval F x - IZR z = F2R (Float radix2 (M - z * 2 ^ (- c)) c))%R).
    { rewrite G at 1. unfold F2R. cbn [Fnum Fexp]. rewrite minus_IZR, mult_IZR, Rmult_minus_distr_r, <- bpow_IZR by lia.
      rewrite Rmult_assoc, <- bpow_plus. replace (- c + c) with 0 by lia. simpl bpow. ring. }
    rewrite E. apply generic_format_FLT. apply FLT_spec with (Float radix2 (M - z * 2 ^ (- c)) c); auto; cbn [Fnum Fexp]; [|lia].
    apply lt_IZR. rewrite abs_IZR. rewrite E in L. unfold F2R in L. cbn [Fnum Fexp] in L. rewrite Rabs_mult, (Rabs_pos_eq (bpow radix2 c)) in L by apply bpow_ge_0.
    assert (Hb : (1 <= bpow radix2 (prec F) * bpow radix2 c)%R). { rewrite <- bpow_plus. change 1%R with (bpow radix2 0). apply bpow_le. lia. }
    change (IZR (Zpower radix2 (prec F))) with (IZR (2 ^ prec F)). rewrite <- bpow_IZR by (unfold prec; lia).
    apply Rmult_lt_reg_r with (bpow radix2 c); [apply bpow_gt_0|]. lra.
  - destruct (int_of_big x Fx Cx) as [m Hm]. rewrite Hm in *. rewrite <- minus_IZR in *. apply format_int; auto.
    rewrite <- abs_IZR in A5. apply le_IZR in A5. pose proof (pow2_ge1 (prec F) ltac:(unfold prec; lia)). lia.
Qed.
End NI.

Lemma ni_odd_refuted : is_pattern binary64 0x4330000000000001 /\ fval binary64 0x4330000000000001 = IZR (2 ^ 52 + 1) /\
  (Rabs (fval binary64 0x4330000000000001) < bpow radix2 (prec binary64))%R /\
  fval binary64 (cc_nearest_integer binary64 RNE true 0x4330000000000001) <> IZR (2 ^ 52 + 1).
Proof.
  assert (E : fval binary64 0x4330000000000001 = IZR (2 ^ 52 + 1)).
  { unfold fval. replace (decode binary64 0x4330000000000001) with (DFin false (2 ^ 52 + 1) 0) by reflexivity. unfold dval.
    change (bpow radix2 0) with 1%R. ring. }
  split; [unfold is_pattern; vm_compute; split; congruence|]. split; auto. split.
  - rewrite E, <- abs_IZR, bpow_IZR by (vm_compute; congruence). apply IZR_lt. reflexivity.
  - replace (cc_nearest_integer binary64 RNE true 0x4330000000000001) with 0x4330000000000000 by (vm_compute; reflexivity).
    unfold fval. replace (decode binary64 0x4330000000000000) with (DFin false (2 ^ 52) 0) by reflexivity. unfold dval.
    change (bpow radix2 0) with 1%R. rewrite Rmult_1_l, Rmult_1_r. apply IZR_neq. discriminate.
Qed.
Lemma ni_up_refuted : is_pattern binary64 0x3FDFFFFFFFFFFFFF /\ is_fin binary64 0x3FDFFFFFFFFFFFFF = true /\
  (0 < fval binary64 0x3FDFFFFFFFFFFFFF < / 2)%R /\ fval binary64 (cc_nearest_integer binary64 RUP false 0x3FDFFFFFFFFFFFFF) = 1%R.
Proof.
  assert (E : fval binary64 0x3FDFFFFFFFFFFFFF = (IZR (2 ^ 53 - 1) * bpow radix2 (-54))%R).
  { unfold fval. replace (decode binary64 0x3FDFFFFFFFFFFFFF) with (DFin false (2 ^ 53 - 1) (-54)) by reflexivity. unfold dval. ring. }
  split; [unfold is_pattern; vm_compute; split; congruence|]. split; [reflexivity|]. split.
  - rewrite E. pose proof (bpow_gt_0 radix2 (-54)). split.
    + apply Rmult_lt_0_compat; auto. apply IZR_lt. reflexivity.
    + apply Rlt_le_trans with (IZR (2 ^ 53) * bpow radix2 (-54))%R.
      * apply Rmult_lt_compat_r; auto. apply IZR_lt. reflexivity.
      * rewrite <- bpow_IZR by lia. rewrite <- bpow_plus. change (53 + -54) with (-1). change (bpow radix2 (-1)) with (/ 2)%R. lra.
  - replace (cc_nearest_integer binary64 RUP false 0x3FDFFFFFFFFFFFFF) with (f_one binary64 false) by (vm_compute; reflexivity).
    assert (HF : good_fmt binary64) by (unfold good_fmt; cbn; lia).
    destruct (f_one_props binary64 HF false) as (_ & _ & _ & -> & _). reflexivity.
Qed.
