(** * The data-parallel types with floating-point lanes *)
From Coq Require Import ZArith Bool List Lia Reals Lra.
Import ListNotations.
From Flocq Require Import Core Relative Plus_error.
From Verif Require Import MachInt Bits Fmt FloatSpec FmtProofs RoundProofs FOps FOpsProofs ExactOps FPBits FPBitsProofs
  Compare CompareProofs Nearest NearestProofs Basic BasicProofs LerpProofs RemProofs ExtFloatSpec ExtFloat ExtFloatProofs ExtInterp
  Simd SimdSpec SimdFloatSpec SimdProofs SimdReduce.
Open Scope Z_scope.

Section SimdFloat.
Context (F : fmt) (HF : good_fmt F) (HelF : el F <= 16).
Notation fexp := (FLT_exp (emin F) (prec F)).
Notation big := (bpow radix2 (bias F + 1)).
Notation is_min := (is_min F). Notation is_max := (is_max F). Notation ulpfac := (ulpfac F). Notation sumR := (sumR F).
Notation sumA := (sumA F). Notation canon := (canon F).

Lemma f_lt_key : forall a b, is_nan F a = false -> is_nan F b = false -> f_lt F a b = (key F a <? key F b).
Proof.
  intros a b Na Nb. unfold f_lt. rewrite (f_cmp_mag F) by auto. fold (key F a) (key F b).
  destruct (Z.compare_spec (key F a) (key F b)); symmetry; lia.
Qed.
Lemma swo_float : forall v, Forall (fun x => is_nan F x = false) v -> swo (f_lt F) v.
Proof.
  intros v N. rewrite Forall_forall in N. split; [|split]; intros; rewrite !f_lt_key in * by auto; lia.
Qed.
Lemma nlt_xle : forall a b, is_nan F a = false -> is_nan F b = false -> f_lt F a b = false -> xle F b a.
Proof. intros a b Na Nb H. rewrite f_lt_key in H by auto. apply (xle_key F HF); auto. lia. Qed.


Lemma least_min : forall v r, Forall (fun x => is_nan F x = false) v -> is_least (f_lt F) v r -> is_min v r.
Proof. intros v r N [I M]. rewrite Forall_forall in N. split; auto. intros x Hx. apply nlt_xle; auto. Qed.
Lemma greatest_max : forall v r, Forall (fun x => is_nan F x = false) v -> is_greatest (f_lt F) v r -> is_max v r.
Proof. intros v r N [I M]. rewrite Forall_forall in N. split; auto. intros x Hx. apply nlt_xle; auto. Qed.

Lemma hmin_float : forall v, (1 <= length v)%nat -> Forall (fun x => is_nan F x = false) v -> is_min v (hmin (f_lt F) v).
Proof. intros. apply least_min; auto. apply hmin_least; auto. apply swo_float; auto. Qed.
Lemma hmax_float : forall v, (1 <= length v)%nat -> Forall (fun x => is_nan F x = false) v -> is_max v (hmax (f_lt F) v).
Proof. intros. apply greatest_max; auto. apply hmax_greatest; auto. apply swo_float; auto. Qed.

(** NaN lanes: in lane 0 it is the result, elsewhere it is skipped. *)
Lemma f_lt_nan : forall a b, is_nan F a = true \/ is_nan F b = true -> f_lt F a b = false.
Proof. intros a b H. unfold f_lt, f_cmp. destruct H as [-> | ->]; rewrite ?orb_true_r; reflexivity. Qed.
Lemma hmin_nan0 : forall x v, is_nan F x = true -> hmin (f_lt F) (x :: v) = x /\ hmax (f_lt F) (x :: v) = x.
Proof.
  intros x v N. rewrite hmin_fold, hmax_fold. change (lane (x :: v) 0) with x. generalize (x :: v) as l.
  split; induction l; simpl; auto; rewrite f_lt_nan; auto.
Qed.
Lemma hmin_skip : forall x v, is_nan F x = false ->
  hmin (f_lt F) (x :: v) = hmin (f_lt F) (filter (fun y => negb (is_nan F y)) (x :: v)) /\
  hmax (f_lt F) (x :: v) = hmax (f_lt F) (filter (fun y => negb (is_nan F y)) (x :: v)).
Proof.
  intros x v N. assert (E0 : lane (filter (fun y => negb (is_nan F y)) (x :: v)) 0 = x) by (simpl; rewrite N; reflexivity).
  rewrite !hmin_fold, !hmax_fold, E0. change (lane (x :: v) 0) with x.
  split; generalize (x :: v) as l; clear E0; revert x N; intros x _ l; revert x; induction l as [|a l IH]; intros x; simpl; auto;
    destruct (is_nan F a) eqn:E; simpl; auto; rewrite f_lt_nan by auto; auto.
Qed.

(** Masked: an infinity is the neutral element. *)
Lemma key_inf : forall s, key F (f_inf F s) = szval s (inf_mag F).
Proof.
  intros s. destruct (f_inf_props F HF s) as (_ & I & S). unfold key. rewrite S. unfold is_inf in I. apply Z.eqb_eq in I. rewrite I. reflexivity.
Qed.
Lemma inf_top : forall (s : bool) x, is_pattern F x -> is_nan F x = false ->
  (if s then f_lt F (f_inf F true) x else f_lt F x (f_inf F false)) = false -> x = f_inf F s.
Proof.
  intros s x P N H. assert (I : forall t, is_nan F (f_inf F t) = false) by (intros; apply (inf_nan F); apply f_inf_props; auto).
  assert (IP := inf_mag_pos F HF). pose proof (mag_range F HF x) as MR. unfold is_nan in N.
  destruct s; rewrite f_lt_key, key_inf in H by auto; unfold key, szval in H; destruct (sign_of F x) eqn:S; try lia;
    rewrite (inf_pat F HF x P) by (unfold is_inf; lia); rewrite S; reflexivity.
Qed.
Lemma min_masked_float : forall sel m v, (1 <= length v)%nat -> length m = length v ->
  sel m v (broadcast v (f_inf F false)) = choose (mlanes m) v (broadcast v (f_inf F false)) ->
  Forall (fun x => is_pattern F x /\ is_nan F x = false) (selected (mlanes m) v) ->
  (selected (mlanes m) v = [] -> reduce_min_masked sel (f_lt F) (f_inf F false) v m = f_inf F false) /\
  (selected (mlanes m) v <> [] -> is_min (selected (mlanes m) v) (reduce_min_masked sel (f_lt F) (f_inf F false) v m)).
Proof.
  intros sel m v L Lm G N.
  assert (N' : Forall (fun x => is_nan F x = false) (selected (mlanes m) v)) by (eapply Forall_impl; [|exact N]; intros a [_ H]; exact H).
  destruct (min_masked_spec (f_lt F) sel (f_inf F false) m v L Lm G) as [A B].
  - apply swo_float. constructor; auto. apply (inf_nan F). apply f_inf_props; auto.
  - intros x Hx Hl. rewrite Forall_forall in N. apply (inf_top false); auto; apply N; auto.
  - split; auto. intros K. apply least_min; auto.
Qed.
Lemma max_masked_float : forall sel m v, (1 <= length v)%nat -> length m = length v ->
  sel m v (broadcast v (f_inf F true)) = choose (mlanes m) v (broadcast v (f_inf F true)) ->
  Forall (fun x => is_pattern F x /\ is_nan F x = false) (selected (mlanes m) v) ->
  (selected (mlanes m) v = [] -> reduce_max_masked sel (f_lt F) (f_inf F true) v m = f_inf F true) /\
  (selected (mlanes m) v <> [] -> is_max (selected (mlanes m) v) (reduce_max_masked sel (f_lt F) (f_inf F true) v m)).
Proof.
  intros sel m v L Lm G N.
  assert (N' : Forall (fun x => is_nan F x = false) (selected (mlanes m) v)) by (eapply Forall_impl; [|exact N]; intros a [_ H]; exact H).
  destruct (max_masked_spec (f_lt F) sel (f_inf F true) m v L Lm G) as [A B].
  - apply swo_float. constructor; auto. apply (inf_nan F). apply f_inf_props; auto.
  - intros x Hx Hl. rewrite Forall_forall in N. apply (inf_top true); auto; apply N; auto.
  - split; auto. intros K. apply greatest_max; auto.
Qed.

(** ** The sum of the lanes *)

Lemma ulpfac_pos : forall rm, (0 < ulpfac rm)%R.
Proof. intros []; apply bpow_gt_0. Qed.

Lemma plus_err : forall rm x y, generic_format radix2 fexp x -> generic_format radix2 fexp y ->
  (Rabs (fround F rm (x + y) - (x + y)) <= ulpfac rm * Rabs (x + y))%R.
Proof.
  intros rm x y Fx Fy. pose proof (gf_fl F HF). assert (Pp : 0 < prec F) by (unfold prec; lia).
  assert (Prec_gt_0 (prec F)) by exact Pp.
  destruct (Rle_or_lt (bpow radix2 (emin F + prec F - 1)) (Rabs (x + y))) as [B|B].
  - destruct rm; unfold ulpfac.
    + rewrite <- (Rmult_1_l (bpow radix2 (- prec F))).
      pose proof (relative_error_N_FLT radix2 (emin F) (prec F) Pp (fun z => negb (Z.even z)) (x + y) B) as E.
      replace (bpow radix2 (- prec F)) with (/ 2 * bpow radix2 (- prec F + 1))%R
        by (rewrite bpow_plus; change (bpow radix2 1) with 2%R; field). rewrite Rmult_1_l. exact E.
    + replace (1 - prec F) with (- prec F + 1) by lia. apply Rlt_le.
      apply (relative_error_FLT radix2 (emin F) (prec F) Pp Zfloor (x + y) B).
    + replace (1 - prec F) with (- prec F + 1) by lia. apply Rlt_le.
      apply (relative_error_FLT radix2 (emin F) (prec F) Pp Zceil (x + y) B).
    + replace (1 - prec F) with (- prec F + 1) by lia. apply Rlt_le.
      apply (relative_error_FLT radix2 (emin F) (prec F) Pp Ztrunc (x + y) B).
  - rewrite (fround_exact F).
    + rewrite Rminus_diag_eq, Rabs_R0 by auto. apply Rmult_le_pos; [apply Rlt_le, ulpfac_pos|apply Rabs_pos].
    + apply FLT_format_plus_small; auto. apply Rle_trans with (1 := Rlt_le _ _ B). apply bpow_le. lia.
Qed.

Lemma sumA_nonneg : forall v, (0 <= sumA v)%R.
Proof. induction v; simpl; [lra|]. pose proof (Rabs_pos (fval F a)). lra. Qed.
Lemma sumR_le : forall v, (Rabs (sumR v) <= sumA v)%R.
Proof. induction v; simpl; [rewrite Rabs_R0; lra|]. eapply Rle_trans; [apply Rabs_triang|]. lra. Qed.

Lemma sum_step : forall rm v s, is_fin F s = true -> Forall (fun x => is_fin F x = true) v ->
  ((Rabs (fval F s) + sumA v) * (1 + ulpfac rm) ^ length v < bpow radix2 (bias F))%R ->
  is_fin F (fold_left (f_add F rm) v s) = true /\
  (Rabs (fval F (fold_left (f_add F rm) v s) - (fval F s + sumR v)) <=
    ((1 + ulpfac rm) ^ length v - 1) * (Rabs (fval F s) + sumA v))%R.
Proof.
  intros rm v. induction v as [|a v IH]; intros s Fs Fv B; cbn [fold_left sumR fold_right length sumA pow] in *.
  - split; auto. fold (sumR []). rewrite Rplus_0_r, Rminus_diag_eq, Rabs_R0 by auto. lra.
  - inversion Fv as [|? ? Fa Fv']; subst. fold (sumA v) in *. fold (sumR v) in *.
    set (u := ulpfac rm) in *. assert (U := ulpfac_pos rm). fold u in U.
    set (t := f_add F rm s a).
    assert (PW : (1 <= (1 + u) ^ length v)%R) by (apply pow_R1_Rle; lra).
    pose proof (plus_err rm _ _ (fval_format F HF s) (fval_format F HF a)) as PE. fold u in PE.
    pose proof (Rabs_triang (fval F s) (fval F a)) as TR. pose proof (sumA_nonneg v) as SN.
    pose proof (Rabs_pos (fval F s)) as Ps. pose proof (Rabs_pos (fval F a)) as Pa. pose proof (Rabs_pos (fval F s + fval F a)) as Pt.
    assert (TB : (Rabs (fround F rm (fval F s + fval F a)) <= (1 + u) * (Rabs (fval F s) + Rabs (fval F a)))%R).
    { replace (fround F rm (fval F s + fval F a)) with
        ((fround F rm (fval F s + fval F a) - (fval F s + fval F a)) + (fval F s + fval F a))%R by ring.
      eapply Rle_trans; [apply Rabs_triang|]. nra. }
    destruct (f_add_spec F HF rm s a Fs Fa) as (_ & _ & V & _). fold t in V. destruct V as [Ft Et].
    { apply Rle_lt_trans with (1 := TB). apply Rlt_trans with (bpow radix2 (bias F)); [|apply bpow_lt; lia].
      apply Rle_lt_trans with (2 := B).
      assert (((1 + u) * (Rabs (fval F s) + Rabs (fval F a)) <= (1 + u) * (Rabs (fval F s) + (Rabs (fval F a) + sumA v)))%R) by nra.
      apply Rle_trans with (1 := H). rewrite <- (Rmult_1_r ((1 + u) * _)%R).
      replace ((Rabs (fval F s) + (Rabs (fval F a) + sumA v)) * ((1 + u) * (1 + u) ^ length v))%R with
        ((1 + u) * (Rabs (fval F s) + (Rabs (fval F a) + sumA v)) * (1 + u) ^ length v)%R by ring.
      apply Rmult_le_compat_l; auto. apply Rmult_le_pos; lra. }
    assert (TA : (Rabs (fval F t) <= (1 + u) * (Rabs (fval F s) + Rabs (fval F a)))%R) by (rewrite Et; exact TB).
    destruct (IH t Ft Fv') as [FF EE].
    { apply Rle_lt_trans with (2 := B).
      replace ((Rabs (fval F s) + (Rabs (fval F a) + sumA v)) * ((1 + u) * (1 + u) ^ length v))%R with
        ((1 + u) * (Rabs (fval F s) + (Rabs (fval F a) + sumA v)) * (1 + u) ^ length v)%R by ring.
      apply Rmult_le_compat_r; [lra|]. nra. }
    split; auto. fold t. set (r := fval F (fold_left (f_add F rm) v t)) in *.
    replace (r - (fval F s + (fval F a + sumR v)))%R with
      ((r - (fval F t + sumR v)) + (fround F rm (fval F s + fval F a) - (fval F s + fval F a)))%R by (rewrite Et; ring).
    eapply Rle_trans; [apply Rabs_triang|].
    apply Rle_trans with (((1 + u) ^ length v - 1) * (Rabs (fval F t) + sumA v) + u * Rabs (fval F s + fval F a))%R;
      [apply Rplus_le_compat; auto|].
    set (P := ((1 + u) ^ length v)%R) in *. set (A := (Rabs (fval F s) + Rabs (fval F a))%R) in *.
    assert (X : ((P - 1) * (Rabs (fval F t) + sumA v) <= (P - 1) * ((1 + u) * A + (1 + u) * sumA v))%R).
    { apply Rmult_le_compat_l; [lra|]. nra. }
    assert (Y : (u * Rabs (fval F s + fval F a) <= u * A)%R) by (apply Rmult_le_compat_l; lra).
    replace (Rabs (fval F s) + (Rabs (fval F a) + sumA v))%R with (A + sumA v)%R by (unfold A; ring).
    assert (Zz : (0 <= u * sumA v)%R) by (apply Rmult_le_pos; lra).
    nra.
Qed.
Lemma sum_error : forall rm v, Forall (fun x => is_fin F x = true) v ->
  (sumA v * (1 + ulpfac rm) ^ length v < bpow radix2 (bias F))%R ->
  is_fin F (hadd (f_add F rm) (f_zero F false) v) = true /\
  (Rabs (fval F (hadd (f_add F rm) (f_zero F false) v) - sumR v) <= ((1 + ulpfac rm) ^ length v - 1) * sumA v)%R.
Proof.
  intros rm v Fv B. rewrite hadd_fold. destruct (f_zero_props F HF false) as (_ & F0 & _ & _ & V0).
  destruct (sum_step rm v (f_zero F false) F0 Fv) as [A E]; rewrite V0, Rabs_R0, ?Rplus_0_l in *; auto.
Qed.

(** ** Masked sums with the identity -0 *)
Lemma add_mzero : forall rm x, rm <> RDN -> canon x ->
  f_add F rm x (f_zero F true) = x /\ f_add F rm (f_zero F true) x = x.
Proof.
  intros rm x HR [P N]. destruct (f_zero_props F HF true) as (P0 & F0 & _ & S0 & V0).
  destruct (class_cases F x) as [Hf|[Hi|Hn]].
  - assert (R1 := f_add_spec F HF rm x (f_zero F true) Hf F0). assert (R2 := f_add_spec F HF rm (f_zero F true) x F0 Hf).
    rewrite V0, S0 in *. rewrite Rplus_0_r in R1. rewrite Rplus_0_l in R2.
    apply (rounded_repr F) in R1; auto using (fval_format F HF), (fin_bound F HF).
    apply (rounded_repr F) in R2; auto using (fval_format F HF), (fin_bound F HF).
    assert (RD : is_rdn rm = false) by (destruct rm; auto; congruence).
    destruct R1 as (P1 & F1 & E1 & S1). destruct R2 as (P2 & F2 & E2 & S2). rewrite RD in *.
    split; apply (fval_inj F HF); auto; intros Hz.
    + rewrite S1. rewrite <- E1, Hz, Req_bool_true by auto. destruct (sign_of F x); reflexivity.
    + rewrite S2. rewrite <- E2, Hz, Req_bool_true by auto. destruct (sign_of F x); reflexivity.
  - destruct (decode_fin F HF (f_zero F true) F0) as (m & e & D & _). unfold f_add. rewrite D, (decode_isinf F x Hi).
    rewrite <- (inf_pat F HF x P Hi). auto.
  - rewrite (N Hn). destruct (decode_fin F HF (f_zero F true) F0) as (m & e & D & _). unfold f_add. rewrite D.
    rewrite (decode_nan F) by (apply qnan_props; auto). auto.
Qed.
Lemma add_canon : forall rm x y, canon x -> canon y -> canon (f_add F rm x y).
Proof.
  intros rm x y [Px Nx] [Py Ny]. destruct (qnan_props F HF) as (Pq & Nq & _).
  assert (CI : forall s, canon (f_inf F s)).
  { intros s. destruct (f_inf_props F HF s) as (P & I & _). split; auto. rewrite (inf_nan F) by auto. discriminate. }
  destruct (class_cases F x) as [Hx|[Hx|Hx]]; destruct (class_cases F y) as [Hy|[Hy|Hy]];
    try (unfold f_add; rewrite ?(decode_nan F x Hx), ?(decode_nan F y Hy); destruct (decode F x); split; auto; fail);
    try (unfold f_add; rewrite ?(decode_nan F x Hx), ?(decode_nan F y Hy); split; auto; fail).
  - destruct (f_add_spec F HF rm x y Hx Hy) as (P & _ & V & O). split; auto.
    intros NN. exfalso. destruct (Rlt_or_le (Rabs (fround F rm (fval F x + fval F y))) big) as [L|L].
    + destruct (V L) as [W _]. rewrite (fin_nan F) in NN by auto. discriminate.
    + apply O in L. unfold is_nan in NN. rewrite L in NN. clear -NN HF. pose proof (inf_mag_pos F HF).
      unfold overflow_mag, max_mag in NN. destruct (Rlt_bool (fval F x + fval F y) 0); destruct rm; lia.
  - destruct (decode_fin F HF x Hx) as (m & e & D & _). unfold f_add. rewrite D, (decode_isinf F y Hy). apply CI.
  - destruct (decode_fin F HF y Hy) as (m & e & D & _). unfold f_add. rewrite D, (decode_isinf F x Hx). apply CI.
  - unfold f_add. rewrite (decode_isinf F x Hx), (decode_isinf F y Hy). destruct (Bool.eqb _ _); [apply CI|split; auto].
Qed.
End SimdFloat.

Lemma choose_repeat_P : forall (P : Z -> Prop) (op : Z -> Z -> Z) e m v acc, (forall x, P x -> op x e = x) ->
  (forall x y, P x -> P y -> P (op x y)) -> P acc -> Forall P (selected m v) -> length m = length v ->
  fold_left op (choose m v (repeat e (length v))) acc = fold_left op (selected m v) acc.
Proof.
  intros P op e m v acc E C. revert v acc. induction m as [|c m IH]; intros [|x v] acc Pa Pv L; simpl in *; try lia; auto.
  destruct c; simpl.
  - inversion Pv; subst. apply IH; auto.
  - rewrite E by auto. apply IH; auto.
Qed.
Lemma reduce_masked_P : forall sel (P : Z -> Prop) n (op : Z -> Z -> Z) v m e, (1 <= n)%nat -> length m = n -> length v = n ->
  sel m v (broadcast v e) = choose (mlanes m) v (broadcast v e) ->
  P e -> (forall x y, P x -> P y -> P (op x y)) -> (forall x, P x -> op x e = x) -> (forall x, P x -> op e x = x) ->
  Forall P (selected (mlanes m) v) ->
  reduce_masked sel op v m e = fold_left op (selected (mlanes m) v) e.
Proof.
  intros sel P n op v m e Hn Lm Lv G Pe C R L Pv. unfold reduce_masked. rewrite G, broadcast_spec.
  assert (Lm' : length (mlanes m) = length v) by (rewrite mlanes_length; lia).
  rewrite <- (choose_repeat_P P op e) by auto.
  destruct (mlanes m) as [|b l] eqn:Em; [simpl in *; lia|].
  destruct v as [|x v]; simpl in Lv; [lia|].
  change (choose (b :: l) (x :: v) (repeat e (length (x :: v)))) with ((if b then x else e) :: choose l v (repeat e (length v))).
  rewrite reduce_op_spec. cbn [fold_left]. rewrite L; auto. destruct b; auto. simpl in Pv. inversion Pv; auto.
Qed.

(** ** min and max of two vectors *)
Lemma op_min_lane : forall lt n a b i, length a = n -> length b = n -> (i < n)%nat ->
  nth i (op_min_arr lt a b) 0 = (if lt (nth i a 0) (nth i b 0) then nth i a 0 else nth i b 0) /\
  nth i (op_max_arr lt a b) 0 = (if lt (nth i a 0) (nth i b 0) then nth i b 0 else nth i a 0).
Proof. intros lt n a b i <- Lb Hi. unfold op_min_arr, op_max_arr. rewrite !fill_nth by auto. auto. Qed.
Lemma op_min_vec_lane : forall w lt n a b i, 1 <= w -> vec_ok w n a -> vec_ok w n b -> (i < n)%nat ->
  nth i (op_min_vec w lt a b) 0 = (if lt (nth i a 0) (nth i b 0) then nth i a 0 else nth i b 0) /\
  nth i (op_max_vec w lt a b) 0 = (if lt (nth i b 0) (nth i a 0) then nth i a 0 else nth i b 0).
Proof.
  intros w lt n a b i Hw Oa Ob Hi. assert (La := proj1 Oa). assert (Lb := proj1 Ob).
  destruct (vcmp_spec w Hw lt n a b La Lb) as [O1 E1]. destruct (vcmp_spec w Hw lt n b a Lb La) as [O2 E2].
  unfold op_min_vec, op_max_vec. rewrite !(select_bits_spec w Hw n) by auto. rewrite E1, E2.
  rewrite !(choose_nth n) by (rewrite ?zip_length; lia).
  rewrite !(zip_nth Z Z bool lt) with (d1 := 0) (d2 := 0) by lia. auto.
Qed.
