(** * hypot: accuracy *)
From Coq Require Import ZArith Lia Bool Reals Lra Psatz.
From Flocq Require Import Core Relative.
From Verif Require Import MachInt Fmt FloatSpec FmtProofs RoundProofs FPBits FPBitsProofs FOps FOpsProofs GenOpsProofs FmanipProofs ExactOps BasicProofs NextProofs Compare CompareProofs ExtFloatSpec ExtFloatProofs ExtInterp RemProofs Sqrt SqrtProofs Power Expm1Proofs.
Open Scope Z_scope.

(** One rounding in the normal range. *)
Lemma rel_n : forall F, good_fmt F -> 24 <= prec F -> forall rm z, (bpow radix2 (emin F + prec F - 1) <= Rabs z)%R -> (Rabs (fround F rm z - z) <= uF F rm * Rabs z)%R.
Proof.
  intros F HF H24 rm z L. pose proof (VE F HF) as VE'. assert (PP' : Prec_gt_0 (prec F)) by (unfold Prec_gt_0; lia). pose proof (VR rm) as VR'.
  assert (dir : (Rabs (fround F rm z - z) <= bpow radix2 (1 - prec F) * Rabs z)%R).
  { apply Rlt_le. replace (1 - prec F) with (- prec F + 1) by ring. apply (relative_error_FLT radix2 (emin F) (prec F) PP' (rnd rm) z). exact L. }
  destruct rm; auto. cbn [uF]. replace (bpow radix2 (- prec F)) with (/ 2 * bpow radix2 (- prec F + 1))%R by (rewrite bpow_plus; change (bpow radix2 1) with 2%R; field).
  apply (relative_error_N_FLT radix2 (emin F) (prec F) PP'). exact L.
Qed.

(** The real-number part: r is the ratio and u the rounding unit. *)
Lemma hypot_num : forall u eta r R Q S T, (0 < u <= / 8000000)%R -> (0 <= eta <= / 1000000 * u)%R -> (0 <= r <= 1)%R -> (0 <= R <= 1)%R -> (0 <= Q <= 1)%R -> (1 <= S <= 2)%R -> (1 <= T)%R ->
  (Rabs (R - r) <= u * r + eta)%R -> (Rabs (Q - R * R) <= u * (R * R) + eta)%R -> (Rabs (S - (1 + Q)) <= u * (1 + Q))%R -> (Rabs (T - sqrt S) <= u * sqrt S)%R ->
  (Rabs (T - sqrt (1 + r * r)) <= 23 / 10 * u * sqrt (1 + r * r))%R.
Proof.
  intros u eta r R0 Q S T Hu He Hr HR HQ HS HT E1 E2 E3 E4. apply Rabs_le_inv in E1, E2, E3, E4.
  set (t := sqrt (1 + r * r)). set (s := sqrt S) in *.
  assert (t2 : (t * t = 1 + r * r)%R) by (apply sqrt_sqrt; nra). assert (s2 : (s * s = S)%R) by (apply sqrt_sqrt; lra).
  assert (t1 : (1 <= t)%R) by (rewrite <- sqrt_1; apply sqrt_le_1_alt; nra). assert (s1 : (1 <= s)%R) by (rewrite <- sqrt_1; apply sqrt_le_1_alt; lra).
  clearbody t s.
  (* R^2 *)
  assert (rr : (0 <= r * r <= 1)%R) by nra.
  assert (ur : (0 <= u * (r * r) <= u)%R). { split; [apply Rmult_le_pos; lra|]. apply Rle_trans with (u * 1)%R; [apply Rmult_le_compat_l|]; lra. }
  assert (ur2 : (u * (r * r) <= / 8000000 * (r * r))%R) by (apply Rmult_le_compat_r; lra).
  assert (url : (0 <= u * r <= u)%R). { split; [apply Rmult_le_pos; lra|]. apply Rle_trans with (u * 1)%R; [apply Rmult_le_compat_l|]; lra. }
  assert (url2 : (u * r <= / 8000000 * r)%R) by (apply Rmult_le_compat_r; lra).
  assert (ue : (0 <= u * eta <= / 8000000 * eta)%R) by (split; [apply Rmult_le_pos|apply Rmult_le_compat_r]; lra).
  assert (ure : (0 <= u * r * eta <= / 8000000 * eta)%R) by (split; [apply Rmult_le_pos|apply Rmult_le_compat_r]; lra).
  assert (uur : (0 <= u * r * (u * r) <= / 8000000 * (u * (r * r)))%R).
  { split; [apply Rmult_le_pos; lra|]. replace (u * r * (u * r))%R with (u * (u * (r * r)))%R by ring. apply Rmult_le_compat_r; lra. }
  assert (ee : (0 <= eta * eta <= / 8000000 * eta)%R) by (split; [apply Rmult_le_pos|apply Rmult_le_compat_r]; lra).
  assert (er : (0 <= eta * r <= eta)%R). { split; [apply Rmult_le_pos; lra|]. apply Rle_trans with (eta * 1)%R; [apply Rmult_le_compat_l|]; lra. }
  assert (A1 : (Rabs (R0 * R0 - r * r) <= 2.01 * u * (r * r) + 3 * eta)%R).
  { replace (R0 * R0 - r * r)%R with ((R0 - r) * ((R0 - r) + 2 * r))%R by ring. rewrite Rabs_mult.
    apply Rle_trans with ((u * r + eta) * ((u * r + eta) + 2 * r))%R; [|lra].
    apply Rmult_le_compat; try apply Rabs_pos; [apply Rabs_le; lra|]. apply Rle_trans with (1 := Rabs_triang _ _). rewrite (Rabs_pos_eq (2 * r)) by lra.
    assert (Rabs (R0 - r) <= u * r + eta)%R by (apply Rabs_le; lra). lra. }
  apply Rabs_le_inv in A1.
  assert (A2 : (Rabs (Q - r * r) <= 3.02 * u * (r * r) + 5 * eta)%R).
  { assert (u * (R0 * R0) <= u * (1.001 * (r * r) + 3 * eta))%R by (apply Rmult_le_compat_l; lra). apply Rabs_le. lra. }
  apply Rabs_le_inv in A2.
  assert (A3 : (Rabs (S - t * t) <= 2.515 * u * (t * t))%R).
  { rewrite t2. assert (u * Q <= u * (1.001 * (r * r) + 5 * eta))%R by (apply Rmult_le_compat_l; lra). apply Rabs_le. lra. }
  assert (A4 : (Rabs (s - t) * (s + t) <= 2.515 * u * (t * t))%R).
  { rewrite <- s2 in A3. replace (s * s - t * t)%R with ((s - t) * (s + t))%R in A3 by ring. rewrite Rabs_mult, (Rabs_pos_eq (s + t)) in A3 by lra. lra. }
  pose proof (Rabs_pos (s - t)) as AP.
  assert (A5 : (Rabs (s - t) <= 2.515 * u * t)%R).
  { apply Rmult_le_reg_r with t; [lra|]. apply Rle_trans with (Rabs (s - t) * (s + t))%R; [apply Rmult_le_compat_l; lra|]. lra. }
  assert (A6 : (Rabs (s - t) <= 1.26 * u * t)%R).
  { apply Rmult_le_reg_r with (1.999 * t)%R; [lra|]. apply Rle_trans with (Rabs (s - t) * (s + t))%R.
    - apply Rmult_le_compat_l; [lra|]. apply Rabs_le_inv in A5. assert (2.515 * u * t <= 0.001 * t)%R by (apply Rmult_le_compat_r; lra). lra.
    - assert (0 <= u * (t * t))%R by (apply Rmult_le_pos; nra). lra. }
  apply Rabs_le_inv in A6. assert (B1 : (u * s <= u * (1.01 * t))%R).
  { apply Rmult_le_compat_l; [lra|]. assert (1.26 * u * t <= 0.001 * t)%R by (apply Rmult_le_compat_r; lra). lra. }
  assert (0 <= u * t)%R by (apply Rmult_le_pos; lra). apply Rabs_le. lra.
Qed.

Section Hyp.
Context (F : fmt) (HF : good_fmt F) (Hel : 3 <= el F <= 16) (H24 : 24 <= prec F) (Hem : emin F <= - 2 * prec F) (Hb : 4 <= bias F) (k : nat) (Hk : width F = 2 ^ Z.of_nat k).
Notation fexp := (FLT_exp (emin F) (prec F)).
Notation big := (bpow radix2 (bias F + 1)).

Lemma fmt_pow : forall e, emin F <= e -> generic_format radix2 fexp (bpow radix2 e).
Proof. intros e H. apply generic_format_bpow. unfold FLT_exp. lia. Qed.
Lemma small_in : forall rm z, (0 <= z <= 2)%R -> (Rabs (fround F rm z) < big)%R.
Proof. intros rm z H. apply (small_big F HF); auto. rewrite Rabs_pos_eq; lra. Qed.

(** The operands after the exchange: 0 <= Y <= X, X > 0. *)
Lemma hypot_core : forall rm x y X Y, is_real F x X -> is_real F y Y -> (0 < X)%R -> (0 <= Y <= X)%R -> forall zs,
  exists s T, cc_sqrt F rm (f_add F rm (f_of_Z F rm 1) (f_mul F rm (f_div F rm y x) (f_div F rm y x))) = Some s /\ is_real F s T /\ (1 <= T)%R /\ (Y = 0%R -> T = 1%R) /\
   (Rabs (X * T - sqrt (X * X + Y * Y)) <= 23 / 10 * uF F rm * sqrt (X * X + Y * Y))%R /\ rounded F rm (X * T) zs (f_mul F rm x s).
Proof.
  intros rm x y X Y Hx Hy X0 HY zs. pose proof (fmt_pow 0 ltac:(lia)) as G1. pose proof (fmt_pow 1 ltac:(lia)) as G2. change (bpow radix2 0) with 1%R in G1. change (bpow radix2 1) with 2%R in G2.
  pose proof (generic_format_0 radix2 fexp) as G0. pose proof (VE F HF) as VE'.
  set (r := (Y / X)%R). assert (Hr : (0 <= r <= 1)%R). { unfold r. split; [apply Rmult_le_pos; [lra|left; apply Rinv_0_lt_compat; lra]|]. apply Rmult_le_reg_r with X; auto. unfold Rdiv. rewrite Rmult_assoc, Rinv_l by lra. lra. }
  pose proof (div_r F HF rm y x Y X Hy Hx ltac:(lra) (small_in rm (Y / X) ltac:(fold r; lra))) as H1. fold r in H1. set (R0 := fround F rm r) in *.
  assert (HR : (0 <= R0 <= 1)%R) by (split; [apply (fround_ge_gen F HF)|apply (fround_le_gen F HF)]; auto; lra).
  assert (HRR : (0 <= R0 * R0 <= 1)%R) by nra.
  pose proof (mul_r F HF rm _ _ _ _ H1 H1 (small_in rm (R0 * R0) ltac:(lra))) as H2. set (Q := fround F rm (R0 * R0)) in *.
  assert (HQ : (0 <= Q <= 1)%R) by (split; [apply (fround_ge_gen F HF)|apply (fround_le_gen F HF)]; auto; lra).
  pose proof (ofz_r F HF rm 1 ltac:(rewrite <- Z.pow_le_mono_r with (b := 0); simpl; lia)) as H1'.
  pose proof (add_r F HF rm _ _ _ _ H1' H2 (small_in rm (1 + Q) ltac:(lra))) as H3. set (S := fround F rm (1 + Q)) in *.
  assert (HS : (1 <= S <= 2)%R) by (split; [apply (fround_ge_gen F HF)|apply (fround_le_gen F HF)]; auto; lra).
  destruct H3 as (P3 & F3 & V3).
  assert (S3 : sign_of F (f_add F rm (f_of_Z F rm 1) (f_mul F rm (f_div F rm y x) (f_div F rm y x))) = false).
  { rewrite (sign_fval F HF) by (auto; rewrite V3; lra). rewrite V3. apply Rlt_bool_false. lra. }
  destruct (cc_sqrt_fin F HF Hel rm k _ Hk P3 F3 S3) as (s & E & RS). rewrite V3 in RS.
  assert (S1 : (1 <= sqrt S <= 2)%R). { split; [rewrite <- sqrt_1; apply sqrt_le_1_alt; lra|]. replace 2%R with (sqrt (2 * 2)) by (apply sqrt_square; lra). apply sqrt_le_1_alt; lra. }
  destruct RS as (Ps & _ & Vs & _). destruct (Vs (small_in rm (sqrt S) ltac:(lra))) as (Fs & VS). set (T := fround F rm (sqrt S)) in *.
  assert (HT : (1 <= T)%R) by (apply (fround_ge_gen F HF); auto; lra).
  exists s, T. split; [exact E|]. split; [split; auto|]. split; [exact HT|]. split.
  { intros ->. assert (r = 0%R) by (unfold r; field; lra). assert (Er : R0 = 0%R) by (unfold R0; rewrite H; apply (fround_exact F); auto).
    assert (Eq : Q = 0%R) by (unfold Q; rewrite Er, Rmult_0_l; apply (fround_exact F); auto). assert (Es : S = 1%R) by (unfold S; rewrite Eq, Rplus_0_r; apply (fround_exact F); auto).
    unfold T. rewrite Es, sqrt_1. apply (fround_exact F); auto. }
  split.
  - assert (EH : sqrt (X * X + Y * Y) = (X * sqrt (1 + r * r))%R).
    { replace (X * X + Y * Y)%R with ((X * X) * (1 + r * r))%R by (unfold r; field; lra). rewrite sqrt_mult by nra. rewrite sqrt_square by lra. reflexivity. }
    rewrite EH. replace (X * T - X * sqrt (1 + r * r))%R with (X * (T - sqrt (1 + r * r)))%R by ring. rewrite Rabs_mult, (Rabs_pos_eq X) by lra.
    replace (23 / 10 * uF F rm * (X * sqrt (1 + r * r)))%R with (X * (23 / 10 * uF F rm * sqrt (1 + r * r)))%R by ring. apply Rmult_le_compat_l; [lra|].
    assert (N1 : forall z, (1 <= z)%R -> (bpow radix2 (emin F + prec F - 1) <= Rabs z)%R).
    { intros z Hz. rewrite Rabs_pos_eq by lra. apply Rle_trans with (2 := Hz). change 1%R with (bpow radix2 0). apply bpow_le. lia. }
    pose proof (u_le F H24 rm) as UL. change (bpow radix2 (-23)) with (/ 8388608)%R in UL.
    apply (hypot_num (uF F rm) (bpow radix2 (emin F)) r R0 Q S T); auto.
    + split; [apply (u_pos F)|lra].
    + split; [apply bpow_ge_0|apply (eta_le F H24 Hem)].
    + pose proof (rel_e F HF H24 rm r) as K. rewrite (Rabs_pos_eq r) in K by lra. exact K.
    + pose proof (rel_e F HF H24 rm (R0 * R0)) as K. rewrite (Rabs_pos_eq (R0 * R0)) in K by lra. exact K.
    + pose proof (rel_n F HF H24 rm (1 + Q) (N1 (1 + Q)%R ltac:(lra))) as K. rewrite (Rabs_pos_eq (1 + Q)) in K by lra. exact K.
    + pose proof (rel_n F HF H24 rm (sqrt S) (N1 (sqrt S) ltac:(lra))) as K. rewrite (Rabs_pos_eq (sqrt S)) in K by lra. exact K.
  - destruct Hx as (Px & Fx & Vx). pose proof (f_mul_spec F HF rm x s Fx Fs) as K. rewrite Vx, VS in K. destruct K as (K1 & K2 & K3). split; [exact K1|]. split; [|exact K3].
    rewrite Req_bool_false in * by nra. exact K2.
Qed.

(** The whole function on finite arguments. *)
Lemma abs_r : forall x, is_pattern F x -> is_fin F x = true -> is_real F (cc_abs F x) (Rabs (fval F x)).
Proof. intros x P Fi. destruct (abs_fin F HF ltac:(lia) x P Fi) as (E & A & B). rewrite E. split; [|split; auto]. exact (proj1 (fabs_pat F HF x P)). Qed.

Theorem hypot_fin : forall rm x y, is_pattern F x -> is_fin F x = true -> is_pattern F y -> is_fin F y = true ->
  let X := fval F x in let Y := fval F y in let h := sqrt (X * X + Y * Y) in
  exists b v, cc_hypot F rm x y = Some b /\ (Rabs (v - h) <= 23 / 10 * uF F rm * h)%R /\ (Rabs X <= v)%R /\ (Rabs Y <= v)%R /\ (X = 0 \/ Y = 0 -> v = h)%R /\
   rounded F rm v false b.
Proof.
  intros rm x y Px Fx Py Fy X Y h. unfold cc_hypot, cc_isinf, cc_isnan.
  rewrite !(fp_is_inf_eq F HF ltac:(lia)), !(fp_is_nan_eq F HF ltac:(lia)) by auto. rewrite !(fin_nan F), !(fin_inf F) by auto. cbn [orb].
  pose proof (abs_r x Px Fx) as Hx. pose proof (abs_r y Py Fy) as Hy. fold X in Hx. fold Y in Hy.
  pose proof (zero_r F HF) as Hz. change (f_zero F false) with 0 in Hz. destruct Hz as (Pz & Fz & Vz). pose proof (Rabs_pos X) as AX. pose proof (Rabs_pos Y) as AY.
  pose proof Hx as (Pax & Fax & Vax). pose proof Hy as (Pay & Fay & Vay).
  rewrite !(f_eq_fin F HF), Vax, Vay, Vz by auto.
  assert (EH : h = sqrt (Rabs X * Rabs X + Rabs Y * Rabs Y)). { unfold h. f_equal. rewrite <- !Rabs_mult, !Rabs_pos_eq by nra. ring. }
  destruct (Req_bool_spec (Rabs X) 0) as [EX|NX]; destruct (Req_bool_spec (Rabs Y) 0) as [EY|NY]; cbn [andb].
  - exists 0, 0%R. split; [reflexivity|]. assert (Eh : h = 0%R) by (rewrite EH, EX, EY, Rmult_0_l, Rplus_0_l; apply sqrt_0). rewrite Eh, Rminus_0_r, Rabs_R0.
    split; [lra|]. split; [lra|]. split; [lra|]. split; [reflexivity|]. apply (rounded_zero F HF rm false).
  - rewrite (f_gt_fin F HF), Vax, Vay, Rlt_bool_true by (auto; lra).
    destruct (hypot_core rm (cc_abs F y) (cc_abs F x) (Rabs Y) (Rabs X) Hy Hx ltac:(lra) ltac:(lra) false) as (s & T & E & HT & T1 & TE & HE & HR). rewrite E.
    exists (f_mul F rm (cc_abs F y) s), (Rabs Y * T)%R. split; [reflexivity|]. rewrite EH, Rplus_comm. split; [exact HE|]. split; [nra|]. split; [nra|]. split.
    + intros _. rewrite TE, Rmult_1_r, EX, Rmult_0_l, Rplus_0_r, sqrt_square by auto. reflexivity.
    + exact HR.
  - rewrite (f_gt_fin F HF), Vax, Vay, Rlt_bool_false by (auto; lra).
    destruct (hypot_core rm (cc_abs F x) (cc_abs F y) (Rabs X) (Rabs Y) Hx Hy ltac:(lra) ltac:(lra) false) as (s & T & E & HT & T1 & TE & HE & HR). rewrite E.
    exists (f_mul F rm (cc_abs F x) s), (Rabs X * T)%R. split; [reflexivity|]. rewrite EH. split; [exact HE|]. split; [nra|]. split; [nra|]. split.
    + intros _. rewrite TE, Rmult_1_r, EY, Rmult_0_l, Rplus_0_r, sqrt_square by auto. reflexivity.
    + exact HR.
  - rewrite (f_gt_fin F HF), Vax, Vay by auto. destruct (Rlt_bool_spec (Rabs X) (Rabs Y)) as [L|L].
    + destruct (hypot_core rm (cc_abs F y) (cc_abs F x) (Rabs Y) (Rabs X) Hy Hx ltac:(lra) ltac:(lra) false) as (s & T & E & HT & T1 & TE & HE & HR). rewrite E.
      exists (f_mul F rm (cc_abs F y) s), (Rabs Y * T)%R. split; [reflexivity|]. rewrite EH, Rplus_comm. split; [exact HE|]. split; [nra|]. split; [nra|]. split.
      * intros [K|K]; rewrite K, Rabs_R0 in *; lra.
      * exact HR.
    + destruct (hypot_core rm (cc_abs F x) (cc_abs F y) (Rabs X) (Rabs Y) Hx Hy ltac:(lra) ltac:(lra) false) as (s & T & E & HT & T1 & TE & HE & HR). rewrite E.
      exists (f_mul F rm (cc_abs F x) s), (Rabs X * T)%R. split; [reflexivity|]. rewrite EH. split; [exact HE|]. split; [nra|]. split; [nra|]. split.
      * intros [K|K]; rewrite K, Rabs_R0 in *; lra.
      * exact HR.
Qed.

Theorem hypot_special : forall rm x y, is_pattern F x -> is_pattern F y ->
  (is_inf F x = true \/ is_inf F y = true -> cc_hypot F rm x y = Some (inf_mag F)) /\
  (is_inf F x = false -> is_inf F y = false -> is_nan F x = true \/ is_nan F y = true -> cc_hypot F rm x y = Some (qnan F)).
Proof.
  intros rm x y Px Py. unfold cc_hypot, cc_isinf, cc_isnan. rewrite !(fp_is_inf_eq F HF ltac:(lia)), !(fp_is_nan_eq F HF ltac:(lia)) by auto. split.
  - intros H. replace (is_inf F x || is_inf F y) with true by (symmetry; apply orb_true_iff; exact H). f_equal. rewrite (fp_inf_eq F HF ltac:(lia)). reflexivity.
  - intros -> -> H. cbn [orb].
    assert (E : f_add F rm x y = qnan F).
    { unfold f_add. destruct H as [H|H]; rewrite (decode_nan F _ H); [reflexivity|]. destruct (decode F x); reflexivity. }
    destruct (is_nan F x); [rewrite E; reflexivity|]. destruct (is_nan F y); [rewrite E; reflexivity|]. destruct H; discriminate.
Qed.

Theorem hypot_sym : forall rm x y, is_pattern F x -> is_pattern F y -> cc_hypot F rm x y = cc_hypot F rm y x.
Proof.
  intros rm x y Px Py.
  destruct (is_inf F x) eqn:Ix; [rewrite (proj1 (hypot_special rm x y Px Py)), (proj1 (hypot_special rm y x Py Px)) by auto; reflexivity|].
  destruct (is_inf F y) eqn:Iy; [rewrite (proj1 (hypot_special rm x y Px Py)), (proj1 (hypot_special rm y x Py Px)) by auto; reflexivity|].
  destruct (is_nan F x) eqn:Nx; [rewrite (proj2 (hypot_special rm x y Px Py)), (proj2 (hypot_special rm y x Py Px)) by auto; reflexivity|].
  destruct (is_nan F y) eqn:Ny; [rewrite (proj2 (hypot_special rm x y Px Py)), (proj2 (hypot_special rm y x Py Px)) by auto; reflexivity|].
  unfold cc_hypot, cc_isinf, cc_isnan. rewrite !(fp_is_inf_eq F HF ltac:(lia)), !(fp_is_nan_eq F HF ltac:(lia)) by auto. rewrite Ix, Iy, Nx, Ny. cbn [orb].
  assert (Fx : is_fin F x = true) by (destruct (class_cases F x) as [|[K|K]]; auto; congruence). assert (Fy : is_fin F y = true) by (destruct (class_cases F y) as [|[K|K]]; auto; congruence).
  pose proof (abs_r x Px Fx) as (Pax & Fax & Vax). pose proof (abs_r y Py Fy) as (Pay & Fay & Vay). rewrite andb_comm. destruct (f_eq F (cc_abs F y) 0 && f_eq F (cc_abs F x) 0); [reflexivity|].
  rewrite !(f_gt_fin F HF), Vax, Vay by auto. destruct (Rlt_bool_spec (Rabs (fval F x)) (Rabs (fval F y))) as [L|L].
  - rewrite Rlt_bool_false by lra. reflexivity.
  - destruct (Rlt_bool_spec (Rabs (fval F y)) (Rabs (fval F x))) as [M|M]; [reflexivity|].
    assert (E : cc_abs F x = cc_abs F y).
    { apply (fval_inj F HF); auto; [lra|]. intros _. rewrite !(abs_eq F HF) by (auto; lia). rewrite Nx, Ny. destruct (fabs_pat F HF x Px) as (_ & -> & _). destruct (fabs_pat F HF y Py) as (_ & -> & _). reflexivity. }
    rewrite E. reflexivity.
Qed.

Lemma sqrt_lip : forall a b z, (0 <= a)%R -> (0 <= b)%R -> (Rabs (sqrt (a * a + z * z) - sqrt (b * b + z * z)) <= Rabs (a - b))%R.
Proof.
  intros a b z Ha Hb'. set (p := sqrt (a * a + z * z)). set (q := sqrt (b * b + z * z)).
  assert (Hp : (p * p = a * a + z * z)%R) by (apply sqrt_sqrt; nra). assert (Hq : (q * q = b * b + z * z)%R) by (apply sqrt_sqrt; nra).
  assert (P0 : (a <= p)%R). { unfold p. rewrite <- (sqrt_square a) at 1 by lra. apply sqrt_le_1_alt. nra. }
  assert (Q0 : (b <= q)%R). { unfold q. rewrite <- (sqrt_square b) at 1 by lra. apply sqrt_le_1_alt. nra. }
  clearbody p q. destruct (Req_dec (p + q) 0) as [E|N].
  - replace p with 0%R by lra. replace q with 0%R by lra. rewrite Rminus_0_r, Rabs_R0. apply Rabs_pos.
  - apply Rmult_le_reg_r with (p + q)%R; [lra|]. rewrite <- (Rabs_pos_eq (p + q)) at 1 by lra. rewrite <- Rabs_mult. replace ((p - q) * (p + q))%R with ((a - b) * (a + b))%R by nra.
    rewrite Rabs_mult, (Rabs_pos_eq (a + b)) by lra. apply Rmult_le_compat_l; [apply Rabs_pos|lra].
Qed.

Theorem hypot3_fin : forall rm x y z, is_pattern F x -> is_fin F x = true -> is_pattern F y -> is_fin F y = true -> is_pattern F z -> is_fin F z = true ->
  let X := fval F x in let Y := fval F y in let Z := fval F z in let h := sqrt (X * X + Y * Y + Z * Z) in (sqrt (X * X + Y * Y) <= bpow radix2 (bias F))%R ->
  exists b v, cc_hypot3 F rm x y z = Some b /\ (Rabs (v - h) <= 57 / 10 * uF F rm * h + 2 * bpow radix2 (emin F))%R /\ rounded F rm v false b.
Proof.
  intros rm x y z Px Fx Py Fy Pz Fz X Y Z h HB. destruct (hypot_fin rm x y Px Fx Py Fy) as (b & v & E & EV & L1 & _ & _ & RV). fold X Y in EV, L1. set (h2 := sqrt (X * X + Y * Y)) in *.
  pose proof (u_pos F rm) as U0. pose proof (u_le F H24 rm) as UL. change (bpow radix2 (-23)) with (/ 8388608)%R in UL.
  assert (h0 : (0 <= h2)%R) by apply sqrt_pos. pose proof (Rabs_pos X) as AX. apply Rabs_le_inv in EV.
  assert (UH : (0 <= uF F rm * h2 <= / 8388608 * h2)%R) by (split; [apply Rmult_le_pos|apply Rmult_le_compat_r]; lra).
  pose proof (bpow_gt_0 radix2 (emin F)) as EP. pose proof (bpow_gt_0 radix2 (bias F)) as BP0.
  assert (FB : (Rabs (fround F rm v) < big)%R).
  { assert (B1 : bpow radix2 (bias F + 1) = (2 * bpow radix2 (bias F))%R) by (rewrite bpow_plus; change (bpow radix2 1) with 2%R; ring).
    pose proof (rel_e F HF H24 rm v) as K. rewrite (Rabs_pos_eq v) in K by lra. apply Rabs_le_inv in K.
    assert (uF F rm * v <= / 8388608 * v)%R by (apply Rmult_le_compat_r; lra). assert (bpow radix2 (emin F) <= / 2 * bpow radix2 (bias F))%R.
    { change (/ 2)%R with (bpow radix2 (-1)). rewrite <- bpow_plus. apply bpow_le. lia. }
    rewrite B1. rewrite Rabs_pos_eq; [lra|]. apply (fround_ge_gen F HF); [apply generic_format_0|lra]. }
  pose proof (rel_e F HF H24 rm v) as K. rewrite (Rabs_pos_eq v) in K by lra. apply Rabs_le_inv in K.
  destruct RV as (Pb & _ & V & _). destruct (V FB) as (Fb & Vb).
  assert (Hv0 : (0 <= fval F b)%R) by (rewrite Vb; apply (fround_ge_gen F HF); [apply generic_format_0|lra]).
  assert (D : (Rabs (fval F b - h2) <= 331 / 100 * uF F rm * h2 + bpow radix2 (emin F))%R).
  { rewrite Vb. assert (uF F rm * v <= uF F rm * (1001 / 1000 * h2))%R by (apply Rmult_le_compat_l; lra). apply Rabs_le. lra. }
  destruct (hypot_fin rm b z Pb Fb Pz Fz) as (c & w & E' & EW & _ & _ & _ & RW). exists c, w. split; [unfold cc_hypot3; rewrite E; exact E'|]. split; [|exact RW]. fold Z in EW.
  pose proof (sqrt_lip (fval F b) h2 Z Hv0 h0) as LI. assert (Eh : sqrt (h2 * h2 + Z * Z) = h) by (unfold h2, h; rewrite sqrt_sqrt by nra; reflexivity). rewrite Eh in LI.
  set (g := sqrt (fval F b * fval F b + Z * Z)) in *. assert (g0 : (0 <= g)%R) by apply sqrt_pos.
  assert (Hh : (h2 <= h)%R) by (unfold h2, h; apply sqrt_le_1_alt; nra). clearbody g h h2.
  assert (UH' : (0 <= uF F rm * h <= / 8388608 * h)%R) by (split; [apply Rmult_le_pos|apply Rmult_le_compat_r]; lra).
  assert (UU : (uF F rm * h2 <= uF F rm * h)%R) by (apply Rmult_le_compat_l; lra).
  apply Rabs_le_inv in EW, D. assert (LI' : (Rabs (g - h) <= 331 / 100 * uF F rm * h2 + bpow radix2 (emin F))%R) by (apply Rle_trans with (1 := LI); apply Rabs_le; lra). apply Rabs_le_inv in LI'.
  assert (UG : (uF F rm * g <= uF F rm * (1001 / 1000 * h + bpow radix2 (emin F)))%R) by (apply Rmult_le_compat_l; lra).
  assert (UE : (uF F rm * bpow radix2 (emin F) <= / 8388608 * bpow radix2 (emin F))%R) by (apply Rmult_le_compat_r; lra).
  apply Rabs_le. lra.
Qed.
End Hyp.
