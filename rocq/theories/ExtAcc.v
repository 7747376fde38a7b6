(** * ccm::ext on floating-point numbers: accuracy of rcp, mix, unlerp, smoothstep *)
From Coq Require Import ZArith Lia Bool Reals Lra.
From Flocq Require Import Core Plus_error Mult_error.
From Verif Require Import MachInt Bits Fmt FloatSpec FmtProofs RoundProofs FOps FOpsProofs ExactOps
  Basic BasicProofs LerpProofs RemProofs ExtFloatSpec ExtFloat ExtFloatProofs ExtInterp ExtFract ExtCubic SimdFloatSpec SimdFloat.
Open Scope Z_scope.

Lemma smooth_lip : forall x y, (0 <= x <= 1)%R -> (0 <= y <= 1)%R ->
  (Rabs (x * x * (3 - 2 * x) - y * y * (3 - 2 * y)) <= 3 / 2 * Rabs (x - y))%R.
Proof.
  intros x y Hx Hy. replace (x * x * (3 - 2 * x) - y * y * (3 - 2 * y))%R with ((3 * (x + y) - 2 * (x * x + x * y + y * y)) * (x - y))%R by ring.
  rewrite Rabs_mult. apply Rmult_le_compat_r; [apply Rabs_pos|].
  assert (0 <= x * (3 - 2 * x - y))%R by (apply Rmult_le_pos; lra). assert (0 <= y * (3 - 2 * y - x))%R by (apply Rmult_le_pos; lra).
  pose proof (Rle_0_sqr (x + y - 1)) as Q1. pose proof (Rle_0_sqr (x - y)) as Q2. unfold Rsqr in Q1, Q2. rewrite Rabs_pos_eq; lra.
Qed.

Section Acc.
Context (F : fmt) (HF : good_fmt F) (HelF : el F <= 16).
Notation fexp := (FLT_exp (emin F) (prec F)).
Notation big := (bpow radix2 (bias F + 1)).
Notation u := (bpow radix2 (- fl F)).
Notation eta := (bpow radix2 (emin F)).

Theorem rcp_spec : forall rm x X, is_real F x X -> X <> 0%R -> rounded F rm (/ X) (sign_of F x) (rcp F rm x).
Proof.
  intros rm x X (P & Fx & <-) N. destruct (one_r F HF) as (Po & Fo & Vo). unfold rcp.
  pose proof (f_div_spec F HF rm _ x Fo Fx N) as R. rewrite Vo in R.
  assert (S : sign_of F (f_one F false) = false).
  { apply f_one_props; auto. }
  rewrite S, xorb_false_l in R. replace (/ fval F x)%R with (1 / fval F x)%R by (unfold Rdiv; ring). exact R.
Qed.

Theorem rcp_special : forall rm x,
  (is_nan F x = true -> is_nan F (rcp F rm x) = true) /\
  (is_inf F x = true -> rcp F rm x = f_zero F (sign_of F x)) /\
  (is_real F x 0 -> rcp F rm x = f_inf F (sign_of F x)).
Proof.
  intros rm x. destruct (f_one_props F HF false) as (P1 & F1 & S1 & V1 & _). unfold rcp, f_div.
  destruct (decode_fin F HF (f_one F false) F1) as (m & e & -> & Hm & _ & _ & _ & E1). rewrite S1 in *.
  assert (M0 : m <> 0) by (intros ->; rewrite V1 in E1; cbn [sg] in E1; lra).
  split; [|split].
  - intros N. rewrite (decode_nan F x N). apply (qnan_props F HF).
  - intros I. rewrite (decode_isinf F x I), xorb_false_l. reflexivity.
  - intros (P & Fx & Vx). destruct (decode_fin F HF x Fx) as (n & g & -> & Hn & _ & _ & _ & En). rewrite Vx in En.
    assert (N0 : n = 0).
    { apply eq_IZR. pose proof (bpow_gt_0 radix2 g). destruct (sign_of F x); cbn [sg] in En; apply Rmult_eq_reg_r with (bpow radix2 g); lra. }
    rewrite N0, Z.eqb_refl. destruct (Z.eqb_spec m 0); [lia|]. rewrite xorb_false_l. reflexivity.
Qed.

Context (Hfl : 6 <= fl F) (rm : rmode).
Lemma eta_le_u : (eta <= u)%R.
Proof. apply bpow_le. pose proof (bias_ge2 F HF). unfold emin. lia. Qed.

Theorem mix_err : forall x y a X Y A m, (0 <= m <= bpow radix2 (bias F - 4))%R -> is_real F x X -> is_real F y Y -> is_real F a A ->
  (Rabs X <= m)%R -> (Rabs Y <= m)%R -> (0 <= A <= 1)%R ->
  exists r, is_real F (mix F rm x y a) r /\ (Rabs (r - (X * (1 - A) + Y * A)) <= 8 * u * m + 4 * eta)%R.
Proof.
  intros x y a X Y A m Hm Rx Ry Ra MX MY HA. pose proof (one_r F HF) as R1. pose proof eta_le_u as EU. pose proof (u_le F Hfl) as U.
  pose proof (real_bound F HF _ _ R1) as B1. rewrite Rabs_R1 in B1. pose proof (real_fmt F HF _ _ R1) as G1. pose proof (generic_format_0 radix2 fexp) as G0.
  assert (SR : (0 <= fround F rm (1 - A) <= 1)%R) by (split; [apply (fround_ge_gen F HF)|apply (fround_le_gen F HF)]; auto; lra).
  assert (RS : is_real F (f_sub F rm (f_one F false) a) (fround F rm (1 - A))) by (apply (sub_r F HF); auto; apply Rabs_def1; lra).
  assert (ES : (Rabs (fround F rm (1 - A) - (1 - A)) <= 2 * u)%R).
  { eapply Rle_trans; [apply (any_err F HF)|]. rewrite Rabs_pos_eq by lra. nra. }
  pose proof (near_mul F HF Hfl rm m Hm x _ X _ (1 - A)%R 1 0 0 2 (near_real F m x X Rx) RS SR ltac:(lra) ES ltac:(lra) ltac:(lra) ltac:(lra) ltac:(lra) ltac:(lra) ltac:(lra)) as N1.
  assert (EA : (Rabs (A - A) <= 0 * u)%R) by (replace (A - A)%R with 0%R by ring; rewrite Rabs_R0; lra).
  pose proof (near_mul F HF Hfl rm m Hm y a Y A A 1 0 0 0 (near_real F m y Y Ry) Ra HA HA EA ltac:(lra) ltac:(lra) ltac:(lra) ltac:(lra) ltac:(lra) ltac:(lra)) as N2.
  assert (B : (Rabs (X * (1 - A) + Y * A) <= 1 * m)%R).
  { eapply Rle_trans; [apply Rabs_triang|]. rewrite !Rabs_mult, (Rabs_pos_eq (1 - A)), (Rabs_pos_eq A) by lra. nra. }
  pose proof (near_add F HF Hfl rm m Hm _ _ _ _ 1 _ _ _ _ N1 N2 B ltac:(lra) ltac:(lra) ltac:(lra)) as (r & Rr & Er).
  exists r. split; [exact Rr|]. eapply Rle_trans; [exact Er|]. assert (0 <= u * m)%R by (apply Rmult_le_pos; lra). pose proof (bpow_gt_0 radix2 (emin F)). lra.
Qed.

Lemma diff_err : forall a b A B, is_real F a A -> is_real F b B -> (Rabs (A - B) <= bpow radix2 (bias F))%R ->
  exists d, is_real F (f_sub F rm a b) ((A - B) * (1 + d)) /\ (Rabs d <= u)%R.
Proof.
  intros a b A B Ra Rb H. pose proof (real_fmt F HF a A Ra) as GA. pose proof (real_fmt F HF b B Rb) as GB.
  pose proof (SimdFloat.plus_err F HF rm A (- B) GA (generic_format_opp _ _ _ GB)) as E. replace (A + - B)%R with (A - B)%R in E by ring.
  pose proof (u_le F Hfl) as U.
  assert (UF : (SimdFloatSpec.ulpfac F rm <= u)%R) by (destruct rm; unfold SimdFloatSpec.ulpfac; apply bpow_le; unfold prec; lia).
  assert (C : big = (2 * bpow radix2 (bias F))%R) by (change 2%R with (bpow radix2 1); rewrite <- bpow_plus; f_equal; lia).
  pose proof (bpow_gt_0 radix2 (bias F)) as BP. pose proof (Rabs_pos (A - B)) as AP.
  assert (E2 : (Rabs (fround F rm (A - B) - (A - B)) <= u * Rabs (A - B))%R) by (eapply Rle_trans; [exact E|apply Rmult_le_compat_r; auto]).
  assert (R : is_real F (f_sub F rm a b) (fround F rm (A - B))).
  { apply (sub_r F HF); auto. replace (fround F rm (A - B)) with ((A - B) + (fround F rm (A - B) - (A - B)))%R by ring.
    eapply Rle_lt_trans; [apply Rabs_triang|]. nra. }
  destruct (Req_dec (A - B) 0) as [Z|Z].
  - exists 0%R. rewrite Rabs_R0. split; [|lra]. rewrite Z in *. rewrite (fround_exact F rm 0 (generic_format_0 _ _)) in R. rewrite Rmult_0_l. exact R.
  - exists ((fround F rm (A - B) - (A - B)) / (A - B))%R. split.
    + replace ((A - B) * (1 + (fround F rm (A - B) - (A - B)) / (A - B)))%R with (fround F rm (A - B)) by (field; auto). exact R.
    + unfold Rdiv. rewrite Rabs_mult, Rabs_inv. apply Rmult_le_reg_r with (Rabs (A - B)); [apply Rabs_pos_lt; auto|]. rewrite Rmult_assoc, Rinv_l, Rmult_1_r; auto. apply Rabs_no_R0; auto.
Qed.

Theorem unlerp_err : forall s e v S E V, is_real F s S -> is_real F e E -> is_real F v V -> S <> E ->
  (Rabs (E - S) <= bpow radix2 (bias F))%R -> (Rabs (V - S) <= bpow radix2 (bias F))%R -> (Rabs ((V - S) / (E - S)) <= bpow radix2 (bias F))%R ->
  exists r, is_real F (unlerp F rm s e v) r /\ (Rabs (r - (V - S) / (E - S)) <= 4 * u * Rabs ((V - S) / (E - S)) + eta)%R.
Proof.
  intros s e v S E V Rs Re Rv N HE HV HQ. pose proof (u_le F Hfl) as U. pose proof (bpow_gt_0 radix2 (emin F)) as EP.
  destruct (diff_err v s V S Rv Rs HV) as (a & Ra & Ha). destruct (diff_err e s E S Re Rs HE) as (b & Rb & Hb).
  set (Q := ((V - S) / (E - S))%R) in *. apply Rabs_le_inv in Ha, Hb. pose proof (Rabs_pos Q) as QP.
  assert (D0 : (E - S <> 0)%R) by lra. assert (B0 : (1 + b <> 0)%R) by lra.
  set (q := ((V - S) * (1 + a) / ((E - S) * (1 + b)))%R).
  assert (Eq : (q - Q = Q * ((a - b) / (1 + b)))%R) by (unfold q, Q; field; auto).
  assert (AB : (Rabs ((a - b) / (1 + b)) <= 128 / 63 * u)%R).
  { unfold Rdiv at 1. rewrite Rabs_mult, Rabs_inv, (Rabs_pos_eq (1 + b)) by lra. apply Rmult_le_reg_r with (1 + b)%R; [lra|].
    rewrite Rmult_assoc, Rinv_l, Rmult_1_r by auto. apply Rabs_le. split; nra. }
  assert (E1 : (Rabs (q - Q) <= 128 / 63 * u * Rabs Q)%R) by (rewrite Eq, Rabs_mult, Rmult_comm; apply Rmult_le_compat_r; auto).
  assert (Aq : (Rabs q <= Rabs Q + 128 / 63 * u * Rabs Q)%R) by (replace q with (Q + (q - Q))%R at 1 by ring; eapply Rle_trans; [apply Rabs_triang|lra]).
  pose proof (any_err F HF rm q) as E2. set (W := (u * Rabs Q)%R) in *.
  assert (W0 : (0 <= W <= Rabs Q / 64)%R) by (unfold W; nra).
  assert (UQ : (u * Rabs q <= W + / 64 * (128 / 63 * W))%R).
  { apply Rle_trans with (u * (Rabs Q + 128 / 63 * u * Rabs Q))%R; [apply Rmult_le_compat_l; lra|].
    replace (u * (Rabs Q + 128 / 63 * u * Rabs Q))%R with (W + u * (128 / 63 * W))%R by (unfold W; ring). apply Rplus_le_compat_l, Rmult_le_compat_r; lra. }
  assert (E1' : (Rabs (q - Q) <= 128 / 63 * W)%R) by (unfold W; lra).
  assert (T : (Rabs (fround F rm q - Q) <= 4 * u * Rabs Q + eta)%R).
  { replace (fround F rm q - Q)%R with ((fround F rm q - q) + (q - Q))%R by ring. eapply Rle_trans; [apply Rabs_triang|].
    replace (4 * u * Rabs Q)%R with (4 * W)%R by (unfold W; ring). lra. }
  exists (fround F rm q). split; [|exact T]. unfold unlerp. apply (div_r F HF); [exact Ra|exact Rb| |].
  - apply Rmult_integral_contrapositive; auto.
  - fold q. replace (fround F rm q) with (Q + (fround F rm q - Q))%R by ring. eapply Rle_lt_trans; [apply Rabs_triang|].
    assert (C : big = (2 * bpow radix2 (bias F))%R) by (change 2%R with (bpow radix2 1); rewrite <- bpow_plus; f_equal; lia).
    assert (L : (eta <= / 4 * bpow radix2 (bias F))%R). { change (/ 4)%R with (bpow radix2 (-2)). rewrite <- bpow_plus. apply bpow_le. pose proof (bias_ge2 F HF). unfold emin. lia. }
    replace (4 * u * Rabs Q)%R with (4 * W)%R in T by (unfold W; ring). pose proof (bpow_gt_0 radix2 (bias F)). lra.
Qed.

Definition clamp01 (q : R) : R := Rmin (Rmax q 0) 1.
Theorem smoothstep_err : forall s e v S E V, is_real F s S -> is_real F e E -> is_real F v V -> S <> E ->
  (Rabs (E - S) <= bpow radix2 (bias F))%R -> (Rabs (V - S) <= bpow radix2 (bias F))%R -> (Rabs ((V - S) / (E - S)) <= bpow radix2 (bias F))%R ->
  let c := clamp01 ((V - S) / (E - S)) in
  exists r, is_real F (smoothstep F rm s e v) r /\ (Rabs (r - c * c * (3 - 2 * c)) <= 24 * u)%R.
Proof.
  intros s e v S E V Rs Re Rv N HE HV HQ c. pose proof (u_le F Hfl) as U. pose proof eta_le_u as EU. pose proof (bpow_gt_0 radix2 (emin F)) as EP.
  destruct (unlerp_err s e v S E V Rs Re Rv N HE HV HQ) as (q & Rq & Eq). set (Q := ((V - S) / (E - S))%R) in *.
  pose proof Rq as (Pq & Fq & Vq). destruct (saturate_spec F HF HelF _ Pq) as (Rx & X01 & VX & _). specialize (VX Fq). rewrite Vq in VX.
  set (x := saturate F (unlerp F rm s e v)) in *. set (X := fval F x) in *.
  assert (C01 : (0 <= c <= 1)%R) by (unfold c, clamp01, Rmin, Rmax; repeat destruct Rle_dec; lra).
  assert (XC : (Rabs (X - c) <= 5 * u)%R).
  { apply Rabs_le_inv in Eq. rewrite VX. unfold c, clamp01. destruct (Rle_or_lt 0 Q) as [L|L].
    - rewrite (Rabs_pos_eq Q) in Eq by auto. destruct (Rle_or_lt Q 1) as [L1|L1].
      + assert (u * Q <= u)%R by nra. apply Rabs_le. unfold Rmin, Rmax. repeat destruct Rle_dec; lra.
      + assert (Q - 4 * u * Q >= 1 - 4 * u)%R by nra. apply Rabs_le. unfold Rmin, Rmax. repeat destruct Rle_dec; lra.
    - rewrite (Rabs_left Q) in Eq by auto. assert (Q + 4 * u * - Q <= 0)%R by nra. apply Rabs_le. unfold Rmin, Rmax. repeat destruct Rle_dec; lra. }
  pose proof (prec_ge F HF) as PG. pose proof (ofz_r F HF rm 3 ltac:(lia)) as H3. pose proof (ofz_r F HF rm 2 ltac:(lia)) as H2.
  assert (BB : (4 <= big)%R) by (change 4%R with (bpow radix2 2); apply bpow_le; pose proof (bias_ge2 F HF); lia).
  pose proof (any_err F HF rm (X * X)) as ES. pose proof (any_err F HF rm (3 - 2 * X)) as EW.
  assert (X2 : (0 <= X * X <= 1)%R) by nra. rewrite (Rabs_pos_eq (X * X)) in ES by lra. rewrite (Rabs_pos_eq (3 - 2 * X)) in EW by lra.
  set (SS := fround F rm (X * X)) in *. set (W := fround F rm (3 - 2 * X)) in *.
  assert (ES' : (Rabs (SS - X * X) <= 2 * u)%R) by nra. assert (EW' : (Rabs (W - (3 - 2 * X)) <= 4 * u)%R) by nra.
  assert (RS : is_real F (f_mul F rm x x) SS) by (apply (mul_r F HF); auto; fold SS; apply Rabs_le_inv in ES'; apply Rabs_def1; lra).
  assert (TW : is_real F (f_mul F rm (f_of_Z F rm 2) x) (2 * X)).
  { eapply (mul_x F HF); [exact H2|exact Rx|ring| |apply Rabs_def1; lra]. pose proof (real_fmt F HF x X Rx) as GX.
    replace (2 * X)%R with (X * bpow radix2 1)%R by (change (bpow radix2 1) with 2%R; ring). apply mult_bpow_pos_exact_FLT; [auto|lia]. }
  assert (RW : is_real F (f_sub F rm (f_of_Z F rm 3) (f_mul F rm (f_of_Z F rm 2) x)) W) by (apply (sub_r F HF); auto; fold W; apply Rabs_le_inv in EW'; apply Rabs_def1; lra).
  pose proof (cubic_le_1 X X01) as P1. assert (P0 : (0 <= X * X * (3 - 2 * X))%R) by (apply Rmult_le_pos; lra).
  set (P := (X * X * (3 - 2 * X))%R) in *.
  assert (EZ : (Rabs (SS * W - P) <= 11 * u)%R).
  { replace (SS * W - P)%R with ((SS - X * X) * W + X * X * (W - (3 - 2 * X)))%R by (unfold P; ring). eapply Rle_trans; [apply Rabs_triang|].
    assert (AW : (Rabs W <= 3 + / 16)%R) by (apply Rabs_le_inv in EW'; apply Rabs_le; lra). rewrite (Rabs_mult (SS - X * X)), (Rabs_mult (X * X)), (Rabs_pos_eq (X * X)) by lra.
    pose proof (Rabs_pos W). pose proof (Rabs_pos (SS - X * X)). pose proof (Rabs_pos (W - (3 - 2 * X))).
    assert (Rabs (SS - X * X) * Rabs W <= (2 * u) * (3 + / 16))%R by (apply Rmult_le_compat; lra).
    assert (X * X * Rabs (W - (3 - 2 * X)) <= 1 * (4 * u))%R by (apply Rmult_le_compat; lra). lra. }
  pose proof (any_err F HF rm (SS * W)) as ER. assert (AZ : (Rabs (SS * W) <= 1 + 11 * u)%R) by (apply Rabs_le_inv in EZ; apply Rabs_le; lra).
  assert (UZ : (u * Rabs (SS * W) <= u * (1 + 11 / 64))%R) by (apply Rmult_le_compat_l; lra).
  pose proof (smooth_lip X c X01 C01) as LP. fold P in LP.
  assert (T : (Rabs (fround F rm (SS * W) - P) <= 14 * u)%R).
  { replace (fround F rm (SS * W) - P)%R with ((fround F rm (SS * W) - SS * W) + (SS * W - P))%R by ring. eapply Rle_trans; [apply Rabs_triang|]. lra. }
  exists (fround F rm (SS * W)). split.
  - unfold smoothstep. cbv zeta. fold (unlerp F rm s e v). fold (saturate F (unlerp F rm s e v)). fold x. apply (mul_r F HF); auto.
    apply Rabs_le_inv in T. apply Rabs_def1; lra.
  - replace (fround F rm (SS * W) - c * c * (3 - 2 * c))%R with ((fround F rm (SS * W) - P) + (P - c * c * (3 - 2 * c)))%R by ring. eapply Rle_trans; [apply Rabs_triang|]. lra.
Qed.
End Acc.
