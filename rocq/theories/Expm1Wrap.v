(** * expm1: accuracy of the whole function *)
From Coq Require Import ZArith Lia Bool Reals Lra List.
From Flocq Require Import Core Relative Mult_error.
From Interval Require Import Tactic.
From Verif Require Import MachInt Fmt FloatSpec FmtProofs RoundProofs FOps FOpsProofs ExactOps NextProofs ExtFloatSpec ExtFloatProofs ExtInterp RemProofs LerpProofs FmanipWide ErrLib ExpoData ExpoDataD ExpoF ExpD ExpM1 Exp2fProofs ExpoFWrap ExpfProofs LogfWrap ExpDProofs ExpDWrap TaylorExp Expm1Proofs.
Import ListNotations.
Open Scope Z_scope.

(** *** The Taylor polynomial *)
Lemma facts : INR (fact 0) = 1%R /\ INR (fact 1) = 1%R /\ INR (fact 2) = 2%R /\ INR (fact 3) = 6%R /\ INR (fact 4) = 24%R /\ INR (fact 5) = 120%R /\
  INR (fact 6) = 720%R /\ INR (fact 7) = 5040%R /\ INR (fact 8) = 40320%R /\ INR (fact 9) = 362880%R.
Proof.
  assert (S' : forall n a b, INR (fact n) = a -> (INR (S n) * a = b)%R -> INR (fact (S n)) = b) by (intros n a b H <-; rewrite fact_simpl, mult_INR, H; reflexivity).
  assert (H0 : INR (fact 0) = 1%R) by reflexivity.
  assert (H1 : INR (fact 1) = 1%R) by (apply (S' _ _ _ H0); cbn [INR]; lra).
  assert (H2 : INR (fact 2) = 2%R) by (apply (S' _ _ _ H1); cbn [INR]; lra).
  assert (H3 : INR (fact 3) = 6%R) by (apply (S' _ _ _ H2); cbn [INR]; lra).
  assert (H4 : INR (fact 4) = 24%R) by (apply (S' _ _ _ H3); cbn [INR]; lra).
  assert (H5 : INR (fact 5) = 120%R) by (apply (S' _ _ _ H4); cbn [INR]; lra).
  assert (H6 : INR (fact 6) = 720%R) by (apply (S' _ _ _ H5); cbn [INR]; lra).
  assert (H7 : INR (fact 7) = 5040%R) by (apply (S' _ _ _ H6); cbn [INR]; lra).
  assert (H8 : INR (fact 8) = 40320%R) by (apply (S' _ _ _ H7); cbn [INR]; lra).
  assert (H9 : INR (fact 9) = 362880%R) by (apply (S' _ _ _ H8); cbn [INR]; lra).
  repeat split; assumption.
Qed.
Definition E5 : list R := [/ 2; / 6; / 24; / 120; / 720]%R.
Definition E7 : list R := [/ 2; / 6; / 24; / 120; / 720; / 5040; / 40320]%R.
Lemma tay1 : forall X, (Rabs X <= / 8)%R -> (Rabs (exp X - 1 - X) <= / 14 * Rabs X)%R.
Proof.
  intros X H. pose proof (taylor_err 1 X H) as T. destruct facts as (F0 & F1 & F2 & _). cbn [sum_f_R0 pow] in T. rewrite F0, F1, F2 in T.
  replace (exp X - (1 / 1 + X * 1 / 1))%R with (exp X - 1 - X)%R in T by field. pose proof (Rabs_pos X).
  assert (Rabs X * Rabs X <= / 8 * Rabs X)%R by (apply Rmult_le_compat_r; lra). lra.
Qed.
Lemma tay6 : forall X, (Rabs X <= / 8)%R -> (Rabs (exp X - 1 - (X + X * X * hr X E5)) <= 8 / 7 * (Rabs X ^ 7 / 5040))%R.
Proof.
  intros X H. pose proof (taylor_err 6 X H) as T. destruct facts as (F0 & F1 & F2 & F3 & F4 & F5 & F6 & F7 & _).
  cbn [sum_f_R0] in T. rewrite F0, F1, F2, F3, F4, F5, F6, F7 in T. cbn [hr E5].
  eapply Rle_trans; [|exact T]. right. f_equal. field.
Qed.
Lemma tay8 : forall X, (Rabs X <= / 8)%R -> (Rabs (exp X - 1 - (X + X * X * hr X E7)) <= 8 / 7 * (Rabs X ^ 9 / 362880))%R.
Proof.
  intros X H. pose proof (taylor_err 8 X H) as T. destruct facts as (F0 & F1 & F2 & F3 & F4 & F5 & F6 & F7 & F8 & F9).
  cbn [sum_f_R0] in T. rewrite F0, F1, F2, F3, F4, F5, F6, F7, F8, F9 in T. cbn [hr E7].
  eapply Rle_trans; [|exact T]. right. f_equal. field.
Qed.

Section Gen.
Context (F : fmt) (HF : good_fmt F) (H24 : 24 <= prec F) (Hem : emin F <= - 2 * prec F) (Hb : 4 <= bias F).
Context (Hi : forall s, is_nan F (f_inf F s) = false /\ mag_of F (f_inf F s) = inf_mag F).
Local Notation big := (bpow radix2 (bias F + 1)).
Local Notation u := (uF F).
Local Notation eta := (bpow radix2 (emin F)).
Lemma ne_inf : forall x s, is_fin F x = true -> f_eq F x (f_inf F s) = false.
Proof.
  intros x s Fi. destruct (Hi s) as [N M]. unfold f_eq, f_cmp. rewrite N, M, orb_false_r. unfold is_fin in Fi. apply Z.ltb_lt in Fi. pose proof (mag_range F HF x).
  destruct (is_nan F x); [reflexivity|]. destruct (Z.compare_spec (szval (sign_of F x) (mag_of F x)) (szval (sign_of F (f_inf F s)) (inf_mag F))) as [E|E|E]; auto.
  unfold szval in E. destruct (sign_of F x), (sign_of F (f_inf F s)); lia.
Qed.
Context (quarter sixteenth half two mone : Z) (cs : list Z) (kernel : rmode -> Z -> Z).
Context (Rq : is_real F quarter (/ 4)) (Rs : is_real F sixteenth (/ 16)) (Rh : is_real F half (/ 2)) (Rt : is_real F two 2).
Lemma neg_rl : forall a A, is_real F a A -> is_real F (f_neg F a) (- A).
Proof. intros a A (P & Fi & <-). destruct (f_neg_props F HF a P) as (P' & _ & _ & F' & V'). split; [auto|split; [rewrite F'; auto|auto]]. Qed.
Local Notation fn := (expm1_gen F quarter sixteenth half two mone cs kernel).
Definition mid (rm : rmode) (x : Z) : Z := let t := expm1_series F cs rm (f_mul F rm x half) in f_mul F rm t (f_add F rm t two).
Lemma gen_cases : forall rm x X, is_real F x X -> X <> 0%R -> fn rm x =
  (if Rle_bool (/ 4) (Rabs X) then kernel rm x else if Rlt_bool (/ 16) (Rabs X) then mid rm x else expm1_series F cs rm x).
Proof.
  intros rm x X Hx N. pose proof Hx as (P & Fi & V). unfold expm1_gen. destruct (real_nan_inf F x X Hx) as [-> _]. rewrite !ne_inf by auto.
  destruct (zero_r F HF) as (_ & Z1 & Z2). rewrite (f_eq_fin F HF), Z2, V, Req_bool_false by auto.
  destruct Rq as (_ & Q1 & Q2). destruct (neg_rl _ _ Rq) as (_ & Q3 & Q4). destruct Rs as (_ & S1 & S2). destruct (neg_rl _ _ Rs) as (_ & S3 & S4).
  rewrite (f_ge_fin F HF), (f_le_fin F HF), (f_gt_fin F HF), (f_lt_fin F HF), Q2, Q4, S2, S4, V by auto. fold (mid rm x).
  replace (Rle_bool (/ 4) X || Rle_bool X (- / 4)) with (Rle_bool (/ 4) (Rabs X)).
  2: { destruct (Rle_bool_spec (/ 4) (Rabs X)) as [L|L]; symmetry.
    - destruct (Rle_lt_dec 0 X); [rewrite Rabs_pos_eq in L by auto; rewrite (Rle_bool_true (/ 4)) by auto; reflexivity|].
      rewrite Rabs_left in L by auto. rewrite (Rle_bool_true X) by lra. apply orb_true_r.
    - apply Rabs_def2 in L. rewrite !Rle_bool_false by lra. reflexivity. }
  replace (Rlt_bool (/ 16) X || Rlt_bool X (- / 16)) with (Rlt_bool (/ 16) (Rabs X)).
  2: { destruct (Rlt_bool_spec (/ 16) (Rabs X)) as [L|L]; symmetry.
    - destruct (Rle_lt_dec 0 X); [rewrite Rabs_pos_eq in L by auto; rewrite (Rlt_bool_true (/ 16)) by auto; reflexivity|].
      rewrite Rabs_left in L by auto. rewrite (Rlt_bool_true X) by lra. apply orb_true_r.
    - apply Rabs_le_inv in L. rewrite !Rlt_bool_false by lra. reflexivity. }
  reflexivity.
Qed.
(** The part between 1/16 and 1/4. *)
Lemma mid_e : forall rm x X c, is_real F x X -> (/ 16 < Rabs X < / 4)%R -> (0 <= c <= / 1000000)%R ->
  (forall h H, is_real F h H -> (Rabs H <= / 8)%R -> exists v, is_real F (expm1_series F cs rm h) (fround F rm v) /\ (Rabs (v - (exp H - 1)) <= c * Rabs H + 2 * eta)%R) ->
  exists v zs, rounded F rm v zs (mid rm x) /\ (Rabs (v - (exp X - 1)) <= (1.17 * c + 2.1 * u rm) * Rabs (exp X - 1))%R.
Proof.
  intros rm x X c Hx HX Hc Ser. pose proof (u_pos F rm) as UP. pose proof (eta_le F H24 Hem rm) as EL. pose proof (bpow_gt_0 radix2 (emin F)) as EP. pose proof (u_le F H24 rm) as UL. assert (U0 : (u rm <= / 8000000)%R) by (bpn_in UL; lra).
  set (H := (X * / 2)%R). assert (AH : (/ 32 < Rabs H < / 8)%R) by (unfold H; rewrite Rabs_mult, (Rabs_pos_eq (/ 2)) by lra; lra).
  assert (RH : is_real F (f_mul F rm x half) H).
  { apply (mul_x F HF rm x half X (/ 2)); auto.
    - pose proof (real_fmt F HF _ _ Hx) as G. unfold H. change (/ 2)%R with (bpow radix2 (-1)). apply mult_bpow_exact_FLT; auto.
      assert (-4 < mag radix2 X) by (apply mag_gt_bpow; bpn; lra). lia.
    - apply Rlt_trans with (/ 8)%R; [lra|]. apply Rlt_trans with (bp 2); [bpn; lra|apply bpow_lt; lia]. }
  destruct (Ser _ _ RH ltac:(lra)) as (v & RT & EV). unfold mid. set (t := expm1_series F cs rm (f_mul F rm x half)) in *.
  pose proof (tay1 H ltac:(lra)) as T1. set (s := (exp H - 1)%R) in *.
  assert (SH : (13 / 14 * Rabs H <= Rabs s <= 15 / 14 * Rabs H)%R).
  { pose proof (Rabs_triang_inv s H). pose proof (Rabs_triang (s - H) H) as TR. replace (s - H + H)%R with s in TR by ring. pose proof (Rabs_triang_inv H s) as T3. rewrite (Rabs_minus_sym H s) in T3. lra. }
  assert (DE : (exp X - 1 = s * (s + 2))%R). { replace X with (H + H)%R by (unfold H; field). rewrite exp_plus. unfold s. ring. }
  assert (SB : (- 0.134 <= s <= 0.134)%R) by (split; [apply Rle_trans with (- Rabs s)%R; [lra|pose proof (Rle_abs (- s)) as Q0; rewrite Rabs_Ropp in Q0; lra]|apply Rle_trans with (Rabs s); [apply Rle_abs|lra]]).
  set (A := Rabs s) in *. assert (A0 : (0.029 <= A <= 0.134)%R) by lra.
  assert (UA : (0.029 * u rm <= u rm * A <= / 8000000 * A)%R) by (split; [rewrite Rmult_comm; apply Rmult_le_compat_l; lra|apply Rmult_le_compat_r; lra]).
  assert (CA : (c * Rabs H <= 14 / 13 * (c * A))%R) by (rewrite <- Rmult_assoc, (Rmult_comm _ c), Rmult_assoc; apply Rmult_le_compat_l; lra).
  assert (CA1 : (0 <= c * A <= / 1000000 * A)%R) by (split; [apply Rmult_le_pos; lra|apply Rmult_le_compat_r; lra]).
  assert (E1 : (Rabs (v - s) <= 14 / 13 * (c * A) + 0.0001 * (u rm * A))%R) by lra.
  assert (AV : (Rabs v <= 1.001 * A)%R). { replace v with (v - s + s)%R by ring. apply Rle_trans with (1 := Rabs_triang _ _). fold A. lra. }
  pose proof (rel_e F HF H24 rm v) as RE. set (tt := fround F rm v) in *.
  assert (UV : (u rm * Rabs v <= 1.001 * (u rm * A))%R) by (rewrite <- Rmult_assoc, (Rmult_comm _ (u rm)), Rmult_assoc; apply Rmult_le_compat_l; lra).
  assert (DL : (Rabs (tt - s) <= 14 / 13 * (c * A) + 1.0012 * (u rm * A))%R).
  { replace (tt - s)%R with ((tt - v) + (v - s))%R by ring. apply Rle_trans with (1 := Rabs_triang _ _). lra. }
  set (del := (14 / 13 * (c * A) + 1.0012 * (u rm * A))%R) in *. assert (D0 : (0 <= del <= / 500000 * A)%R) by (unfold del; lra).
  assert (TB : (s - del <= tt <= s + del)%R) by (apply Rabs_le_inv in DL; lra).
  destruct (add_s F HF H24 Hem Hb rm t two tt 2 RT Rt) as (w & RW & EW). { apply Rabs_le; lra. }
  set (q := (s + 2)%R) in *. assert (QB : (1.866 <= q <= 2.134)%R) by (unfold q; lra).
  assert (EW2 : (Rabs (w - (tt + 2)) <= 1.001 * u rm * q)%R).
  { apply Rle_trans with (1 := EW). rewrite (Rabs_pos_eq (tt + 2)) by lra. assert (u rm * (tt + 2) <= 1.0001 * (u rm * q))%R.
    { rewrite <- Rmult_assoc, (Rmult_comm _ (u rm)), Rmult_assoc. apply Rmult_le_compat_l; [lra|]. unfold q. lra. }
    assert (eta <= 0.0001 * (u rm * q))%R. { assert (u rm * 1.866 <= u rm * q)%R by (apply Rmult_le_compat_l; lra). lra. } lra. }
  assert (UQ : (0 <= u rm * q <= / 3000000)%R) by (split; [apply Rmult_le_pos; lra|apply Rle_trans with (/ 8000000 * 2.134)%R; [apply Rmult_le_compat; lra|lra]]).
  assert (WB : (Rabs w <= 1.001 * q)%R).
  { apply Rabs_le_inv in EW2. apply Rabs_le. unfold q in *. lra. }
  exists (tt * w)%R. eexists. split.
  - destruct RT as (PT & FT & VT). destruct RW as (PW & FW & VW). rewrite <- VT, <- VW. apply (f_mul_spec F HF); auto.
  - rewrite DE. replace (tt * w - s * q)%R with ((tt - s) * w + s * ((w - (tt + 2)) + (tt - s)))%R by (unfold q; ring).
    apply Rle_trans with (1 := Rabs_triang _ _). rewrite !Rabs_mult. fold A. rewrite (Rabs_pos_eq q) by lra.
    apply Rle_trans with (del * (1.001 * q) + A * (1.001 * u rm * q + del))%R.
    + apply Rplus_le_compat; [apply Rmult_le_compat; auto; apply Rabs_pos|]. apply Rmult_le_compat_l; [lra|]. apply Rle_trans with (1 := Rabs_triang _ _). lra.
    + assert (A * del <= 0.072 * (del * q))%R. { rewrite (Rmult_comm A), <- Rmult_assoc, (Rmult_comm _ del), Rmult_assoc. apply Rmult_le_compat_l; lra. }
      apply Rle_trans with (1.073 * (del * q) + 1.001 * (u rm * A) * q)%R; [lra|].
      replace ((1.17 * c + 2.1 * u rm) * (A * q))%R with ((1.17 * (c * A) + 2.1 * (u rm * A)) * q)%R by ring.
      replace (1.073 * (del * q) + 1.001 * (u rm * A) * q)%R with ((1.073 * del + 1.001 * (u rm * A)) * q)%R by ring.
      apply Rmult_le_compat_r; [lra|]. unfold del. lra.
Qed.
End Gen.

Lemma exp_ratio : forall X, (/ 4 <= Rabs X)%R -> (exp X <= 4.6 * Rabs (exp X - 1) /\ 0.22 <= Rabs (exp X - 1))%R.
Proof.
  intros X H. destruct (Rle_lt_dec 0 X) as [L|L].
  - rewrite Rabs_pos_eq in H by auto. assert (E : (exp (/ 4) <= exp X)%R) by (destruct H as [H|H]; [left; apply exp_increasing; auto|rewrite H; lra]).
    assert (1.28 <= exp (/ 4))%R by interval with (i_prec 60). rewrite Rabs_pos_eq by lra. lra.
  - rewrite Rabs_left in H by auto. assert (E : (exp X <= exp (- / 4))%R) by (destruct (Req_dec X (- / 4)) as [->|]; [lra|left; apply exp_increasing; lra]).
    assert (exp (- / 4) <= 0.779)%R by interval with (i_prec 60). rewrite Rabs_left by lra. lra.
Qed.
Lemma pow_le_b : forall X b n, (Rabs X <= b)%R -> (Rabs X ^ S n <= b ^ n * Rabs X)%R.
Proof. intros X b n H. cbn [pow]. rewrite Rmult_comm. apply Rmult_le_compat_r; [apply Rabs_pos|]. apply pow_incr. split; [apply Rabs_pos|auto]. Qed.
Lemma sq_le_b : forall X b, (Rabs X <= b)%R -> (0 <= X * X <= b * Rabs X)%R.
Proof. intros X b H. split; [apply Rle_0_sqr|]. rewrite <- (Rabs_pos_eq (X * X)) by apply Rle_0_sqr. rewrite Rabs_mult. apply Rmult_le_compat_r; [apply Rabs_pos|auto]. Qed.
(** From a bound relative to X to one relative to e^X - 1. *)
Lemma rel_conv : forall X, (Rabs X <= / 8)%R -> (Rabs X <= 14 / 13 * Rabs (exp X - 1))%R.
Proof. intros X H. pose proof (tay1 X H) as T. pose proof (Rabs_triang_inv X (exp X - 1)) as T3. rewrite (Rabs_minus_sym X) in T3. lra. Qed.

(** *** float *)
Definition C5 : list R := [IZR 1 * bp (-1); IZR 0xaaaaab * bp (-26); IZR 0xaaaaab * bp (-28); IZR 0x888889 * bp (-30); IZR 0xb60b61 * bp (-33)]%R.
Lemma ser32 : forall rm x X, is_real F32 x X -> (Rabs X <= / 8)%R -> exists v, is_real F32 (expm1_series F32 expm1f_cs rm x) (fround F32 rm v) /\
  (exists zs, rounded F32 rm v zs (expm1_series F32 expm1f_cs rm x)) /\ (Rabs (v - (exp X - 1)) <= 2.2 * uF F32 rm * (X * X) + 2 * bp (-149) + 8 / 7 * (Rabs X ^ 7 / 5040))%R.
Proof.
  intros rm x X Hx HX. assert (UL : (bp (-24) <= uF F32 rm)%R) by (destruct rm; apply bpow_le; vm_compute; congruence).
  destruct (series_e F32 good32 ltac:(vm_compute; congruence) ltac:(vm_compute; congruence) ltac:(vm_compute; congruence) rm x X expm1f_cs C5 E5 Hx HX) as (T & R1 & R2 & ET).
  - unfold expm1f_cs, C5. repeat constructor; apply litf_r; lia.
  - discriminate.
  - unfold C5. repeat constructor; bpn; lra.
  - unfold C5, E5. bpn_in UL. repeat apply Forall2_cons; try apply Forall2_nil; apply Rabs_le; bpn; lra.
  - exists (X + T)%R. split; [auto|split; [auto|]]. pose proof (tay6 X HX) as T6.
    replace (X + T - (exp X - 1))%R with ((T - X * X * hr X E5) - (exp X - 1 - (X + X * X * hr X E5)))%R by ring. unfold Rminus at 1. apply Rle_trans with (1 := Rabs_triang _ _). rewrite Rabs_Ropp.
    change (emin F32) with (-149) in ET. lra.
Qed.
Lemma near32 : forall rm x X, is_real F32 x X -> (Rabs X <= / 16)%R -> exists v zs, rounded F32 rm v zs (expm1_series F32 expm1f_cs rm x) /\
  (Rabs (v - (exp X - 1)) <= / 4 * uF F32 rm * Rabs (exp X - 1) + bp (-148))%R.
Proof.
  intros rm x X Hx HX. destruct (ser32 rm x X Hx ltac:(lra)) as (v & _ & (zs & RV) & EV). exists v, zs. split; [auto|].
  pose proof (pow_le_b X _ 6 HX) as P7. pose proof (sq_le_b X _ HX) as S2. pose proof (rel_conv X ltac:(lra)) as RC. pose proof (Rabs_pos X) as AP.
  assert (UL : (bp (-24) <= uF F32 rm <= bp (-23))%R) by (destruct rm; split; apply bpow_le; vm_compute; congruence).
  assert (E : (bp (-148) = 2 * bp (-149))%R) by (change (-148) with (1 + -149); rewrite bpow_plus; reflexivity). rewrite E.
  apply Rle_trans with (1 := EV). bpn_in UL. set (u := uF F32 rm) in *. set (et := bp (-149)) in *.
  assert (A1 : (u * (X * X) <= / 16 * (u * Rabs X))%R) by (replace (/ 16 * (u * Rabs X))%R with (u * (/ 16 * Rabs X))%R by ring; apply Rmult_le_compat_l; lra).
  assert (A2 : (/ 16777216 * Rabs X <= u * Rabs X)%R) by (apply Rmult_le_compat_r; lra).
  assert (A3 : (u * Rabs X <= 14 / 13 * (u * Rabs (exp X - 1)))%R) by (replace (14 / 13 * (u * Rabs (exp X - 1)))%R with (u * (14 / 13 * Rabs (exp X - 1)))%R by ring; apply Rmult_le_compat_l; lra).
  set (P := (Rabs X ^ 7)%R) in *. replace ((/ 16) ^ 6)%R with (/ 16777216)%R in P7 by (cbn; lra). lra.
Qed.
Lemma hi32 : forall s, is_nan F32 (f_inf F32 s) = false /\ mag_of F32 (f_inf F32 s) = inf_mag F32. Proof. intros []; vm_compute; auto. Qed.
Lemma q32 : is_real F32 (litf 1 (-2)) (/ 4). Proof. replace (/ 4)%R with (IZR 1 * bp (-2))%R by (bpn; lra). apply litf_r; lia. Qed.
Lemma s32 : is_real F32 (litf 1 (-4)) (/ 16). Proof. replace (/ 16)%R with (IZR 1 * bp (-4))%R by (bpn; lra). apply litf_r; lia. Qed.
Lemma h32 : is_real F32 (litf 1 (-1)) (/ 2). Proof. replace (/ 2)%R with (IZR 1 * bp (-1))%R by (bpn; lra). apply litf_r; lia. Qed.
Lemma t32 : is_real F32 (litf 1 1) 2. Proof. replace 2%R with (IZR 1 * bp 1)%R by (bpn; lra). apply litf_r; lia. Qed.
Lemma mid32 : forall rm x X, is_real F32 x X -> (/ 16 < Rabs X < / 4)%R -> exists v zs, rounded F32 rm v zs (mid F32 (litf 1 (-1)) (litf 1 1) expm1f_cs rm x) /\
  (Rabs (v - (exp X - 1)) <= 4 * uF F32 rm * Rabs (exp X - 1))%R.
Proof.
  intros rm x X Hx HX.
  assert (UL : (bp (-24) <= uF F32 rm <= bp (-23))%R) by (destruct rm; split; apply bpow_le; vm_compute; congruence). bpn_in UL.
  destruct (mid_e F32 good32 ltac:(vm_compute; congruence) ltac:(vm_compute; congruence) ltac:(vm_compute; congruence) (litf 1 (-1)) (litf 1 1) expm1f_cs h32 t32 rm x X (0.3 * uF F32 rm)%R Hx HX) as (v & zs & RV & EV).
  - lra.
  - intros h H Hh HH. destruct (ser32 rm h H Hh HH) as (v & R1 & _ & EV). exists v. split; [auto|]. apply Rle_trans with (1 := EV). change (emin F32) with (-149).
    pose proof (pow_le_b H _ 6 HH) as P7. pose proof (sq_le_b H _ HH) as S2. pose proof (Rabs_pos H) as AP. set (u := uF F32 rm) in *. set (et := bp (-149)) in *.
    assert (A1 : (u * (H * H) <= / 8 * (u * Rabs H))%R) by (replace (/ 8 * (u * Rabs H))%R with (u * (/ 8 * Rabs H))%R by ring; apply Rmult_le_compat_l; lra).
    assert (A2 : (/ 16777216 * Rabs H <= u * Rabs H)%R) by (apply Rmult_le_compat_r; lra).
    set (P := (Rabs H ^ 7)%R) in *. replace ((/ 8) ^ 6)%R with (/ 262144)%R in P7 by (cbn; lra). lra.
  - exists v, zs. split; [auto|]. apply Rle_trans with (1 := EV). apply Rmult_le_compat_r; [apply Rabs_pos|lra].
Qed.
Lemma expf_prod : forall rm x X, is_real F32 x X -> (Rabs X <= 110)%R -> let k := expf_kernel rm x in exists W, is_real D (f_mul D rm (fst k) (snd k)) W /\
  (Rabs (W - exp X) <= bp (-26) * exp X)%R /\ (rm = RNE -> (Rabs (W - exp X) <= bp (-33) * exp X)%R).
Proof.
  intros rm x X Hx HX. destruct (expf_kernel_spec rm x X Hx HX) as (V & T & j & Y & G & RV & RY & JB & EV & TB & XE & GB & Y1 & Y2).
  destruct (expf_kernel rm x) as [sc yp]. cbn [fst snd] in RV, RY |- *.
  destruct (mul_e rm _ _ _ _ (j + 2) RV RY ltac:(lia)) as (e8 & E8 & R8).
  { rewrite Z.add_comm, bpow_plus. change (bp 2) with 4%R. replace (V * bp j * Y)%R with (V * Y * bp j)%R by ring. rewrite !Rabs_mult, (Rabs_pos_eq (bp j)) by apply bpow_ge_0. apply Rmult_le_compat_r; [apply bpow_ge_0|].
    assert (Rabs V <= 21 / 10)%R by (bpn_in EV; apply Rabs_le_inv in EV; apply Rabs_le; lra).
    assert (Rabs Y <= 16 / 10)%R by (bpn_in Y1; apply Rabs_le_inv in Y1; apply Rabs_le; lra).
    apply Rle_trans with (21 / 10 * (16 / 10))%R; [|lra]. apply Rmult_le_compat; auto; apply Rabs_pos. }
  replace (j + 2 - 53) with (j - 51) in E8 by ring.
  eexists. split; [exact R8|]. rewrite XE. split.
  - apply combine with (dl := (76 / 10000000000 + bp (-43))%R) (g := (97 / 100)%R); auto; try (bpn; lra).
  - intros EM. destruct (Y2 EM) as [Y3 G3]. apply combine with (dl := (100 / 1000000000000 + bp (-43))%R) (g := (989 / 1000)%R); auto; try (bpn; lra).
Qed.
Definition far32 (rm : rmode) : R := match rm with RNE => bp (-30) | _ => bp (-23) end.
Lemma main32_e : forall rm x X, is_real F32 x X -> (/ 4 <= Rabs X <= 110)%R -> exists v zs, rounded F32 rm v zs (expm1f_main rm x) /\
  (Rabs (v - (exp X - 1)) <= far32 rm * Rabs (exp X - 1))%R.
Proof.
  intros rm x X Hx HX. destruct (expf_prod rm x X Hx ltac:(lra)) as (W & RW & E1 & E2). unfold expm1f_main. destruct (expf_kernel rm x) as [sc y]. cbn [fst snd] in RW.
  destruct (exp_ratio X ltac:(lra)) as [ER AB]. pose proof (exp_pos X) as EP.
  assert (XB : (exp X <= bp 160)%R). { apply Rle_trans with (exp 110). { destruct (Req_dec X 110) as [->|]; [lra|]. left. apply exp_increasing. assert (X <= 110)%R by (apply Rle_trans with (Rabs X); [apply Rle_abs|lra]). lra. } bpn. interval with (i_prec 60). }
  assert (WB : (Rabs (W - 1) <= bp 161)%R). { change (bp 161) with (bp (1 + 160)). rewrite bpow_plus. change (bp 1) with 2%R. set (B := bp 160) in *. assert (100 <= B)%R by (unfold B; bpn; lra). bpn_in E1. apply Rabs_le_inv in E1. apply Rabs_le. lra. }
  assert (RZ : is_real D (f_sub D rm (f_mul D rm sc y) (lit 1 0)) (fround D rm (W - 1))) by (apply (sub_r D good64); [auto|apply one_D|apply bound_big with 161; [lia|auto]]).
  pose proof (rel_e D good64 ltac:(vm_compute; congruence) rm (W - 1)) as RE. set (Z := fround D rm (W - 1)) in *.
  destruct RZ as (PZ & FZ & VZ). exists Z. eexists. split. { rewrite <- VZ. apply f_cast_spec; auto; [exact good64|exact good32]. }
  change (emin D) with (-1074) in RE. assert (ET : (bp (-1074) <= / 1152921504606846976)%R) by (change (/ 1152921504606846976)%R with (bp (-60)); apply bpow_le; lia).
  assert (UU : (uF D rm <= bp (-52))%R) by (destruct rm; apply bpow_le; vm_compute; congruence).
  set (A := Rabs (exp X - 1)) in *. set (et := bp (-1074)) in *.
  assert (ZE : forall ep, (0 <= ep <= bp (-26))%R -> (Rabs (W - exp X) <= ep * exp X)%R -> (Rabs (Z - (exp X - 1)) <= (4.6 * ep + 1.1 * bp (-52) + 5 * bp (-60)) * A)%R).
  { intros ep Hep EE. assert (EE2 : (Rabs (W - exp X) <= 4.6 * ep * A)%R) by (apply Rle_trans with (1 := EE); replace (4.6 * ep * A)%R with (ep * (4.6 * A))%R by ring; apply Rmult_le_compat_l; lra).
    assert (W1 : (Rabs (W - 1) <= 1.01 * A)%R). { replace (W - 1)%R with ((W - exp X) + (exp X - 1))%R by ring. apply Rle_trans with (1 := Rabs_triang _ _). fold A. bpn_in Hep. assert (ep * A <= / 67108864 * A)%R by (apply Rmult_le_compat_r; lra). lra. }
    assert (UW : (uF D rm * Rabs (W - 1) <= bp (-52) * (1.01 * A))%R) by (apply Rmult_le_compat; auto; try apply Rabs_pos; destruct rm; apply bpow_ge_0).
    replace (Z - (exp X - 1))%R with ((Z - (W - 1)) + (W - exp X))%R by ring. apply Rle_trans with (1 := Rabs_triang _ _). bpn_in UW. bpn. lra. }
  unfold far32. destruct rm.
  1: { apply Rle_trans with (1 := ZE (bp (-33)) ltac:(bpn; lra) (E2 eq_refl)). apply Rmult_le_compat_r; [lra|bpn; lra]. }
  all: apply Rle_trans with (1 := ZE (bp (-26)) ltac:(bpn; lra) E1); apply Rmult_le_compat_r; [lra|bpn; lra].
Qed.
Lemma kernel32 : forall rm x X, is_real F32 x X -> expm1f_kernel rm x =
  (if Rlt_bool Xhi X then inf_mag F32 else if Rlt_bool X Xlo then litf (-1) 0 else expm1f_main rm x).
Proof.
  intros rm x X Hx. unfold expm1f_kernel. rewrite (expf_top x X Hx). destruct (real_nan_inf F32 x X Hx) as [NN NI].
  rewrite (gt_r _ _ _ _ Hx xhi_r), (lt_r _ _ _ _ Hx xlo_r). pose proof Hx as (P & Fi & _).
  replace (x =? f_inf F32 true) with false by (symmetry; apply Z.eqb_neq; intros ->; vm_compute in Fi; discriminate).
  replace (top12f (f_inf F32 false) <=? Z.land (top12f x) 2047) with false.
  2: { symmetry. change (top12f (f_inf F32 false)) with 0x7f8. rewrite abs_top_ge by (auto; lia). apply Z.leb_gt. unfold is_fin in Fi. apply Z.ltb_lt in Fi. change (inf_mag F32) with (2040 * 2 ^ 20) in Fi. lia. }
  replace (f_mul F32 RNE (litf 1 97) (litf 1 97)) with (inf_mag F32) by (vm_compute; reflexivity).
  destruct (Rle_bool_spec 88 (Rabs X)) as [L|L]; [reflexivity|]. apply Rabs_def2 in L.
  rewrite Rlt_bool_false by (unfold Xhi; bpn; lra). rewrite Rlt_bool_false by (unfold Xlo; bpn; lra). reflexivity.
Qed.
Lemma expm1f_cases : forall rm x X, is_real F32 x X -> X <> 0%R -> expm1f rm x =
  (if Rle_bool (/ 4) (Rabs X) then expm1f_kernel rm x else if Rlt_bool (/ 16) (Rabs X) then mid F32 (litf 1 (-1)) (litf 1 1) expm1f_cs rm x else expm1_series F32 expm1f_cs rm x).
Proof. intros rm x X Hx N. exact (gen_cases F32 good32 hi32 _ _ _ _ _ _ _ q32 s32 rm x X Hx N). Qed.
Theorem expm1f_far : forall rm x X, is_real F32 x X -> (/ 4 <= Rabs X)%R -> (Xlo <= X <= Xhi)%R -> exists v zs, rounded F32 rm v zs (expm1f rm x) /\
  (Rabs (v - (exp X - 1)) <= far32 rm * Rabs (exp X - 1))%R.
Proof.
  intros rm x X Hx HX HB. assert (N : X <> 0%R) by (intros ->; rewrite Rabs_R0 in HX; lra).
  rewrite (expm1f_cases rm x X Hx N), Rle_bool_true, (kernel32 rm x X Hx), !Rlt_bool_false by (auto; lra). apply main32_e; auto. split; [auto|].
  unfold Xlo, Xhi in HB. bpn_in HB. apply Rabs_le. lra.
Qed.
Theorem expm1f_near : forall rm x X, is_real F32 x X -> X <> 0%R -> (Rabs X <= / 16)%R -> exists v zs, rounded F32 rm v zs (expm1f rm x) /\
  (Rabs (v - (exp X - 1)) <= / 4 * uF F32 rm * Rabs (exp X - 1) + bp (-148))%R.
Proof. intros rm x X Hx N HX. rewrite (expm1f_cases rm x X Hx N), Rle_bool_false, Rlt_bool_false by lra. apply near32; auto. Qed.
Theorem expm1f_all : forall rm x X, is_real F32 x X -> X <> 0%R -> (Xlo <= X <= Xhi)%R -> exists v zs, rounded F32 rm v zs (expm1f rm x) /\
  (Rabs (v - (exp X - 1)) <= 4 * uF F32 rm * Rabs (exp X - 1) + bp (-148))%R.
Proof.
  intros rm x X Hx N HB. pose proof (bpow_gt_0 radix2 (-148)) as BP. pose proof (Rabs_pos (exp X - 1)) as AP. assert (UP : (0 < uF F32 rm)%R) by (destruct rm; apply bpow_gt_0).
  destruct (Rle_lt_dec (/ 4) (Rabs X)) as [L|L].
  - destruct (expm1f_far rm x X Hx L HB) as (v & zs & RV & EV). exists v, zs. split; [auto|]. apply Rle_trans with (1 := EV).
    assert (far32 rm * Rabs (exp X - 1) <= 4 * uF F32 rm * Rabs (exp X - 1))%R; [|lra]. apply Rmult_le_compat_r; [auto|]. unfold far32, uF. change (prec F32) with 24. destruct rm; bpn; lra.
  - destruct (Rle_lt_dec (Rabs X) (/ 16)) as [L2|L2].
    + destruct (expm1f_near rm x X Hx N L2) as (v & zs & RV & EV). exists v, zs. split; [auto|]. apply Rle_trans with (1 := EV).
      assert (/ 4 * uF F32 rm * Rabs (exp X - 1) <= 4 * uF F32 rm * Rabs (exp X - 1))%R; [|lra]. apply Rmult_le_compat_r; [auto|lra].
    + destruct (mid32 rm x X Hx ltac:(lra)) as (v & zs & RV & EV). exists v, zs. rewrite (expm1f_cases rm x X Hx N), Rle_bool_false, Rlt_bool_true by lra. split; [auto|lra].
Qed.
Theorem expm1f_out : forall rm x X, is_real F32 x X -> ((Xhi < X)%R -> expm1f rm x = inf_mag F32) /\ ((X < Xlo)%R -> expm1f rm x = litf (-1) 0).
Proof.
  intros rm x X Hx. assert (HL : (Xlo < -100)%R) by (unfold Xlo; bpn; lra). assert (HH : (80 < Xhi)%R) by (unfold Xhi; bpn; lra).
  split; intros H; rewrite (expm1f_cases rm x X Hx), Rle_bool_true, (kernel32 rm x X Hx) by (try rewrite Rabs_left by lra; try rewrite Rabs_pos_eq by lra; lra).
  - rewrite Rlt_bool_true by auto. reflexivity.
  - rewrite Rlt_bool_false, Rlt_bool_true by lra. reflexivity.
Qed.

(** *** double *)
Definition C7 : list R := [IZR 1 * bp (-1); IZR 0x15555555555555 * bp (-55); IZR 0x15555555555555 * bp (-57); IZR 0x11111111111111 * bp (-59); IZR 0x16c16c16c16c17 * bp (-62);
  IZR 0x1a01a01a01a01a * bp (-65); IZR 0x1a01a01a01a01a * bp (-68)]%R.
Lemma cs64 : expm1d_cs = [lit 1 (-1); lit 0x15555555555555 (-55); lit 0x15555555555555 (-57); lit 0x11111111111111 (-59); lit 0x16c16c16c16c17 (-62); lit 0x1a01a01a01a01a (-65); lit 0x1a01a01a01a01a (-68)].
Proof. vm_compute. reflexivity. Qed.
Lemma ser64 : forall rm x X, is_real D x X -> (Rabs X <= / 8)%R -> exists v, is_real D (expm1_series D expm1d_cs rm x) (fround D rm v) /\
  (exists zs, rounded D rm v zs (expm1_series D expm1d_cs rm x)) /\ (Rabs (v - (exp X - 1)) <= 2.2 * uF D rm * (X * X) + 2 * bp (-1074) + 8 / 7 * (Rabs X ^ 9 / 362880))%R.
Proof.
  intros rm x X Hx HX. assert (UL : (bp (-53) <= uF D rm)%R) by (destruct rm; apply bpow_le; vm_compute; congruence).
  destruct (series_e D good64 ltac:(vm_compute; congruence) ltac:(vm_compute; congruence) ltac:(vm_compute; congruence) rm x X expm1d_cs C7 E7 Hx HX) as (T & R1 & R2 & ET).
  - rewrite cs64. unfold C7. repeat apply Forall2_cons; try apply Forall2_nil; apply lit_r; lia.
  - discriminate.
  - unfold C7. repeat apply Forall_cons; try apply Forall_nil; bpn; lra.
  - unfold C7, E7. bpn_in UL. repeat apply Forall2_cons; try apply Forall2_nil; apply Rabs_le; bpn; lra.
  - exists (X + T)%R. split; [auto|split; [auto|]]. pose proof (tay8 X HX) as T6.
    replace (X + T - (exp X - 1))%R with ((T - X * X * hr X E7) - (exp X - 1 - (X + X * X * hr X E7)))%R by ring. unfold Rminus at 1. apply Rle_trans with (1 := Rabs_triang _ _). rewrite Rabs_Ropp.
    change (emin D) with (-1074) in ET. lra.
Qed.
Lemma uD : forall rm, (bp (-53) <= uF D rm <= bp (-52))%R. Proof. destruct rm; split; apply bpow_le; vm_compute; congruence. Qed.
Lemma near64 : forall rm x X, is_real D x X -> (Rabs X <= / 16)%R -> exists v zs, rounded D rm v zs (expm1_series D expm1d_cs rm x) /\
  (Rabs (v - (exp X - 1)) <= bp (-50) * Rabs (exp X - 1) + bp (-1073))%R.
Proof.
  intros rm x X Hx HX. destruct (ser64 rm x X Hx ltac:(lra)) as (v & _ & (zs & RV) & EV). exists v, zs. split; [auto|].
  pose proof (pow_le_b X _ 8 HX) as P7. pose proof (sq_le_b X _ HX) as S2. pose proof (rel_conv X ltac:(lra)) as RC. pose proof (Rabs_pos X) as AP.
  pose proof (uD rm) as UL. assert (E : (bp (-1073) = 2 * bp (-1074))%R) by (change (-1073) with (1 + -1074); rewrite bpow_plus; reflexivity). rewrite E.
  apply Rle_trans with (1 := EV). bpn_in UL. set (u := uF D rm) in *. set (et := bp (-1074)) in *. clearbody et.
  assert (A1 : (u * (X * X) <= / 4503599627370496 * (/ 16 * Rabs X))%R) by (apply Rmult_le_compat; lra).
  set (P := (Rabs X ^ 9)%R) in *. replace ((/ 16) ^ 8)%R with (/ 4294967296)%R in P7 by (cbn; lra). bpn. lra.
Qed.
Lemma hi64 : forall s, is_nan D (f_inf D s) = false /\ mag_of D (f_inf D s) = inf_mag D. Proof. intros []; vm_compute; auto. Qed.
Lemma q64 : is_real D (lit 1 (-2)) (/ 4). Proof. replace (/ 4)%R with (IZR 1 * bp (-2))%R by (bpn; lra). apply lit_r; lia. Qed.
Lemma s64 : is_real D (lit 1 (-4)) (/ 16). Proof. replace (/ 16)%R with (IZR 1 * bp (-4))%R by (bpn; lra). apply lit_r; lia. Qed.
Lemma h64 : is_real D (lit 1 (-1)) (/ 2). Proof. replace (/ 2)%R with (IZR 1 * bp (-1))%R by (bpn; lra). apply lit_r; lia. Qed.
Lemma t64 : is_real D (lit 1 1) 2. Proof. replace 2%R with (IZR 1 * bp 1)%R by (bpn; lra). apply lit_r; lia. Qed.
Lemma mid64 : forall rm x X, is_real D x X -> (/ 16 < Rabs X < / 4)%R -> exists v zs, rounded D rm v zs (mid D (lit 1 (-1)) (lit 1 1) expm1d_cs rm x) /\
  (Rabs (v - (exp X - 1)) <= bp (-42) * Rabs (exp X - 1))%R.
Proof.
  intros rm x X Hx HX. pose proof (uD rm) as UL. bpn_in UL.
  destruct (mid_e D good64 ltac:(vm_compute; congruence) ltac:(vm_compute; congruence) ltac:(vm_compute; congruence) (lit 1 (-1)) (lit 1 1) expm1d_cs h64 t64 rm x X (188 / 1000000000000000)%R Hx HX) as (v & zs & RV & EV).
  - lra.
  - intros h H Hh HH. destruct (ser64 rm h H Hh HH) as (v & R1 & _ & EV). exists v. split; [auto|]. apply Rle_trans with (1 := EV). change (emin D) with (-1074).
    pose proof (pow_le_b H _ 8 HH) as P7. pose proof (sq_le_b H _ HH) as S2. pose proof (Rabs_pos H) as AP. set (u := uF D rm) in *. set (et := bp (-1074)) in *. clearbody et.
    assert (A1 : (u * (H * H) <= / 4503599627370496 * (/ 8 * Rabs H))%R) by (apply Rmult_le_compat; lra).
    set (P := (Rabs H ^ 9)%R) in *. replace ((/ 8) ^ 8)%R with (/ 16777216)%R in P7 by (cbn; lra). lra.
  - exists v, zs. split; [auto|]. apply Rle_trans with (1 := EV). apply Rmult_le_compat_r; [apply Rabs_pos|bpn; lra].
Qed.
Lemma expm1_d_cases : forall rm x X, is_real D x X -> X <> 0%R -> expm1_d rm x =
  (if Rle_bool (/ 4) (Rabs X) then expm1d_kernel rm x else if Rlt_bool (/ 16) (Rabs X) then mid D (lit 1 (-1)) (lit 1 1) expm1d_cs rm x else expm1_series D expm1d_cs rm x).
Proof. intros rm x X Hx N. exact (gen_cases D good64 hi64 _ _ _ _ _ _ _ q64 s64 rm x X Hx N). Qed.
Lemma kernel64 : forall rm x X, is_real D x X -> (/ 4 <= Rabs X)%R -> expm1d_kernel rm x =
  (if Rlt_bool (Rabs X) 512 then f_sub D rm (exp_d rm x) (lit 1 0) else if Rlt_bool (Rabs X) 1024 then exp_d rm x else if Rlt_bool X 0 then lit (-1) 0 else inf_mag D).
Proof.
  intros rm x X Hx HX. pose proof Hx as (P & Fi & _). rewrite (exp_d_cases rm x X Hx). assert (L1 : (bp (-54) <= Rabs X)%R) by (bpn; lra). rewrite (Rlt_bool_false (Rabs X) (bp (-54))) by auto.
  unfold expm1d_kernel, expd_fin. rewrite top12_eq by auto. destruct tops as (-> & -> & -> & ->). destruct folds as [_ ->].
  pose proof (top_ge 969 (-54) x X Hx ltac:(lia) eq_refl) as T1. pose proof (top_ge 1032 9 x X Hx ltac:(lia) eq_refl) as T2. pose proof (top_ge 1033 10 x X Hx ltac:(lia) eq_refl) as T3.
  pose proof (top_bd x Fi) as TB. set (A := mag_of D x / 2 ^ 52) in *. destruct (wrap_top A ltac:(lia)) as [-> ->].
  change (bp 9) with 512%R in T2. change (bp 10) with 1024%R in T3. rewrite not_inf by auto. replace (2047 <=? A) with false by (symmetry; apply Z.leb_gt; lia).
  apply T1 in L1. replace (A <? 969) with false by (symmetry; apply Z.ltb_ge; lia). cbn [orb]. destruct (expd_kernel rm x) as [[tm sb] ki].
  destruct (Rlt_bool_spec (Rabs X) 512) as [L2|L2].
  - replace (1032 <=? A) with false. 2: { symmetry. apply Z.leb_gt. destruct (Z_lt_le_dec A 1032) as [|G]; auto. apply T2 in G. lra. }
    replace (A =? 0) with false by (symmetry; apply Z.eqb_neq; lia). reflexivity.
  - apply T2 in L2. replace (1032 <=? A) with true by (symmetry; apply Z.leb_le; lia).
    destruct (Rlt_bool_spec (Rabs X) 1024) as [L3|L3].
    + replace (1033 <=? A) with false; [reflexivity|]. symmetry. apply Z.leb_gt. destruct (Z_lt_le_dec A 1033) as [|G]; auto. apply T3 in G. lra.
    + pose proof L3 as L4. apply T3 in L3. replace (1033 <=? A) with true by (symmetry; apply Z.leb_le; lia).
      rewrite sgn_shift, (sgn_real x X Hx), negb_involutive by (auto; intros ->; rewrite Rabs_R0 in L4; lra). reflexivity.
Qed.
Definition far64 (rm : rmode) : R := match rm with RNE => bp (-50) | _ => bp (-49) end.
Theorem expm1_d_far : forall rm x X, is_real D x X -> (/ 4 <= Rabs X)%R -> (-512 < X <= 1023)%R -> exists v zs, rounded D rm v zs (expm1_d rm x) /\
  (Rabs (v - (exp X - 1)) <= far64 rm * Rabs (exp X - 1))%R.
Proof.
  intros rm x X Hx HX HB. assert (N : X <> 0%R) by (intros ->; rewrite Rabs_R0 in HX; lra).
  rewrite (expm1_d_cases rm x X Hx N), Rle_bool_true, (kernel64 rm x X Hx) by auto.
  destruct (exp_d_gen rm x X Hx) as (v & RV & PV & _ & EV). { apply Rabs_def1; lra. } specialize (EV ltac:(apply Rabs_le; lra)).
  destruct (exp_ratio X HX) as [ER AB]. pose proof (exp_pos X) as EP. set (A := Rabs (exp X - 1)) in *.
  assert (ES : (bp (eD rm) <= / 4 * uF D rm)%R) by (change (/ 4)%R with (bp (-2)); destruct rm; cbn [eD uF]; rewrite <- bpow_plus; apply bpow_le; vm_compute; congruence).
  pose proof (uD rm) as UU. bpn_in UU. assert (FU : (far64 rm = 8 * uF D rm)%R) by (change 8%R with (bp 3); destruct rm; cbn [far64 uF]; rewrite <- bpow_plus; reflexivity). rewrite FU.
  assert (T1 : (bp (-1124) <= / 1606938044258990275541962092341162602522202993782792835301376)%R) by (change (/ 1606938044258990275541962092341162602522202993782792835301376)%R with (bp (-200)); apply bpow_le; lia).
  assert (T2 : (bp (-1074) <= / 1606938044258990275541962092341162602522202993782792835301376)%R) by (change (/ 1606938044258990275541962092341162602522202993782792835301376)%R with (bp (-200)); apply bpow_le; lia).
  set (u := uF D rm) in *. assert (UE : (u * exp X <= 4.6 * (u * A))%R) by (replace (4.6 * (u * A))%R with (u * (4.6 * A))%R by ring; apply Rmult_le_compat_l; lra).
  assert (EE : (bp (eD rm) * exp X <= / 4 * (u * exp X))%R) by (rewrite <- Rmult_assoc; apply Rmult_le_compat_r; lra).
  assert (UA : (/ 9007199254740992 * 0.22 <= u * A)%R) by (apply Rmult_le_compat; lra).
  assert (VE' : (Rabs (v - exp X) <= / 4 * (u * exp X) + bp (-1124))%R) by lra. clear EV EE.
  assert (T0' : (0 <= bp (-1124))%R) by apply bpow_ge_0. set (t1 := bp (-1124)) in *. set (t2 := bp (-1074)) in *. clearbody t1.
  destruct (Rlt_bool_spec (Rabs X) 512) as [L|L].
  - assert (XB : (exp X <= bp 750)%R).
    { apply Rle_trans with (exp 512). { destruct (Req_dec X 512) as [->|]; [lra|]. left. apply exp_increasing. apply Rabs_def2 in L. lra. }
      rewrite <- (Rpower2_Z 750). unfold Rpower. left. apply exp_increasing. interval with (i_prec 60). }
    assert (VB : (v <= bp 751)%R). { change (bp 751) with (bp (1 + 750)). rewrite bpow_plus. change (bp 1) with 2%R. assert (1 <= bp 750)%R by (change 1%R with (bp 0); apply bpow_le; lia). apply Rabs_le_inv in VE'. assert (u * exp X <= exp X)%R by (rewrite <- (Rmult_1_l (exp X)) at 2; apply Rmult_le_compat_r; lra). lra. }
    destruct RV as (PY & _ & VV & _). destruct (VV (bound_big rm v 751 ltac:(lia) ltac:(rewrite Rabs_pos_eq; lra))) as [FY EY].
    pose proof (rel_e D good64 ltac:(vm_compute; congruence) rm v) as RE. change (emin D) with (-1074) in RE. fold t2 in RE. fold u in RE. rewrite (Rabs_pos_eq v) in RE by lra.
    pose proof one_D as (P1 & F1 & V1). pose proof (f_sub_spec D good64 rm (exp_d rm x) (lit 1 0) P1 FY F1) as FS. rewrite EY, V1 in FS.
    eexists. eexists. split; [exact FS|]. set (Y := fround D rm v) in *.
    replace (Y - 1 - (exp X - 1))%R with ((Y - v) + (v - exp X))%R by ring. apply Rle_trans with (1 := Rabs_triang _ _).
    assert (V1' : (v <= 1.001 * exp X + t1)%R) by (apply Rabs_le_inv in VE'; assert (u * exp X <= / 4503599627370496 * exp X)%R by (apply Rmult_le_compat_r; lra); lra).
    assert (T0 : (0 <= t1)%R) by lra.
    assert (u * v <= 1.001 * (u * exp X) + t1)%R; [|lra]. apply Rle_trans with (u * (1.001 * exp X + t1))%R; [apply Rmult_le_compat_l; lra|].
    assert (u * t1 <= 1 * t1)%R by (apply Rmult_le_compat_r; lra). lra.
  - rewrite Rlt_bool_true by (apply Rabs_def1; lra). exists v, false. split; [auto|].
    assert (0 <= X)%R by (destruct (Rle_lt_dec 0 X); auto; rewrite Rabs_left in L by auto; lra). rewrite Rabs_pos_eq in L by auto.
    assert (1 < exp X)%R by (rewrite <- exp_0; apply exp_increasing; lra).
    assert (XB : (bp 700 <= exp X)%R).
    { apply Rle_trans with (exp 512). 2: { destruct (Req_dec X 512) as [->|]; [lra|]. left. apply exp_increasing. lra. }
      rewrite <- (Rpower2_Z 700). unfold Rpower. left. apply exp_increasing. interval with (i_prec 60). }
    assert (B2 : (/ 2 * bp 700 <= A)%R). { unfold A. rewrite Rabs_pos_eq by lra. assert (10 <= bp 700)%R; [|lra]. apply Rle_trans with (bp 4); [bpn; lra|apply bpow_le; lia]. }
    assert (B3 : (10 <= u * A)%R).
    { apply Rle_trans with (/ 9007199254740992 * (/ 2 * bp 700))%R. 2: { apply Rmult_le_compat; try lra. pose proof (bpow_gt_0 radix2 700). lra. }
      assert (bp 60 <= bp 700)%R by (apply bpow_le; lia). change (bp 60) with 1152921504606846976%R in H1. lra. }
    replace (v - (exp X - 1))%R with ((v - exp X) + 1)%R by ring. apply Rle_trans with (1 := Rabs_triang _ _). rewrite Rabs_R1. lra.
Qed.
Theorem expm1_d_near : forall rm x X, is_real D x X -> X <> 0%R -> (Rabs X <= / 16)%R -> exists v zs, rounded D rm v zs (expm1_d rm x) /\
  (Rabs (v - (exp X - 1)) <= bp (-50) * Rabs (exp X - 1) + bp (-1073))%R.
Proof. intros rm x X Hx N HX. rewrite (expm1_d_cases rm x X Hx N), Rle_bool_false, Rlt_bool_false by lra. apply near64; auto. Qed.
Theorem expm1_d_all : forall rm x X, is_real D x X -> X <> 0%R -> (-512 < X <= 1023)%R -> exists v zs, rounded D rm v zs (expm1_d rm x) /\
  (Rabs (v - (exp X - 1)) <= bp (-42) * Rabs (exp X - 1) + bp (-1073))%R.
Proof.
  intros rm x X Hx N HB. assert (BP : (0 <= bp (-1073))%R) by apply bpow_ge_0. pose proof (Rabs_pos (exp X - 1)) as AP. set (et := bp (-1073)) in *.
  destruct (Rle_lt_dec (/ 4) (Rabs X)) as [L|L].
  - destruct (expm1_d_far rm x X Hx L HB) as (v & zs & RV & EV). exists v, zs. split; [auto|]. apply Rle_trans with (1 := EV).
    assert (far64 rm * Rabs (exp X - 1) <= bp (-42) * Rabs (exp X - 1))%R; [|lra]. apply Rmult_le_compat_r; [auto|]. destruct rm; apply bpow_le; lia.
  - destruct (Rle_lt_dec (Rabs X) (/ 16)) as [L2|L2].
    + destruct (expm1_d_near rm x X Hx N L2) as (v & zs & RV & EV). exists v, zs. split; [auto|]. apply Rle_trans with (1 := EV). fold et.
      assert (bp (-50) * Rabs (exp X - 1) <= bp (-42) * Rabs (exp X - 1))%R; [|lra]. apply Rmult_le_compat_r; [auto|apply bpow_le; lia].
    + destruct (mid64 rm x X Hx ltac:(lra)) as (v & zs & RV & EV). exists v, zs. rewrite (expm1_d_cases rm x X Hx N), Rle_bool_false, Rlt_bool_true by lra. split; [auto|lra].
Qed.
Theorem expm1_d_out : forall rm x X, is_real D x X ->
  ((710 <= X < 1024)%R -> rounded D rm (exp X - 1) false (expm1_d rm x)) /\ ((1024 <= X)%R -> expm1_d rm x = inf_mag D) /\
  ((X <= -1024)%R -> expm1_d rm x = lit (-1) 0) /\
  ((-1024 < X <= -512)%R -> is_fin D (expm1_d rm x) = true /\ (0 <= fval D (expm1_d rm x) <= bp (-700))%R).
Proof.
  intros rm x X Hx.
  assert (K : (/ 4 <= Rabs X)%R -> expm1_d rm x = expm1d_kernel rm x).
  { intros H. rewrite (expm1_d_cases rm x X Hx), Rle_bool_true; auto. intros ->. rewrite Rabs_R0 in H. lra. }
  split; [|split; [|split]]; intros H.
  - assert (A : Rabs X = X) by (apply Rabs_pos_eq; lra). rewrite K, (kernel64 rm x X Hx) by lra. rewrite A, (Rlt_bool_false X 512), (Rlt_bool_true X 1024), (exp_d_over rm x X Hx), Rlt_bool_true by lra.
    apply rounded_huge64. pose proof (exp_big X ltac:(lra)). assert (10 <= bp 1024)%R; [|lra]. apply Rle_trans with (bp 4); [bpn; lra|apply bpow_le; lia].
  - assert (A : Rabs X = X) by (apply Rabs_pos_eq; lra). rewrite K, (kernel64 rm x X Hx) by lra. rewrite A, (Rlt_bool_false X 512), (Rlt_bool_false X 1024), Rlt_bool_false by lra. reflexivity.
  - assert (A : Rabs X = (- X)%R) by (apply Rabs_left; lra). rewrite K, (kernel64 rm x X Hx) by lra. rewrite A, (Rlt_bool_false _ 512), (Rlt_bool_false _ 1024), Rlt_bool_true by lra. reflexivity.
  - assert (A : Rabs X = (- X)%R) by (apply Rabs_left; lra). rewrite K, (kernel64 rm x X Hx) by lra. rewrite A, (Rlt_bool_false _ 512), (Rlt_bool_true _ 1024) by lra.
    destruct (exp_d_gen rm x X Hx) as (v & (_ & _ & VV & _) & PV & EV & _). { lra. }
    assert (XB : (exp X <= bp (-710))%R). { apply Rle_trans with (exp (-512)). { destruct (Req_dec X (-512)) as [->|]; [lra|]. left. apply exp_increasing. lra. }
      rewrite <- (Rpower2_Z (-710)). unfold Rpower. left. apply exp_increasing. interval with (i_prec 60). }
    assert (VB : (v <= bp (-700))%R).
    { assert (bp (-40) <= 1)%R by (bpn; lra). assert (bp (-1124) <= bp (-710))%R by (apply bpow_le; lia). assert (E7' : (bp (-700) = 1024 * bp (-710))%R) by (change (-700) with (10 + -710); rewrite bpow_plus; reflexivity).
      pose proof (bpow_gt_0 radix2 (-710)). pose proof (exp_pos X). assert (bp (-40) * exp X <= 1 * exp X)%R by (apply Rmult_le_compat_r; lra). apply Rabs_le_inv in EV. lra. }
    destruct VV as [FY EY]. { apply bound_big with (-700); [lia|]. rewrite Rabs_pos_eq; lra. }
    split; [auto|]. rewrite EY. split.
    + apply (RemProofs.fround_ge_gen D good64); [apply generic_format_0|lra].
    + apply (RemProofs.fround_le_gen D good64); [apply bpD; lia|lra].
Qed.
Theorem expm1_special : forall F q s h t m cs k rm x, good_fmt F -> (forall s, is_nan F (f_inf F s) = false /\ mag_of F (f_inf F s) = inf_mag F) -> (forall s, sign_of F (f_inf F s) = s) ->
  is_pattern F x -> let r := expm1_gen F q s h t m cs k rm x in
  (mag_of F x = 0 -> r = x) /\ (is_nan F x = true -> r = qnan F) /\ (is_inf F x = true -> r = if sign_of F x then m else f_inf F false).
Proof.
  intros F q s h t m cs k rm x HF HI HS P r. unfold r, expm1_gen. destruct (inf_facts F HF) as (_ & _ & _ & _ & IS).
  assert (Z0 : f_eq F x (f_zero F false) = (mag_of F x =? 0)). { change (f_zero F false) with 0. apply (f_eq_zero F HF). }
  split; [|split]; intros H.
  - rewrite Z0, H. reflexivity.
  - rewrite Z0, H. unfold is_nan in H. apply Z.ltb_lt in H. replace (mag_of F x =? 0) with false by (symmetry; apply Z.eqb_neq; lia). reflexivity.
  - assert (NN : is_nan F x = false) by (unfold is_nan, is_inf in *; lia). rewrite Z0, NN. unfold is_inf in H. apply Z.eqb_eq in H. rewrite H.
    replace (inf_mag F =? 0) with false by (symmetry; apply Z.eqb_neq; lia).
    assert (EI : forall s', f_eq F x (f_inf F s') = Bool.eqb (sign_of F x) s').
    { intros s'. destruct (HI s') as [N1 M1]. unfold f_eq, f_cmp. rewrite NN, N1, M1, H, HS. cbn [orb]. unfold szval.
      destruct (sign_of F x), s'; cbn [Bool.eqb]; rewrite ?Z.compare_refl; auto; destruct (Z.compare_spec (- inf_mag F) (inf_mag F)); try lia; auto; destruct (Z.compare_spec (inf_mag F) (- inf_mag F)); try lia; auto. }
    rewrite !EI. destruct (sign_of F x); reflexivity.
Qed.
(** The series is cut too early for double. *)
Theorem expm1_d_cut : let x := 0x3fcffff000000000 in is_real D x (IZR 0x1ffff * bp (-19)) /\
  (800 * bp (-54) < Rabs (fval D (expm1_d RNE x) - (exp (IZR 0x1ffff * bp (-19)) - 1)))%R.
Proof.
  split.
  - replace 0x3fcffff000000000 with (lit 0x1ffff (-19)) by (vm_compute; reflexivity). apply lit_r; lia.
  - assert (E : fval D (expm1_d RNE 0x3fcffff000000000) = (IZR 5116502924298500 * bp (-54))%R).
    { replace (expm1_d RNE 0x3fcffff000000000) with 4598788122842204420 by (vm_compute; reflexivity). apply (pos_pat 4598788122842204420). vm_compute. split; congruence. }
    rewrite E. apply Rlt_le_trans with ((exp (IZR 0x1ffff * bp (-19)) - 1) - IZR 5116502924298500 * bp (-54))%R.
    + bpn. interval with (i_prec 120).
    + rewrite Rabs_minus_sym. apply Rle_abs.
Qed.
Lemma cut_range : (/ 16 < IZR 0x1ffff * bp (-19) < / 4)%R /\ (/ 4 <= exp (IZR 0x1ffff * bp (-19)) - 1 <= / 2)%R.
Proof. bpn. split; [lra|]. split; interval with (i_prec 60). Qed.
Lemma exp_small_512 : forall X, (X <= -512)%R -> (exp X < / 2)%R.
Proof. intros X H. apply Rlt_le_trans with (exp (-1)); [apply exp_increasing; lra|interval with (i_prec 60)]. Qed.
