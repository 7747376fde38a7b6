(** * log, log2 and log10 for double: the entry points *)
From Coq Require Import ZArith Lia Bool Reals Lra List.
From Flocq Require Import Core Relative.
From Interval Require Import Tactic.
From Verif Require Import MachInt Fmt FloatSpec FmtProofs RoundProofs FOps FOpsProofs ExactOps ExtFloatSpec ExtFloatProofs ExtInterp FmanipWide ErrLib ExpoData LogDataD ExpoF LogD Exp2fProofs ExpoFWrap LogRed LogfNum LogfProofs LogfWrap LogDTab LogDNum LogDRed LogDRem LogDFar LogDNear LogDCore Log2DFar Log2DNear Expm1Proofs.
Import ListNotations.
Open Scope Z_scope.

Lemma rel_ne0 : forall v L k, k <= -1 -> (Rabs (v - L) <= bp k * Rabs L)%R -> L <> 0%R -> v <> 0%R.
Proof.
  intros v L k Hk H N E. subst v. rewrite Rminus_0_l, Rabs_Ropp in H. pose proof (Rabs_pos_lt L N). assert (bp k <= / 2)%R by (change (/ 2)%R with (bp (-1)); apply bpow_le; auto). nra.
Qed.
Lemma lg_ne0 : forall X, (0 < X)%R -> X <> 1%R -> (ln X / ln 2 <> 0)%R.
Proof.
  intros X HX N C. apply (ln_ne0 X HX N). assert (0 < ln 2)%R by interval with (i_prec 40). replace (ln X) with (ln X / ln 2 * ln 2)%R by (field; lra). rewrite C. ring.
Qed.
Lemma add_rounded : forall rm a b S H zs, is_real D a S -> is_real D b H -> (S + H <> 0)%R -> rounded D rm (S + H) zs (f_add D rm a b).
Proof.
  intros rm a b S H zs (Pa & Fa & <-) (Pb & Fb & <-) N. eapply rounded_sgn; [|exact N]. apply (f_add_spec D good64); auto.
Qed.

(** ** log *)
Theorem log_d_accuracy : forall rm x zs, is_pattern D x -> is_fin D x = true -> let X := fval D x in (0 < X)%R -> X <> 1%R ->
  exists v, (Rabs (v - ln X) <= bp (match rm with RNE => -55 | _ => -54 end) * Rabs (ln X))%R /\ rounded D rm v zs (log_d rm x).
Proof.
  intros rm x zs P Fi X HX N1. destruct (log_wrapper_spec D good64 (logd_impl rm) x P) as (_ & _ & _ & _ & _ & E).
  unfold log_d. rewrite (E Fi HX N1). destruct (logd_core rm x X ltac:(split; auto) HX N1) as (a & b & S & H & -> & RS & RH & HE). exists (S + H)%R. split; [exact HE|].
  apply add_rounded; auto. refine (rel_ne0 _ _ _ _ HE _); [destruct rm; lia|]. apply ln_ne0; auto.
Qed.

(** ** log2 *)
Theorem log2d_core : forall rm x X, is_real D x X -> (0 < X)%R -> X <> 1%R ->
  exists a b S H, log2d_impl rm x = f_add D rm a b /\ is_real D a S /\ is_real D b H /\ (Rabs (S + H - ln X / ln 2) <= bp (match rm with RNE => -54 | _ => -53 end) * Rabs (ln X / ln 2))%R /\
    ((X <= / 2 \/ 2 <= X)%R -> (Rabs (S + H - ln X / ln 2) <= 5 * bp (match rm with RNE => -61 | _ => -60 end))%R).
Proof.
  intros rm x X Hx HX N. unfold log2d_impl.
  replace (f_sub F64 RNE (lit 1 0) (lit 0x15b51 (-21))) with 0x3feea4af00000000 by (vm_compute; reflexivity). replace (f_add F64 RNE (lit 1 0) (lit 0x16ab2 (-21))) with 0x3ff0b55900000000 by (vm_compute; reflexivity). cbv zeta.
  pose proof (pat_range 0x3feea4af00000000 0x3ff0b55900000000 x X Hx HX ltac:(lia) ltac:(lia) ltac:(lia)) as PR.
  assert (VL : (9576 / 10000 <= fval D 0x3feea4af00000000 <= 9577 / 10000)%R). { realof D 0x3feea4af00000000 H. destruct H as (_ & _ & ->). bpn. lra. }
  assert (VH : (10442 / 10000 <= fval D 0x3ff0b55900000000 <= 10443 / 10000)%R). { realof D 0x3ff0b55900000000 H. destruct H as (_ & _ & ->). bpn. lra. }
  assert (L2 : (0.693 <= ln 2 <= 0.694)%R) by interval with (i_prec 40).
  destruct (wrap 64 (x - 0x3feea4af00000000) <? wrap 64 (0x3ff0b55900000000 - 0x3feea4af00000000)).
  - destruct (Z.eqb_spec x (lit 1 0)) as [->|_].
    + exfalso. apply N. pose proof (lit_r false 1 0 ltac:(lia) ltac:(lia)) as (_ & _ & L). destruct Hx as (_ & _ & <-). rewrite Rmult_1_l in L. exact L.
    + assert (RB : (-424 / 10000 <= X - 1 <= 443 / 10000)%R) by lra. assert (AB : (Rabs (X - 1) <= 443 / 10000)%R) by (apply Rabs_le; lra). assert (HB : (Rabs (X - 1) <= / 16)%R) by lra.
      destruct (one_rem rm x X Hx HB N) as (e & Hr & He & EB & _). destruct (sign_dec (X - 1) ltac:(lra)) as (p & Hp & EP). rewrite EP in Hr.
      destruct (log2d_near_e rm _ (Rabs (X - 1)) p e (hD rm) eq_refl Hp Hr He EB AB) as (a & b & S & H & E & RS & RH & HE).
      exists a, b, S, H. split; [exact E|]. split; [exact RS|]. split; [exact RH|]. split; [|intros [C|C]; lra]. rewrite <- EP in HE.
      pose proof (lnN_rel (X - 1) RB) as L. pose proof (ln1p_abs6 (X - 1) HB) as A. replace (1 + (X - 1))%R with X in * by ring.
      pose proof (hD_b rm) as HH. assert (0 <= Rabs (X - 1))%R by apply Rabs_pos. set (M := Rabs (X - 1)) in *.
      assert (LL : (94 / 100 * M <= Rabs (ln X / ln 2))%R).
      { unfold Rdiv. rewrite Rabs_mult, (Rabs_pos_eq (/ ln 2)) by (apply Rlt_le, Rinv_0_lt_compat; lra). apply Rle_trans with (1 := A). rewrite <- (Rmult_1_r (Rabs (ln X))) at 1. apply Rmult_le_compat_l; [apply Rabs_pos|]. interval with (i_prec 40). }
      replace (S + H - ln X / ln 2)%R with (S + H - lnN (X - 1) + (lnN (X - 1) - ln X / ln 2))%R by ring. apply Rle_trans with (1 := Rabs_triang _ _).
      assert (19 / 100 * hD rm * M + bp (-61) * M <= bp (match rm with RNE => -54 | _ => -53 end) * (94 / 100 * M))%R by (unfold hD; destruct rm; bpn; lra).
      assert (bp (match rm with RNE => -54 | _ => -53 end) * (94 / 100 * M) <= bp (match rm with RNE => -54 | _ => -53 end) * Rabs (ln X / ln 2))%R by (apply Rmult_le_compat_l; [apply bpow_ge_0|exact LL]). lra.
  - assert (FX : (X <= 9577 / 10000 \/ 10442 / 10000 <= X)%R) by (destruct PR; [left; lra|right; lra]).
    destruct (log2d_far_core rm x X Hx HX FX) as (a & b & S & H & E & RS & RH & HE). exists a, b, S, H. repeat (split; [assumption|]). split; [|intros _; exact HE].
    pose proof (lg_away X HX FX) as LA. apply Rle_trans with (1 := HE). apply Rle_trans with (bp (match rm with RNE => -54 | _ => -53 end) * (61 / 1000))%R; [destruct rm; bpn; lra|].
    apply Rmult_le_compat_l; [apply bpow_ge_0|exact LA].
Qed.
Theorem log2_d_accuracy : forall rm x zs, is_pattern D x -> is_fin D x = true -> let X := fval D x in (0 < X)%R -> X <> 1%R ->
  exists v, (Rabs (v - ln X / ln 2) <= bp (match rm with RNE => -54 | _ => -53 end) * Rabs (ln X / ln 2))%R /\ rounded D rm v zs (log2_d rm x).
Proof.
  intros rm x zs P Fi X HX N1. destruct (log2_wrapper_spec D good64 (log2d_impl rm) x P) as (_ & _ & _ & _ & _ & E).
  unfold log2_d. rewrite (E Fi HX N1). destruct (log2d_core rm x X ltac:(split; auto) HX N1) as (a & b & S & H & -> & RS & RH & HE & _). exists (S + H)%R. split; [exact HE|].
  apply add_rounded; auto. refine (rel_ne0 _ _ _ _ HE _); [destruct rm; lia|]. apply lg_ne0; auto.
Qed.
(** A real very close to a small integer rounds to it in the nearest mode. *)
Lemma near_int : forall v n, 1 <= Z.abs n < 2 ^ 11 -> (Rabs (v - IZR n) <= bp (-56))%R -> fround D RNE v = IZR n.
Proof.
  intros v n Hn H. pose proof VED as VE'. assert (GN : generic_format radix2 fexpD (IZR n)) by (replace (IZR n) with (IZR n * bp 0)%R by (cbn; ring); apply gfD; lia).
  destruct (round_N_pt radix2 fexpD (fun x => negb (Z.even x)) v) as [GV NV]. specialize (NV _ GN). change (round radix2 fexpD (Znearest (fun x => negb (Z.even x))) v) with (fround D RNE v) in *.
  set (w := fround D RNE v) in *. assert (NA : (1 <= Rabs (IZR n))%R) by (rewrite <- abs_IZR; apply IZR_le; lia).
  assert (WN : (Rabs (w - IZR n) <= bp (-55))%R). { replace (w - IZR n)%R with ((w - v) + (v - IZR n))%R by ring. apply Rle_trans with (1 := Rabs_triang _ _). rewrite (Rabs_minus_sym (IZR n) v) in NV. change (bp (-55)) with (bp (1 + -56)). rewrite bpow_plus. change (bp 1) with 2%R. lra. }
  assert (WL : (bp (-1) <= Rabs w)%R). { change (bp (-1)) with (/ 2)%R. assert (Rabs (IZR n) <= Rabs w + Rabs (w - IZR n))%R; [|bpn_in WN; lra]. replace (IZR n) with (w + - (w - IZR n))%R at 1 by ring. apply Rle_trans with (1 := Rabs_triang _ _). rewrite Rabs_Ropp. lra. }
  destruct (fmt_mult w (-1) GV ltac:(lia) WL) as (m & MW). change (-1 - 52) with (-53) in MW.
  assert (E : (w - IZR n = IZR (m - n * 2 ^ 53) * bp (-53))%R). { rewrite MW, minus_IZR, mult_IZR, (IZR_pow2 53) by lia. rewrite Rmult_minus_distr_r, Rmult_assoc, <- bpow_plus. change (bp (53 + -53)) with 1%R. ring. }
  assert (Z0 : m - n * 2 ^ 53 = 0).
  { rewrite E, Rabs_mult, (Rabs_pos_eq (bp (-53))), <- abs_IZR in WN by apply bpow_ge_0. assert (IZR (Z.abs (m - n * 2 ^ 53)) < 1)%R by (bpn_in WN; lra). apply lt_IZR in H0. lia. }
  rewrite Z0, Rmult_0_l in E. lra.
Qed.
Theorem log2_d_power : forall x n, is_pattern D x -> is_fin D x = true -> fval D x = bp n -> is_real D (log2_d RNE x) (IZR n).
Proof.
  intros x n P Fi V. destruct (log2_wrapper_spec D good64 (log2d_impl RNE) x P) as (_ & _ & _ & _ & E1 & E).
  destruct (Z.eq_dec n 0) as [->|N].
  - unfold log2_d. rewrite (E1 Fi V). exact (zero_r D good64).
  - assert (N1 : bp n <> 1%R) by (change 1%R with (bp 0); intros C; apply bpow_inj in C; auto).
    assert (HB : 1 <= Z.abs n < 2 ^ 11).
    { pose proof (fin_bound D good64 x Fi) as B. rewrite V, Rabs_pos_eq in B by apply bpow_ge_0. apply lt_bpow in B. change (bias D + 1) with 1024 in B.
      assert (L : (bp (-1074) <= bp n)%R).
      { rewrite <- V. rewrite <- (Rabs_pos_eq (fval D x)) by (rewrite V; apply bpow_ge_0). pose proof (mval_c D 1 good64 ltac:(vm_compute; split; congruence)) as M1. realof D 1 H1. destruct H1 as (_ & _ & H1).
        replace (bp (-1074)) with (mval D 1) by (rewrite M1, H1; ring). apply (mag_ge D x 1 (fval D x) good64); [split; auto|lia|]. destruct (Z_lt_le_dec (mag_of D x) 1); [|auto].
        exfalso. assert (M0 : mag_of D x = 0) by (pose proof (mag_range D good64 x); lia). destruct (zero_mag_val D good64 x M0) as [_ V0]. rewrite V in V0. pose proof (bpow_gt_0 radix2 n). lra. }
      apply le_bpow in L. lia. }
    unfold log2_d. rewrite E by (rewrite ?V; auto; apply bpow_gt_0).
    destruct (log2d_core RNE x (bp n) ltac:(split; auto) (bpow_gt_0 _ _) N1) as (a & b & S & H & -> & RS & RH & _ & HE).
    assert (L2 : (0 < ln 2)%R) by interval with (i_prec 40).
    replace (ln (bp n) / ln 2)%R with (IZR n) in HE by (rewrite <- Rpower2_Z; unfold Rpower; rewrite ln_exp; field; lra).
    assert (F : (bp n <= / 2 \/ 2 <= bp n)%R). { destruct (Z_lt_le_dec n 0); [left; change (/ 2)%R with (bp (-1))|right; change 2%R with (bp 1)]; apply bpow_le; lia. }
    assert (FR : fround D RNE (S + H) = IZR n). { apply near_int; [exact HB|]. apply Rle_trans with (1 := HE F). bpn. lra. }
    rewrite <- FR. apply (add_r D good64); auto. rewrite FR. apply bigD with 11; [lia|]. rewrite <- abs_IZR, <- (IZR_pow2 11) by lia. apply IZR_lt. lia.
Qed.

(** ** log10 *)
Lemma ln_ge_d : forall x X, is_real D x X -> (0 < X)%R -> X <> 1%R -> (bp (-54) <= Rabs (ln X) <= 800)%R.
Proof.
  intros x X Hx HX N1. split.
  - destruct (Rle_or_lt (Rabs (X - 1)) (/ 16)) as [B|B].
    + destruct (one_rem RNE x X Hx B N1) as (e & _ & He & EB & _). pose proof (ln1p_abs6 (X - 1) B) as A. replace (1 + (X - 1))%R with X in A by ring.
      assert (bp (-53) <= Rabs (X - 1))%R by (apply Rle_trans with (2 := proj1 EB); apply bpow_le; lia). bpn_in H. bpn. lra.
    + pose proof (ln_away X HX) as L. assert (6 / 100 <= Rabs (ln X))%R; [apply L|bpn; lra]. destruct (Rle_or_lt 0 (X - 1)); [rewrite Rabs_pos_eq in B by auto; right; lra|rewrite Rabs_left in B by auto; left; lra].
  - destruct (logd_reduce_spec 7 RNE x X ltac:(auto) Hx HX) as (i & k & z & Z & _ & _ & Hk & _ & XE & _ & ZB & _).
    assert (XL : ln X = (IZR k * ln 2 + ln Z)%R). { rewrite XE, ln_mult by (try lra; apply bpow_gt_0). rewrite <- Rpower2_Z. unfold Rpower. rewrite ln_exp. ring. }
    assert (KB : (-1075 <= IZR k <= 1024)%R) by (split; apply IZR_le; lia). assert (ZL : (-0.4 <= ln Z <= 0.4)%R) by (split; interval with (i_prec 40)).
    assert (L2 : (0.693 <= ln 2 <= 0.694)%R) by interval with (i_prec 40). rewrite XL. apply Rabs_le. nra.
Qed.
Theorem log10_d_accuracy : forall rm x zs, is_pattern D x -> is_fin D x = true -> let X := fval D x in (0 < X)%R -> X <> 1%R ->
  exists v, (Rabs (v - ln X / ln 10) <= bp (match rm with RNE => -52 | _ => -51 end) * Rabs (ln X / ln 10))%R /\ rounded D rm v zs (log10_d rm x).
Proof.
  intros rm x zs P Fi X HX N1. destruct (log_wrapper_spec D good64 (fun y => f_mul D rm (logd_impl rm y) log10e_d) x P) as (_ & _ & _ & _ & _ & E).
  unfold log10_d. change F64 with D. rewrite (E Fi HX N1). clear E. assert (Hx : is_real D x X) by (split; auto).
  destruct (logd_core rm x X Hx HX N1) as (a & b & S & H & -> & RS & RH & HE). pose proof (ln_ge_d x X Hx HX N1) as LG.
  set (W := (S + H)%R) in *. set (L := ln X) in *. set (eps := bp (match rm with RNE => -55 | _ => -54 end)) in *.
  assert (EB : (0 < eps <= / 1000000000000)%R) by (split; [apply bpow_gt_0|apply Rle_trans with (bp (-54)); [apply bpow_le; destruct rm; lia|bpn; lra]]).
  pose proof (Rabs_pos L) as L0.
  assert (WL : (Rabs W <= (1 + eps) * Rabs L)%R). { replace W with (L + (W - L))%R by ring. eapply Rle_trans; [apply Rabs_triang|]. lra. }
  assert (WB : (Rabs W <= 801)%R) by nra.
  set (r' := fround D rm W).
  assert (RR : is_real D (f_add D rm a b) r') by (apply (add_r D good64); auto; apply (bound_big rm W 10); [lia|apply Rle_trans with (1 := WB); bpn; lra]).
  pose proof (rel_e D good64 ltac:(vm_compute; congruence) rm W) as RE. fold r' in RE. change (emin D) with (-1074) in RE.
  set (u := uF D rm) in *. assert (UV : u = bp (match rm with RNE => -53 | _ => -52 end)) by (unfold u, uF; destruct rm; reflexivity).
  assert (UB : (0 < u <= / 1000000000000)%R) by (rewrite UV; split; [apply bpow_gt_0|apply Rle_trans with (bp (-52)); [apply bpow_le; destruct rm; lia|bpn; lra]]).
  assert (ET : (bp (-1074) <= bp (-1020) * Rabs L)%R). { apply Rle_trans with (bp (-1020) * bp (-54))%R; [rewrite <- bpow_plus; apply bpow_le; lia|]. apply Rmult_le_compat_l; [apply bpow_ge_0|apply LG]. }
  assert (EH : (bp (-1020) <= bp (-70))%R) by (apply bpow_le; lia).
  assert (RL : (Rabs (r' - L) <= (eps + u * (1 + eps) + bp (-70)) * Rabs L)%R).
  { replace (r' - L)%R with ((r' - W) + (W - L))%R by ring. eapply Rle_trans; [apply Rabs_triang|]. assert (u * Rabs W <= u * ((1 + eps) * Rabs L))%R by (apply Rmult_le_compat_l; lra).
    assert (bp (-1020) * Rabs L <= bp (-70) * Rabs L)%R by (apply Rmult_le_compat_r; lra). lra. }
  clear ET EH RE.
  realof D log10e_d HC. match type of HC with is_real _ _ ?c => remember c as C eqn:EC end.
  assert (CB : (Rabs (C - / ln 10) <= / ln 10 * bp (-54))%R) by (rewrite EC; bpn; interval with (i_prec 80)).
  destruct RR as (PR & FR & VR'). destruct HC as (PC & FC & VC). exists (r' * C)%R.
  assert (I10 : (0 < / ln 10)%R) by interval with (i_prec 40).
  assert (CP : (0 < C <= / ln 10 * (1 + bp (-54)))%R). { apply Rabs_le_inv in CB. bpn_in CB. bpn. split; lra. }
  split.
  - unfold Rdiv. replace (r' * C - L * / ln 10)%R with ((r' - L) * C + L * (C - / ln 10))%R by ring. eapply Rle_trans; [apply Rabs_triang|]. rewrite !Rabs_mult, (Rabs_pos_eq C), (Rabs_pos_eq (/ ln 10)) by lra.
    set (K := (eps + u * (1 + eps) + bp (-70))%R) in *. 
    assert (T1 : (Rabs (r' - L) * C <= K * Rabs L * (/ ln 10 * (1 + bp (-54))))%R) by (apply Rmult_le_compat; [apply Rabs_pos|lra|exact RL|lra]).
    assert (T2 : (Rabs L * Rabs (C - / ln 10) <= Rabs L * (/ ln 10 * bp (-54)))%R) by (apply Rmult_le_compat_l; [apply Rabs_pos|exact CB]).
    assert (LP : (0 <= Rabs L * / ln 10)%R) by (apply Rmult_le_pos; [apply Rabs_pos|lra]). set (q := (Rabs L * / ln 10)%R) in *.
    replace (K * Rabs L * (/ ln 10 * (1 + bp (-54))))%R with (K * (1 + bp (-54)) * q)%R in T1 by (unfold q; ring).
    replace (Rabs L * (/ ln 10 * bp (-54)))%R with (bp (-54) * q)%R in T2 by (unfold q; ring).
    assert (QQ : (K * (1 + bp (-54)) + bp (-54) <= bp (match rm with RNE => -52 | _ => -51 end))%R) by (unfold K, eps; rewrite UV; destruct rm; bpn; lra).
    apply Rle_trans with ((K * (1 + bp (-54)) + bp (-54)) * q)%R; [lra|]. apply Rmult_le_compat_r; auto.
  - assert (NR : (r' * C <> 0)%R).
    { apply Rmult_integral_contrapositive. split; [|lra]. intros Z0. rewrite Z0, Rminus_0_l, Rabs_Ropp in RL. assert (0 < Rabs L)%R by (destruct LG as [G _]; bpn_in G; lra). assert (eps + u * (1 + eps) + bp (-70) < 1)%R by (bpn; nra). nra. }
    apply rounded_sgn with (xorb (sign_of D (f_add D rm a b)) (sign_of D log10e_d)); [|exact NR]. rewrite <- VR', <- VC. apply (f_mul_spec D good64); auto.
Qed.
