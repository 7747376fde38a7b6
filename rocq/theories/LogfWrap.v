(** * log, log2 and log10 for float: the argument checks and the complete functions *)
From Coq Require Import ZArith Lia Bool Reals Lra List.
From Flocq Require Import Core Relative.
From Interval Require Import Tactic.
From Verif Require Import MachInt Fmt FloatSpec FmtProofs RoundProofs FOps FOpsProofs ExactOps NextProofs ExtFloatSpec ExtFloatProofs ExtInterp FmanipWide ErrLib ExpoData ExpoF Exp2fProofs ExpoFWrap LogRed LogfNum Log2fNum LogfProofs Log2fProofs.
Import ListNotations.
Open Scope Z_scope.

Section Wrap.
Context (F : fmt) (HF : good_fmt F).
Local Notation big := (bpow radix2 (bias F + 1)).
Lemma zero_pat : f_zero F false = 0. Proof. reflexivity. Qed.
Lemma sz0 : forall s m, szval s m = 0 <-> m = 0. Proof. intros s m. unfold szval. destruct s; lia. Qed.
Lemma eq_nan : forall a b, is_nan F a = true -> f_eq F a b = false.
Proof. intros a b H. unfold f_eq, f_cmp. rewrite H. reflexivity. Qed.
Lemma lt_nan : forall a b, is_nan F a = true -> f_lt F a b = false.
Proof. intros a b H. unfold f_lt, f_cmp. rewrite H. reflexivity. Qed.
Lemma inf_facts : is_nan F (inf_mag F) = false /\ sign_of F (inf_mag F) = false /\ mag_of F (inf_mag F) = inf_mag F /\ is_pattern F (inf_mag F) /\ 0 < inf_mag F < sign_unit F.
Proof.
  pose proof (gf_fl F HF). pose proof (gf_el F HF). pose proof (Z.pow_pos_nonneg 2 (fl F) ltac:(lia) ltac:(lia)).
  assert (2 <= 2 ^ el F) by (apply (Z.pow_le_mono_r 2 1 (el F)); lia).
  assert (IS : 0 < inf_mag F < sign_unit F). { unfold inf_mag, sign_unit, expmax. rewrite Z.pow_add_r by lia. nia. }
  assert (SW : 2 ^ width F = 2 * sign_unit F). { unfold width, sign_unit. rewrite <- Z.pow_succ_r by lia. f_equal; lia. }
  assert (P : is_pattern F (inf_mag F)) by (split; lia).
  assert (M : mag_of F (inf_mag F) = inf_mag F) by (unfold mag_of; apply Z.mod_small; lia).
  repeat split; try lia; auto; try apply P.
  - unfold is_nan. rewrite M. apply Z.ltb_ge. lia.
  - rewrite (sign_of_eq F HF) by auto. apply Z.leb_gt. lia.
Qed.
Lemma split_pat : forall x, is_pattern F x -> x = sbit F (sign_of F x) + mag_of F x.
Proof.
  intros x [P1 P2]. pose proof (gf_fl F HF). pose proof (gf_el F HF). assert (SW : 2 ^ width F = 2 * sign_unit F). { unfold width, sign_unit. rewrite <- Z.pow_succ_r by lia. f_equal; lia. }
  assert (0 < sign_unit F) by (unfold sign_unit; apply Z.pow_pos_nonneg; lia).
  rewrite (sign_of_eq F HF) by (split; auto). unfold mag_of, sbit. destruct (Z.leb_spec (sign_unit F) x).
  - replace x with (x - sign_unit F + 1 * sign_unit F) at 2 by ring. rewrite Z.mod_add, Z.mod_small by lia. lia.
  - rewrite Z.mod_small; lia.
Qed.
Lemma eq_inf : forall x, is_pattern F x -> f_eq F x (f_inf F false) = (x =? inf_mag F).
Proof.
  intros x P. destruct inf_facts as (N & S & M & PI & IS). change (f_inf F false) with (inf_mag F).
  unfold f_eq, f_cmp. rewrite N, S, M, orb_false_r. destruct (is_nan F x) eqn:NX.
  - destruct (Z.eqb_spec x (inf_mag F)) as [->|]; [rewrite N in NX; discriminate|reflexivity].
  - pose proof (split_pat x P) as E. pose proof (mag_range F HF x). unfold szval. change (if false then - inf_mag F else inf_mag F) with (inf_mag F).
    destruct (sign_of F x) eqn:SX.
    + replace (- mag_of F x ?= inf_mag F) with Lt by (symmetry; apply Z.compare_lt_iff; lia).
      symmetry. apply Z.eqb_neq. intros ->. rewrite S in SX. discriminate.
    + unfold sbit in E. cbn in E. destruct (Z.compare_spec (mag_of F x) (inf_mag F)); symmetry; [apply Z.eqb_eq|apply Z.eqb_neq|apply Z.eqb_neq]; lia.
Qed.
Lemma one_real : is_real F (f_one F false) 1. Proof. exact (one_r F HF). Qed.
Lemma eq_one : forall x, is_pattern F x -> f_eq F x (f_one F false) = true -> is_real F x 1.
Proof.
  intros x P H. destruct one_real as (P1 & F1 & V1). destruct (is_nan F x) eqn:N; [rewrite eq_nan in H by auto; discriminate|].
  destruct (is_fin F x) eqn:Fi.
  - rewrite (f_eq_fin F HF) in H by auto. split; [auto|split; [auto|]]. rewrite V1 in H. destruct (Req_bool_spec (fval F x) 1); [auto|discriminate].
  - exfalso. unfold f_eq, f_cmp in H. rewrite N in H. replace (is_nan F (f_one F false)) with false in H by (symmetry; unfold is_nan, is_fin in *; apply Z.ltb_lt in F1; apply Z.ltb_ge; lia).
    cbn [orb] in H. unfold is_fin in Fi, F1. apply Z.ltb_ge in Fi. apply Z.ltb_lt in F1.
    destruct (Z.compare_spec (szval (sign_of F x) (mag_of F x)) (szval (sign_of F (f_one F false)) (mag_of F (f_one F false)))) as [E|E|E]; try discriminate.
    unfold szval in E. pose proof (mag_range F HF (f_one F false)). destruct (sign_of F x), (sign_of F (f_one F false)); lia.
Qed.
Lemma not_one : forall x, is_pattern F x -> (is_fin F x = true -> fval F x <> 1%R) -> f_eq F x (f_one F false) = false.
Proof. intros x P H. destruct (f_eq F x (f_one F false)) eqn:E; [|reflexivity]. apply eq_one in E; [|auto]. destruct E as (_ & Fi & V). exfalso. exact (H Fi V). Qed.
Lemma zero_mag_val : forall x, mag_of F x = 0 -> is_fin F x = true /\ fval F x = 0%R.
Proof.
  intros x M. destruct inf_facts as (_ & _ & _ & _ & IS). assert (Fi : is_fin F x = true) by (unfold is_fin; rewrite M; apply Z.ltb_lt; lia). split; [auto|].
  pose proof (Rabs_fval F HF x Fi) as A. rewrite M in A. unfold mval in A. unfold sig_of in A. replace (0 <? 2 ^ fl F) with true in A by (symmetry; apply Z.ltb_lt; pose proof (gf_fl F HF); apply Z.pow_pos_nonneg; lia).
  rewrite Rmult_0_l in A. destruct (Req_dec (fval F x) 0); [auto|]. pose proof (Rabs_pos_lt _ H). lra.
Qed.

(** What the argument checks of log and log10 return, and when the kernel is reached. *)
Theorem log_wrapper_spec : forall impl x, is_pattern F x -> let r := log_wrapper F impl x in
  (is_nan F x = true -> r = qnan F) /\ (mag_of F x = 0 -> r = f_inf F true) /\
  (is_nan F x = false -> sign_of F x = true -> 0 < mag_of F x -> r = sbit F true + qnan F) /\
  (x = inf_mag F -> r = inf_mag F) /\ (is_fin F x = true -> fval F x = 1%R -> r = 0) /\
  (is_fin F x = true -> (0 < fval F x)%R -> fval F x <> 1%R -> r = impl x).
Proof.
  intros impl x P r. unfold r, log_wrapper. rewrite zero_pat. repeat match goal with |- _ /\ _ => split end.
  - intros N. rewrite !eq_nan, lt_nan, N by auto. reflexivity.
  - intros M. destruct (zero_mag_val x M) as [Fi V]. rewrite not_one by (auto; intros _; lra). rewrite (f_eq_zero F HF), M. reflexivity.
  - intros N S M. rewrite not_one.
    + rewrite (f_eq_zero F HF), (f_lt_zero F HF), S by auto. replace (mag_of F x =? 0) with false by (symmetry; apply Z.eqb_neq; lia). reflexivity.
    + auto.
    + intros Fi V. rewrite (sign_fval F HF x Fi) in S by lra. rewrite V, Rlt_bool_false in S by lra. discriminate.
  - intros ->. destruct inf_facts as (N & S & M & PI & IS). rewrite not_one.
    + rewrite (f_eq_zero F HF), (f_lt_zero F HF), S, M by auto. replace (inf_mag F =? 0) with false by (symmetry; apply Z.eqb_neq; lia). cbn [andb].
      rewrite eq_inf, Z.eqb_refl by auto. reflexivity.
    + auto.
    + intros Fi. unfold is_fin in Fi. rewrite M in Fi. apply Z.ltb_lt in Fi. lia.
  - intros Fi V. destruct one_real as (P1 & F1 & V1). rewrite (f_eq_fin F HF) by auto. rewrite V, V1, Req_bool_true by auto. reflexivity.
  - intros Fi HP N1. assert (NN : is_nan F x = false) by (unfold is_nan, is_fin in *; apply Z.ltb_lt in Fi; apply Z.ltb_ge; lia).
    rewrite not_one by auto. rewrite (f_eq_zero F HF), (f_lt_zero F HF) by auto.
    replace (mag_of F x =? 0) with false. 2: { symmetry. apply Z.eqb_neq. intros M. destruct (zero_mag_val x M) as [_ V]. lra. }
    rewrite (sign_fval F HF x Fi) by lra. rewrite Rlt_bool_false by lra. cbn [andb]. rewrite eq_inf by auto.
    replace (x =? inf_mag F) with false. 2: { symmetry. apply Z.eqb_neq. intros ->. destruct inf_facts as (_ & _ & M & _). unfold is_fin in Fi. rewrite M in Fi. apply Z.ltb_lt in Fi. lia. }
    rewrite NN. reflexivity.
Qed.
Theorem log2_wrapper_spec : forall impl x, is_pattern F x -> let r := log2_wrapper F impl x in
  (is_nan F x = true -> r = x) /\ (mag_of F x = 0 -> r = f_inf F true) /\
  (is_nan F x = false -> sign_of F x = true -> 0 < mag_of F x -> r = sbit F true + qnan F) /\
  (x = inf_mag F -> r = inf_mag F) /\ (is_fin F x = true -> fval F x = 1%R -> r = 0) /\
  (is_fin F x = true -> (0 < fval F x)%R -> fval F x <> 1%R -> r = impl x).
Proof.
  intros impl x P r. unfold r, log2_wrapper. rewrite zero_pat. repeat match goal with |- _ /\ _ => split end.
  - intros N. rewrite !eq_nan, N by auto. reflexivity.
  - intros M. rewrite (f_eq_zero F HF), M. reflexivity.
  - intros N S M. rewrite not_one.
    + rewrite (f_eq_zero F HF), N, S by auto. replace (mag_of F x =? 0) with false by (symmetry; apply Z.eqb_neq; lia). cbn [orb]. rewrite eq_inf by auto.
      replace (x =? inf_mag F) with false; [reflexivity|]. symmetry. apply Z.eqb_neq. intros ->. destruct inf_facts as (_ & S' & _). rewrite S' in S. discriminate.
    + auto.
    + intros Fi V. rewrite (sign_fval F HF x Fi) in S by lra. rewrite V, Rlt_bool_false in S by lra. discriminate.
  - intros ->. destruct inf_facts as (N & S & M & PI & IS). rewrite not_one.
    + rewrite (f_eq_zero F HF), N, M by auto. replace (inf_mag F =? 0) with false by (symmetry; apply Z.eqb_neq; lia). cbn [orb].
      rewrite eq_inf, Z.eqb_refl by auto. reflexivity.
    + auto.
    + intros Fi. unfold is_fin in Fi. rewrite M in Fi. apply Z.ltb_lt in Fi. lia.
  - intros Fi V. destruct one_real as (P1 & F1 & V1). rewrite (f_eq_zero F HF). replace (mag_of F x =? 0) with false. 2: { symmetry. apply Z.eqb_neq. intros M. destruct (zero_mag_val x M) as [_ V']. lra. }
    rewrite (f_eq_fin F HF) by auto. rewrite V, V1, Req_bool_true by auto. reflexivity.
  - intros Fi HP N1. assert (NN : is_nan F x = false) by (unfold is_nan, is_fin in *; apply Z.ltb_lt in Fi; apply Z.ltb_ge; lia).
    rewrite not_one by auto. rewrite (f_eq_zero F HF).
    replace (mag_of F x =? 0) with false. 2: { symmetry. apply Z.eqb_neq. intros M. destruct (zero_mag_val x M) as [_ V]. lra. }
    rewrite NN, eq_inf by auto.
    replace (x =? inf_mag F) with false. 2: { symmetry. apply Z.eqb_neq. intros ->. destruct inf_facts as (_ & _ & M & _). unfold is_fin in Fi. rewrite M in Fi. apply Z.ltb_lt in Fi. lia. }
    rewrite (sign_fval F HF x Fi) by lra. rewrite Rlt_bool_false by lra. reflexivity.
Qed.
End Wrap.

Lemma narrow' : forall rm y W zs, is_real D y W -> W <> 0%R -> rounded F32 rm W zs (f_cast F64 F32 rm y).
Proof.
  intros rm y W zs (P & Fi & V) HW. apply rounded_sgn with (sign_of D y); [|lra]. rewrite <- V. apply f_cast_spec; auto; first [exact good64|exact good32].
Qed.
Lemma ln_ne0 : forall X, (0 < X)%R -> X <> 1%R -> ln X <> 0%R.
Proof. intros X H N E. apply N. rewrite <- ln_1 in E. apply ln_inv; lra. Qed.
Lemma near_ne0 : forall W L, (Rabs (W - L) <= bp (-25) * Rabs L)%R -> L <> 0%R -> W <> 0%R.
Proof. intros W L H N E. subst W. rewrite Rminus_0_l, Rabs_Ropp in H. pose proof (Rabs_pos_lt L N). bpn_in H. lra. Qed.

Theorem logf_accuracy : forall rm x zs, is_pattern F32 x -> is_fin F32 x = true -> let X := fval F32 x in (0 < X)%R -> X <> 1%R ->
  exists v, (Rabs (v - ln X) <= bp (-25) * Rabs (ln X))%R /\ rounded F32 rm v zs (logf rm x).
Proof.
  intros rm x zs P Fi X HX N1. destruct (log_wrapper_spec F32 good32 (logf_impl rm) x P) as (_ & _ & _ & _ & _ & E).
  unfold logf. rewrite (E Fi HX N1). destruct (logf_core rm x X ltac:(split; auto) HX N1) as (y & W & -> & RW & HE). exists W. split; [exact HE|].
  apply narrow'; [auto|]. exact (near_ne0 W _ HE (ln_ne0 X HX N1)).
Qed.
Theorem log2f_accuracy : forall rm x zs, is_pattern F32 x -> is_fin F32 x = true -> let X := fval F32 x in (0 < X)%R -> X <> 1%R ->
  exists v, (Rabs (v - ln X / ln 2) <= bp (-25) * Rabs (ln X / ln 2))%R /\ rounded F32 rm v zs (log2f rm x).
Proof.
  intros rm x zs P Fi X HX N1. destruct (log2_wrapper_spec F32 good32 (log2f_impl rm) x P) as (_ & _ & _ & _ & _ & E).
  unfold log2f. rewrite (E Fi HX N1). destruct (log2f_core rm x X ltac:(split; auto) HX N1) as (y & W & -> & RW & HE & _). exists W. split; [exact HE|].
  apply narrow'; [auto|]. apply (near_ne0 W _ HE). pose proof (ln_ne0 X HX N1). pose proof ln2_b. unfold lg. intros C. apply H.
  replace (ln X) with (ln X / ln 2 * ln 2)%R by (field; lra). rewrite C. ring.
Qed.
Theorem log2f_power : forall rm x n, is_pattern F32 x -> is_fin F32 x = true -> fval F32 x = bp n -> is_real F32 (log2f rm x) (IZR n).
Proof.
  intros rm x n P Fi V. destruct (log2_wrapper_spec F32 good32 (log2f_impl rm) x P) as (_ & _ & _ & _ & E1 & E).
  destruct (Z.eq_dec n 0) as [->|N].
  - unfold log2f. rewrite (E1 Fi V). exact (zero_r F32 good32).
  - assert (N1 : bp n <> 1%R) by (change 1%R with (bp 0); intros C; apply bpow_inj in C; auto).
    assert (HB : Z.abs n < 2 ^ 24).
    { pose proof (fin_bound F32 good32 x Fi) as B. rewrite V, Rabs_pos_eq in B by apply bpow_ge_0. apply lt_bpow in B. change (bias F32 + 1) with 128 in B.
      assert (L : (bp (-149) <= bp n)%R).
      { rewrite <- V. rewrite <- (Rabs_pos_eq (fval F32 x)) by (rewrite V; apply bpow_ge_0). pose proof (mval_c F32 1 good32 ltac:(vm_compute; split; congruence)) as M1. realof F32 1 H1. destruct H1 as (_ & _ & H1).
        replace (bp (-149)) with (mval F32 1) by (rewrite M1, H1; ring). apply (mag_ge F32 x 1 (fval F32 x) good32); [split; auto|lia|]. destruct (Z_lt_le_dec (mag_of F32 x) 1); [|auto].
        exfalso. assert (M0 : mag_of F32 x = 0) by (pose proof (mag_range F32 good32 x); lia). destruct (zero_mag_val F32 good32 x M0) as [_ V0]. rewrite V in V0. pose proof (bpow_gt_0 radix2 n). lra. }
      apply le_bpow in L. lia. }
    unfold log2f. rewrite E by (rewrite ?V; auto; apply bpow_gt_0).
    destruct (log2f_core rm x (bp n) ltac:(split; auto) (bpow_gt_0 _ _) N1) as (y & W & -> & RW & _ & HP). rewrite (HP n eq_refl) in RW.
    pose proof (narrow' rm y _ false RW (IZR_neq n 0 N)) as R.
    destruct (rounded_repr F32 rm (IZR n) false _ ltac:(replace (IZR n) with (IZR n * bp 0)%R by (cbn; ring); apply (fmt_scaled F32); [exact HB|vm_compute; congruence])
      ltac:(apply Rlt_le_trans with (bp 24); [rewrite <- abs_IZR; change (bp 24) with (IZR (2 ^ 24)); apply IZR_lt; exact HB|apply bpow_le; vm_compute; congruence]) R) as (A & B & C & _).
    split; auto.
Qed.

(** ** log10 *)
Lemma ln_ge : forall x X, is_real F32 x X -> (0 < X)%R -> X <> 1%R -> (bp (-25) <= Rabs (ln X) <= 200)%R.
Proof.
  intros x X Hx HX N1. destruct (logf_reduce_spec RNE x X Hx HX) as (i & k & z & Z & E & Hi & Hk & Hz & XE & ZI & ZB & ZM).
  assert (ZP : (0 < Z)%R) by (rewrite zl_0 in ZB; lra).
  assert (XL : ln X = (IZR k * ln 2 + ln Z)%R). { rewrite XE, ln_mult by (auto; apply bpow_gt_0). rewrite <- Rpower2_Z. unfold Rpower. rewrite ln_exp. ring. }
  assert (ZL : (-359 / 1000 <= ln Z <= 336 / 1000)%R) by (rewrite zl_0, zl_16 in ZB; split; interval with (i_prec 40)). pose proof ln2_b as LB2.
  assert (KB : (-150 <= IZR k <= 128)%R) by (split; apply IZR_le; lia). split; [|rewrite XL; apply Rabs_le; nra].
  destruct (Z.eq_dec k 0) as [->|K].
  - rewrite XL, Rmult_0_l, Rplus_0_l. rewrite Rmult_1_r in XE. subst Z. destruct ZM as (m & ZM).
    assert (GX : (bp (-24) <= Rabs (X - 1))%R).
    { replace (X - 1)%R with (IZR (m - 2 ^ 24) * bp (-24))%R. 2: { rewrite ZM, minus_IZR. change (IZR (2 ^ 24)) with (bp 24). rewrite Rmult_minus_distr_r, <- bpow_plus. reflexivity. }
      rewrite Rabs_mult, (Rabs_pos_eq (bp (-24))) by apply bpow_ge_0. rewrite <- (Rmult_1_l (bp (-24))) at 1. apply Rmult_le_compat_r; [apply bpow_ge_0|].
      rewrite <- abs_IZR. apply (IZR_le 1). assert (m <> 2 ^ 24); [|lia]. intros ->. apply N1. rewrite ZM. change (IZR (2 ^ 24)) with (bp 24). rewrite <- bpow_plus. reflexivity. }
    bpn_in GX. bpn. rewrite zl_0, zl_16 in ZB. destruct (Rle_or_lt 1 X) as [H|H].
    + rewrite Rabs_pos_eq in GX by lra. pose proof (ln1p_lower (X - 1) ltac:(lra)) as L. replace (1 + (X - 1))%R with X in L by ring.
      assert (/ 33554432 <= (X - 1) / X)%R. { apply Rmult_le_reg_r with X; [lra|]. replace ((X - 1) / X * X)%R with (X - 1)%R by (field; lra). lra. }
      rewrite Rabs_pos_eq; lra.
    + rewrite Rabs_left in GX by lra. pose proof (ln1p_upper (X - 1) ltac:(lra)) as L. replace (1 + (X - 1))%R with X in L by ring. rewrite Rabs_left1; lra.
  - pose proof (ln_far Z k ZB K) as LF. rewrite <- XL in LF. bpn. lra.
Qed.
Definition u32 (rm : rmode) : R := bp (match rm with RNE => -24 | _ => -23 end).
Lemma fround_rel : forall rm x, (bp (-126) <= Rabs x)%R -> (Rabs (fround F32 rm x - x) <= u32 rm * Rabs x)%R.
Proof.
  intros rm x H. pose proof (RemProofs.VE F32 good32). pose proof (RemProofs.VR rm). unfold fround, u32. assert (PP : Prec_gt_0 (prec F32)) by (unfold Prec_gt_0; vm_compute; reflexivity).
  assert (G : (Rabs (round radix2 (FLT_exp (emin F32) (prec F32)) (rnd rm) x - x) <= bp (-23) * Rabs x)%R).
  { apply Rlt_le. change (-23) with (- prec F32 + 1). apply (relative_error_FLT radix2 (emin F32) (prec F32) PP (rnd rm) x). exact H. }
  destruct rm; try exact G. replace (bp (-24)) with (/ 2 * bp (- prec F32 + 1))%R by (change (- prec F32 + 1) with (-23); bpn; lra).
  apply (relative_error_N_FLT radix2 (emin F32) (prec F32) PP). exact H.
Qed.
Lemma fround_mid : forall rm x, (Rabs x <= bp 100)%R -> (Rabs (fround F32 rm x) < bp (bias F32 + 1))%R.
Proof.
  intros rm x H. apply Rle_lt_trans with (bp 100); [|apply bpow_lt; reflexivity]. pose proof (RemProofs.VE F32 good32). pose proof (RemProofs.VR rm). unfold fround.
  apply abs_round_le_generic; auto. apply generic_format_bpow. vm_compute. congruence.
Qed.
Theorem log10f_accuracy : forall rm x zs, is_pattern F32 x -> is_fin F32 x = true -> let X := fval F32 x in (0 < X)%R -> X <> 1%R ->
  exists v, (Rabs (v - ln X / ln 10) <= bp (match rm with RNE => -23 | _ => -22 end) * Rabs (ln X / ln 10))%R /\ rounded F32 rm v zs (log10f rm x).
Proof.
  intros rm x zs P Fi X HX N1. destruct (log_wrapper_spec F32 good32 (fun y => f_mul F32 rm (logf_impl rm y) log10e_f) x P) as (_ & _ & _ & _ & _ & E).
  unfold log10f. rewrite (E Fi HX N1). clear E. assert (Hx : is_real F32 x X) by (split; auto).
  destruct (logf_core rm x X Hx HX N1) as (y & W & -> & RW & HE). pose proof (ln_ge x X Hx HX N1) as LG.
  set (L := ln X) in *. assert (WL : (Rabs W <= (1 + bp (-25)) * Rabs L)%R). { replace W with (L + (W - L))%R by ring. eapply Rle_trans; [apply Rabs_triang|]. lra. }
  assert (WG : ((1 - bp (-25)) * Rabs L <= Rabs W)%R). { assert (Rabs L <= Rabs W + Rabs (W - L))%R; [|lra]. replace L with (W + - (W - L))%R at 1 by ring. eapply Rle_trans; [apply Rabs_triang|]. rewrite Rabs_Ropp. lra. }
  assert (W126 : (bp (-26) <= Rabs W)%R) by (bpn_in LG; bpn_in WG; bpn; nra).
  assert (NW : W <> 0%R) by (intros ->; rewrite Rabs_R0 in W126; bpn_in W126; lra).
  destruct (narrow' rm y W false RW NW) as (PY & _ & VY & _).
  destruct (VY ltac:(apply fround_mid; bpn_in WL; bpn; lra)) as [FY V]. set (r := f_cast F64 F32 rm y) in *. clear VY.
  pose proof (fround_rel rm W ltac:(apply Rle_trans with (2 := W126); apply bpow_le; lia)) as FR. rewrite <- V in FR. set (r' := fval F32 r) in *.
  realof F32 log10e_f HC. match type of HC with is_real _ _ ?c => remember c as C eqn:EC end.
  assert (CB : (Rabs (C - / ln 10) <= / ln 10 * (4 / 5) * bp (-25))%R) by (rewrite EC; bpn; interval with (i_prec 60)).
  destruct HC as (PC & FC & VC). exists (r' * C)%R.
  assert (I10 : (0 < / ln 10)%R) by interval with (i_prec 40).
  assert (RL : (Rabs (r' - L) <= (bp (-25) + u32 rm * (1 + bp (-25))) * Rabs L)%R).
  { replace (r' - L)%R with ((r' - W) + (W - L))%R by ring. eapply Rle_trans; [apply Rabs_triang|]. assert (0 <= u32 rm)%R by apply bpow_ge_0. nra. }
  assert (CP : (0 < C <= 101 / 100 * / ln 10)%R). { apply Rabs_le_inv in CB. bpn_in CB. split; lra. }
  split.
  - unfold Rdiv. replace (r' * C - L * / ln 10)%R with ((r' - L) * C + L * (C - / ln 10))%R by ring. eapply Rle_trans; [apply Rabs_triang|]. rewrite !Rabs_mult, (Rabs_pos_eq C), (Rabs_pos_eq (/ ln 10)) by lra.
    assert (T1 : (Rabs (r' - L) * C <= (bp (-25) + u32 rm * (1 + bp (-25))) * Rabs L * (/ ln 10 * (1 + 4 / 5 * bp (-25))))%R).
    { apply Rmult_le_compat; [apply Rabs_pos|lra|exact RL|]. apply Rabs_le_inv in CB. lra. }
    assert (T2 : (Rabs L * Rabs (C - / ln 10) <= Rabs L * (/ ln 10 * (4 / 5) * bp (-25)))%R) by (apply Rmult_le_compat_l; [apply Rabs_pos|exact CB]).
    assert (LP : (0 <= Rabs L * / ln 10)%R) by (apply Rmult_le_pos; [apply Rabs_pos|lra]).
    set (q := (Rabs L * / ln 10)%R) in *.
    replace ((bp (-25) + u32 rm * (1 + bp (-25))) * Rabs L * (/ ln 10 * (1 + 4 / 5 * bp (-25))))%R with ((bp (-25) + u32 rm * (1 + bp (-25))) * (1 + 4 / 5 * bp (-25)) * q)%R in T1 by (unfold q; ring).
    replace (Rabs L * (/ ln 10 * (4 / 5) * bp (-25)))%R with (4 / 5 * bp (-25) * q)%R in T2 by (unfold q; ring).
    assert (QQ : ((bp (-25) + u32 rm * (1 + bp (-25))) * (1 + 4 / 5 * bp (-25)) + 4 / 5 * bp (-25) <= bp (match rm with RNE => -23 | _ => -22 end))%R) by (unfold u32; destruct rm; bpn; lra).
    apply Rle_trans with (((bp (-25) + u32 rm * (1 + bp (-25))) * (1 + 4 / 5 * bp (-25)) + 4 / 5 * bp (-25)) * q)%R; [lra|]. apply Rmult_le_compat_r; auto.
  - assert (NR : (r' * C <> 0)%R).
    { apply Rmult_integral_contrapositive. split; [|lra]. intros Z0. rewrite Z0, Rminus_0_l, Rabs_Ropp in RL. bpn_in LG. assert (bp (-25) + u32 rm * (1 + bp (-25)) < 1)%R by (unfold u32; destruct rm; bpn; lra). nra. }
    apply rounded_sgn with (xorb (sign_of F32 r) (sign_of F32 log10e_f)); [|exact NR]. unfold r'. rewrite <- VC. apply (f_mul_spec F32 good32); auto.
Qed.
