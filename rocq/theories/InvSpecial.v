(** * acos, asin, atan and atan2: the instances for float and double, and the special operands *)
From Coq Require Import ZArith Lia List Bool Reals Lra Ratan.
From Flocq Require Import Core.
From Interval Require Import Tactic.
From Verif Require Import MachInt Fmt FloatSpec FmtProofs RoundProofs FPBits FPBitsProofs FOps FOpsProofs ExactOps Compare CompareProofs ExtFloatSpec ExtFloatProofs ExtInterp FmanipWide RemProofs ErrLib Exp2fProofs ExpoData ExpoF ExpoFWrap Expm1Proofs Expm1Wrap HypotProofs Log1pWrap SinPoly SinRedF SinF InvTrig InvNum InvPoly InvAcc InvAtan InvAtan2.
Import ListNotations.
Open Scope Z_scope.

(** ** atan at the infinities and at the largest finite numbers *)
Lemma k64 : forall s : bool, is_real D (sbit D s + 0x3ff921fb54442d18) (cneg s (IZR 0x1921fb54442d18 * bp (-52))) /\ is_real D (sbit D s + 0x3ff921fb54442d17) (cneg s (IZR 0x1921fb54442d17 * bp (-52))).
Proof.
  intros []; cbn [cneg].
  - split; [apply (neg_r D good64 _ _ (lit_r false 0x1921fb54442d18 (-52) ltac:(lia) ltac:(lia)))|apply (neg_r D good64 _ _ (lit_r false 0x1921fb54442d17 (-52) ltac:(lia) ltac:(lia)))].
  - split; [apply (lit_r false 0x1921fb54442d18 (-52)); lia|apply (lit_r false 0x1921fb54442d17 (-52)); lia].
Qed.
Lemma k32 : forall s : bool, is_real S32 (sbit S32 s + 0x3fc90fdb) (cneg s (IZR 13176795 * bp (-23))) /\ is_real S32 (sbit S32 s + 0x3fc90fda) (cneg s (IZR 13176794 * bp (-23))).
Proof.
  intros []; cbn [cneg].
  - split; [apply (neg_r S32 good32 _ _ (litf_r 13176795 (-23) ltac:(lia) ltac:(lia)))|apply (neg_r S32 good32 _ _ (litf_r 13176794 (-23) ltac:(lia) ltac:(lia)))].
  - split; [apply (litf_r 13176795 (-23)); lia|apply (litf_r 13176794 (-23)); lia].
Qed.
Definition ends (atan_ : Z -> option Z) (F : fmt) (p : Z) (d : Z) (s : bool) : bool :=
  forallb (fun m => match atan_ (sbit F s + m) with Some a => (a =? sbit F s + p) || ((d =? 1) && (a =? sbit F s + p - 1)) | None => false end) [inf_mag F; max_mag F].
Lemma ends_ok : forall atan_ F p d s, ends atan_ F p d s = true -> forall b, is_pattern F b -> sign_of F b = s -> good_fmt F -> mag_of F b = inf_mag F \/ mag_of F b = max_mag F ->
  exists a, atan_ b = Some a /\ (a = sbit F s + p \/ (d = 1 /\ a = sbit F s + (p - 1))).
Proof.
  intros atan_ F p d s H b P S HF M. rewrite (pattern_split F HF b P), S. unfold ends in H. cbn [forallb] in H. rewrite andb_true_r in H. apply andb_true_iff in H as (H1 & H2).
  assert (G : match atan_ (sbit F s + mag_of F b) with Some a => (a =? sbit F s + p) || ((d =? 1) && (a =? sbit F s + p - 1)) | None => false end = true) by (destruct M as [-> | ->]; assumption).
  destruct (atan_ (sbit F s + mag_of F b)) as [a|]; [|discriminate]. exists a. split; [reflexivity|]. apply orb_true_iff in G as [G|G]; [left; lia|right; apply andb_true_iff in G; lia].
Qed.
Lemma hi64 : forall rm s b, is_pattern D b -> sign_of D b = s -> mag_of D b = inf_mag D \/ mag_of D b = max_mag D -> exists a V, atan_d rm b = Some a /\ is_real D a V /\ (Rabs (V - cneg s (PI / 2)) <= 2 * uF D rm)%R.
Proof.
  intros rm s b P S M. set (d := match rm with RNE => 0 | _ => 1 end). assert (C : ends (atan_d rm) D 0x3ff921fb54442d18 d s = true) by (destruct rm, s; vm_compute; reflexivity).
  destruct (ends_ok _ _ _ _ _ C b P S good64 M) as (a & EA & CA). exists a. destruct (k64 s) as (K1 & K2). assert (SC : forall v, (Rabs (cneg s v - cneg s (PI / 2)) = Rabs (v - PI / 2))%R). { intros v. destruct s; cbn [cneg]; [|reflexivity]. replace (- v - - (PI / 2))%R with (- (v - PI / 2))%R by ring. apply Rabs_Ropp. }
  destruct CA as [-> |(Hd & ->)].
  - exists (cneg s (IZR 0x1921fb54442d18 * bp (-52))). split; [exact EA|]. split; [exact K1|]. rewrite SC. pose proof (pe64 rm). pose proof (u_pos D rm). lra.
  - exists (cneg s (IZR 0x1921fb54442d17 * bp (-52))). split; [exact EA|]. split; [exact K2|]. rewrite SC. apply Rle_trans with (2 * bp (-52))%R. { clear. bpn. interval with (i_prec 120). } destruct rm; [discriminate| | |]; cbn [uF]; apply Req_le; reflexivity.
Qed.
Lemma hi32 : forall rm s b, is_pattern S32 b -> sign_of S32 b = s -> mag_of S32 b = inf_mag S32 \/ mag_of S32 b = max_mag S32 -> exists a V, atan_f rm b = Some a /\ is_real S32 a V /\ (Rabs (V - cneg s (PI / 2)) <= 2 * uF S32 rm)%R.
Proof.
  intros rm s b P S M. set (d := match rm with RNE => 0 | _ => 1 end). assert (C : ends (atan_f rm) S32 0x3fc90fdb d s = true) by (destruct rm, s; vm_compute; reflexivity).
  destruct (ends_ok _ _ _ _ _ C b P S good32 M) as (a & EA & CA). exists a. destruct (k32 s) as (K1 & K2). assert (SC : forall v, (Rabs (cneg s v - cneg s (PI / 2)) = Rabs (v - PI / 2))%R). { intros v. destruct s; cbn [cneg]; [|reflexivity]. replace (- v - - (PI / 2))%R with (- (v - PI / 2))%R by ring. apply Rabs_Ropp. }
  destruct CA as [-> |(Hd & ->)].
  - exists (cneg s (IZR 13176795 * bp (-23))). split; [exact EA|]. split; [exact K1|]. rewrite SC. pose proof (pe32 rm). pose proof (u_pos S32 rm). lra.
  - exists (cneg s (IZR 13176794 * bp (-23))). split; [exact EA|]. split; [exact K2|]. rewrite SC. apply Rle_trans with (2 * bp (-23))%R. { clear. bpn. interval with (i_prec 120). } destruct rm; [discriminate| | |]; cbn [uF]; apply Req_le; reflexivity.
Qed.

(** ** atan2 of finite operands *)
Theorem atan2_64 : forall rm y x Y X A, is_real D y Y -> is_real D x X -> polar X Y A -> exists a V, cc_atan2 rm y x = Some a /\ is_real D a V /\ (Rabs (V - A) <= 24 * uF D rm * Rabs A + 6 * bp (emin D))%R.
Proof.
  intros rm y x Y X A Hy Hx PA.
  assert (HA : forall r X0, is_real D r X0 -> exists a V, atan_d rm r = Some a /\ is_real D a V /\ (Rabs (V - atan X0) <= 21 * uF D rm * Rabs (atan X0) + 4 * bp (emin D))%R).
  { intros r X0 H. destruct (atan64 rm r X0 H) as (a & V & A1 & A2 & A3). exists a, V. split; [exact A1|]. split; [exact A2|]. apply Rle_trans with (1 := A3). pose proof (u_pos D rm). assert (0 <= uF D rm * Rabs (atan X0))%R by (apply Rmult_le_pos; [lra|apply Rabs_pos]). destruct (Rle_bool (Rabs X0) (/ 2)), (Rlt_bool X0 0); lra. }
  assert (HB : (bp (- bias D) <= 0.001 * uF D rm)%R). { apply Rle_trans with (0.001 * bp (-53))%R. { change (- bias D) with (-1023). apply Rle_trans with (bp (-100)); [apply bpow_le; lia|]. bpn. lra. } apply Rmult_le_compat_l; [lra|]. destruct rm; cbn [uF]; apply bpow_le; vm_compute; discriminate. }
  destruct (atan2_fin D good64 del d24 dem db 6%nat rm _ (proj1 pi64) (proj2 pi64) (pe64 rm) HB (atan_d rm) 21 4 ltac:(lra) ltac:(lra) HA (hi64 rm) y x Y X A Hy Hx PA) as (a & V & A1 & A2 & A3).
  exists a, V. split; [exact A1|]. split; [exact A2|]. lra.
Qed.
Theorem atan2_32 : forall rm y x Y X A, is_real S32 y Y -> is_real S32 x X -> polar X Y A -> exists a V, cc_atan2f rm y x = Some a /\ is_real S32 a V /\ (Rabs (V - A) <= 4.01 * uF S32 rm * Rabs A + 3 * bp (emin S32))%R.
Proof.
  intros rm y x Y X A Hy Hx PA.
  assert (HA : forall r X0, is_real S32 r X0 -> exists a V, atan_f rm r = Some a /\ is_real S32 a V /\ (Rabs (V - atan X0) <= 1.001 * uF S32 rm * Rabs (atan X0) + 1 * bp (emin S32))%R).
  { intros r X0 H. destruct (atan32_err rm r X0 H) as (a & V & A1 & A2 & A3). exists a, V. split; [exact A1|]. split; [exact A2|]. lra. }
  assert (HB : (bp (- bias S32) <= 0.001 * uF S32 rm)%R). { apply Rle_trans with (0.001 * bp (-24))%R. { change (- bias S32) with (-127). apply Rle_trans with (bp (-100)); [apply bpow_le; lia|]. bpn. lra. } apply Rmult_le_compat_l; [lra|]. apply uF24. }
  destruct (atan2_fin S32 good32 sel h24 sem hbs 5%nat rm _ (proj1 pi32) (proj2 pi32) (pe32 rm) HB (atan_f rm) 1.001 1 ltac:(lra) ltac:(lra) HA (hi32 rm) y x Y X A Hy Hx PA) as (a & V & A1 & A2 & A3).
  exists a, V. split; [exact A1|]. split; [exact A2|]. pose proof (u_pos S32 rm). assert (0 <= uF S32 rm * Rabs A)%R by (apply Rmult_le_pos; [lra|apply Rabs_pos]). lra.
Qed.

(** ** the special operands *)
Section Sp.
Context (F : fmt) (HF : good_fmt F) (Hel : 3 <= el F <= 16) (H24 : 24 <= prec F) (Hem : emin F <= - 5 * prec F) (Hb : 4 <= bias F) (k : nat) (rm : rmode).
Let z0 := zc F HF H24 Hem Hb k.
Let o1 := oc F HF H24 Hem Hb k.
Lemma zpat : forall x, is_pattern F x -> is_fin F x = true -> fval F x = 0%R -> x = sbit F (sign_of F x).
Proof. intros x P Fi V. rewrite (pattern_split F HF x P) at 1. apply (fval_zero F HF) in V; auto. rewrite V. lia. Qed.
Lemma nan_cmp : forall a b, is_nan F a = true \/ is_nan F b = true -> f_eq F a b = false /\ f_lt F a b = false /\ f_le F a b = false /\ f_gt F a b = false.
Proof. intros a b H. unfold f_le, f_eq, f_lt, f_gt, f_cmp. replace (is_nan F a || is_nan F b) with true by (destruct H as [-> | ->]; [|rewrite orb_true_r]; reflexivity). repeat split. Qed.
Lemma nan_add : forall a b, is_nan F a = true \/ is_nan F b = true -> f_add F rm a b = qnan F.
Proof. intros a b [H|H]; [|apply add_nan; exact H]. unfold f_add. rewrite (decode_nan F a H). reflexivity. Qed.
Lemma nan_sub : forall a b, is_pattern F b -> is_nan F b = true -> f_sub F rm a b = qnan F.
Proof. intros a b P H. unfold f_sub. apply nan_add. right. unfold is_nan in *. destruct (f_neg_props F HF b P) as (_ & _ & -> & _). exact H. Qed.
Lemma fabs_nan : forall x, is_pattern F x -> is_nan F x = true -> is_nan F (cc_abs F x) = true.
Proof. intros x P N. unfold cc_abs. rewrite (fp_is_nan_eq F HF ltac:(lia)), N by auto. apply (qnan_props F HF). Qed.
Theorem asin_nan : forall x, is_pattern F x -> is_nan F x = true -> asin_impl F rm x = Some (qnan F).
Proof.
  intros x P N. unfold asin_impl. rewrite (proj1 (nan_cmp x _ (or_introl N))). rewrite (proj1 (proj2 (proj2 (nan_cmp (cc_abs F x) (cst F 1 (-1)) (or_introl (fabs_nan x P N)))))).
  unfold acos_impl. rewrite (fp_is_nan_eq F HF ltac:(lia)), N by auto. cbn [bindo]. rewrite nan_sub by assumption. reflexivity.
Qed.
Theorem asin_out : forall x, is_pattern F x -> is_fin F x = true -> (1 < Rabs (fval F x))%R -> asin_impl F rm x = Some (qnan F).
Proof.
  intros x P Fi H. assert (Hx : is_real F x (fval F x)) by (split; auto). unfold asin_impl. rewrite (eq_r F HF _ _ _ _ Hx z0). rewrite Req_bool_false by (intros Z; rewrite Z, Rabs_R0 in H; lra).
  rewrite (le_r F HF _ _ _ _ (abs_rl F HF Hel k _ _ Hx) (hc F HF H24 Hem Hb k)), Rle_bool_false by lra. rewrite (gt1 F HF Hel H24 Hem Hb k rm x P Fi H). cbn [bindo]. rewrite nan_sub by apply (qnan_props F HF). reflexivity.
Qed.
Theorem asin_zero : forall x, is_pattern F x -> is_fin F x = true -> fval F x = 0%R -> asin_impl F rm x = Some x.
Proof. intros x P Fi V. assert (Hx : is_real F x (fval F x)) by (split; auto). unfold asin_impl. rewrite (eq_r F HF _ _ _ _ Hx z0), Req_bool_true by exact V. reflexivity. Qed.
Theorem atan2_nan : forall atan_ y x, is_pattern F y -> is_pattern F x -> is_nan F y = true \/ is_nan F x = true -> atan2_impl F rm atan_ y x = Some (qnan F).
Proof. intros atan_ y x Py Px H. unfold atan2_impl. rewrite !(isnan_eq F HF ltac:(lia)) by auto. rewrite nan_add by exact H. destruct H as [-> | ->]; [reflexivity|rewrite orb_true_r; reflexivity]. Qed.
(** y a zero: y itself when x is a positive number or +0, pi with the sign of y when x is -0. *)
Theorem atan2_zero_y : forall atan_ y x, (forall z, is_pattern F z -> is_fin F z = true -> fval F z = 0%R -> atan_ z = Some z) -> is_pattern F y -> is_pattern F x -> is_fin F y = true -> is_fin F x = true -> fval F y = 0%R ->
  ((0 < fval F x)%R \/ (fval F x = 0%R /\ sign_of F x = false) -> atan2_impl F rm atan_ y x = Some y) /\
  (fval F x = 0%R /\ sign_of F x = true -> atan2_impl F rm atan_ y x = Some (if sign_of F y then f_neg F (pi_v F) else pi_v F)).
Proof.
  intros atan_ y x HZ Py Px Fy Fx Vy. assert (Hy : is_real F y 0) by (split; auto). assert (Hx : is_real F x (fval F x)) by (split; auto).
  unfold atan2_impl. rewrite !(isnan_eq F HF ltac:(lia)), !(fin_nan F) by assumption. rewrite !(isinf_eq F HF ltac:(lia)), !(fin_inf F) by assumption. cbn [orb]. rewrite (eq_r F HF _ _ _ _ Hx z0), (lt_r F HF _ _ _ _ Hx z0), (gt_r F HF _ _ _ _ Hy z0), (lt_r F HF _ _ _ _ Hy z0). cbv zeta. rewrite !(Rlt_bool_false 0 0) by lra.
  split; [intros [H|(H & S)]|intros (H & S)].
  - rewrite Req_bool_false, Rlt_bool_false by lra. pose proof (f_div_spec F HF rm y x Fy Fx ltac:(lra)) as (PD & SD & VD & _). rewrite Vy in *. replace (0 / fval F x)%R with 0%R in * by (field; lra).
    assert (R0 : fround F rm 0 = 0%R) by (apply (fround_exact F rm); apply generic_format_0). rewrite R0, Rabs_R0 in VD. destruct (VD (bpow_gt_0 _ _)) as (FD & VD'). rewrite (HZ _ PD FD VD'). cbn [bindo]. f_equal.
    rewrite Req_bool_true in SD by reflexivity. assert (SX : sign_of F x = false) by (rewrite (sign_fval F HF) by (auto; lra); apply Rlt_bool_false; lra). rewrite SX, xorb_false_r in SD.
    transitivity (sbit F (sign_of F (f_div F rm y x))); [exact (zpat _ PD FD VD')|]. rewrite SD. symmetry. exact (zpat y Py Fy Vy).
  - rewrite Req_bool_true by exact H. rewrite S. reflexivity.
  - rewrite Req_bool_true by exact H. rewrite S. reflexivity.
Qed.
End Sp.
Lemma atan64_zero : forall rm x, is_pattern D x -> is_fin D x = true -> fval D x = 0%R -> atan_d rm x = Some x.
Proof. intros rm x P Fi V. assert (Hx : is_real D x (fval D x)) by (split; auto). unfold atan_d, atan_body at 1. rewrite (isnan_eq D good64 ltac:(vm_compute; discriminate)), (fin_nan D) by auto. rewrite (eq_r D good64 _ _ _ _ Hx (zc D good64 d24 dem db 6%nat)), Req_bool_true by exact V. reflexivity. Qed.
Lemma atan32_zero : forall rm x, is_pattern S32 x -> is_fin S32 x = true -> fval S32 x = 0%R -> atan_f rm x = Some x.
Proof. intros rm x P Fi V. rewrite (zpat S32 good32 x P Fi V). destruct rm, (sign_of S32 x); vm_compute; reflexivity. Qed.
Lemma atan64_nan : forall rm x, is_pattern D x -> is_nan D x = true -> atan_d rm x = Some x.
Proof. intros rm x P N. unfold atan_d, atan_body at 1. rewrite (isnan_eq D good64 ltac:(vm_compute; discriminate)), N by auto. reflexivity. Qed.
Lemma atan32_nan : forall rm x, is_pattern S32 x -> is_nan S32 x = true -> atan_f rm x = Some (qnan S32).
Proof.
  intros rm x P N. unfold atan_f. assert (E : f_cast F32 F64 rm x = qnan F64) by (unfold f_cast; rewrite (decode_nan F32 x N); reflexivity). rewrite E. rewrite atan64_nan by (vm_compute; try split; congruence). reflexivity.
Qed.
(** x or y infinite *)
Section Inf.
Context (F : fmt) (HF : good_fmt F) (Hel : 3 <= el F <= 16) (H24 : 24 <= prec F) (Hem : emin F <= - 5 * prec F) (Hb : 4 <= bias F) (k : nat) (rm : rmode).
Lemma y_cases : forall y (a b d : option Z), is_pattern F y -> is_fin F y = true ->
  (if f_gt F y (cst F 0 0) then a else if f_lt F y (cst F 0 0) then b else d) = (if Req_bool (fval F y) 0 then d else if sign_of F y then b else a).
Proof.
  intros y a b d P Fi. assert (Hy : is_real F y (fval F y)) by (split; auto). rewrite (gt_r F HF _ _ _ _ Hy (zc F HF H24 Hem Hb k)), (lt_r F HF _ _ _ _ Hy (zc F HF H24 Hem Hb k)).
  destruct (Rtotal_order (fval F y) 0) as [L|[L|L]].
  - rewrite Rlt_bool_false, Rlt_bool_true, Req_bool_false by lra. rewrite (sign_fval F HF) by (auto; lra). rewrite Rlt_bool_true by lra. reflexivity.
  - rewrite !Rlt_bool_false, Req_bool_true by lra. reflexivity.
  - rewrite Rlt_bool_true, Req_bool_false by lra. rewrite (sign_fval F HF) by (auto; lra). rewrite Rlt_bool_false by lra. reflexivity.
Qed.
End Inf.

Lemma atan2_inf_x : forall rm s y,
  (is_pattern D y -> is_fin D y = true -> cc_atan2 rm y (sbit D s + inf_mag D) = Some (sbit D (sign_of D y) + (if s then 0x400921fb54442d18 else 0))) /\
  (is_pattern S32 y -> is_fin S32 y = true -> cc_atan2f rm y (sbit S32 s + inf_mag S32) = Some (sbit S32 (sign_of S32 y) + (if s then 0x40490fdb else 0))).
Proof.
  intros rm s y. split; intros P Fi.
  - unfold cc_atan2, atan2_impl. rewrite (isnan_eq D good64 ltac:(vm_compute; discriminate) y), (fin_nan D) by auto. rewrite (isinf_eq D good64 ltac:(vm_compute; discriminate) y), (fin_inf D) by auto.
    replace (cc_isnan D (sbit D s + inf_mag D)) with false by (destruct s; vm_compute; reflexivity). replace (cc_isinf D (sbit D s + inf_mag D)) with true by (destruct s; vm_compute; reflexivity). replace (f_gt D (sbit D s + inf_mag D) (cst D 0 0)) with (negb s) by (destruct s; vm_compute; reflexivity). cbn [orb]. cbv zeta. rewrite !(y_cases D good64 d24 dem db 6%nat) by auto.
    destruct s; cbn [negb].
    + destruct (Req_bool (fval D y) 0), (sign_of D y); vm_compute; reflexivity.
    + destruct (Req_dec (fval D y) 0) as [Z|N]; [rewrite Req_bool_true by exact Z; rewrite (zpat D good64 y P Fi Z) at 1; rewrite Z.add_0_r; reflexivity|]. rewrite Req_bool_false by exact N. destruct (sign_of D y); vm_compute; reflexivity.
  - unfold cc_atan2f, atan2_impl. rewrite (isnan_eq S32 good32 ltac:(vm_compute; discriminate) y), (fin_nan S32) by auto. rewrite (isinf_eq S32 good32 ltac:(vm_compute; discriminate) y), (fin_inf S32) by auto.
    replace (cc_isnan S32 (sbit S32 s + inf_mag S32)) with false by (destruct s; vm_compute; reflexivity). replace (cc_isinf S32 (sbit S32 s + inf_mag S32)) with true by (destruct s; vm_compute; reflexivity). replace (f_gt S32 (sbit S32 s + inf_mag S32) (cst S32 0 0)) with (negb s) by (destruct s; vm_compute; reflexivity). cbn [orb]. cbv zeta. rewrite !(y_cases S32 good32 h24 sem hbs 5%nat) by auto.
    destruct s; cbn [negb].
    + destruct (Req_bool (fval S32 y) 0), (sign_of S32 y); vm_compute; reflexivity.
    + destruct (Req_dec (fval S32 y) 0) as [Z|N]; [rewrite Req_bool_true by exact Z; rewrite (zpat S32 good32 y P Fi Z) at 1; rewrite Z.add_0_r; reflexivity|]. rewrite Req_bool_false by exact N. destruct (sign_of S32 y); vm_compute; reflexivity.
Qed.
Lemma atan2_inf_y : forall rm s x,
  (is_pattern D x -> is_fin D x = true -> cc_atan2 rm (sbit D s + inf_mag D) x = Some (sbit D s + 0x3ff921fb54442d18)) /\
  (is_pattern S32 x -> is_fin S32 x = true -> cc_atan2f rm (sbit S32 s + inf_mag S32) x = Some (sbit S32 s + 0x3fc90fdb)).
Proof.
  intros rm s x. split; intros P Fi.
  - unfold cc_atan2, atan2_impl. rewrite (isnan_eq D good64 ltac:(vm_compute; discriminate) x), (fin_nan D) by auto. rewrite (isinf_eq D good64 ltac:(vm_compute; discriminate) x), (fin_inf D) by auto.
    replace (cc_isnan D (sbit D s + inf_mag D)) with false by (destruct s; vm_compute; reflexivity). replace (cc_isinf D (sbit D s + inf_mag D)) with true by (destruct s; vm_compute; reflexivity). destruct s, rm; vm_compute; reflexivity.
  - unfold cc_atan2f, atan2_impl. rewrite (isnan_eq S32 good32 ltac:(vm_compute; discriminate) x), (fin_nan S32) by auto. rewrite (isinf_eq S32 good32 ltac:(vm_compute; discriminate) x), (fin_inf S32) by auto.
    replace (cc_isnan S32 (sbit S32 s + inf_mag S32)) with false by (destruct s; vm_compute; reflexivity). replace (cc_isinf S32 (sbit S32 s + inf_mag S32)) with true by (destruct s; vm_compute; reflexivity). destruct s, rm; vm_compute; reflexivity.
Qed.
(** both infinite: pi/4 and 3pi/4 *)
Lemma atan2_inf_inf : forall rm s t,
  (exists a V, cc_atan2 rm (sbit D s + inf_mag D) (sbit D t + inf_mag D) = Some a /\ is_real D a V /\ (Rabs (V - cneg s (if t then 3 * PI / 4 else PI / 4)) <= 2 * uF D rm)%R) /\
  (exists a V, cc_atan2f rm (sbit S32 s + inf_mag S32) (sbit S32 t + inf_mag S32) = Some a /\ is_real S32 a V /\ (Rabs (V - cneg s (if t then 3 * PI / 4 else PI / 4)) <= 5 * uF S32 rm)%R).
Proof.
  intros rm s t. split.
  - assert (E : cc_atan2 rm (sbit D s + inf_mag D) (sbit D t + inf_mag D) = Some (if s then f_neg D (if t then 4612488097114038738 else 4605249457297304856) else (if t then 4612488097114038738 else 4605249457297304856))) by (destruct rm, s, t; vm_compute; reflexivity).
    rewrite E. eexists _, (cneg s (if t then IZR 5305678314021330 * bp (-51) else IZR 7074237752028440 * bp (-53))%R). split; [reflexivity|]. split.
    + assert (H : is_real D (if t then 4612488097114038738 else 4605249457297304856) (if t then IZR 5305678314021330 * bp (-51) else IZR 7074237752028440 * bp (-53))%R).
      { destruct t; [apply (lit_r false 5305678314021330 (-51)); lia|apply (lit_r false 7074237752028440 (-53)); lia]. }
      destruct s; cbn [cneg]; [apply (neg_r D good64)|]; exact H.
    + assert (C : (Rabs ((if t then IZR 5305678314021330 * bp (-51) else IZR 7074237752028440 * bp (-53)) - (if t then 3 * PI / 4 else PI / 4)) <= 2 * uF D rm)%R).
      { apply Rle_trans with (2 * bp (-53))%R; [|apply Rmult_le_compat_l; [lra|destruct rm; cbn [uF]; apply bpow_le; vm_compute; discriminate]]. destruct t; bpn; interval with (i_prec 120). }
      destruct s; cbn [cneg]; [|exact C]. match goal with |- (Rabs (- ?a - - ?b) <= _)%R => replace (- a - - b)%R with (- (a - b))%R by ring end. rewrite Rabs_Ropp. exact C.
  - assert (E : cc_atan2f rm (sbit S32 s + inf_mag S32) (sbit S32 t + inf_mag S32) = Some (let p := (if t then 1075235812 + (match rm with RDN => if s then 1 else 0 | RUP => if s then 0 else 1 | _ => 0 end) else 1061752795) in if s then f_neg S32 p else p)) by (destruct rm, s, t; vm_compute; reflexivity).
    rewrite E. clear E. set (d := match rm with RDN => if s then 1 else 0 | RUP => if s then 0 else 1 | _ => 0 end). assert (Hd : d = 0 \/ d = 1) by (unfold d; destruct rm, s; auto). clearbody d.
    eexists _, (cneg s (if t then IZR (9882596 + d) * bp (-22) else IZR 13176795 * bp (-24))%R). split; [reflexivity|]. split.
    + assert (H : is_real S32 (if t then 1075235812 + d else 1061752795) (if t then IZR (9882596 + d) * bp (-22) else IZR 13176795 * bp (-24))%R).
      { destruct t; [destruct Hd as [-> | ->]; [apply (litf_r 9882596 (-22)); lia|apply (litf_r 9882597 (-22)); lia]|apply (litf_r 13176795 (-24)); lia]. }
      cbv zeta. destruct s; cbn [cneg]; [apply (neg_r S32 good32)|]; exact H.
    + assert (C : (Rabs ((if t then IZR (9882596 + d) * bp (-22) else IZR 13176795 * bp (-24)) - (if t then 3 * PI / 4 else PI / 4)) <= 5 * uF S32 rm)%R).
      { apply Rle_trans with (5 * bp (-24))%R; [|apply Rmult_le_compat_l; [lra|apply uF24]]. destruct t; [destruct Hd as [-> | ->]|]; [change (9882596 + 0) with 9882596|change (9882596 + 1) with 9882597|]; bpn; interval with (i_prec 120). }
      destruct s; cbn [cneg]; [|exact C]. match goal with |- (Rabs (- ?a - - ?b) <= _)%R => replace (- a - - b)%R with (- (a - b))%R by ring end. rewrite Rabs_Ropp. exact C.
Qed.
Lemma asin_inf : forall rm s, cc_asin rm (sbit D s + inf_mag D) = Some (qnan D) /\ cc_asinf rm (sbit S32 s + inf_mag S32) = Some (qnan S32).
Proof. intros rm s. destruct rm, s; split; vm_compute; reflexivity. Qed.
