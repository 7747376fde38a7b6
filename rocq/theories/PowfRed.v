(** * powf: the reduction of the base *)
From Coq Require Import ZArith Lia Reals Lra List.
From Flocq Require Import Core.
From Interval Require Import Tactic.
From Verif Require Import MachInt Fmt FloatSpec RoundProofs FmtProofs ExtFloatSpec FOps FOpsProofs RemProofs FmanipWide ErrLib LogfNum ExtInterp Expm1Proofs Exp2fProofs ExtFloatProofs NearestProofs NearestInt SinRedF PowfData Powf PowfTab PowfNum PowfDD.
Open Scope Z_scope.

Lemma ln2_pos : (0 < ln 2)%R. Proof. rewrite <- ln_1; apply ln_increasing; lra. Qed.
Lemma log2_mult : forall a b, (0 < a)%R -> (0 < b)%R -> log2 (a * b) = (log2 a + log2 b)%R.
Proof. intros a b A B. unfold log2. rewrite ln_mult by auto. pose proof ln2_pos. field. lra. Qed.
Lemma log2_bp : forall e, log2 (bp e) = IZR e.
Proof. intros e. unfold log2. rewrite <- Rpower2_Z. unfold Rpower. rewrite ln_exp. field. pose proof ln2_pos. lra. Qed.
Lemma Rpower_log2 : forall x y, (0 < x)%R -> Rpower x y = Rpower 2 (y * log2 x).
Proof. intros x y P. unfold Rpower, log2. f_equal. field. pose proof ln2_pos. lra. Qed.
Lemma log2_incr : forall a b, (0 < a)%R -> (a <= b)%R -> (log2 a <= log2 b)%R.
Proof. intros a b A B. unfold log2, Rdiv. apply Rmult_le_compat_r; [pose proof (Rinv_0_lt_compat _ ln2_pos); lra|]. destruct (Req_dec a b) as [->|N]; [lra|]. apply Rlt_le, ln_increasing; lra. Qed.
Lemma log2_near : forall t, (Rabs t <= / 64)%R -> (1.4 * Rabs t <= Rabs (log2 (1 + t)) <= 1.47 * Rabs t)%R.
Proof.
  intros t H. pose proof ln2_pos. apply Rabs_le_inv in H.
  pose proof (ln1p_upper t ltac:(lra)) as U. pose proof (ln1p_lower t ltac:(lra)) as L.
  assert (I1 : (1.442 <= / ln 2 <= 1.443)%R) by (split; interval with (i_prec 40)). unfold log2, Rdiv.
  destruct (Rle_or_lt 0 t) as [S|S].
  - assert (L1 : (0.98 * t <= t / (1 + t))%R). { apply Rmult_le_reg_r with (1 + t)%R; [lra|]. replace (t / (1 + t) * (1 + t))%R with t by (field; lra). nra. }
    assert (0 <= ln (1 + t))%R by lra. rewrite !Rabs_pos_eq; [|apply Rmult_le_pos; lra|lra]. split; nra.
  - assert (L1 : (1.018 * t <= t / (1 + t))%R). { apply Rmult_le_reg_r with (1 + t)%R; [lra|]. replace (t / (1 + t) * (1 + t))%R with t by (field; lra). nra. }
    rewrite (Rabs_left t) by auto. rewrite Rabs_left1 by nra. split; nra.
Qed.

(** The mantissa and the exponent of a positive normal number. *)
Definition mant (x : Z) : Z := Z.land x 0x7fffff.
Lemma mant_r : forall x, 0 <= x < 2 ^ 31 -> is_real S32 (Z.lor (mant x) 0x3f800000) (IZR (2 ^ 23 + mant x) * bp (-23)).
Proof.
  intros x Hx. assert (M : mant x = x mod 2 ^ 23) by (apply (Z.land_ones x 23); lia). pose proof (Z.mod_pos_bound x (2 ^ 23) ltac:(lia)). rewrite M.
  assert (E : Z.lor (x mod 2 ^ 23) 0x3f800000 = 0x3f800000 + x mod 2 ^ 23) by (rewrite Z.lor_comm; exact (lor_add 127 (x mod 2 ^ 23) 23 ltac:(lia) ltac:(lia))).
  rewrite E. destruct (normal_val S32 good32 (0x3f800000 + x mod 2 ^ 23) 127 (x mod 2 ^ 23)) as (F & V).
  { vm_compute; split; congruence. } { exact H. } { unfold mag_of. change (sign_unit S32) with (2 ^ 31). change (fl S32) with 23. rewrite Z.mod_small by lia. lia. }
  split; [split; [lia|change (2 ^ width S32) with (2 ^ 32); lia]|]. split; [exact F|]. rewrite V.
  replace (sign_of S32 (0x3f800000 + x mod 2 ^ 23)) with false. { change (fl S32) with 23. change (127 - bias S32 - 23) with (-23). cbn [sg]. ring. }
  symmetry. rewrite (sign_of_eq S32 good32). { apply Z.leb_gt. change (sign_unit S32) with (2 ^ 31). lia. } { split; [lia|change (2 ^ width S32) with (2 ^ 32); lia]. }
Qed.
Lemma bigD : forall k x, k <= 1023 -> (Rabs x <= bp k)%R -> (Rabs x < bpow radix2 (bias D + 1))%R.
Proof. intros k x K H. eapply Rle_lt_trans; [exact H|]. apply bpow_lt. change (bias D) with 1023. lia. Qed.
(** The reduced argument is exact. *)
Lemma dx_r : forall rm x r k, 0 <= x < 2 ^ 31 -> is_real D r (IZR k / 512) -> 256 <= k <= 512 -> Z.abs ((2 ^ 23 + mant x) * k - 2 ^ 32) <= 2 ^ 32 ->
  is_real D (pf_dx false rm (Z.lor (mant x) 0x3f800000) r r) (IZR ((2 ^ 23 + mant x) * k - 2 ^ 32) * bp (-32)).
Proof.
  intros rm x r k Hx Hr Hk Hd. unfold pf_dx, madd. pose proof (widen rm _ _ (mant_r x Hx)) as Hm.
  assert (M : mant x = x mod 2 ^ 23) by (apply (Z.land_ones x 23); lia). pose proof (Z.mod_pos_bound x (2 ^ 23) ltac:(lia)). rewrite <- M in H.
  set (n := 2 ^ 23 + mant x) in *.
  assert (H1 : is_real D (f_mul D rm (f_cast S32 D rm (Z.lor (mant x) 0x3f800000)) r) (IZR (n * k) * bp (-32))).
  { apply (mul_x D good64 rm _ _ _ _ _ Hm Hr). { rewrite mult_IZR. bpn. field. } { apply gfD; [nia|lia]. }
    apply (bigD 2); [lia|]. rewrite Rabs_mult, (Rabs_pos_eq (bp _)) by apply bpow_ge_0. rewrite <- abs_IZR. apply Rle_trans with (IZR (2 ^ 33) * bp (-32))%R; [apply Rmult_le_compat_r; [apply bpow_ge_0|apply IZR_le; nia]|bpn; lra]. }
  apply (add_x D good64 rm _ _ _ _ _ H1 (lit_r false (-1) 0 ltac:(lia) ltac:(lia))). { rewrite minus_IZR. bpn. lra. } { apply gfD; lia. }
  apply (bigD 2); [lia|]. rewrite Rabs_mult, (Rabs_pos_eq (bp _)) by apply bpow_ge_0. rewrite <- abs_IZR. apply Rle_trans with (IZR (2 ^ 33) * bp (-32))%R; [apply Rmult_le_compat_r; [apply bpow_ge_0|apply IZR_le; lia]|bpn; lra].
Qed.

(** The base X = 2^E M, its reduction by R = k/512 and the facts used below; [T] bounds. *)
Record redn (i : Z) (E : Z) (L DX L2 HI MID LO : R) : Prop := {
  rn_dx : (Rabs DX <= / 128)%R; rn_dl : (- / 256 <= DX)%R;
  rn_L : (Rabs (L - (IZR E + HI + MID + log2 (1 + DX))) <= bp (-60) * Rabs L)%R;
  rn_s : (Rabs (L - (IZR E + L2 + log2 (1 + DX))) <= bp (-45) * Rabs L)%R;
  rn_d : (Rabs DX <= 2 * Rabs L)%R;
  rn_h : (Rabs (IZR E + HI) <= 5 * Rabs L)%R;
  rn_2 : (Rabs (IZR E + L2) <= 5 * Rabs L)%R;
  rn_m : (Rabs MID <= bp (-12) * Rabs L)%R;
  rn_o : (Rabs LO <= bp (-62) * Rabs L)%R;
  rn_z : (/ 200 <= Rabs L)%R \/ (L = log2 (1 + DX))%R }.
Lemma redn_ok : forall x E i r l2 tl tm th, 0 <= x < 2 ^ 31 -> i = mant x / 2 ^ 16 -> good1 i r l2 tl tm th ->
  let L := (IZR E + log2 (IZR (2 ^ 23 + mant x) * bp (-23)))%R in
  exists DX L2 HI MID LO z, DX = (IZR z * bp (-32))%R /\ is_real D (pf_dx false RNE (Z.lor (mant x) 0x3f800000) r r) DX /\ is_real D l2 L2 /\ is_real D th HI /\ is_real D tm MID /\ is_real D tl LO /\ redn i E L DX L2 HI MID LO.
Proof.
  intros x E i r l2 tl tm th Hx Hi (k & L2 & HI & MID & LO & Hr & Hk & K1 & K2 & R1 & R2 & R3 & R4 & E1 & E2 & E3 & E4 & S0 & S1) L.
  assert (M : mant x = x mod 2 ^ 23) by (apply (Z.land_ones x 23); lia). pose proof (Z.mod_pos_bound x (2 ^ 23) ltac:(lia)) as MB. rewrite <- M in MB.
  assert (ID : i * 2 ^ 16 <= mant x <= (i + 1) * 2 ^ 16 - 1) by (pose proof (Z.div_mod (mant x) (2 ^ 16) ltac:(lia)); pose proof (Z.mod_pos_bound (mant x) (2 ^ 16) ltac:(lia)); nia).
  assert (IB : 0 <= i < 128) by lia.
  set (n := 2 ^ 23 + mant x) in *. assert (B1 : - 2 ^ 24 <= n * k - 2 ^ 32 <= 2 ^ 25) by (unfold n; nia).
  set (DX := (IZR (n * k - 2 ^ 32) * bp (-32))%R).
  assert (D1 : (- / 256 <= DX <= / 128)%R). { unfold DX. revert B1. generalize (n * k - 2 ^ 32). intros w (b1 & b2). change (- 2 ^ 24) with (-16777216) in b1. change (2 ^ 25) with 33554432 in b2. apply IZR_le in b1, b2. bpn. lra. }
  exists DX, L2, HI, MID, LO, (n * k - 2 ^ 32). split; [reflexivity|]. split; [apply dx_r; auto; fold n; lia|]. repeat (split; [assumption|]).
  assert (KP : (0 < IZR k / 512)%R) by (destruct Hk as (k1 & _); apply IZR_le in k1; lra).
  assert (MP : (0 < IZR n * bp (-23))%R) by (apply Rmult_lt_0_compat; [apply IZR_lt; lia|apply bpow_gt_0]).
  assert (PR : (1 + DX = IZR n * bp (-23) * (IZR k / 512))%R) by (unfold DX; rewrite minus_IZR, mult_IZR; change (IZR (2 ^ 32)) with (IZR 4294967296); bpn; field).
  assert (LG : (log2 (1 + DX) = log2 (IZR n * bp (-23)) + log2 (IZR k / 512))%R) by (rewrite PR; apply log2_mult; auto).
  assert (DA : (Rabs DX <= / 128)%R) by (apply Rabs_le; lra). pose proof (log2_near DX ltac:(lra)) as (N1 & N2).
  assert (EL : (IZR E + HI + MID + log2 (1 + DX) - L = HI + MID + log2 (IZR k / 512))%R) by (unfold L; rewrite LG; ring).
  assert (ES : (IZR E + L2 + log2 (1 + DX) - L = L2 + log2 (IZR k / 512))%R) by (unfold L; rewrite LG; ring).
  assert (P12 : bp (-12) = (/ 4096)%R) by (bpn; lra). assert (P20 : bp (-20) = (/ 1048576)%R) by (bpn; lra).
  assert (CASE : (/ 200 <= Rabs L)%R \/ ((i = 0 /\ E = 0) \/ (i = 127 /\ E = -1))).
  { assert (LM : forall a b, (0 < IZR a)%R -> a <= n <= b -> (log2 (IZR a * bp (-23)) <= log2 (IZR n * bp (-23)) <= log2 (IZR b * bp (-23)))%R).
    { intros a b A (AB1 & AB2). pose proof (bpow_gt_0 radix2 (-23)). split; apply log2_incr; try apply Rmult_lt_0_compat; auto; try (apply Rmult_le_compat_r; [lra|apply IZR_le; auto]). apply IZR_lt; lia. }
    destruct (Z.eq_dec i 0) as [I0|I0]; [destruct (Z.eq_dec E 0); [right; left; auto|]|destruct (Z.eq_dec i 127) as [I1|I1]; [destruct (Z.eq_dec E (-1)); [right; right; auto|]|]]; left; unfold L.
    - destruct (LM (2 ^ 23) (2 ^ 23 + 2 ^ 16) ltac:(apply IZR_lt; lia) ltac:(unfold n; lia)) as (a1 & a2). assert (0 <= log2 (IZR (2 ^ 23) * bp (-23)))%R by (unfold log2; bpn; interval with (i_prec 40)). assert (log2 (IZR (2 ^ 23 + 2 ^ 16) * bp (-23)) <= 0.1)%R by (unfold log2; bpn; interval with (i_prec 40)).
      assert (C : E <= -1 \/ 1 <= E) by lia. destruct C as [C|C]; apply IZR_le in C; [rewrite Rabs_left1|rewrite Rabs_pos_eq]; lra.
    - destruct (LM (2 ^ 23 + 127 * 2 ^ 16) (2 ^ 24) ltac:(apply IZR_lt; lia) ltac:(unfold n; lia)) as (a1 & a2). assert (0.9 <= log2 (IZR (2 ^ 23 + 127 * 2 ^ 16) * bp (-23)))%R by (unfold log2; bpn; interval with (i_prec 40)). assert (log2 (IZR (2 ^ 24) * bp (-23)) <= 1.01)%R by (unfold log2; bpn; interval with (i_prec 40)).
      assert (C : E <= -2 \/ 0 <= E) by lia. destruct C as [C|C]; apply IZR_le in C; [rewrite Rabs_left1|rewrite Rabs_pos_eq]; lra.
    - destruct (LM (2 ^ 23 + 2 ^ 16) (2 ^ 23 + 127 * 2 ^ 16) ltac:(apply IZR_lt; lia) ltac:(unfold n; lia)) as (a1 & a2). assert (0.006 <= log2 (IZR (2 ^ 23 + 2 ^ 16) * bp (-23)))%R by (unfold log2; bpn; interval with (i_prec 40)). assert (log2 (IZR (2 ^ 23 + 127 * 2 ^ 16) * bp (-23)) <= 0.9945)%R by (unfold log2; bpn; interval with (i_prec 40)).
      assert (C : E <= -1 \/ 0 <= E) by lia. destruct C as [C|C]; apply IZR_le in C; [rewrite Rabs_left1|rewrite Rabs_pos_eq]; lra. }
  pose proof (Rabs_pos L) as LP.
  destruct CASE as [C|C].
  - assert (P : forall a b, a <= b -> (bp a * / 200 <= bp b * Rabs L)%R) by (intros a b AB; apply Rmult_le_compat; [apply bpow_ge_0|lra|apply bpow_le; auto|exact C]).
    assert (Q : forall a, (bp a <= bp (a + 8) * Rabs L)%R). { intros a. rewrite bpow_plus, Rmult_assoc. rewrite <- (Rmult_1_r (bp a)) at 1. apply Rmult_le_compat_l; [apply bpow_ge_0|]. replace (bp 8) with 256%R by (bpn; lra). lra. }
    pose proof (Q (-70)) as Q1. pose proof (Q (-53)) as Q2. pose proof (Q (-20)) as Q3.
    change (-70 + 8) with (-62) in Q1. change (-53 + 8) with (-45) in Q2. change (-20 + 8) with (-12) in Q3.
    assert (B62 : (bp (-62) <= bp (-60))%R) by (apply bpow_le; lia). assert (B62L : (bp (-62) * Rabs L <= bp (-60) * Rabs L)%R) by (apply Rmult_le_compat_r; auto).
    assert (S70 : (bp (-70) <= / 1000000)%R) by (bpn; lra). assert (S53 : (bp (-53) <= / 1000000)%R) by (bpn; lra).
    rewrite <- EL in E2. rewrite <- ES in E1. pose proof (Rabs_le_inv _ _ E1). pose proof (Rabs_le_inv _ _ E2). pose proof (Rabs_le_inv _ _ E3). assert (NL : (Rabs (log2 (1 + DX)) <= 0.0115)%R) by lra. apply Rabs_le_inv in NL. pose proof (Rabs_le_inv L (Rabs L) ltac:(lra)).
    split; auto; try lra.
    + rewrite Rabs_minus_sym. lra. + rewrite Rabs_minus_sym. lra. + apply Rabs_le. rewrite P20 in *. lra. + apply Rabs_le. lra.
  - assert (KE : (L2 = - IZR E /\ HI = - IZR E /\ MID = 0 /\ LO = 0)%R /\ log2 (IZR k / 512) = IZR E).
    { destruct C as [(I & ->)|(I & ->)].
      - destruct (S0 I) as (-> & -> & -> & -> & ->). split; [repeat split; lra|]. replace (512 / 512)%R with (bp 0) by (change (bp 0) with 1%R; lra). apply log2_bp.
      - destruct (S1 I) as (-> & -> & -> & -> & ->). split; [repeat split; lra|]. replace (256 / 512)%R with (bp (-1)) by (bpn; lra). apply log2_bp. }
    destruct KE as ((-> & -> & -> & ->) & KE). assert (LE : L = log2 (1 + DX)) by (unfold L; rewrite LG, KE; ring). clear S0 S1.
    assert (ZZ : forall a, (0 <= bp a * Rabs L)%R) by (intros a; apply Rmult_le_pos; [apply bpow_ge_0|auto]). rewrite <- LE in *.
    split; auto; try lra.
    + replace (L - (IZR E + - IZR E + 0 + log2 (1 + DX)))%R with 0%R by (rewrite <- LE; ring). rewrite Rabs_R0. apply ZZ.
    + replace (L - (IZR E + - IZR E + log2 (1 + DX)))%R with 0%R by (rewrite <- LE; ring). rewrite Rabs_R0. apply ZZ.
    + replace (IZR E + - IZR E)%R with 0%R by ring. rewrite Rabs_R0. lra. + replace (IZR E + - IZR E)%R with 0%R by ring. rewrite Rabs_R0. lra.
    + rewrite Rabs_R0. apply ZZ. + rewrite Rabs_R0. apply ZZ.
Qed.
