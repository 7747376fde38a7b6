(** * Proofs about the dyadic floats: the truncating operations *)
From Coq Require Import ZArith Reals Bool List Lia Lra.
From Flocq Require Import Core.
From Verif Require Import MachInt Bits BigInt BigIntProofs BigIntMul BigIntConv Fmt FloatSpec FmtProofs Dyadic DyadicSpec DyadicProofs DyadicArith RoundMore FOps ExactOps FmanipWide.
Open Scope Z_scope.

(** ** quick_mul_hi: what is kept *)
Lemma wget_divide : forall w p l j, 1 <= w -> wf w l -> (2 ^ (w * Z.of_nat p) | bval w l) -> (j < p)%nat -> wget l j = 0.
Proof.
  intros w p. induction p; intros l j Hw Hl HD Hj; [lia|].
  destruct l as [|d l]; [apply wget_nil|]. apply wf_cons in Hl. destruct Hl as [Hd Hl].
  rewrite (pow_wS w p) in HD by lia. cbn [bval] in HD. destruct HD as [c HD].
  pose proof (pow2_pos w ltac:(lia)) as HP.
  assert (d = 0).
  { unfold inU in Hd. assert (d = 2 ^ w * (c * 2 ^ (w * Z.of_nat p) - bval w l)) by lia.
    destruct (Z.eq_dec (c * 2 ^ (w * Z.of_nat p) - bval w l) 0) as [E|E]; [rewrite E in H; lia|]. exfalso. nia. }
  subst d. destruct j; [reflexivity|]. change (wget (0 :: l) (S j)) with (wget l j). apply IHp; auto; [|lia].
  exists c. apply Z.mul_reg_l with (2 ^ w); lia.
Qed.

(** The product split into the kept and the dropped columns. *)
Lemma kept_dropped : forall w l r, 1 <= w -> wf w l -> wf w r -> length l = length r -> (1 <= length l)%nat ->
  let N := length l in
  sumZ (fun i => 2 ^ (w * Z.of_nat i) * conv l r i) (N - 1) +
  2 ^ (w * Z.of_nat (N - 1)) * sumZ (fun t => 2 ^ (w * Z.of_nat t) * conv l r (N - 1 + t)) N = bval w l * bval w r.
Proof.
  intros w l r Hw Hl Hr Hlr H1 N.
  pose proof (conv_product w l r (2 * N - 1) ltac:(lia) ltac:(unfold N; lia) ltac:(unfold N; lia)) as Hprod.
  replace (2 * N - 1)%nat with (N - 1 + N)%nat in Hprod by (unfold N; lia).
  rewrite sumZ_app in Hprod.
  rewrite (sumZ_ext (fun i => 2 ^ (w * Z.of_nat (N - 1 + i)) * conv l r (N - 1 + i))
             (fun t => 2 ^ (w * Z.of_nat (N - 1)) * (2 ^ (w * Z.of_nat t) * conv l r (N - 1 + t)))) in Hprod.
  2:{ intros t _. rewrite Nat2Z.inj_add, Z.mul_add_distr_l, Z.pow_add_r by (apply wn_nonneg; lia). ring. }
  rewrite sumZ_mul in Hprod. exact Hprod.
Qed.

Lemma wget_firstn : forall l k j, (j < k)%nat -> wget (firstn k l) j = wget l j.
Proof.
  intros l k. revert l. induction k; intros l j H; [lia|]. destruct l as [|d l]; [reflexivity|].
  destruct j; [reflexivity|]. cbn [firstn]. change (wget (d :: firstn k l) (S j)) with (wget (firstn k l) j).
  change (wget (d :: l) (S j)) with (wget l j). apply IHk. lia.
Qed.
Lemma sumZ_prefix : forall f a b, (forall i, 0 <= f i) -> (a <= b)%nat -> sumZ f a <= sumZ f b.
Proof.
  intros f a b Hf H. replace b with (a + (b - a))%nat by lia. rewrite sumZ_app.
  pose proof (sumZ_nonneg (fun i => f (a + i)%nat) (b - a) ltac:(intros; apply Hf)). lia.
Qed.

Lemma dropped_low : forall w l r, 1 <= w -> wf w l -> wf w r -> length l = length r -> (1 <= length l)%nat ->
  let N := length l in let G := 2 ^ (w * Z.of_nat (N - 1)) in
  0 <= sumZ (fun i => 2 ^ (w * Z.of_nat i) * conv l r i) (N - 1) <= (bval w l mod G) * (bval w r mod G).
Proof.
  intros w l r Hw Hl Hr Hlr H1 N G.
  destruct (firstn_spec w l (N - 1) ltac:(lia) Hl ltac:(unfold N; lia)) as (A1 & A2 & A3).
  destruct (firstn_spec w r (N - 1) ltac:(lia) Hr ltac:(unfold N; lia)) as (B1 & B2 & B3).
  unfold G. rewrite <- A3, <- B3. set (l' := firstn (N - 1) l) in *. set (r' := firstn (N - 1) r) in *.
  split. { apply sumZ_nonneg. intros i _. apply Z.mul_nonneg_nonneg; [apply Z.pow_nonneg; lia|]. apply (conv_nonneg w); auto; lia. }
  rewrite (sumZ_ext _ (fun i => 2 ^ (w * Z.of_nat i) * conv l' r' i)).
  2:{ intros i Hi. f_equal. unfold conv. apply sumZ_ext. intros j Hj. unfold l', r'. rewrite !wget_firstn by lia. reflexivity. }
  rewrite <- (conv_product w l' r' (2 * N)) by lia.
  apply sumZ_prefix; [|lia]. intros i. apply Z.mul_nonneg_nonneg; [apply Z.pow_nonneg; lia|]. apply (conv_nonneg w); auto; lia.
Qed.

(** Facts about [z], the word-level high product of [x] and [y]. *)
Lemma qmh_facts : forall native w n x y, 2 <= w -> mul2_width native w -> (1 <= n)%nat -> Z.of_nat n < 2 ^ w ->
  let B := w * Z.of_nat n in 0 <= x < 2 ^ B -> 0 <= y < 2 ^ B ->
  let v := BigInt.quick_mul_hi native w (words_of w n x) (words_of w n y) in
  wf w v /\ length v = n /\
  (0 <= x * y / 2 ^ B - bval w v <= Z.of_nat n - 1) /\
  (2 ^ (B - 1) <= x -> 2 ^ (B - 1) <= y -> 2 ^ (B - 2) <= bval w v) /\
  (forall p q, (n <= S (p + q))%nat -> (2 ^ (w * Z.of_nat p) | x) -> (2 ^ (w * Z.of_nat q) | y) -> bval w v = x * y / 2 ^ B).
Proof.
  intros native w n x y Hw2 Hm Hn HK B Hx Hy v. assert (Hw : 1 <= w) by lia.
  assert (HB0 : 0 <= B) by (apply wn_nonneg; lia). assert (HB1 : 1 <= B) by (unfold B; nia).
  assert (Ln : forall t, length (words_of w n t) = n) by (intros; apply words_of_len).
  assert (Vx : bval w (words_of w n x) = x) by (rewrite words_of_val by lia; apply Z.mod_small; auto).
  assert (Vy : bval w (words_of w n y) = y) by (rewrite words_of_val by lia; apply Z.mod_small; auto).
  assert (Wx := words_of_wf w n x ltac:(lia)). assert (Wy := words_of_wf w n y ltac:(lia)).
  pose proof (Ln x) as Lx. pose proof (Ln y) as Ly.
  set (l := words_of w n x) in *. set (r := words_of w n y) in *.
  destruct (quick_mul_hi_spec native w l r Hm Wx Wy ltac:(lia) ltac:(lia) ltac:(lia)) as (A1 & A2 & A3).
  destruct (quick_mul_hi_val native w l r Hm Wx Wy ltac:(lia) ltac:(lia) ltac:(lia)) as (_ & _ & A4).
  pose proof (kept_dropped w l r Hw Wx Wy ltac:(lia) ltac:(lia)) as KD.
  pose proof (dropped_low w l r Hw Wx Wy ltac:(lia) ltac:(lia)) as DL.
  cbv zeta in KD, DL. fold v in A1, A2, A3, A4. rewrite Vx, Vy in *. rewrite Lx in *.
  unfold bits in A3. rewrite Lx in A3. fold B in A3.
  split; [exact A1|]. split; [lia|]. split; [exact A3|].
  set (H := sumZ (fun t => 2 ^ (w * Z.of_nat t) * conv l r (n - 1 + t)) n) in *.
  set (D := sumZ (fun i => 2 ^ (w * Z.of_nat i) * conv l r i) (n - 1)) in *.
  assert (EB : 2 ^ B = 2 ^ w * 2 ^ (w * Z.of_nat (n - 1))).
  { rewrite <- Z.pow_add_r by (try apply wn_nonneg; lia). f_equal. unfold B. replace (Z.of_nat n) with (1 + Z.of_nat (n - 1)) by lia. ring. }
  assert (HG0 : 0 <= w * Z.of_nat (n - 1)) by (apply wn_nonneg; lia).
  set (G := 2 ^ (w * Z.of_nat (n - 1))) in *. assert (HG : 0 < G) by (apply pow2_pos; lia).
  pose proof (pow2_pos w ltac:(lia)) as HW. rewrite A4. split.
  - intros Lx' Ly'. apply Z.div_le_lower_bound; [lia|].
    assert (GH : 2 ^ (B - 1) * 2 ^ (B - 1) <= G * H).
    { pose proof (Z.div_mod x G ltac:(lia)) as DX. pose proof (Z.mod_pos_bound x G HG) as MX.
      pose proof (Z.div_mod y G ltac:(lia)) as DY. pose proof (Z.mod_pos_bound y G HG) as MY.
      assert (X1 : 2 ^ (w - 1) <= x / G).
      { apply Z.div_le_lower_bound; [lia|]. replace (G * 2 ^ (w - 1)) with (2 ^ (B - 1)); [lia|].
        unfold G. rewrite <- Z.pow_add_r by lia. f_equal. unfold B. replace (Z.of_nat n) with (1 + Z.of_nat (n - 1)) by lia. ring. }
      assert (X2 : 2 ^ (B - 1) = G * 2 ^ (w - 1)).
      { unfold G. rewrite <- Z.pow_add_r by lia. f_equal. unfold B. replace (Z.of_nat n) with (1 + Z.of_nat (n - 1)) by lia. ring. }
      assert (Y0 : 0 <= y / G) by (apply Z.div_pos; lia). pose proof (pow2_pos (w - 1) ltac:(lia)).
      assert (E : G * H = G * (x / G) * y + (x mod G) * (G * (y / G)) + ((x mod G) * (y mod G) - D)) by nia.
      assert (0 <= (x mod G) * (G * (y / G))) by (apply Z.mul_nonneg_nonneg; [lia|apply Z.mul_nonneg_nonneg; lia]).
      assert (GY : G * 2 ^ (w - 1) * y <= G * (x / G) * y) by (apply Z.mul_le_mono_nonneg_r; [lia|apply Z.mul_le_mono_nonneg_l; lia]).
      rewrite <- X2 in GY. assert (2 ^ (B - 1) * 2 ^ (B - 1) <= 2 ^ (B - 1) * y) by (apply Z.mul_le_mono_nonneg_l; lia). lia. }
    assert (E2 : 2 ^ (B - 1) * 2 ^ (B - 1) = G * (2 ^ w * 2 ^ (B - 2))) .
    { assert (2 <= B) by (unfold B; nia).
      rewrite <- Z.pow_add_r by lia. rewrite Z.mul_assoc, (Z.mul_comm G), <- EB, <- Z.pow_add_r by lia. f_equal. lia. }
    rewrite E2 in GH. apply Z.mul_le_mono_pos_l with (p := G); lia.
  - intros p q Hpq Dx Dy.
    assert (D0 : D = 0).
    { apply sumZ_0. intros i Hi. replace (conv l r i) with 0; [lia|]. symmetry. unfold conv. apply sumZ_0. intros j Hj.
      destruct (Nat.lt_ge_cases j p) as [L|L].
      - rewrite (wget_divide w p l j) by (try lia; try assumption; rewrite Vx; assumption). lia.
      - rewrite (wget_divide w q r (i - j)) by (try lia; try assumption; rewrite Vy; assumption). lia. }
    rewrite D0 in KD. cbn [Z.add] in KD. rewrite <- KD, EB, (Z.mul_comm (2 ^ w)). rewrite Z.div_mul_cancel_l by lia. reflexivity.
Qed.

Lemma top_word_bit : forall w v, 1 <= w -> wf w v -> (1 <= length v)%nat ->
  (Z.shiftr (wget v (length v - 1)) (w - 1) =? 0) = (bval w v <? 2 ^ (w * Z.of_nat (length v) - 1)).
Proof.
  intros w v Hw Hv Hl. pose proof (wget_range w v (length v - 1) ltac:(lia) Hv) as R. unfold inU in R.
  destruct (firstn_spec w v (length v - 1) ltac:(lia) Hv ltac:(lia)) as (F1 & F2 & F3).
  assert (E : bval w v = bval w (firstn (length v - 1) v) + 2 ^ (w * Z.of_nat (length v - 1)) * wget v (length v - 1)).
  { rewrite <- (firstn_all v) at 1. replace (length v) with (S (length v - 1)) at 1 by lia.
    pose proof (bval_firstn_S w (length v - 1) v ltac:(lia) ltac:(lia)) as H. exact H. }
  pose proof (bval_range w (firstn (length v - 1) v) ltac:(lia) F1) as FR. unfold bits in FR. rewrite F2 in FR.
  set (t := wget v (length v - 1)) in *. set (lo := bval w (firstn (length v - 1) v)) in *.
  assert (0 <= w * Z.of_nat (length v - 1)) by (apply wn_nonneg; lia).
  replace (w * Z.of_nat (length v) - 1) with (w * Z.of_nat (length v - 1) + (w - 1)) by (replace (Z.of_nat (length v)) with (1 + Z.of_nat (length v - 1)) by lia; ring).
  rewrite Z.pow_add_r by lia. set (G := 2 ^ (w * Z.of_nat (length v - 1))) in *. pose proof (pow2_pos (w - 1) ltac:(lia)) as HP.
  rewrite Z.shiftr_div_pow2 by lia. rewrite E.
  destruct (Z_lt_le_dec t (2 ^ (w - 1))) as [L|L].
  - rewrite Z.div_small by lia. symmetry. apply Z.ltb_lt. nia.
  - assert (1 <= t / 2 ^ (w - 1)) by (apply Z.div_le_lower_bound; lia).
    transitivity false; [apply Z.eqb_neq; lia|]. symmetry. apply Z.ltb_ge. nia.
Qed.

(** ** quick_mul *)
Section Mul.
Context (native : bool) (w : Z) (n : nat).
Context (Hw : 2 <= w) (Hm : mul2_width native w) (Hn : (1 <= n)%nat) (HK : Z.of_nat n < 2 ^ w).
Notation B := (w * Z.of_nat n).

Lemma quick_mul_spec : forall a b, 0 <= dmant a < 2 ^ B -> 0 <= dmant b < 2 ^ B -> dy_norm B a -> dy_norm B b ->
  let r := quick_mul native w n a b in
  dsign r = xorb (dsign a) (dsign b) /\ 0 <= dmant r < 2 ^ B /\ dy_norm B r /\
  dexp a + dexp b + B - 1 <= dexp r <= dexp a + dexp b + B /\
  (0 <= Rabs (dyval a * dyval b) - Rabs (dyval r) < IZR (2 * Z.of_nat n) * bpow radix2 (dexp r))%R.
Proof.
  intros a b Ha Hb Na Nb r.
  assert (SX : xorb (dsign a) (dsign b) = negb (Bool.eqb (dsign a) (dsign b))) by (destruct (dsign a), (dsign b); reflexivity).
  rewrite SX. unfold r, quick_mul. set (s := negb (Bool.eqb (dsign a) (dsign b))) in *.
  assert (HB2 : 2 <= B) by nia. pose proof (pow2_top B ltac:(lia)) as PT.
  pose proof (pow2_pos (B - 1) ltac:(lia)) as HP1. rewrite dyval_mul. fold s.
  assert (HNR : (0 < IZR (2 * Z.of_nat n))%R) by (apply IZR_lt; lia).
  destruct ((dmant a =? 0) || (dmant b =? 0)) eqn:Z0; cbn [negb].
  { cbn [dsign dmant dexp]. split; [reflexivity|]. split; [lia|]. split; [left; reflexivity|]. split; [lia|].
    assert (E : dmant a * dmant b = 0) by (apply orb_true_iff in Z0; lia). rewrite E.
    rewrite Rabs_dyval by (cbn [dmant]; lia). cbn [dmant]. rewrite !Rmult_0_l, Rmult_0_r, Rabs_R0.
    pose proof (bpow_gt_0 radix2 (dexp a + dexp b + B)). split; [lra|]. rewrite Rminus_0_r. apply Rmult_lt_0_compat; lra. }
  assert (Na' : 2 ^ (B - 1) <= dmant a) by (destruct Na as [H|H]; [rewrite H in Z0; discriminate|auto]).
  assert (Nb' : 2 ^ (B - 1) <= dmant b) by (destruct Nb as [H|H]; [rewrite H, orb_true_r in Z0; discriminate|auto]).
  destruct (qmh_facts native w n (dmant a) (dmant b) Hw Hm Hn HK Ha Hb) as (W & L & ER & LO & _).
  specialize (LO Na' Nb'). set (v := BigInt.quick_mul_hi _ _ _ _) in *.
  pose proof (top_word_bit w v ltac:(lia) W ltac:(lia)) as TW. rewrite L in TW. rewrite TW.
  pose proof (bval_range w v ltac:(lia) W) as VR. unfold bits in VR. rewrite L in VR.
  set (z := bval w v) in *. set (x := dmant a) in *. set (y := dmant b) in *.
  assert (XY : 0 <= x * y) by (apply Z.mul_nonneg_nonneg; lia).
  (* in units of 2^(ea+eb+B) *)
  set (e := dexp a + dexp b).
  assert (ERR : (0 <= IZR (x * y) * bpow radix2 e - IZR z * bpow radix2 (e + B) < IZR (Z.of_nat n) * bpow radix2 (e + B))%R).
  { rewrite bpow_plus, (bpow_IZR B) by lia. pose proof (bpow_gt_0 radix2 e) as HE.
    pose proof (Z.div_mod (x * y) (2 ^ B) ltac:(lia)) as DM. pose proof (Z.mod_pos_bound (x * y) (2 ^ B) ltac:(lia)) as MB.
    assert (I1 : (IZR (z * 2 ^ B) <= IZR (x * y))%R) by (apply IZR_le; nia).
    assert (I2 : (IZR (x * y) < IZR ((z + Z.of_nat n) * 2 ^ B))%R) by (apply IZR_lt; nia).
    rewrite mult_IZR in I1. rewrite (mult_IZR (z + _)), plus_IZR in I2. generalize dependent (IZR (x * y)). intros XYR I1 I2.
    set (E := bpow radix2 e) in *. set (P := IZR (2 ^ B)) in *. set (Zr := IZR z) in *. set (Nr := IZR (Z.of_nat n)) in *.
    assert (0 <= (XYR - Zr * P) * E)%R by (apply Rmult_le_pos; lra).
    assert ((XYR - Zr * P) * E < (Nr * P) * E)%R by (apply Rmult_lt_compat_r; lra). lra. }
  assert (AB : Rabs (sg s * (IZR (x * y) * bpow radix2 e)) = (IZR (x * y) * bpow radix2 e)%R).
  { rewrite Rabs_sg, Rabs_pos_eq; auto. apply Rmult_le_pos; [apply IZR_le; lia|apply bpow_ge_0]. }
  rewrite AB. rewrite (mult_IZR 2). pose proof (bpow_gt_0 radix2 (e + B)) as HEB.
  assert (HN1 : (0 < IZR (Z.of_nat n))%R) by (apply IZR_lt; lia).
  destruct (Z.ltb_spec z (2 ^ (B - 1))) as [LT|GE].
  - destruct (dy_shl_spec B (Dyadic s (e + B) z) 1) as (D1 & D2 & D3 & D4); cbn [dmant]; try lia.
    rewrite D2, D4. rewrite (Rabs_dyval (dy_shl _ _ _)) by (rewrite D4; cbn [dmant]; lia). rewrite D3, D4. cbn [dsign dexp dmant].
    split; [reflexivity|]. split; [lia|]. assert (E2 : 2 ^ (B - 1) = 2 * 2 ^ (B - 2)) by (rewrite <- pow2_succ by lia; f_equal; lia).
    split; [right; rewrite D4; cbn [dmant]; lia|]. split; [lia|]. fold e.
    assert (EH : bpow radix2 (e + B) = (2 * bpow radix2 (e + B - 1))%R).
    { replace (e + B) with (1 + (e + B - 1)) at 1 by lia. rewrite bpow_plus. reflexivity. }
    rewrite EH in ERR. rewrite (mult_IZR z). change (IZR (2 ^ 1)) with 2%R. split; lra.
  - rewrite Rabs_dyval by (cbn [dmant]; lia). cbn [dsign dexp dmant]. split; [reflexivity|]. split; [lia|]. split; [right; cbn [dmant]; lia|].
    split; [lia|]. fold e. assert (0 < IZR (Z.of_nat n) * bpow radix2 (e + B))%R by (apply Rmult_lt_0_compat; lra). lra.
Qed.

(** Half-width mantissas multiply exactly. *)
Lemma quick_mul_exact : forall a b h, 0 <= dmant a < 2 ^ B -> 0 <= dmant b < 2 ^ B -> dy_norm B a -> dy_norm B b ->
  B <= 2 * h -> (2 ^ h | dmant a) -> (2 ^ h | dmant b) ->
  dyval (quick_mul native w n a b) = (dyval a * dyval b)%R.
Proof.
  intros a b h Ha Hb Na Nb Hh Da Db.
  unfold quick_mul. set (s := negb (Bool.eqb (dsign a) (dsign b))) in *.
  assert (HB2 : 2 <= B) by nia. pose proof (pow2_top B ltac:(lia)) as PT.
  pose proof (pow2_pos (B - 1) ltac:(lia)) as HP1. rewrite dyval_mul. fold s.
  destruct ((dmant a =? 0) || (dmant b =? 0)) eqn:Z0; cbn [negb].
  { rewrite dyval_sg. cbn [dsign dmant dexp].
    assert (E : dmant a * dmant b = 0) by (apply orb_true_iff in Z0; lia). rewrite E. rewrite !Rmult_0_l. reflexivity. }
  assert (Na' : 2 ^ (B - 1) <= dmant a) by (destruct Na as [H|H]; [rewrite H in Z0; discriminate|auto]).
  assert (Nb' : 2 ^ (B - 1) <= dmant b) by (destruct Nb as [H|H]; [rewrite H, orb_true_r in Z0; discriminate|auto]).
  destruct (qmh_facts native w n (dmant a) (dmant b) Hw Hm Hn HK Ha Hb) as (W & L & ER & LO & EX).
  specialize (LO Na' Nb'). set (v := BigInt.quick_mul_hi _ _ _ _) in *.
  pose proof (top_word_bit w v ltac:(lia) W ltac:(lia)) as TW. rewrite L in TW. rewrite TW.
  assert (PH : (n <= S (Nat.div n 2 + Nat.div n 2))%nat) by (pose proof (Nat.div_mod n 2 ltac:(lia)); pose proof (Nat.mod_upper_bound n 2 ltac:(lia)); lia).
  assert (HW : 0 <= w * Z.of_nat (Nat.div n 2) <= h).
  { assert (Z.of_nat (Nat.div n 2) * 2 <= Z.of_nat n) by (pose proof (Nat.div_mod n 2 ltac:(lia)); lia). nia. }
  assert (DV : (2 ^ (w * Z.of_nat (Nat.div n 2)) | 2 ^ h)).
  { exists (2 ^ (h - w * Z.of_nat (Nat.div n 2))). rewrite <- Z.pow_add_r by lia. f_equal. lia. }
  specialize (EX (Nat.div n 2) (Nat.div n 2) PH ltac:(eapply Z.divide_trans; eauto) ltac:(eapply Z.divide_trans; eauto)).
  assert (DVB : (2 ^ B | dmant a * dmant b)).
  { apply Z.divide_trans with (2 ^ h * 2 ^ h); [|apply Z.mul_divide_mono_l with (p := 2 ^ h) in Db; apply Z.mul_divide_mono_r with (p := dmant b) in Da; eapply Z.divide_trans; eauto].
    exists (2 ^ (2 * h - B)). rewrite <- !Z.pow_add_r by lia. f_equal. lia. }
  assert (EZ : bval w v * 2 ^ B = dmant a * dmant b).
  { rewrite EX. destruct DVB as [c ->]. rewrite Z.div_mul by lia. reflexivity. }
  pose proof (bval_range w v ltac:(lia) W) as VR. unfold bits in VR. rewrite L in VR.
  rewrite <- EZ. set (z := bval w v) in *.
  assert (EV : (IZR (z * 2 ^ B) * bpow radix2 (dexp a + dexp b) = IZR z * bpow radix2 (dexp a + dexp b + B))%R).
  { rewrite (bpow_plus radix2 (dexp a + dexp b) B), (bpow_IZR B), mult_IZR by lia. ring. }
  rewrite EV. destruct (Z.ltb_spec z (2 ^ (B - 1))) as [LT|GE].
  - destruct (dy_shl_spec B (Dyadic s (dexp a + dexp b + B) z) 1) as (D1 & _); cbn [dmant]; try lia.
    rewrite D1, dyval_sg. reflexivity.
  - rewrite dyval_sg. reflexivity.
Qed.
End Mul.

(** ** quick_add *)
Section Add.
Context (B : Z) (HB : 2 <= B).

Lemma add_carry : forall s e M f, 2 ^ (B - 1) <= M < 2 ^ B -> 0 <= f < 2 ^ B ->
  (if 2 ^ B <=? M + f then
     Dyadic (dsign (dy_shr B (Dyadic s e (wrap B (M + f))) 1)) (dexp (dy_shr B (Dyadic s e (wrap B (M + f))) 1))
            (Z.lor (dmant (dy_shr B (Dyadic s e (wrap B (M + f))) 1)) (2 ^ (B - 1)))
   else Dyadic s e (wrap B (M + f))) =
  if 2 ^ B <=? M + f then Dyadic s (e + 1) ((M + f) / 2) else Dyadic s e (M + f).
Proof.
  intros s e M f HM Hf. pose proof (pow2_top B ltac:(lia)) as PT. pose proof (pow2_pos (B - 1) ltac:(lia)) as HP.
  destruct (Z.leb_spec (2 ^ B) (M + f)) as [L|L].
  - unfold dy_shr. replace (1 <? B) with true by lia. cbn [dsign dexp dmant]. f_equal.
    assert (W : wrap B (M + f) = M + f - 2 ^ B).
    { unfold wrap. symmetry. apply Z.mod_unique with 1; lia. }
    rewrite W, Z.shiftr_div_pow2 by lia. change (2 ^ 1) with 2. rewrite PT.
    set (P := 2 ^ (B - 1)) in *. replace (M + f) with ((M + f - 2 * P) + P * 2) at 2 by lia. rewrite Z.div_add by lia.
    rewrite <- (Z.mul_1_l P) at 2. rewrite Z.lor_comm. unfold P.
    rewrite lor_add; [|lia|]. lia.
    pose proof (Z.div_mod (M + f - 2 * P) 2 ltac:(lia)). pose proof (Z.mod_pos_bound (M + f - 2 * P) 2 ltac:(lia)). fold P. lia.
  - rewrite wrap_small by (unfold inU; lia). reflexivity.
Qed.
(** The smaller operand aligned: [f] units of [2^e] plus a fraction below one unit. *)
Lemma align_real : forall m e e', 0 <= m -> e <= e' ->
  (0 <= IZR m * bpow radix2 e - IZR (m / 2 ^ (e' - e)) * bpow radix2 e' < bpow radix2 e')%R.
Proof.
  intros m e e' Hm He. pose proof (pow2_pos (e' - e) ltac:(lia)) as HP.
  replace (bpow radix2 e') with (bpow radix2 (e' - e) * bpow radix2 e)%R by (rewrite <- bpow_plus; f_equal; lia).
  rewrite (bpow_IZR (e' - e)) by lia. pose proof (bpow_gt_0 radix2 e) as HE.
  pose proof (Z.div_mod m (2 ^ (e' - e)) ltac:(lia)) as DM. pose proof (Z.mod_pos_bound m (2 ^ (e' - e)) HP) as MB.
  set (q := m / 2 ^ (e' - e)) in *. set (P := 2 ^ (e' - e)) in *.
  assert (I1 : (IZR (q * P) <= IZR m)%R) by (apply IZR_le; lia).
  assert (I2 : (IZR m < IZR (q * P) + IZR P)%R) by (rewrite <- plus_IZR; apply IZR_lt; lia).
  rewrite mult_IZR in I1, I2. set (E := bpow radix2 e) in *. set (p := IZR P) in *. set (M := IZR m) in *. set (Q := IZR q) in *.
  assert (0 <= (M - Q * p) * E)%R by (apply Rmult_le_pos; lra).
  assert ((M - Q * p) * E < p * E)%R by (apply Rmult_lt_compat_r; lra). lra.
Qed.
Lemma shr_mant : forall d k, 0 <= dmant d < 2 ^ B -> 0 <= k -> dmant (dy_shr B d k) = dmant d / 2 ^ k.
Proof.
  intros d k Hd Hk. unfold dy_shr. destruct (Z.ltb_spec k B); cbn [dmant].
  - apply Z.shiftr_div_pow2; auto.
  - symmetry. apply Z.div_small. pose proof (pow2_le B k). lia.
Qed.
Lemma shr_sign : forall d k, dsign (dy_shr B d k) = dsign d.
Proof. intros. unfold dy_shr. destruct (k <? B); reflexivity. Qed.
Lemma div_half : forall m k, 0 <= m < 2 ^ B -> 1 <= k -> 0 <= m / 2 ^ k < 2 ^ (B - 1).
Proof.
  intros m k Hm Hk. pose proof (pow2_pos k ltac:(lia)). split; [apply Z.div_pos; lia|].
  apply Z.div_lt_upper_bound; [lia|]. rewrite (pow2_top B) in Hm by lia. pose proof (pow2_le 1 k ltac:(lia)). change (2 ^ 1) with 2 in *.
  pose proof (pow2_pos (B - 1) ltac:(lia)). nia.
Qed.

(** Same signs: truncated, with an error below one unit in the last place. *)
Lemma add_carry_val : forall s e M f X, 2 ^ (B - 1) <= M < 2 ^ B -> 0 <= f < 2 ^ B ->
  (0 <= X - IZR (M + f) * bpow radix2 e < bpow radix2 e)%R ->
  let r := if 2 ^ B <=? M + f then Dyadic s (e + 1) ((M + f) / 2) else Dyadic s e (M + f) in
  dsign r = s /\ 2 ^ (B - 1) <= dmant r < 2 ^ B /\ e <= dexp r <= e + 1 /\ (0 <= X - Rabs (dyval r) < bpow radix2 (dexp r))%R.
Proof.
  intros s e M f X HM Hf HX r. pose proof (pow2_top B ltac:(lia)) as PT. pose proof (pow2_pos (B - 1) ltac:(lia)) as HP.
  unfold r. destruct (Z.leb_spec (2 ^ B) (M + f)) as [L|L].
  - cbn [dsign dexp dmant]. pose proof (Z.div_mod (M + f) 2 ltac:(lia)) as DM. pose proof (Z.mod_pos_bound (M + f) 2 ltac:(lia)) as MB.
    split; [reflexivity|]. split; [lia|]. split; [lia|]. rewrite Rabs_dyval by (cbn [dmant]; lia). cbn [dexp dmant].
    rewrite !bpow_plus. change (bpow radix2 1) with 2%R. pose proof (bpow_gt_0 radix2 e) as HE.
    set (q := (M + f) / 2) in *. set (E := bpow radix2 e) in *.
    assert (I1 : (2 * IZR q <= IZR (M + f))%R) by (rewrite <- mult_IZR; apply IZR_le; lia).
    assert (I2 : (IZR (M + f) <= 2 * IZR q + 1)%R) by (rewrite <- mult_IZR, <- plus_IZR; apply IZR_le; lia).
    generalize dependent (IZR (M + f)). intros S ? ? ?.
    assert (0 <= (S - 2 * IZR q) * E)%R by (apply Rmult_le_pos; lra).
    assert ((S - 2 * IZR q) * E <= 1 * E)%R by (apply Rmult_le_compat_r; lra). lra.
  - cbn [dsign dexp dmant]. split; [reflexivity|]. split; [lia|]. split; [lia|]. rewrite Rabs_dyval by (cbn [dmant]; lia). cbn [dexp dmant]. exact HX.
Qed.

Lemma Rabs_same_sign : forall a b, dsign a = dsign b -> 0 <= dmant a -> 0 <= dmant b ->
  Rabs (dyval a + dyval b) = (IZR (dmant a) * bpow radix2 (dexp a) + IZR (dmant b) * bpow radix2 (dexp b))%R.
Proof.
  intros a b H Ha Hb. rewrite !dyval_sg, <- H, <- Rmult_plus_distr_l, Rabs_sg, Rabs_pos_eq; auto.
  apply Rplus_le_le_0_compat; apply Rmult_le_pos; try apply bpow_ge_0; apply IZR_le; auto.
Qed.

Lemma quick_add_same : forall a b, 0 <= dmant a < 2 ^ B -> 0 <= dmant b < 2 ^ B -> dy_norm B a -> dy_norm B b ->
  dsign a = dsign b -> (dmant a <> 0 -> dexp b - dexp a < B) ->
  let r := quick_add B a b in
  dsign r = dsign a /\ 0 <= dmant r < 2 ^ B /\ dy_norm B r /\
  (0 <= Rabs (dyval a + dyval b) - Rabs (dyval r) < bpow radix2 (dexp r))%R.
Proof.
  intros a b Ha Hb Na Nb HS HE r. pose proof (pow2_pos (B - 1) ltac:(lia)) as HP1.
  rewrite Rabs_same_sign by (auto; lia). unfold r, quick_add.
  destruct (Z.eqb_spec (dmant a) 0) as [A0|A0].
  { rewrite A0, Rmult_0_l, Rplus_0_l. rewrite Rabs_dyval by lia. pose proof (bpow_gt_0 radix2 (dexp b)).
    split; [congruence|]. split; [lia|]. split; [auto|lra]. }
  destruct (Z.eqb_spec (dmant b) 0) as [B0|B0].
  { rewrite B0, Rmult_0_l, Rplus_0_r. rewrite Rabs_dyval by lia. pose proof (bpow_gt_0 radix2 (dexp a)).
    split; [reflexivity|]. split; [lia|]. split; [auto|lra]. }
  specialize (HE A0). assert (Na' : 2 ^ (B - 1) <= dmant a) by (destruct Na; [lia|auto]).
  assert (Nb' : 2 ^ (B - 1) <= dmant b) by (destruct Nb; [lia|auto]).
  assert (FIN : forall s e M f X, 2 ^ (B - 1) <= M < 2 ^ B -> 0 <= f < 2 ^ B ->
    (0 <= X - IZR (M + f) * bpow radix2 e < bpow radix2 e)%R ->
    let r := if 2 ^ B <=? M + f then
     Dyadic (dsign (dy_shr B (Dyadic s e (wrap B (M + f))) 1)) (dexp (dy_shr B (Dyadic s e (wrap B (M + f))) 1))
            (Z.lor (dmant (dy_shr B (Dyadic s e (wrap B (M + f))) 1)) (2 ^ (B - 1)))
      else Dyadic s e (wrap B (M + f)) in
    dsign r = s /\ 0 <= dmant r < 2 ^ B /\ dy_norm B r /\ (0 <= X - Rabs (dyval r) < bpow radix2 (dexp r))%R).
  { intros s e M f X H1 H2 H3. cbv zeta. rewrite add_carry by auto. destruct (add_carry_val s e M f X H1 H2 H3) as (R1 & R2 & R3 & R4).
    split; [exact R1|]. split; [lia|]. split; [right; lia|exact R4]. }
  assert (BC : forall q e, (IZR (dmant a + q) * bpow radix2 e = IZR (dmant a) * bpow radix2 e + IZR q * bpow radix2 e)%R)
    by (intros; rewrite plus_IZR; ring).
  destruct (Z.ltb_spec (dexp b) (dexp a)) as [L1|L1].
  - rewrite shr_sign, shr_mant, <- HS by lia. rewrite eqb_reflx.
    pose proof (div_half (dmant b) (dexp a - dexp b) Hb ltac:(lia)) as DH. pose proof (pow2_lt (B - 1) B ltac:(lia)).
    apply FIN; [lia|lia|]. pose proof (align_real (dmant b) (dexp b) (dexp a) ltac:(lia) ltac:(lia)). rewrite plus_IZR. lra.
  - destruct (Z.ltb_spec (dexp a) (dexp b)) as [L2|L2].
    + rewrite shr_sign, shr_mant, <- HS by lia. rewrite eqb_reflx.
      assert (EE : dexp (dy_shr B a (dexp b - dexp a)) = dexp b).
      { unfold dy_shr. replace (dexp b - dexp a <? B) with true by lia. cbn [dexp]. lia. }
      rewrite EE. pose proof (div_half (dmant a) (dexp b - dexp a) Ha ltac:(lia)) as DH. pose proof (pow2_lt (B - 1) B ltac:(lia)).
      rewrite (Z.add_comm (dmant a / _)). apply FIN; [lia|lia|].
      pose proof (align_real (dmant a) (dexp a) (dexp b) ltac:(lia) ltac:(lia)). rewrite plus_IZR. lra.
    + rewrite <- HS, eqb_reflx. apply FIN; [lia|lia|]. assert (EE : dexp a = dexp b) by lia. rewrite <- EE, plus_IZR.
      pose proof (bpow_gt_0 radix2 (dexp a)). lra.
Qed.

(** Opposite signs: the smaller operand is truncated to the exponent of the larger. *)
Lemma quick_add_opposite : forall a b, 0 <= dmant a < 2 ^ B -> 0 <= dmant b < 2 ^ B -> dy_norm B a -> dy_norm B b ->
  dsign a <> dsign b ->
  let r := quick_add B a b in
  0 <= dmant r < 2 ^ B /\ dy_norm B r /\
  (dmant a <> 0 -> dmant b <> 0 -> (Rabs (dyval r - (dyval a + dyval b)) < bpow radix2 (Z.max (dexp a) (dexp b)))%R) /\
  ((dmant a = 0 \/ dmant b = 0 \/ dexp a = dexp b) -> dyval r = (dyval a + dyval b)%R).
Proof.
  intros a b Ha Hb Na Nb HS r. pose proof (pow2_pos (B - 1) ltac:(lia)) as HP1. pose proof (pow2_lt (B - 1) B ltac:(lia)) as HPB.
  unfold r, quick_add.
  destruct (Z.eqb_spec (dmant a) 0) as [A0|A0].
  { split; [lia|]. split; [auto|]. split; [congruence|]. intros _. assert (E : dyval a = 0%R) by (unfold dyval; rewrite A0; ring). rewrite E. ring. }
  destruct (Z.eqb_spec (dmant b) 0) as [B0|B0].
  { split; [lia|]. split; [auto|]. split; [congruence|]. intros _. assert (E : dyval b = 0%R) by (unfold dyval; rewrite B0; ring). rewrite E. ring. }
  assert (Na' : 2 ^ (B - 1) <= dmant a) by (destruct Na; [lia|auto]).
  assert (Nb' : 2 ^ (B - 1) <= dmant b) by (destruct Nb; [lia|auto]).
  assert (SGN : sg (dsign b) = (- sg (dsign a))%R) by (unfold sg; destruct (dsign a), (dsign b); try congruence; ring).
  assert (SQ : forall x, Rabs (sg (dsign a) * x) = Rabs x) by (intros; apply Rabs_sg).
  assert (NF : forall s e m, 0 <= m < 2 ^ B -> let r := normalize B (Dyadic s e (wrap B m)) in
    0 <= dmant r < 2 ^ B /\ dy_norm B r /\ dyval r = (sg s * (IZR m * bpow radix2 e))%R).
  { intros s e m Hm0. cbv zeta. rewrite wrap_small by (unfold inU; lia). destruct (dy_make_spec B s e m Hm0) as (D1 & D2 & D3 & D4). unfold dy_make in *. auto. }
  destruct (Z.ltb_spec (dexp b) (dexp a)) as [L1|L1].
  - rewrite shr_sign, shr_mant by lia. replace (Bool.eqb (dsign a) (dsign b)) with false by (symmetry; apply eqb_false_iff; auto).
    pose proof (div_half (dmant b) (dexp a - dexp b) Hb ltac:(lia)) as DH. replace (dmant b / 2 ^ (dexp a - dexp b) <=? dmant a) with true by lia.
    destruct (NF (dsign a) (dexp a) (dmant a - dmant b / 2 ^ (dexp a - dexp b)) ltac:(lia)) as (N1 & N2 & N3).
    split; [exact N1|]. split; [exact N2|]. split; [|lia]. intros _ _. rewrite N3, !dyval_sg, SGN, Z.max_l by lia.
    pose proof (align_real (dmant b) (dexp b) (dexp a) ltac:(lia) ltac:(lia)) as AR. rewrite minus_IZR.
    match goal with |- (Rabs ?t < _)%R => replace t with (sg (dsign a) * (IZR (dmant b) * bpow radix2 (dexp b) - IZR (dmant b / 2 ^ (dexp a - dexp b)) * bpow radix2 (dexp a)))%R by ring end.
    rewrite SQ, Rabs_pos_eq; lra.
  - destruct (Z.ltb_spec (dexp a) (dexp b)) as [L2|L2].
    + rewrite shr_sign, shr_mant by lia. replace (Bool.eqb (dsign a) (dsign b)) with false by (symmetry; apply eqb_false_iff; auto).
      pose proof (div_half (dmant a) (dexp b - dexp a) Ha ltac:(lia)) as DH. replace (dmant b <=? dmant a / 2 ^ (dexp b - dexp a)) with false by lia.
      destruct (NF (dsign b) (dexp b) (dmant b - dmant a / 2 ^ (dexp b - dexp a)) ltac:(lia)) as (N1 & N2 & N3).
      split; [exact N1|]. split; [exact N2|]. split; [|lia]. intros _ _. rewrite N3, !dyval_sg, SGN, Z.max_r by lia.
      pose proof (align_real (dmant a) (dexp a) (dexp b) ltac:(lia) ltac:(lia)) as AR. rewrite minus_IZR.
      match goal with |- (Rabs ?t < _)%R => replace t with (sg (dsign a) * - (IZR (dmant a) * bpow radix2 (dexp a) - IZR (dmant a / 2 ^ (dexp b - dexp a)) * bpow radix2 (dexp b)))%R by ring end.
      rewrite SQ, Rabs_Ropp, Rabs_pos_eq; lra.
    + replace (Bool.eqb (dsign a) (dsign b)) with false by (symmetry; apply eqb_false_iff; auto).
      assert (EE : dexp a = dexp b) by lia.
      assert (EX : forall r, (0 <= dmant r < 2 ^ B /\ dy_norm B r /\ dyval r = (dyval a + dyval b)%R) ->
        0 <= dmant r < 2 ^ B /\ dy_norm B r /\
        (dmant a <> 0 -> dmant b <> 0 -> (Rabs (dyval r - (dyval a + dyval b)) < bpow radix2 (Z.max (dexp a) (dexp b)))%R) /\
        ((dmant a = 0 \/ dmant b = 0 \/ dexp a = dexp b) -> dyval r = (dyval a + dyval b)%R)).
      { intros r0 (R1 & R2 & R3). split; [auto|]. split; [auto|]. rewrite R3. split; [|reflexivity]. intros _ _. rewrite Rminus_eq_0, Rabs_R0. apply bpow_gt_0. }
      destruct (Z.leb_spec (dmant b) (dmant a)) as [L3|L3]; apply EX.
      * destruct (NF (dsign a) (dexp a) (dmant a - dmant b) ltac:(lia)) as (N1 & N2 & N3). split; [auto|]. split; [auto|].
        rewrite N3, !dyval_sg, SGN, <- EE, minus_IZR. ring.
      * destruct (NF (dsign b) (dexp b) (dmant b - dmant a) ltac:(lia)) as (N1 & N2 & N3). split; [auto|]. split; [auto|].
        rewrite N3, !dyval_sg, SGN, <- EE, minus_IZR. ring.
Qed.

(** The bound documented at dyadic_float.hpp:568-572. *)
Lemma quick_add_bound : forall a b, 0 <= dmant a < 2 ^ B -> 0 <= dmant b < 2 ^ B -> dy_norm B a -> dy_norm B b ->
  (dyval a + dyval b <> 0)%R ->
  (dsign a = dsign b -> dmant a <> 0 -> dexp b - dexp a < B) ->
  (dsign a <> dsign b -> Z.abs (dexp a - dexp b) <> 1) ->
  (Rabs (dyval (quick_add B a b) - (dyval a + dyval b)) < bpow radix2 (mag radix2 (dyval a + dyval b) - 1 + 2 - B))%R.
Proof.
  intros a b Ha Hb Na Nb HN HS HO. pose proof (pow2_pos (B - 1) ltac:(lia)) as HP1.
  set (X := (dyval a + dyval b)%R) in *.
  assert (MG : forall k, (bpow radix2 k <= Rabs X)%R -> (bpow radix2 (k + 2 - B) <= bpow radix2 (mag radix2 X - 1 + 2 - B))%R).
  { intros k Hk. apply bpow_le. pose proof (mag_ge_bpow radix2 X (k + 1)) as H. replace (k + 1 - 1) with k in H by lia. specialize (H Hk). lia. }
  destruct (Bool.bool_dec (dsign a) (dsign b)) as [ES|ES].
  - destruct (quick_add_same a b Ha Hb Na Nb ES (HS ES)) as (R1 & R2 & R3 & R4). fold X in R4. set (r := quick_add B a b) in *.
    assert (SX : X = (sg (dsign a) * Rabs X)%R).
    { unfold X at 2. rewrite Rabs_same_sign by (auto; lia). unfold X. rewrite !dyval_sg, <- ES. ring. }
    assert (SR : dyval r = (sg (dsign a) * Rabs (dyval r))%R) by (rewrite Rabs_dyval by lia; rewrite dyval_sg, R1; reflexivity).
    assert (EQ : Rabs (dyval r - X) = (Rabs X - Rabs (dyval r))%R).
    { rewrite SR at 1. rewrite SX at 1. replace (sg (dsign a) * Rabs (dyval r) - sg (dsign a) * Rabs X)%R with (sg (dsign a) * - (Rabs X - Rabs (dyval r)))%R by ring.
      rewrite Rabs_sg, Rabs_Ropp, Rabs_pos_eq; lra. }
    rewrite EQ. pose proof (Rabs_pos_lt X HN) as XP.
    destruct R3 as [R3|R3].
    + assert (RZ : Rabs (dyval r) = 0%R) by (rewrite Rabs_dyval by lia; rewrite R3; ring).
      exfalso. assert (D : (dmant a = 0 \/ dmant b = 0) \/ (dmant a <> 0 /\ dmant b <> 0)) by lia.
      destruct D as [D|[D1 D2]].
      * unfold r, quick_add in R3. destruct (Z.eqb_spec (dmant a) 0) as [A0|A0].
        -- apply HN. unfold X, dyval. rewrite A0, R3. ring.
        -- destruct D as [D|D]; [lia|]. rewrite D, Z.eqb_refl in R3. lia.
      * specialize (HS ES D1). rewrite RZ, Rminus_0_r in R4.
        assert (AA : Rabs X = (IZR (dmant a) * bpow radix2 (dexp a) + IZR (dmant b) * bpow radix2 (dexp b))%R) by (apply Rabs_same_sign; auto; lia).
        clear EQ SR SX. unfold r, quick_add in R3. replace (dmant a =? 0) with false in R3 by lia. replace (dmant b =? 0) with false in R3 by lia.
        assert (Na' : 2 ^ (B - 1) <= dmant a) by (destruct Na; [lia|auto]). assert (Nb' : 2 ^ (B - 1) <= dmant b) by (destruct Nb; [lia|auto]).
        assert (NZ : forall s e M f, 2 ^ (B - 1) <= M < 2 ^ B -> 0 <= f < 2 ^ B -> dmant (if 2 ^ B <=? M + f then
           Dyadic (dsign (dy_shr B (Dyadic s e (wrap B (M + f))) 1)) (dexp (dy_shr B (Dyadic s e (wrap B (M + f))) 1))
            (Z.lor (dmant (dy_shr B (Dyadic s e (wrap B (M + f))) 1)) (2 ^ (B - 1))) else Dyadic s e (wrap B (M + f))) <> 0).
        { intros s e M f H1 H2. rewrite add_carry by auto. pose proof (pow2_top B ltac:(lia)). destruct (Z.leb_spec (2 ^ B) (M + f)); cbn [dmant]; [|lia].
          assert (2 ^ (B - 1) <= (M + f) / 2) by (apply Z.div_le_lower_bound; lia). lia. }
        pose proof (pow2_lt (B - 1) B ltac:(lia)).
        destruct (Z.ltb_spec (dexp b) (dexp a)) as [L1|L1].
        -- rewrite shr_sign, shr_mant, <- ES, eqb_reflx in R3 by lia.
           pose proof (div_half (dmant b) (dexp a - dexp b) Hb ltac:(lia)). revert R3. apply NZ; lia.
        -- destruct (Z.ltb_spec (dexp a) (dexp b)) as [L2|L2].
           ++ rewrite shr_sign, shr_mant, <- ES, eqb_reflx in R3 by lia.
              pose proof (div_half (dmant a) (dexp b - dexp a) Ha ltac:(lia)). rewrite (Z.add_comm (dmant a / _)) in R3. revert R3. apply NZ; lia.
           ++ rewrite <- ES, eqb_reflx in R3. revert R3. apply NZ; lia.
    + assert (LB : (bpow radix2 (B - 1 + dexp r) <= Rabs X)%R).
      { apply Rle_trans with (Rabs (dyval r)); [|lra]. rewrite Rabs_dyval by lia. rewrite bpow_plus. apply Rmult_le_compat_r; [apply bpow_ge_0|].
        rewrite (bpow_IZR (B - 1)) by lia. apply IZR_le. auto. }
      apply Rlt_le_trans with (2 := MG _ LB). apply Rlt_le_trans with (1 := proj2 R4). apply bpow_le. lia.
  - destruct (quick_add_opposite a b Ha Hb Na Nb ES) as (R1 & R2 & R3 & R4). fold X in R3, R4. specialize (HO ES).
    assert (D : (dmant a = 0 \/ dmant b = 0 \/ dexp a = dexp b) \/ (dmant a <> 0 /\ dmant b <> 0 /\ dexp a <> dexp b)) by lia.
    destruct D as [D|(D1 & D2 & D3)].
    + rewrite (R4 D), Rminus_eq_0, Rabs_R0. apply bpow_gt_0.
    + specialize (R3 D1 D2). apply Rlt_le_trans with (1 := R3).
      assert (Na' : 2 ^ (B - 1) <= dmant a) by (destruct Na; [lia|auto]). assert (Nb' : 2 ^ (B - 1) <= dmant b) by (destruct Nb; [lia|auto]).
      assert (LOW : forall M e m e', 2 ^ (B - 1) <= M -> 0 <= m < 2 ^ B -> e' + 2 <= e ->
         (bpow radix2 (e + B - 2) <= IZR M * bpow radix2 e - IZR m * bpow radix2 e')%R).
      { intros M e m e' HM Hm' He. apply Rle_trans with (IZR (2 ^ (B - 1)) * bpow radix2 e - IZR (2 ^ B) * bpow radix2 (e - 2))%R.
        - rewrite <- (bpow_IZR (B - 1)), <- (bpow_IZR B) by lia. rewrite <- !bpow_plus. replace (B - 1 + e) with (1 + (e + B - 2)) by lia.
          replace (B + (e - 2)) with (e + B - 2) by lia. rewrite (bpow_plus radix2 1). change (bpow radix2 1) with 2%R. lra.
        - assert (I1 : (IZR (2 ^ (B - 1)) * bpow radix2 e <= IZR M * bpow radix2 e)%R) by (apply Rmult_le_compat_r; [apply bpow_ge_0|apply IZR_le; auto]).
          assert (I2 : (IZR m * bpow radix2 e' <= IZR (2 ^ B) * bpow radix2 (e - 2))%R).
          { apply Rmult_le_compat; [apply IZR_le; lia|apply bpow_ge_0|apply IZR_le; lia|apply bpow_le; lia]. }
          lra. }
      assert (SGN : sg (dsign b) = (- sg (dsign a))%R) by (unfold sg; destruct (dsign a), (dsign b); try congruence; ring).
      assert (EX : X = (sg (dsign a) * (IZR (dmant a) * bpow radix2 (dexp a) - IZR (dmant b) * bpow radix2 (dexp b)))%R) by (unfold X; rewrite !dyval_sg, SGN; ring).
      assert (LB : (bpow radix2 (Z.max (dexp a) (dexp b) + B - 2) <= Rabs X)%R).
      { rewrite EX, Rabs_sg. destruct (Z_lt_le_dec (dexp b) (dexp a)) as [L|L].
        - rewrite Z.max_l by lia. apply Rle_trans with (2 := RRle_abs _). apply LOW; lia.
        - rewrite Z.max_r by lia. rewrite Rabs_minus_sym. apply Rle_trans with (2 := RRle_abs _). apply LOW; lia. }
      apply Rle_trans with (2 := MG _ LB). apply bpow_le. lia.
Qed.
End Add.

(** ** Conversion to an integer *)
Lemma mneg_eq : forall B v, 0 <= B -> mneg B v = (- v) mod 2 ^ B.
Proof.
  intros B v HB. unfold mneg, wrap, unot. pose proof (pow2_pos B HB). 
  replace (2 ^ B - 1 - v + 1) with (- v + 1 * 2 ^ B) by ring. apply Z.mod_add. lia.
Qed.
Lemma neg_mod : forall v P, 0 < P -> (- (v mod P)) mod P = (- v) mod P.
Proof.
  intros v P HP. rewrite (Z.div_mod v P) at 2 by lia. 
  replace (- (P * (v / P) + v mod P)) with (- (v mod P) + (- (v / P)) * P) by ring. symmetry. apply Z.mod_add. lia.
Qed.
(** [v], negated for a negative number, modulo [2^B]. *)
Lemma signed_mod : forall B (s : bool) v q, 0 <= B -> v = q mod 2 ^ B ->
  (if s then mneg B v else v) = cond_Zopp s q mod 2 ^ B.
Proof.
  intros B s v q HB ->. pose proof (pow2_pos B HB). destruct s; cbn [cond_Zopp]; [|reflexivity].
  rewrite mneg_eq by auto. apply neg_mod. auto.
Qed.
Lemma dyval_int : forall d, 0 <= dexp d -> dyval d = IZR (cond_Zopp (dsign d) (dmant d * 2 ^ dexp d)).
Proof.
  intros d H. rewrite dyval_sg, (bpow_IZR (dexp d)), <- mult_IZR by auto. destruct (dsign d); unfold sg; cbn [cond_Zopp]; rewrite ?opp_IZR; ring.
Qed.
Lemma dyval_frac : forall d, dyval d = (sg (dsign d) * (IZR (dmant d) * bpow radix2 (- (- dexp d))))%R.
Proof. intros d. rewrite Z.opp_involutive. apply dyval_sg. Qed.
Lemma rnd_IZR : forall rm z, rnd rm (IZR z) = z.
Proof. intros. apply (@Zrnd_IZR (rnd rm)). destruct rm; simpl; auto with typeclass_instances. Qed.

Lemma as_mantissa_spec : forall B d, 2 <= B -> 0 <= dmant d < 2 ^ B -> - B < dexp d < B ->
  as_mantissa_type B d = Some (Ztrunc (dyval d) mod 2 ^ B).
Proof.
  intros B d HB Hd He. unfold as_mantissa_type. pose proof (pow2_pos B ltac:(lia)) as HP.
  destruct (Z.eqb_spec (dmant d) 0) as [E|E].
  { f_equal. assert (D : dyval d = IZR 0) by (unfold dyval; rewrite E; ring). rewrite D, Ztrunc_IZR. symmetry. apply Z.mod_0_l. lia. }
  destruct (Z.ltb_spec 0 (dexp d)) as [L|L].
  - unfold ushl. replace ((0 <=? dexp d) && (dexp d <? B)) with true by lia. cbn [bindo]. f_equal.
    rewrite dyval_int by lia. rewrite Ztrunc_IZR. apply signed_mod; [lia|]. unfold wrap. rewrite Z.shiftl_mul_pow2 by lia. reflexivity.
  - rewrite ushr_div by lia. cbn [bindo]. f_equal. change (Ztrunc (dyval d)) with (rnd RZR (dyval d)).
    destruct (Z.eq_dec (dexp d) 0) as [E0|E0].
    + rewrite dyval_int by lia. rewrite rnd_IZR. apply signed_mod; [lia|]. rewrite E0. change (2 ^ 0) with 1. change (2 ^ - 0) with 1.
      rewrite Z.div_1_r, Z.mul_1_r. symmetry. apply Z.mod_small. lia.
    + rewrite dyval_frac, rnd_quot by lia. cbn [round_tbl b2z]. rewrite Z.add_0_r. apply signed_mod; [lia|].
      symmetry. apply Z.mod_small. pose proof (pow2_pos (- dexp d) ltac:(lia)). split; [apply Z.div_pos; lia|]. apply Z.div_lt_upper_bound; nia.
Qed.

Lemma as_mantissa_rounded_spec : forall dm B d, 2 <= B -> 0 <= dmant d < 2 ^ B -> dexp d < B ->
  (dexp d <= 0 -> dir_ok dm B (- dexp d)) ->
  as_mantissa_type_rounded dm B d =
    Some (rnd dm (dyval d) mod 2 ^ B,
          match Rcompare (Rabs (IZR (rnd dm (dyval d)))) (Rabs (dyval d)) with Gt => 1 | Eq => 0 | Lt => -1 end).
Proof.
  intros dm B d HB Hd He HO. pose proof (pow2_pos B ltac:(lia)) as HP.
  assert (EXA : forall z, dyval d = IZR z -> (rnd dm (dyval d) mod 2 ^ B,
          match Rcompare (Rabs (IZR (rnd dm (dyval d)))) (Rabs (dyval d)) with Gt => 1 | Eq => 0 | Lt => -1 end) = (z mod 2 ^ B, 0)).
  { intros z ->. rewrite rnd_IZR, Rcompare_Eq by reflexivity. reflexivity. }
  unfold as_mantissa_type_rounded.
  destruct (Z.eqb_spec (dmant d) 0) as [E|E].
  { rewrite (EXA 0) by (unfold dyval; rewrite E; ring). rewrite Z.mod_0_l by lia. reflexivity. }
  destruct (Z.ltb_spec 0 (dexp d)) as [L|L].
  - rewrite (EXA _ (dyval_int d ltac:(lia))). unfold ushl. replace ((0 <=? dexp d) && (dexp d <? B)) with true by lia. cbn [bindo]. f_equal. f_equal.
    apply signed_mod; [lia|]. unfold wrap. rewrite Z.shiftl_mul_pow2 by lia. reflexivity.
  - destruct (Z.ltb_spec (dexp d) 0) as [L2|L2].
    2:{ rewrite (EXA _ (dyval_int d ltac:(lia))). cbn [bindo]. f_equal. f_equal. apply signed_mod; [lia|].
        assert (dexp d = 0) as -> by lia. change (2 ^ 0) with 1. rewrite Z.mul_1_r. symmetry. apply Z.mod_small. lia. }
    specialize (HO ltac:(lia)). set (K := - dexp d) in *. assert (HK : 1 <= K) by (unfold K; lia).
    pose proof (pow2_pos K ltac:(lia)) as HPK.
    assert (V : (if B <=? K then Some 0 else ushr B (dmant d) K) = Some (dmant d / 2 ^ K)).
    { destruct (Z.leb_spec B K); [|apply ushr_div; lia]. f_equal. symmetry. apply Z.div_small. pose proof (pow2_le B K). lia. }
    rewrite V. cbn [bindo]. rewrite rounding_direction_spec by auto. cbn [bindo].
    assert (EV : dyval d = (sg (dsign d) * (IZR (dmant d) * bpow radix2 (- K)))%R) by apply dyval_frac.
    rewrite <- EV.
    pose proof (rnd_quot dm (dsign d) (dmant d) K ltac:(lia) HK) as RQ. rewrite <- EV in RQ.
    set (up := round_tbl _ _ _ _ _) in *. set (q := dmant d / 2 ^ K) in *.
    assert (Q0 : 0 <= q < 2 ^ B) by (unfold q; split; [apply Z.div_pos; lia|apply Z.div_lt_upper_bound; nia]).
    assert (AB : Z.abs (rnd dm (dyval d)) = q + b2z up).
    { rewrite RQ. assert (0 <= q + b2z up) by (destruct up; cbn [b2z]; lia). destruct (dsign d); cbn [cond_Zopp]; rewrite ?Z.abs_opp; apply Z.abs_eq; auto. }
    pose proof (Z.div_mod (dmant d) (2 ^ K) ltac:(lia)) as DM. pose proof (Z.mod_pos_bound (dmant d) (2 ^ K) HPK) as MB.
    assert (TE : dmant d mod 2 ^ K = 0 -> up = false) by exact (tbl_exact dm (dsign d) (dmant d) K HK ltac:(lia)). fold q in DM.
    assert (DIR : Z.sgn (Z.abs (rnd dm (dyval d)) * 2 ^ K - dmant d) = if dmant d mod 2 ^ K =? 0 then 0 else if up then 1 else -1).
    { rewrite AB. rewrite DM at 1. apply quot_sign; auto. }
    assert (CMP : match Rcompare (Rabs (IZR (rnd dm (dyval d)))) (Rabs (dyval d)) with Gt => 1 | Eq => 0 | Lt => -1 end =
      Z.sgn (Z.abs (rnd dm (dyval d)) * 2 ^ K - dmant d)).
    { rewrite <- abs_IZR. rewrite (Rabs_dyval d) by lia. set (A := Z.abs (rnd dm (dyval d))).
      assert (ED : (IZR (dmant d) * bpow radix2 (dexp d) = IZR (dmant d) * bpow radix2 (- K))%R) by (f_equal; f_equal; unfold K; lia).
      rewrite ED. pose proof (bpow_gt_0 radix2 (- K)) as HE.
      replace (IZR A) with (IZR (A * 2 ^ K) * bpow radix2 (- K))%R
        by (rewrite mult_IZR, <- (bpow_IZR K) by lia; rewrite Rmult_assoc, <- bpow_plus, Z.add_opp_diag_r; cbn [bpow]; ring).
      rewrite Rcompare_mult_r by auto. rewrite Rcompare_IZR.
      destruct (Z.compare_spec (A * 2 ^ K) (dmant d)) as [C|C|C]; symmetry.
      - rewrite C, Z.sub_diag. reflexivity.
      - apply Z.sgn_neg. lia.
      - apply Z.sgn_pos. lia. }
    rewrite CMP. f_equal. f_equal. rewrite DIR.
    assert (UP : (0 <? (if dmant d mod 2 ^ K =? 0 then 0 else if up then 1 else -1)) = up).
    { destruct (Z.eqb_spec (dmant d mod 2 ^ K) 0) as [E0|E0]; [rewrite TE by auto; reflexivity|]. destruct up; reflexivity. }
    rewrite UP, RQ. apply signed_mod; [lia|]. destruct up; cbn [b2z]; [reflexivity|]. rewrite Z.add_0_r. symmetry. apply Z.mod_small. auto.
Qed.

(** ** pow_n *)
Section Pow.
Context (native : bool) (w : Z) (n : nat).
Context (Hw : 2 <= w) (Hm : mul2_width native w) (Hn : (1 <= n)%nat) (HK : Z.of_nat n < 2 ^ w).
Notation B := (w * Z.of_nat n).
Definition ulp_mul : R := (IZR (2 * Z.of_nat n) * bpow radix2 (1 - B))%R.
Definition nice (d : dyadic) : Prop := 0 <= dmant d < 2 ^ B /\ dy_norm B d.

Lemma quick_mul_rel : forall a b, nice a -> nice b ->
  let r := quick_mul native w n a b in
  nice r /\ exists t, (1 - ulp_mul <= t <= 1)%R /\ dyval r = (t * (dyval a * dyval b))%R.
Proof.
  intros a b [A1 A2] [B1 B2] r. destruct (quick_mul_spec native w n Hw Hm Hn HK a b A1 B1 A2 B2) as (R1 & R2 & R3 & R4 & R5).
  fold r in R1, R2, R3, R4, R5. split; [split; auto|].
  assert (HB2 : 2 <= B) by nia.
  assert (U0 : (0 <= ulp_mul)%R) by (apply Rmult_le_pos; [apply IZR_le; lia|apply bpow_ge_0]).
  set (X := (dyval a * dyval b)%R) in *.
  destruct (Req_dec X 0) as [X0|X0].
  { exists 1%R. split; [lra|]. rewrite X0, Rabs_R0 in R5. rewrite X0. pose proof (Rabs_pos (dyval r)).
    destruct (Req_dec (dyval r) 0) as [R0|R0]; [lra|]. pose proof (Rabs_pos_lt _ R0). lra. }
  pose proof (Rabs_pos_lt X X0) as XP.
  assert (SX : X = (sg (dsign r) * Rabs X)%R).
  { rewrite R1. unfold X. rewrite dyval_mul. rewrite Rabs_sg, (Rabs_pos_eq (_ * _)).
    - replace (xorb (dsign a) (dsign b)) with (negb (Bool.eqb (dsign a) (dsign b))) by (destruct (dsign a), (dsign b); reflexivity). reflexivity.
    - apply Rmult_le_pos; [apply IZR_le; nia|apply bpow_ge_0]. }
  assert (SR : dyval r = (sg (dsign r) * Rabs (dyval r))%R) by (rewrite Rabs_dyval by lia; apply dyval_sg).
  exists (Rabs (dyval r) / Rabs X)%R. split.
  2:{ rewrite SR at 1. rewrite SX at 2. field. lra. }
  split; [|apply Rmult_le_reg_r with (Rabs X); auto; unfold Rdiv; rewrite Rmult_assoc, Rinv_l by lra; lra].
  assert (LB : (bpow radix2 (B - 1 + dexp r) <= Rabs X)%R).
  { destruct R3 as [R3|R3].
    - exfalso. assert (E : Rabs (dyval r) = 0%R) by (rewrite Rabs_dyval by lia; rewrite R3; ring). 
      (* the mantissa of a product of non-zero numbers is not zero *)
      assert (dmant a <> 0 /\ dmant b <> 0) as [N1 N2].
      { split; intros E0; apply X0; unfold X, dyval; rewrite E0; ring. }
      destruct A2 as [|A2]; [lia|]. destruct B2 as [|B2]; [lia|].
      destruct (qmh_facts native w n (dmant a) (dmant b) Hw Hm Hn HK A1 B1) as (W & L & ER & LO & _). specialize (LO A2 B2).
      pose proof (pow2_pos (B - 2) ltac:(lia)). pose proof (pow2_top B ltac:(lia)) as PT.
      unfold r, quick_mul in R3. replace (dmant a =? 0) with false in R3 by lia. replace (dmant b =? 0) with false in R3 by lia. cbn [orb negb] in R3.
      set (v := BigInt.quick_mul_hi _ _ _ _) in *.
      pose proof (top_word_bit w v ltac:(lia) W ltac:(lia)) as TW. rewrite L in TW. rewrite TW in R3.
      destruct (Z.ltb_spec (bval w v) (2 ^ (B - 1))) as [LT|GE].
      + match type of R3 with dmant (dy_shl _ ?d _) = _ => destruct (dy_shl_spec B d 1) as (_ & _ & _ & D4); cbn [dmant]; try lia end.
        rewrite D4 in R3. cbn [dmant] in R3. lia.
      + cbn [dmant] in R3. lia.
    - apply Rle_trans with (Rabs (dyval r)); [|lra]. rewrite Rabs_dyval by lia. rewrite bpow_plus. apply Rmult_le_compat_r; [apply bpow_ge_0|].
      rewrite (bpow_IZR (B - 1)) by lia. apply IZR_le. auto. }
  apply Rmult_le_reg_r with (Rabs X); auto. unfold Rdiv. rewrite Rmult_assoc, Rinv_l, Rmult_1_r by lra.
  assert (BD : (IZR (2 * Z.of_nat n) * bpow radix2 (dexp r) <= ulp_mul * Rabs X)%R).
  { unfold ulp_mul. rewrite Rmult_assoc. apply Rmult_le_compat_l; [apply IZR_le; lia|].
    replace (dexp r) with ((1 - B) + (B - 1 + dexp r)) at 1 by lia. rewrite bpow_plus. apply Rmult_le_compat_l; [apply bpow_ge_0|exact LB]. }
  lra.
Qed.

Lemma pow_le1 : forall u k, (0 <= u <= 1)%R -> (0 <= u ^ k <= 1)%R.
Proof. intros u k Hu. induction k; simpl; [lra|]. nra. Qed.
Lemma prod_pow : forall u k j s t, (0 <= u <= 1)%R -> (u ^ k <= s <= 1)%R -> (u ^ j <= t <= 1)%R -> (u ^ (k + j) <= s * t <= 1)%R.
Proof.
  intros u k j s t Hu Hs Ht. rewrite Rdef_pow_add. pose proof (pow_le1 u k Hu). pose proof (pow_le1 u j Hu).
  split; [apply Rmult_le_compat; lra|]. nra.
Qed.

Lemma pow_loop_spec : forall (x : R) u fuel p result cur v k, u = (1 - ulp_mul)%R -> (0 <= u)%R ->
  0 <= p < 2 ^ Z.of_nat fuel -> nice result -> nice cur -> (1 <= k)%nat ->
  (exists t, u ^ v <= t <= 1 /\ dyval result = t * x ^ v)%R ->
  (exists t, u ^ (k - 1) <= t <= 1 /\ dyval cur = t * x ^ k)%R ->
  exists r t, dy_pow_loop (S fuel) native w n result cur p = Some r /\ nice r /\
    (u ^ (v + Z.to_nat p * k) <= t <= 1)%R /\ dyval r = (t * x ^ (v + Z.to_nat p * k))%R.
Proof.
  intros x u fuel. induction fuel; intros p result cur v k Hu Hu0 Hp Hr Hc Hk (t1 & T1 & V1) (t2 & T2 & V2).
  - change (2 ^ Z.of_nat 0) with 1 in Hp. assert (p = 0) as -> by lia. cbn [dy_pow_loop Z.leb]. change (0 <=? 0) with true. cbv iota.
    exists result, t1. rewrite Nat.mul_0_l, Nat.add_0_r. auto.
  - rewrite Nat2Z.inj_succ, Z.pow_succ_r in Hp by lia.
    change (dy_pow_loop (S (S fuel)) native w n result cur p) with
      (if p <=? 0 then Some result else dy_pow_loop (S fuel) native w n (if 0 <? p mod 2 then quick_mul native w n result cur else result) (quick_mul native w n cur cur) (Z.shiftr p 1)).
    destruct (Z.leb_spec p 0) as [L|L].
    { assert (p = 0) as -> by lia. exists result, t1. cbn [Z.to_nat]. rewrite Nat.mul_0_l, Nat.add_0_r. auto. }
    assert (U1 : (0 <= u <= 1)%R).
    { split; auto. rewrite Hu. assert (0 <= ulp_mul)%R by (apply Rmult_le_pos; [apply IZR_le; lia|apply bpow_ge_0]). lra. }
    destruct (quick_mul_rel cur cur Hc Hc) as (N1 & s1 & S1 & W1).
    destruct (quick_mul_rel result cur Hr Hc) as (N2 & s2 & S2 & W2).
    rewrite Z.shiftr_div_pow2 by lia. change (2 ^ 1) with 2.
    pose proof (Z.div_mod p 2 ltac:(lia)) as DM. pose proof (Z.mod_pos_bound p 2 ltac:(lia)) as MB.
    rewrite <- Hu in S1, S2.
    assert (C2 : (exists t, u ^ (k + k - 1) <= t <= 1 /\ dyval (quick_mul native w n cur cur) = t * x ^ (k + k))%R).
    { exists (s1 * (t2 * t2))%R. split.
      - replace (k + k - 1)%nat with (1 + (k - 1 + (k - 1)))%nat by lia. apply prod_pow; auto; [rewrite pow_1; lra|]. apply prod_pow; auto.
      - rewrite W1, V2, Rdef_pow_add. ring. }
    destruct (Z.ltb_spec 0 (p mod 2)) as [O|O].
    + assert (R2 : (exists t, u ^ (v + k) <= t <= 1 /\ dyval (quick_mul native w n result cur) = t * x ^ (v + k))%R).
      { exists (s2 * (t1 * t2))%R. split.
        - replace (v + k)%nat with (1 + (v + (k - 1)))%nat by lia. apply prod_pow; auto; [rewrite pow_1; lra|]. apply prod_pow; auto.
        - rewrite W2, V1, V2, Rdef_pow_add. ring. }
      destruct (IHfuel (p / 2) _ _ (v + k)%nat (k + k)%nat Hu Hu0 ltac:(lia) N2 N1 ltac:(lia) R2 C2) as (r & t & E1 & E2 & E3 & E4).
      exists r, t. replace (v + Z.to_nat p * k)%nat with (v + k + Z.to_nat (p / 2) * (k + k))%nat; [auto|].
      replace (Z.to_nat p) with (2 * Z.to_nat (p / 2) + 1)%nat by lia. ring.
    + destruct (IHfuel (p / 2) result _ v (k + k)%nat Hu Hu0 ltac:(lia) Hr N1 ltac:(lia) (ex_intro _ t1 (conj T1 V1)) C2) as (r & t & E1 & E2 & E3 & E4).
      exists r, t. replace (v + Z.to_nat p * k)%nat with (v + Z.to_nat (p / 2) * (k + k))%nat; [auto|].
      replace (Z.to_nat p) with (2 * Z.to_nat (p / 2))%nat by lia. ring.
Qed.

Lemma ulp_mul_le1 : (ulp_mul <= 1)%R.
Proof.
  unfold ulp_mul. assert (HB2 : 2 <= B) by nia.
  apply Rmult_le_reg_r with (bpow radix2 (B - 1)); [apply bpow_gt_0|].
  rewrite Rmult_assoc, <- bpow_plus, Rmult_1_l. replace (1 - B + (B - 1)) with 0 by lia. cbn [bpow]. rewrite Rmult_1_r.
  rewrite (bpow_IZR (B - 1)) by lia. apply IZR_le.
  assert (Q : forall k : nat, (1 <= k)%nat -> 2 * Z.of_nat k <= 2 ^ (2 * Z.of_nat k - 1)).
  { intros k Hk. induction k; [lia|]. destruct k; [cbn; lia|]. specialize (IHk ltac:(lia)).
    rewrite Nat2Z.inj_succ. replace (2 * Z.succ (Z.of_nat (S k)) - 1) with (2 + (2 * Z.of_nat (S k) - 1)) by lia.
    rewrite Z.pow_add_r by lia. change (2 ^ 2) with 4. lia. }
  specialize (Q n Hn). pose proof (pow2_le (2 * Z.of_nat n - 1) (B - 1) ltac:(nia)). lia.
Qed.

Lemma pow_n_spec : forall a p, 53 <= B -> nice a -> 0 <= p < 2 ^ 32 ->
  exists r t, dy_pow_n native w n a p = Some r /\ nice r /\
    ((1 - ulp_mul) ^ Z.to_nat p <= t <= 1)%R /\ dyval r = (t * dyval a ^ Z.to_nat p)%R.
Proof.
  intros a p HB Ha Hp. unfold dy_pow_n.
  destruct (dy_of_spec binary64 B (1023 * 2 ^ 52) good64 ltac:(cbn; lia) ltac:(cbn; lia) ltac:(unfold is_pattern; cbn; lia) eq_refl) as (D1 & D2 & D3 & D4 & _).
  assert (V1 : fval binary64 (1023 * 2 ^ 52) = 1%R).
  { pose proof (f_one_props binary64 good64 false) as H. destruct H as (_ & _ & _ & H & _). exact H. }
  destruct (pow_loop_spec (dyval a) (1 - ulp_mul)%R 32 p (dy_of binary64 B (1023 * 2 ^ 52)) a 0 1 eq_refl) as (r & t & E1 & E2 & E3 & E4).
  - pose proof ulp_mul_le1. lra.
  - exact Hp.
  - split; auto.
  - exact Ha.
  - lia.
  - exists 1%R. cbn [pow]. split; [lra|]. rewrite D1, V1. ring.
  - exists 1%R. cbn [Nat.sub pow]. split; [lra|]. ring.
  - exists r, t. rewrite Nat.add_0_l, Nat.mul_1_r in *. auto.
Qed.
End Pow.
