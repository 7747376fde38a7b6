(** * Multiword multiplication *)
From Coq Require Import ZArith Lia Bool List.
From Verif Require Import MachInt Bits BitsSpec BitsProofs BigInt BigIntProofs.
Import ListNotations.
Open Scope Z_scope.

(* ------------------------------------------------------------------ *)
(** ** Finite sums *)
Lemma wn_nonneg : forall w n, 0 <= w -> 0 <= w * Z.of_nat n.
Proof. intros. nia. Qed.
Lemma pow_wS : forall w n, 0 <= w -> 2 ^ (w * Z.of_nat (S n)) = 2 ^ w * 2 ^ (w * Z.of_nat n).
Proof.
  intros. replace (w * Z.of_nat (S n)) with (w + w * Z.of_nat n) by lia.
  apply Z.pow_add_r; auto using wn_nonneg.
Qed.
Fixpoint sumZ (f : nat -> Z) (n : nat) : Z :=
  match n with O => 0 | S n' => sumZ f n' + f n' end.

Lemma sumZ_ext : forall f g n, (forall i, (i < n)%nat -> f i = g i) -> sumZ f n = sumZ g n.
Proof. intros f g n. induction n; intros H; simpl; auto. rewrite IHn, H by auto. reflexivity. Qed.
Lemma sumZ_shift : forall f n, sumZ f (S n) = f 0%nat + sumZ (fun i => f (S i)) n.
Proof. intros f n. induction n; [simpl; lia|]. cbn [sumZ] in *. lia. Qed.
Lemma sumZ_plus : forall f g n, sumZ (fun i => f i + g i) n = sumZ f n + sumZ g n.
Proof. intros f g n. induction n; simpl; lia. Qed.
Lemma sumZ_mul : forall c f n, sumZ (fun i => c * f i) n = c * sumZ f n.
Proof. intros c f n. induction n; simpl; lia. Qed.
Lemma sumZ_0 : forall f n, (forall i, (i < n)%nat -> f i = 0) -> sumZ f n = 0.
Proof. intros f n. induction n; intros H; simpl; auto. rewrite IHn, H by auto. reflexivity. Qed.
Lemma sumZ_app : forall f a b, sumZ f (a + b) = sumZ f a + sumZ (fun i => f (a + i)%nat) b.
Proof.
  intros f a b. induction b; [rewrite <- plus_n_O; simpl; lia|].
  rewrite <- plus_n_Sm. cbn [sumZ]. lia.
Qed.
Lemma sumZ_nonneg : forall f n, (forall i, (i < n)%nat -> 0 <= f i) -> 0 <= sumZ f n.
Proof. intros f n. induction n; intros H; cbn [sumZ]; [lia|]. specialize (IHn ltac:(auto)). specialize (H n ltac:(lia)). lia. Qed.
Lemma sumZ_le : forall f b n, (forall i, (i < n)%nat -> f i <= b) -> sumZ f n <= Z.of_nat n * b.
Proof. intros f b n. induction n; intros H; cbn [sumZ]; [lia|]. specialize (IHn ltac:(auto)). specialize (H n ltac:(lia)). lia. Qed.

(** Restrict a sum to the range where the summand does not vanish. *)
Lemma sumZ_range : forall f lo n m, (lo + n <= m)%nat ->
  (forall i, (i < lo)%nat -> f i = 0) ->
  (forall i, (lo + n <= i < m)%nat -> f i = 0) ->
  sumZ f m = sumZ (fun t => f (lo + t)%nat) n.
Proof.
  intros f lo n m H H1 H2.
  replace m with (lo + (n + (m - (lo + n))))%nat by lia.
  rewrite sumZ_app, (sumZ_0 f lo), Z.add_0_l by auto.
  rewrite sumZ_app, (sumZ_0 (fun i => f (lo + (n + i))%nat)), Z.add_0_r; auto.
  intros i Hi. apply H2. lia.
Qed.

(* ------------------------------------------------------------------ *)
(** ** The Cauchy product *)
Definition conv (l r : words) (i : nat) : Z := sumZ (fun j => wget l j * wget r (i - j)) (S i).

Lemma wget_nil : forall i, wget nil i = 0.
Proof. intros. unfold wget. destruct i; reflexivity. Qed.

Lemma conv_nil : forall r i, conv nil r i = 0.
Proof. intros. apply sumZ_0. intros. rewrite wget_nil. reflexivity. Qed.

Lemma conv_cons_S : forall a l r i, conv (a :: l) r (S i) = a * wget r (S i) + conv l r i.
Proof. intros. unfold conv. rewrite sumZ_shift. reflexivity. Qed.

Lemma conv_cons_0 : forall a l r, conv (a :: l) r 0 = a * wget r 0.
Proof. intros. reflexivity. Qed.

Lemma bval_sum : forall w r n, 0 <= w -> (length r <= n)%nat ->
  sumZ (fun i => 2 ^ (w * Z.of_nat i) * wget r i) n = bval w r.
Proof.
  intros w r. induction r; intros n Hw Hn.
  - apply sumZ_0. intros. rewrite wget_nil. lia.
  - destruct n; [simpl in Hn; lia|]. rewrite sumZ_shift. cbn [bval].
    change (Z.of_nat 0) with 0. rewrite Z.mul_0_r. change (2 ^ 0) with 1.
    change (wget (a :: r) 0) with a.
    rewrite (sumZ_ext _ (fun i => 2 ^ w * (2 ^ (w * Z.of_nat i) * wget r i))).
    + rewrite sumZ_mul, IHr by (auto; simpl in Hn; lia). lia.
    + intros i Hi. change (wget (a :: r) (S i)) with (wget r i).
      rewrite (pow_wS w i) by lia. ring.
Qed.

Lemma conv_product : forall w l r O, 0 <= w -> (length l + length r <= S O)%nat ->
  (length r <= O)%nat ->
  sumZ (fun i => 2 ^ (w * Z.of_nat i) * conv l r i) O = bval w l * bval w r.
Proof.
  intros w l. induction l; intros r O Hw HO Hr.
  - cbn [bval]. apply sumZ_0. intros. rewrite conv_nil. lia.
  - cbn [bval length] in *.
    destruct O; [destruct r; [|simpl in Hr; lia]; simpl; lia|].
    rewrite sumZ_shift. change (Z.of_nat 0) with 0. rewrite Z.mul_0_r, conv_cons_0.
    change (2 ^ 0) with 1.
    rewrite (sumZ_ext _ (fun i => a * (2 ^ (w * Z.of_nat (S i)) * wget r (S i))
                                  + 2 ^ w * (2 ^ (w * Z.of_nat i) * conv l r i))).
    + rewrite sumZ_plus, !sumZ_mul.
      assert (E : bval w r = wget r 0 + sumZ (fun i => 2 ^ (w * Z.of_nat (S i)) * wget r (S i)) O).
      { rewrite <- (bval_sum w r (S O)) by lia. rewrite sumZ_shift.
        change (Z.of_nat 0) with 0. rewrite Z.mul_0_r. change (2 ^ 0) with 1. ring. }
      set (X := sumZ (fun i => 2 ^ (w * Z.of_nat (S i)) * wget r (S i)) O) in *.
      destruct (le_lt_dec (length r) O) as [Hl|Hl].
      * rewrite IHl by lia. nia.
      * assert (length l = 0)%nat by lia. destruct l; [|discriminate].
        rewrite (sumZ_0 (fun i => 2 ^ (w * Z.of_nat i) * conv nil r i))
          by (intros; rewrite conv_nil; lia).
        cbn [bval]. nia.
    + intros i Hi. rewrite conv_cons_S.
      rewrite (pow_wS w i) by lia. ring.
Qed.

(* ------------------------------------------------------------------ *)
(** ** mul2 *)
Lemma wf2 : forall w a b, inU w a -> inU w b -> wf w [a; b].
Proof. intros. constructor; auto. Qed.
Definition mul2_ok (w : Z) (f : Z -> Z -> words) : Prop :=
  forall a b, inU w a -> inU w b ->
    wf w (f a b) /\ length (f a b) = 2%nat /\ bval w (f a b) = a * b.

Lemma mul2_native_ok : forall w, 1 <= w -> mul2_ok w (mul2_native w).
Proof.
  intros w Hw a b Ha Hb. unfold mul2_native, split.
  assert (Hab : inU (2 * w) (a * b)).
  { unfold inU in *. replace (2 * w) with (w + w) by lia. rewrite Z.pow_add_r by lia. nia. }
  rewrite (wrap_small (2 * w)) by auto.
  rewrite Z.shiftr_div_pow2 by lia.
  pose proof (pow2_pos w ltac:(lia)) as HP.
  split; [|split; [reflexivity|]].
  - repeat constructor; apply wrap_range; lia.
  - cbn [bval]. rewrite (wrap_small w (_ / _)).
    + unfold wrap. rewrite (Z.div_mod (a * b) (2 ^ w)) at 3 by lia. ring.
    + unfold inU in *. replace (2 * w) with (w + w) in Hab by lia.
      rewrite Z.pow_add_r in Hab by lia. split; [apply Z.div_pos; lia|].
      apply Z.div_lt_upper_bound; lia.
Qed.

Lemma mul2_portable_ok : forall h, 1 <= h -> mul2_ok (2 * h) (mul2_portable (2 * h)).
Proof.
  intros h Hh a b Ha Hb. unfold mul2_portable.
  replace (2 * h / 2) with h by (rewrite Z.mul_comm, Z.div_mul by lia; reflexivity).
  unfold split. set (w := 2 * h) in *.
  assert (HB : 2 ^ w = 2 ^ h * 2 ^ h).
  { unfold w. replace (2 * h) with (h + h) by lia. apply Z.pow_add_r; lia. }
  pose proof (pow2_pos h ltac:(lia)) as HP.
  rewrite !Z.shiftr_div_pow2 by lia. unfold inU in Ha, Hb.
  rewrite (wrap_small h (a / _)), (wrap_small h (b / _)).
  2,3: unfold inU; split; [apply Z.div_pos; lia|apply Z.div_lt_upper_bound; lia].
  cbv beta zeta.
  change (wrap h a) with (a mod 2 ^ h). change (wrap h b) with (b mod 2 ^ h).
  set (al := a mod 2 ^ h). set (ah := a / 2 ^ h). set (bl := b mod 2 ^ h). set (bh := b / 2 ^ h).
  assert (Hal : 0 <= al < 2 ^ h) by (apply Z.mod_pos_bound; lia).
  assert (Hbl : 0 <= bl < 2 ^ h) by (apply Z.mod_pos_bound; lia).
  assert (Hah : 0 <= ah < 2 ^ h) by (split; [apply Z.div_pos; lia|apply Z.div_lt_upper_bound; lia]).
  assert (Hbh : 0 <= bh < 2 ^ h) by (split; [apply Z.div_pos; lia|apply Z.div_lt_upper_bound; lia]).
  assert (Ea : a = 2 ^ h * ah + al) by (apply Z.div_mod; lia).
  assert (Eb : b = 2 ^ h * bh + bl) by (apply Z.div_mod; lia).
  clearbody al ah bl bh. clear Ha Hb. subst a b.
  assert (Hmul : forall x y, 0 <= x < 2 ^ h -> 0 <= y < 2 ^ h ->
     0 <= x * y < 2 ^ w /\ x * y <= (2 ^ h - 1) * (2 ^ h - 1)) by (intros; rewrite HB; nia).
  assert (Hw2 : forall x y, 0 <= x < 2 ^ h -> 0 <= y < 2 ^ h -> wrap w (x * y) = x * y)
    by (intros; apply wrap_small; apply Hmul; auto).
  rewrite !Hw2 by auto.
  assert (Hsplit : forall x, 0 <= x < 2 ^ w -> exists x1 x0, x = x1 * 2 ^ h + x0 /\
     0 <= x1 < 2 ^ h /\ 0 <= x0 < 2 ^ h /\ wrap w (Z.shiftl x h) = x0 * 2 ^ h /\
     x / 2 ^ h = x1).
  { intros x Hx. exists (x / 2 ^ h), (x mod 2 ^ h).
    assert (0 <= x mod 2 ^ h < 2 ^ h) by (apply Z.mod_pos_bound; lia).
    assert (0 <= x / 2 ^ h < 2 ^ h)
      by (split; [apply Z.div_pos; lia|apply Z.div_lt_upper_bound; lia]).
    split; [rewrite Z.mul_comm; apply Z.div_mod; lia|]. split; auto. split; auto.
    split; [|reflexivity].
    rewrite Z.shiftl_mul_pow2 by lia.
    apply wrap_unique with (k := x / 2 ^ h).
    - unfold inU. nia.
    - rewrite HB. rewrite (Z.div_mod x (2 ^ h)) at 1 by lia. ring. }
  destruct (Hmul bl al Hbl Hal) as [M1 M1'].
  destruct (Hmul bl ah Hbl Hah) as [M2 M2'].
  destruct (Hmul bh al Hbh Hal) as [M3 M3'].
  destruct (Hmul bh ah Hbh Hah) as [M4 M4'].
  destruct (Hsplit _ M2) as (s21 & s20 & E2 & R21 & R20 & -> & ->).
  destruct (Hsplit _ M3) as (s31 & s30 & E3 & R31 & R30 & -> & ->).
  clear Hsplit Hw2 Hmul.
  assert (HG : 2 ^ w = 2 ^ h * 2 ^ h) by auto.
  assert (Hu1 : forall z, 0 <= z < 2 ^ h -> inU w (z * 2 ^ h)) by (intros; unfold inU; nia).
  assert (Hu2 : forall z, 0 <= z < 2 ^ h -> inU w z) by (intros; unfold inU; nia).
  pose proof (add_with_carry_spec w (bl * al) (s20 * 2 ^ h) 0 M1 (Hu1 _ R20) ltac:(lia) ltac:(lia)) as A1.
  destruct (add_with_carry w (bl * al) (s20 * 2 ^ h) 0) as [lo1 c1]. destruct A1 as (L1 & C1 & A1).
  pose proof (add_with_carry_spec w (bh * ah) s21 c1 M4 (Hu2 _ R21) C1 ltac:(lia)) as A2.
  destruct (add_with_carry w (bh * ah) s21 c1) as [hi1 c2]. destruct A2 as (L2 & C2 & A2).
  pose proof (add_with_carry_spec w lo1 (s30 * 2 ^ h) 0 L1 (Hu1 _ R30) ltac:(lia) ltac:(lia)) as A3.
  destruct (add_with_carry w lo1 (s30 * 2 ^ h) 0) as [lo2 c3]. destruct A3 as (L3 & C3 & A3).
  pose proof (add_with_carry_spec w hi1 s31 c3 L2 (Hu2 _ R31) C3 ltac:(lia)) as A4.
  destruct (add_with_carry w hi1 s31 c3) as [hi2 c4]. destruct A4 as (L4 & C4 & A4).
  split; [apply wf2; auto|]. split; [reflexivity|].
  cbn [bval].
  assert (Htot : (2 ^ h * ah + al) * (2 ^ h * bh + bl)
     = lo2 + 2 ^ w * hi2 + 2 ^ w * 2 ^ w * (c2 + c4)).
  { replace ((2 ^ h * ah + al) * (2 ^ h * bh + bl)) with
      (2 ^ w * (bh * ah) + 2 ^ h * (bl * ah) + 2 ^ h * (bh * al) + bl * al) by (rewrite HG; ring).
    rewrite E2, E3.
    replace (2 ^ h * (s21 * 2 ^ h + s20)) with (2 ^ w * s21 + s20 * 2 ^ h) by (rewrite HG; ring).
    replace (2 ^ h * (s31 * 2 ^ h + s30)) with (2 ^ w * s31 + s30 * 2 ^ h) by (rewrite HG; ring).
    replace (bh * ah) with (hi1 + 2 ^ w * c2 - s21 - c1) by lia.
    replace (bl * al) with (lo1 + 2 ^ w * c1 - 0 - s20 * 2 ^ h) by lia.
    replace hi1 with (hi2 + 2 ^ w * c4 - s31 - c3) by lia.
    replace lo1 with (lo2 + 2 ^ w * c3 - 0 - s30 * 2 ^ h) by lia. ring. }
  assert (Hlt : (2 ^ h * ah + al) * (2 ^ h * bh + bl) < 2 ^ w * 2 ^ w).
  { assert (2 ^ h * ah + al < 2 ^ w) by (rewrite HG; nia).
    assert (2 ^ h * bh + bl < 2 ^ w) by (rewrite HG; nia). nia. }
  assert (c2 + c4 = 0).
  { unfold inU in L3, L4. assert (0 < 2 ^ w) by lia.
    rewrite Htot in Hlt. clear - Hlt L3 L4 C2 C4 H.
    destruct (Z.eq_dec (c2 + c4) 0) as [|Hne]; auto. exfalso.
    assert (2 ^ w * 2 ^ w * 1 <= 2 ^ w * 2 ^ w * (c2 + c4)) by (apply Z.mul_le_mono_nonneg_l; nia).
    assert (0 <= 2 ^ w * hi2) by nia. lia. }
  rewrite Htot. rewrite H. ring.
Qed.

(** [native] needs any width, the portable branch an even one. *)
Definition mul2_width (native : bool) (w : Z) : Prop :=
  1 <= w /\ (native = false -> exists h, w = 2 * h).
Lemma mul2_spec : forall native w, mul2_width native w -> mul2_ok w (mul2 native w).
Proof.
  intros native w [H1 H2]. unfold mul2. destruct native.
  - apply mul2_native_ok; auto.
  - destruct (H2 eq_refl) as [h ->]. apply mul2_portable_ok. lia.
Qed.

Definition acc_ok (w : Z) (acc : words) : Prop := wf w acc /\ length acc = 2%nat.

Lemma mul_add_spec : forall native w acc b c, mul2_width native w -> acc_ok w acc ->
  inU w b -> inU w c ->
  let '(acc', c') := mul_add_with_carry native w acc b c in
  acc_ok w acc' /\ 0 <= c' <= 1 /\ bval w acc + b * c = bval w acc' + 2 ^ w * 2 ^ w * c'.
Proof.
  intros native w acc b c Hm [H1 H2] Hb Hc. unfold mul_add_with_carry.
  destruct (mul2_spec native w Hm b c Hb Hc) as (M1 & M2 & M3). destruct Hm as [Hw _].
  pose proof (mw_add_spec w acc (mul2 native w b c) Hw H1 M1 ltac:(lia)) as H.
  destruct (mw_add w acc (mul2 native w b c)) as [r k]. destruct H as (A1 & A2 & A3 & A4).
  unfold acc_ok. rewrite M3 in A4. repeat split; auto; try congruence; try lia.
  rewrite A4. unfold bits. rewrite H2. change (Z.of_nat 2) with 2.
  replace (w * 2) with (w + w) by lia. rewrite Z.pow_add_r by lia. reflexivity.
Qed.

Lemma acc_val : forall w acc, acc_ok w acc -> bval w acc = wget acc 0 + 2 ^ w * wget acc 1.
Proof.
  intros w acc [H1 H2]. destruct acc as [|a [|b [|]]]; try discriminate. unfold wget. simpl. lia.
Qed.

(** The inner loop. *)
Lemma column_spec : forall native w n j i l r acc c, mul2_width native w -> acc_ok w acc ->
  wf w l -> wf w r -> 0 <= c ->
  let T := bval w acc + 2 ^ w * 2 ^ w * c +
           sumZ (fun t => wget l (j + t) * wget r (i - (j + t))) n in
  T < 2 ^ w * 2 ^ w * 2 ^ w ->
  let '(acc', c') := column native w n j i l r acc c in
  acc_ok w acc' /\ inU w c' /\ T = bval w acc' + 2 ^ w * 2 ^ w * c'.
Proof.
  intros native w n. induction n; intros j i l r acc c Hm Ha Hl Hr Hc T HT.
  - subst T. cbn [column sumZ] in *.
    assert (Hw : 1 <= w) by apply Hm. pose proof (pow2_pos w ltac:(lia)).
    destruct Ha as [Ha1 Ha2]. pose proof (bval_range w acc ltac:(lia) Ha1).
    split; [split; auto|]. split; [unfold inU; nia|]. lia.
  - cbn [column].
    assert (Hw : 1 <= w) by apply Hm. pose proof (pow2_pos w ltac:(lia)) as HP.
    assert (Rl : forall k, inU w (wget l k)) by (intros; apply wget_range; auto; lia).
    assert (Rr : forall k, inU w (wget r k)) by (intros; apply wget_range; auto; lia).
    pose proof (mul_add_spec native w acc (wget l j) (wget r (i - j)) Hm Ha (Rl j) (Rr _)) as H.
    destruct (mul_add_with_carry native w acc (wget l j) (wget r (i - j))) as [acc1 c1].
    destruct H as (A1 & A2 & A3).
    assert (ET : T = bval w acc1 + 2 ^ w * 2 ^ w * (c + c1) +
       sumZ (fun t => wget l (S j + t) * wget r (i - (S j + t))) n).
    { subst T. rewrite sumZ_shift. rewrite <- plus_n_O.
      rewrite (sumZ_ext (fun i0 => wget l (j + S i0) * wget r (i - (j + S i0)))
                 (fun t => wget l (S j + t) * wget r (i - (S j + t)))).
      - lia.
      - intros k _. replace (j + S k)%nat with (S j + k)%nat by lia. reflexivity. }
    assert (Hs : 0 <= sumZ (fun t => wget l (S j + t) * wget r (i - (S j + t))) n).
    { apply sumZ_nonneg. intros k _. pose proof (Rl (S j + k)%nat). pose proof (Rr (i - (S j + k))%nat).
      unfold inU in *. nia. }
    pose proof (bval_range w acc1 ltac:(lia) (proj1 A1)) as Hb.
    assert (Hcc : 0 <= c + c1 < 2 ^ w) by nia.
    rewrite wrap_small by auto.
    specialize (IHn (S j) i l r acc1 (c + c1) Hm A1 Hl Hr ltac:(lia)).
    cbv zeta in IHn. rewrite <- ET in IHn. apply IHn. exact HT.
Qed.

(* ------------------------------------------------------------------ *)
(** ** multiply_with_carry *)

Lemma wget_over : forall l i, (length l <= i)%nat -> wget l i = 0.
Proof. intros. apply nth_overflow. auto. Qed.

(** The index range visited by the code covers all non-zero terms. *)
Lemma column_range : forall l r i,
  let M := length l in let N := length r in
  let lower := if (i <? N)%nat then 0%nat else (i - N + 1)%nat in
  let upper := if (i <? M)%nat then i else (M - 1)%nat in
  (1 <= M)%nat -> (1 <= N)%nat ->
  sumZ (fun t => wget l (lower + t) * wget r (i - (lower + t))) (S upper - lower) = conv l r i.
Proof.
  intros l r i M N lower upper HM HN. unfold conv. symmetry.
  apply (sumZ_range (fun j => wget l j * wget r (i - j))); unfold lower, upper.
  - destruct (Nat.ltb_spec i N), (Nat.ltb_spec i M); lia.
  - intros j Hj. destruct (Nat.ltb_spec i N); [lia|].
    rewrite (wget_over r) by (fold N; lia). lia.
  - intros j Hj. destruct (Nat.ltb_spec i M).
    + destruct (Nat.ltb_spec i N); lia.
    + rewrite (wget_over l) by (destruct (Nat.ltb_spec i N); fold M; lia). lia.
Qed.

Lemma conv_nonneg : forall w l r i, 0 <= w -> wf w l -> wf w r -> 0 <= conv l r i.
Proof.
  intros. apply sumZ_nonneg. intros j _.
  pose proof (wget_range w l j H H0). pose proof (wget_range w r (i - j) H H1).
  unfold inU in *. nia.
Qed.

(** Upper bound of a column: at most [length l] non-zero products. *)
Lemma conv_bound : forall w l r i, 0 <= w -> wf w l -> wf w r ->
  conv l r i <= Z.of_nat (length l) * ((2 ^ w - 1) * (2 ^ w - 1)).
Proof.
  intros w l r i Hw Hl Hr. revert i. induction l; intros i.
  - rewrite conv_nil. simpl. lia.
  - apply wf_cons in Hl. destruct Hl as [Ha Hl].
    pose proof (pow2_pos w Hw) as HP.
    pose proof (wget_range w r i Hw Hr) as Hri. unfold inU in Ha, Hri.
    assert (a * wget r i <= (2 ^ w - 1) * (2 ^ w - 1)) by nia.
    assert (0 <= (2 ^ w - 1) * (2 ^ w - 1)) by nia.
    cbn [length]. rewrite Nat2Z.inj_succ, Z.mul_succ_l.
    destruct i.
    + rewrite conv_cons_0. nia.
    + rewrite conv_cons_S. specialize (IHl Hl i). lia.
Qed.

Lemma conv_bound_min : forall w l r i, 0 <= w -> wf w l -> wf w r ->
  conv l r i <= Z.of_nat (S i) * ((2 ^ w - 1) * (2 ^ w - 1)).
Proof.
  intros w l r i Hw Hl Hr. apply sumZ_le. intros j _.
  pose proof (wget_range w l j Hw Hl) as H1. pose proof (wget_range w r (i - j) Hw Hr) as H2.
  unfold inU in *. nia.
Qed.

(** One column step on accumulator values. *)
Lemma step_bound : forall B K A C, 2 <= B -> 0 <= K < B -> 0 <= A <= K * B ->
  0 <= C <= K * ((B - 1) * (B - 1)) -> A + C <= K * (B * B) /\ A + C < B * B * B.
Proof.
  intros B K A C HB HK HA HC.
  assert (A + C <= K * (B * B)) by nia. split; auto.
  assert (K * (B * B) < B * (B * B)) by (apply Z.mul_lt_mono_pos_r; nia). lia.
Qed.

Lemma advance_spec : forall w acc c, 1 <= w -> acc_ok w acc -> inU w c ->
  let '(out, acc') := acc_advance acc c in
  acc_ok w acc' /\ inU w out /\
  bval w acc + 2 ^ w * 2 ^ w * c = out + 2 ^ w * bval w acc'.
Proof.
  intros w acc c Hw Ha Hc. unfold acc_advance.
  rewrite (acc_val w acc Ha). destruct Ha as [Ha1 Ha2].
  pose proof (wget_range w acc 0 ltac:(lia) Ha1). pose proof (wget_range w acc 1 ltac:(lia) Ha1).
  split; [split; auto; apply wf2; auto|]. split; auto. cbn [bval]. ring.
Qed.

Lemma mul_loop_spec : forall native w k i l r acc, mul2_width native w -> acc_ok w acc ->
  wf w l -> wf w r -> (1 <= length l)%nat -> (1 <= length r)%nat ->
  Z.of_nat (length l) < 2 ^ w -> bval w acc <= Z.of_nat (length l) * 2 ^ w ->
  let '(out, c) := mul_loop native w k i (length l) (length r) l r acc in
  exists F, 0 <= F /\ wf w out /\ length out = k /\ c = F / 2 ^ w /\
    bval w acc + sumZ (fun t => 2 ^ (w * Z.of_nat t) * conv l r (i + t)) k
      = bval w out + 2 ^ (w * Z.of_nat k) * F.
Proof.
  intros native w k. induction k; intros i l r acc Hm Ha Hl Hr HM HN HK Hacc;
    assert (Hw : 1 <= w) by apply Hm; pose proof (pow2_pos w ltac:(lia)) as HP.
  - cbn [mul_loop sumZ]. exists (bval w acc). rewrite Z.mul_0_r.
    change (2 ^ 0) with 1. cbn [bval].
    pose proof (bval_range w acc ltac:(lia) (proj1 Ha)).
    repeat split; try lia; [constructor|].
    rewrite (acc_val w acc Ha). unfold acc_carry.
    pose proof (wget_range w acc 0 ltac:(lia) (proj1 Ha)) as H0. unfold inU in H0.
    rewrite Z.mul_comm, Z.div_add, Z.div_small by lia. reflexivity.
  - cbn [mul_loop].
    set (lower := if (i <? length r)%nat then 0%nat else (i - length r + 1)%nat).
    set (upper := if (i <? length l)%nat then i else (length l - 1)%nat).
    pose proof (column_spec native w (S upper - lower) lower i l r acc 0 Hm Ha Hl Hr ltac:(lia)) as H.
    cbv zeta in H. unfold lower, upper in H.
    rewrite (column_range l r i HM HN) in H. fold lower in H. fold upper in H.
    pose proof (bval_range w acc ltac:(lia) (proj1 Ha)) as Hb.
    pose proof (conv_bound w l r i ltac:(lia) Hl Hr) as Hc.
    pose proof (conv_nonneg w l r i ltac:(lia) Hl Hr) as Hc0.
    assert (HB : 2 <= 2 ^ w) by (apply (pow2_le 1); lia).
    destruct (step_bound (2 ^ w) (Z.of_nat (length l)) (bval w acc) (conv l r i) HB
                ltac:(lia) ltac:(lia) ltac:(lia)) as [S1 S2].
    specialize (H ltac:(lia)).
    destruct (column native w (S upper - lower) lower i l r acc 0) as [acc1 c1].
    destruct H as (A1 & A2 & A3).
    pose proof (advance_spec w acc1 c1 Hw A1 A2) as H.
    destruct (acc_advance acc1 c1) as [out acc2]. destruct H as (B1 & B2 & B3).
    assert (Hacc2 : bval w acc2 <= Z.of_nat (length l) * 2 ^ w).
    { unfold inU in B2.
      assert (2 ^ w * bval w acc2 <= Z.of_nat (length l) * (2 ^ w * 2 ^ w)) by lia. nia. }
    specialize (IHk (S i) l r acc2 Hm B1 Hl Hr HM HN HK Hacc2).
    destruct (mul_loop native w k (S i) (length l) (length r) l r acc2) as [rest c].
    destruct IHk as (F & F1 & F2 & F3 & F4 & F5). exists F.
    repeat split; auto. { constructor; auto. } { simpl; congruence. }
    rewrite sumZ_shift. change (Z.of_nat 0) with 0. rewrite Z.mul_0_r, <- plus_n_O.
    change (2 ^ 0) with 1. cbn [bval].
    rewrite (sumZ_ext _ (fun t => 2 ^ w * (2 ^ (w * Z.of_nat t) * conv l r (S i + t)))).
    2:{ intros t _. rewrite (pow_wS w t) by lia. replace (i + S t)%nat with (S i + t)%nat by lia. ring. }
    rewrite sumZ_mul.
    rewrite (pow_wS w k) by lia.
    transitivity (out + 2 ^ w * (bval w acc2 + sumZ (fun t => 2 ^ (w * Z.of_nat t) * conv l r (S i + t)) k)).
    + lia.
    + rewrite F5. ring.
Qed.

Lemma acc_init_ok : forall w, 0 <= w -> acc_ok w acc_init.
Proof. intros. split; [|reflexivity]. apply wf2; apply inU_0; auto. Qed.
Lemma acc_init_val : forall w, bval w acc_init = 0.
Proof. intros. unfold acc_init. cbn [bval]. ring. Qed.

(** [multiply_with_carry] into [O >= M+N] words is exact and returns carry 0. *)
Lemma multiply_with_carry_spec : forall native w O l r, mul2_width native w ->
  wf w l -> wf w r -> (1 <= length l)%nat -> (1 <= length r)%nat ->
  Z.of_nat (length l) < 2 ^ w -> (length l + length r <= O)%nat ->
  let '(out, c) := multiply_with_carry native w O l r in
  wf w out /\ length out = O /\ c = 0 /\ bval w out = bval w l * bval w r.
Proof.
  intros native w O l r Hm Hl Hr HM HN HK HO. unfold multiply_with_carry.
  assert (Hw : 1 <= w) by apply Hm. pose proof (pow2_pos w ltac:(lia)) as HP.
  pose proof (mul_loop_spec native w O 0 l r acc_init Hm (acc_init_ok w ltac:(lia)) Hl Hr HM HN HK) as H.
  rewrite acc_init_val in H. specialize (H ltac:(nia)).
  destruct (mul_loop native w O 0 (length l) (length r) l r acc_init) as [out c].
  destruct H as (F & F1 & F2 & F3 & F4 & F5).
  cbn [Nat.add] in F5. rewrite conv_product in F5 by lia.
  pose proof (bval_range w out ltac:(lia) F2) as Ro.
  pose proof (bval_range w l ltac:(lia) Hl) as Rl.
  pose proof (bval_range w r ltac:(lia) Hr) as Rr.
  assert (HF : F = 0).
  { assert (Hlt : bval w l * bval w r < 2 ^ (w * Z.of_nat O)).
    { apply Z.lt_le_trans with (2 ^ bits w l * 2 ^ bits w r); [nia|].
      rewrite <- Z.pow_add_r by (apply bits_nonneg; lia). apply pow2_le.
      unfold bits. nia. }
    assert (0 <= w * Z.of_nat O) by (apply wn_nonneg; lia). pose proof (pow2_pos _ H). nia. }
  subst F. rewrite Z.div_0_l in F4 by lia. repeat split; auto. lia.
Qed.

Lemma ful_mul_spec : forall native w l r, mul2_width native w ->
  wf w l -> wf w r -> (1 <= length l)%nat -> (1 <= length r)%nat ->
  Z.of_nat (length l) < 2 ^ w ->
  wf w (ful_mul native w l r) /\ length (ful_mul native w l r) = (length l + length r)%nat /\
  bval w (ful_mul native w l r) = bval w l * bval w r.
Proof.
  intros. unfold ful_mul.
  pose proof (multiply_with_carry_spec native w (length l + length r) l r H H0 H1 H2 H3 H4 ltac:(lia)).
  destruct (multiply_with_carry _ _ _ _ _). tauto.
Qed.

Lemma firstn_spec : forall w l n, 0 <= w -> wf w l -> (n <= length l)%nat ->
  wf w (firstn n l) /\ length (firstn n l) = n /\
  bval w (firstn n l) = bval w l mod 2 ^ (w * Z.of_nat n).
Proof.
  intros w l n Hw Hl Hn.
  rewrite <- (firstn_skipn n l) in Hl. apply wf_app in Hl. destruct Hl as [H1 H2].
  split; auto. split; [apply firstn_length_le; auto|].
  rewrite <- (firstn_skipn n l) at 2. rewrite bval_app by auto.
  assert (E : bits w (firstn n l) = w * Z.of_nat n) by (unfold bits; rewrite firstn_length_le; auto).
  rewrite E. rewrite Z.mul_comm, Z.mod_add, Z.mod_small; auto.
  - rewrite <- E. apply bval_range; auto.
  - assert (0 <= w * Z.of_nat n) by (apply wn_nonneg; lia). pose proof (pow2_pos _ H). lia.
Qed.

Lemma bi_mul_spec : forall native w l r, mul2_width native w ->
  wf w l -> wf w r -> (1 <= length l)%nat -> (1 <= length r)%nat ->
  Z.of_nat (length l) < 2 ^ w ->
  wf w (bi_mul native w l r) /\ length (bi_mul native w l r) = length l /\
  bval w (bi_mul native w l r) = (bval w l * bval w r) mod 2 ^ bits w l.
Proof.
  intros native w l r H H0 H1 H2 H3 H4. assert (Hw : 1 <= w) by apply H.
  destruct (ful_mul_spec native w l r H H0 H1 H2 H3 H4) as (A1 & A2 & A3).
  destruct (firstn_spec w _ (length l) ltac:(lia) A1 ltac:(lia)) as (B1 & B2 & B3).
  unfold bi_mul. split; auto. split; auto. rewrite B3, A3. reflexivity.
Qed.

(* ------------------------------------------------------------------ *)
(** ** Scalar multiplication *)
Lemma scalar_mul_loop_spec : forall native w l x acc, mul2_width native w -> acc_ok w acc ->
  wf w l -> inU w x -> bval w acc < 2 ^ w ->
  let '(out, c) := scalar_mul_loop native w l x acc in
  wf w out /\ length out = length l /\ c = 0 /\
  exists h, 0 <= h < 2 ^ w /\ bval w acc + bval w l * x = bval w out + 2 ^ bits w l * h.
Proof.
  intros native w l. induction l; intros x acc Hm Ha Hl Hx Hacc;
    assert (Hw : 1 <= w) by apply Hm; pose proof (pow2_pos w ltac:(lia)) as HP;
    pose proof (bval_range w acc ltac:(lia) (proj1 Ha)) as Hb.
  - cbn [scalar_mul_loop]. split; [constructor|]. split; auto.
    rewrite (acc_val w acc Ha) in *.
    pose proof (wget_range w acc 0 ltac:(lia) (proj1 Ha)) as R0.
    pose proof (wget_range w acc 1 ltac:(lia) (proj1 Ha)) as R1. unfold inU in *.
    assert (wget acc 1 = 0) by nia. split; auto.
    exists (wget acc 0). split; auto. unfold bits. simpl length. rewrite Z.mul_0_r.
    change (2 ^ 0) with 1. cbn [bval]. lia.
  - cbn [scalar_mul_loop]. apply wf_cons in Hl. destruct Hl as [Hl1 Hl2].
    pose proof (mul_add_spec native w acc a x Hm Ha Hl1 Hx) as H.
    destruct (mul_add_with_carry native w acc a x) as [acc1 c1]. destruct H as (A1 & A2 & A3).
    pose proof (advance_spec w acc1 c1 Hw A1 ltac:(unfold inU; pose proof (pow2_le 1 w); lia)) as H.
    destruct (acc_advance acc1 c1) as [out acc2]. destruct H as (B1 & B2 & B3).
    pose proof (bval_range w acc2 ltac:(lia) (proj1 B1)) as Hb2.
    assert (Hacc2 : bval w acc2 < 2 ^ w). { unfold inU in *. nia. }
    specialize (IHl x acc2 Hm B1 Hl2 Hx Hacc2).
    destruct (scalar_mul_loop native w l x acc2) as [rest c].
    destruct IHl as (I1 & I2 & I3 & h & I4 & I5).
    split; [constructor; auto|]. split; [simpl; congruence|]. split; auto.
    exists h. split; auto. cbn [bval].
    rewrite bits_cons, Z.pow_add_r by (auto using bits_nonneg; lia || (apply bits_nonneg; lia)).
    transitivity (out + 2 ^ w * (bval w acc2 + bval w l * x)); [lia|]. rewrite I5. ring.
Qed.

Lemma bi_mul_word_spec : forall native w l x, mul2_width native w -> wf w l -> inU w x ->
  let '(out, c) := bi_mul_word native w l x in
  wf w out /\ length out = length l /\ bval w out = (bval w l * x) mod 2 ^ bits w l /\ c = 0.
Proof.
  intros native w l x Hm Hl Hx. unfold bi_mul_word, scalar_multiply_with_carry.
  assert (Hw : 1 <= w) by apply Hm. pose proof (pow2_pos w ltac:(lia)) as HP.
  pose proof (scalar_mul_loop_spec native w l x acc_init Hm (acc_init_ok w ltac:(lia)) Hl Hx) as H.
  rewrite acc_init_val in H. specialize (H HP).
  destruct (scalar_mul_loop native w l x acc_init) as [out c].
  destruct H as (H1 & H2 & H3 & h & H4 & H5). split; auto. split; auto. split; auto.
  rewrite <- (bits_eq w out l) in * by auto. apply (val_mod w out _ h); auto; lia.
Qed.

(* ------------------------------------------------------------------ *)
(** ** quick_mul_hi *)

Lemma qmh_column_range : forall l r i, length l = length r -> (1 <= length l)%nat ->
  (length l <= i)%nat -> (i <= 2 * length l - 2)%nat ->
  let N := length l in
  sumZ (fun t => wget l ((i - N + 1) + t) * wget r (i - ((i - N + 1) + t))) (N - (i - N + 1))
  = conv l r i.
Proof.
  intros l r i Hlr H1 H2 H3 N. unfold conv. symmetry.
  apply (sumZ_range (fun j => wget l j * wget r (i - j))).
  - unfold N. lia.
  - intros j Hj. rewrite (wget_over r) by (unfold N in *; lia). lia.
  - intros j Hj. rewrite (wget_over l) by (unfold N in *; lia). lia.
Qed.

Lemma qmh_loop_spec : forall native w k i l r acc c, mul2_width native w -> acc_ok w acc ->
  wf w l -> wf w r -> length l = length r -> (1 <= length l)%nat ->
  (length l <= i)%nat -> (i + k = 2 * length l - 1)%nat ->
  Z.of_nat (length l) < 2 ^ w -> inU w c ->
  bval w acc + 2 ^ w * 2 ^ w * c <= Z.of_nat (length l) * (2 ^ w * 2 ^ w) ->
  let '(out, acc') := qmh_loop native w k i (length l) l r acc c in
  wf w out /\ length out = k /\ acc_ok w acc' /\
  exists X c', 0 <= X /\ X = bval w acc' + 2 ^ w * 2 ^ w * c' /\
     (bval w acc + 2 ^ w * 2 ^ w * c) / 2 ^ w
     + sumZ (fun t => 2 ^ (w * Z.of_nat t) * conv l r (i + t)) k
     = bval w out + 2 ^ (w * Z.of_nat k) * (X / 2 ^ w).
Proof.
  intros native w k. induction k; intros i l r acc c Hm Ha Hl Hr Hlr H1 Hi Hik HK Hc HT;
    assert (Hw : 1 <= w) by apply Hm; pose proof (pow2_pos w ltac:(lia)) as HP;
    pose proof (bval_range w acc ltac:(lia) (proj1 Ha)) as Hb.
  - cbn [qmh_loop sumZ]. split; [constructor|]. split; auto. split; auto.
    exists (bval w acc + 2 ^ w * 2 ^ w * c), c. unfold inU in Hc.
    split; [nia|]. split; auto. rewrite Z.mul_0_r. change (2 ^ 0) with 1. cbn [bval]. lia.
  - cbn [qmh_loop].
    pose proof (advance_spec w acc c Hw Ha Hc) as H.
    destruct (acc_advance acc c) as [o acc1]. destruct H as (B1 & B2 & B3). unfold inU in B2.
    pose proof (bval_range w acc1 ltac:(lia) (proj1 B1)) as Hb1.
    assert (E1 : (bval w acc + 2 ^ w * 2 ^ w * c) / 2 ^ w = bval w acc1).
    { rewrite B3, Z.mul_comm, Z.div_add, Z.div_small by lia. lia. }
    assert (Hacc1 : bval w acc1 <= Z.of_nat (length l) * 2 ^ w).
    { assert (2 ^ w * bval w acc1 <= Z.of_nat (length l) * (2 ^ w * 2 ^ w)) by lia. nia. }
    pose proof (column_spec native w (length l - (i - length l + 1)) (i - length l + 1) i l r acc1 0
                  Hm B1 Hl Hr ltac:(lia)) as H.
    cbv zeta in H. rewrite (qmh_column_range l r i Hlr H1 Hi ltac:(lia)) in H.
    pose proof (conv_bound w l r i ltac:(lia) Hl Hr) as Hcb.
    pose proof (conv_nonneg w l r i ltac:(lia) Hl Hr) as Hc0.
    assert (HB : 2 <= 2 ^ w) by (apply (pow2_le 1); lia).
    destruct (step_bound (2 ^ w) (Z.of_nat (length l)) (bval w acc1) (conv l r i) HB
                ltac:(lia) ltac:(lia) ltac:(lia)) as [S1 S2].
    specialize (H ltac:(lia)).
    destruct (column native w (length l - (i - length l + 1)) (i - length l + 1) i l r acc1 0) as [acc2 c2].
    destruct H as (A1 & A2 & A3).
    specialize (IHk (S i) l r acc2 c2 Hm A1 Hl Hr Hlr H1 ltac:(lia) ltac:(lia) HK A2 ltac:(lia)).
    destruct (qmh_loop native w k (S i) (length l) l r acc2 c2) as [rest acc'].
    destruct IHk as (I1 & I2 & I3 & X & c' & I4 & I5 & I6).
    split; [constructor; auto; apply wget_range; [lia|apply A1]|].
    split; [simpl; congruence|]. split; auto. exists X, c'. split; auto. split; auto.
    rewrite E1, sumZ_shift. change (Z.of_nat 0) with 0. rewrite Z.mul_0_r, <- plus_n_O.
    change (2 ^ 0) with 1. cbn [bval].
    rewrite (sumZ_ext _ (fun t => 2 ^ w * (2 ^ (w * Z.of_nat t) * conv l r (S i + t)))).
    2:{ intros t _. rewrite (pow_wS w t) by lia. replace (i + S t)%nat with (S i + t)%nat by lia. ring. }
    rewrite sumZ_mul.
    rewrite (pow_wS w k) by lia.
    transitivity (acc_sum acc2 + 2 ^ w * ((bval w acc2 + 2 ^ w * 2 ^ w * c2) / 2 ^ w +
       sumZ (fun t => 2 ^ (w * Z.of_nat t) * conv l r (S i + t)) k)).
    + assert (E2 : (bval w acc2 + 2 ^ w * 2 ^ w * c2) =
        acc_sum acc2 + 2 ^ w * ((bval w acc2 + 2 ^ w * 2 ^ w * c2) / 2 ^ w)).
      { rewrite (acc_val w acc2 A1) at 1 2.
        pose proof (wget_range w acc2 0 ltac:(lia) (proj1 A1)) as R0. unfold inU in R0.
        replace (wget acc2 0 + 2 ^ w * wget acc2 1 + 2 ^ w * 2 ^ w * c2)
          with (wget acc2 0 + (wget acc2 1 + 2 ^ w * c2) * 2 ^ w) by ring.
        rewrite Z.div_add, Z.div_small by lia. unfold acc_sum. ring. }
      lia.
    + rewrite I6. ring.
Qed.

(** Value of the part of the product that [quick_mul_hi] keeps. *)
Lemma quick_mul_hi_val : forall native w l r, mul2_width native w ->
  wf w l -> wf w r -> length l = length r -> (1 <= length l)%nat ->
  Z.of_nat (length l) < 2 ^ w ->
  let N := length l in
  let H := sumZ (fun t => 2 ^ (w * Z.of_nat t) * conv l r (N - 1 + t)) N in
  wf w (quick_mul_hi native w l r) /\ length (quick_mul_hi native w l r) = N /\
  bval w (quick_mul_hi native w l r) = H / 2 ^ w.
Proof.
  intros native w l r Hm Hl Hr Hlr H1 HK N H.
  assert (Hw : 1 <= w) by apply Hm. pose proof (pow2_pos w ltac:(lia)) as HP.
  unfold quick_mul_hi. fold N.
  pose proof (column_spec native w N 0 (N - 1) l r acc_init 0 Hm (acc_init_ok w ltac:(lia)) Hl Hr ltac:(lia)) as HC.
  cbv zeta in HC. rewrite acc_init_val in HC.
  assert (Ec : sumZ (fun t => wget l (0 + t) * wget r (N - 1 - (0 + t))) N = conv l r (N - 1)).
  { unfold conv. replace (S (N - 1)) with N by (unfold N; lia). reflexivity. }
  rewrite Ec in HC.
  pose proof (conv_bound w l r (N - 1) ltac:(lia) Hl Hr) as Hcb. fold N in Hcb.
  pose proof (conv_nonneg w l r (N - 1) ltac:(lia) Hl Hr) as Hc0.
  assert (HB : 2 <= 2 ^ w) by (apply (pow2_le 1); lia).
  destruct (step_bound (2 ^ w) (Z.of_nat N) 0 (conv l r (N - 1)) HB
              ltac:(unfold N; lia) ltac:(nia) ltac:(lia)) as [S1 S2].
  specialize (HC ltac:(lia)).
  destruct (column native w N 0 (N - 1) l r acc_init 0) as [acc1 c1].
  destruct HC as (A1 & A2 & A3).
  pose proof (qmh_loop_spec native w (N - 1) N l r acc1 c1 Hm A1 Hl Hr Hlr H1 ltac:(unfold N; lia)
     ltac:(unfold N; lia) HK A2 ltac:(fold N; lia)) as HQ. fold N in HQ.
  destruct (qmh_loop native w (N - 1) N N l r acc1 c1) as [out acc'].
  destruct HQ as (Q1 & Q2 & Q3 & X & c' & Q4 & Q5 & Q6).
  rewrite <- A3 in Q6. replace (0 + 2 ^ w * 2 ^ w * 0 + conv l r (N - 1)) with (conv l r (N - 1)) in Q6 by ring.
  assert (EH : H / 2 ^ w = bval w out + 2 ^ (w * Z.of_nat (N - 1)) * (X / 2 ^ w)).
  { rewrite <- Q6.
    assert (EN : H = sumZ (fun t => 2 ^ (w * Z.of_nat t) * conv l r (N - 1 + t)) (S (N - 1)))
      by (unfold H; f_equal; unfold N; lia).
    rewrite EN, sumZ_shift. change (Z.of_nat 0) with 0. rewrite Z.mul_0_r, <- plus_n_O.
    change (2 ^ 0) with 1. rewrite Z.mul_1_l.
    rewrite (sumZ_ext _ (fun t => 2 ^ w * (2 ^ (w * Z.of_nat t) * conv l r (N + t)))).
    2:{ intros t _. rewrite (pow_wS w t) by lia. replace (N - 1 + S t)%nat with (N + t)%nat by (unfold N; lia). ring. }
    rewrite sumZ_mul, (Z.mul_comm (2 ^ w)), Z.div_add by lia. reflexivity. }
  (* the dropped top carry is zero *)
  pose proof (bval_range w l ltac:(lia) Hl) as Rl. pose proof (bval_range w r ltac:(lia) Hr) as Rr.
  assert (Hprod := conv_product w l r (2 * N - 1) ltac:(lia) ltac:(unfold N; lia) ltac:(unfold N; lia)).
  replace (2 * N - 1)%nat with (N - 1 + N)%nat in Hprod by (unfold N; lia).
  rewrite sumZ_app in Hprod.
  rewrite (sumZ_ext (fun i => 2 ^ (w * Z.of_nat (N - 1 + i)) * conv l r (N - 1 + i))
             (fun t => 2 ^ (w * Z.of_nat (N - 1)) * (2 ^ (w * Z.of_nat t) * conv l r (N - 1 + t)))) in Hprod.
  2:{ intros t _. rewrite Nat2Z.inj_add, Z.mul_add_distr_l, Z.pow_add_r by (apply wn_nonneg; lia). ring. }
  rewrite sumZ_mul in Hprod. fold H in Hprod.
  assert (HL0 : 0 <= sumZ (fun i => 2 ^ (w * Z.of_nat i) * conv l r i) (N - 1)).
  { apply sumZ_nonneg. intros t _. apply Z.mul_nonneg_nonneg; [apply Z.pow_nonneg; lia|].
    apply (conv_nonneg w); auto; lia. }
  assert (HN0 : 0 <= w * Z.of_nat (N - 1)) by (apply wn_nonneg; lia).
  pose proof (pow2_pos _ HN0) as HPN.
  assert (EBN : bits w l = w + w * Z.of_nat (N - 1)) by (unfold bits; fold N; replace (Z.of_nat N) with (1 + Z.of_nat (N - 1)) by (unfold N; lia); ring).
  assert (EBr : bits w r = bits w l) by (apply bits_eq; auto).
  assert (HHlt : H < 2 ^ w * (2 ^ w * 2 ^ (w * Z.of_nat (N - 1)))).
  { rewrite EBr, EBN, Z.pow_add_r in * by lia.
    set (G := 2 ^ (w * Z.of_nat (N - 1))) in *.
    assert (Hlt : bval w l * bval w r < (2 ^ w * G) * (2 ^ w * G)) by (clear - Rl Rr; nia).
    assert (Hlt2 : G * H < G * (2 ^ w * (2 ^ w * G))) by (clear - Hprod Hlt HL0; lia).
    apply (Z.mul_lt_mono_pos_l G) in Hlt2; auto. }
  assert (HXlt : X / 2 ^ w < 2 ^ w).
  { assert (H / 2 ^ w < 2 ^ w * 2 ^ (w * Z.of_nat (N - 1))) by (apply Z.div_lt_upper_bound; lia).
    pose proof (bval_range w out ltac:(lia) Q1) as Ro.
    rewrite EH in H0. apply (Z.mul_lt_mono_pos_l (2 ^ (w * Z.of_nat (N - 1)))); [auto|]. lia. }
  assert (HX0 : 0 <= X / 2 ^ w) by (apply Z.div_pos; lia).
  assert (HXc : X / 2 ^ w = acc_carry acc').
  { rewrite (acc_val w acc' Q3) in Q5. unfold acc_carry.
    pose proof (wget_range w acc' 0 ltac:(lia) (proj1 Q3)) as R0.
    pose proof (wget_range w acc' 1 ltac:(lia) (proj1 Q3)) as R1. unfold inU in *.
    assert (E : X / 2 ^ w = wget acc' 1 + 2 ^ w * c').
    { rewrite Q5. replace (wget acc' 0 + 2 ^ w * wget acc' 1 + 2 ^ w * 2 ^ w * c')
        with (wget acc' 0 + (wget acc' 1 + 2 ^ w * c') * 2 ^ w) by ring.
      rewrite Z.div_add, Z.div_small by lia. ring. }
    rewrite E in HXlt, HX0 |- *.
    assert (c' = 0) by (clear - HXlt HX0 R1 HP; nia). lia. }
  split; [apply wf_app; split; auto; constructor; [|constructor]; apply wget_range; [lia|apply Q3]|].
  split; [rewrite app_length, Q2; simpl; unfold N; lia|].
  rewrite bval_app by lia. unfold bits. rewrite Q2, EH, HXc. cbn [bval]. ring.
Qed.

(** Geometric bound on the dropped low columns. *)
Lemma dropped_bound : forall w l r n, 1 <= w -> wf w l -> wf w r ->
  sumZ (fun i => 2 ^ (w * Z.of_nat i) * conv l r i) n
    <= Z.of_nat n * ((2 ^ w - 1) * (2 ^ (w * Z.of_nat n) - 1)).
Proof.
  intros w l r n Hw Hl Hr. pose proof (pow2_pos w ltac:(lia)) as HP. induction n.
  - cbn [sumZ]. lia.
  - cbn [sumZ]. pose proof (conv_bound_min w l r n ltac:(lia) Hl Hr) as Hc.
    rewrite (pow_wS w n) by lia. assert (0 <= w * Z.of_nat n) by (apply wn_nonneg; lia).
    pose proof (pow2_pos _ H) as HPn.
    set (G := 2 ^ (w * Z.of_nat n)) in *. set (B := 2 ^ w) in *.
    assert (G * conv l r n <= G * (Z.of_nat (S n) * ((B - 1) * (B - 1)))) by nia.
    assert (Z.of_nat n * ((B - 1) * (G - 1)) <= Z.of_nat (S n) * ((B - 1) * (G - 1))) by nia.
    assert (E : Z.of_nat (S n) * ((B - 1) * (B * G - 1)) =
       G * (Z.of_nat (S n) * ((B - 1) * (B - 1))) + Z.of_nat (S n) * ((B - 1) * (G - 1))) by ring.
    lia.
Qed.

Lemma quick_mul_hi_spec : forall native w l r, mul2_width native w ->
  wf w l -> wf w r -> length l = length r -> (1 <= length l)%nat ->
  Z.of_nat (length l) < 2 ^ w ->
  wf w (quick_mul_hi native w l r) /\ length (quick_mul_hi native w l r) = length l /\
  0 <= bval w l * bval w r / 2 ^ bits w l - bval w (quick_mul_hi native w l r)
    <= Z.of_nat (length l) - 1.
Proof.
  intros native w l r Hm Hl Hr Hlr H1 HK.
  destruct (quick_mul_hi_val native w l r Hm Hl Hr Hlr H1 HK) as (A1 & A2 & A3).
  split; auto. split; auto. rewrite A3. set (N := length l) in *.
  set (H := sumZ (fun t => 2 ^ (w * Z.of_nat t) * conv l r (N - 1 + t)) N).
  assert (Hw : 1 <= w) by apply Hm. pose proof (pow2_pos w ltac:(lia)) as HP.
  assert (Hprod := conv_product w l r (2 * N - 1) ltac:(lia) ltac:(unfold N; lia) ltac:(unfold N; lia)).
  replace (2 * N - 1)%nat with (N - 1 + N)%nat in Hprod by (unfold N; lia).
  rewrite sumZ_app in Hprod.
  rewrite (sumZ_ext (fun i => 2 ^ (w * Z.of_nat (N - 1 + i)) * conv l r (N - 1 + i))
             (fun t => 2 ^ (w * Z.of_nat (N - 1)) * (2 ^ (w * Z.of_nat t) * conv l r (N - 1 + t)))) in Hprod.
  2:{ intros t _. rewrite Nat2Z.inj_add, Z.mul_add_distr_l, Z.pow_add_r by (apply wn_nonneg; lia). ring. }
  rewrite sumZ_mul in Hprod. fold H in Hprod.
  pose proof (dropped_bound w l r (N - 1) Hw Hl Hr) as HD.
  set (L := sumZ (fun i => 2 ^ (w * Z.of_nat i) * conv l r i) (N - 1)) in *.
  assert (HL0 : 0 <= L).
  { apply sumZ_nonneg. intros t _. apply Z.mul_nonneg_nonneg; [apply Z.pow_nonneg; lia|].
    apply (conv_nonneg w); auto; lia. }
  assert (HN0 : 0 <= w * Z.of_nat (N - 1)) by (apply wn_nonneg; lia).
  pose proof (pow2_pos _ HN0) as HPN.
  assert (EBN : 2 ^ bits w l = 2 ^ w * 2 ^ (w * Z.of_nat (N - 1))).
  { rewrite <- Z.pow_add_r by lia. f_equal. unfold bits. fold N. replace (Z.of_nat N) with (1 + Z.of_nat (N - 1)) by (unfold N; lia). ring. }
  rewrite EBN, <- Hprod.
  set (G := 2 ^ (w * Z.of_nat (N - 1))) in *. set (B := 2 ^ w) in *.
  assert (Hn : Z.of_nat (N - 1) = Z.of_nat N - 1) by (unfold N; lia).
  rewrite Hn in HD. set (n := Z.of_nat N - 1) in *.
  assert (0 <= n) by (unfold n, N; lia).
  (* L <= n*B*G, H = B*(H/B) + H mod B *)
  assert (HL1 : L <= n * (B * G)) by nia.
  pose proof (Z.div_mod H B ltac:(lia)) as E. pose proof (Z.mod_pos_bound H B HP) as Hmod.
  set (q := H / B) in *. set (m := H mod B) in *.
  assert (HL2 : L + G * m < (n + 1) * (B * G)).
  { assert (G * m <= G * (B - 1)) by nia.
    assert (n * ((B - 1) * (G - 1)) <= n * (B * G)) by nia.
    nia. }
  replace (L + G * H) with ((L + G * m) + q * (B * G)) by (rewrite E; ring).
  rewrite Z.div_add by nia.
  assert (0 <= (L + G * m) / (B * G)) by (apply Z.div_pos; nia).
  assert ((L + G * m) / (B * G) < n + 1) by (apply Z.div_lt_upper_bound; nia).
  lia.
Qed.
