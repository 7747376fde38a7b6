(** * Half-word division, powers, masks, population count, rotations *)
From Coq Require Import ZArith Lia Bool List.
From Verif Require Import MachInt Bits BitsSpec BitsProofs BigInt BigIntProofs BigIntMul BigIntShift BigIntDiv BigIntConv.
Import ListNotations.
Open Scope Z_scope.

(** ** div_uint_half_times_pow_2 *)
Lemma half_split : forall h d, 1 <= h -> inU (2 * h) d ->
  0 <= Z.shiftr d h < 2 ^ h /\ 0 <= Z.land d (2 ^ h - 1) < 2 ^ h /\
  d = Z.shiftr d h * 2 ^ h + Z.land d (2 ^ h - 1).
Proof.
  intros h d Hh [H0 H1]. pose proof (pow2_pos h ltac:(lia)) as HP.
  replace (2 ^ (2 * h)) with (2 ^ h * 2 ^ h) in H1 by (rewrite <- Z.pow_add_r by lia; f_equal; lia).
  rewrite land_ones_mod by lia. rewrite Z.shiftr_div_pow2 by lia.
  pose proof (Z.mod_pos_bound d (2 ^ h) HP). pose proof (Z.div_mod d (2 ^ h) ltac:(lia)).
  assert (0 <= d / 2 ^ h) by (apply Z.div_pos; lia).
  assert (d / 2 ^ h < 2 ^ h) by (apply Z.div_lt_upper_bound; lia). lia.
Qed.

(** One half-word step of schoolbook division. *)
Lemma half_step : forall B x rem d, 0 < B -> 0 < x -> 0 <= rem < x -> 0 <= d < B ->
  0 <= (rem * B + d) / x < B /\ 0 <= (rem * B + d) mod x < x /\
  rem * B + d = (rem * B + d) / x * x + (rem * B + d) mod x.
Proof.
  intros B x rem d HB Hx Hr Hd.
  pose proof (Z.mod_pos_bound (rem * B + d) x Hx). pose proof (Z.div_mod (rem * B + d) x ltac:(lia)).
  assert (0 <= (rem * B + d) / x) by (apply Z.div_pos; nia).
  assert ((rem * B + d) / x < B) by (apply Z.div_lt_upper_bound; nia). lia.
Qed.

Lemma acc_half : forall h rem x d, 1 <= h -> 0 <= rem < x -> x <= 2 ^ h -> 0 <= d < 2 ^ h ->
  wrap (2 * h) (wrap (2 * h) (Z.shiftl rem h) + d) = rem * 2 ^ h + d.
Proof.
  intros h rem x d Hh Hr Hx Hd. pose proof (pow2_pos h ltac:(lia)) as HP.
  assert (E : 2 ^ (2 * h) = 2 ^ h * 2 ^ h) by (rewrite <- Z.pow_add_r by lia; f_equal; lia).
  rewrite Z.shiftl_mul_pow2 by lia. rewrite (wrap_small _ (rem * 2 ^ h)).
  - apply wrap_small. unfold inU. nia.
  - unfold inU. nia.
Qed.

Lemma half_div_loop_spec : forall h x val k pos rem q,
  1 <= h -> 0 < x < 2 ^ h -> wf (2 * h) val -> wf (2 * h) q -> 0 <= rem < x ->
  (k <= pos)%nat -> (pos <= length val)%nat ->
  bval (2 * h) (skipn pos val) = bval (2 * h) q * x + rem ->
  let '(q', rem') := half_div_loop (2 * h) k pos val x rem q in
  wf (2 * h) q' /\ length q' = (length q + k)%nat /\ 0 <= rem' < x /\
  bval (2 * h) (skipn (pos - k) val) = bval (2 * h) q' * x + rem'.
Proof.
  intros h x val k. induction k; intros pos rem q Hh Hx Hv Hq Hr Hk Hp E.
  - cbn [half_div_loop]. rewrite Nat.add_0_r, Nat.sub_0_r. auto.
  - cbn [half_div_loop]. replace (2 * h / 2) with h by (rewrite Z.mul_comm, Z.div_mul; lia).
    pose proof (pow2_pos h ltac:(lia)) as HP.
    assert (EW : 2 ^ (2 * h) = 2 ^ h * 2 ^ h) by (rewrite <- Z.pow_add_r by lia; f_equal; lia).
    set (d := wget val (pos - 1)) in *.
    assert (Hd : inU (2 * h) d) by (apply wget_range; auto; lia).
    destruct (half_split h d Hh Hd) as (D1 & D2 & D3).
    set (dh := Z.shiftr d h) in *. set (dl := Z.land d (2 ^ h - 1)) in *.
    rewrite (acc_half h rem x dh) by lia.
    destruct (half_step (2 ^ h) x rem dh HP ltac:(lia) Hr D1) as (S1 & S2 & S3).
    set (q1 := (rem * 2 ^ h + dh) / x) in *. set (r1 := (rem * 2 ^ h + dh) mod x) in *.
    rewrite (acc_half h r1 x dl) by lia.
    destruct (half_step (2 ^ h) x r1 dl HP ltac:(lia) S2 D2) as (T1 & T2 & T3).
    set (q2 := (r1 * 2 ^ h + dl) / x) in *. set (r2 := (r1 * 2 ^ h + dl) mod x) in *.
    assert (Eq : wrap (2 * h) (wrap (2 * h) (Z.shiftl q1 h) + q2) = q1 * 2 ^ h + q2).
    { apply (acc_half h q1 (2 ^ h)); lia. }
    rewrite Eq.
    specialize (IHk (pos - 1)%nat r2 ((q1 * 2 ^ h + q2) :: q) Hh Hx Hv).
    assert (Hq' : wf (2 * h) ((q1 * 2 ^ h + q2) :: q)) by (constructor; auto; unfold inU; nia).
    specialize (IHk Hq' T2 ltac:(lia) ltac:(lia)).
    assert (Es : skipn (pos - 1) val = d :: skipn pos val).
    { unfold d, wget. clear - Hk Hp. destruct pos as [|p]; [lia|].
      replace (S p - 1)%nat with p by lia.
      clear Hk. revert val Hp. induction p; intros; destruct val; simpl in *; try lia; auto.
      apply IHp; lia. }
    rewrite Es in IHk. cbn [bval] in IHk. rewrite E in IHk.
    specialize (IHk ltac:(rewrite EW; nia)).
    destruct (half_div_loop _ _ _ _ _ _ _) as [q' rem'].
    replace (pos - 1 - k)%nat with (pos - S k)%nat in IHk by lia.
    cbn [length] in IHk. replace (S (length q) + k)%nat with (length q + S k)%nat in IHk by lia. exact IHk.
Qed.

Lemma skipn_wset0 : forall l p x, (p < length l)%nat -> skipn p (wset l p x) = x :: skipn (S p) l.
Proof.
  induction l; intros p x Hp; simpl in Hp; [lia|]. destruct p; simpl; auto.
  apply IHl. lia.
Qed.

Lemma skipn_repeat0 : forall p n, skipn p (repeat 0 n) = repeat 0 (n - p).
Proof. induction p; intros n; destruct n; simpl; auto. Qed.

(** The rest of the dividend below the loop, and final assembly. *)
Lemma assemble : forall w p l hi, 1 <= w -> wf w l -> (p <= length l)%nat ->
  bval w (firstn p l ++ hi) = bval w l mod 2 ^ (w * Z.of_nat p) + 2 ^ (w * Z.of_nat p) * bval w hi.
Proof.
  intros w p l hi Hw Hl Hp. destruct (firstn_spec w l p ltac:(lia) Hl Hp) as (F1 & F2 & F3).
  rewrite bval_app by lia. rewrite F3. unfold bits. rewrite F2. reflexivity.
Qed.

Lemma div_mod_intro : forall a b q r, 0 <= r < b -> a = q * b + r -> a / b = q /\ a mod b = r.
Proof.
  intros a b q r Hr E. split.
  - symmetry. apply Z.div_unique with r; [left|]; lia.
  - symmetry. apply Z.mod_unique with q; [left|]; lia.
Qed.

Lemma pow_half : forall h, 1 <= h -> 2 ^ (2 * h) = 2 ^ h * 2 ^ h.
Proof. intros. rewrite <- Z.pow_add_r by lia. f_equal. lia. Qed.

Lemma mul_lt_pow : forall a b A B, 0 <= a < A -> 0 <= b -> b < B -> a * B + b < A * B.
Proof. intros. nia. Qed.

(** The two half-word steps of the tail. *)
Lemma half_div_tail_spec : forall h x rem d s, 1 <= h -> 0 < x < 2 ^ h -> 0 <= rem < x ->
  inU (2 * h) d -> 0 < s < 2 * h ->
  let '(r, qt) := half_div_tail (2 * h) x rem d s in
  0 <= qt < 2 ^ s /\
  (if s <=? h then 0 <= r < x * 2 ^ (h - s) /\ rem * 2 ^ h + Z.shiftr d h = qt * (x * 2 ^ (h - s)) + r
   else 0 <= r < x * 2 ^ (2 * h - s) /\ rem * 2 ^ (2 * h) + d = qt * (x * 2 ^ (2 * h - s)) + r).
Proof.
  intros h x rem d s Hh Hx Hr Hd Hs. unfold half_div_tail.
  replace (2 * h / 2) with h by (rewrite Z.mul_comm, Z.div_mul; lia).
  pose proof (pow2_pos h ltac:(lia)) as HPh.
  pose proof (pow_half h Hh) as EW.
  destruct (half_split h d Hh Hd) as (D1 & D2 & D3). clear Hd.
  set (dh := Z.shiftr d h) in *. set (dl := Z.land d (2 ^ h - 1)) in *. clearbody dh dl.
  destruct (Z.leb_spec h s) as [Hhs|Hhs].
  - rewrite (acc_half h rem x dh) by lia.
    destruct (half_step (2 ^ h) x rem dh HPh ltac:(lia) Hr D1) as (S1 & S2 & S3).
    set (q1 := (rem * 2 ^ h + dh) / x) in *.
    set (r1 := (rem * 2 ^ h + dh) mod x) in *. clearbody q1 r1.
    destruct (Z.ltb_spec 0 (s - h)) as [Hls|Hls].
    + destruct (Z.leb_spec s h) as [Hb|_]; [lia|].
      remember (s - h) as ls eqn:Els.
      assert (HPl : 0 < 2 ^ ls) by (apply pow2_pos; lia).
      assert (HPhl : 0 < 2 ^ (h - ls)) by (apply pow2_pos; lia).
      assert (Ehl : 2 ^ h = 2 ^ ls * 2 ^ (h - ls)) by (rewrite <- Z.pow_add_r by lia; f_equal; lia).
      assert (Esl : 2 ^ s = 2 ^ h * 2 ^ ls) by (rewrite <- Z.pow_add_r by lia; f_equal; lia).
      replace (2 * h - s) with (h - ls) by lia.
      rewrite (acc_half h r1 x dl) by lia.
      assert (Ex' : wrap (2 * h) (Z.shiftl x (h - ls)) = x * 2 ^ (h - ls)).
      { rewrite Z.shiftl_mul_pow2 by lia. apply wrap_small. unfold inU. rewrite EW. clear - Hx HPhl HPl Ehl. nia. }
      rewrite Ex'.
      assert (Hx' : 0 < x * 2 ^ (h - ls)) by (clear - Hx HPhl; nia).
      pose proof (Z.mod_pos_bound (r1 * 2 ^ h + dl) (x * 2 ^ (h - ls)) Hx') as M1.
      pose proof (Z.div_mod (r1 * 2 ^ h + dl) (x * 2 ^ (h - ls)) ltac:(lia)) as M2.
      assert (M3 : 0 <= (r1 * 2 ^ h + dl) / (x * 2 ^ (h - ls))) by (apply Z.div_pos; [clear - S2 D2 HPh; nia|lia]).
      assert (M4 : (r1 * 2 ^ h + dl) / (x * 2 ^ (h - ls)) < 2 ^ ls).
      { apply Z.div_lt_upper_bound; [lia|].
        replace (x * 2 ^ (h - ls) * 2 ^ ls) with (x * 2 ^ h) by (rewrite Ehl; ring).
        apply mul_lt_pow; lia. }
      set (q2 := (r1 * 2 ^ h + dl) / (x * 2 ^ (h - ls))) in *.
      set (r2 := (r1 * 2 ^ h + dl) mod (x * 2 ^ (h - ls))) in *. clearbody q2 r2.
      assert (Hll : 2 ^ ls <= 2 ^ h) by (apply pow2_le; lia).
      assert (Esh : wrap (2 * h) (Z.shiftl q1 ls) = q1 * 2 ^ ls).
      { rewrite Z.shiftl_mul_pow2 by lia. apply wrap_small. unfold inU. rewrite EW. clear - S1 HPl Hll. nia. }
      rewrite Esh.
      assert (Hq : 0 <= q1 * 2 ^ ls + q2 < 2 ^ s).
      { rewrite Esl. split; [clear - S1 HPl M3; nia|apply mul_lt_pow; lia]. }
      rewrite wrap_small.
      2:{ unfold inU. assert (2 ^ s < 2 ^ (2 * h)) by (apply pow2_lt; lia). lia. }
      split; auto. split; auto.
      rewrite D3, EW.
      replace (rem * (2 ^ h * 2 ^ h) + (dh * 2 ^ h + dl)) with ((rem * 2 ^ h + dh) * 2 ^ h + dl) by ring.
      rewrite S3. replace ((q1 * x + r1) * 2 ^ h + dl) with (q1 * x * 2 ^ h + (r1 * 2 ^ h + dl)) by ring.
      rewrite M2, Ehl. ring.
    + assert (Esh : s = h) by lia. subst s. rewrite Z.leb_refl, Z.sub_diag. change (2 ^ 0) with 1.
      rewrite !Z.mul_1_r. split; auto.
  - destruct (Z.ltb_spec 0 s) as [_|Hbad]; [|lia].
    destruct (Z.leb_spec s h) as [_|Hb]; [|lia].
    rewrite (acc_half h rem x dh) by lia.
    assert (HPs : 0 < 2 ^ s) by (apply pow2_pos; lia).
    assert (HPhs : 0 < 2 ^ (h - s)) by (apply pow2_pos; lia).
    assert (Ehs : 2 ^ h = 2 ^ s * 2 ^ (h - s)) by (rewrite <- Z.pow_add_r by lia; f_equal; lia).
    assert (Ex' : wrap (2 * h) (Z.shiftl x (h - s)) = x * 2 ^ (h - s)).
    { rewrite Z.shiftl_mul_pow2 by lia. apply wrap_small. unfold inU. rewrite EW. clear - Hx HPhs HPs Ehs. nia. }
    rewrite Ex'.
    assert (Hx' : 0 < x * 2 ^ (h - s)) by (clear - Hx HPhs; nia).
    pose proof (Z.mod_pos_bound (rem * 2 ^ h + dh) (x * 2 ^ (h - s)) Hx') as M1.
    pose proof (Z.div_mod (rem * 2 ^ h + dh) (x * 2 ^ (h - s)) ltac:(lia)) as M2.
    assert (M3 : 0 <= (rem * 2 ^ h + dh) / (x * 2 ^ (h - s))) by (apply Z.div_pos; [clear - Hr D1 HPh; nia|lia]).
    assert (M4 : (rem * 2 ^ h + dh) / (x * 2 ^ (h - s)) < 2 ^ s).
    { apply Z.div_lt_upper_bound; [lia|].
      replace (x * 2 ^ (h - s) * 2 ^ s) with (x * 2 ^ h) by (rewrite Ehs; ring).
      apply mul_lt_pow; lia. }
    rewrite Z.shiftl_0_l. rewrite (wrap_small (2 * h) 0) by (apply inU_0; lia). rewrite Z.add_0_l.
    rewrite wrap_small.
    2:{ unfold inU. assert (2 ^ s < 2 ^ (2 * h)) by (apply pow2_lt; lia). lia. }
    split; [lia|]. split; [lia|]. rewrite M2 at 1. ring.
Qed.

(** Value of the part of the remainder stored from word [p] on. *)
Lemma rem_words_low : forall h n p d r x s, let w := 2 * h in
  1 <= h -> (p < n)%nat -> inU w d -> 0 < s <= h -> 0 < x < 2 ^ h -> 0 <= r < x * 2 ^ (h - s) ->
  (p = (n - 1)%nat -> r < 2 ^ h) ->
  let rr := wset (if (p <? n - 1)%nat then wset (zero_words n) (p + 1) (Z.shiftr r h) else zero_words n)
              p (wrap w (wrap w (Z.shiftl r h) + Z.land d (2 ^ h - 1))) in
  wf w rr /\ length rr = n /\ bval w (skipn p rr) = r * 2 ^ h + Z.land d (2 ^ h - 1).
Proof.
  intros h n p d r x s w Hh Hp Hd Hs Hx Hr Hlast rr.
  pose proof (pow2_pos h ltac:(lia)) as HPh. pose proof (pow_half h Hh) as EW. fold w in EW.
  destruct (half_split h d Hh Hd) as (_ & D2 & _). set (dl := Z.land d (2 ^ h - 1)) in *. clearbody dl.
  assert (Hrw : r < 2 ^ w).
  { rewrite EW. apply Z.lt_le_trans with (x * 2 ^ (h - s)); [lia|].
    assert (2 ^ (h - s) <= 2 ^ h) by (apply pow2_le; lia).
    assert (0 < 2 ^ (h - s)) by (apply pow2_pos; lia). clear - Hx H H0. nia. }
  pose proof (Z.mod_pos_bound r (2 ^ h) HPh) as N1. pose proof (Z.div_mod r (2 ^ h) ltac:(lia)) as N2.
  assert (N3 : 0 <= r / 2 ^ h < 2 ^ h) by (split; [apply Z.div_pos; lia|apply Z.div_lt_upper_bound; lia]).
  assert (Ew1 : wrap w (Z.shiftl r h) = (r mod 2 ^ h) * 2 ^ h).
  { rewrite Z.shiftl_mul_pow2 by lia. apply wrap_unique with (r / 2 ^ h).
    - unfold inU. rewrite EW. clear - N1 HPh. nia.
    - rewrite N2 at 1. rewrite EW. ring. }
  assert (Hlw : inU w (r mod 2 ^ h * 2 ^ h + dl)).
  { unfold inU. rewrite EW. split; [clear - N1 D2 HPh; nia|apply mul_lt_pow; lia]. }
  assert (Hhi : inU w (Z.shiftr r h)).
  { rewrite Z.shiftr_div_pow2 by lia. unfold inU. rewrite EW. clear - N3 HPh. nia. }
  unfold rr. rewrite Ew1, (wrap_small w) by auto.
  split; [|split].
  - apply wset_wf; auto. destruct (_ <? _)%nat; [apply wset_wf; auto|]; apply wf_zero_words; lia.
  - rewrite wset_length. destruct (_ <? _)%nat; rewrite ?wset_length; apply len_zero_words.
  - rewrite skipn_wset0 by (destruct (_ <? _)%nat; rewrite ?wset_length, len_zero_words; lia).
    cbn [bval].
    match goal with |- _ + _ * ?X = _ => assert (Ez : X = r / 2 ^ h) end.
    { destruct (Nat.ltb_spec p (n - 1)) as [Hpn|Hpn].
      - rewrite Nat.add_1_r. rewrite skipn_wset0 by (rewrite len_zero_words; lia).
        unfold zero_words. rewrite skipn_repeat0. cbn [bval]. rewrite bval_repeat0.
        rewrite Z.shiftr_div_pow2 by lia. ring.
      - unfold zero_words. rewrite skipn_repeat0, bval_repeat0. symmetry. apply Z.div_small.
        split; [lia|]. apply Hlast. lia. }
    rewrite Ez, EW. rewrite N2 at 3. ring.
Qed.

Lemma rem_words_one : forall w n p r, 0 <= w -> (p < n)%nat -> inU w r ->
  let rr := wset (zero_words n) p r in
  wf w rr /\ length rr = n /\ bval w (skipn p rr) = r.
Proof.
  intros w n p r Hw Hp Hr rr. unfold rr. split; [|split].
  - apply wset_wf; auto. apply wf_zero_words. auto.
  - rewrite wset_length. apply len_zero_words.
  - rewrite skipn_wset0 by (rewrite len_zero_words; auto). unfold zero_words. rewrite skipn_repeat0.
    cbn [bval]. rewrite bval_repeat0. ring.
Qed.

(** Adding the last [s] quotient bits into the shifted quotient. *)
Lemma add_low : forall int128 w quo s qt, 1 <= w -> wf w quo -> quo <> nil -> 0 < s < w ->
  0 <= qt < 2 ^ s -> bval w quo * 2 ^ s < 2 ^ bits w quo ->
  let q' := shift_left int128 w quo s in
  let r := wset q' 0 (wrap w (wget q' 0 + qt)) in
  wf w r /\ length r = length quo /\ bval w r = bval w quo * 2 ^ s + qt.
Proof.
  intros int128 w quo s qt Hw Hq Hn Hs Hqt Hfit q' r.
  destruct (shift_left_spec int128 w quo s Hw Hq ltac:(lia)) as (SL1 & SL2 & SL3). fold q' in SL1, SL2, SL3.
  pose proof (bval_range w quo ltac:(lia) Hq) as RQ.
  assert (HPs : 0 < 2 ^ s) by (apply pow2_pos; lia).
  rewrite Z.mod_small in SL3 by (clear - RQ HPs Hfit; nia).
  assert (Hlow0 : wget q' 0 mod 2 ^ s = 0).
  { rewrite (wget_val w) by (auto; lia). change (Z.of_nat 0) with 0. rewrite Z.mul_0_r. change (2 ^ 0) with 1.
    rewrite Z.div_1_r, SL3. rewrite mod_mod_le by lia. apply Z.mod_mul. lia. }
  pose proof (wget_range w q' 0 ltac:(lia) SL1) as [W0 W1].
  assert (Ews : 2 ^ w = 2 ^ s * 2 ^ (w - s)) by (rewrite <- Z.pow_add_r by lia; f_equal; lia).
  assert (Hin : inU w (wget q' 0 + qt)).
  { pose proof (Z.div_mod (wget q' 0) (2 ^ s) ltac:(lia)) as W2. rewrite Hlow0 in W2.
    unfold inU. split; [lia|]. rewrite Ews in *. clear - W1 W2 Hqt HPs.
    set (t := wget q' 0 / 2 ^ s) in *. assert (t < 2 ^ (w - s)) by nia. nia. }
  assert (HL : (0 < length quo)%nat) by (destruct quo; [congruence|simpl; lia]).
  unfold r. rewrite (wrap_small w (wget q' 0 + qt)) by auto.
  split; [apply wset_wf; auto|]. split; [rewrite wset_length; auto|].
  rewrite wset_val by (try rewrite SL2; lia). change (Z.of_nat 0) with 0. rewrite Z.mul_0_r. change (2 ^ 0) with 1.
  rewrite SL3. ring.
Qed.

(** Final arithmetic. *)
Lemma div_fin : forall V Q rem d qt R L x W S WS P, W = S * WS -> 0 < P -> 0 <= L < P -> 0 <= R < x * WS ->
  V = ((Q * x + rem) * W + d) * P + L -> rem * W + d = qt * (x * WS) + R ->
  V / (x * (WS * P)) = Q * S + qt /\ V mod (x * (WS * P)) = L + P * R.
Proof.
  intros V Q rem d qt R L x W S WS P EW HP HL HR EV E. apply div_mod_intro.
  - split; [nia|]. replace (x * (WS * P)) with (x * WS * P) by ring. nia.
  - rewrite EV. replace ((Q * x + rem) * W + d) with (Q * x * W + (rem * W + d)) by ring.
    rewrite E, EW. ring.
Qed.

Lemma quo_fits : forall V Q x rem d W S P L B, 0 < x -> 0 <= Q -> 0 <= rem -> 0 <= d -> 0 < P -> 0 <= L -> 0 < S <= W ->
  V = ((Q * x + rem) * W + d) * P + L -> V < B -> Q * S < B.
Proof.
  intros. apply Z.le_lt_trans with V; auto. rewrite H6.
  assert (Q <= Q * x) by (clear - H H0; nia).
  assert (Q * S <= Q * x * W) by (apply Z.mul_le_mono_nonneg; lia). assert (0 <= rem * W) by nia.
  assert (0 <= Q * S) by nia.
  assert (Q * S <= (Q * x + rem) * W + d) by (rewrite Z.mul_add_distr_r; lia). 
  set (T := (Q * x + rem) * W + d) in *. assert (T * 1 <= T * P) by (apply Z.mul_le_mono_nonneg_l; lia). lia.
Qed.

Lemma div_half_spec : forall int128 h val x e, let w := 2 * h in
  1 <= h -> wf w val -> 0 < x < 2 ^ h -> 0 <= e ->
  exists q r, div_uint_half_times_pow_2 int128 w val x e = (q, Some r) /\
  wf w q /\ wf w r /\ length q = length val /\ length r = length val /\
  bval w q = bval w val / (x * 2 ^ e) /\ bval w r = bval w val mod (x * 2 ^ e).
Proof.
  intros int128 h val x e w Hh Hv Hx He.
  assert (Hw : 1 <= w) by (unfold w; lia).
  pose proof (bval_range w val ltac:(lia) Hv) as RV.
  unfold div_uint_half_times_pow_2.
  destruct (Z.eqb_spec x 0) as [Hx0|_]; [lia|].
  change (w * Z.of_nat (length val)) with (bits w val).
  set (n := length val) in *.
  pose proof (pow2_pos e He) as HPe.
  destruct (Z.leb_spec (bits w val) e) as [Hbig|Hsm].
  { exists (zero_words n), val. split; auto. split; [apply wf_zero_words; lia|]. split; auto.
    split; [apply len_zero_words|]. split; auto. rewrite bval_zero_words.
    pose proof (pow2_le (bits w val) e ltac:(pose proof (bits_nonneg w val); lia)).
    assert (bval w val < x * 2 ^ e) by (clear - RV H Hx; nia).
    rewrite Z.div_small, Z.mod_small by lia. auto. }
  replace (w / 2) with h by (unfold w; rewrite Z.mul_comm, Z.div_mul; lia).
  set (c := e / w + (if e mod w =? 0 then 0 else 1)).
  assert (Hcs : 0 <= c /\ ((w * c = e) \/ (1 <= c /\ 0 < w * c - e < w))).
  { unfold c. clear - Hw He. pose proof (Z.div_mod e w ltac:(lia)). pose proof (Z.mod_pos_bound e w ltac:(lia)).
    pose proof (Z.div_pos e w ltac:(lia) ltac:(lia)).
    destruct (Z.eqb_spec (e mod w) 0); split; try lia. }
  clearbody c. destruct Hcs as [Hc Hcs].
  replace (w * c / w) with c by (rewrite Z.mul_comm, Z.div_mul; lia).
  set (lp := Z.to_nat c).
  assert (Elp : Z.of_nat lp = c) by (unfold lp; lia). clearbody lp.
  assert (Hlpn : (lp <= n)%nat).
  { unfold bits in Hsm. fold n in Hsm. clear - Hsm Hcs Elp Hw. nia. }
  pose proof (half_div_loop_spec h x val (n - lp) n 0 [] Hh Hx Hv ltac:(constructor) ltac:(lia) ltac:(lia) ltac:(lia)) as HL.
  fold w in HL. rewrite skipn_all2 in HL by (unfold n; lia). specialize (HL eq_refl).
  destruct (half_div_loop w (n - lp) n val x 0 []) as [q rem].
  destruct HL as (L1 & L2 & L3 & L4). simpl length in L2.
  replace (n - (n - lp))%nat with lp in L4 by lia.
  destruct (bval_skipn w lp val ltac:(lia) Hv Hlpn) as (_ & _ & K3).
  destruct (firstn_spec w val lp ltac:(lia) Hv Hlpn) as (F1 & F2 & F3).
  rewrite L4, F3, Elp in K3.
  pose proof (bval_range w q ltac:(lia) L1) as [RQ _].
  assert (U1 : wf w (q ++ zero_words lp)) by (apply wf_app; split; auto; apply wf_zero_words; lia).
  assert (U2 : length (q ++ zero_words lp) = n) by (rewrite app_length, len_zero_words; lia).
  assert (U3 : bval w (q ++ zero_words lp) = bval w q).
  { rewrite bval_app, bval_zero_words by lia. ring. }
  set (quo := q ++ zero_words lp) in *. clearbody quo.
  destruct (Z.ltb_spec 0 (w * c - e)) as [Hs|Hs].
  - (* a partial word remains *)
    destruct Hcs as [Hcs|[Hc1 Hsr]]; [lia|].
    remember (w * c - e) as s eqn:Es.
    remember (lp - 1)%nat as p eqn:Ep.
    assert (Ep' : Z.of_nat p = c - 1) by lia.
    assert (Hpn : (p < n)%nat) by lia.
    pose proof (wget_range w val p ltac:(lia) Hv) as Hd.
    pose proof (bval_firstn_S w p val ltac:(lia) ltac:(fold n; lia)) as B.
    set (d := wget val p) in *. clearbody d.
    replace (S p) with lp in B by lia. rewrite F3, Elp in B.
    destruct (firstn_spec w val p ltac:(lia) Hv ltac:(fold n; lia)) as (G1 & G2 & G3).
    rewrite G3, Ep' in B.
    assert (Hwc : 0 <= w * (c - 1)) by (apply Z.mul_nonneg_nonneg; lia).
    assert (HPp : 0 < 2 ^ (w * (c - 1))) by (apply pow2_pos; auto).
    pose proof (Z.mod_pos_bound (bval w val) (2 ^ (w * (c - 1))) HPp) as HLw.
    assert (Epc : 2 ^ (w * c) = 2 ^ w * 2 ^ (w * (c - 1))).
    { rewrite <- Z.pow_add_r by lia. f_equal. ring. }
    assert (EV : bval w val = ((bval w q * x + rem) * 2 ^ w + d) * 2 ^ (w * (c - 1)) + bval w val mod 2 ^ (w * (c - 1))).
    { rewrite K3 at 1. rewrite B, Epc. ring. }
    assert (Epe : 2 ^ e = 2 ^ (w - s) * 2 ^ (w * (c - 1))).
    { rewrite <- Z.pow_add_r by lia. f_equal. rewrite Z.mul_sub_distr_l. lia. }
    assert (HPs : 0 < 2 ^ s) by (apply pow2_pos; lia).
    assert (Ews : 2 ^ w = 2 ^ s * 2 ^ (w - s)) by (rewrite <- Z.pow_add_r by lia; f_equal; lia).
    assert (Hsw : 2 ^ s <= 2 ^ w) by (apply pow2_le; lia).
    assert (Hbits : bits w quo = bits w val) by (apply bits_eq; auto).
    assert (Hfit : bval w quo * 2 ^ s < 2 ^ bits w quo).
    { rewrite U3, Hbits. unfold inU in Hd. apply quo_fits with (x := x) (rem := rem) (d := d) (W := 2 ^ w) (V := bval w val) (P := 2 ^ (w * (c - 1))) (L := bval w val mod 2 ^ (w * (c - 1))); auto; lia. }
    assert (Hnq : quo <> nil) by (intros ->; simpl in U2; lia).
    pose proof (half_div_tail_spec h x rem d s Hh Hx L3 Hd ltac:(unfold w in Hsr; lia)) as HT.
    fold w in HT. destruct (half_div_tail w x rem d s) as [r qt]. destruct HT as [Hqt HT].
    destruct (add_low int128 w quo s qt Hw U1 Hnq ltac:(lia) Hqt Hfit) as (A1 & A2 & A3).
    destruct (half_split h d Hh Hd) as (D1 & D2 & D3).
    assert (FIN : forall rr R, wf w rr -> length rr = n ->
      bval w (skipn p rr) = R -> 0 <= R < x * 2 ^ (w - s) -> rem * 2 ^ w + d = qt * (x * 2 ^ (w - s)) + R ->
      exists q0 r0, (wset (shift_left int128 w quo s) 0 (wrap w (wget (shift_left int128 w quo s) 0 + qt)),
                     Some (firstn p val ++ skipn p rr)) = (q0, Some r0) /\
        wf w q0 /\ wf w r0 /\ length q0 = n /\ length r0 = n /\
        bval w q0 = bval w val / (x * 2 ^ e) /\ bval w r0 = bval w val mod (x * 2 ^ e)).
    { intros rr R Hrr Lrr ER HR Eqt. eexists _, _. split; [reflexivity|].
      destruct (div_fin (bval w val) (bval w q) rem d qt R _ x _ _ _ _ Ews HPp HLw HR EV Eqt) as [E1 E2].
      split; auto. split; [apply wf_app; split; auto; apply bval_skipn; auto; lia|].
      split; [congruence|].
      split; [rewrite app_length, G2, skipn_length, Lrr; lia|].
      rewrite A3, U3, Epe. split; [congruence|].
      rewrite assemble by (auto; fold n; lia). rewrite ER, Ep'. congruence. }
    clear A1 A2 A3 Hfit EV B K3 F3 G3.
    destruct (Z.leb_spec s h) as [Hsh|Hsh].
    + destruct HT as [HT1 HT2].
      assert (Hlast : p = (n - 1)%nat -> r < 2 ^ h).
      { intros Hpl. assert (Enl : lp = n) by lia.
        assert (Eskip : skipn lp val = []) by (apply skipn_all2; unfold n in *; lia).
        rewrite Eskip in L4. cbn [bval] in L4.
        assert (rem = 0) by (clear - L4 RQ L3 Hx; nia). subst rem.
        assert (0 <= qt * (x * 2 ^ (h - s))).
        { assert (0 <= x * 2 ^ (h - s)) by lia. clear - Hqt H. nia. }
        lia. }
      destruct (rem_words_low h n p d r x s Hh Hpn Hd ltac:(lia) Hx HT1 Hlast) as (R1 & R2 & R3).
      fold w in R1, R2, R3.
      assert (Ewhs : 2 ^ (w - s) = 2 ^ (h - s) * 2 ^ h) by (rewrite <- Z.pow_add_r by lia; f_equal; unfold w; lia).
      assert (HPh : 0 < 2 ^ h) by (apply pow2_pos; lia).
      apply FIN with (R := r * 2 ^ h + Z.land d (2 ^ h - 1)); auto.
      * rewrite Ewhs. replace (x * (2 ^ (h - s) * 2 ^ h)) with (x * 2 ^ (h - s) * 2 ^ h) by ring.
        split; [clear - HT1 HPh D2; nia|]. apply mul_lt_pow; lia.
      * rewrite Ewhs. unfold w. rewrite (pow_half h Hh). rewrite D3 at 1.
        replace (rem * (2 ^ h * 2 ^ h) + (Z.shiftr d h * 2 ^ h + Z.land d (2 ^ h - 1)))
          with ((rem * 2 ^ h + Z.shiftr d h) * 2 ^ h + Z.land d (2 ^ h - 1)) by ring.
        rewrite HT2. ring.
    + destruct HT as [HT1 HT2]. replace (2 * h - s) with (w - s) in * by reflexivity.
      assert (Hr : inU w r).
      { unfold inU. split; [lia|]. apply Z.lt_le_trans with (x * 2 ^ (w - s)); [lia|].
        assert (2 ^ (w - s) <= 2 ^ h) by (apply pow2_le; unfold w; lia).
        unfold w at 2. rewrite (pow_half h Hh). assert (0 < 2 ^ (w - s)) by (apply pow2_pos; lia).
        clear - H Hx H0. nia. }
      destruct (rem_words_one w n p r ltac:(lia) Hpn Hr) as (R1 & R2 & R3).
      apply FIN with (R := r); auto.
  - (* e a multiple of the word size *)
    destruct Hcs as [Ec|[_ Hcs]]; [|lia].
    assert (Hlp : (lp < n)%nat) by (unfold bits in Hsm; fold n in Hsm; clear - Hsm Ec Elp Hw; nia).
    assert (Hremw : inU w rem).
    { unfold inU. split; [lia|]. apply Z.lt_le_trans with (2 ^ h); [lia|]. apply pow2_le. unfold w. lia. }
    destruct (rem_words_one w n lp rem ltac:(lia) Hlp Hremw) as (R1 & R2 & R3).
    exists quo, (firstn lp val ++ skipn lp (wset (zero_words n) lp rem)).
    split; auto. split; auto.
    split; [apply wf_app; split; auto; apply bval_skipn; auto; lia|].
    split; auto. split; [rewrite app_length, F2, skipn_length, R2; lia|].
    rewrite assemble by (auto; lia). rewrite R3, U3, Elp, Ec.
    rewrite Ec in K3. pose proof (Z.mod_pos_bound (bval w val) (2 ^ e) ltac:(lia)) as HM.
    destruct (div_mod_intro (bval w val) (x * 2 ^ e) (bval w q) (bval w val mod 2 ^ e + 2 ^ e * rem)) as [E1 E2].
    + clear - HM L3 HPe. nia.
    + rewrite K3 at 1. ring.
    + auto.
Qed.
