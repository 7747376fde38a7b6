(** * Proofs: rounding with a round bit and a sticky bit *)
From Coq Require Import ZArith Reals Bool Lia Lra.
From Flocq Require Import Core.
From Verif Require Import MachInt Fmt FloatSpec FmtProofs RoundProofs.
Open Scope Z_scope.

(** The decision table of the code: round bit, sticky bit, parity. *)
Definition round_tbl (rm : rmode) (s : bool) (q : Z) (rb st : bool) : bool :=
  match rm with
  | RNE => rb && (Z.odd q || st)
  | RDN => s && (rb || st)
  | RUP => negb s && (rb || st)
  | RZR => false
  end.

Lemma low_nonzero : forall a b, (negb (a =? 0) = true <-> a <> 0) /\ (b = negb (a =? 0) <-> (b = true <-> a <> 0)).
Proof. intros a b. split; destruct (Z.eqb_spec a 0), b; cbn; intuition congruence. Qed.

(** Splitting the remainder modulo 2^K into its top bit and the rest. *)
Lemma rem_split : forall m K, 1 <= K ->
  m mod 2 ^ K = b2z (Z.testbit m (K - 1)) * 2 ^ (K - 1) + m mod 2 ^ (K - 1) /\ 0 <= m mod 2 ^ (K - 1) < 2 ^ (K - 1).
Proof.
  intros m K HK. pose proof (pow2_pos (K - 1) ltac:(lia)) as HP. split; [|apply Z.mod_pos_bound; lia].
  replace (2 ^ K) with (2 ^ (K - 1) * 2) by (rewrite Z.mul_comm, <- pow2_succ by lia; f_equal; lia).
  rewrite Z.rem_mul_r by lia. rewrite Z.testbit_eqb by lia.
  rewrite Zmod_odd. destruct (Z.odd (m / 2 ^ (K - 1))); [change (1 =? 1) with true|change (0 =? 1) with false]; cbn [b2z]; lia.
Qed.

Lemma round_up_tbl : forall rm s m K st, 1 <= K -> 0 <= m ->
  round_up rm s (m / 2 ^ K) (2 * (m mod 2 ^ K) + b2z st) (2 ^ K) =
  round_tbl rm s (m / 2 ^ K) (Z.testbit m (K - 1)) (st || negb (m mod 2 ^ (K - 1) =? 0)).
Proof.
  intros rm s m K st HK Hm. destruct (rem_split m K HK) as (E & R). rewrite E.
  pose proof (pow2_pos (K - 1) ltac:(lia)) as HP.
  replace (2 ^ K) with (2 * 2 ^ (K - 1)) at 2 by (rewrite <- pow2_succ by lia; f_equal; lia).
  set (l := m mod 2 ^ (K - 1)) in *. set (P := 2 ^ (K - 1)) in *. set (q := m / 2 ^ K).
  set (rb := Z.testbit m (K - 1)).
  assert (C : (2 * (b2z rb * P + l) + b2z st ?= 2 * P) =
    if rb then (if st || negb (l =? 0) then Gt else Eq) else Lt).
  { destruct rb, st, (Z.eqb_spec l 0); cbn [b2z orb negb];
      first [apply Z.compare_gt_iff; lia | apply Z.compare_lt_iff; lia | apply Z.compare_eq_iff; lia]. }
  assert (Z : (0 <? 2 * (b2z rb * P + l) + b2z st) = rb || (st || negb (l =? 0))).
  { destruct rb, st, (Z.eqb_spec l 0); cbn [b2z orb negb]; first [apply Z.ltb_lt; lia | apply Z.ltb_ge; lia]. }
  unfold round_up, round_tbl. rewrite C, Z.
  destruct rm, rb, (st || negb (l =? 0)), (Z.odd q); reflexivity.
Qed.

Section S.
Context (F : fmt) (HF : good_fmt F).

(** The real [x] is [a 2^e], or lies strictly between that and the next. *)
Definition brk (a : Z) (st : bool) (e : Z) (x : R) : Prop :=
  if st then (IZR a * bpow radix2 e < x < IZR (a + 1) * bpow radix2 e)%R else x = (IZR a * bpow radix2 e)%R.

Lemma digits_shift : forall m k, 0 < m -> 0 <= k -> digits (m * 2 ^ k) = digits m + k.
Proof.
  intros m k Hm Hk. pose proof (digits_bounds m Hm) as H. pose proof (pow2_pos k Hk).
  assert (1 <= digits m) by (unfold digits; replace (m =? 0) with false by lia; pose proof (Z.log2_nonneg m); lia).
  apply digits_unique; [lia|].
  replace (digits m + k - 1) with (digits m - 1 + k) by lia. rewrite !Z.pow_add_r by lia.
  split; [apply Z.mul_le_mono_nonneg_r|apply Z.mul_lt_mono_pos_r]; lia.
Qed.

(** Shifting the significand left does not change the rounding, provided the
    sticky bit stays below the rounding position. *)
Lemma round_encode_shift : forall rm s m e st k, 0 < m -> 0 <= k ->
  (st = true -> e < Z.max (emin F) (digits m + e - prec F)) ->
  round_encode F rm s (m * 2 ^ k) (e - k) st = round_encode F rm s m e st.
Proof.
  intros rm s m e st k Hm Hk Hst. pose proof (pow2_pos k Hk) as HK.
  unfold round_encode. fold (digits (m * 2 ^ k)). fold (digits m). rewrite digits_shift by auto.
  replace (digits m + k + (e - k) - prec F) with (digits m + e - prec F) by lia.
  replace (m * 2 ^ k =? 0) with false by nia. replace (m =? 0) with false by lia. cbn [andb].
  set (et := Z.max (emin F) (digits m + e - prec F)) in *.
  f_equal.
  match goal with |- (if enc F (?q1 + ?u1) _ <? _ then _ else _) = (if enc F (?q2 + ?u2) _ <? _ then _ else _) =>
    assert (HQ : q1 = q2 /\ u1 = u2); [|destruct HQ as [-> ->]; reflexivity] end.
  destruct (Z.leb_spec et e) as [H|H].
  - assert (st = false) as -> by (destruct st; auto; specialize (Hst eq_refl); lia).
    replace (Z.max 0 (et - e)) with 0 by lia. change (2 ^ 0) with 1.
    destruct (Z.leb_spec et (e - k)) as [H2|H2].
    + replace (Z.max 0 (et - (e - k))) with 0 by lia. change (2 ^ 0) with 1.
      assert (E : m * 2 ^ k * 2 ^ (e - k - et) = m * 2 ^ (e - et)) by (rewrite <- Z.mul_assoc, <- Z.pow_add_r by lia; f_equal; f_equal; lia).
      rewrite E. split; reflexivity.
    + replace (Z.max 0 (et - (e - k))) with (et - (e - k)) by lia.
      assert (E : m * 2 ^ k = m * 2 ^ (e - et) * 2 ^ (et - (e - k))) by (rewrite <- Z.mul_assoc, <- Z.pow_add_r by lia; f_equal; f_equal; lia).
      pose proof (pow2_pos (et - (e - k)) ltac:(lia)).
      rewrite E, Z.div_mul, Z.mod_mul by lia. split; [reflexivity|].
      set (q := m * 2 ^ (e - et)). assert (1 < 2 ^ (et - (e - k))) by (apply Z.pow_gt_1; lia).
      unfold round_up. change (2 * 0 + b2z false) with 0. change (0 <? 0) with false. change (0 ?= 1) with Lt.
      assert (C : (0 ?= 2 ^ (et - (e - k))) = Lt) by (apply Z.compare_lt_iff; lia). rewrite C. reflexivity.
  - replace (et <=? e - k) with false by lia.
    replace (Z.max 0 (et - (e - k))) with (et - e + k) by lia. replace (Z.max 0 (et - e)) with (et - e) by lia.
    set (K := et - e) in *. assert (HK1 : 1 <= K) by (unfold K; lia).
    rewrite Z.pow_add_r by lia. pose proof (pow2_pos K ltac:(lia)) as HKp.
    assert (EQ : m * 2 ^ k / (2 ^ K * 2 ^ k) = m / 2 ^ K) by (apply Z.div_mul_cancel_r; lia).
    assert (EM : (m * 2 ^ k) mod (2 ^ K * 2 ^ k) = (m mod 2 ^ K) * 2 ^ k) by (apply Z.mul_mod_distr_r; lia).
    rewrite EQ, EM. split; [reflexivity|]. f_equal.
    set (r := m mod 2 ^ K). set (q := m / 2 ^ K).
    assert (Hr : 0 <= r < 2 ^ K) by (apply Z.mod_pos_bound; lia).
    assert (HE : 2 ^ K = 2 * 2 ^ (K - 1)) by (rewrite <- pow2_succ by lia; f_equal; lia).
    set (P := 2 ^ (K - 1)) in *. rewrite HE in *. set (c := 2 ^ k) in *.
    assert (C : (2 * (r * c) + b2z st ?= 2 * P * c) = (2 * r + b2z st ?= 2 * P)).
    { destruct (Z.lt_trichotomy r P) as [L|[L|L]].
      - assert (r * c <= (P - 1) * c) by (apply Z.mul_le_mono_nonneg_r; lia).
        transitivity Lt; [|symmetry]; apply Z.compare_lt_iff; destruct st; cbn [b2z]; lia.
      - subst r. rewrite L. destruct st; cbn [b2z].
        + transitivity Gt; [|symmetry]; apply Z.compare_gt_iff; lia.
        + transitivity Eq; [|symmetry]; apply Z.compare_eq_iff; lia.
      - assert ((P + 1) * c <= r * c) by (apply Z.mul_le_mono_nonneg_r; lia).
        transitivity Gt; [|symmetry]; apply Z.compare_gt_iff; destruct st; cbn [b2z]; lia. }
    assert (Z0 : (0 <? 2 * (r * c) + b2z st) = (0 <? 2 * r + b2z st)).
    { assert (b2z st = 0 \/ b2z st = 1) by (destruct st; auto). destruct (Z.eq_dec r 0) as [->|Hn].
      - destruct st; reflexivity.
      - assert (0 < r * c) by nia. transitivity true; [|symmetry]; apply Z.ltb_lt; lia. }
    unfold round_up. rewrite C, Z0. reflexivity.
Qed.

(** Discarding low bits into the sticky bit. *)
Lemma brk_shift : forall v e D, 0 <= v -> 0 <= D ->
  brk (v / 2 ^ D) (negb (v mod 2 ^ D =? 0)) (e + D) (IZR v * bpow radix2 e).
Proof.
  intros v e D Hv HD. pose proof (pow2_pos D HD) as HP. pose proof (Z.div_mod v (2 ^ D) ltac:(lia)) as E.
  pose proof (Z.mod_pos_bound v (2 ^ D) HP) as R. pose proof (bpow_gt_0 radix2 e).
  assert (S : forall a, (IZR a * bpow radix2 (e + D) = IZR (a * 2 ^ D) * bpow radix2 e)%R).
  { intros a. rewrite mult_IZR, <- (bpow_IZR D) by lia. rewrite bpow_plus. ring. }
  unfold brk. rewrite !S. destruct (Z.eqb_spec (v mod 2 ^ D) 0) as [E0|E0]; cbn [negb].
  - f_equal. f_equal. lia.
  - split; apply Rmult_lt_compat_r; auto; apply IZR_lt; nia.
Qed.
Lemma brk_exact : forall v e, brk v false e (IZR v * bpow radix2 e).
Proof. intros. reflexivity. Qed.
(** Halving the significand of a bracket. *)
Lemma brk_half : forall a st e x, brk a st e x -> brk (a / 2) (st || Z.odd a) (e + 1) x.
Proof.
  intros a st e x H. unfold brk in *. pose proof (bpow_gt_0 radix2 e).
  assert (S : forall a, (IZR a * bpow radix2 (e + 1) = IZR (2 * a) * bpow radix2 e)%R).
  { intros b. rewrite mult_IZR. rewrite bpow_plus. change (bpow radix2 1) with 2%R. ring. }
  pose proof (Z.div_mod a 2 ltac:(lia)) as E. rewrite Zmod_odd in E. rewrite !S.
  destruct st; cbn [orb].
  - destruct H as [H1 H2]. split.
    + apply Rle_lt_trans with (2 := H1). apply Rmult_le_compat_r; [lra|]. apply IZR_le. destruct (Z.odd a); lia.
    + apply Rlt_le_trans with (1 := H2). apply Rmult_le_compat_r; [lra|]. apply IZR_le. destruct (Z.odd a); lia.
  - destruct (Z.odd a).
    + rewrite H. split; apply Rmult_lt_compat_r; auto; apply IZR_lt; lia.
    + rewrite H. f_equal. f_equal. lia.
Qed.
Lemma brk_add : forall a b st e x y, brk a st e x -> brk b false e y -> brk (a + b) st e (x + y).
Proof.
  intros a b st e x y H1 H2. unfold brk in *. subst y. destruct st.
  - replace (a + b + 1) with (a + 1 + b) by lia. rewrite !plus_IZR in *. lra.
  - rewrite H1, plus_IZR. ring.
Qed.
(** Subtracting a bracketed number from an exact one. *)
Lemma brk_sub : forall a b st e x y, brk a false e x -> brk b st e y ->
  brk (if st then a - b - 1 else a - b) st e (x - y).
Proof.
  intros a b st e x y H1 H2. unfold brk in *. subst x. destruct st.
  - replace (a - b - 1 + 1) with (a - b) by lia. rewrite !minus_IZR. rewrite plus_IZR in *. lra.
  - rewrite H2, minus_IZR. ring.
Qed.

Lemma overflow_up : forall rm s q rb st, round_tbl rm s q rb st = true -> overflow_mag F rm s = inf_mag F.
Proof. intros rm s q rb st. unfold round_tbl, overflow_mag. destruct rm, s; cbn; intros; try discriminate; reflexivity. Qed.
End S.
