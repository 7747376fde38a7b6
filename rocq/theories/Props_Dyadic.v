(** * C36-C39: DyadicFloat *)
From Coq Require Import ZArith Reals Bool Lia Lra.
From Flocq Require Import Core.
From Verif Require Import MachInt Fmt FloatSpec FOps Dyadic DyadicSpec FmtProofs BigIntMul FmanipWide DyadicProofs DyadicFast DyadicArith DyadicQuick.
Open Scope Z_scope.

(* C36 *)
(** [generic_as] rounds the dyadic number to the format in the requested mode
    and raises inexact, overflow and underflow exactly when due. *)
Theorem C36_generic_as : forall F B dm d, good_fmt F -> el F <= 16 -> fl F + 2 <= B ->
  dy_ok B d -> dy_norm B d ->
  exists b ex, generic_as F B dm d = Some (b, ex) /\
    rounded F dm (dyval d) (dsign d) b /\
    (ex_inexact ex = true <-> is_fin F b = false \/ fval F b <> dyval d) /\
    (ex_overflow ex = true <-> (bpow radix2 (bias F + 1) <= Rabs (fround F dm (dyval d)))%R) /\
    (ex_underflow ex = true <-> (Rabs (dyval d) < bpow radix2 (1 - bias F))%R /\ fval F b <> dyval d).
Proof. intros F B dm d HF He HB H1 H2. exact (generic_as_spec F HF He B HB dm d H1 H2). Qed.
(** [fast_as] (and so [as] and [operator T]) is correctly rounded in every
    hardware rounding mode, with or without an fma instruction. *)
Theorem C36_fast_as : forall F B rm has_fma d, good_fmt F -> el F <= 16 -> fl F + 3 <= bias F ->
  fl F + 2 <= B <= 2 ^ 31 -> dy_ok B d -> dy_norm B d ->
  rounded F rm (dyval d) (dsign d) (fast_as F B rm has_fma d).
Proof. intros F B rm h d HF He Hb HB H1 H2. exact (fast_as_spec F HF He Hb B HB rm h d H1 H2). Qed.
(** The integer conversions: the truncated (rounded) value modulo 2^Bits, and
    the direction of the rounding. *)
Theorem C36_as_mantissa_type : forall B d, 2 <= B -> 0 <= dmant d < 2 ^ B -> - B < dexp d < B ->
  as_mantissa_type B d = Some (Ztrunc (dyval d) mod 2 ^ B).
Proof. exact as_mantissa_spec. Qed.
Theorem C36_as_mantissa_type_rounded : forall dm B d, 2 <= B -> 0 <= dmant d < 2 ^ B -> dexp d < B ->
  (dexp d < 0 -> - dexp d < B \/ dm = RNE \/ dm = RZR) -> (dexp d = -1 -> dm <> RNE) ->
  as_mantissa_type_rounded dm B d =
    Some (rnd dm (dyval d) mod 2 ^ B,
          match Rcompare (Rabs (IZR (rnd dm (dyval d)))) (Rabs (dyval d)) with Gt => 1 | Eq => 0 | Lt => -1 end).
Proof.
  intros dm B d HB Hd He H1 H2. apply as_mantissa_rounded_spec; auto. intros H. unfold dir_ok.
  destruct (Z.eq_dec (dexp d) 0) as [E|E]; [left; lia|]. right. specialize (H1 ltac:(lia)).
  destruct (Z.eq_dec (dexp d) (-1)) as [E1|E1]; [right; left; split; [lia|auto]|].
  destruct (Z_lt_le_dec (- dexp d) B) as [L|L]; [left; lia|]. right; right. split; [lia|]. destruct H1; [lia|auto].
Qed.
(** The value 1/2, rounded upward, comes out as 0 with direction "down": the
    mantissa is shifted out completely. *)
Theorem C36_as_mantissa_type_rounded_refuted : exists B d, 2 <= B /\ dy_ok B d /\ dy_norm B d /\
  as_mantissa_type_rounded RUP B d = Some (0, -1) /\ rnd RUP (dyval d) = 1.
Proof.
  exists 64, (Dyadic false (-64) (2 ^ 63)). split; [lia|]. split; [vm_compute; intuition discriminate|]. split; [right; vm_compute; discriminate|].
  split; [vm_compute; reflexivity|]. cbn [rnd]. apply Zceil_imp. unfold dyval. cbn [dsign dmant dexp].
  assert (E : bpow radix2 (-64) = (/ IZR (2 ^ 64))%R) by reflexivity. rewrite E. change (1 - 1) with 0.
  change (2 ^ 64) with (2 * 2 ^ 63). rewrite mult_IZR. assert (0 < IZR (2 ^ 63))%R by (apply IZR_lt; lia).
  replace (1 * IZR (2 ^ 63) * / (2 * IZR (2 ^ 63)))%R with (/ 2)%R by (field; lra). lra.
Qed.
(** 3 * 2^-2 in 64 bits to double; a tie, a subnormal with underflow and
    overflow in binary32 from a 64-bit mantissa. *)
Example C36_case :
  good_fmt binary32 /\ good_fmt binary64 /\ fl binary64 + 3 <= bias binary64 /\
  dy_ok 128 (Dyadic false (-128) (3 * 2 ^ 126)) /\ dy_norm 128 (Dyadic false (-128) (3 * 2 ^ 126)) /\
  generic_as binary64 128 RNE (Dyadic false (-128) (3 * 2 ^ 126)) = Some (0x3fe8000000000000, no_excepts) /\
  fast_as binary64 128 RNE true (Dyadic false (-128) (3 * 2 ^ 126)) = 0x3fe8000000000000 /\
  generic_as binary32 64 RNE (Dyadic true (-63) (2 ^ 63 + 2 ^ 39)) = Some (0xbf800000, Excepts true false false) /\
  generic_as binary32 64 RDN (Dyadic true (-63) (2 ^ 63 + 2 ^ 39)) = Some (0xbf800001, Excepts true false false) /\
  generic_as binary32 64 RUP (Dyadic false (-300) (2 ^ 63)) = Some (1, Excepts true false true) /\
  fast_as binary32 64 RUP false (Dyadic false (-300) (2 ^ 63)) = 1 /\
  generic_as binary32 64 RNE (Dyadic false 65 (2 ^ 63)) = Some (0x7f800000, Excepts true true false) /\
  generic_as binary32 64 RZR (Dyadic false 65 (2 ^ 63)) = Some (0x7f7fffff, Excepts true true false) /\
  as_mantissa_type 64 (Dyadic true (-61) (15 * 2 ^ 60)) = Some (2 ^ 64 - 7) /\
  as_mantissa_type_rounded RNE 64 (Dyadic true (-61) (15 * 2 ^ 60)) = Some (2 ^ 64 - 8, 1).
Proof.
  split; [exact good32|]. split; [exact good64|]. split; [vm_compute; discriminate|]. split; [vm_compute; intuition discriminate|].
  split; [right; vm_compute; discriminate|]. repeat match goal with |- _ /\ _ => split end; vm_compute; reflexivity.
Qed.

(* C37 *)
Theorem C37_normalize : forall B d, 0 <= dmant d < 2 ^ B ->
  dyval (normalize B d) = dyval d /\ dsign (normalize B d) = dsign d /\
  0 <= dmant (normalize B d) < 2 ^ B /\ dy_norm B (normalize B d).
Proof.
  intros B d H. destruct (normalize_spec B d H) as [(H1 & H2 & H3 & H4 & _)|[H1 H2]]; [auto|].
  rewrite H2. split; [reflexivity|]. split; [reflexivity|]. split; [lia|left; auto].
Qed.
(** The constructor from (sign, exponent, mantissa). *)
Theorem C37_make : forall B s e m, 0 <= m < 2 ^ B ->
  dyval (dy_make B s e m) = ((if s then -1 else 1) * (IZR m * bpow radix2 e))%R /\
  dsign (dy_make B s e m) = s /\ 0 <= dmant (dy_make B s e m) < 2 ^ B /\ dy_norm B (dy_make B s e m).
Proof. exact dy_make_spec. Qed.
(** The constructor from a native value is exact, for every finite value
    (subnormals and zeros included). *)
Theorem C37_from_float : forall F B b, good_fmt F -> el F <= 16 -> fl F + 1 <= B -> is_pattern F b -> is_fin F b = true ->
  dyval (dy_of F B b) = fval F b /\ dsign (dy_of F B b) = sign_of F b /\
  0 <= dmant (dy_of F B b) < 2 ^ B /\ dy_norm B (dy_of F B b) /\ - 2 ^ 17 - B <= dexp (dy_of F B b) <= 2 ^ 17.
Proof. exact dy_of_spec. Qed.
Theorem C37_shift_left : forall B d n, 0 <= n < B -> 0 <= dmant d -> dmant d * 2 ^ n < 2 ^ B ->
  dyval (dy_shl B d n) = dyval d /\ dsign (dy_shl B d n) = dsign d /\ dexp (dy_shl B d n) = dexp d - n /\
  dmant (dy_shl B d n) = dmant d * 2 ^ n.
Proof. exact dy_shl_spec. Qed.
(** Truncation toward zero by less than one unit of the new exponent. *)
Theorem C37_shift_right : forall B d n, 0 <= n -> 0 <= dmant d < 2 ^ B ->
  (0 <= Rabs (dyval d) - Rabs (dyval (dy_shr B d n)) < bpow radix2 (dexp d + n))%R /\
  dsign (dy_shr B d n) = dsign d /\ (n < B -> dexp (dy_shr B d n) = dexp d + n) /\ 0 <= dmant (dy_shr B d n) < 2 ^ B.
Proof. exact dy_shr_spec. Qed.
Theorem C37_neg : forall B d, 1 <= B -> 0 <= dmant d < 2 ^ B -> dy_norm B d ->
  dy_neg B d = Dyadic (negb (dsign d)) (dexp d) (dmant d) /\ dyval (dy_neg B d) = (- dyval d)%R.
Proof. exact dy_neg_spec. Qed.
Theorem C37_mul_pow_2 : forall d k, dyval (mul_pow_2 d k) = (dyval d * bpow radix2 k)%R.
Proof. exact mul_pow_2_spec. Qed.
Example C37_case :
  normalize 64 (Dyadic true 5 3) = Dyadic true (-57) (3 * 2 ^ 62) /\
  dy_of binary64 128 0xbff8000000000000 = Dyadic true (-127) (3 * 2 ^ 126) /\
  dy_of binary32 64 1 = Dyadic false (-149 - 63) (2 ^ 63) /\
  dy_shr 64 (Dyadic false 0 7) 1 = Dyadic false 1 3 /\ dy_shl 64 (Dyadic false 0 7) 3 = Dyadic false (-3) 56.
Proof. repeat match goal with |- _ /\ _ => split end; vm_compute; reflexivity. Qed.

(* C38 *)
(** Operands of the same sign: the sum truncated, less than one unit in the
    last place of the result away.  The exponent premise is needed, see
    [C38_quick_add_exponent_refuted]. *)
Theorem C38_quick_add_same : forall B a b, 2 <= B -> dy_ok B a -> dy_ok B b -> dy_norm B a -> dy_norm B b ->
  dsign a = dsign b -> (dmant a <> 0 -> dexp b - dexp a < B) ->
  let r := quick_add B a b in
  dsign r = dsign a /\ 0 <= dmant r < 2 ^ B /\ dy_norm B r /\
  (0 <= Rabs (dyval a + dyval b) - Rabs (dyval r) < bpow radix2 (dexp r))%R.
Proof. intros B a b HB [H1 _] [H2 _]. apply quick_add_same; auto. Qed.
(** Operands of opposite signs: the smaller is truncated to the larger exponent. *)
Theorem C38_quick_add_opposite : forall B a b, 2 <= B -> dy_ok B a -> dy_ok B b -> dy_norm B a -> dy_norm B b ->
  dsign a <> dsign b ->
  let r := quick_add B a b in
  0 <= dmant r < 2 ^ B /\ dy_norm B r /\
  (dmant a <> 0 -> dmant b <> 0 -> (Rabs (dyval r - (dyval a + dyval b)) < bpow radix2 (Z.max (dexp a) (dexp b)))%R) /\
  (dmant a = 0 \/ dmant b = 0 \/ dexp a = dexp b -> dyval r = (dyval a + dyval b)%R).
Proof. intros B a b HB [H1 _] [H2 _]. apply quick_add_opposite; auto. Qed.
(** The documented bound |error| < MSB(a+b) * 2^(2-Bits) under the conditions
    that make it true ... *)
Theorem C38_quick_add_bound : forall B a b, 2 <= B -> dy_ok B a -> dy_ok B b -> dy_norm B a -> dy_norm B b ->
  (dyval a + dyval b <> 0)%R ->
  (dsign a = dsign b -> dmant a <> 0 -> dexp b - dexp a < B) ->
  (dsign a <> dsign b -> Z.abs (dexp a - dexp b) <> 1) ->
  (Rabs (dyval (quick_add B a b) - (dyval a + dyval b)) < bpow radix2 (mag radix2 (dyval a + dyval b) - 1 + 2 - B))%R.
Proof. intros B a b HB [H1 _] [H2 _]. apply quick_add_bound; auto. Qed.
Theorem C38_quick_sub_bound : forall B a b, 2 <= B -> dy_ok B a -> dy_ok B b -> dy_norm B a -> dy_norm B b ->
  (dyval a - dyval b <> 0)%R ->
  (dsign a <> dsign b -> dmant a <> 0 -> dexp b - dexp a < B) ->
  (dsign a = dsign b -> Z.abs (dexp a - dexp b) <> 1) ->
  (Rabs (dyval (quick_sub B a b) - (dyval a - dyval b)) < bpow radix2 (mag radix2 (dyval a - dyval b) - 1 + 2 - B))%R.
Proof.
  intros B a b HB [H1 _] [H2 _] Na Nb HN HS HO. unfold quick_sub. destruct (dy_neg_spec B b ltac:(lia) H2 Nb) as [E V].
  unfold Rminus in HN |- *. rewrite <- V in HN |- *. rewrite E in HN |- *.
  apply (quick_add_bound B HB a (Dyadic (negb (dsign b)) (dexp b) (dmant b))); cbn [dsign dexp dmant]; auto.
  - intros H. apply HS. destruct (dsign a), (dsign b); cbn in H; congruence.
  - intros H. apply HO. destruct (dsign a), (dsign b); cbn in H; congruence.
Qed.
(** ... and a case in which it fails: 2^63 - (2^64-1)/2 is 1/2, computed as 1. *)
Theorem C38_quick_add_bound_refuted : exists B a b, 2 <= B /\ dy_ok B a /\ dy_ok B b /\ dy_norm B a /\ dy_norm B b /\
  (dyval a + dyval b)%R = (/ 2)%R /\ dyval (quick_add B a b) = 1%R /\
  ~ (Rabs (dyval (quick_add B a b) - (dyval a + dyval b)) < bpow radix2 (mag radix2 (dyval a + dyval b) - 1 + 2 - B))%R.
Proof.
  exists 64, (Dyadic false 0 (2 ^ 63)), (Dyadic true (-1) (2 ^ 64 - 1)).
  assert (S : (dyval (Dyadic false 0 (2 ^ 63)) + dyval (Dyadic true (-1) (2 ^ 64 - 1)))%R = (/ 2)%R).
  { unfold dyval. cbn [dsign dmant dexp]. change (bpow radix2 0) with 1%R. change (bpow radix2 (-1)) with (/ 2)%R.
    rewrite minus_IZR. change (2 ^ 64) with (2 * 2 ^ 63). rewrite mult_IZR. field. }
  assert (V : dyval (quick_add 64 (Dyadic false 0 (2 ^ 63)) (Dyadic true (-1) (2 ^ 64 - 1))) = 1%R).
  { replace (quick_add 64 (Dyadic false 0 (2 ^ 63)) (Dyadic true (-1) (2 ^ 64 - 1))) with (Dyadic false (-63) (2 ^ 63)) by (vm_compute; reflexivity).
    unfold dyval. cbn [dsign dmant dexp]. rewrite <- (bpow_IZR 63) by lia. rewrite Rmult_1_l, <- bpow_plus. reflexivity. }
  split; [lia|]. do 2 (split; [vm_compute; intuition discriminate|]). do 2 (split; [right; vm_compute; discriminate|]).
  split; [exact S|]. split; [exact V|]. rewrite S, V.
  assert (M : mag radix2 (/ 2) = 0 :> Z).
  { apply mag_unique. rewrite Rabs_pos_eq by lra. change (0 - 1) with (-1). change (bpow radix2 (-1)) with (/ 2)%R. change (bpow radix2 0) with 1%R. lra. }
  rewrite M. replace (1 - / 2)%R with (/ 2)%R by field. rewrite Rabs_pos_eq by lra. apply Rle_not_lt.
  apply Rle_trans with (bpow radix2 (-1)); [apply bpow_le; lia|]. change (bpow radix2 (-1)) with (/ 2)%R. lra.
Qed.
(** Same signs and a first operand too small to matter: the result gets
    exponent 0, whatever the exponents of the operands. *)
Theorem C38_quick_add_exponent_refuted : exists B a b, 2 <= B /\ dy_ok B a /\ dy_ok B b /\ dy_norm B a /\ dy_norm B b /\
  dsign a = dsign b /\ (1024 * Rabs (dyval (quick_add B a b)) < Rabs (dyval a + dyval b))%R /\
  quick_add B b a = b.
Proof.
  exists 64, (Dyadic false 0 (2 ^ 63)), (Dyadic false 100 (2 ^ 63)).
  split; [lia|]. do 2 (split; [vm_compute; intuition discriminate|]). do 2 (split; [right; vm_compute; discriminate|]). split; [reflexivity|].
  split; [|vm_compute; reflexivity].
  replace (quick_add 64 (Dyadic false 0 (2 ^ 63)) (Dyadic false 100 (2 ^ 63))) with (Dyadic false 0 (2 ^ 63)) by (vm_compute; reflexivity).
  rewrite Rabs_same_sign by (cbn; lia). rewrite Rabs_dyval by (cbn; lia). cbn [dmant dexp].
  change (bpow radix2 0) with 1%R. rewrite (bpow_IZR 100) by lia. rewrite !Rmult_1_r. rewrite <- !mult_IZR, <- plus_IZR. apply IZR_lt. vm_compute. reflexivity.
Qed.
(** quick_mul truncates; the result is normalized and less than
    2 * WORD_COUNT units in the last place below the exact product. *)
Theorem C38_quick_mul : forall native w n a b, 2 <= w -> (native = false -> exists h, w = 2 * h) ->
  (1 <= n)%nat -> Z.of_nat n < 2 ^ w -> let B := w * Z.of_nat n in B <= 2 ^ 29 ->
  dy_ok B a -> dy_ok B b -> dy_norm B a -> dy_norm B b ->
  let r := quick_mul native w n a b in
  dsign r = xorb (dsign a) (dsign b) /\ 0 <= dmant r < 2 ^ B /\ dy_norm B r /\
  dexp a + dexp b + B - 1 <= dexp r <= dexp a + dexp b + B /\
  (0 <= Rabs (dyval a * dyval b) - Rabs (dyval r) < IZR (2 * Z.of_nat n) * bpow radix2 (dexp r))%R.
Proof. intros native w n a b Hw Hn H1 H2 B HB [A1 _] [B1 _] NA NB. apply quick_mul_spec; auto. split; [lia|auto]. Qed.
(** It is exact when both mantissas have their lower half clear. *)
Theorem C38_quick_mul_exact : forall native w n a b h, 2 <= w -> (native = false -> exists h, w = 2 * h) ->
  (1 <= n)%nat -> Z.of_nat n < 2 ^ w -> let B := w * Z.of_nat n in B <= 2 ^ 29 ->
  dy_ok B a -> dy_ok B b -> dy_norm B a -> dy_norm B b ->
  B <= 2 * h -> (2 ^ h | dmant a) -> (2 ^ h | dmant b) ->
  dyval (quick_mul native w n a b) = (dyval a * dyval b)%R.
Proof. intros native w n a b h Hw Hn H1 H2 B HB [A1 _] [B1 _] NA NB. apply quick_mul_exact; auto. split; [lia|auto]. Qed.
(** The comment at dyadic_float.hpp:639-641 promises 2 * (WORD_COUNT - 1) units
    in the last place; with two 64-bit words the error can exceed 3. *)
Theorem C38_quick_mul_doc_refuted : exists a b, dy_ok 128 a /\ dy_ok 128 b /\ dy_norm 128 a /\ dy_norm 128 b /\
  let r := quick_mul true 64 2 a b in
  (3 * bpow radix2 (dexp r) < Rabs (dyval a * dyval b) - Rabs (dyval r))%R.
Proof.
  exists (Dyadic false (-128) (2 ^ 63 * 2 ^ 64 + (2 ^ 64 - 1))), (Dyadic false (-128) ((2 ^ 63 + 1) * 2 ^ 64 + (2 ^ 64 - 1))).
  do 2 (split; [vm_compute; intuition discriminate|]). do 2 (split; [right; vm_compute; discriminate|]). cbv zeta.
  match goal with |- context [quick_mul true 64 2 ?a ?b] =>
    let r := eval vm_compute in (quick_mul true 64 2 a b) in replace (quick_mul true 64 2 a b) with r by (vm_compute; reflexivity) end.
  rewrite dyval_mul. rewrite Rabs_sg. rewrite (Rabs_dyval (Dyadic _ _ _)) by (cbn [dmant]; lia). cbn [dexp dmant].
  rewrite Rabs_pos_eq by (apply Rmult_le_pos; [apply IZR_le; vm_compute; discriminate|apply bpow_ge_0]).
  change (-128 + -128) with (-256).
  match goal with |- (3 * bpow radix2 ?e < _)%R => replace (bpow radix2 e) with (IZR (2 ^ (e + 256)) * bpow radix2 (-256))%R
    by (rewrite <- (bpow_IZR (e + 256)) by (vm_compute; discriminate); rewrite <- bpow_plus; reflexivity) end.
  rewrite <- Rmult_assoc. rewrite <- Rmult_assoc. rewrite <- Rmult_minus_distr_r.
  apply Rmult_lt_compat_r; [apply bpow_gt_0|]. rewrite <- !mult_IZR, <- minus_IZR. apply IZR_lt. vm_compute. reflexivity.
Qed.
(** pow_n: each of the at most [power] effective products loses a factor of at
    most 1 - 2 * WORD_COUNT * 2^(1-Bits). *)
Theorem C38_pow_n : forall native w n a p, 2 <= w -> (native = false -> exists h, w = 2 * h) ->
  (1 <= n)%nat -> Z.of_nat n < 2 ^ w -> let B := w * Z.of_nat n in 53 <= B <= 2 ^ 29 ->
  dy_ok B a -> dy_norm B a -> 0 <= p < 2 ^ 32 -> 2 * p * (Z.abs (dexp a) + B) < 2 ^ 31 ->
  exists r t, dy_pow_n native w n a p = Some r /\ 0 <= dmant r < 2 ^ B /\ dy_norm B r /\
    ((1 - IZR (2 * Z.of_nat n) * bpow radix2 (1 - B)) ^ Z.to_nat p <= t <= 1)%R /\ dyval r = (t * dyval a ^ Z.to_nat p)%R.
Proof.
  intros native w n a p Hw Hn H1 H2 B [HB _] [A1 _] NA Hp _.
  assert (Hm : mul2_width native w) by (split; [lia|auto]). assert (NI : nice w n a) by (split; auto).
  destruct (pow_n_spec native w n Hw Hm H1 H2 a p HB NI Hp) as (r & t & E1 & [E2 E2'] & E3 & E4). exists r, t. auto.
Qed.
(** rounded_mul and rounded_div: one rounding to Bits significant bits. *)
Theorem C38_rounded_mul : forall dm B a b, 2 <= B <= 2 ^ 29 -> dy_ok B a -> dy_ok B b -> dy_norm B a -> dy_norm B b ->
  exists r, rounded_mul dm B a b = Some r /\ dyval r = round_bits B dm (dyval a * dyval b) /\
    dsign r = xorb (dsign a) (dsign b) /\ 0 <= dmant r < 2 ^ B /\ dy_norm B r.
Proof. intros dm B a b [HB _] [H1 _] [H2 _]. apply rounded_mul_spec; auto. Qed.
Theorem C38_rounded_div : forall dm B a b, 2 <= B <= 2 ^ 29 -> dy_ok B a -> dy_ok B b -> dy_norm B a -> dy_norm B b ->
  dmant b <> 0 ->
  exists r, rounded_div dm B a b = Some r /\ dyval r = round_bits B dm (dyval a / dyval b) /\
    dsign r = xorb (dsign a) (dsign b) /\ 0 <= dmant r < 2 ^ B /\ dy_norm B r.
Proof. intros dm B a b [HB _] [H1 _] [H2 _]. apply rounded_div_spec; auto. Qed.
(** Hypotheses: 3/4 and 5/8 in 128 bits.  Sum 11/8, difference 1/8, product
    15/32, square 9/16, quotient 6/5 rounded. *)
Example C38_case :
  let a := Dyadic false (-128) (3 * 2 ^ 126) in let b := Dyadic false (-128) (5 * 2 ^ 125) in
  dy_ok 128 a /\ dy_ok 128 b /\ dy_norm 128 a /\ dy_norm 128 b /\
  quick_add 128 a b = Dyadic false (-127) (11 * 2 ^ 124) /\
  quick_sub 128 a b = Dyadic false (-130) (2 ^ 127) /\
  quick_mul true 64 2 a b = Dyadic false (-129) (15 * 2 ^ 124) /\
  quick_mul false 64 2 a b = Dyadic false (-129) (15 * 2 ^ 124) /\ (2 ^ 64 | dmant a) /\ (2 ^ 64 | dmant b) /\
  dy_pow_n true 64 2 a 2 = Some (Dyadic false (-128) (9 * 2 ^ 124)) /\
  rounded_mul RNE 128 a b = Some (Dyadic false (-129) (15 * 2 ^ 124)) /\
  rounded_div RDN 128 a b = Some (Dyadic false (-127) (3 * 2 ^ 128 / 5)) /\
  rounded_div RUP 128 a b = Some (Dyadic false (-127) (3 * 2 ^ 128 / 5 + 1)).
Proof.
  cbv zeta. do 2 (split; [vm_compute; intuition discriminate|]). do 2 (split; [right; vm_compute; discriminate|]).
  repeat match goal with |- _ /\ _ => split end;
    first [vm_compute; reflexivity | exists (3 * 2 ^ 62); vm_compute; reflexivity | exists (5 * 2 ^ 61); vm_compute; reflexivity].
Qed.

(* C39 *)
(** [rounding_direction] is the sign of (rounded magnitude) - (exact magnitude)
    when [v / 2^s] is rounded to an integer in the requested mode. *)
Theorem C39_rounding_direction : forall dm B v s neg, 2 <= B -> 0 <= v < 2 ^ B -> 0 <= s ->
  (s = 1 -> dm <> RNE) -> (B <= s -> dm = RNE \/ dm = RZR) ->
  rounding_direction dm B v s neg =
    Some (Z.sgn (Z.abs (rnd dm ((if neg then -1 else 1) * (IZR v * bpow radix2 (- s)))) * 2 ^ s - v)).
Proof.
  intros dm B v s neg HB Hv Hs H1 H2. apply rounding_direction_spec; auto. unfold dir_ok.
  destruct (Z.eq_dec s 0); [auto|]. right. destruct (Z.eq_dec s 1) as [->|N]; [auto|].
  destruct (Z_lt_le_dec s B); [left; lia|right; right; auto].
Qed.
(** Outside that range: rounding the positive 1/2^64 upward is reported as
    "down", and a tie after a shift by one runs into a shift by Bits, which is
    undefined. *)
Theorem C39_directed_refuted : exists B v s, 2 <= B /\ 0 <= v < 2 ^ B /\
  rounding_direction RUP B v s false = Some (-1) /\ rnd RUP (IZR v * bpow radix2 (- s)) = 1 /\ 1 * 2 ^ s - v > 0.
Proof.
  exists 64, 1, 64. split; [lia|]. split; [lia|]. split; [vm_compute; reflexivity|]. split; [|lia].
  apply Zceil_imp. rewrite Rmult_1_l. change (bpow radix2 (- (64))) with (/ IZR (2 ^ 64))%R.
  assert (0 < / IZR (2 ^ 64))%R by (apply Rinv_0_lt_compat, IZR_lt; lia). split; [exact H|].
  rewrite <- Rinv_1. apply Rinv_le; [lra|]. apply IZR_le. lia.
Qed.
Theorem C39_shift_one_refuted : forall B, 2 <= B -> rounding_direction RNE B 1 1 false = None.
Proof.
  intros B HB. unfold rounding_direction. replace ((0 <? 1) && (1 <? B)) with true by (symmetry; apply andb_true_iff; split; apply Z.ltb_lt; lia).
  destruct (ushl_zero B 1 (B - 1) ltac:(lia) ltac:(lia)) as (t & -> & Et). cbn [bindo]. rewrite Et.
  replace (B - (B - 1)) with 1 by lia. replace (B <=? 1) with false by lia. replace (1 <? B) with true by lia.
  cbn [orb andb]. change (1 =? 0) with false. change (1 mod 2 ^ 1 =? 0) with false. cbn [orb andb].
  change (0 <? 1) with true. replace (1 <=? B) with true by lia. cbn [andb]. change (Z.testbit 1 (1 - 1)) with true. change (Z.testbit 1 1) with false. cbv iota.
  unfold ushl. replace (B - 1 + 1) with B by lia. rewrite Z.ltb_irrefl, andb_false_r. reflexivity.
Qed.
(** 7/4 in 64 bits: nearest is 2 (up), toward zero 1 (down); 4/4 is exact. *)
Example C39_case :
  rounding_direction RNE 64 7 2 false = Some 1 /\ rounding_direction RZR 64 7 2 false = Some (-1) /\
  rounding_direction RUP 64 5 2 true = Some (-1) /\ rounding_direction RDN 64 5 2 true = Some 1 /\
  rounding_direction RNE 64 6 2 false = Some 1 /\ rounding_direction RNE 64 10 2 false = Some (-1) /\
  rounding_direction RUP 64 4 2 false = Some 0.
Proof. repeat match goal with |- _ /\ _ => split end; vm_compute; reflexivity. Qed.

Print Assumptions C36_generic_as.
Print Assumptions C36_fast_as.
Print Assumptions C36_as_mantissa_type.
Print Assumptions C36_as_mantissa_type_rounded.
Print Assumptions C36_as_mantissa_type_rounded_refuted.
Print Assumptions C37_normalize.
Print Assumptions C37_make.
Print Assumptions C37_from_float.
Print Assumptions C37_shift_left.
Print Assumptions C37_shift_right.
Print Assumptions C37_neg.
Print Assumptions C37_mul_pow_2.
Print Assumptions C38_quick_add_same.
Print Assumptions C38_quick_add_opposite.
Print Assumptions C38_quick_add_bound.
Print Assumptions C38_quick_sub_bound.
Print Assumptions C38_quick_add_bound_refuted.
Print Assumptions C38_quick_add_exponent_refuted.
Print Assumptions C38_quick_mul.
Print Assumptions C38_quick_mul_exact.
Print Assumptions C38_quick_mul_doc_refuted.
Print Assumptions C38_pow_n.
Print Assumptions C38_rounded_mul.
Print Assumptions C38_rounded_div.
Print Assumptions C39_rounding_direction.
Print Assumptions C39_directed_refuted.
Print Assumptions C39_shift_one_refuted.
