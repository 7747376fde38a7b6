(** * C87: DyadicFloat multiply_add *)
From Coq Require Import ZArith Reals Bool Lia Lra.
From Flocq Require Import Core.
From Verif Require Import MachInt Fmt FloatSpec FOps Dyadic DyadicSpec FmtProofs BigIntMul FmanipWide DyadicProofs DyadicFast DyadicArith DyadicQuick DyadicMA.
Open Scope Z_scope.

(** c + a b with an error of 4 WORD_COUNT + 4 units 2^-Bits of |c| + |a b|, provided the addend, if it has the sign of the
    product, is not smaller than the product by the whole width. *)
Theorem C87_multiply_add : forall native w n a b c, 2 <= w -> (native = false -> exists h, w = 2 * h) ->
  (1 <= n)%nat -> Z.of_nat n < 2 ^ w -> let B := w * Z.of_nat n in
  dy_ok B a -> dy_ok B b -> dy_ok B c -> dy_norm B a -> dy_norm B b -> dy_norm B c ->
  (dsign c = xorb (dsign a) (dsign b) -> dmant c <> 0 -> dexp a + dexp b < dexp c) ->
  (Rabs (dyval (dy_multiply_add native w n a b c) - (dyval c + dyval a * dyval b)) <=
   IZR (4 * Z.of_nat n + 4) * bpow radix2 (- B) * (Rabs (dyval c) + Rabs (dyval a * dyval b)))%R.
Proof. intros native w n a b c Hw Hh Hn HK B [A _] [A' _] [A'' _]. apply multiply_add_spec; auto. split; [lia|auto]. Qed.
(** Without that condition the product is lost: 2^63 + (2^63 2^100) 2^63 is computed as 2^63. *)
Theorem C87_small_addend_refuted : exists a b c, dy_ok 64 a /\ dy_ok 64 b /\ dy_ok 64 c /\ dy_norm 64 a /\ dy_norm 64 b /\ dy_norm 64 c /\
  dy_multiply_add true 64 1 a b c = c /\ (dyval c < dyval a * dyval b / 1024)%R.
Proof.
  exists (Dyadic false 100 (2 ^ 63)), (Dyadic false 0 (2 ^ 63)), (Dyadic false 0 (2 ^ 63)).
  do 3 (split; [vm_compute; intuition discriminate|]). do 3 (split; [right; vm_compute; discriminate|]).
  split; [vm_compute; reflexivity|].
  assert (H : (0 < IZR (2 ^ 63))%R) by (apply IZR_lt; reflexivity).
  rewrite !dyval_sg. cbn [dsign dexp dmant FmtProofs.sg]. change (bpow radix2 0) with 1%R. rewrite (bpow_IZR 100) by lia.
  assert (1024 <= IZR (2 ^ 63))%R by (apply IZR_le; vm_compute; discriminate).
  assert (2048 <= IZR (2 ^ 100))%R by (apply IZR_le; vm_compute; discriminate). set (x := IZR (2 ^ 63)) in *. set (y := IZR (2 ^ 100)) in *.
  assert (2048 * x <= y * x)%R by (apply Rmult_le_compat_r; lra). assert (x * y * 1 <= x * y * x)%R by (apply Rmult_le_compat_l; nra). nra.
Qed.
(** Two cases that meet the condition: opposite signs, 5 2^255 - 3 2^255; equal signs, 5 2^255 + 2^264. *)
Example C87_ex : let a := Dyadic true (-3) (3 * 2 ^ 126) in let b := Dyadic false 5 (2 ^ 127) in let c := Dyadic false 130 (5 * 2 ^ 125) in
  (dy_ok 128 a /\ dy_ok 128 b /\ dy_ok 128 c) /\ (dy_norm 128 a /\ dy_norm 128 b /\ dy_norm 128 c) /\
  dsign c <> xorb (dsign a) (dsign b) /\ dsign c = xorb (dsign b) (dsign b) /\ dexp b + dexp b < dexp c /\
  dy_multiply_add true 64 2 a b c = Dyadic false 129 (2 ^ 127) /\
  dy_multiply_add true 64 2 b b c = Dyadic false 137 (2 ^ 127 + 5 * 2 ^ 118).
Proof.
  cbv zeta. split; [repeat split; vm_compute; discriminate + reflexivity|]. split; [repeat split; right; vm_compute; discriminate|].
  repeat split; vm_compute; congruence + reflexivity.
Qed.

Print Assumptions C87_multiply_add.
Print Assumptions C87_small_addend_refuted.
