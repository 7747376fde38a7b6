(** * Specification vocabulary for bit-level functions

    Independent of the model: plain statements about [Z.testbit]. *)
From Coq Require Import ZArith Lia Bool List.
Import ListNotations.
Open Scope Z_scope.

(** [n] is the number of consecutive zero bits of the [w]-bit value [v],
    counted from bit 0. *)
Definition trailing_zeros (w v n : Z) : Prop :=
  0 <= n <= w /\
  (forall i, 0 <= i < n -> Z.testbit v i = false) /\
  (n < w -> Z.testbit v n = true).

(** [n] is the number of consecutive zero bits of [v] counted from bit [w-1]
    downwards. *)
Definition leading_zeros (w v n : Z) : Prop :=
  0 <= n <= w /\
  (forall i, w - n <= i < w -> Z.testbit v i = false) /\
  (n < w -> Z.testbit v (w - 1 - n) = true).

Definition trailing_ones (w v n : Z) : Prop :=
  0 <= n <= w /\
  (forall i, 0 <= i < n -> Z.testbit v i = true) /\
  (n < w -> Z.testbit v n = false).

Definition leading_ones (w v n : Z) : Prop :=
  0 <= n <= w /\
  (forall i, w - n <= i < w -> Z.testbit v i = true) /\
  (n < w -> Z.testbit v (w - 1 - n) = false).

(** Number of set bits among bits [0 .. k-1]. *)
Fixpoint bit_sum (k : nat) (v : Z) : Z :=
  match k with
  | O => 0
  | S k' => (if Z.testbit v (Z.of_nat k') then 1 else 0) + bit_sum k' v
  end.

Definition power_of_two (x : Z) : Prop := exists k, 0 <= k /\ x = 2 ^ k.

(** [r] is [v] with its [w] bits rotated left by [c] places ([c] any integer). *)
Definition rotated_left (w v c r : Z) : Prop :=
  0 <= r < 2 ^ w /\
  forall i, 0 <= i < w -> Z.testbit r i = Z.testbit v ((i - c) mod w).
