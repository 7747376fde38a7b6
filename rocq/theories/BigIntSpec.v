(** * Specifications used for the multiword integers *)
From Coq Require Import ZArith Bool List.
Open Scope Z_scope.

(** [r] is the one-based position, counted from the most (least) significant
    end, of the first bit equal to [be] among the [W] bits of [v]; 0 if there is
    no such bit. *)
Definition first_from_top (be : bool) (W v r : Z) : Prop :=
  (r = 0 /\ forall i, 0 <= i < W -> Z.testbit v i = negb be) \/
  (1 <= r <= W /\ Z.testbit v (W - r) = be /\ forall i, W - r < i < W -> Z.testbit v i = negb be).
Definition first_from_bottom (be : bool) (W v r : Z) : Prop :=
  (r = 0 /\ forall i, 0 <= i < W -> Z.testbit v i = negb be) \/
  (1 <= r <= W /\ Z.testbit v (r - 1) = be /\ forall i, 0 <= i < r - 1 -> Z.testbit v i = negb be).

(** A [BigInt] object of [n] words of [w] bits (least significant word first)
    holding the unsigned integer [v], [0 <= v < 2^(w n)]. *)
Fixpoint words_value (w : Z) (l : list Z) : Z :=
  match l with nil => 0 | d :: t => d + 2 ^ w * words_value w t end.
Definition holds (w : Z) (n : nat) (l : list Z) (v : Z) : Prop :=
  Forall (fun d => 0 <= d < 2 ^ w) l /\ length l = n /\ words_value w l = v.

(** The integer denoted by the bit pattern [v] of a [W]-bit object, two's
    complement if [sgn]. *)
Definition denotes (sgn : bool) (W v : Z) : Z :=
  if sgn && (2 ^ (W - 1) <=? v) then v - 2 ^ W else v.
