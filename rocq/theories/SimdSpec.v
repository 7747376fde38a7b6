(** * Vocabulary for the statements about the data-parallel types

    Independent of the model: a vector is the list of its lanes, a mask is the
    list of the booleans it stands for. *)
From Coq Require Import ZArith Bool List.
Import ListNotations.
Open Scope Z_scope.

(** The booleans a mask's lanes stand for: a lane is set when it is not zero. *)
Definition mlanes (m : list Z) : list bool := map (fun x => negb (x =? 0)) m.
(** A well-formed mask of [n] lanes: every lane is all zeros or all ones ([w] bits). *)
Definition mask_ok (w : Z) (n : nat) (m : list Z) : Prop :=
  length m = n /\ Forall (fun x => x = 0 \/ x = 2 ^ w - 1) m.
(** A vector of [n] lanes of [w] bits. *)
Definition vec_ok (w : Z) (n : nat) (v : list Z) : Prop := length v = n /\ Forall (fun x => 0 <= x < 2 ^ w) v.
(** Lane-wise choice. *)
Fixpoint choose (m : list bool) (a b : list Z) : list Z :=
  match m, a, b with
  | c :: m', x :: a', y :: b' => (if c then x else y) :: choose m' a' b'
  | _, _, _ => []
  end.
(** Lane-wise combination of two lists. *)
Fixpoint zip {A B C} (f : A -> B -> C) (a : list A) (b : list B) : list C :=
  match a, b with
  | x :: a', y :: b' => f x y :: zip f a' b'
  | _, _ => []
  end.
(** The lanes a mask selects, in order. *)
Fixpoint selected (m : list bool) (v : list Z) : list Z :=
  match m, v with
  | true :: m', x :: v' => x :: selected m' v'
  | false :: m', _ :: v' => selected m' v'
  | _, _ => []
  end.
(** The sum of the lanes. *)
Definition sumZ (v : list Z) : Z := fold_right Z.add 0 v.
(** [r] is a least (greatest) lane of [v] in the order whose strict part is [lt]. *)
Definition is_least (lt : Z -> Z -> bool) (v : list Z) (r : Z) : Prop := In r v /\ forall x, In x v -> lt x r = false.
Definition is_greatest (lt : Z -> Z -> bool) (v : list Z) (r : Z) : Prop := In r v /\ forall x, In x v -> lt r x = false.
