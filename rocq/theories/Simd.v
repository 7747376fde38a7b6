(** * Model of the data-parallel types of ccmath/internal/math/runtime/pp

    A vector of N lanes is the list of its N lane patterns, lane 0 first; a
    mask lane is a pattern of [w] bits, 0 or all ones, as in
    pp/vec_ext.hpp:84 and pp/declaration.hpp:41-67.  Two back ends are
    modelled: the GNU vector types (pp/vec_ext.hpp:79-318) and the portable
    array (pp/vec_ext.hpp:319-531); the one-lane scalar back end
    (pp/scalar.hpp:24-105) is modelled where it differs from a list of length
    one.  The MSVC intrinsic back end and the compiler's vector reductions of
    floating-point lanes are not modelled.  The element operations of T (its
    comparisons and arithmetic) are parameters, instantiated in the theorems
    with the integer and floating-point ones. *)
From Coq Require Import ZArith Bool List.
Import ListNotations.
From Verif Require Import MachInt.
Open Scope Z_scope.

(** Lane access v[i] (pp/vec_ext.hpp:96, 337), i < N. *)
Definition lane (v : list Z) (i : nat) : Z := nth i v 0.
(** Lane assignment v[i] = x (pp/vec_ext.hpp:97, 338; pp/reference.hpp:34-38). *)
Fixpoint upd {A} (v : list A) (i : nat) (x : A) : list A :=
  match v, i with
  | [], _ => []
  | _ :: t, O => x :: t
  | a :: t, S j => a :: upd t j x
  end.
(** pp/utility.hpp:34-41 [detail::unroll<N>]: the body for the indices 0 .. N-1 in order. *)
Definition unroll {A} (n : nat) (body : nat -> A -> A) (s : A) : A := fold_left (fun s i => body i s) (seq 0 n) s.
(** "SimdMember r; unroll<N>(r[i] = f i); return r": [r] starts with indeterminate lanes [junk]. *)
Definition fill (junk : list Z) (f : nat -> Z) : list Z := unroll (length junk) (fun i r => upd r i (f i)) junk.

Section Mask.
Context (w : Z).
(** pp/vec_ext.hpp:126, 131: [b ? static_cast<MaskInt>(-1) : MaskInt{0}]. *)
Definition mask_int (b : bool) : Z := if b then unot w 0 else 0.
(** pp/vec_ext.hpp:123-129, 381-387. *)
Definition mbroadcast (junk : list Z) (b : bool) : list Z := fill junk (fun _ => mask_int b).
(** pp/vec_ext.hpp:130, 388. *)
Definition mget (m : list Z) (i : nat) : bool := negb (lane m i =? 0).
(** pp/vec_ext.hpp:131, 389. *)
Definition mset (m : list Z) (i : nat) (b : bool) : list Z := upd m i (mask_int b).
(** pp/vec_ext.hpp:132-135, 390-413; the unassigned result is filled lane by lane, starting from the left operand here. *)
Definition mand (a b : list Z) : list Z := fill a (fun i => Z.land (lane a i) (lane b i)).
Definition mor (a b : list Z) : list Z := fill a (fun i => Z.lor (lane a i) (lane b i)).
Definition mxor (a b : list Z) : list Z := fill a (fun i => Z.lxor (lane a i) (lane b i)).
Definition mnot (a : list Z) : list Z := fill a (fun i => unot w (lane a i)).
(** pp/simd_mask.hpp:88-91. *)
Definition mask_eq (a b : list Z) : list Z := mnot (mxor a b).
Definition mask_ne (a b : list Z) : list Z := mxor a b.
(** pp/vec_ext.hpp:116-121, 366-379: [op] is one of the six comparisons of T. *)
Definition vcmp (op : Z -> Z -> bool) (a b : list Z) : list Z := fill a (fun i => mask_int (op (lane a i) (lane b i))).

(** pp/vec_ext.hpp:144-146, 415-420. *)
Definition all_of_loop (m : list Z) : bool := unroll (length m) (fun i r => r && negb (lane m i =? 0)) true.
(** pp/vec_ext.hpp:142 [__builtin_reduce_and(m) != 0]: the bitwise and of the lanes. *)
Definition all_of_red (m : list Z) : bool := negb (fold_left Z.land m (unot w 0) =? 0).
(** pp/vec_ext.hpp:154-156, 421-426. *)
Definition any_of_loop (m : list Z) : bool := unroll (length m) (fun i r => r || negb (lane m i =? 0)) false.
(** pp/vec_ext.hpp:152 [__builtin_reduce_or(m) != 0]. *)
Definition any_of_red (m : list Z) : bool := negb (fold_left Z.lor m 0 =? 0).
(** pp/vec_ext.hpp:159-164, 427-432. *)
Definition popcount (m : list Z) : Z := unroll (length m) (fun i r => r + (if negb (lane m i =? 0) then 1 else 0)) 0.

(** pp/mask_reductions.hpp:31-33. *)
Definition none_of_loop (m : list Z) : bool := negb (any_of_loop m).
Definition none_of_red (m : list Z) : bool := negb (any_of_red m).
(** pp/mask_reductions.hpp:40-48: [n] is the number of lanes still to visit, from lane [i] on. *)
Fixpoint min_index_from (m : list Z) (i n : nat) : nat :=
  match n with
  | O => length m
  | S n' => if mget m i then i else min_index_from m (S i) n'
  end.
Definition reduce_min_index (m : list Z) : nat := min_index_from m 0 (length m).
(** pp/mask_reductions.hpp:49-57: lanes [k]-1 down to 0 still to visit. *)
Fixpoint max_index_below (m : list Z) (k : nat) : nat :=
  match k with
  | O => length m
  | S i => if mget m i then i else max_index_below m i
  end.
Definition reduce_max_index (m : list Z) : nat := max_index_below m (length m).

(** pp/simd_mask.hpp:56-64; the shift of 1ull is undefined from lane 64 on. *)
Definition to_ullong (m : list Z) : option Z :=
  unroll (length m) (fun i r => do bits <- r;
    if mget m i then do s <- ushl 64 1 (Z.of_nat i); Some (Z.lor bits s) else Some bits) (Some 0).
(** pp/simd_mask.hpp:67-72; [junk] is the indeterminate initial content of [r]. *)
Definition from_bits (junk : list Z) (bits : Z) : option (list Z) :=
  unroll (length junk) (fun i r => do r <- r; do s <- ushr 64 bits (Z.of_nat i); Some (mset r i (negb (Z.land s 1 =? 0)))) (Some junk).

(** pp/vec_ext.hpp:169-175: the branch-free blend of the GNU vector back end. *)
Definition select_bits (m a b : list Z) : list Z :=
  fill a (fun i => Z.lor (Z.land (lane m i) (lane a i)) (Z.land (unot w (lane m i)) (lane b i))).
(** pp/vec_ext.hpp:434-439: the array back end. *)
Definition select_lanes (m a b : list Z) : list Z := fill a (fun i => if negb (lane m i =? 0) then lane a i else lane b i).
End Mask.

(** ** Element-wise operations and reductions *)

(** pp/vec_ext.hpp:107-111, 178-184, 347-365, 441-461 and pp/simd_math.hpp:33-46: [op] applied in every lane. *)
Definition vmap1 (op : Z -> Z) (a : list Z) : list Z := fill a (fun i => op (lane a i)).
Definition vmap2 (op : Z -> Z -> Z) (a b : list Z) : list Z := fill a (fun i => op (lane a i) (lane b i)).
(** pp/vec_ext.hpp:90-95, 331-336. *)
Definition broadcast (junk : list Z) (x : Z) : list Z := fill junk (fun _ => x).

(** pp/vec_ext.hpp:274-275: min and max of the GNU vector back end. *)
Definition op_min_vec (w : Z) (lt : Z -> Z -> bool) (a b : list Z) : list Z := select_bits w (vcmp w lt a b) a b.
Definition op_max_vec (w : Z) (lt : Z -> Z -> bool) (a b : list Z) : list Z := select_bits w (vcmp w lt b a) a b.
(** pp/vec_ext.hpp:497-508 and pp/scalar.hpp:97-98: min and max of the array and scalar back ends. *)
Definition op_min_arr (lt : Z -> Z -> bool) (a b : list Z) : list Z :=
  fill a (fun i => if lt (lane a i) (lane b i) then lane a i else lane b i).
Definition op_max_arr (lt : Z -> Z -> bool) (a b : list Z) : list Z :=
  fill a (fun i => if lt (lane a i) (lane b i) then lane b i else lane a i).

(** pp/vec_ext.hpp:287-289, 510-515; [zero] is T(0). *)
Definition hadd (add : Z -> Z -> Z) (zero : Z) (v : list Z) : Z := unroll (length v) (fun i s => add s (lane v i)) zero.
(** pp/scalar.hpp:101: the one-lane back end returns its lane. *)
Definition hadd_scalar (v : list Z) : Z := lane v 0.
(** pp/vec_ext.hpp:297-299, 516-521. *)
Definition hmin (lt : Z -> Z -> bool) (v : list Z) : Z :=
  unroll (length v) (fun i s => if lt (lane v i) s then lane v i else s) (lane v 0).
(** pp/vec_ext.hpp:307-309, 522-527. *)
Definition hmax (lt : Z -> Z -> bool) (v : list Z) : Z :=
  unroll (length v) (fun i s => if lt s (lane v i) then lane v i else s) (lane v 0).
(** pp/reduce.hpp:57-63 [reduce(v, op)]. *)
Definition reduce_op (op : Z -> Z -> Z) (v : list Z) : Z :=
  fold_left (fun acc i => op acc (lane v i)) (seq 1 (length v - 1)) (lane v 0).
(** pp/reduce.hpp:73-80 [reduce(v, m, identity, op)], over the blend [sel] of the back end. *)
Definition reduce_masked (sel : list Z -> list Z -> list Z -> list Z) (op : Z -> Z -> Z) (v m : list Z) (identity : Z) : Z :=
  reduce_op op (sel m v (broadcast v identity)).
(** pp/reduce.hpp:81-86; [identity] is reduce_min_identity / reduce_max_identity (28-47). *)
Definition reduce_min_masked (sel : list Z -> list Z -> list Z -> list Z) (lt : Z -> Z -> bool) (identity : Z) (v m : list Z) : Z :=
  hmin lt (sel m v (broadcast v identity)).
Definition reduce_max_masked (sel : list Z -> list Z -> list Z -> list Z) (lt : Z -> Z -> bool) (identity : Z) (v m : list Z) : Z :=
  hmax lt (sel m v (broadcast v identity)).

(** ** where expressions *)

(** pp/where.hpp:42: [where(m, v) = rhs]; 45-48: [where(m, v) op= rhs]. *)
Definition where_assign (sel : list Z -> list Z -> list Z -> list Z) (m v rhs : list Z) : list Z := sel m rhs v.
Definition where_op (sel : list Z -> list Z -> list Z -> list Z) (op : Z -> Z -> Z) (m v rhs : list Z) : list Z :=
  sel m (vmap2 op v rhs) v.
(** Memory as seen from the pointer: element [i] is [None] when it may not be accessed. *)
Definition mem := nat -> option Z.
Definition mem_set (p : mem) (i : nat) (x : Z) : mem := fun j => if Nat.eqb j i then Some x else p j.
(** pp/where.hpp:51-58: reading an inaccessible element is undefined. *)
Definition where_copy_from (m v : list Z) (p : mem) : option (list Z) :=
  unroll (length v) (fun i r => do v' <- r; if mget m i then do x <- p i; Some (upd v' i x) else Some v') (Some v).
(** pp/where.hpp:60-67, 83-90. *)
Definition where_copy_to (m v : list Z) (p : mem) : option mem :=
  unroll (length v) (fun i r => do p' <- r; if mget m i then do _ <- p' i; Some (mem_set p' i (lane v i)) else Some p') (Some p).

(** ** Concatenation and splitting *)

(** pp/simd_cat.hpp:38: one operand written at offset [off]. *)
Definition write_at (r : list Z) (off : nat) (x : list Z) : list Z :=
  unroll (length x) (fun i r => upd r (off + i) (lane x i)) r.
(** pp/simd_cat.hpp:29-43; [junk] is the indeterminate initial result. *)
Definition simd_cat (junk : list Z) (xs : list (list Z)) : list Z :=
  fst (fold_left (fun st x => (write_at (fst st) (snd st) x, (snd st + length x)%nat)) xs (junk, 0%nat)).
(** pp/simd_cat.hpp:45-57; [junk] is the indeterminate initial content of one part. *)
Definition simd_split (junk v : list Z) : list (list Z) :=
  let k := length junk in
  fst (fold_left (fun st _ => (fst st ++ [fill junk (fun i => lane v (snd st + i))], (snd st + k)%nat))
         (seq 0 (length v / k)) ([], 0%nat)).
(** pp/simd_cat.hpp:59-74. *)
Definition mask_cat (w : Z) (junk : list Z) (xs : list (list Z)) : option (list Z) :=
  do bits <- fst (fold_left (fun st x => ((do bits <- fst st; do u <- to_ullong x; do s <- ushl 64 u (snd st); Some (Z.lor bits s)),
                                          snd st + Z.of_nat (length x))) xs (Some 0, 0));
  from_bits w junk bits.
(** pp/simd_cat.hpp:76-89. *)
Definition mask_split (w : Z) (junk m : list Z) : option (list (list Z)) :=
  let k := length junk in
  do bits <- to_ullong m;
  fst (fold_left (fun st _ => ((do out <- fst st; do s <- ushr 64 bits (snd st); do p <- from_bits w junk s; Some (out ++ [p])),
                               snd st + Z.of_nat k))
         (seq 0 (length m / k)) (Some [], 0)).

(** pp/simd_math.hpp:76-80: abs of a signed integral lane of [w] bits: T below int is negated as int and converted
    back; T = int or wider overflows on its minimum. [x] is the lane value. *)
Definition simd_abs_lane (w x : Z) : option Z :=
  if x <? 0 then (if w <? 32 then Some (to_signed w (wrap w (- x))) else sarith w (- x)) else Some x.
