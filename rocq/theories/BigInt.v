(** * Model of internal/types/big_int.hpp

    A [BigInt<Bits, Signed, WordType>] is the list of its words, least
    significant first ([val[0]] is the head); [w] is [WORD_SIZE], the length of
    the list is [WORD_COUNT].  Signedness is a boolean argument where the code
    distinguishes it.  Array accesses are [nth i l 0]; all accesses of the
    modelled loops are inside the array. *)

From Coq Require Import ZArith Lia Bool List.
From Verif Require Import MachInt Bits.
Import ListNotations.
Open Scope Z_scope.

Definition words := list Z.

(** Read word [i]: big_int.hpp:1292-1296 [operator[]]. *)
Definition wget (l : words) (i : nat) : Z := nth i l 0.

(** Write word [i] (assignment [val[i] = x]). *)
Fixpoint wset (l : words) (i : nat) (x : Z) : words :=
  match l, i with
  | nil, _ => nil
  | _ :: t, O => x :: t
  | h :: t, S i' => h :: wset t i' x
  end.

(** big_int.hpp:106-112 [split]: (lo, hi) half-width parts of a [2*h]-bit value. *)
Definition split (h v : Z) : Z * Z := (wrap h v, wrap h (Z.shiftr v h)).

(** big_int.hpp:171-190 [mul2], branches with a native double-width type:
    the product in the double-width type, split into (lo, hi). *)
Definition mul2_native (w a b : Z) : words :=
  let '(lo, hi) := split w (wrap (2 * w) (a * b)) in [lo; hi].

(** big_int.hpp:191-225 [mul2], portable branch: four half-word products.
    [w] even, half word [h = w/2]. *)
Definition mul2_portable (w a b : Z) : words :=
  let h := w / 2 in
  let '(lhs_lo, lhs_hi) := split h a in
  let '(rhs_lo, rhs_hi) := split h b in
  let step1 := wrap w (rhs_lo * lhs_lo) in
  let step2 := wrap w (rhs_lo * lhs_hi) in
  let step3 := wrap w (rhs_hi * lhs_lo) in
  let step4 := wrap w (rhs_hi * lhs_hi) in
  let shiftl := fun v => wrap w (Z.shiftl v h) in
  let shiftr := fun v => Z.shiftr v h in
  let '(lo, carry) := add_with_carry w step1 (shiftl step2) 0 in
  let '(hi, _) := add_with_carry w step4 (shiftr step2) carry in
  let '(lo, carry) := add_with_carry w lo (shiftl step3) 0 in
  let '(hi, _) := add_with_carry w hi (shiftr step3) carry in
  [lo; hi].

(** big_int.hpp:243-259 [inplace_binop]: returns the new [dst] and the carry.
    The loop over [i < N] is the recursion over [dst]; the early [break] when
    [rhs] is exhausted and the carry is zero leaves the rest of [dst]. *)
Fixpoint inplace_binop (op : Z -> Z -> Z -> Z * Z) (dst rhs : words) (carry : Z)
  : words * Z :=
  match dst with
  | nil => (nil, carry)
  | d :: dst' =>
      match rhs with
      | r :: rhs' =>
          let '(v, c) := op d r carry in
          let '(rest, cout) := inplace_binop op dst' rhs' c in
          (v :: rest, cout)
      | nil =>
          let '(v, c) := op d 0 carry in
          if c =? 0 then (v :: dst', c)
          else let '(rest, cout) := inplace_binop op dst' nil c in (v :: rest, cout)
      end
  end.

(** big_int.hpp:274-276 [multiword::add_with_carry]. *)
Definition mw_add (w : Z) (dst rhs : words) : words * Z :=
  inplace_binop (add_with_carry w) dst rhs 0.

(** big_int.hpp:291-293 [multiword::sub_with_borrow]. *)
Definition mw_sub (w : Z) (dst rhs : words) : words * Z :=
  inplace_binop (sub_with_borrow w) dst rhs 0.

(** big_int.hpp:308-310 [mul_add_with_carry] on a two-word accumulator;
    [native] selects the [mul2] branch. *)
Definition mul2 (native : bool) (w a b : Z) : words :=
  if native then mul2_native w a b else mul2_portable w a b.
Definition mul_add_with_carry (native : bool) (w : Z) (acc : words) (b c : Z) : words * Z :=
  mw_add w acc (mul2 native w b c).

(** big_int.hpp:319-357 [Accumulator]: two words, [advance], [sum], [carry]. *)
Definition acc_init : words := [0; 0].
Definition acc_advance (acc : words) (carry_in : Z) : Z * words :=
  (wget acc 0, [wget acc 1; carry_in]).
Definition acc_sum (acc : words) : Z := wget acc 0.
Definition acc_carry (acc : words) : Z := wget acc 1.

(** big_int.hpp:371-381 [scalar_multiply_with_carry]. *)
Fixpoint scalar_mul_loop (native : bool) (w : Z) (dst : words) (x : Z) (acc : words)
  : words * Z :=
  match dst with
  | nil => (nil, acc_carry acc)
  | v :: dst' =>
      let '(acc, carry) := mul_add_with_carry native w acc v x in
      let '(out, acc) := acc_advance acc carry in
      let '(rest, c) := scalar_mul_loop native w dst' x acc in
      (out :: rest, c)
  end.
Definition scalar_multiply_with_carry (native : bool) (w : Z) (dst : words) (x : Z) : words * Z :=
  scalar_mul_loop native w dst x acc_init.

(** big_int.hpp:408-409 (and 433, 440) the inner loop
    [for (j = lower; j <= upper; ++j) carry += mul_add_with_carry(acc, lhs[j], rhs[i-j])]
    over [n] consecutive values of [j] starting at [j]. *)
Fixpoint column (native : bool) (w : Z) (n j i : nat) (lhs rhs acc : words) (carry : Z)
  : words * Z :=
  match n with
  | O => (acc, carry)
  | S n' =>
      let '(acc, c) := mul_add_with_carry native w acc (wget lhs j) (wget rhs (i - j)) in
      column native w n' (S j) i lhs rhs acc (wrap w (carry + c))
  end.

(** big_int.hpp:404-413 the outer loop of [multiply_with_carry] over [k]
    remaining columns starting at column [i]. *)
Fixpoint mul_loop (native : bool) (w : Z) (k i M N : nat) (lhs rhs acc : words) : words * Z :=
  match k with
  | O => (nil, acc_carry acc)
  | S k' =>
      let lower := if (i <? N)%nat then 0%nat else (i - N + 1)%nat in
      let upper := if (i <? M)%nat then i else (M - 1)%nat in
      let '(acc, carry) := column native w (S upper - lower) lower i lhs rhs acc 0 in
      let '(out, acc) := acc_advance acc carry in
      let '(rest, c) := mul_loop native w k' (S i) M N lhs rhs acc in
      (out :: rest, c)
  end.

(** big_int.hpp:400-414 [multiply_with_carry] with [O] result words. *)
Definition multiply_with_carry (native : bool) (w : Z) (O : nat) (lhs rhs : words) : words * Z :=
  mul_loop native w O 0 (length lhs) (length rhs) lhs rhs acc_init.

(** big_int.hpp:436-442 the second loop of [quick_mul_hi] over [k] remaining
    columns starting at [i]; [carry] is the running carry word. *)
Fixpoint qmh_loop (native : bool) (w : Z) (k i N : nat) (lhs rhs acc : words) (carry : Z)
  : words * words :=
  match k with
  | O => (nil, acc)
  | S k' =>
      let '(_, acc) := acc_advance acc carry in
      let '(acc, carry) := column native w (N - (i - N + 1)) (i - N + 1) i lhs rhs acc 0 in
      let '(rest, acc') := qmh_loop native w k' (S i) N lhs rhs acc carry in
      (acc_sum acc :: rest, acc')
  end.

(** big_int.hpp:427-445 [quick_mul_hi]. *)
Definition quick_mul_hi (native : bool) (w : Z) (lhs rhs : words) : words :=
  let N := length lhs in
  let '(acc, carry) := column native w N 0 (N - 1) lhs rhs acc_init 0 in
  let '(out, acc) := qmh_loop native w (N - 1) N N lhs rhs acc carry in
  out ++ [acc_carry acc].

(** big_int.hpp:455-460 [is_negative]; 1353-1354 [get_msb]. *)
Definition get_msb (w : Z) (l : words) : bool :=
  negb (Z.shiftr (last l 0) (w - 1) =? 0).

(** big_int.hpp:786-789 [is_neg]. *)
Definition is_neg (sgn : bool) (w : Z) (l : words) : bool := sgn && get_msb w l.

(** The value of a word list; used by the model only for the branch in which the
    array is [bit_cast] to a native 128-bit integer (big_int.hpp:489-501), and by
    the specifications. *)
Fixpoint bval (w : Z) (l : words) : Z :=
  match l with nil => 0 | d :: t => d + 2 ^ w * bval w t end.
Fixpoint words_of (w : Z) (n : nat) (v : Z) : words :=
  match n with O => nil | S n' => v mod 2 ^ w :: words_of w n' (v / 2 ^ w) end.

(** big_int.hpp:484-537 [shift<eLEFT, Signed>], portable part.  [out[at(index)]]
    is written for [index = 0..N-1] with [at(index) = N-index-1]; the model lists
    the words by position [p = at(index)].  [safe_get_at] returns 0 for a
    negative position; positions [>= N] do not occur on the left. *)
Definition shl_get (l : words) (p : Z) : Z :=
  if p <? 0 then 0 else wget l (Z.to_nat p).
Definition shift_left_portable (w : Z) (l : words) (offset : Z) : words :=
  if offset =? 0 then l
  else
    let N := length l in
    let index_offset := offset / w in
    let bit_offset := offset mod w in
    map (fun p =>
      let index := Z.of_nat N - Z.of_nat p - 1 in
      let at_ := fun index => Z.of_nat N - index - 1 in
      let part1 := shl_get l (at_ (index + index_offset)) in
      let part2 := shl_get l (at_ (index + index_offset + 1)) in
      if bit_offset =? 0 then part1
      else Z.lor (wrap w (Z.shiftl part1 bit_offset)) (Z.shiftr part2 (w - bit_offset)))
      (seq 0 N).

(** big_int.hpp:484-537 [shift<eRIGHT, Signed>], portable part. *)
Definition shr_get (w : Z) (isneg : bool) (l : words) (p : Z) : Z :=
  if Z.of_nat (length l) <=? p then (if isneg then 2 ^ w - 1 else 0)
  else wget l (Z.to_nat p).
Definition shift_right_portable (sgn : bool) (w : Z) (l : words) (offset : Z) : words :=
  if offset =? 0 then l
  else
    let N := length l in
    let isneg := sgn && get_msb w l in
    let index_offset := offset / w in
    let bit_offset := offset mod w in
    map (fun p =>
      let index := Z.of_nat p in
      let part1 := shr_get w isneg l (index + index_offset) in
      let part2 := shr_get w isneg l (index + index_offset + 1) in
      if bit_offset =? 0 then part1
      else Z.lor (Z.shiftr part1 bit_offset) (wrap w (Z.shiftl part2 (w - bit_offset))))
      (seq 0 N).

(** big_int.hpp:484-501 [shift] with the native 128-bit branch
    ([int128] = CCM_TYPES_HAS_INT128); on a 128-bit total the whole array is
    shifted as one native integer, arithmetic right shift when signed. *)
Definition shift_left (int128 : bool) (w : Z) (l : words) (offset : Z) : words :=
  if int128 && (Z.of_nat (length l) * w =? 128)
  then words_of w (length l) (wrap 128 (Z.shiftl (bval w l) offset))
  else shift_left_portable w l offset.
Definition shift_right (int128 sgn : bool) (w : Z) (l : words) (offset : Z) : words :=
  if int128 && (Z.of_nat (length l) * w =? 128)
  then words_of w (length l)
         (wrap 128 (Z.shiftr (if sgn then to_signed 128 (bval w l) else bval w l) offset))
  else shift_right_portable sgn w l offset.

(** big_int.hpp:539-556 DECLARE_COUNTBIT: sum the per-word counts until a word
    is not saturated.  The word order is the order of the list argument. *)
Fixpoint countbit (w : Z) (f : Z -> option Z) (l : words) : option Z :=
  match l with
  | nil => Some 0
  | v :: t =>
      do c <- f v;
      if negb (c =? w) then Some c
      else do r <- countbit w f t; Some (c + r)
  end.
Definition bi_countr_zero (w : Z) (l : words) := countbit w (countr_zero w) l.
Definition bi_countr_one (w : Z) (l : words) := countbit w (countr_one w) l.
Definition bi_countl_zero (w : Z) (l : words) := countbit w (countl_zero w) (rev l).
Definition bi_countl_one (w : Z) (l : words) := countbit w (countl_one w) (rev l).

(* ------------------------------------------------------------------ *)
(** ** class BigInt *)

(** big_int.hpp:1347-1351 [extend]: words [index ..] set to the fill value. *)
Definition extend (w : Z) (l : words) (index : nat) (isneg : bool) : words :=
  firstn index l ++ repeat (if isneg then 2 ^ w - 1 else 0) (length l - index).

Definition zero_words (n : nat) : words := repeat 0 n.

(** big_int.hpp:609-690 conversion constructor, equal word sizes
    (lines 653-664): [n] target words, [sgn]/[osgn] target/source signedness. *)
Definition convert (w : Z) (n : nat) (sgn osgn : bool) (other : words) : words :=
  let should_sign_extend := sgn && is_neg osgn w other in
  if (n <=? length other)%nat then firstn n other
  else extend w (other ++ zero_words (n - length other)) (length other) should_sign_extend.

(** big_int.hpp:626-629 (and 637-645) the inner loop that ors [k] source words
    starting at index [base] into one target word. *)
Fixpoint gather (w ow : Z) (k j base : nat) (other : words) (cur : Z) : Z :=
  match k with
  | O => cur
  | S k' => gather w ow k' (S j) base other
              (Z.lor cur (wrap w (Z.shiftl (wget other (base + j)) (ow * Z.of_nat j))))
  end.

(** big_int.hpp:618-652 conversion constructor from a smaller word size [ow],
    [w = ow * ratio].  After the loop over complete target words the code stores
    [cur_word] at index [i / ratio] and extends from [i / ratio + 1]. *)
Definition convert_up (ow : Z) (ratio : nat) (n : nat) (sgn osgn : bool) (other : words) : words :=
  let w := ow * Z.of_nat ratio in
  let should_sign_extend := sgn && is_neg osgn ow other in
  let len := length other in
  let word := fun i => gather w ow ratio 0 (i * ratio) other 0 in
  if w * Z.of_nat n <=? ow * Z.of_nat len then map word (seq 0 n)
  else
    let full := Nat.div len ratio in
    let rest := Nat.modulo len ratio in
    let ext := if should_sign_extend then 2 ^ w - 1 else 0 in
    let cur := gather w ow rest 0 (full * ratio) other 0 in
    let cur := if negb (Nat.eqb rest 0) then Z.lor cur (wrap w (Z.shiftl ext (ow * Z.of_nat rest)))
               else cur in
    map word (seq 0 full) ++ cur :: repeat ext (n - full - 1).

(** big_int.hpp:665-689 conversion constructor from a larger word size
    [ow = w * ratio]. *)
Definition convert_down (w : Z) (ratio : nat) (n : nat) (sgn osgn : bool) (other : words) : words :=
  let ow := w * Z.of_nat ratio in
  let should_sign_extend := sgn && is_neg osgn ow other in
  let word := fun i => wrap w (Z.shiftr (wget other (Nat.div i ratio)) (Z.of_nat (Nat.modulo i ratio) * w)) in
  let avail := (length other * ratio)%nat in
  if w * Z.of_nat n <=? ow * Z.of_nat (length other) then map word (seq 0 n)
  else map word (seq 0 avail) ++ repeat (if should_sign_extend then 2 ^ w - 1 else 0) (n - avail).

(** big_int.hpp:709-740 constructor from a native integer [v] of [tsize] bits
    ([v] is the mathematical value, possibly negative).  [k] words remain, the
    current index is [i]; [isneg] was computed on entry. *)
Fixpoint of_int_loop (w tsize : Z) (k : nat) (v : Z) (isneg : bool) : words :=
  match k with
  | O => nil
  | S k' =>
      if v =? 0 then repeat (if isneg then 2 ^ w - 1 else 0) (S k')
      else wrap w v ::
           of_int_loop w tsize k' (if w <? tsize then Z.shiftr v w else 0) isneg
  end.
Definition of_int (w : Z) (n : nat) (tsize v : Z) : words :=
  of_int_loop w tsize n v (v <? 0).

(** big_int.hpp:817-841 [to<T>] for an unsigned target of [tsize] bits:
    [MAX_COUNT] words are added with weight [2^(w*i)]. *)
Fixpoint to_loop (w tsize : Z) (k i : nat) (l : words) (lo : Z) : Z :=
  match k with
  | O => lo
  | S k' => to_loop w tsize k' (S i) l
              (wrap tsize (lo + wrap tsize (Z.shiftl (wrap tsize (wget l i)) (w * Z.of_nat i))))
  end.
Definition to_uint (sgn : bool) (w tsize : Z) (l : words) : Z :=
  let lo := wrap tsize (wget l 0) in
  if tsize <=? w then lo
  else
    let bits := w * Z.of_nat (length l) in
    let max_count := if bits <? tsize then length l else Z.to_nat (tsize / w) in
    let lo := to_loop w tsize (max_count - 1) 1 l lo in
    if sgn && (bits <? tsize)
    then (if is_neg sgn w l then Z.lor lo (wrap tsize (Z.shiftl (unot tsize 0) bits)) else lo)
    else lo.

(** big_int.hpp:855-862 [is_zero]. *)
Definition is_zero (l : words) : bool := forallb (fun p => p =? 0) l.

(** big_int.hpp:869-903 [add_overflow], [operator+], [operator+=]. *)
Definition bi_add_overflow (w : Z) (a b : words) : words * Z := mw_add w a b.
Definition bi_add (w : Z) (a b : words) : words := fst (mw_add w a b).

(** big_int.hpp:910-930 [sub_overflow], [operator-], [operator-=] (the errno /
    FE_OVERFLOW side effect of [-=] on borrow is not modelled). *)
Definition bi_sub_overflow (w : Z) (a b : words) : words * Z := mw_sub w a b.
Definition bi_sub (w : Z) (a b : words) : words := fst (mw_sub w a b).

(** big_int.hpp:937 [mul(WordType)]. *)
Definition bi_mul_word (native : bool) (w : Z) (a : words) (x : Z) : words * Z :=
  scalar_multiply_with_carry native w a x.

(** big_int.hpp:945-951 [ful_mul]; 956 [operator*] (truncating conversion). *)
Definition ful_mul (native : bool) (w : Z) (a b : words) : words :=
  fst (multiply_with_carry native w (length a + length b) a b).
Definition bi_mul (native : bool) (w : Z) (a b : words) : words :=
  firstn (length a) (ful_mul native w a b).

(** big_int.hpp:994-1006 [pow_n]; [expo] is a 64-bit unsigned value, so 64
    iterations of fuel suffice (out of fuel is [None]). *)
Fixpoint pow_n_loop (fuel : nat) (native : bool) (w : Z) (result cur : words) (expo : Z)
  : option words :=
  if negb (0 <? expo) then Some result
  else match fuel with
  | O => None
  | S f =>
      let result := if 0 <? expo mod 2 then bi_mul native w result cur else result in
      pow_n_loop f native w result (bi_mul native w cur cur) (Z.shiftr expo 1)
  end.
Definition pow_n (native : bool) (w : Z) (a : words) (expo : Z) : option words :=
  pow_n_loop 64 native w (of_int w (length a) 32 1) a expo.

(** big_int.hpp:1311-1328 [cmp]; [cmp_words] scans from the most significant word. *)
Definition cmp_word (a b : Z) : Z := if b <? a then 1 else if a =? b then 0 else -1.
Fixpoint cmp_words (a b : words) : Z :=
  match a, b with
  | x :: a', y :: b' => let c := cmp_word x y in if negb (c =? 0) then c else cmp_words a' b'
  | _, _ => 0
  end.
Definition cmp (sgn : bool) (w : Z) (a b : words) : Z :=
  if sgn && negb (eqb (is_neg sgn w a) (is_neg sgn w b))
  then (if is_neg sgn w b then 1 else -1)
  else cmp_words (rev a) (rev b).

(** big_int.hpp:1238-1264 [operator==] and the relational operators. *)
Fixpoint bi_eqb (a b : words) : bool :=
  match a, b with
  | x :: a', y :: b' => if negb (x =? y) then false else bi_eqb a' b'
  | _, _ => true
  end.
Definition bi_gt sgn w a b := 0 <? cmp sgn w a b.
Definition bi_ge sgn w a b := 0 <=? cmp sgn w a b.
Definition bi_lt sgn w a b := cmp sgn w a b <? 0.
Definition bi_le sgn w a b := cmp sgn w a b <=? 0.

(** big_int.hpp:1206-1229 bitwise operators. *)
Definition bi_and (a b : words) : words := map (fun p => Z.land (fst p) (snd p)) (combine a b).
Definition bi_or (a b : words) : words := map (fun p => Z.lor (fst p) (snd p)) (combine a b).
Definition bi_xor (a b : words) : words := map (fun p => Z.lxor (fst p) (snd p)) (combine a b).
Definition bi_not (w : Z) (a : words) : words := map (unot w) a.

(** big_int.hpp:1341-1345 [increment] / [decrement]; 1266-1290 [++] / [--]. *)
Definition increment (w : Z) (a : words) : words := fst (mw_add w a [1]).
Definition decrement (w : Z) (a : words) : words := fst (mw_sub w a [1]).

(** big_int.hpp:1335-1339 [negate]; 1231-1236 unary [operator-]. *)
Definition negate (w : Z) (a : words) : words := increment w (bi_not w a).

(** big_int.hpp:1298-1308 [get_bit], [set_bit]. *)
Definition get_bit (w : Z) (a : words) (i : Z) : bool :=
  negb (Z.land 1 (Z.shiftr (wget a (Z.to_nat (i / w))) (i mod w)) =? 0).
Definition set_bit (w : Z) (a : words) (i : Z) : words :=
  let k := Z.to_nat (i / w) in
  wset a k (Z.lor (wget a k) (wrap w (Z.shiftl 1 (i mod w)))).

(** big_int.hpp:750-784 [zero], [one], [all_ones], [min], [max]. *)
Definition bi_one (w : Z) (n : nat) : words := of_int w n 32 1.
Definition bi_min (w : Z) (n : nat) : words :=
  wset (zero_words n) (n - 1) (2 ^ (w - 1)).

(** big_int.hpp:1371-1381 the loop of [divide_unsigned]; [k] is [cur_bit + 1]. *)
Fixpoint divide_loop (int128 : bool) (w : Z) (k : nat) (remainder subtractor quotient : words)
  : words * words :=
  match k with
  | O => (quotient, remainder)
  | S k' =>
      if bi_gt false w remainder (of_int w (length remainder) 32 0) then
        let hit := bi_ge false w remainder subtractor in
        let remainder' := if hit then bi_sub w remainder subtractor else remainder in
        let quotient' := if hit then set_bit w quotient (Z.of_nat k') else quotient in
        divide_loop int128 w k' remainder' (shift_right int128 false w subtractor 1) quotient'
      else (quotient, remainder)
  end.

(** big_int.hpp:1362-1384 [divide_unsigned]: (quotient, remainder). *)
Definition divide_unsigned (int128 : bool) (w : Z) (dividend divider : words)
  : option (words * words) :=
  let n := length dividend in
  if bi_ge false w dividend divider then
    do ls <- bi_countl_zero w divider;
    do lr <- bi_countl_zero w dividend;
    let cur_bit := ls - lr in
    let subtractor := shift_left int128 w divider cur_bit in
    Some (divide_loop int128 w (Z.to_nat (cur_bit + 1)) dividend subtractor (zero_words n))
  else Some (zero_words n, dividend).

(** big_int.hpp:1386-1415 [divide_signed]. *)
Definition divide_signed (int128 : bool) (w : Z) (dividend divider : words)
  : option (words * words) :=
  let n := length dividend in
  if bi_eqb dividend (bi_min w n) && bi_eqb divider (bi_min w n)
  then Some (bi_one w n, zero_words n)
  else
    let dn := get_msb w dividend in
    let sn := get_msb w divider in
    let ud := if dn then negate w dividend else dividend in
    let us := if sn then negate w divider else divider in
    do qr <- divide_unsigned int128 w ud us;
    let '(q, r) := qr in
    Some (if negb (eqb dn sn) then negate w q else q, if dn then negate w r else r).

(** big_int.hpp:1020-1034 [div]: outer [option] = undefined/fuel, inner [option]
    = [std::optional]; returns the new [*this] and the returned remainder. *)
Definition bi_div (int128 sgn : bool) (w : Z) (a b : words) : option (words * option words) :=
  let n := length a in
  if is_zero b then Some (a, None)
  else if bi_eqb b (bi_one w n) then Some (a, Some (zero_words n))
  else
    do qr <- (if sgn then divide_signed int128 w a b else divide_unsigned int128 w a b);
    Some (fst qr, Some (snd qr)).

(** big_int.hpp:1161-1178 [operator/] and [operator%]; [%] dereferences the
    optional, undefined when it is empty. *)
Definition bi_quot (int128 sgn : bool) (w : Z) (a b : words) : option words :=
  do r <- bi_div int128 sgn w a b; Some (fst r).
Definition bi_rem (int128 sgn : bool) (w : Z) (a b : words) : option words :=
  do r <- bi_div int128 sgn w a b; snd r.

(** big_int.hpp:1081-1103 the main loop of [div_uint_half_times_pow_2]:
    [k] quotient words remain, [pos] is the read position (one past). Quotient
    words are produced most significant first; the accumulator [q] is the list
    of words already produced (already least significant first). *)
Fixpoint half_div_loop (w : Z) (k pos : nat) (val : words) (x rem : Z) (q : words)
  : words * Z :=
  match k with
  | O => (q, rem)
  | S k' =>
      let h := w / 2 in
      let rem := wrap w (Z.shiftl rem h) in
      let rem := wrap w (rem + Z.shiftr (wget val (pos - 1)) h) in
      let q_tmp := rem / x in
      let rem := rem mod x in
      let rem := wrap w (Z.shiftl rem h) in
      let rem := wrap w (rem + Z.land (wget val (pos - 1)) (2 ^ h - 1)) in
      let qw := wrap w (wrap w (Z.shiftl q_tmp h) + rem / x) in
      half_div_loop w k' (pos - 1) val x (rem mod x) (qw :: q)
  end.

(** big_int.hpp:1115-1141 the bits of the next word [d] that still belong to the
    quotient: [last_shift] of them, in at most two half-word steps.  Returns the
    running remainder and [q_tmp]. *)
Definition half_div_tail (w x rem d last_shift : Z) : Z * Z :=
  let h := w / 2 in
  let '(rem, d, q_tmp, ls) :=
    if h <=? last_shift then
      let rem := wrap w (Z.shiftl rem h) in
      let rem := wrap w (rem + Z.shiftr d h) in
      (rem mod x, Z.land d (2 ^ h - 1), rem / x, last_shift - h)
    else (rem, Z.shiftr d h, 0, last_shift) in
  if 0 <? ls then
    let rem := wrap w (Z.shiftl rem h) in
    let rem := wrap w (rem + d) in
    let q_tmp := wrap w (Z.shiftl q_tmp ls) in
    let x' := wrap w (Z.shiftl x (h - ls)) in
    (rem mod x', wrap w (q_tmp + rem / x'))
  else (rem, q_tmp).

(** big_int.hpp:1050-1159 [div_uint_half_times_pow_2]: the new value and the
    returned remainder; [None] in the second component for [x == 0]. *)
Definition div_uint_half_times_pow_2 (int128 : bool) (w : Z) (val : words) (x e : Z)
  : words * option words :=
  let n := length val in
  if x =? 0 then (val, None)
  else if w * Z.of_nat n <=? e then (zero_words n, Some val)
  else
    let h := w / 2 in
    let lower := w * (e / w + (if e mod w =? 0 then 0 else 1)) in
    let lower_pos := Z.to_nat (lower / w) in
    let '(q, rem) := half_div_loop w (n - lower_pos) n val x 0 nil in
    let quotient := q ++ zero_words lower_pos in
    let pos := lower_pos in
    let last_shift := lower - e in
    if 0 <? last_shift then
      let quotient := shift_left int128 w quotient last_shift in
      let pos := (pos - 1)%nat in
      let '(rem, q_tmp) := half_div_tail w x rem (wget val pos) last_shift in
      let quotient := wset quotient 0 (wrap w (wget quotient 0 + q_tmp)) in
      let remainder := zero_words n in
      let remainder :=
        if lower - e <=? h then
          let remainder := if (pos <? n - 1)%nat then wset remainder (pos + 1) (Z.shiftr rem h)
                           else remainder in
          wset remainder pos (wrap w (wrap w (Z.shiftl rem h) + Z.land (wget val pos) (2 ^ h - 1)))
        else wset remainder pos rem in
      (quotient, Some (firstn pos val ++ skipn pos remainder))
    else
      let remainder := wset (zero_words n) pos rem in
      (quotient, Some (firstn pos val ++ skipn pos remainder)).

(* ------------------------------------------------------------------ *)
(** ** Free functions on BigInt (big_int.hpp:1582-1709) *)

(** big_int.hpp:1582-1591 [popcount]; [f] is the word population count. *)
Definition bi_popcount (f : Z -> Z) (l : words) : Z :=
  fold_left (fun bits v => if v =? 0 then bits else bits + f v) l 0.

(** big_int.hpp:1593-1604 [has_single_bit]. *)
Fixpoint bi_has_single_bit_loop (f : Z -> Z) (l : words) (bits : Z) : bool :=
  match l with
  | nil => bits =? 1
  | v :: t =>
      if v =? 0 then bi_has_single_bit_loop f t bits
      else let bits := bits + f v in
           if 1 <? bits then false else bi_has_single_bit_loop f t bits
  end.
Definition bi_has_single_bit (f : Z -> Z) (l : words) : bool := bi_has_single_bit_loop f l 0.

(** big_int.hpp:1622-1625 [bit_width]; [numeric_limits::digits] is
    [Bits - Signed] (big_int.hpp:1478). *)
Definition bi_bit_width (sgn : bool) (w : Z) (l : words) : option Z :=
  do c <- bi_countl_zero w l;
  Some (w * Z.of_nat (length l) - b2z sgn - c).

(** big_int.hpp:1650-1661 [mask_trailing_ones<T, count>]. *)
Definition bi_mask_trailing_ones (w : Z) (n : nat) (count : Z) : option words :=
  if count =? w * Z.of_nat n then Some (repeat (2 ^ w - 1) n)
  else
    let quotient := Z.to_nat (count / w) in
    do m <- mask_trailing_ones w (count mod w);
    Some (repeat (2 ^ w - 1) quotient ++ m :: zero_words (n - quotient - 1)).

(** big_int.hpp:1663-1677 [mask_leading_ones<T, count>]. *)
Definition bi_mask_leading_ones (w : Z) (n : nat) (count : Z) : option words :=
  if count =? w * Z.of_nat n then Some (repeat (2 ^ w - 1) n)
  else
    let bits := w * Z.of_nat n in
    let quotient := Z.to_nat ((bits - count - 1) / w) in
    do m <- mask_leading_ones w (count mod w);
    Some (zero_words quotient ++ m :: repeat (2 ^ w - 1) (n - quotient - 1)).

(** big_int.hpp:1679-1685 [mask_trailing_zeros], [mask_leading_zeros]. *)
Definition bi_mask_trailing_zeros (w : Z) (n : nat) (count : Z) : option words :=
  bi_mask_leading_ones w n (w * Z.of_nat n - count).
Definition bi_mask_leading_zeros (w : Z) (n : nat) (count : Z) : option words :=
  bi_mask_trailing_ones w n (w * Z.of_nat n - count).

(** big_int.hpp:1630-1638 [rotl] and 1640-1648 [rotr], unsigned types.  In
    [rotate % N] the int is converted to [unsigned] (32 bits), so the result is
    never negative and the [rotate < 0] branches are dead. *)
Definition bi_rotl (int128 : bool) (w : Z) (l : words) (rotate : Z) : words :=
  let N := w * Z.of_nat (length l) in
  let rotate := wrap 32 rotate mod N in
  if rotate =? 0 then l
  else bi_or (shift_left int128 w l rotate) (shift_right int128 false w l (N - rotate)).
Definition bi_rotr (int128 : bool) (w : Z) (l : words) (rotate : Z) : words :=
  let N := w * Z.of_nat (length l) in
  let rotate := wrap 32 rotate mod N in
  if rotate =? 0 then l
  else bi_or (shift_right int128 false w l rotate) (shift_left int128 w l (N - rotate)).

(** big_int.hpp:1687-1705 [count_zeros], [first_leading_zero],
    [first_leading_one], [first_trailing_zero], [first_trailing_one] for
    unsigned types ([max()] is all ones). *)
Definition bi_max (w : Z) (n : nat) : words := repeat (2 ^ w - 1) n.
Definition count_zeros (f : Z -> Z) (w : Z) (l : words) : Z := bi_popcount f (bi_not w l).
Definition first_leading_zero (w : Z) (l : words) : option Z :=
  if bi_eqb l (bi_max w (length l)) then Some 0
  else do c <- bi_countl_one w l; Some (c + 1).
Definition first_leading_one (w : Z) (l : words) : option Z := first_leading_zero w (bi_not w l).
Definition first_trailing_zero (w : Z) (l : words) : option Z :=
  if bi_eqb l (bi_max w (length l)) then Some 0
  else do c <- bi_countr_zero w (bi_not w l); Some (c + 1).
Definition first_trailing_one (w : Z) (l : words) : option Z :=
  if bi_eqb l (bi_max w (length l)) then Some 0
  else do c <- bi_countr_zero w l; Some (c + 1).
