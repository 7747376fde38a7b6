(** * Model of support/fp/fma.hpp: the fixed-width fma kernel

    [dm] is [fenv::get_rounding_mode()].  [types::UInt<N>] values are their
    integer values, with every operation reduced modulo [2^N]: theorems C07-C13
    prove that the multiword operations compute exactly that.  The floating-point
    exception flags and errno are not modelled. *)
From Coq Require Import ZArith Bool.
From Verif Require Import MachInt Bits Fmt FOps FPBits.
Open Scope Z_scope.

(** fma.hpp:33-49: [int_is_zero], [int_bit_width] ([support::bit_width] is
    theorems C02_bit_width and C12_counts). *)
Definition int_is_zero (v : Z) : bool := v =? 0.
Definition int_bit_width (v : Z) : Z := if int_is_zero v then 0 else Z.log2 v + 1.
(** fma.hpp:51-60 [int_get_bit]. *)
Definition int_get_bit (v index : Z) : bool := if index <? 0 then false else Z.testbit v index.
(** fma.hpp:76-80 the loop over the bits [0 .. n-1]. *)
Fixpoint any_bit (n : nat) (v : Z) : bool :=
  match n with O => false | S k => Z.testbit v (Z.of_nat k) || any_bit k v end.
(** fma.hpp:62-82 [lower_bits_nonzero]; [digits] is [numeric_limits<Int>::digits]. *)
Definition lower_bits_nonzero (digits v bit_count : Z) : bool :=
  if bit_count <=? 0 then false
  else if digits <=? bit_count then negb (int_is_zero v)
  else any_bit (Z.to_nat bit_count) v.
(** fma.hpp:84-99 [shift_right_with_sticky]: (returned flag, new value). *)
Definition shift_right_with_sticky (digits shift v : Z) : bool * Z :=
  if (shift <=? 0) || int_is_zero v then (false, v)
  else if digits <=? shift then (true, 0)
  else (lower_bits_nonzero digits v shift, Z.shiftr v shift).

(** fma.hpp:101-120 [fixed_fma_traits]: widths of product_int and acc_int, and
    accumulator_bits. *)
Record fma_traits := FmaTraits { product_int : Z; acc_int : Z; accumulator_bits : Z }.
Definition float_traits := FmaTraits 64 128 96.
Definition double_traits := FmaTraits 128 256 212.

Section Fma.
Context (F : fmt) (dm : rmode) (T : fma_traits).
Notation A := (accumulator_bits T).
Notation acc := (acc_int T).

(** fma.hpp:125-147 [decoded_operand], [decode_finite_nonzero]: sign, mantissa,
    width, lsb_exponent, top_exponent. *)
Record decoded := Decoded { d_sign : bool; d_mant : Z; d_width : Z; d_lsb : Z; d_top : Z }.
Definition decode_finite_nonzero (bits : Z) : decoded :=
  let m := get_explicit_mantissa F bits in
  let wd := int_bit_width m in
  let lsb := get_explicit_exponent F bits - fl F in
  Decoded (fp_sign F bits) m wd lsb (lsb + wd - 1).

(** fma.hpp:152-154 [propagate_quiet_nan]. *)
Definition propagate_quiet_nan (bits : Z) : Z := fp_quiet_nan F (fp_sign F bits) (get_mantissa F bits).
(** [x.sign() == y.sign() ? POS : NEG]. *)
Definition prod_sign (x y : Z) : bool := negb (Bool.eqb (fp_sign F x) (fp_sign F y)).
(** [get_rounding_mode() == FE_DOWNWARD ? NEG : POS]. *)
Definition down_sign : bool := match dm with RDN => true | _ => false end.

(** fma.hpp:156-243 [special_case_fma]: [Some result] when it applies. *)
Definition special_case_fma (x y z : Z) : option Z :=
  if fp_is_nan F x || fp_is_nan F y || fp_is_nan F z then
    if fp_is_quiet_nan F x then Some (propagate_quiet_nan x)
    else if fp_is_quiet_nan F y then Some (propagate_quiet_nan y)
    else if fp_is_quiet_nan F z then Some (propagate_quiet_nan z)
    else Some (fp_quiet_nan F false 0)
  else if fp_is_inf F x || fp_is_inf F y then
    if fp_is_zero F x || fp_is_zero F y then Some (fp_quiet_nan F false 0)
    else if fp_is_inf F z && negb (Bool.eqb (fp_sign F z) (prod_sign x y)) then Some (fp_quiet_nan F false 0)
    else Some (fp_inf F (prod_sign x y))
  else if fp_is_inf F z then Some z
  else if fp_is_zero F x || fp_is_zero F y then
    if fp_is_zero F z
    then Some (fp_zero F (if negb (Bool.eqb (prod_sign x y) (fp_sign F z)) then down_sign else prod_sign x y))
    else Some z
  else None.

(** fma.hpp:264-291: the result on overflow. *)
Definition rn_overflow (s : bool) : Z :=
  match dm with
  | RNE => fp_inf F s
  | RZR => fp_max_normal F s
  | RDN => if negb s then fp_max_normal F false else fp_inf F true
  | RUP => if s then fp_max_normal F true else fp_inf F false
  end.
(** fma.hpp:294-319: (biased exponent, mantissa, round bit, sticky bit). *)
Definition rn_split (base m : Z) (sticky : bool) : Z * Z * bool * bool :=
  let top := base + (A - 1) in
  let NS := A - (fl F + 1) in
  if 1 - bias F <=? top then
    (wrap (width F) (top + bias F), wrap (width F) (Z.shiftr m NS),
     int_get_bit m (NS - 1), sticky || lower_bits_nonzero acc m (NS - 1))
  else
    let sh := 1 - bias F - fl F - base in
    if A <? sh then (0, 0, false, true)
    else if sh =? A then (0, 0, int_get_bit m (A - 1), sticky || lower_bits_nonzero acc m (A - 1))
    else (0, wrap (width F) (Z.shiftr m sh),
          int_get_bit m (sh - 1), sticky || lower_bits_nonzero acc m (sh - 1)).
(** fma.hpp:245-354 [round_normalized]. *)
Definition round_normalized (s : bool) (base m : Z) (sticky : bool) : Z :=
  if int_is_zero m then fp_zero F s
  else if bias F <? base + (A - 1) then rn_overflow s
  else
    let '(be, om, rb, st) := rn_split base m sticky in
    let lsb := negb (Z.land om 1 =? 0) in
    let result := uintval F (create_value F s be om) in
    let incr := wrap (width F) (result + 1) in
    match dm with
    | RNE => if rb && (lsb || st) then incr else result
    | RDN => if s && (rb || st) then incr else result
    | RUP => if negb s && (rb || st) then incr else result
    | RZR => result
    end.

(** fma.hpp:396-404: alignment of the two accumulators:
    (product_acc, product_sticky, z_acc, z_sticky, base_exponent). *)
Definition fma_align (ptop ztop pacc zacc : Z) : Z * bool * Z * bool * Z :=
  if ztop <? ptop then
    let (st, z) := shift_right_with_sticky acc (ptop - ztop) zacc in
    (pacc, false, z, st, ptop - (A - 1))
  else if ptop <? ztop then
    let (st, p) := shift_right_with_sticky acc (ztop - ptop) pacc in
    (p, st, zacc, false, ztop - (A - 1))
  else (pacc, false, zacc, false, ptop - (A - 1)).

(** The two ways a call can end: a value, or a call of [wide_fma]. *)
Inductive fma_out := FVal (b : Z) | FWide.

(** fma.hpp:413-423: equal signs. *)
Definition fma_add (s : bool) (pacc zacc base : Z) (st : bool) : Z :=
  let m := wrap acc (pacc + zacc) in
  if A <? int_bit_width m
  then round_normalized s (base + 1) (Z.shiftr m 1) (st || int_get_bit m 0)
  else round_normalized s base m st.
(** fma.hpp:426-478: different signs. *)
Definition fma_sub (ps zs : bool) (pacc : Z) (pst : bool) (zacc : Z) (zst : bool) (base : Z) : fma_out :=
  let compare :=
    if zacc <? pacc then 1 else if pacc <? zacc then -1
    else if negb (Bool.eqb pst zst) then (if pst then 1 else -1) else 0 in
  if compare =? 0 then FVal (fp_zero F down_sign)
  else
    let '(s, m, st) :=
      if 0 <? compare
      then if zst then (ps, wrap acc (wrap acc (pacc - zacc) - 1), true) else (ps, wrap acc (pacc - zacc), pst)
      else if pst then (zs, wrap acc (wrap acc (zacc - pacc) - 1), true) else (zs, wrap acc (zacc - pacc), zst) in
    if int_is_zero m then (if negb st then FVal (fp_zero F down_sign) else FWide)
    else
      let sh := A - int_bit_width m in
      FVal (round_normalized s (base - sh) (wrap acc (Z.shiftl m sh)) st).

(** fma.hpp:356-482 [fixed_fma]. *)
Definition fixed_fma (x y z : Z) : fma_out :=
  match special_case_fma x y z with
  | Some r => FVal r
  | None =>
      let xv := decode_finite_nonzero x in
      let yv := decode_finite_nonzero y in
      let pm := wrap (product_int T) (d_mant xv * d_mant yv) in
      let pw := int_bit_width pm in
      let plsb := d_lsb xv + d_lsb yv in
      let ptop := plsb + pw - 1 in
      let ps := negb (Bool.eqb (d_sign xv) (d_sign yv)) in
      let pacc := wrap acc (Z.shiftl pm (A - pw)) in
      if fp_is_zero F z then FVal (round_normalized ps (ptop - (A - 1)) pacc false)
      else
        let zv := decode_finite_nonzero z in
        let zacc := wrap acc (Z.shiftl (d_mant zv) (A - d_width zv)) in
        let '(pa, pst, za, zst, base) := fma_align ptop (d_top zv) pacc zacc in
        if Bool.eqb ps (d_sign zv) then FVal (fma_add ps pa za base (pst || zst))
        else fma_sub ps (d_sign zv) pa pst za zst base
  end.
End Fma.

(** fma.hpp:602-636: [software_fmaf], [public_fma] for float and double. *)
Definition cc_fmaf (dm : rmode) := fixed_fma binary32 dm float_traits.
Definition cc_fma (dm : rmode) := fixed_fma binary64 dm double_traits.
