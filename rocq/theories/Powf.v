(** * The float kernel of pow

    Models internal/math/generic/func/power/pow_impl/powf_impl.hpp, reached through
    pow_gen.hpp:25 (constant evaluation without a builtin, and every rounding mode other than
    to nearest at run time, pow_rt.hpp:62-83).  Floats and doubles are bit patterns, so the bit
    casts are the identity.  [rm] is the rounding mode of the machine, [dm] the mode reported by
    get_rounding_mode, [ct] is is_constant_evaluated().  [None] is undefined behaviour or the
    exception of std::array::at.  multiply_add is x * y + z in two roundings: the branch without
    CCMATH_TARGET_CPU_HAS_FMA (multiply_add.hpp:49-51), and also, when [fma] is true, the
    branch taken with it in a constant expression of a compiler without a constexpr fma
    (multiply_add.hpp:27-30).  The run-time fused branch is not modelled, nor are errno and the
    exception flags. *)
From Coq Require Import ZArith List Bool.
From Verif Require Import MachInt Bits Fmt FOps FPBits Eft Nearest Sqrt ExpoData ExpoF ExpD LogD PowfData.
Import ListNotations.
Open Scope Z_scope.

(** multiply_add.hpp:49-51. *)
Definition madd (F : fmt) (rm : rmode) (x y z : Z) : Z := f_add F rm (f_mul F rm x y) z.
(** std::array::at, throwing out of range. *)
Definition at_opt {A} (l : list A) (i : Z) : option A := if i <? 0 then None else nth_error l (Z.to_nat i).

(** powf_impl.hpp:45-53 [is_odd_integer]. *)
Definition pf_odd (x : Z) : option bool :=
  let x_e := Z.shiftr (Z.land x 0x7f800000) 23 in
  do lsb <- countr_zero 32 (Z.lor x 0x7f800000);
  Some (x_e + lsb =? 150).
(** powf_impl.hpp:55-63 [is_integer]. *)
Definition pf_integer (x : Z) : option bool :=
  let x_e := Z.shiftr (Z.land x 0x7f800000) 23 in
  do lsb <- countr_zero 32 (Z.lor x 0x7f800000);
  Some (150 <=? x_e + lsb).
(** powf_impl.hpp:65-69 [larger_exponent]. *)
Definition pf_larger (a b : Z) : bool := exp_field F64 b <=? exp_field F64 a.

(** powf_impl.hpp:91-95 COEFFS, the members (hi, lo). *)
Definition pf_dd_log : list (Z * Z) := [
  (lit 0x171547652b82fe (-52), lit 0x1777d0ffda25e0 (-108)); (lit (-0x171547652b82fe) (-53), lit (-0x1777d101cf0a84) (-109));
  (lit 0x1ec709dc3a03fd (-54), lit 0x1ce04b5140d867 (-108)); (lit (-0x171547652b82fb) (-54), lit 0x1137b47e635be5 (-108));
  (lit 0x12776c516a92a2 (-54), lit (-0x1b5a30b3bdb318) (-110)); (lit (-0x1ec70af1929ca6) (-55), lit 0x12d2fbd081e657 (-109))].
(** powf_impl.hpp:121-132 EXP2_COEFFS, the members (hi, lo). *)
Definition pf_dd_exp : list (Z * Z) := [
  (lit 1 0, lit 0 0); (lit 0x162e42fefa39ef (-59), lit 0x1abc9e3b398024 (-114)); (lit 0x1ebfbdff82c58f (-67), lit (-0x15e43a5429bddb) (-121));
  (lit 0x1c6b08d704a0c0 (-75), lit (-0x1d33162491268f) (-129)); (lit 0x13b2ab6fba4e77 (-83), lit 0x14fb32d240a14e (-138));
  (lit 0x15d87fe78a6731 (-92), lit 0x1e84e916be83e0 (-149)); (lit 0x1430912f86bfb8 (-101), lit (-0x19a447bfddc5e6) (-155));
  (lit 0x1ffcbfc588ded9 (-111), lit (-0x131a55719de47f) (-165)); (lit 0x162c034beb8339 (-120), lit (-0x10ba57164eb36b) (-174));
  (lit 0x1b5251ff97bee1 (-130), lit (-0x18483eabd9642d) (-184))].
(** poly_eval.hpp:29-39 [polyeval] on DoubleDouble. *)
Fixpoint dd_poly (rm : rmode) (x : Z * Z) (l : list (Z * Z)) : Z * Z :=
  match l with
  | [] => (0, 0)
  | [a] => a
  | a :: l' => dd_multiply_add F64 rm 27 x (dd_poly rm x l') a
  end.

(** powf_impl.hpp:150-157, rounding (hi, lo) to odd. *)
Definition pf_round_odd (hi lo : Z) : Z :=
  if (Z.land hi 0xfffffff =? 0) && f_ne F64 lo (f_zero F64 false) then
    if Bool.eqb (sign_of F64 hi) (sign_of F64 lo) then wrap 64 (hi + 1)
    else if 0 <? Z.land hi 0xfffffffffffff then wrap 64 (hi - 1) else hi
  else hi.

(** powf_impl.hpp:71-160 [powf_double_double], in two halves: 82-113, the logarithm. *)
Definition pf_dd_log2 (rm : rmode) (ct : bool) (idx_x dx : Z) : option (Z * Z) :=
  do idx2 <- f_to_int F64 32 (cc_nearest_integer F64 rm ct (madd F64 rm dx (lit 1 14) (lit 1 6)));
  do r2 <- at_opt pf_R2 idx2;
  let dx2 := madd F64 rm (f_add F64 rm (lit 1 0) dx) r2 (lit (-1) 0) in
  let p := dd_poly rm (dx2, lit 0 0) pf_dd_log in
  let log2_x_lo := quick_mult_d F64 rm 27 dx2 p in
  do td <- at_opt pf_LOG2_R_TD idx_x;
  let '(t_lo, t_mid, _) := td in
  do r2dd <- at_opt pf_LOG2_R2_DD idx2;
  let '(r2_hi, r2_lo) := r2dd in
  let log2_x_m := dd_add F64 rm (r2_lo, r2_hi) (t_mid, t_lo) in
  Some (if pf_larger (fst log2_x_m) (fst log2_x_lo) then dd_add F64 rm log2_x_m log2_x_lo else dd_add F64 rm log2_x_lo log2_x_m).
(** powf_impl.hpp:114-159, the exponential. *)
Definition pf_dd_exp2 (rm : rmode) (log2_x : Z * Z) (y6 lo6_hi : Z) (hm : Z * Z) : Z :=
  let prod := quick_mult_d F64 rm 27 y6 log2_x in
  let lo6 := if pf_larger (fst prod) lo6_hi then dd_add F64 rm prod (lo6_hi, lit 0 0) else dd_add F64 rm (lo6_hi, lit 0 0) prod in
  let pp := dd_poly rm lo6 pf_dd_exp in
  let rr := quick_mult F64 rm 27 hm pp in
  let '(hi, lo) := fast_two_sum F64 rm (fst rr) (snd rr) in
  pf_round_odd hi lo.
Definition pf_double_double (rm : rmode) (ct : bool) (idx_x dx y6 lo6_hi : Z) (hm : Z * Z) : option Z :=
  do log2_x <- pf_dd_log2 rm ct idx_x dx;
  Some (pf_dd_exp2 rm log2_x y6 lo6_hi hm).

(** support/helpers/exp10.hpp:28 LOG2_10, a constant expression. *)
Definition pf_LOG2_10 : Z := log2_d RNE (lit 10 0).
(** support/helpers/exp10.hpp:85-97 [exp10_float_impl]. *)
Definition exp10f (dm rm : rmode) (x : Z) : Z :=
  let t := f_mul F64 rm (f_cast F32 F64 rm x) pf_LOG2_10 in
  if f_ge F64 t (lit 128 0) || f_lt F64 t (lit (-149) 0) then exp2f dm rm (f_cast F64 F32 rm t)
  else f_cast F64 F32 rm (exp2_d rm t).

(** powf_impl.hpp:231, the repeated multiplication. *)
Fixpoint pf_loop (n : nat) (rm : rmode) (x acc : Z) : Z :=
  match n with O => acc | S k => pf_loop k rm x (f_mul F64 rm acc x) end.

(** The result of an exceptional case, or the values the kernel goes on with. *)
Inductive pf_out := PF_ret (r : Z) | PF_go (x y ex sign : Z).

(** powf_impl.hpp:219-234, small integer exponents. *)
Definition pf_small (rm : rmode) (x y : Z) : option (option Z) :=
  do i <- pf_integer y;
  if i && (0x40000000 <? y) && (y <=? 0x41c00000) then
    let x_abs := mag_of F32 x in
    do c <- countl_zero 32 x_abs;
    let msb := if x_abs =? 0 then 30 else c in
    let msb := if 8 <? msb then msb else 8 in
    do t <- countr_zero 32 x_abs;
    let lsb := if x_abs =? 0 then 0 else t in
    let lsb := if 23 <? lsb then 23 else lsb in
    let extra := 30 - lsb - msb in
    do iter <- f_to_int F32 64 y;
    if extra * iter <=? 25 then
      let x_d := f_cast F32 F64 rm x in
      Some (Some (f_cast F64 F32 rm (pf_loop (Z.to_nat (iter - 1)) rm x_d x_d)))
    else Some None
  else Some None.

(** powf_impl.hpp:176-245, the exceptional exponents: a result, or the exponent to go on with. *)
Definition pf_exc_y (dm rm : rmode) (x y : Z) : option (Z + Z) :=
  let x_abs := mag_of F32 x in
  let y_abs := mag_of F32 y in
  if (Z.land y_abs 0x7ffff =? 0) || (0x4f170000 <? y_abs) then
    if f_eq F32 y (f_zero F32 false) then Some (inl (litf 1 0))
    else if y_abs =? 0x7f800000 then
      if 0x7f800000 <? x_abs then Some (inl x)
      else if x_abs =? 0x3f800000 then Some (inl (litf 1 0))
      else if f_eq F32 x (f_zero F32 false) && (y =? 0xff800000) then Some (inl (f_inf F32 false))
      else Some (inl (if Bool.eqb (x_abs <? 0x3f800000) (y =? 0xff800000) then f_inf F32 false else f_zero F32 false))
    else if y =? 0x3f000000 then
      if f_eq F32 x (f_zero F32 false) || (x =? 0xff800000) then Some (inl (f_mul F32 rm x x))
      else if f_lt F32 x (f_zero F32 false) then Some (inl (qnan F32))
      else do r <- cc_sqrt F32 dm x; Some (inl r)
    else if y =? 0x3f800000 then Some (inl x)
    else if y =? 0x40000000 then Some (inl (f_mul F32 rm x x))
    else
      do sm <- pf_small rm x y;
      match sm with
      | Some r => Some (inl r)
      | None =>
          if 0x4f170000 <? y_abs then
            if 0x7f800000 <? y_abs then Some (inl (if x =? 0x3f800000 then litf 1 0 else y))
            else Some (inr (Z.land y 0x80000000 + 0x4f800000))
          else Some (inr y)
      end
  else Some (inr y).

(** powf_impl.hpp:248-309, the exceptional bases; [y0] is the exponent passed by the caller, [y]
    the one left by [pf_exc_y]. *)
Definition pf_exc_x (dm rm : rmode) (x y0 y ex : Z) : option pf_out :=
  let x_abs := mag_of F32 x in
  if (Z.land x 0x801fffff =? 0) || (0x7f800000 <=? x) || (x <? 0x00800000) then
    if x =? 0x3f800000 then Some (PF_ret (litf 1 0))
    else if x =? 0x40000000 then Some (PF_ret (exp2f dm rm y))
    else if x =? 0x41200000 then Some (PF_ret (exp10f dm rm y))
    else
      let x_is_neg := 0x80000000 <=? x in
      do odd <- pf_odd y0;
      if f_eq F32 x (f_zero F32 false) then
        let neg := x_is_neg && odd in
        if 0x80000000 <? y0 then Some (PF_ret (f_inf F32 neg))
        else Some (PF_ret (if neg then f_zero F32 true else f_zero F32 false))
      else if x_abs =? 0x7f800000 then
        let neg := x_is_neg && odd in
        if 0x80000000 <=? y0 then Some (PF_ret (if neg then f_zero F32 true else f_zero F32 false))
        else Some (PF_ret (f_inf F32 neg))
      else if 0x7f800000 <? x_abs then Some (PF_ret x)
      else
        let sub := x_abs <? 0x00800000 in
        let ex := if sub then ex - 64 else ex in
        let x := if sub then f_mul F32 rm x (litf 1 64) else x in
        if x_is_neg then
          do i <- pf_integer y;
          if i then
            do o <- pf_odd y;
            Some (PF_go (f_neg F32 x) y ex (if o then 0x8000000000000000 else 0))
          else Some (PF_ret (qnan F32))
        else Some (PF_go x y ex 0)
  else Some (PF_go x y ex 0).

(** powf_impl.hpp:162-312 [handle_exceptional_cases]. *)
Definition pf_exceptional (dm rm : rmode) (x y ex : Z) : option pf_out :=
  do r <- pf_exc_y dm rm x y;
  match r with
  | inl r => Some (PF_ret r)
  | inr y' => pf_exc_x dm rm x y y' ex
  end.

(** powf_impl.hpp:378-379 COEFFS. *)
Definition pf_log : list Z := [
  lit 0x171547652b82fe (-52); lit (-0x171547652b7a07) (-53); lit 0x1ec709dc458db1 (-54);
  lit (-0x1715479c2266c9) (-54); lit 0x12776ae1ddf8f0 (-54); lit (-0x1e7b2178870157) (-55)].
(** powf_impl.hpp:454-456 EXP2_COEFFS. *)
Definition pf_exp : list Z := [
  lit 1 0; lit 0x162e42fefa39ef (-59); lit 0x1ebfbdff82a23a (-67);
  lit 0x1c6b08d7076268 (-75); lit 0x13b2ad33f8b48b (-83); lit 0x15d870c4d84445 (-92)].
(** powf_impl.hpp:381-386 and 458-462: c0 + x2 (c1 + x2 c2) with ci = a_2i + x a_2i+1. *)
Definition pf_poly (rm : rmode) (c : list Z) (x : Z) : Z :=
  let x2 := f_mul F64 rm x x in
  let c0 := madd F64 rm x (at_ c 1) (at_ c 0) in
  let c1 := madd F64 rm x (at_ c 3) (at_ c 2) in
  let c2 := madd F64 rm x (at_ c 5) (at_ c 4) in
  madd F64 rm x2 (madd F64 rm x2 c2 c1) c0.

(** powf_impl.hpp:360-370, the reduced argument. *)
Definition pf_dx (fma : bool) (rm : rmode) (m_x r rd : Z) : Z :=
  if fma then f_cast F32 F64 rm (madd F32 rm m_x (f_cast F64 F32 rm r) (litf (-1) 0))
  else madd F64 rm (f_cast F32 F64 rm m_x) rd (lit (-1) 0).

(** powf_impl.hpp:341-423, the reduced logarithm and exponent: e_x, idx_x, dx, p, y6, hm, lo6_hi. *)
Record pf_red := PFRed { pr_idx : Z; pr_dx : Z; pr_p : Z; pr_y6 : Z; pr_hm : Z; pr_hi : Z; pr_lo6 : Z }.
Definition pf_reduce (fma ct : bool) (rm : rmode) (x y ex : Z) : option pf_red :=
  let e_x := f_of_Z F64 rm (ex + Z.shiftr x 23) in
  let x_mant := Z.land x 0x7fffff in
  let idx_x := Z.shiftr x_mant 16 in
  let m_x := Z.lor x_mant 0x3f800000 in
  do r <- at_opt pf_R idx_x;
  do rd <- at_opt pf_RD idx_x;
  do l2r <- at_opt pf_LOG2_R idx_x;
  do td <- at_opt pf_LOG2_R_TD idx_x;
  let '(_, t_mid, t_hi) := td in
  let dx := pf_dx fma rm m_x r rd in
  let p := pf_poly rm pf_log dx in
  let s := madd F64 rm dx p (f_add F64 rm l2r e_x) in
  let y6 := f_cast F32 F64 rm (f_mul F32 rm y (litf 1 6)) in
  let hm := cc_nearest_integer F64 rm ct (f_mul F64 rm s y6) in
  let lo6_hi := madd F64 rm y6 (f_add F64 rm e_x t_hi) (f_neg F64 hm) in
  let lo6 := madd F64 rm y6 (madd F64 rm dx p t_mid) lo6_hi in
  Some (PFRed idx_x dx p y6 hm lo6_hi lo6).

(** powf_impl.hpp:429-447 and 490-495: 2^hi 2^mid with the sign, and its lower part. *)
Definition pf_scale (hm sign : Z) : option (Z * Z) :=
  do hm_i <- f_to_int F64 64 hm;
  let hm_i := if 2 ^ 15 <? hm_i then 2 ^ 15 else if hm_i <? - 2 ^ 15 then - 2 ^ 15 else hm_i in
  let idx_y := Z.land hm_i 0x3f in
  let exp_hi_i := to_signed 64 (wrap 64 (Z.shiftl (wrap 64 (Z.shiftr hm_i 6)) 52)) in
  do td <- at_opt pf_EXP2_MID1 idx_y;
  let '(_, t_mid, t_hi) := td in
  do e <- sarith 64 (exp_hi_i + to_signed 64 t_hi);
  do l <- (if idx_y =? 0 then Some 0 else sarith 64 (exp_hi_i + to_signed 64 t_mid));
  Some (wrap 64 (wrap 64 e + sign), wrap 64 l).

(** powf_impl.hpp:43, 464-499: the Ziv test and the two results. *)
Definition pf_finish (fma ct : bool) (rm : rmode) (q : pf_red) (h : Z * Z) : option Z :=
  let tol := if fma then 64 else 128 in
  let pp := pf_poly rm pf_exp (pr_lo6 q) in
  let r := f_mul F64 rm pp (fst h) in
  let r_upper := f_cast F64 F32 rm (wrap 64 (r + tol)) in
  let r_lower := f_cast F64 F32 rm (wrap 64 (r - tol)) in
  if f_eq F32 r_upper r_lower then Some r_upper
  else
    do d <- pf_double_double rm ct (pr_idx q) (pr_dx q) (pr_y6 q) (pr_hi q) h;
    Some (f_cast F64 F32 rm d).

(** powf_impl.hpp:314-500 [powf_impl]. *)
Definition powf (fma ct : bool) (dm rm : rmode) (x y : Z) : option Z :=
  do o <- pf_exceptional dm rm x y (-127);
  match o with
  | PF_ret r => Some r
  | PF_go x y ex sign =>
      do i <- pf_integer y;
      if f_lt F32 x (f_zero F32 false) && negb i then Some (qnan F32)
      else
        do q <- pf_reduce fma ct rm x y ex;
        do h <- pf_scale (pr_hm q) sign;
        pf_finish fma ct rm q h
  end.
