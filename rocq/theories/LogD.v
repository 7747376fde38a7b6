(** * The double kernels of log, log2 and log10

    Models math/expo/impl/{log_double_impl,log2_double_impl,log10_impl}.hpp with the conventions of
    ExpoF.v: arithmetic in the rounding mode of the machine, uint64_t by wrap 64. *)
From Coq Require Import ZArith List Bool.
From Verif Require Import MachInt Fmt FOps ExpoData LogDataD ExpoF.
Import ListNotations.
Open Scope Z_scope.

(** log_double_impl.hpp:75-97 and log2_double_impl.hpp:77-97 (b = 7 and 6): index, exponent and the
    normalised argument. *)
Definition logd_reduce (b : Z) (rm : rmode) (x : Z) : Z * Z * Z :=
  let intX := if (0x7ff0 - 0x0010) <=? wrap 32 (Z.shiftr x 48 - 0x0010)
              then wrap 64 (f_mul F64 rm x (lit 1 52) - 52 * 2 ^ 52)
              else x in
  let tmp := wrap 64 (intX - 0x3fe6000000000000) in
  let i := Z.shiftr tmp (52 - b) mod 2 ^ b in
  let expo := Z.shiftr (to_signed 64 tmp) 52 in
  let intNorm := wrap 64 (intX - Z.land tmp (wrap 64 (Z.shiftl 0xfff 52))) in
  (i, expo, intNorm).

(** log_double_impl.hpp:56-57 and the like: c + rem*c' + remSqr*c'' + remCubed*t. *)
Definition logd_block (rm : rmode) (r r2 r3 c c' c'' t : Z) : Z :=
  f_add F64 rm (f_add F64 rm (f_add F64 rm c (f_mul F64 rm r c')) (f_mul F64 rm r2 c'')) (f_mul F64 rm r3 t).
(** log_double_impl.hpp:54-70: the kernel for arguments close to 1, given rem = x - 1. *)
Definition logd_near_r (rm : rmode) (r : Z) : Z :=
  let r2 := f_mul F64 rm r r in
  let r3 := f_mul F64 rm r r2 in
  let P := at_ logd_poly1 in
  let result := f_mul F64 rm r3 (logd_block rm r r2 r3 (P 1) (P 2) (P 3)
                 (logd_block rm r r2 r3 (P 4) (P 5) (P 6)
                   (logd_block rm r r2 r3 (P 7) (P 8) (P 9) (P 10)))) in
  let w := f_mul F64 rm r (lit 1 27) in
  let rhi := f_sub F64 rm (f_add F64 rm r w) w in
  let rlo := f_sub F64 rm r rhi in
  let w := f_mul F64 rm (f_mul F64 rm rhi rhi) (P 0) in
  let hi := f_add F64 rm r w in
  let lo := f_add F64 rm (f_sub F64 rm r hi) w in
  let lo := f_add F64 rm lo (f_mul F64 rm (f_mul F64 rm (P 0) rlo) (f_add F64 rm rhi r)) in
  f_add F64 rm (f_add F64 rm result lo) hi.
(** log_double_impl.hpp:53: arguments close to 1. *)
Definition logd_near (rm : rmode) (x : Z) : Z := logd_near_r rm (f_sub F64 rm x (lit 1 0)).
(** log_double_impl.hpp:95-118. *)
Definition logd_far (rm : rmode) (x : Z) : Z :=
  let '(i, expo, z) := logd_reduce 7 rm x in
  let '(invc, logc) := at2 logd_tab i in
  let '(chi, clo) := at2 logd_tab2 i in
  let r := f_mul F64 rm (f_sub F64 rm (f_sub F64 rm z chi) clo) invc in
  let kd := f_of_Z F64 rm expo in
  let w := f_add F64 rm (f_mul F64 rm kd logd_ln2hi) logc in
  let hi := f_add F64 rm w r in
  let lo := f_add F64 rm (f_add F64 rm (f_sub F64 rm w hi) r) (f_mul F64 rm kd logd_ln2lo) in
  let r2 := f_mul F64 rm r r in
  let P := at_ logd_poly in
  let q := f_add F64 rm (f_add F64 rm (P 1) (f_mul F64 rm r (P 2))) (f_mul F64 rm r2 (f_add F64 rm (P 3) (f_mul F64 rm r (P 4)))) in
  f_add F64 rm (f_add F64 rm (f_add F64 rm lo (f_mul F64 rm r2 (P 0))) (f_mul F64 rm (f_mul F64 rm r r2) q)) hi.
(** log_double_impl.hpp:35-119 log_double_impl. *)
Definition logd_impl (rm : rmode) (x : Z) : Z :=
  let low := f_sub F64 RNE (lit 1 0) (lit 1 (-4)) in
  let high := f_add F64 RNE (lit 1 0) (lit 1 (-4)) in
  if wrap 64 (x - low) <? wrap 64 (high - low) then
    if x =? lit 1 0 then f_zero F64 false else logd_near rm x
  else logd_far rm x.

(** log2_double_impl.hpp:56, 103: the low 32 bits of a double cleared. *)
Definition clear32 (x : Z) : Z := Z.land x (wrap 64 (Z.shiftl (2 ^ 64 - 1) 32)).
(** log2_double_impl.hpp:56-74: the kernel for arguments close to 1, given rem = x - 1. *)
Definition log2d_near_r (rm : rmode) (r : Z) : Z :=
  let rhi := clear32 r in
  let rlo := f_sub F64 rm r rhi in
  let hi := f_mul F64 rm rhi log2d_invln2hi in
  let lo := f_add F64 rm (f_mul F64 rm rlo log2d_invln2hi) (f_mul F64 rm r log2d_invln2lo) in
  let r2 := f_mul F64 rm r r in
  let r4 := f_mul F64 rm r2 r2 in
  let P := at_ log2d_poly1 in
  let p := f_mul F64 rm r2 (f_add F64 rm (P 0) (f_mul F64 rm r (P 1))) in
  let y := f_add F64 rm hi p in
  let lo := f_add F64 rm lo (f_add F64 rm (f_sub F64 rm hi y) p) in
  let pair (a b : Z) := f_add F64 rm a (f_mul F64 rm r b) in
  let quad (a b c d : Z) := f_add F64 rm (pair a b) (f_mul F64 rm r2 (pair c d)) in
  let lo := f_add F64 rm lo (f_mul F64 rm r4 (f_add F64 rm (quad (P 2) (P 3) (P 4) (P 5)) (f_mul F64 rm r4 (quad (P 6) (P 7) (P 8) (P 9))))) in
  f_add F64 rm y lo.
(** log2_double_impl.hpp:55: arguments close to 1. *)
Definition log2d_near (rm : rmode) (x : Z) : Z := log2d_near_r rm (f_sub F64 rm x (lit 1 0)).
(** log2_double_impl.hpp:88-123. *)
Definition log2d_far (rm : rmode) (x : Z) : Z :=
  let '(i, expo, z) := logd_reduce 6 rm x in
  let '(invc, logc) := at2 log2d_tab i in
  let '(chi, clo) := at2 log2d_tab2 i in
  let kd := f_of_Z F64 rm expo in
  let r := f_mul F64 rm (f_sub F64 rm (f_sub F64 rm z chi) clo) invc in
  let rhi := clear32 r in
  let rlo := f_sub F64 rm r rhi in
  let t1 := f_mul F64 rm rhi log2d_invln2hi in
  let t2 := f_add F64 rm (f_mul F64 rm rlo log2d_invln2hi) (f_mul F64 rm r log2d_invln2lo) in
  let t3 := f_add F64 rm kd logc in
  let hi := f_add F64 rm t3 t1 in
  let lo := f_add F64 rm (f_add F64 rm (f_sub F64 rm t3 hi) t1) t2 in
  let r2 := f_mul F64 rm r r in
  let r4 := f_mul F64 rm r2 r2 in
  let P := at_ log2d_poly in
  let pair (a b : Z) := f_add F64 rm a (f_mul F64 rm r b) in
  let p := f_add F64 rm (f_add F64 rm (pair (P 0) (P 1)) (f_mul F64 rm r2 (pair (P 2) (P 3)))) (f_mul F64 rm r4 (pair (P 4) (P 5))) in
  f_add F64 rm (f_add F64 rm lo (f_mul F64 rm r2 p)) hi.
(** log2_double_impl.hpp:38-126 log2_double_impl; line 45-46: 1.0 - 0x1.5b51p-5 and 1.0 + 0x1.6ab2p-5. *)
Definition log2d_impl (rm : rmode) (x : Z) : Z :=
  let low := f_sub F64 RNE (lit 1 0) (lit 0x15b51 (-21)) in
  let high := f_add F64 RNE (lit 1 0) (lit 0x16ab2 (-21)) in
  if wrap 64 (x - low) <? wrap 64 (high - low) then
    if x =? lit 1 0 then f_zero F64 false else log2d_near rm x
  else log2d_far rm x.

(** log.hpp:42-77, log2.hpp:48-89, log10.hpp:48-74 for double; numbers.hpp:32 log10e_v<double>, the
    double nearest to 0.434294481903251827651128918916605. *)
Definition log_d (rm : rmode) (x : Z) : Z := log_wrapper F64 (logd_impl rm) x.
Definition log2_d (rm : rmode) (x : Z) : Z := log2_wrapper F64 (log2d_impl rm) x.
Definition log10e_d : Z := 0x3fdbcb7b1526e50e.
(** log10_impl.hpp:22-23 log10_double_impl. *)
Definition log10_d (rm : rmode) (x : Z) : Z := log_wrapper F64 (fun y => f_mul F64 rm (logd_impl rm y) log10e_d) x.
