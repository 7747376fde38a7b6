(** * Model of ccm::ext on floating-point numbers

    [F] is the type T, [rm] the mode of the floating-point instructions. *)
From Coq Require Import ZArith Bool.
From Verif Require Import MachInt Fmt FOps FPBits Compare Nearest Basic.
Open Scope Z_scope.

Section ExtFloat.
Context (F : fmt) (rm : rmode).
Let zero := f_zero F false.
Let one := f_one F false.

(** ext/sign.hpp:24-25: the difference of two bools converted to T. *)
Definition fsign (value : Z) : Z := f_of_Z F rm (b2z (f_lt F zero value) - b2z (f_lt F value zero)).
(** ext/step.hpp:25-26. *)
Definition fstep (edge value : Z) : Z := if f_lt F value edge then zero else one.
(** ext/clamp.hpp:29-30. *)
Definition fclamp (v lo hi : Z) : Z := gen_min F (gen_max F v lo) hi.
(** ext/saturate.hpp:26-27. *)
Definition saturate (value : Z) : Z := fclamp value zero one.
(** ext/chgsign.hpp:30-38. *)
Definition chgsign (x y : Z) : Z :=
  let magnitude := cc_abs F x in
  if negb (Z.land y (sign_mask F) =? 0) then f_neg F magnitude else magnitude.
(** ext/normalize.hpp:28-29. *)
Definition normalize (value mn mx : Z) : Z := fclamp (f_div F rm (f_sub F rm value mn) (f_sub F rm mx mn)) zero one.
(** ext/normalize.hpp:48-55 [safe::normalize]. *)
Definition safe_normalize (value mn mx : Z) : Z :=
  let length := f_sub F rm mx mn in
  if f_eq F length zero then zero else fclamp (f_div F rm (f_sub F rm value mn) length) zero one.
(** ext/move_towards.hpp:28-35. *)
Definition move_towards (current target max_delta : Z) : Z :=
  let delta := f_sub F rm target current in
  if f_le F (cc_abs F delta) max_delta then target
  else f_add F rm current (if f_gt F delta zero then max_delta else f_neg F max_delta).
(** ext/mix.hpp:26-30; the literal 1 is converted to T. *)
Definition mix (x y a : Z) : Z := f_add F rm (f_mul F rm x (f_sub F rm one a)) (f_mul F rm y a).
(** ext/unlerp.hpp:30-31, inverse_lerp.hpp:31-32. *)
Definition unlerp (start stop value : Z) : Z := f_div F rm (f_sub F rm value start) (f_sub F rm stop start).
(** ext/unlerp.hpp:51-58, inverse_lerp.hpp:51-52 [safe]. *)
Definition safe_unlerp (start stop value : Z) : Z :=
  let length := f_sub F rm stop start in
  if f_eq F length zero then zero else f_div F rm (f_sub F rm value start) length.
(** ext/remap.hpp:38-39. *)
Definition remap (src_start src_end dst_start dst_end x : Z) : Z :=
  f_add F rm dst_start
    (f_div F rm (f_mul F rm (f_sub F rm x src_start) (f_sub F rm dst_end dst_start)) (f_sub F rm src_end src_start)).
(** ext/remap.hpp:65-72 [safe::remap]. *)
Definition safe_remap (src_start src_end dst_start dst_end x : Z) : Z :=
  let length := f_sub F rm src_end src_start in
  if f_eq F length zero then dst_start
  else f_add F rm dst_start (f_div F rm (f_mul F rm (f_sub F rm x src_start) (f_sub F rm dst_end dst_start)) length).
(** ext/approximately.hpp:28-29. *)
Definition approximately (lhs rhs epsilon : Z) : bool := f_le F (cc_abs F (f_sub F rm lhs rhs)) epsilon.
(** ext/fract.hpp:26-27. *)
Definition fract (x : Z) : Z := f_sub F rm x (cc_floor F rm x).
(** ext/repeat.hpp:27-28. *)
Definition repeatf (value length : Z) : Z := f_sub F rm value (f_mul F rm (cc_floor F rm (f_div F rm value length)) length).
(** ext/repeat.hpp:44-49 [safe::repeat]. *)
Definition safe_repeatf (value length : Z) : Z := if f_eq F length zero then zero else repeatf value length.
(** ext/delta_angle.hpp:27-34; the safe version (46-53) calls safe::repeat, the same
    function as the length is 360. *)
Definition delta_angle (current target : Z) : Z :=
  let delta := repeatf (f_sub F rm target current) (f_of_Z F rm 360) in
  if f_gt F delta (f_of_Z F rm 180) then f_sub F rm delta (f_of_Z F rm 360) else delta.
(** ext/lerp_angle.hpp:31-32. *)
Definition lerp_angle (start stop t : Z) : Z := f_add F rm start (f_mul F rm (delta_angle start stop) t).
(** ext/move_towards_angle.hpp:29-33. *)
Definition move_towards_angle (current target max_delta : Z) : Z :=
  move_towards current (f_add F rm current (delta_angle current target)) max_delta.
(** ext/smoothstep.hpp:28-34. *)
Definition smoothstep (edge0 edge1 x0 : Z) : Z :=
  let x := fclamp (f_div F rm (f_sub F rm x0 edge0) (f_sub F rm edge1 edge0)) zero one in
  f_mul F rm (f_mul F rm x x) (f_sub F rm (f_of_Z F rm 3) (f_mul F rm (f_of_Z F rm 2) x)).
(** ext/ping_pong.hpp:28-33 for T = double (the literals 2.0 are doubles). *)
Definition ping_pong (a b : Z) : Z :=
  if f_eq F b zero then zero
  else
    let two := f_of_Z F rm 2 in
    cc_abs F (f_sub F rm (f_mul F rm (f_mul F rm (fract (f_div F rm (f_sub F rm a b) (f_mul F rm b two))) b) two) b).
(** ext/rcp.hpp:24-25. *)
Definition rcp (x : Z) : Z := f_div F rm one x.
(** ext/cubic.hpp:28-38. *)
Definition cubic (y0 y1 y2 y3 t : Z) : Z :=
  let a0 := f_add F rm (f_sub F rm (f_sub F rm y3 y2) y0) y1 in
  let a1 := f_sub F rm (f_sub F rm y0 y1) a0 in
  let a2 := f_sub F rm y2 y0 in
  let a3 := y1 in
  let t2 := f_mul F rm t t in
  f_add F rm (f_add F rm (f_add F rm (f_mul F rm (f_mul F rm a0 t) t2) (f_mul F rm a1 t2)) (f_mul F rm a2 t)) a3.
End ExtFloat.

(** ext/clamp.hpp:43-44 with an int value and low bound and a double high bound:
    max(int, int) is an int, min(int, double) (math/basic/min.hpp:57-64) computes in
    double and converts the result back to its first type, int; the result is then
    converted to the common type double.  [None]: the conversion is undefined. *)
Definition clamp_int_int_double (rm : rmode) (v lo hi : Z) : option Z :=
  let m := if lo <? v then v else lo in
  match f_to_int binary64 32 (gen_min binary64 (f_of_Z binary64 rm m) hi) with
  | Some i => Some (f_of_Z binary64 rm i)
  | None => None
  end.
