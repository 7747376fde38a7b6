(** * Specification vocabulary for ccm::ext: the order on floating-point numbers *)
From Coq Require Import ZArith Reals Bool.
From Flocq Require Import Core.
From Verif Require Import Fmt FloatSpec.
Open Scope Z_scope.

(** Less than or equal as extended reals (false if either is NaN). *)
Definition xle (F : fmt) (a b : Z) : Prop := xlt F a b \/ xeq F a b.
(** A finite pattern with a given real value. *)
Definition is_real (F : fmt) (b : Z) (v : R) : Prop := is_pattern F b /\ is_fin F b = true /\ fval F b = v.
