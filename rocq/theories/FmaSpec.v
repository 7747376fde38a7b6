(** * Specification: quiet NaNs and the sign of an exact zero sum *)
From Coq Require Import ZArith Bool.
From Verif Require Import Fmt.
Open Scope Z_scope.

(** A quiet NaN: a NaN whose leading fraction bit is set. *)
Definition quiet (F : fmt) (b : Z) : Prop := is_nan F b = true /\ Z.testbit b (fl F - 1) = true.

(** IEEE 754: the sign of an exact zero sum of a term of sign [s] and a term of
    sign [t] in mode [rm]. *)
Definition zero_sum_sign (rm : rmode) (s t : bool) : bool :=
  if Bool.eqb s t then t else match rm with RDN => true | _ => false end.
