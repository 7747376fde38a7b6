(** * Vocabulary for the statements about floating-point lanes *)
From Coq Require Import ZArith Bool List Reals.
From Flocq Require Import Core.
From Verif Require Import Fmt FloatSpec FOps ExtFloatSpec.
Open Scope Z_scope.

Section Spec.
Context (F : fmt).
(** [r] is a lane of [v] no lane is smaller (greater) than; [xle] is the order of the extended reals. *)
Definition is_min (v : list Z) (r : Z) : Prop := In r v /\ forall x, In x v -> xle F r x.
Definition is_max (v : list Z) (r : Z) : Prop := In r v /\ forall x, In x v -> xle F x r.
(** Half a unit in the last place of 1 when rounding to nearest, otherwise a whole one. *)
Definition ulpfac (rm : rmode) : R := match rm with RNE => bpow radix2 (- prec F) | _ => bpow radix2 (1 - prec F) end.
(** The exact sum of the lanes, and of their magnitudes. *)
Definition sumR (v : list Z) : R := fold_right (fun x s => (fval F x + s)%R) 0%R v.
Definition sumA (v : list Z) : R := fold_right (fun x s => (Rabs (fval F x) + s)%R) 0%R v.
(** A pattern that, if not a number, is the canonical one. *)
Definition canon (x : Z) : Prop := is_pattern F x /\ (is_nan F x = true -> x = qnan F).
End Spec.
