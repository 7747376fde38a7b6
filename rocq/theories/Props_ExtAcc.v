(** * C86: rcp, mix, unlerp and smoothstep of ccm::ext are accurate *)
From Coq Require Import ZArith Reals Bool Lia Lra.
From Flocq Require Import Core.
From Verif Require Import MachInt Fmt FloatSpec FmtProofs RoundProofs FOps ExtFloatSpec ExtFloat ExtAcc.
Open Scope Z_scope.

(** The reciprocal is correctly rounded, in every mode. *)
Theorem C86_rcp : forall F rm x X, good_fmt F -> is_real F x X -> X <> 0%R -> rounded F rm (/ X) (sign_of F x) (rcp F rm x).
Proof. intros F rm x X HF. exact (rcp_spec F HF rm x X). Qed.
Theorem C86_rcp_special : forall F rm x, good_fmt F ->
  (is_nan F x = true -> is_nan F (rcp F rm x) = true) /\
  (is_inf F x = true -> rcp F rm x = f_zero F (sign_of F x)) /\
  (is_real F x 0 -> rcp F rm x = f_inf F (sign_of F x)).
Proof. intros F rm x HF. exact (rcp_special F HF rm x). Qed.
(** u = 2^-fl is the spacing of the numbers above 1, eta = 2^emin the smallest positive number. *)
Theorem C86_mix : forall F rm x y a X Y A m, good_fmt F -> 6 <= fl F -> (0 <= m <= bpow radix2 (bias F - 4))%R ->
  is_real F x X -> is_real F y Y -> is_real F a A -> (Rabs X <= m)%R -> (Rabs Y <= m)%R -> (0 <= A <= 1)%R ->
  exists r, is_real F (mix F rm x y a) r /\
    (Rabs (r - (X * (1 - A) + Y * A)) <= 8 * bpow radix2 (- fl F) * m + 4 * bpow radix2 (emin F))%R.
Proof. intros F rm x y a X Y A m HF Hf. exact (mix_err F HF Hf rm x y a X Y A m). Qed.
(** A small relative error although both differences are rounded first: a difference of two numbers never underflows. *)
Theorem C86_unlerp : forall F rm s e v S E V, good_fmt F -> 6 <= fl F -> is_real F s S -> is_real F e E -> is_real F v V -> S <> E ->
  (Rabs (E - S) <= bpow radix2 (bias F))%R -> (Rabs (V - S) <= bpow radix2 (bias F))%R -> (Rabs ((V - S) / (E - S)) <= bpow radix2 (bias F))%R ->
  exists r, is_real F (unlerp F rm s e v) r /\
    (Rabs (r - (V - S) / (E - S)) <= 4 * bpow radix2 (- fl F) * Rabs ((V - S) / (E - S)) + bpow radix2 (emin F))%R.
Proof. intros F rm s e v S E V HF Hf. exact (unlerp_err F HF Hf rm s e v S E V). Qed.
(** smoothstep is within 24 u of c^2 (3 - 2 c), c being the exact quotient limited to [0, 1]. *)
Theorem C86_smoothstep : forall F rm s e v S E V, good_fmt F -> el F <= 16 -> 6 <= fl F -> is_real F s S -> is_real F e E -> is_real F v V -> S <> E ->
  (Rabs (E - S) <= bpow radix2 (bias F))%R -> (Rabs (V - S) <= bpow radix2 (bias F))%R -> (Rabs ((V - S) / (E - S)) <= bpow radix2 (bias F))%R ->
  let c := Rmin (Rmax ((V - S) / (E - S)) 0) 1 in
  exists r, is_real F (smoothstep F rm s e v) r /\ (Rabs (r - c ^ 2 * (3 - 2 * c)) <= 24 * bpow radix2 (- fl F))%R.
Proof.
  intros F rm s e v S E V HF HelF Hf H1 H2 H3 N B1 B2 B3 c. destruct (smoothstep_err F HF HelF Hf rm s e v S E V H1 H2 H3 N B1 B2 B3) as (r & R & D).
  exists r. split; [exact R|]. replace (c ^ 2)%R with (c * c)%R by ring. exact D.
Qed.

Example C86_ex : let i z := f_of_Z binary32 RNE z in
  rcp binary32 RNE (i (-4)) = f_pow2 binary32 true (-2) /\ rcp binary32 RDN (i 3) = 1051372202 /\ rcp binary32 RUP (i 3) = 1051372203 /\
  rcp binary32 RNE (f_zero binary32 true) = f_inf binary32 true /\
  mix binary32 RNE (i 2) (i 6) (f_pow2 binary32 false (-2)) = i 3 /\ unlerp binary32 RNE (i 2) (i 6) (i 3) = f_pow2 binary32 false (-2) /\
  smoothstep binary32 RNE (i 2) (i 6) (i 3) = f_mul binary32 RNE (i 5) (f_pow2 binary32 false (-5)) /\
  smoothstep binary32 RNE (i 2) (i 6) (i 9) = i 1 /\ 6 <= fl binary32 /\ el binary32 <= 16.
Proof. cbv zeta. repeat match goal with |- _ /\ _ => split end; vm_compute; try reflexivity; congruence. Qed.

Print Assumptions C86_rcp.
Print Assumptions C86_rcp_special.
Print Assumptions C86_mix.
Print Assumptions C86_unlerp.
Print Assumptions C86_smoothstep.
