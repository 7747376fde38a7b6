(** * Counterexamples: long double through double, scalbn(long), ldexp in directed modes *)
From Coq Require Import ZArith Reals Bool Lia Lra.
From Flocq Require Import Core.
From Verif Require Import MachInt Fmt FloatSpec FmtProofs RoundProofs FOps FOpsProofs ExactOps.
From Verif Require Import FPBits Compare Nearest Fmanip FmanipProofs ScalbnProofs LdexpProofs.
Open Scope Z_scope.

Lemma fval_decode : forall F b d, decode F b = d -> fval F b = dval d.
Proof. intros F b d <-. reflexivity. Qed.
Lemma good64 : good_fmt binary64. Proof. unfold good_fmt. vm_compute. intuition discriminate. Qed.
Lemma good32 : good_fmt binary32. Proof. unfold good_fmt. vm_compute. intuition discriminate. Qed.
Lemma good128 : good_fmt binary128. Proof. unfold good_fmt. vm_compute. intuition discriminate. Qed.

(** 1 + 2^-100 in binary128 *)
Definition big_one : Z := 16383 * 2 ^ 112 + 2 ^ 12.
Definition one128 : Z := 16383 * 2 ^ 112.
Lemma big_one_ok : is_pattern binary128 big_one /\ is_fin binary128 big_one = true /\
  fval binary128 big_one <> fval binary128 one128.
Proof.
  split; [vm_compute; split; congruence | ]. split; [vm_compute; reflexivity | ].
  intros HV. assert (HN : big_one = one128); [ | vm_compute in HN; discriminate].
  apply (fval_inj binary128 good128); try (vm_compute; split; congruence); try (vm_compute; reflexivity).
  exact HV.
Qed.

Lemma modf_wide_refuted :
  is_pattern binary128 big_one /\ is_fin binary128 big_one = true /\
  (fval binary128 (snd (cc_modf_wide binary128 RNE big_one)) + fval binary128 (fst (cc_modf_wide binary128 RNE big_one))
    <> fval binary128 big_one)%R.
Proof.
  destruct big_one_ok as (P & Fi & V). split; [exact P | ]. split; [exact Fi | ]. intros HE. apply V. rewrite <- HE.
  replace (snd (cc_modf_wide binary128 RNE big_one)) with one128 by (vm_compute; reflexivity).
  replace (fst (cc_modf_wide binary128 RNE big_one)) with 0 by (vm_compute; reflexivity).
  assert (HZ : fval binary128 0 = 0%R).
  { apply (fval_zero binary128 good128); vm_compute; reflexivity. }
  rewrite HZ. ring.
Qed.
(** 2^2000 in binary128: ilogb gives INT_MAX. *)
Lemma ilogb_wide_refuted : let x := (16383 + 2000) * 2 ^ 112 in
  is_pattern binary128 x /\ is_fin binary128 x = true /\ fval binary128 x = bpow radix2 2000 /\
  forall i0 inan, cc_ilogb_wide binary128 RNE i0 inan x = Some (2 ^ 31 - 1).
Proof.
  cbv zeta. destruct (f_pow2_props binary128 good128 false 2000 ltac:(vm_compute; split; congruence)) as (P & Fi & _ & V & _).
  replace ((16383 + 2000) * 2 ^ 112) with (f_pow2 binary128 false 2000) by (vm_compute; reflexivity).
  split; [exact P | ]. split; [exact Fi | ]. split; [rewrite V; unfold sg; ring | ].
  intros i0 inan. vm_compute. reflexivity.
Qed.
Lemma frexp_wide_refuted : is_pattern binary128 big_one /\ is_fin binary128 big_one = true /\
  exists m, cc_frexp_wide binary128 RNE big_one 0 = Some (m, 1) /\
  (fval binary128 m * bpow radix2 1 <> fval binary128 big_one)%R.
Proof.
  destruct big_one_ok as (P & Fi & V). split; [exact P | ]. split; [exact Fi | ].
  exists (f_pow2 binary128 false (-1)). split; [vm_compute; reflexivity | ].
  intros HE. apply V. rewrite <- HE.
  destruct (f_pow2_props binary128 good128 false (-1) ltac:(vm_compute; split; congruence)) as (_ & _ & _ & V1 & _).
  destruct (f_pow2_props binary128 good128 false 0 ltac:(vm_compute; split; congruence)) as (_ & _ & _ & V2 & _).
  replace one128 with (f_pow2 binary128 false 0) by (vm_compute; reflexivity).
  rewrite V1, V2. rewrite Rmult_assoc, <- bpow_plus. reflexivity.
Qed.

(** scalbn(1.0, 2^32L) is 1.0. *)
Lemma scalbn_long_refuted : cc_scalbn_long binary64 RNE (f_one binary64 false) (2 ^ 32) = f_one binary64 false /\
  ~ rounded binary64 RNE (fval binary64 (f_one binary64 false) * bpow radix2 (2 ^ 32)) false (f_one binary64 false).
Proof.
  split; [vm_compute; reflexivity | ]. intros HR.
  pose proof (scalbn_fin binary64 good64 RNE (f_one binary64 false) (2 ^ 32)) as HS.
  specialize (HS ltac:(vm_compute; congruence) ltac:(vm_compute; split; congruence) ltac:(vm_compute; reflexivity)).
  replace (sign_of binary64 (f_one binary64 false)) with false in HS by (vm_compute; reflexivity).
  pose proof (rounded_unique binary64 good64 RNE _ _ _ _ HR HS) as HE. vm_compute in HE. discriminate.
Qed.

(** ldexp(1.0f, -150) rounding upwards gives 0. *)
Lemma ldexp_directed_refuted : 
  cc_ldexp binary32 RUP (f_one binary32 false) (-150) = 0 /\
  ~ rounded binary32 RUP (fval binary32 (f_one binary32 false) * bpow radix2 (-150)) false 0.
Proof.
  split; [vm_compute; reflexivity | ]. intros HR.
  pose proof (scalbn_fin binary32 good32 RUP (f_one binary32 false) (-150)) as HS.
  specialize (HS ltac:(vm_compute; congruence) ltac:(vm_compute; split; congruence) ltac:(vm_compute; reflexivity)).
  replace (sign_of binary32 (f_one binary32 false)) with false in HS by (vm_compute; reflexivity).
  pose proof (rounded_unique binary32 good32 RUP _ _ _ _ HR HS) as HE. vm_compute in HE. discriminate.
Qed.
