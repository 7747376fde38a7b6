(** * Numerical facts about the sin and cos polynomials and tables *)
From Coq Require Import ZArith Lia List Bool Reals Lra.
From Flocq Require Import Core.
From Interval Require Import Tactic.
From Verif Require Import ErrLib Exp2fProofs Expm1Proofs.
Import ListNotations.
Open Scope R_scope.

Fixpoint zfact (n : nat) : Z := match n with O => 1%Z | S m => (Z.of_nat n * zfact m)%Z end.
Lemma fact_z : forall n, INR (fact n) = IZR (zfact n).
Proof.
  induction n as [|n IH]; [reflexivity|]. change (fact (S n)) with (S n * fact n)%nat. rewrite mult_INR, IH, INR_IZR_INZ, <- mult_IZR. reflexivity.
Qed.
Definition T11 (y : R) : R := y - y ^ 3 / 6 + y ^ 5 / 120 - y ^ 7 / 5040 + y ^ 9 / 362880 - y ^ 11 / 39916800.
Lemma sin_T11_pos : forall y, 0 <= y <= 1 -> Rabs (sin y - T11 y) <= y ^ 13 / 6227020800.
Proof.
  intros y Hy. destruct (pre_sin_bound y 2) as (A & B); [lra|lra|].
  change (2 * 2 + 1)%nat with 5%nat in A. change (2 * (2 + 1))%nat with 6%nat in B. unfold sin_approx, sin_term in A, B. cbn [sum_f_R0] in A, B.
  cbn [Nat.mul Nat.add] in A, B. rewrite !fact_z in A. rewrite !fact_z in B.
  let z v n := (let e := eval vm_compute in (zfact n) in change (zfact n) with e in v) in
  (z A 1%nat; z A 3%nat; z A 5%nat; z A 7%nat; z A 9%nat; z A 11%nat; z B 1%nat; z B 3%nat; z B 5%nat; z B 7%nat; z B 9%nat; z B 11%nat; z B 13%nat).
  replace ((-1) ^ 0) with 1 in * by ring. replace ((-1) ^ 1) with (-1) in * by ring. replace ((-1) ^ 2) with 1 in * by ring. replace ((-1) ^ 3) with (-1) in * by ring.
  replace ((-1) ^ 4) with 1 in * by ring. replace ((-1) ^ 5) with (-1) in * by ring. replace ((-1) ^ 6) with 1 in * by ring. rewrite pow_1 in *.
  assert (0 <= y ^ 13) by (apply pow_le; lra). unfold T11.
  set (y3 := y ^ 3) in *. set (y5 := y ^ 5) in *. set (y7 := y ^ 7) in *. set (y9 := y ^ 9) in *. set (y11 := y ^ 11) in *. set (y13 := y ^ 13) in *.
  clearbody y3 y5 y7 y9 y11 y13. apply Rabs_le. lra.
Qed.

(** the polynomials of the double kernel *)
Definition sinC : list R := [ IZR (-0x15555555555555) * bp (-55); IZR 0x11111111111111 * bp (-59); IZR (-0x1a01a01a01a01a) * bp (-65); IZR 0x171de3a556c734 * bp (-71); IZR (-0x1ae64567f544e4) * bp (-78) ].
Definition cosC : list R := [ IZR (-1) * bp (-1); IZR 0x155555555554f * bp (-53); IZR (-0x16c16c16b84c68) * bp (-62); IZR 0x1a019f88d4441e * bp (-68); IZR (-0x127a8a5f9090d7) * bp (-74) ].
Lemma sin_poly_err : forall y, Rabs y <= 0.2 -> Rabs (sin y - (y + y ^ 3 * hr (y ^ 2) sinC)) <= bp (-58) * Rabs y.
Proof.
  assert (P : forall y, 0 <= y <= 0.2 -> Rabs (sin y - (y + y ^ 3 * hr (y ^ 2) sinC)) <= bp (-58) * y).
  { intros y Hy. pose proof (sin_T11_pos y ltac:(lra)) as S.
    assert (Q : exists q, y ^ 13 / 6227020800 = q * y /\ 0 <= q <= / 1000000000000000000).
    { exists (y ^ 12 / 6227020800). split; [field|]. split; [apply Rmult_le_pos; [apply pow_le; lra|lra]|]. interval with (i_prec 60). }
    assert (E : exists d, T11 y - (y + y ^ 3 * hr (y ^ 2) sinC) = d * y /\ Rabs d <= / 500000000000000000).
    { eexists (- y ^ 2 / 6 + y ^ 4 / 120 - y ^ 6 / 5040 + y ^ 8 / 362880 - y ^ 10 / 39916800 - y ^ 2 * hr (y ^ 2) sinC). split; [unfold T11; field|].
      cbn [hr sinC]. bpn. interval with (i_prec 90, i_taylor y, i_degree 12). }
    destruct Q as (q & EQ & RQ), E as (d & ED & RD). rewrite EQ in S. replace (sin y - (y + y ^ 3 * hr (y ^ 2) sinC)) with ((sin y - T11 y) + d * y) by lra.
    apply Rle_trans with (1 := Rabs_triang _ _). rewrite Rabs_mult, (Rabs_pos_eq y) by lra. assert (Rabs d * y <= / 500000000000000000 * y) by (apply Rmult_le_compat_r; lra).
    assert (q * y <= / 1000000000000000000 * y) by (apply Rmult_le_compat_r; lra). bpn. lra. }
  intros y Hy. destruct (Rle_lt_dec 0 y) as [L|L].
  - rewrite (Rabs_pos_eq y) in * by lra. apply P. lra.
  - rewrite (Rabs_left y) in * by lra. specialize (P (- y) ltac:(lra)). rewrite sin_neg in P.
    replace (- sin y - (- y + (- y) ^ 3 * hr ((- y) ^ 2) sinC)) with (- (sin y - (y + y ^ 3 * hr (y ^ 2) sinC))) in P. { rewrite Rabs_Ropp in P. exact P. }
    replace ((- y) ^ 2) with (y ^ 2) by ring. ring.
Qed.
Lemma cos_poly_err : forall y, Rabs y <= 0.1965 -> Rabs (cos y - (1 + y ^ 2 * hr (y ^ 2) cosC)) <= bp (-60).
Proof.
  intros y Hy. apply Rabs_le_inv in Hy. cbn [hr cosC]. bpn. interval with (i_prec 100, i_taylor y, i_degree 16, i_bisect y).
Qed.
