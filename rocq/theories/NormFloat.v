(** * NormalizedFloat: construction and comparison *)
From Coq Require Import ZArith Lia Bool Reals Lra.
From Flocq Require Import Core.
From Verif Require Import MachInt Bits Fmt FloatSpec FmtProofs FOps FOpsProofs ExactOps FPBits Fmanip LdexpProofs.
Open Scope Z_scope.

(** The number a NormalizedFloat stands for, and the normalised ones. *)
Definition nf_value (F : fmt) (a : nfloat) : R := (sg (nf_sign a) * (IZR (nf_man a) * bpow radix2 (nf_exp a - fl F)))%R.
Definition nf_normal (F : fmt) (a : nfloat) : Prop := 2 ^ fl F <= nf_man a < 2 ^ (fl F + 1).
Definition order (x y : R) : Z := match Rcompare x y with Lt => -1 | Eq => 0 | Gt => 1 end.

Section NormFloat.
Context (F : fmt) (HF : good_fmt F).
Lemma order_lt : forall x y, (x < y)%R -> order x y = -1. Proof. intros. unfold order. rewrite Rcompare_Lt; auto. Qed.
Lemma order_gt : forall x y, (y < x)%R -> order x y = 1. Proof. intros. unfold order. rewrite Rcompare_Gt; auto. Qed.
Lemma order_eq : forall x y, x = y -> order x y = 0. Proof. intros. unfold order. rewrite Rcompare_Eq; auto. Qed.

(** Positive magnitudes are ordered by exponent, then mantissa. *)
Lemma mag_lt : forall e e' m m', 2 ^ fl F <= m < 2 ^ (fl F + 1) -> 2 ^ fl F <= m' < 2 ^ (fl F + 1) -> e < e' ->
  (IZR m * bpow radix2 (e - fl F) < IZR m' * bpow radix2 (e' - fl F))%R.
Proof.
  intros e e' m m' Hm Hm' He. pose proof (gf_fl F HF). apply Rlt_le_trans with (bpow radix2 (e + 1)).
  - replace (e + 1) with ((fl F + 1) + (e - fl F)) by lia. rewrite bpow_plus. apply Rmult_lt_compat_r; [apply bpow_gt_0|]. rewrite bpow_IZR by lia. apply IZR_lt. lia.
  - apply Rle_trans with (bpow radix2 e'); [apply bpow_le; lia|]. replace e' with (fl F + (e' - fl F)) at 1 by lia. rewrite bpow_plus.
    apply Rmult_le_compat_r; [apply bpow_ge_0|]. rewrite bpow_IZR by lia. apply IZR_le. lia.
Qed.
Lemma mag_pos : forall e m, 2 ^ fl F <= m -> (0 < IZR m * bpow radix2 (e - fl F))%R.
Proof. intros e m Hm. apply Rmult_lt_0_compat; [|apply bpow_gt_0]. apply IZR_lt. pose proof (fl_pos F HF). lia. Qed.

Theorem nf_cmp_spec : forall a b, nf_normal F a -> nf_normal F b -> nf_cmp a b = order (nf_value F a) (nf_value F b).
Proof.
  intros [s e m] [s' e' m'] Ha Hb. unfold nf_normal, nf_value, nf_cmp in *. cbn [nf_sign nf_exp nf_man] in *.
  pose proof (mag_pos e m ltac:(lia)) as P1. pose proof (mag_pos e' m' ltac:(lia)) as P2.
  destruct s, s'; cbn [Bool.eqb negb sg]; try (symmetry; first [apply order_lt; unfold sg; lra|apply order_gt; unfold sg; lra]).
  all: destruct (Z.ltb_spec e' e) as [L|L]; [pose proof (mag_lt e' e m' m Hb Ha L); symmetry; first [apply order_lt; unfold sg; lra|apply order_gt; unfold sg; lra]|].
  all: destruct (Z.eqb_spec e e') as [->|N]; [|pose proof (mag_lt e e' m m' Ha Hb ltac:(lia)); symmetry; first [apply order_lt; unfold sg; lra|apply order_gt; unfold sg; lra]].
  all: pose proof (bpow_gt_0 radix2 (e' - fl F)).
  all: destruct (Z.ltb_spec m' m) as [L2|L2]; [apply IZR_lt in L2; symmetry; first [apply order_lt; unfold sg; nra|apply order_gt; unfold sg; nra]|].
  all: destruct (Z.eqb_spec m m') as [->|N2]; [symmetry; apply order_eq; reflexivity|].
  all: assert (L3 : m < m') by lia; apply IZR_lt in L3; symmetry; first [apply order_lt; unfold sg; nra|apply order_gt; unfold sg; nra].
Qed.
Theorem nf_make_spec : forall s e m, 0 < m < 2 ^ (fl F + 1) ->
  nf_normal F (nf_make F s e m) /\ nf_value F (nf_make F s e m) = (sg s * (IZR m * bpow radix2 (e - fl F)))%R.
Proof.
  intros s e m Hm. unfold nf_make. pose proof (gf_fl F HF). pose proof (gf_el F HF). destruct (Z.leb_spec (2 ^ fl F) m) as [L|L].
  - split; [split; auto; apply Hm|reflexivity].
  - assert (Hp : prec F = fl F + 1) by reflexivity.
    destruct (norm_loop_spec F HF (Z.to_nat (fl F)) m 0 ltac:(rewrite Hp; lia)) as (j & Hj & Hr & EQ).
    { rewrite Z2Nat.id by lia. nia. }
    unfold norm_shift. rewrite EQ, Z.add_0_l, Z.shiftl_mul_pow2 by lia. cbv zeta.
    assert (HPW : 2 ^ prec F <= 2 ^ width F) by (apply Z.pow_le_mono_r; unfold width, prec; lia).
    rewrite wrap_small by (unfold inU; lia). unfold nf_normal, nf_value. cbn [nf_sign nf_exp nf_man]. rewrite <- Hp. split; [auto|].
    rewrite mult_IZR, <- bpow_IZR, Rmult_assoc, <- bpow_plus by lia. do 3 f_equal. lia.
Qed.
Theorem nf_mul2_spec : forall a k, nf_normal F a -> nf_normal F (nf_mul2 a k) /\ nf_value F (nf_mul2 a k) = (nf_value F a * bpow radix2 k)%R.
Proof.
  intros [s e m] k H. unfold nf_mul2, nf_normal, nf_value in *. cbn [nf_sign nf_exp nf_man] in *. split; auto.
  rewrite !Rmult_assoc, <- bpow_plus. do 3 f_equal. lia.
Qed.
Theorem nf_of_value : el F <= 16 -> forall x, is_pattern F x -> is_fin F x = true -> fval F x <> 0%R -> nf_normal F (nf_of F x) /\ nf_value F (nf_of F x) = fval F x.
Proof.
  intros Hel x P Fx N. destruct (nf_of_spec F HF Hel x P Fx N) as (e & m & -> & Hm & V & _). split; [exact Hm|]. rewrite V. reflexivity.
Qed.
End NormFloat.
