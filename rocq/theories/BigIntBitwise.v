(** * The bitwise operators and the quotient of BigInt *)
From Coq Require Import ZArith Lia Bool List.
From Verif Require Import MachInt Bits BigInt BigIntSpec BigIntProofs BigIntDiv BigIntHolds BigIntFree.
Import ListNotations.
Open Scope Z_scope.

Lemma wordwise_spec : forall (f : Z -> Z -> Z) (g : bool -> bool -> bool) w,
  (forall x y i, 0 <= i -> Z.testbit (f x y) i = g (Z.testbit x i) (Z.testbit y i)) ->
  (forall x y, inU w x -> inU w y -> inU w (f x y)) -> f 0 0 = 0 -> 1 <= w -> forall a b, wf w a -> wf w b -> length a = length b ->
  let r := map (fun p => f (fst p) (snd p)) (combine a b) in
  wf w r /\ length r = length a /\ bval w r = f (bval w a) (bval w b).
Proof.
  intros f g w TB UB Z0 Hw a. induction a as [|d a IH]; intros b Ha Hb Hl; destruct b as [|d' b]; try discriminate.
  - cbn. repeat split; auto. 
  - apply wf_cons in Ha. destruct Ha as [Hd Ha]. apply wf_cons in Hb. destruct Hb as [Hd' Hb].
    destruct (IH b Ha Hb ltac:(simpl in Hl; lia)) as (I1 & I2 & I3).
    cbn [combine map fst snd]. split; [constructor; auto; apply UB; auto|]. split; [simpl; auto|].
    cbn [bval]. rewrite I3. apply Z.bits_inj'. intros i Hi. rewrite TB, !tb_split by (auto; try lia; apply UB; auto).
    destruct (i <? w) eqn:E; rewrite TB; auto. lia.
Qed.

Section Holds.
Context (w : Z) (n : nat) (Hw : 1 <= w).
Lemma h_wordwise : forall (f : Z -> Z -> Z) (g : bool -> bool -> bool),
  (forall x y i, 0 <= i -> Z.testbit (f x y) i = g (Z.testbit x i) (Z.testbit y i)) ->
  (forall x y, inU w x -> inU w y -> inU w (f x y)) -> f 0 0 = 0 -> forall a b x y, holds w n a x -> holds w n b y ->
  holds w n (map (fun p => f (fst p) (snd p)) (combine a b)) (f x y).
Proof.
  intros f g TB UB Z0 a b x y (A1 & A2 & A3) (B1 & B2 & B3).
  destruct (wordwise_spec f g w TB UB Z0 Hw a b A1 B1 ltac:(lia)) as (R1 & R2 & R3).
  change (bval w a) with (words_value w a) in R3. change (bval w b) with (words_value w b) in R3. rewrite A3, B3 in R3. repeat split; auto; congruence.
Qed.
Lemma h_bitwise : forall a b x y, holds w n a x -> holds w n b y ->
  holds w n (bi_and a b) (Z.land x y) /\ holds w n (bi_or a b) (Z.lor x y) /\ holds w n (bi_xor a b) (Z.lxor x y).
Proof.
  intros a b x y Ha Hb. split; [|split].
  - apply (h_wordwise Z.land andb); auto; [intros; apply Z.land_spec|]. intros u v Hu Hv. apply inU_land; auto; [lia|]. apply Hv.
  - apply (h_wordwise Z.lor orb); auto; [intros; apply Z.lor_spec|]. intros u v Hu Hv. apply inU_lor; auto; lia.
  - apply (h_wordwise Z.lxor xorb); auto; [intros; apply Z.lxor_spec|]. intros u v Hu Hv. apply inU_lxor; auto; lia.
Qed.
End Holds.
