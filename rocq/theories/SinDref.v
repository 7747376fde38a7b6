(** * sin and cos for double: the documented bound of 4 units in the last place fails *)
From Coq Require Import ZArith Lia List Bool Reals Lra.
From Flocq Require Import Core.
From Interval Require Import Tactic.
From Verif Require Import MachInt Fmt FloatSpec FmtProofs FOps ExtFloatSpec ErrLib Exp2fProofs ExpoF Trig PhInt PhReal SinD.
Import ListNotations.
Open Scope Z_scope.

Definition far_x : Z := 0x7dee009c53148be1.
Lemma far_refuted : exists V, cc_cos RNE false far_x = Some 4342197521014475536 /\ is_real D far_x (IZR 8444920710073313 * bp 939) /\ is_real D 4342197521014475536 V /\
  (11 * bp (-52) * Rabs (cos (IZR 8444920710073313 * bp 939)) < Rabs (V - cos (IZR 8444920710073313 * bp 939)))%R.
Proof.
  exists (IZR 5231079856687888 * bp (-111))%R. split; [vm_compute; reflexivity|]. split; [exact (pos_pat far_x ltac:(unfold far_x; lia))|]. split; [exact (pos_pat 4342197521014475536 ltac:(lia))|].
  destruct (ph_acc_R 8444920710073313 939 ltac:(lia) ltac:(lia)) as (_ & n & e & E & B).
  replace (aval (ph_acc 8444920710073313 939)) with 28948022309329048818759676545040171614863271326441079308995849956325196320189 in E by (vm_compute; reflexivity).
  set (X := (IZR 8444920710073313 * bp 939)%R) in *. clearbody X.
  assert (EX : X = ((PI / 8) * ((28948022309329048818759676545040171614863271326441079308995849956325196320189 + e) * bp (-252)) + 2 * IZR n * PI)%R).
  { pose proof PI_RGT_0 as HP. replace X with ((X * (8 / PI) * bp 252) * (PI / 8 * bp (-252)))%R.
    - rewrite E. replace (bp 256) with (16 * bp 252)%R by (change 256 with (4 + 252); rewrite bpow_plus; reflexivity).
      assert (Q : (bp 252 * bp (-252) = 1)%R) by (rewrite <- bpow_plus; reflexivity).
      match goal with |- (?a = ?b)%R => replace a with ((PI / 8) * ((28948022309329048818759676545040171614863271326441079308995849956325196320189 + e) * bp (-252)) + 2 * IZR n * PI * (bp 252 * bp (-252)))%R by field end. rewrite Q. ring.
    - assert (Q : (bp 252 * bp (-252) = 1)%R) by (rewrite <- bpow_plus; reflexivity).
      replace (X * (8 / PI) * bp 252 * (PI / 8 * bp (-252)))%R with (X * (bp 252 * bp (-252)))%R by (field; lra). rewrite Q. ring. }
  rewrite EX, (proj2 (sin_shift n _)). clear E EX. bpn.
  apply Rminus_lt. interval with (i_prec 300).
Qed.
