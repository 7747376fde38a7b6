(** * Numerical facts about the tables and polynomials of powf *)
From Coq Require Import ZArith Lia Reals Lra List.
From Flocq Require Import Core.

From Interval Require Import Tactic.
From Verif Require Import MachInt Fmt FloatSpec ExtFloatSpec FOps ErrLib ExpoData ExpoF Exp2fProofs LogfNum PowfData Powf.
Import ListNotations.
Open Scope Z_scope.

Definition log2 (x : R) : R := (ln x / ln 2)%R.

Definition at_d {A} (l : list A) (d : A) (i : Z) : A := nth (Z.to_nat i) l d.
Lemma at_opt_d : forall A (l : list A) d i, 0 <= i < Z.of_nat (length l) -> at_opt l i = Some (at_d l d i).
Proof. intros A l d i H. unfold at_opt. destruct (Z.ltb_spec i 0); [lia|]. apply nth_error_nth'. lia. Qed.
Definition z3 : Z * Z * Z := (0, 0, 0).
(** The i-th entries of R, LOG2_R and LOG2_R_TD. *)
Definition row1 (i : Z) := (at_d pf_RD 0 i, at_d pf_LOG2_R 0 i, at_d pf_LOG2_R_TD z3 i).
Lemma R_RD : pf_R = pf_RD. Proof. reflexivity. Qed.

Definition good1 (i : Z) (r l2 tl tm th : Z) : Prop := exists k L2 HI MID LO, is_real D r (IZR k / 512) /\ 256 <= k <= 512 /\ 2 ^ 32 - 2 ^ 24 <= (2 ^ 23 + i * 2 ^ 16) * k /\ (2 ^ 23 + (i + 1) * 2 ^ 16 - 1) * k <= 2 ^ 32 + 2 ^ 25 /\
  is_real D l2 L2 /\ is_real D th HI /\ is_real D tm MID /\ is_real D tl LO /\ (Rabs (L2 + log2 (IZR k / 512)) <= bp (-53))%R /\ (Rabs (HI + MID + log2 (IZR k / 512)) <= bp (-70))%R /\ (Rabs MID <= bp (-20))%R /\ (Rabs LO <= bp (-70))%R /\
  (i = 0 -> k = 512 /\ L2 = 0%R /\ HI = 0%R /\ MID = 0%R /\ LO = 0%R) /\ (i = 127 -> k = 256 /\ L2 = 1%R /\ HI = 1%R /\ MID = 0%R /\ LO = 0%R).
Ltac reald p := let d := eval vm_compute in (decode D p) in match d with DFin ?s ?m ?e => refine (real_dec D p s m e _ _); [split; vm_compute; congruence|vm_compute; reflexivity] end.
Lemma tab1 : forall i, 0 <= i < 128 -> let '(r, l2, (tl, tm, th)) := row1 i in good1 i r l2 tl tm th.
Proof.
  intros i Hi. zenum i 128%nat.
  all: match goal with |- context [row1 ?i] => let t := eval vm_compute in (row1 i) in change (row1 i) with t; cbv iota beta end.
  all: match goal with |- good1 ?i ?r ?l2 ?tl ?tm ?th =>
    let d := eval vm_compute in (decode D r) in match d with DFin ?s ?m ?e => let k := eval vm_compute in (m * 2 ^ 9 / 2 ^ (- e)) in exists k end;
    let v x := (let d := eval vm_compute in (decode D x) in match d with DFin ?s ?m ?e => constr:(((if s then -1 else 1) * IZR m * bp e)%R) end) in
    let a := v l2 in let b := v th in let c := v tm in let d := v tl in exists a, b, c, d; cbv iota;
    split; [match goal with |- is_real D _ ?g => let d := eval vm_compute in (decode D r) in match d with DFin ?s ?m ?e => replace g with ((if s then -1 else 1) * IZR m * bp e)%R; [reald r|cbv iota; bpn; lra] end end|];
    split; [lia|]; split; [vm_compute; congruence|]; split; [vm_compute; congruence|];
    split; [reald l2|]; split; [reald th|]; split; [reald tm|]; split; [reald tl|]
  end.
  all: bpn; unfold log2.
  all: split; [interval with (i_prec 80)|]; split; [interval with (i_prec 90)|]; split; [interval with (i_prec 60)|]; split; [interval with (i_prec 60)|]; split; intros E; try discriminate E; repeat split; lra.
Qed.

Definition good2 (j : Z) (r a b : Z) : Prop := exists n A B, is_real D r (IZR n / 65536) /\ 65028 <= n <= 65793 /\ Z.abs ((2 ^ 14 + (j - 64)) * n - 2 ^ 30) <= 2 ^ 13 /\ is_real D a A /\ is_real D b B /\
  (Rabs (B + log2 (IZR n / 65536)) <= bp (-60))%R /\ (Rabs A <= bp (-60))%R /\ (j = 64 -> n = 65536 /\ A = 0%R /\ B = 0%R).
Definition row2 (j : Z) := (at_d pf_R2 0 j, at_d pf_LOG2_R2_DD (0, 0) j).
Lemma tab2 : forall j, 0 <= j < 193 -> let '(r, (a, b)) := row2 j in good2 j r a b.
Proof.
  intros j Hj. zenum j 193%nat.
  all: match goal with |- context [row2 ?i] => let t := eval vm_compute in (row2 i) in change (row2 i) with t; cbv iota beta end.
  all: match goal with |- good2 ?i ?r ?a ?b =>
    let d := eval vm_compute in (decode D r) in match d with DFin ?s ?m ?e => let k := eval vm_compute in (m * 2 ^ 16 / 2 ^ (- e)) in exists k end;
    let v x := (let d := eval vm_compute in (decode D x) in match d with DFin ?s ?m ?e => constr:(((if s then -1 else 1) * IZR m * bp e)%R) end) in
    let c := v a in let d := v b in exists c, d; cbv iota;
    split; [match goal with |- is_real D _ ?g => let d := eval vm_compute in (decode D r) in match d with DFin ?s ?m ?e => replace g with ((if s then -1 else 1) * IZR m * bp e)%R; [reald r|cbv iota; bpn; lra] end end|];
    split; [lia|]; split; [vm_compute; congruence|]; split; [reald a|]; split; [reald b|]
  end.
  all: bpn; unfold log2.
  all: split; [interval with (i_prec 80)|]; split; [interval with (i_prec 60)|]; intros E; try discriminate E; repeat split; lra.
Qed.

Definition good3 (j : Z) (tm th : Z) : Prop := 1023 * 2 ^ 52 <= th < 1024 * 2 ^ 52 /\ exists HI MID, is_real D th HI /\ is_real D tm MID /\ (Rabs (HI - Rpower 2 (IZR j / 64)) <= bp (-53))%R /\ (Rabs MID <= bp (-53))%R /\
  (j <> 0 -> 960 * 2 ^ 52 <= mag_of D tm < 1023 * 2 ^ 52) /\ 0 <= tm < 2 ^ 64.
Lemma tab3 : forall j, 0 <= j < 64 -> let '(tl, tm, th) := at_d pf_EXP2_MID1 z3 j in good3 j tm th.
Proof.
  intros j Hj. zenum j 64%nat.
  all: match goal with |- context [at_d pf_EXP2_MID1 z3 ?i] => let t := eval vm_compute in (at_d pf_EXP2_MID1 z3 i) in change (at_d pf_EXP2_MID1 z3 i) with t; cbv iota beta end.
  all: match goal with |- good3 ?i ?a ?b =>
    let v x := (let d := eval vm_compute in (decode D x) in match d with DFin ?s ?m ?e => constr:(((if s then -1 else 1) * IZR m * bp e)%R) end) in
    let c := v b in let d := v a in split; [lia|]; exists c, d; cbv iota; split; [reald b|]; split; [reald a|]
  end.
  all: bpn; unfold Rpower.
  all: split; [interval with (i_prec 80)|]; split; [interval with (i_prec 60)|]; split; [intros N; try (exfalso; apply N; reflexivity); split; vm_compute; congruence|lia].
Qed.
