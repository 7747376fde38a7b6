(** * Numerical facts about the tables of the double logarithms *)
From Coq Require Import ZArith Lia Reals Lra List Bool.
From Flocq Require Import Core.
From Coquelicot Require Import Coquelicot.
From Interval Require Import Tactic.
From Verif Require Import MachInt Fmt FloatSpec ExtFloatSpec ErrLib ExpoData LogDataD ExpoF Exp2fProofs LogfNum.
Import ListNotations.
Open Scope Z_scope.

(** A pattern as an integer multiple of 2^-200. *)
Definition zv (p : Z) : Z := match decode D p with DFin s m e => (if s then - m else m) * 2 ^ (e + 200) | _ => 0 end.
Definition zok (p : Z) : bool := (0 <=? p) && (p <? 2 ^ 64) && match decode D p with DFin s m e => (-200 <=? e) | _ => false end.
Lemma zv_r : forall p, zok p = true -> is_real D p (IZR (zv p) * bp (-200)).
Proof.
  intros p H. unfold zok in H. apply andb_prop in H. destruct H as [H H3]. apply andb_prop in H. destruct H as [H1 H2]. apply Z.leb_le in H1. apply Z.ltb_lt in H2.
  destruct (decode D p) as [s m e| |] eqn:E; try discriminate. apply Z.leb_le in H3.
  assert (P : is_pattern D p) by (split; [exact H1|exact H2]). pose proof (real_dec D p s m e P E) as R. unfold zv. rewrite E.
  replace (IZR ((if s then - m else m) * 2 ^ (e + 200)) * bp (-200))%R with ((if s then -1 else 1) * IZR m * bp e)%R; [exact R|].
  rewrite mult_IZR. replace (IZR (2 ^ (e + 200))) with (bp (e + 200)) by (symmetry; apply (IZR_Zpower radix2); lia).
  replace (bp e) with (bp (e + 200) * bp (-200))%R by (rewrite <- bpow_plus; f_equal; ring). destruct s; [rewrite opp_IZR|]; ring.
Qed.

Section Tab.
Context (tab tab2 : list (Z * Z)) (b s : Z).
Definition zd (i : Z) : Z := 0x3fe6000000000000 + i * 2 ^ (52 - b).
(** One entry: c = chi + clo is the inverse of invc to 2^-106, logc a multiple of 2^-s, z - c bounded by
    2^k with 2^k * invc <= 2^-b on the interval, and r bounded. *)
Definition tab_ok (i : Z) : bool :=
  let '(iv, lc) := at2 tab i in let '(chi, clo) := at2 tab2 i in
  let a := zv iv in let l := zv lc in let h := zv chi in let c := zv clo in let z0 := zv (zd i) in let z1 := zv (zd (i + 1)) in
  zok iv && zok lc && zok chi && zok clo && zok (zd i) && zok (zd (i + 1)) &&
  (Z.abs ((h + c) * a - 2 ^ 400) <=? 2 ^ 294) && (2 ^ 199 <=? a) && (2 * a <=? 3 * 2 ^ 200) && (2 ^ 199 <=? h + c) && (h + c <=? 2 ^ 201) &&
  (l mod 2 ^ (200 - s) =? 0) && (Z.abs l <? 2 ^ 200) && (h mod 2 ^ 147 =? 0) && (Z.abs c <=? 2 ^ 147) &&
  (Z.abs (z0 - (h + c)) * a * 1000000 <=? 3895 * 2 ^ (407 - b)) && (Z.abs (z1 - (h + c)) * a * 1000000 <=? 3895 * 2 ^ (407 - b)) &&
  (((Z.abs (z0 - (h + c)) <=? 2 ^ (200 - b)) && (Z.abs (z1 - (h + c)) <=? 2 ^ (200 - b)) && (a <=? 2 ^ 200)) ||
   ((Z.abs (z0 - (h + c)) <=? 2 ^ (199 - b)) && (Z.abs (z1 - (h + c)) <=? 2 ^ (199 - b)))).
Definition tab_pairs (n : nat) : list (Z * Z) := map (fun i => (zv (snd (at2 tab (Z.of_nat i))), zv (fst (at2 tab2 (Z.of_nat i))) + zv (snd (at2 tab2 (Z.of_nat i))))) (seq 0 n).
End Tab.
Lemma logd_tab_ok : forallb (fun i => tab_ok logd_tab logd_tab2 7 43 (Z.of_nat i)) (seq 0 128) = true. Proof. vm_compute. reflexivity. Qed.
Lemma log2d_tab_ok : forallb (fun i => tab_ok log2d_tab log2d_tab2 6 42 (Z.of_nat i)) (seq 0 64) = true. Proof. vm_compute. reflexivity. Qed.

Ltac lntab := bpn; repeat apply List.Forall_cons; try apply List.Forall_nil; cbn [fst snd]; interval with (i_prec 72).
Lemma logd_tab_ln : List.Forall (fun p => Rabs (IZR (fst p) * bp (-200) - ln (IZR (snd p) * bp (-200))) <= bp (-66))%R (tab_pairs logd_tab logd_tab2 128).
Proof. let t := eval vm_compute in (tab_pairs logd_tab logd_tab2 128) in change (tab_pairs logd_tab logd_tab2 128) with t. lntab. Qed.
Lemma log2d_tab_ln : List.Forall (fun p => Rabs (IZR (fst p) * bp (-200) - ln (IZR (snd p) * bp (-200)) / ln 2) <= bp (-66))%R (tab_pairs log2d_tab log2d_tab2 64).
Proof. let t := eval vm_compute in (tab_pairs log2d_tab log2d_tab2 64) in change (tab_pairs log2d_tab log2d_tab2 64) with t. lntab. Qed.
