(** * Numerical facts about the table and the polynomial of log2f *)
From Coq Require Import ZArith Lia Reals Lra List.
From Flocq Require Import Core.
From Coquelicot Require Import Coquelicot.
From Interval Require Import Tactic.
From Verif Require Import MachInt Fmt FloatSpec ExtFloatSpec ErrLib ExpoData ExpoF Exp2fProofs LogfNum.
Import ListNotations.
Open Scope Z_scope.

Definition gA0 : R := (- (IZR 0x1712b6f70a7e4d * bp (-54)))%R.
Definition gA1 : R := (IZR 0x1ecabf496832e0 * bp (-54))%R.
Definition gA2 : R := (- (IZR 0x1715479ffae3de * bp (-53)))%R.
Definition gA3 : R := (IZR 0x1715475f35c8b8 * bp (-52))%R.
Definition gQ (r : R) : R := (gA2 + gA1 * r + gA0 * (r * r))%R.
Definition gP (r : R) : R := (gA3 * r + r * r * gQ r)%R.
Definition dgP (r : R) : R := (gA3 + 2 * gA2 * r + 3 * gA1 * (r * r) + 4 * gA0 * (r * r * r))%R.

Lemma gP_abs : forall r, (Rabs r <= 31 / 1000)%R -> (Rabs (gP r - ln (1 + r) / ln 2) <= bp (-28))%R.
Proof. intros r H. unfold gP, gQ, gA0, gA1, gA2, gA3. bpn. interval with (i_prec 60, i_bisect r, i_taylor r, i_degree 8). Qed.
Lemma gP_small : forall r, (Rabs r <= / 256)%R -> (Rabs (gP r - ln (1 + r) / ln 2) <= 77 / 100 * bp (-25) * Rabs r)%R.
Proof.
  intros r H. assert (L2 : (0 < ln 2)%R) by (interval with (i_prec 40)).
  replace (gP r - ln (1 + r) / ln 2)%R with ((gP r - ln (1 + r) / ln 2) - (gP 0 - ln (1 + 0) / ln 2))%R.
  2: { rewrite Rplus_0_r, ln_1. unfold gP. field. lra. }
  replace (Rabs r) with (Rabs (r - 0)) by (f_equal; ring).
  apply (bounded_variation (fun r => gP r - ln (1 + r) / ln 2)%R (fun r => dgP r - / (1 + r) / ln 2)%R).
  intros t Ht. rewrite !Rminus_0_r in Ht. assert (T : (Rabs t <= / 256)%R) by lra. split.
  - apply Rabs_le_inv in T. unfold gP, gQ, dgP. auto_derive; [lra|]. field. lra.
  - unfold dgP, gA0, gA1, gA2, gA3. bpn. interval with (i_prec 60, i_bisect t, i_taylor t, i_degree 5).
Qed.
Lemma gP_rel : forall r, (Rabs r <= 24 / 1000)%R -> (Rabs (gP r - ln (1 + r) / ln 2) <= 77 / 100 * bp (-25) * Rabs r)%R.
Proof.
  intros r H. destruct (Rle_or_lt (Rabs r) (/ 256)) as [S|S]; [apply gP_small; auto|].
  apply Rabs_le_inv in H. destruct (Rle_or_lt 0 r) as [Hr|Hr].
  - rewrite Rabs_pos_eq in * by auto. unfold gP, gQ, gA0, gA1, gA2, gA3. bpn. apply Rabs_le; split; apply Rminus_le;
    interval with (i_prec 60, i_bisect r, i_taylor r, i_degree 8, i_depth 12).
  - rewrite (Rabs_left r) in * by auto. assert (H' : (-24 / 1000 <= r <= - / 256)%R) by lra. clear H S Hr. unfold gP, gQ, gA0, gA1, gA2, gA3. bpn. apply Rabs_le; split; apply Rminus_le;
    interval with (i_prec 60, i_bisect r, i_taylor r, i_degree 8, i_depth 12).
Qed.

Lemma log2f_table : forall i, 0 <= i < 16 -> exists IV LV,
  is_real D (fst (at2 log2f_tab i)) IV /\ is_real D (snd (at2 log2f_tab i)) LV /\ (Rabs (LV + ln IV / ln 2) <= bp (-53))%R /\ (6 / 10 <= IV <= 15 / 10)%R /\
  (forall Z, (zl i <= Z <= zl (i + 1))%R -> (Rabs (Z * IV - 1) <= 309 / 10000)%R) /\
  (i = 9 -> IV = 1%R /\ LV = 0%R /\ forall Z, (zl i <= Z <= zl (i + 1))%R -> (Rabs (Z - 1) <= 24 / 1000)%R) /\
  (i <> 9 -> ~ (zl i <= 1 <= zl (i + 1))%R) /\
  (i <> 9 -> forall Z R, (zl i <= Z <= zl (i + 1))%R -> (Rabs (R - (Z * IV - 1)) <= bp (-50))%R ->
    (Rabs (gP R - ln (1 + R) / ln 2) + bp (-40) <= bp (-25) * Rabs ((ln (1 + R) - ln IV) / ln 2))%R).
Proof.
  intros i Hi. unfold zl. zenum i 16%nat;
  match goal with |- context [at2 log2f_tab ?i] =>
    let p := eval vm_compute in (fst (at2 log2f_tab i)) in let q := eval vm_compute in (snd (at2 log2f_tab i)) in
    change (fst (at2 log2f_tab i)) with p; change (snd (at2 log2f_tab i)) with q;
    let H1 := fresh in let H2 := fresh in realof D p H1; realof D q H2; do 2 eexists; split; [exact H1|split; [exact H2|]]; clear H1 H2;
    let a := eval vm_compute in (0x3f330000 + i * 2 ^ 19) in let b := eval vm_compute in (0x3f330000 + (i + 1) * 2 ^ 19) in
    change (0x3f330000 + i * 2 ^ 19) with a; change (0x3f330000 + (i + 1) * 2 ^ 19) with b; fvalof F32 a; fvalof F32 b
  end; bpn.
  all: (split; [interval with (i_prec 80)|split; [lra|split; [intros Z HZ; interval with (i_prec 40)|split; [|split]]]]).
  all: try (intros E; discriminate E).
  all: try (intros _; split; [lra|split; [lra|intros Z HZ; apply Rabs_le; lra]]).
  all: try (intros N; exfalso; apply N; reflexivity).
  all: try (intros _ E; lra).
  all: intros _ Z R HZ HR; match type of HR with (Rabs (R - ?t) <= _)%R => let d := fresh "d" in let E := fresh "E" in remember (R - t)%R as d eqn:E; interval_intro (t + d)%R with (i_prec 60) as RB; replace (t + d)%R with R in RB by (rewrite E; ring); clear d E HR end;
    clear HZ; unfold gP, gQ, gA0, gA1, gA2, gA3; bpn;
    match goal with |- (_ <= ?c * Rabs ?t)%R =>
      first [ assert (0 <= t)%R by interval with (i_prec 60); apply Rle_trans with (c * t)%R; [|rewrite (Rabs_pos_eq t) by assumption; apply Rle_refl]
            | assert (t <= 0)%R by interval with (i_prec 60); apply Rle_trans with (c * - t)%R; [|rewrite (Rabs_left1 t) by assumption; apply Rle_refl] ] end;
    apply abs_plus_le; apply Rminus_le; interval with (i_prec 60, i_bisect R, i_taylor R, i_degree 8).
Qed.
