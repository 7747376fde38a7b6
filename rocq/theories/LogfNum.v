(** * Numerical facts about the tables and polynomials of logf and log2f *)
From Coq Require Import ZArith Lia Reals Lra List.
From Flocq Require Import Core.
From Coquelicot Require Import Coquelicot.
From Interval Require Import Tactic.
From Verif Require Import MachInt Fmt FloatSpec ExtFloatSpec ErrLib ExpoData ExpoF Exp2fProofs.
Import ListNotations.
Open Scope Z_scope.

Lemma ln1p_upper : forall r, (-1 < r -> ln (1 + r) <= r)%R.
Proof. intros r H. rewrite <- (ln_exp r) at 2. apply Rcomplements.ln_le; [lra|]. apply exp_ineq1_le. Qed.
Lemma ln1p_lower : forall r, (-1 < r -> r / (1 + r) <= ln (1 + r))%R.
Proof.
  intros r H. assert (0 < 1 + r)%R by lra. pose proof (ln1p_upper (- r / (1 + r))) as U.
  replace (1 + - r / (1 + r))%R with (/ (1 + r))%R in U by (field; lra). rewrite ln_Rinv in U by auto.
  assert (-1 < - r / (1 + r))%R. { apply Rmult_lt_reg_r with (1 + r)%R; [auto|]. replace (- r / (1 + r) * (1 + r))%R with (- r)%R by (field; lra). lra. }
  specialize (U H1). replace (- r / (1 + r))%R with (- (r / (1 + r)))%R in U by (field; lra). lra.
Qed.
Lemma ln1p_abs : forall r, (Rabs r <= 3 / 100 -> 97 / 100 * Rabs r <= Rabs (ln (1 + r)))%R.
Proof.
  intros r H. apply Rabs_le_inv in H. destruct (Rle_or_lt 0 r) as [Hr|Hr].
  - rewrite (Rabs_pos_eq r) by auto. pose proof (ln1p_lower r ltac:(lra)) as L.
    assert (97 / 100 * r <= r / (1 + r))%R. { apply Rmult_le_reg_r with (1 + r)%R; [lra|]. replace (r / (1 + r) * (1 + r))%R with r by (field; lra). nra. }
    rewrite Rabs_pos_eq; nra.
  - rewrite (Rabs_left r) by auto. pose proof (ln1p_upper r ltac:(lra)). rewrite Rabs_left1 by lra. lra.
Qed.

(** ** logf *)
Definition lA0 : R := (- (IZR 0x100ea348b88334 * bp (-54)))%R.
Definition lA1 : R := (IZR 0x15575b0be00b6a * bp (-54))%R.
Definition lA2 : R := (- (IZR 0x1ffffef20a4123 * bp (-54)))%R.
Definition lQ (r : R) : R := (lA2 + lA1 * r + lA0 * (r * r))%R.
Definition lP (r : R) : R := (r + r * r * lQ r)%R.
Definition dlP (r : R) : R := (1 + 2 * lA2 * r + 3 * lA1 * (r * r) + 4 * lA0 * (r * r * r))%R.

Lemma lP_abs : forall r, (Rabs r <= 31 / 1000)%R -> (Rabs (lP r - ln (1 + r)) <= bp (-28))%R.
Proof. intros r H. unfold lP, lQ, lA0, lA1, lA2. bpn. interval with (i_prec 60, i_bisect r, i_taylor r, i_degree 8). Qed.
Lemma lP_small : forall r, (Rabs r <= / 256)%R -> (Rabs (lP r - ln (1 + r)) <= 7 / 10 * bp (-25) * Rabs r)%R.
Proof.
  intros r H. replace (lP r - ln (1 + r))%R with ((lP r - ln (1 + r)) - (lP 0 - ln (1 + 0)))%R.
  2: { rewrite Rplus_0_r, ln_1. unfold lP. ring. }
  replace (Rabs r) with (Rabs (r - 0)) by (f_equal; ring).
  apply (bounded_variation (fun r => lP r - ln (1 + r))%R (fun r => dlP r - / (1 + r))%R).
  intros t Ht. rewrite !Rminus_0_r in Ht. assert (T : (Rabs t <= / 256)%R) by lra. split.
  - apply Rabs_le_inv in T. unfold lP, lQ, dlP. auto_derive; [lra|]. field. lra.
  - unfold dlP, lA0, lA1, lA2. bpn. interval with (i_prec 60, i_bisect t, i_taylor t, i_degree 5).
Qed.
Lemma lP_rel : forall r, (Rabs r <= 24 / 1000)%R -> (Rabs (lP r - ln (1 + r)) <= 7 / 10 * bp (-25) * Rabs r)%R.
Proof.
  intros r H. destruct (Rle_or_lt (Rabs r) (/ 256)) as [S|S]; [apply lP_small; auto|].
  apply Rabs_le_inv in H. destruct (Rle_or_lt 0 r) as [Hr|Hr].
  - rewrite Rabs_pos_eq in * by auto. unfold lP, lQ, lA0, lA1, lA2. bpn. apply Rabs_le; split; apply Rminus_le;
    interval with (i_prec 60, i_bisect r, i_taylor r, i_degree 8, i_depth 12).
  - rewrite (Rabs_left r) in * by auto. assert (H' : (-24 / 1000 <= r <= - / 256)%R) by lra. clear H S Hr. unfold lP, lQ, lA0, lA1, lA2. bpn. apply Rabs_le; split; apply Rminus_le;
    interval with (i_prec 60, i_bisect r, i_taylor r, i_degree 8, i_depth 12).
Qed.

Lemma real_dec : forall F p s m e, is_pattern F p -> decode F p = DFin s m e -> is_real F p ((if s then -1 else 1) * IZR m * bp e).
Proof.
  intros F p s m e P H. split; [auto|]. split.
  - unfold decode, is_fin in *. destruct (mag_of F p <? inf_mag F); [auto|]. destruct (mag_of F p =? inf_mag F); discriminate.
  - unfold fval. rewrite H. reflexivity.
Qed.
Ltac realof F p H := let d := eval vm_compute in (decode F p) in match d with DFin ?s ?m ?e =>
  assert (H := real_dec F p s m e ltac:(split; vm_compute; congruence) ltac:(vm_compute; reflexivity)); cbv iota in H end.
Ltac fvalof F p := let d := eval vm_compute in (decode F p) in match d with DFin ?s ?m ?e =>
  replace (fval F p) with ((if s then -1 else 1) * IZR m * bp e)%R in * by (unfold fval; replace (decode F p) with d by (vm_compute; reflexivity); reflexivity); cbv iota in * end.

Lemma abs_plus_le : forall g c b, (g + c <= b -> - g + c <= b -> Rabs g + c <= b)%R.
Proof. intros g c b H1 H2. unfold Rabs. destruct (Rcase_abs g); lra. Qed.

(** The end points of the intervals of the table. *)
Definition zl (i : Z) : R := fval F32 (0x3f330000 + i * 2 ^ 19).

Lemma logf_table : forall i, 0 <= i < 16 -> exists IV LV,
  is_real D (fst (at2 logf_tab i)) IV /\ is_real D (snd (at2 logf_tab i)) LV /\ (Rabs (LV + ln IV) <= bp (-54))%R /\ (6 / 10 <= IV <= 15 / 10)%R /\
  (forall Z, (zl i <= Z <= zl (i + 1))%R -> (Rabs (Z * IV - 1) <= 309 / 10000)%R) /\
  (i = 9 -> IV = 1%R /\ LV = 0%R /\ forall Z, (zl i <= Z <= zl (i + 1))%R -> (Rabs (Z - 1) <= 24 / 1000)%R) /\
  (i <> 9 -> forall Z R, (zl i <= Z <= zl (i + 1))%R -> (Rabs (R - (Z * IV - 1)) <= bp (-50))%R ->
    (Rabs (lP R - ln (1 + R)) + bp (-40) <= bp (-25) * Rabs (ln (1 + R) - ln IV))%R).
Proof.
  intros i Hi. unfold zl. zenum i 16%nat;
  match goal with |- context [at2 logf_tab ?i] =>
    let p := eval vm_compute in (fst (at2 logf_tab i)) in let q := eval vm_compute in (snd (at2 logf_tab i)) in
    change (fst (at2 logf_tab i)) with p; change (snd (at2 logf_tab i)) with q;
    let H1 := fresh in let H2 := fresh in realof D p H1; realof D q H2; do 2 eexists; split; [exact H1|split; [exact H2|]]; clear H1 H2;
    let a := eval vm_compute in (0x3f330000 + i * 2 ^ 19) in let b := eval vm_compute in (0x3f330000 + (i + 1) * 2 ^ 19) in
    change (0x3f330000 + i * 2 ^ 19) with a; change (0x3f330000 + (i + 1) * 2 ^ 19) with b; fvalof F32 a; fvalof F32 b
  end; bpn.
  all: (split; [interval with (i_prec 80)|split; [lra|split; [intros Z HZ; interval with (i_prec 40)|split]]]).
  all: try (intros E; discriminate E).
  all: try (intros _; split; [lra|split; [lra|intros Z HZ; apply Rabs_le; lra]]).
  all: try (intros N; exfalso; apply N; reflexivity).
  all: intros _ Z R HZ HR; match type of HR with (Rabs (R - ?t) <= _)%R => let d := fresh "d" in let E := fresh "E" in remember (R - t)%R as d eqn:E; interval_intro (t + d)%R with (i_prec 60) as RB; replace (t + d)%R with R in RB by (rewrite E; ring); clear d E HR end;
    clear HZ; unfold lP, lQ, lA0, lA1, lA2; bpn;
    match goal with |- (_ <= ?c * Rabs ?t)%R =>
      first [ assert (0 <= t)%R by interval with (i_prec 60); apply Rle_trans with (c * t)%R; [|rewrite (Rabs_pos_eq t) by assumption; apply Rle_refl]
            | assert (t <= 0)%R by interval with (i_prec 60); apply Rle_trans with (c * - t)%R; [|rewrite (Rabs_left1 t) by assumption; apply Rle_refl] ] end;
    apply abs_plus_le; apply Rminus_le; interval with (i_prec 60, i_bisect R, i_taylor R, i_degree 8).
Qed.
