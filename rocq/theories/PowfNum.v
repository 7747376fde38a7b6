(** * The polynomials of powf *)
From Coq Require Import ZArith Lia Reals Lra List.
From Flocq Require Import Core.
From Coquelicot Require Import Coquelicot.
From Interval Require Import Tactic.
From Verif Require Import MachInt Fmt FloatSpec ExtFloatSpec ErrLib ExpoData Exp2fProofs Expm1Proofs LogfNum PowfTab.
Import ListNotations.
Open Scope Z_scope.

(** The (upper parts of the) coefficients. *)
Definition rl : list R := [ IZR 0x171547652b82fe * bp (-52); IZR (-0x171547652b7a07) * bp (-53); IZR 0x1ec709dc458db1 * bp (-54); IZR (-0x1715479c2266c9) * bp (-54); IZR 0x12776ae1ddf8f0 * bp (-54); IZR (-0x1e7b2178870157) * bp (-55) ]%R.
Definition re : list R := [ IZR 1 * bp 0; IZR 0x162e42fefa39ef * bp (-59); IZR 0x1ebfbdff82a23a * bp (-67); IZR 0x1c6b08d7076268 * bp (-75); IZR 0x13b2ad33f8b48b * bp (-83); IZR 0x15d870c4d84445 * bp (-92) ]%R.
Definition rdl : list R := [ IZR 0x171547652b82fe * bp (-52); IZR (-0x171547652b82fe) * bp (-53); IZR 0x1ec709dc3a03fd * bp (-54); IZR (-0x171547652b82fb) * bp (-54); IZR 0x12776c516a92a2 * bp (-54); IZR (-0x1ec70af1929ca6) * bp (-55) ]%R.
Definition rde : list R := [ IZR 1 * bp 0; IZR 0x162e42fefa39ef * bp (-59); IZR 0x1ebfbdff82c58f * bp (-67); IZR 0x1c6b08d704a0c0 * bp (-75); IZR 0x13b2ab6fba4e77 * bp (-83); IZR 0x15d87fe78a6731 * bp (-92); IZR 0x1430912f86bfb8 * bp (-101); IZR 0x1ffcbfc588ded9 * bp (-111); IZR 0x162c034beb8339 * bp (-120); IZR 0x1b5251ff97bee1 * bp (-130) ]%R.
Fixpoint dhr (X : R) (cs : list R) : R := match cs with [] => 0%R | c :: cs => (hr X cs + X * dhr X cs)%R end.
Lemma log_poly : forall t, (Rabs t <= / 128)%R -> (Rabs (t * hr t rl - log2 (1 + t)) <= bp (-40) * Rabs t)%R.
Proof.
  intros t H. unfold log2. replace (t * hr t rl - ln (1 + t) / ln 2)%R with ((t * hr t rl - ln (1 + t) / ln 2) - (0 * hr 0 rl - ln (1 + 0) / ln 2))%R.
  2: { rewrite Rplus_0_r, ln_1. unfold Rdiv. ring. }
  assert (L2 : (0 < ln 2)%R) by (rewrite <- ln_1; apply ln_increasing; lra).
  replace (Rabs t) with (Rabs (t - 0)) by (f_equal; ring).
  apply (bounded_variation (fun t => t * hr t rl - ln (1 + t) / ln 2)%R (fun t => hr t rl + t * dhr t rl - / (1 + t) / ln 2)%R).
  intros s Hs. rewrite !Rminus_0_r in Hs. assert (T : (Rabs s <= / 128)%R) by lra. split.
  - apply Rabs_le_inv in T. unfold rl. cbn [hr dhr].
    repeat match goal with |- context [(IZR ?a * bp ?b)%R] => generalize (IZR a * bp b)%R; intro end. auto_derive; [lra|]. field. split; lra.
  - unfold rl. cbn [hr dhr]. bpn. interval with (i_prec 80, i_bisect s, i_taylor s, i_degree 8).
Qed.
Lemma dd_log_poly : forall t, (Rabs t <= / 8192)%R -> (Rabs (t * hr t rdl - log2 (1 + t)) <= bp (-50) * Rabs t)%R.
Proof.
  intros t H. unfold log2. replace (t * hr t rdl - ln (1 + t) / ln 2)%R with ((t * hr t rdl - ln (1 + t) / ln 2) - (0 * hr 0 rdl - ln (1 + 0) / ln 2))%R.
  2: { rewrite Rplus_0_r, ln_1. unfold Rdiv. ring. }
  assert (L2 : (0 < ln 2)%R) by (rewrite <- ln_1; apply ln_increasing; lra).
  replace (Rabs t) with (Rabs (t - 0)) by (f_equal; ring).
  apply (bounded_variation (fun t => t * hr t rdl - ln (1 + t) / ln 2)%R (fun t => hr t rdl + t * dhr t rdl - / (1 + t) / ln 2)%R).
  intros s Hs. rewrite !Rminus_0_r in Hs. assert (T : (Rabs s <= / 8192)%R) by lra. split.
  - apply Rabs_le_inv in T. unfold rdl. cbn [hr dhr]. repeat match goal with |- context [(IZR ?a * bp ?b)%R] => generalize (IZR a * bp b)%R; intro end. auto_derive; [lra|]. field. split; lra.
  - unfold rdl. cbn [hr dhr]. bpn. interval with (i_prec 80, i_bisect s, i_taylor s, i_degree 6).
Qed.
Lemma exp_poly : forall t, (Rabs t <= 1)%R -> (Rabs (hr t re - Rpower 2 (t / 64)) <= bp (-40))%R.
Proof. intros t H. unfold re, Rpower. cbn [hr]. bpn. interval with (i_prec 80, i_bisect t, i_taylor t, i_degree 8). Qed.
Lemma exp_poly_far : forall t, (Rabs t <= 10)%R -> (0.8 <= hr t re <= 1.2)%R.
Proof. intros t H. unfold re. cbn [hr]. bpn. split; interval with (i_prec 60, i_bisect t). Qed.
Lemma dd_exp_poly : forall t, (Rabs t <= 1)%R -> (Rabs (hr t rde - Rpower 2 (t / 64)) <= bp (-45))%R.
Proof. intros t H. unfold rde, Rpower. cbn [hr]. bpn. interval with (i_prec 80, i_bisect t, i_taylor t, i_degree 8). Qed.
(** Exponents near each other. *)
Lemma pow_near : forall s, (Rabs s <= / 100)%R -> (Rabs (Rpower 2 s - 1) <= 0.7 * Rabs s)%R.
Proof.
  intros s H. replace (Rpower 2 s - 1)%R with (Rpower 2 s - Rpower 2 0)%R by (rewrite Rpower_O by lra; reflexivity). replace (Rabs s) with (Rabs (s - 0)) by (f_equal; ring).
  apply (bounded_variation (fun s => Rpower 2 s) (fun s => ln 2 * exp (s * ln 2))%R).
  intros t Ht. rewrite !Rminus_0_r in Ht. split.
  - unfold Rpower. auto_derive; [auto|]. ring.
  - assert (T : (Rabs t <= / 100)%R) by lra. interval with (i_prec 40).
Qed.
