(** * sin and cos: the reconstruction from the reduced argument, on the reals *)
From Coq Require Import ZArith Lia List Bool Reals Lra.
From Flocq Require Import Core.
From Interval Require Import Tactic.
From Verif Require Import SinPoly.
Open Scope R_scope.

(** the Lipschitz bounds *)
Lemma sin_lip : forall a b, Rabs (sin a - sin b) <= Rabs (a - b).
Proof.
  intros a b. destruct (MVT_abs sin cos b a) as (c & E & _). { intros c _. apply derivable_pt_lim_sin. }
  rewrite E. pose proof (Rabs_pos (a - b)). assert (Rabs (cos c) <= 1) by (apply Rabs_le; apply COS_bound). nra.
Qed.
Lemma cos_lip : forall a b, Rabs (cos a - cos b) <= Rabs (a - b).
Proof.
  intros a b. destruct (MVT_abs cos (fun x => - sin x) b a) as (c & E & _). { intros c _. apply derivable_pt_lim_cos. }
  rewrite E. pose proof (Rabs_pos (a - b)). assert (Rabs (- sin c) <= 1) by (rewrite Rabs_Ropp; apply Rabs_le; apply SIN_bound). nra.
Qed.
Lemma sin_small : forall w, Rabs w <= 0.1964 -> 0.98 * Rabs w <= Rabs (sin w) <= Rabs w.
Proof.
  intros w Hw. destruct (MVT_abs sin cos 0 w) as (c & E & Hc). { intros c _. apply derivable_pt_lim_sin. }
  rewrite sin_0, !Rminus_0_r in E. rewrite E. pose proof (Rabs_pos w). apply Rabs_le_inv in Hw.
  assert (Bc : -0.1964 <= c <= 0.1964) by (revert Hc; unfold Rmin, Rmax; destruct (Rle_dec 0 w); lra).
  assert (C0 : 0.98 <= cos c) by (interval with (i_prec 40)). pose proof (COS_bound c). rewrite (Rabs_pos_eq (cos c)) by lra. nra.
Qed.
Lemma sin_b : forall w, Rabs w <= 0.1964 -> Rabs (sin w) <= 0.1953 /\ 0.9807 <= cos w <= 1.
Proof. intros w Hw. apply Rabs_le_inv in Hw. split; [|split; [|apply COS_bound]]; interval with (i_prec 40). Qed.

(** A table entry pair (sk, ck) for (s, c) = (sin, cos) of a multiple of pi/8. *)
Definition tab_ok (u s c sk ck : R) : Prop :=
  (sk = 0 /\ s = 0 /\ ck = c /\ Rabs c = 1) \/
  (0.382 <= Rabs s <= 0.383 /\ 0.923 <= Rabs c <= 0.925 /\ Rabs (sk - s) <= / 4 * u /\ Rabs (ck - c) <= / 2 * u) \/
  (0.7 <= Rabs s <= 1 /\ Rabs c <= 0.71 /\ Rabs (sk - s) <= / 2 * u /\ Rabs (ck - c) <= / 2 * u).

Lemma recon : forall u eta tau w Y S C s c sk ck A B R0, 0 < u <= / 8000000 -> 0 < eta <= / 1000000 * u -> 0 <= tau <= / 100000 ->
  Rabs w <= 0.1964 -> Rabs (Y - w) <= 2.002 * u * Rabs w + tau ->
  Rabs (S - sin Y) <= 1.35 * u * Rabs Y + 4 * eta -> Rabs (C - cos Y) <= 1.25 * u -> tab_ok u s c sk ck ->
  Rabs (A - ck * S) <= u * Rabs (ck * S) + eta -> Rabs (B - sk * C) <= u * Rabs (sk * C) + eta -> Rabs (R0 - (A + B)) <= u * Rabs (A + B) + eta ->
  Rabs (A + B) <= 3 /\ Rabs (R0 - (s * cos w + c * sin w)) <= 13 * u * Rabs (s * cos w + c * sin w) + 2 * tau + 9 * eta.
Proof.
  intros u eta tau w Y S C s c sk ck A B R0 U E T HW HY HS HC HT HA HB HR.
  pose proof (sin_small w HW) as SW. destruct (sin_b w HW) as (SB & CB).
  pose proof (Rabs_pos w) as AW. assert (UW : 0 <= u * Rabs w <= 0.1964 * u) by nra.
  assert (YB : Rabs Y <= Rabs w + 2.002 * u * Rabs w + tau). { replace Y with ((Y - w) + w) by ring. pose proof (Rabs_triang (Y - w) w). lra. }
  assert (UY : u * Rabs Y <= 1.000001 * (u * Rabs w) + / 1000000 * tau).
  { apply Rle_trans with (u * (Rabs w + 2.002 * u * Rabs w + tau)); [apply Rmult_le_compat_l; lra|].
    assert (u * (u * Rabs w) <= / 8000000 * (u * Rabs w)) by (apply Rmult_le_compat_r; lra). assert (u * tau <= / 8000000 * tau) by (apply Rmult_le_compat_r; lra). lra. }
  assert (DS : Rabs (S - sin w) <= 3.353 * (u * Rabs w) + 1.00001 * tau + 4 * eta).
  { replace (S - sin w) with ((S - sin Y) + (sin Y - sin w)) by ring. pose proof (Rabs_triang (S - sin Y) (sin Y - sin w)). pose proof (sin_lip Y w). lra. }
  assert (DC : Rabs (C - cos w) <= 1.644 * u + tau).
  { replace (C - cos w) with ((C - cos Y) + (cos Y - cos w)) by ring. pose proof (Rabs_triang (C - cos Y) (cos Y - cos w)). pose proof (cos_lip Y w). lra. }
  assert (SA : Rabs S <= Rabs (sin w) + 3.353 * (u * Rabs w) + 1.00001 * tau + 4 * eta). { replace S with ((S - sin w) + sin w) by ring. pose proof (Rabs_triang (S - sin w) (sin w)). lra. }
  assert (CA : Rabs C <= 1 + 1.644 * u + tau). { replace C with ((C - cos w) + cos w) by ring. pose proof (Rabs_triang (C - cos w) (cos w)). rewrite (Rabs_pos_eq (cos w)) in H by lra. lra. }
  assert (UT : 0 <= u * tau <= / 8000000 * tau) by (split; [apply Rmult_le_pos; lra|apply Rmult_le_compat_r; lra]).
  assert (UU : 0 <= u * u <= / 8000000 * u) by (split; [apply Rmult_le_pos; lra|apply Rmult_le_compat_r; lra]).
  assert (UE : 0 <= u * eta <= / 8000000 * eta) by (split; [apply Rmult_le_pos; lra|apply Rmult_le_compat_r; lra]).
  set (t := s * cos w + c * sin w).
  assert (DEC : forall rest, Rabs (A + B - t) <= rest -> rest <= 0.01 -> Rabs t <= 1.5 -> Rabs (A + B) <= 3 /\ Rabs (R0 - t) <= u * Rabs t + (1 + u) * rest + eta).
  { intros rest HR1 HR2 HT1. assert (AB : Rabs (A + B) <= Rabs t + rest). { replace (A + B) with ((A + B - t) + t) by ring. pose proof (Rabs_triang (A + B - t) t). lra. }
    split; [lra|]. replace (R0 - t) with ((R0 - (A + B)) + (A + B - t)) by ring. pose proof (Rabs_triang (R0 - (A + B)) (A + B - t)).
    assert (u * Rabs (A + B) <= u * (Rabs t + rest)) by (apply Rmult_le_compat_l; lra). lra. }
  assert (ST : A + B - t = (A - ck * S) + (B - sk * C) + ck * (S - sin w) + (ck - c) * sin w + sk * (C - cos w) + (sk - s) * cos w) by (unfold t; ring).
  assert (TR : forall a b d e f g, Rabs (a + b + d + e + f + g) <= Rabs a + Rabs b + Rabs d + Rabs e + Rabs f + Rabs g).
  { intros. pose proof (Rabs_triang (a + b + d + e + f) g). pose proof (Rabs_triang (a + b + d + e) f). pose proof (Rabs_triang (a + b + d) e). pose proof (Rabs_triang (a + b) d). pose proof (Rabs_triang a b). lra. }
  pose proof (TR (A - ck * S) (B - sk * C) (ck * (S - sin w)) ((ck - c) * sin w) (sk * (C - cos w)) ((sk - s) * cos w)) as TT. rewrite <- ST in TT.
  assert (CWA : Rabs (cos w) <= 1) by (apply Rabs_le; lra).
  destruct HT as [(-> & -> & -> & C1)|[(B1 & B2 & B3 & B4)|(B1 & B2 & B3 & B4)]].
  - rewrite Rminus_eq_0, !Rmult_0_l, Rabs_R0 in TT. rewrite Rmult_0_l, Rabs_R0, Rmult_0_r in HB. rewrite !Rabs_mult, C1, !Rmult_1_l in *.
    assert (ET : Rabs t = Rabs (sin w)) by (unfold t; rewrite Rmult_0_l, Rplus_0_l, Rabs_mult, C1; ring).
    assert (US : u * Rabs S <= u * (Rabs (sin w) + 3.353 * (u * Rabs w) + 1.00001 * tau + 4 * eta)) by (apply Rmult_le_compat_l; lra).
    assert (UUW : 0 <= u * (u * Rabs w) <= / 8000000 * (u * Rabs w)) by (split; [apply Rmult_le_pos; lra|apply Rmult_le_compat_r; lra]).
    rewrite Rminus_eq_0, Rabs_R0 in TT.
    assert (UT2 : 0.98 * (u * Rabs w) <= u * Rabs (sin w)) by nra.
    destruct (DEC (u * Rabs (sin w) + 3.36 * (u * Rabs w) + 1.0001 * tau + 6.1 * eta)) as (K1 & K2); [lra| |rewrite ET; lra|].
    { assert (u * Rabs (sin w) <= u * 1) by (apply Rmult_le_compat_l; lra). lra. }
    split; [exact K1|]. rewrite ET in *. 
    assert (UST : 0 <= u * (u * Rabs (sin w)) <= / 8000000 * (u * Rabs (sin w))) by (assert (0 <= u * Rabs (sin w)) by (apply Rmult_le_pos; [lra|apply Rabs_pos]); split; [apply Rmult_le_pos; lra|apply Rmult_le_compat_r; lra]).
    lra.
  - assert (SK : Rabs sk <= 0.3831). { replace sk with ((sk - s) + s) by ring. pose proof (Rabs_triang (sk - s) s). lra. }
    assert (CK : Rabs ck <= 0.9251). { replace ck with ((ck - c) + c) by ring. pose proof (Rabs_triang (ck - c) c). lra. }
    assert (TB : 0.1939 <= Rabs t <= 1.5).
    { unfold t. split.
      - pose proof (Rabs_triang_inv (s * cos w) (- (c * sin w))) as I. rewrite Rabs_Ropp, (Rabs_mult s), (Rabs_mult c) in I. replace (s * cos w - - (c * sin w)) with (s * cos w + c * sin w) in I by ring.
        assert (0.382 * 0.9807 <= Rabs s * Rabs (cos w)) by (apply Rmult_le_compat; try lra; rewrite Rabs_pos_eq; lra). assert (Rabs c * Rabs (sin w) <= 0.925 * 0.1953) by (apply Rmult_le_compat; try lra; apply Rabs_pos). lra.
      - pose proof (Rabs_triang (s * cos w) (c * sin w)). pose proof (rm_le _ _ _ _ (proj2 B1) CWA). pose proof (rm_le _ _ _ _ (proj2 B2) SB). lra. }
    pose proof (rm_le _ _ _ _ CK SA) as K1. pose proof (rm_le _ _ _ _ SK CA) as K2.
    assert (U1 : u * Rabs (ck * S) <= u * (0.9251 * 0.196)) by (apply Rmult_le_compat_l; lra).
    assert (U2 : u * Rabs (sk * C) <= u * (0.3831 * 1.0001)) by (apply Rmult_le_compat_l; lra).
    pose proof (rm_le _ _ _ _ CK DS) as K3. pose proof (rm_le _ _ _ _ B4 SB) as K4. pose proof (rm_le _ _ _ _ SK DC) as K5. pose proof (rm_le _ _ _ _ B3 CWA) as K6.
    destruct (DEC (2.16 * u + 1.4 * tau + 6 * eta)) as (L1 & L2); [lra|lra|lra|]. split; [exact L1|]. 
    assert (u * 0.1939 <= u * Rabs t) by (apply Rmult_le_compat_l; lra). lra.
  - assert (SK : Rabs sk <= 1.0001). { replace sk with ((sk - s) + s) by ring. pose proof (Rabs_triang (sk - s) s). lra. }
    assert (CK : Rabs ck <= 0.7101). { replace ck with ((ck - c) + c) by ring. pose proof (Rabs_triang (ck - c) c). lra. }
    assert (TB : 0.54 <= Rabs t <= 1.5).
    { unfold t. split.
      - pose proof (Rabs_triang_inv (s * cos w) (- (c * sin w))) as I. rewrite Rabs_Ropp, (Rabs_mult s), (Rabs_mult c) in I. replace (s * cos w - - (c * sin w)) with (s * cos w + c * sin w) in I by ring.
        assert (0.7 * 0.9807 <= Rabs s * Rabs (cos w)) by (apply Rmult_le_compat; try lra; rewrite Rabs_pos_eq; lra). assert (Rabs c * Rabs (sin w) <= 0.71 * 0.1953) by (apply Rmult_le_compat; try lra; apply Rabs_pos). lra.
      - pose proof (Rabs_triang (s * cos w) (c * sin w)). pose proof (rm_le _ _ _ _ (proj2 B1) CWA). pose proof (rm_le _ _ _ _ B2 SB). lra. }
    pose proof (rm_le _ _ _ _ CK SA) as K1. pose proof (rm_le _ _ _ _ SK CA) as K2.
    assert (U1 : u * Rabs (ck * S) <= u * (0.7101 * 0.196)) by (apply Rmult_le_compat_l; lra).
    assert (U2 : u * Rabs (sk * C) <= u * (1.0001 * 1.0001)) by (apply Rmult_le_compat_l; lra).
    pose proof (rm_le _ _ _ _ CK DS) as K3. pose proof (rm_le _ _ _ _ B4 SB) as K4. pose proof (rm_le _ _ _ _ SK DC) as K5. pose proof (rm_le _ _ _ _ B3 CWA) as K6.
    destruct (DEC (4 * u + 1.8 * tau + 6 * eta)) as (L1 & L2); [lra|lra|lra|]. split; [exact L1|]. 
    assert (u * 0.54 <= u * Rabs t) by (apply Rmult_le_compat_l; lra). lra.
Qed.
