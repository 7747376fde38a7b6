(** * sin and cos for float *)
From Coq Require Import ZArith Lia List Bool Reals Lra.
From Flocq Require Import Core.
From Interval Require Import Tactic.
From Verif Require Import FPBits MachInt Fmt FloatSpec FmtProofs RoundProofs FOps FOpsProofs ExactOps ExtFloatSpec ExtFloatProofs ExtInterp FmanipWide RemProofs ErrLib Exp2fProofs ExpoFWrap Expm1Proofs Expm1Wrap ExpoData ExpoF Trig PhFin SinNum SinPoly SinRec SinRed SinRedF SinD Log1pWrap.
Import ListNotations.
Open Scope Z_scope.

Definition sinFC : list R := [ IZR (-0xaaaaab) * bp (-26); IZR 0x888889 * bp (-30) ]%R.
Definition cosFC : list R := [ IZR (-0xffffe2) * bp (-25); IZR 0xaa5c5f * bp (-28) ]%R.
Definition sin_pf : list Z := [ litf (-0xaaaaab) (-26); litf 0x888889 (-30) ].
Definition cos_pf : list Z := [ litf (-0xffffe2) (-25); litf 0xaa5c5f (-28) ].
Lemma sin_pf_r : List.Forall2 (is_real S32) sin_pf sinFC.
Proof. repeat constructor; try apply litf_r; lia. Qed.
Lemma cos_pf_r : List.Forall2 (is_real S32) cos_pf cosFC.
Proof. repeat constructor; try apply litf_r; lia. Qed.

Lemma sinf_poly_err : forall y, (Rabs y <= 0.27 -> Rabs (sin y - (y + y * y * y * hr (y * y) sinFC)) <= 1.3 * bp (-24) * Rabs y /\
  (Rabs y <= 0.1965 -> Rabs (sin y - (y + y * y * y * hr (y * y) sinFC)) <= 0.22 * bp (-24) * Rabs y))%R.
Proof.
  assert (P : forall y, (0 <= y <= 0.27 -> Rabs (sin y - (y + y * y * y * hr (y * y) sinFC)) <= 1.3 * bp (-24) * y /\
    (y <= 0.1965 -> Rabs (sin y - (y + y * y * y * hr (y * y) sinFC)) <= 0.22 * bp (-24) * y))%R).
  { intros y Hy. pose proof (sin_T11_pos y ltac:(lra)) as S.
    assert (Q : exists q, (y ^ 13 / 6227020800 = q * y /\ 0 <= q <= / 10000000000000000)%R).
    { exists (y ^ 12 / 6227020800)%R. split; [field|]. split; [apply Rmult_le_pos; [apply pow_le; lra|lra]|]. interval with (i_prec 60). }
    set (d := (- y ^ 2 / 6 + y ^ 4 / 120 - y ^ 6 / 5040 + y ^ 8 / 362880 - y ^ 10 / 39916800 - y * y * hr (y * y) sinFC)%R).
    assert (ED : (T11 y - (y + y * y * y * hr (y * y) sinFC) = d * y)%R) by (unfold T11, d; field).
    destruct Q as (q & EQ & RQ). rewrite EQ in S.
    assert (M : forall b, (Rabs d <= b -> Rabs (sin y - (y + y * y * y * hr (y * y) sinFC)) <= (b + / 10000000000000000) * y)%R).
    { intros b Hb. replace (sin y - (y + y * y * y * hr (y * y) sinFC))%R with ((sin y - T11 y) + d * y)%R by lra.
      apply Rle_trans with (1 := Rabs_triang _ _). rewrite Rabs_mult, (Rabs_pos_eq y) by lra. assert (Rabs d * y <= b * y)%R by (apply Rmult_le_compat_r; lra).
      assert (q * y <= / 10000000000000000 * y)%R by (apply Rmult_le_compat_r; lra). lra. }
    split.
    - eapply Rle_trans; [apply (M (1.29 * bp (-24))%R)|apply Rmult_le_compat_r; [lra|bpn; lra]]. unfold d. cbn [hr sinFC]. bpn. interval with (i_prec 60, i_taylor y, i_degree 11, i_bisect y).
    - intros Hy2. eapply Rle_trans; [apply (M (0.215 * bp (-24))%R)|apply Rmult_le_compat_r; [lra|bpn; lra]]. unfold d. cbn [hr sinFC]. bpn. interval with (i_prec 60, i_taylor y, i_degree 11, i_bisect y). }
  intros y Hy. destruct (Rle_lt_dec 0 y) as [L|L].
  - rewrite (Rabs_pos_eq y) in * by lra. apply P. lra.
  - rewrite (Rabs_left y) in * by lra. specialize (P (- y)%R ltac:(lra)). rewrite sin_neg in P.
    replace (- sin y - (- y + - y * - y * - y * hr (- y * - y) sinFC))%R with (- (sin y - (y + y * y * y * hr (y * y) sinFC)))%R in P. { rewrite Rabs_Ropp in P. exact P. }
    replace (- y * - y)%R with (y * y)%R by ring. ring.
Qed.
Lemma cosf_poly_err : forall y, (Rabs y <= 0.27 -> Rabs (cos y - (1 + y * y * hr (y * y) cosFC)) <= 3.6 * bp (-24) /\ (Rabs y <= 0.1965 -> Rabs (cos y - (1 + y * y * hr (y * y) cosFC)) <= 0.09 * bp (-24)))%R.
Proof.
  intros y Hy. apply Rabs_le_inv in Hy. split; [|intros Hy2; apply Rabs_le_inv in Hy2]; cbn [hr cosFC]; bpn; interval with (i_prec 60, i_taylor y, i_degree 12, i_bisect y).
Qed.

Definition skf (i : Z) : R := (
  let a := IZR 0xc3ef15 * bp (-25) in let b := IZR 0xb504f3 * bp (-24) in let c := IZR 0xec835e * bp (-24) in
  let a' := IZR (-0xc3ef15) * bp (-25) in let b' := IZR (-0xb504f3) * bp (-24) in let c' := IZR (-0xec835e) * bp (-24) in
  nth (Z.to_nat i) [ 0; a; b; c; 1; c; b; a; 0; a'; b'; c'; -1; c'; b'; a' ] 0)%R.
Lemma skf_r : forall i, 0 <= i < 16 -> is_real S32 (at_ sin_k_f i) (skf i).
Proof.
  assert (L : forall m e v, (v = IZR m * bp e)%R -> Z.abs m < 2 ^ 24 -> -149 <= e <= 80 -> is_real S32 (litf m e) v) by (intros m e v -> H1 H2; apply litf_r; auto).
  intros i Hi. enum16 i; cbv [at_ nth sin_k_f skf Z.to_nat Pos.to_nat Pos.iter_op Nat.add]; apply L; try lia; try reflexivity; bpn; lra.
Qed.
Ltac skredf := repeat match goal with |- context [?a mod 16] => let v := eval vm_compute in (a mod 16) in change (a mod 16) with v end;
  cbv [skf nth Z.to_nat Pos.to_nat Pos.iter_op Nat.add].
Lemma skf_tab : forall u i, (bp (-24) <= u)%R -> 0 <= i < 16 -> tab_ok u (sin (IZR i * (PI / 8))) (cos (IZR i * (PI / 8))) (skf i) (skf ((i + 4) mod 16)).
Proof.
  intros u i Hu Hi. assert (Q : (bp (-26) <= / 4 * u)%R) by (revert Hu; bpn; intros; lra). assert (Q2 : (bp (-25) <= / 2 * u)%R) by (revert Hu; bpn; intros; lra).
  assert (T1 : forall a b, (Rabs (a - b) <= bp (-26) -> Rabs (a - b) <= / 4 * u)%R) by (intros; lra). assert (T2 : forall a b, (Rabs (a - b) <= bp (-25) -> Rabs (a - b) <= / 2 * u)%R) by (intros; lra).
  unfold tab_ok. destruct (Z.eq_dec i 0) as [->|N0].
  { left. rewrite Rmult_0_l, sin_0, cos_0. skredf. repeat split; try reflexivity. apply Rabs_R1. }
  destruct (Z.eq_dec i 8) as [->|N8].
  { left. replace (8 * (PI / 8))%R with PI by field. rewrite sin_PI, cos_PI. skredf. repeat split; try reflexivity. rewrite Rabs_left; lra. }
  right. assert (C : (i = 1 \/ i = 7 \/ i = 9 \/ i = 15) \/ (i <> 1 /\ i <> 7 /\ i <> 9 /\ i <> 15)) by lia. destruct C as [C|C].
  - left. destruct C as [-> | [-> | [-> | -> ]]]; skredf; (split; [split; interval with (i_prec 60)|]); (split; [split; interval with (i_prec 60)|]); (split; [apply T1|apply T2]); bpn; interval with (i_prec 80).
  - right. enum16 i; try lia; skredf; (split; [split; [|apply Rabs_le; apply SIN_bound]; interval with (i_prec 60)|]); (split; [interval with (i_prec 60)|]); (split; apply T2); bpn; interval with (i_prec 80).
Qed.

Definition sP (Y : R) : R := (Y + Y * Y * Y * hr (Y * Y) sinFC)%R.
Definition cP (Y : R) : R := (1 + Y * Y * hr (Y * Y) cosFC)%R.
Lemma polyf : forall rm is_sin k j y Y, is_real S32 y Y -> (Rabs Y <= 0.27)%R -> Z.land k 15 = j mod 16 -> Z.land (wrap 32 (k + 4)) 15 = (j + 4) mod 16 ->
  exists S C sk ck A B, is_real S32 (sincosf_poly rm is_sin k y) (fround S32 rm (A + B)) /\
    (let i := (if is_sin : bool then j mod 16 else (j + 4) mod 16) in
     tab_ok (uF S32 rm) (sin (IZR i * (PI / 8))) (cos (IZR i * (PI / 8))) sk ck /\
     Rabs (S - sP Y) <= 1.12 * uF S32 rm * Rabs Y + 4 * etaF /\ Rabs (C - cP Y) <= 1.15 * uF S32 rm /\
     Rabs (A - ck * S) <= uF S32 rm * Rabs (ck * S) + etaF /\ Rabs (B - sk * C) <= uF S32 rm * Rabs (sk * C) + etaF /\
     Rabs (fround S32 rm (A + B) - (A + B)) <= uF S32 rm * Rabs (A + B) + etaF)%R.
Proof.
  intros rm is_sin k j y Y HY BY K1 K2. destruct (ueta S32 h24 hem rm) as (U & E). change (bp (emin S32)) with etaF in E. pose proof (uF24 rm) as U24.
  assert (YY : (0 <= Y * Y <= 0.073)%R). { pose proof (rm_le _ _ _ _ BY BY) as Q. pose proof (Rle_abs (Y * Y)). pose proof (Rle_0_sqr Y) as Q2. unfold Rsqr in Q2. lra. }
  assert (B1 : List.Forall (fun c => Rabs c <= / 2)%R sinFC) by (unfold sinFC; repeat (apply Forall_cons; [bpn; apply Rabs_le; lra|]); apply Forall_nil).
  assert (B2 : List.Forall (fun c => Rabs c <= / 2)%R cosFC) by (unfold cosFC; repeat (apply Forall_cons; [bpn; apply Rabs_le; lra|]); apply Forall_nil).
  assert (ONE : is_real S32 (litf 1 0) 1). { replace 1%R with (IZR 1 * bp 0)%R by (change (bp 0) with 1%R; ring). apply litf_r; lia. }
  destruct (s1_e S32 good32 h24 hem hbs rm y Y HY BY sin_pf sinFC sin_pf_r ltac:(discriminate) B1) as (S & RS & ES).
  { set (q := (Y * Y)%R) in *. clearbody q. unfold sinFC. cbn [hr]. bpn. apply Rabs_le. split; interval with (i_prec 60). }
  destruct (c1_e S32 good32 h24 hem hbs rm y Y HY BY cos_pf cosFC (litf 1 0) ONE cos_pf_r ltac:(discriminate) B2) as (C & RC & EC).
  { set (q := (Y * Y)%R) in *. clearbody q. unfold cosFC. cbn [hr]. bpn. split; interval with (i_prec 60). }
  fold (sP Y) in ES. fold (cP Y) in EC. change (bp (emin S32)) with etaF in ES.
  pose proof (proj1 (sinf_poly_err Y BY)) as PS. pose proof (proj1 (cosf_poly_err Y BY)) as PC. fold (sP Y) in PS. fold (cP Y) in PC.
  assert (UY : (0 <= uF S32 rm * Rabs Y <= / 8000000 * 0.27)%R). { pose proof (Rabs_pos Y). split; [apply Rmult_le_pos; lra|apply Rmult_le_compat; lra]. }
  assert (BS : (Rabs S <= 0.3)%R).
  { replace S with ((S - sP Y) + (- (sin Y - sP Y) + (sin Y - sin 0)))%R by (rewrite sin_0; ring). pose proof (Rabs_triang (S - sP Y) (- (sin Y - sP Y) + (sin Y - sin 0))). pose proof (Rabs_triang (- (sin Y - sP Y)) (sin Y - sin 0)). rewrite (Rabs_Ropp (sin Y - sP Y)) in *.
    pose proof (sin_lip Y 0) as L. rewrite Rminus_0_r in L. revert PS. bpn. intros. lra. }
  assert (BC : (Rabs C <= 1.1)%R).
  { replace C with ((C - cP Y) + (- (cos Y - cP Y) + cos Y))%R by ring. pose proof (Rabs_triang (C - cP Y) (- (cos Y - cP Y) + cos Y)). pose proof (Rabs_triang (- (cos Y - cP Y)) (cos Y)). rewrite (Rabs_Ropp (cos Y - cP Y)) in *.
    assert (Rabs (cos Y) <= 1)%R by (apply Rabs_le; apply COS_bound). revert PC. bpn. intros. lra. }
  unfold sincosf_poly. cbv zeta. rewrite K1, K2.
  pose proof (Z.mod_pos_bound j 16 ltac:(lia)) as J1. pose proof (Z.mod_pos_bound (j + 4) 16 ltac:(lia)) as J2.
  pose proof (skf_r _ J1) as RJ1. pose proof (skf_r _ J2) as RJ2.
  assert (SB : forall i, 0 <= i < 16 -> (Rabs (skf i) <= 1)%R).
  { intros i Hi. enum16 i; cbv [skf nth Z.to_nat Pos.to_nat Pos.iter_op Nat.add]; bpn; apply Rabs_le; lra. }
  pose proof (SB _ J1) as SB1. pose proof (SB _ J2) as SB2.
  cbn [horner_ma sin_pf cos_pf] in RS, RC.
  set (p1 := f_add F32 rm (f_mul F32 rm (f_mul F32 rm y y) (litf 0x888889 (-30))) (litf (-0xaaaaab) (-26))) in *.
  set (q1 := f_add F32 rm (f_mul F32 rm (f_mul F32 rm y y) (litf 0xaa5c5f (-28))) (litf (-0xffffe2) (-25))) in *.
  set (s1 := f_add F32 rm (f_mul F32 rm (f_mul F32 rm (f_mul F32 rm y y) y) p1) y) in *.
  set (c1 := f_add F32 rm (f_mul F32 rm (f_mul F32 rm y y) q1) (litf 1 0)) in *. change F32 with S32 in *. clearbody s1 c1.
  assert (FIN : forall ck sk A B, (Rabs ck <= 1 -> Rabs sk <= 1 -> Rabs (A - ck * S) <= uF S32 rm * Rabs (ck * S) + etaF -> Rabs (B - sk * C) <= uF S32 rm * Rabs (sk * C) + etaF ->
     Rabs (fround S32 rm (A + B)) < bp (bias S32 + 1) /\ Rabs (fround S32 rm (A + B) - (A + B)) <= uF S32 rm * Rabs (A + B) + etaF)%R).
  { intros ck sk A B H1 H2 EA EB. pose proof (rm_le _ _ _ _ H1 BS) as M1. pose proof (rm_le _ _ _ _ H2 BC) as M2.
    assert (uF S32 rm * Rabs (ck * S) <= / 8000000 * (1 * 0.3))%R by (apply Rmult_le_compat; try apply Rabs_pos; lra). assert (uF S32 rm * Rabs (sk * C) <= / 8000000 * (1 * 1.1))%R by (apply Rmult_le_compat; try apply Rabs_pos; lra).
    split; [|apply (rel_e S32 good32 h24 rm (A + B))]. apply (small_big S32 good32 h24 hem hbs).
    replace (A + B)%R with ((A - ck * S) + ck * S + ((B - sk * C) + sk * C))%R by ring. pose proof (Rabs_triang ((A - ck * S) + ck * S) ((B - sk * C) + sk * C)). pose proof (Rabs_triang (A - ck * S) (ck * S)). pose proof (Rabs_triang (B - sk * C) (sk * C)). lra. }
  destruct is_sin.
  - destruct (mulF rm _ _ _ _ RJ2 RS) as (A & RA & EA); [pose proof (rm_le _ _ _ _ SB2 BS); lra|].
    destruct (mulF rm _ _ _ _ RJ1 RC) as (B & RB & EB); [pose proof (rm_le _ _ _ _ SB1 BC); lra|].
    pose proof (skf_tab (uF S32 rm) (j mod 16) ltac:(lra) J1) as TB. rewrite Zplus_mod_idemp_l in TB.
    destruct (FIN _ _ A B SB2 SB1 EA EB) as (BG & RG).
    exists S, C, (skf (j mod 16)), (skf ((j + 4) mod 16)), A, B. split; [|repeat split; auto]. apply (add_r S32 good32 rm _ _ _ _ RA RB BG).
  - assert (NEG : is_real S32 (f_neg S32 (at_ sin_k_f (j mod 16))) (skf ((j + 4 + 4) mod 16))).
    { replace (skf ((j + 4 + 4) mod 16)) with (- skf (j mod 16))%R; [apply (neg_rl S32 good32); exact RJ1|].
      replace (j + 4 + 4) with (j + 8) by ring. rewrite <- Zplus_mod_idemp_l. set (i := j mod 16) in *. clearbody i. clear - J1.
      enum16 i; skredf; bpn; lra. }
    pose proof (Z.mod_pos_bound (j + 4 + 4) 16 ltac:(lia)) as J3. pose proof (SB _ J3) as SB3.
    destruct (mulF rm _ _ _ _ RJ2 RC) as (B & RB & EB); [pose proof (rm_le _ _ _ _ SB2 BC); lra|].
    destruct (mulF rm _ _ _ _ NEG RS) as (A & RA & EA); [pose proof (rm_le _ _ _ _ SB3 BS); lra|].
    pose proof (skf_tab (uF S32 rm) ((j + 4) mod 16) ltac:(lra) J2) as TB. rewrite Zplus_mod_idemp_l in TB.
    destruct (FIN _ _ A B SB3 SB2 EA EB) as (BG & RG).
    exists S, C, (skf ((j + 4) mod 16)), (skf ((j + 4 + 4) mod 16)), A, B. split; [|repeat split; auto]. rewrite (Rplus_comm A B) in *. apply (add_r S32 good32 rm _ _ _ _ RB RA BG).
Qed.

Lemma sck_f : forall rm is_sin k j y Y w tau, is_real S32 y Y -> (Rabs w <= 0.1964)%R -> (0 <= tau <= / 100000)%R ->
  (Rabs (Y - w) <= 2.002 * uF S32 rm * Rabs w + tau)%R -> Z.land k 15 = j mod 16 -> Z.land (wrap 32 (k + 4)) 15 = (j + 4) mod 16 ->
  exists V, is_real S32 (sincosf_poly rm is_sin k y) V /\
    (let t := trig is_sin (IZR j * (PI / 8) + w) in Rabs (V - t) <= 13 * uF S32 rm * Rabs t + 2 * tau + 9 * etaF)%R.
Proof.
  intros rm is_sin k j y Y w tau HY HW HT EY K1 K2. destruct (ueta S32 h24 hem rm) as (U & E). change (bp (emin S32)) with etaF in E. pose proof (uF24 rm) as U24.
  assert (BY : (Rabs Y <= 0.1965)%R). { replace Y with ((Y - w) + w)%R by ring. pose proof (Rabs_triang (Y - w) w). pose proof (Rabs_pos w). assert (uF S32 rm * Rabs w <= / 8000000 * 0.1964)%R by (apply Rmult_le_compat; lra). lra. }
  assert (BY' : (Rabs Y <= 0.27)%R) by lra.
  destruct (polyf rm is_sin k j y Y HY BY' K1 K2) as (S & C & sk & ck & A & B & RV & TB & ES & EC & EA & EB & ER).
  pose proof (proj2 (sinf_poly_err Y BY') BY) as PS. pose proof (proj2 (cosf_poly_err Y BY') BY) as PC. fold (sP Y) in PS. fold (cP Y) in PC.
  assert (DS : (Rabs (S - sin Y) <= 1.35 * uF S32 rm * Rabs Y + 4 * etaF)%R).
  { replace (S - sin Y)%R with ((S - sP Y) + - (sin Y - sP Y))%R by ring. pose proof (Rabs_triang (S - sP Y) (- (sin Y - sP Y))) as TR. rewrite (Rabs_Ropp (sin Y - sP Y)) in TR.
    assert (bp (-24) * Rabs Y <= uF S32 rm * Rabs Y)%R by (apply Rmult_le_compat_r; [apply Rabs_pos|lra]). pose proof (Rabs_pos Y). assert (0 <= uF S32 rm * Rabs Y)%R by (apply Rmult_le_pos; lra). lra. }
  assert (DC : (Rabs (C - cos Y) <= 1.25 * uF S32 rm)%R).
  { replace (C - cos Y)%R with ((C - cP Y) + - (cos Y - cP Y))%R by ring. pose proof (Rabs_triang (C - cP Y) (- (cos Y - cP Y))) as TR. rewrite (Rabs_Ropp (cos Y - cP Y)) in TR. lra. }
  destruct (recon (uF S32 rm) etaF tau w Y S C _ _ _ _ A B (fround S32 rm (A + B)) U E HT HW EY DS DC TB EA EB ER) as (AB & EV).
  exists (fround S32 rm (A + B)). split; [exact RV|]. rewrite (trig_add is_sin j w). exact EV.
Qed.

Lemma trig_lip : forall b x y, (Rabs (trig b x - trig b y) <= Rabs (x - y))%R.
Proof. intros [] x y; [apply sin_lip|apply cos_lip]. Qed.
Lemma sck_f_mid : forall rm is_sin k j y Y, is_real S32 y Y -> (Rabs Y <= 0.27)%R -> Z.land k 15 = j mod 16 -> Z.land (wrap 32 (k + 4)) 15 = (j + 4) mod 16 ->
  exists V, is_real S32 (sincosf_poly rm is_sin k y) V /\ (Rabs (V - trig is_sin (IZR j * (PI / 8) + Y)) <= 9 * uF S32 rm)%R.
Proof.
  intros rm is_sin k j y Y HY BY K1 K2. destruct (ueta S32 h24 hem rm) as (U & E). change (bp (emin S32)) with etaF in E. pose proof (uF24 rm) as U24.
  destruct (polyf rm is_sin k j y Y HY BY K1 K2) as (S & C & sk & ck & A & B & RV & TB & ES & EC & EA & EB & ER).
  pose proof (proj1 (sinf_poly_err Y BY)) as PS. pose proof (proj1 (cosf_poly_err Y BY)) as PC. fold (sP Y) in PS. fold (cP Y) in PC. set (u := uF S32 rm) in *.
  assert (UY : (0 <= u * Rabs Y <= 0.27 * u)%R). { pose proof (Rabs_pos Y). split; [apply Rmult_le_pos; lra|rewrite Rmult_comm; apply Rmult_le_compat_r; lra]. }
  assert (DS : (Rabs (S - sin Y) <= 0.66 * u)%R).
  { replace (S - sin Y)%R with ((S - sP Y) + - (sin Y - sP Y))%R by ring. pose proof (Rabs_triang (S - sP Y) (- (sin Y - sP Y))) as TR. rewrite (Rabs_Ropp (sin Y - sP Y)) in TR.
    assert (bp (-24) * Rabs Y <= u * Rabs Y)%R by (apply Rmult_le_compat_r; [apply Rabs_pos|lra]). lra. }
  assert (DC : (Rabs (C - cos Y) <= 4.75 * u)%R).
  { replace (C - cos Y)%R with ((C - cP Y) + - (cos Y - cP Y))%R by ring. pose proof (Rabs_triang (C - cP Y) (- (cos Y - cP Y))) as TR. rewrite (Rabs_Ropp (cos Y - cP Y)) in TR. lra. }
  exists (fround S32 rm (A + B)). split; [exact RV|]. rewrite (trig_add is_sin j Y).
  set (i := if is_sin then j mod 16 else (j + 4) mod 16) in *. pose proof (SIN_bound (IZR i * (PI / 8))) as SBi. pose proof (COS_bound (IZR i * (PI / 8))) as CBi.
  set (s := sin (IZR i * (PI / 8))) in *. set (c := cos (IZR i * (PI / 8))) in *. clearbody s c.
  assert (TS : (Rabs (sk - s) <= / 2 * u /\ Rabs (ck - c) <= / 2 * u)%R).
  { destruct TB as [(-> & -> & -> & _)|[(_ & _ & T1 & T2)|(_ & _ & T1 & T2)]]; [rewrite !Rminus_eq_0, Rabs_R0; lra|lra|lra]. }
  destruct TS as (TS & TC). assert (Rs : (Rabs s <= 1)%R) by (apply Rabs_le; lra). assert (Rc : (Rabs c <= 1)%R) by (apply Rabs_le; lra).
  assert (SY : (Rabs (sin Y) <= 0.27)%R). { pose proof (sin_lip Y 0) as L. rewrite sin_0, !Rminus_0_r in L. lra. }
  assert (CY : (Rabs (cos Y) <= 1)%R) by (apply Rabs_le; apply COS_bound).
  assert (BS : (Rabs S <= 0.2701)%R). { replace S with ((S - sin Y) + sin Y)%R by ring. pose proof (Rabs_triang (S - sin Y) (sin Y)). lra. }
  assert (BC : (Rabs C <= 1.0001)%R). { replace C with ((C - cos Y) + cos Y)%R by ring. pose proof (Rabs_triang (C - cos Y) (cos Y)). lra. }
  assert (BK : (Rabs sk <= 1.0001)%R). { replace sk with ((sk - s) + s)%R by ring. pose proof (Rabs_triang (sk - s) s). lra. }
  assert (BL : (Rabs ck <= 1.0001)%R). { replace ck with ((ck - c) + c)%R by ring. pose proof (Rabs_triang (ck - c) c). lra. }
  assert (D1 : (Rabs (A - c * sin Y) <= 1.1 * u)%R).
  { replace (A - c * sin Y)%R with ((A - ck * S) + ((ck - c) * S + c * (S - sin Y)))%R by ring. pose proof (Rabs_triang (A - ck * S) ((ck - c) * S + c * (S - sin Y))). pose proof (Rabs_triang ((ck - c) * S) (c * (S - sin Y))).
    pose proof (rm_le _ _ _ _ TC BS). pose proof (rm_le _ _ _ _ Rc DS). pose proof (rm_le _ _ _ _ BL BS). assert (u * Rabs (ck * S) <= u * (1.0001 * 0.2701))%R by (apply Rmult_le_compat_l; lra). lra. }
  assert (D2 : (Rabs (B - s * cos Y) <= 6.4 * u)%R).
  { replace (B - s * cos Y)%R with ((B - sk * C) + ((sk - s) * C + s * (C - cos Y)))%R by ring. pose proof (Rabs_triang (B - sk * C) ((sk - s) * C + s * (C - cos Y))). pose proof (Rabs_triang ((sk - s) * C) (s * (C - cos Y))).
    pose proof (rm_le _ _ _ _ TS BC). pose proof (rm_le _ _ _ _ Rs DC). pose proof (rm_le _ _ _ _ BK BC). assert (u * Rabs (sk * C) <= u * (1.0001 * 1.0001))%R by (apply Rmult_le_compat_l; lra). lra. }
  set (t := (s * cos Y + c * sin Y)%R).
  assert (BT : (Rabs t <= 1.28)%R). { unfold t. pose proof (Rabs_triang (s * cos Y) (c * sin Y)). pose proof (rm_le _ _ _ _ Rs CY). pose proof (rm_le _ _ _ _ Rc SY). lra. }
  assert (D3 : (Rabs (A + B - t) <= 7.5 * u)%R). { replace (A + B - t)%R with ((A - c * sin Y) + (B - s * cos Y))%R by (unfold t; ring). pose proof (Rabs_triang (A - c * sin Y) (B - s * cos Y)). lra. }
  assert (BAB : (Rabs (A + B) <= 1.3)%R). { replace (A + B)%R with ((A + B - t) + t)%R by ring. pose proof (Rabs_triang (A + B - t) t). lra. }
  replace (fround S32 rm (A + B) - t)%R with ((fround S32 rm (A + B) - (A + B)) + (A + B - t))%R by ring. pose proof (Rabs_triang (fround S32 rm (A + B) - (A + B)) (A + B - t)).
  assert (u * Rabs (A + B) <= u * 1.3)%R by (apply Rmult_le_compat_l; lra). lra.
Qed.

Lemma abs_magF : forall x, Z.land x 0x7fffffff = mag_of S32 x.
Proof. intros x. change 0x7fffffff with (Z.ones 31). rewrite Z.land_ones by lia. reflexivity. Qed.

(** The error bound: relative outside [25, 2^18), where the reduction loses absolute accuracy *)
Definition errF (u X t : R) : R :=
  if Rle_bool (Rabs X) 25 then (13 * u * Rabs t + Rabs X * bp (-57) + bp (-145))%R
  else if Rlt_bool (Rabs X) (bp 18) then (u * (Rabs X + 13))%R
  else (13 * u * Rabs t + bp (-98) + bp (-145))%R.
Lemma narrow_r : forall rm y Y, is_real D y Y -> (Rabs Y <= 4)%R -> is_real S32 (f_cast F64 F32 rm y) (fround S32 rm Y) /\ (Rabs (fround S32 rm Y - Y) <= uF S32 rm * Rabs Y + etaF)%R.
Proof.
  intros rm y Y (P & Fi & V) HY. pose proof (f_cast_spec F64 F32 rm y good64 good32 Fi) as (P' & _ & H & _). rewrite V in H.
  destruct (H (small_big S32 good32 h24 hem hbs rm Y ltac:(lra))) as (F' & V'). split; [split; [exact P'|split; [exact F'|exact V']]|].
  apply (rel_e S32 good32 h24 rm Y).
Qed.

Lemma sincosf_accuracy : forall rm ct is_sin x X, (ct = true -> rm = RNE) -> is_real S32 x X ->
  exists r V, sincosf_eval rm ct is_sin x = Some r /\ is_real S32 r V /\ (Rabs (V - trig is_sin X) <= errF (uF S32 rm) X (trig is_sin X))%R.
Proof.
  intros rm ct is_sin x X HC HX. pose proof HX as (PX & FX & VX). unfold sincosf_eval. rewrite abs_magF.
  pose proof (uF24 rm) as U. assert (EB : (9 * etaF <= bp (-145))%R). { unfold etaF. replace (bp (-145)) with (bp (4 + -149)) by reflexivity. rewrite bpow_plus. change (bp 4) with 16%R. pose proof (bpow_gt_0 radix2 (-149)). lra. }
  pose proof (bpow_gt_0 radix2 (-145)) as B145. pose proof (bpow_gt_0 radix2 (-24)) as B24. pose proof (Rabs_pos X) as AX.
  cbv zeta. destruct (Z.eqb_spec (mag_of S32 x) 0) as [M0|M0].
  { assert (X0 : X = 0%R). { apply Rabs_eq_R0. rewrite <- VX. rewrite (Rabs_fval S32 good32 x FX), M0. rewrite (mval_c S32 0 good32) by (vm_compute; split; [discriminate|reflexivity]). unfold fval. change (decode S32 0) with (DFin false 0 (-149)). cbn [dval]. ring. }
    clear VX. subst X. unfold errF. rewrite Rabs_R0, (Rle_bool_true 0 25), Rmult_0_l by lra. destruct is_sin; cbn [trig].
    - exists x, 0%R. split; [reflexivity|]. split; [exact HX|]. rewrite sin_0, Rminus_0_r, Rabs_R0, Rmult_0_r. lra.
    - exists (litf 1 0), 1%R. split; [reflexivity|]. split; [replace 1%R with (IZR 1 * bp 0)%R by (change (bp 0) with 1%R; ring); apply litf_r; lia|]. rewrite cos_0, Rminus_eq_0, Rabs_R0, Rabs_R1. lra. }
  assert (B18 : fval S32 0x48800000 = bp 18). { unfold fval. change (decode S32 0x48800000) with (DFin false 8388608 (-5)). cbv [dval cond_Zopp F2R Fnum Fexp]. bpn. lra. }
  pose proof (mag_lt S32 x 0x48800000 X good32 HX ltac:(vm_compute; split; [discriminate|reflexivity])) as ML. rewrite B18 in ML.
  destruct (Z.ltb_spec (mag_of S32 x) 0x48800000) as [LT|GE].
  - apply ML in LT.
    assert (KW : forall z, Z.land (wrap 32 (wrap 32 z + 4)) 15 = (z + 4) mod 16).
    { intros z. rewrite land15. unfold wrap. rewrite <- Zplus_mod_idemp_l, <- (Zplus_mod_idemp_l z). f_equal. f_equal. symmetry. apply Znumtheory.Zmod_div_mod; try lia. exists (2 ^ 28). reflexivity. }
    unfold errF. destruct (Rle_bool_spec (Rabs X) 25) as [B25|B25].
    + destruct (red_f rm ct x X HC HX B25) as (z & y & Y & ER & RY & BW & EW). change F32 with S32. rewrite ER. set (w := (X - IZR z * (PI / 8))%R) in *.
      assert (HT : (0 <= Rabs X * bp (-58) <= / 100000)%R). { split; [apply Rmult_le_pos; [apply Rabs_pos|apply bpow_ge_0]|bpn; lra]. }
      destruct (sck_f rm is_sin (wrap 32 z) z y Y w _ RY BW HT EW (land15 z) (KW z)) as (V & RV & EV).
      eexists _, V. split; [reflexivity|]. split; [exact RV|]. replace (IZR z * (PI / 8) + w)%R with X in EV by (unfold w; ring). cbv zeta in EV.
      assert (ED : (2 * (Rabs X * bp (-58)) = Rabs X * bp (-57))%R) by (bpn; lra). lra.
    + rewrite Rlt_bool_true by exact LT. destruct (red_f_mid rm ct x X HC HX ltac:(lra)) as (z & y & Y & ER & RY & BW & EW). change F32 with S32. rewrite ER. set (w := (X - IZR z * (PI / 8))%R) in *.
      destruct (sck_f_mid rm is_sin (wrap 32 z) z y Y RY BW (land15 z) (KW z)) as (V & RV & EV).
      eexists _, V. split; [reflexivity|]. split; [exact RV|].
      pose proof (trig_lip is_sin (IZR z * (PI / 8) + Y) X) as L. replace (IZR z * (PI / 8) + Y - X)%R with (Y - w)%R in L by (unfold w; ring).
      set (m := trig is_sin (IZR z * (PI / 8) + Y)) in *. set (t := trig is_sin X) in *.
      replace (V - t)%R with ((V - m) + (m - t))%R by ring. pose proof (Rabs_triang (V - m) (m - t)). lra.
  - assert (G : (bp 18 <= Rabs X)%R). { apply Rnot_lt_le. intros C. apply ML in C. lia. }
    replace (0x7f800000 <=? mag_of S32 x) with false by (symmetry; apply Z.leb_gt; unfold is_fin in FX; apply Z.ltb_lt in FX; exact FX).
    destruct (ph_reduce rm _ X (widen rm x X HX)) as (k & y & Y & n & ER & Hk & RY & BW & EW). { apply Rle_trans with (2 := G). apply bpow_le. lia. }
    rewrite ER. set (w := (X - IZR (16 * n + k) * (PI / 8))%R) in *.
    assert (HW : (Rabs w <= 0.1964)%R). { apply Rle_trans with (1 := BW). bpn. interval with (i_prec 60). }
    assert (BU : (uF D rm <= bp (-28) * uF S32 rm)%R).
    { pose proof (uD2 rm). apply Rle_trans with (bp (-52)); [lra|]. change (bp (-52)) with (bp (-28 + -24)). rewrite bpow_plus. apply Rmult_le_compat_l; [apply bpow_ge_0|lra]. }
    pose proof (Rabs_pos w) as AW. assert (UW : (uF D rm * Rabs w <= bp (-28) * (uF S32 rm * Rabs w))%R) by (rewrite <- Rmult_assoc; apply Rmult_le_compat_r; lra).
    assert (UW0 : (0 <= uF S32 rm * Rabs w <= bp (-23) * 0.1964)%R) by (split; [apply Rmult_le_pos; lra|apply Rmult_le_compat; lra]).
    assert (BY : (Rabs Y <= Rabs w + (0.001 * (uF S32 rm * Rabs w) + bp (-100)))%R). { replace Y with (w + (Y - w))%R by ring. pose proof (Rabs_triang w (Y - w)). revert UW EW UW0. bpn. intros. lra. }
    destruct (narrow_r rm y Y RY) as (RN & EN). { revert BY UW0. bpn. intros. lra. }
    set (YF := fround S32 rm Y) in *. clearbody YF.
    assert (UY : (uF S32 rm * Rabs Y <= uF S32 rm * Rabs w + bp (-23) * (0.001 * (uF S32 rm * Rabs w) + bp (-100)))%R).
    { apply Rle_trans with (uF S32 rm * (Rabs w + (0.001 * (uF S32 rm * Rabs w) + bp (-100))))%R; [apply Rmult_le_compat_l; lra|]. rewrite Rmult_plus_distr_l. apply Rplus_le_compat_l. apply Rmult_le_compat_r; [|lra]. pose proof (bpow_gt_0 radix2 (-100)). lra. }
    assert (EWF : (Rabs (YF - w) <= 2.002 * uF S32 rm * Rabs w + bp (-99))%R).
    { replace (YF - w)%R with ((YF - Y) + (Y - w))%R by ring. pose proof (Rabs_triang (YF - Y) (Y - w)). pose proof etaF_s as ES. revert UW EW UW0 UY EN ES. bpn. intros. lra. }
    assert (HT : (0 <= bp (-99) <= / 100000)%R) by (bpn; lra).
    destruct (sck_f rm is_sin k (16 * n + k) _ YF w _ RN HW HT EWF) as (V & RV & EV).
    { change 15 with (Z.ones 4). rewrite Z.land_ones by lia. change (2 ^ 4) with 16. rewrite Z.add_comm, (Z.mul_comm 16 n), Z.mod_add by lia. reflexivity. }
    { rewrite land15. replace (16 * n + k + 4) with (k + 4 + n * 16) by ring. rewrite Z.mod_add by lia. reflexivity. }
    eexists _, V. split; [reflexivity|]. split; [exact RV|]. replace (IZR (16 * n + k) * (PI / 8) + w)%R with X in EV by (unfold w; ring). cbv zeta in EV.
    assert (ED : (2 * bp (-99) = bp (-98))%R) by (bpn; lra). unfold errF. rewrite Rle_bool_false, Rlt_bool_false; [lra|exact G|]. revert G. bpn. intros. lra.
Qed.

Lemma sincosf_special : forall rm ct is_sin x, is_pattern S32 x ->
  (mag_of S32 x = 0 -> sincosf_eval rm ct is_sin x = Some (if is_sin then x else litf 1 0)) /\
  (is_fin S32 x = false -> sincosf_eval rm ct is_sin x = Some (qnan S32)).
Proof.
  intros rm ct is_sin x P. unfold sincosf_eval. rewrite abs_magF. cbv zeta. split.
  - intros ->. reflexivity.
  - unfold is_fin. intros H. apply Z.ltb_ge in H. change (inf_mag S32) with 0x7f800000 in H.
    replace (mag_of S32 x =? 0) with false by (symmetry; apply Z.eqb_neq; lia). replace (mag_of S32 x <? 0x48800000) with false by (symmetry; apply Z.ltb_ge; lia).
    replace (0x7f800000 <=? mag_of S32 x) with true by (symmetry; apply Z.leb_le; lia). destruct (FPBits.fp_is_signaling_nan F32 x); [reflexivity|].
    f_equal. unfold f_add. replace (decode F32 (qnan F32)) with DNaN by (vm_compute; reflexivity). destruct (decode F32 x); reflexivity.
Qed.

(** sin(262143) for float is off by more than 2^-8: the two-word reduction below 2^18 loses everything but the first digits. *)
Definition far_xf : Z := 0x487fffe0.
Lemma far_f_refuted : exists V, cc_sinf RNE false far_xf = Some 1053947683 /\ is_real S32 far_xf 262143.5 /\ is_real S32 1053947683 V /\ (0.006 < Rabs (V - sin 262143.5))%R.
Proof.
  exists (IZR 13760291 * bp (-25))%R. split; [vm_compute; reflexivity|].
  assert (L : forall b m e v, decode S32 b = DFin false m e -> (v = IZR m * bp e)%R -> is_pattern S32 b -> is_fin S32 b = true -> is_real S32 b v).
  { intros b m e v E -> P Fi. split; [exact P|split; [exact Fi|]]. unfold fval. rewrite E. cbn [dval]. ring. }
  split; [apply (L _ 16777184 (-6)); [vm_compute; reflexivity|bpn; lra|vm_compute; split; [discriminate|reflexivity]|vm_compute; reflexivity]|].
  split; [apply (L _ 13760291 (-25)); [vm_compute; reflexivity|reflexivity|vm_compute; split; [discriminate|reflexivity]|vm_compute; reflexivity]|].
  assert (X0 : (262143.5 = 262143.5 - 2 * IZR 41721 * PI + 2 * IZR 41721 * PI)%R) by ring.
  rewrite X0, (proj1 (sin_shift 41721 _)). bpn. apply Rminus_lt. interval with (i_prec 80).
Qed.
