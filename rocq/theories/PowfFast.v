(** * powf: the first approximation *)
From Coq Require Import ZArith Lia Reals Lra List.
From Flocq Require Import Core Mult_error.
From Interval Require Import Tactic.
From Verif Require Import MachInt Fmt FloatSpec RoundProofs FmtProofs ExtFloatSpec FOps FOpsProofs RemProofs FmanipWide ErrLib LogfNum ExtInterp Expm1Proofs Exp2fProofs ExtFloatProofs NearestProofs NearestInt SinRedF LogfProofs ExpoData ExpoF Nearest PowfData Powf PowfTab PowfNum PowfDD PowfRed.
Import ListNotations.
Open Scope Z_scope.

Lemma madd_g : forall rm x y z X Y Z p q r, is_real D x X -> is_real D y Y -> is_real D z Z -> (Rabs X <= p)%R -> (Rabs Y <= q)%R -> (Rabs Z <= r)%R -> (bp (-999) <= p * q)%R -> (p * q <= bp 990)%R -> (r <= bp 990)%R ->
  exists V, is_real D (madd D rm x y z) V /\ (Rabs (V - (X * Y + Z)) <= v * (3 * (p * q) + r))%R.
Proof.
  intros rm x y z X Y Z p q r Hx Hy Hz HX HY HZ L U1 U2. pose proof v_pos as VP. pose proof (mulb _ _ _ _ HX HY) as M. pose proof (Rabs_pos Z).
  assert (B1 : (bp (-1000) <= bp (-999))%R) by (apply bpow_le; lia). assert (B2 : (bp 10 * bp 990 <= bp 1000)%R) by (rewrite <- bpow_plus; apply bpow_le; lia). replace (bp 10) with 1024%R in B2 by (bpn; lra). pose proof (bpow_gt_0 radix2 990). pose proof (bpow_gt_0 radix2 (-999)).
  destruct (mul_g rm x y X Y (p * q) Hx Hy M) as (Q & HQ & EQ); [split; lra|].
  set (pq := (p * q)%R) in *. assert (VQ : (v * pq <= pq)%R) by (rewrite <- (Rmult_1_l pq) at 2; apply Rmult_le_compat_r; lra).
  pose proof (near_b _ _ _ _ EQ M) as NQ.
  destruct (add_g rm _ z Q Z (2 * pq + r) HQ Hz) as (V & HV & EV); [eapply Rle_trans; [apply (tri _ _ (2 * pq) r); lra|lra]|split; lra|].
  exists V. split; [exact HV|]. replace (V - (X * Y + Z))%R with ((V - (Q + Z)) + (Q - X * Y))%R by ring. eapply Rle_trans; [apply (tri _ _ _ _ EV EQ)|]. lra.
Qed.
Ltac bpb := match goal with
  | |- (bp ?a <= _)%R => apply Rle_trans with (bp (-80)); [apply bpow_le; lia|bpn; lra]
  | |- (_ <= bp ?a)%R => apply Rle_trans with (bp 80); [bpn; lra|apply bpow_le; lia] end.
(** |A B - A' B'| *)
Lemma mul_near : forall A B A' B' a b p q, (Rabs (A - A') <= a -> Rabs (B - B') <= b -> Rabs A' <= p -> Rabs B <= q -> Rabs (A * B - A' * B') <= a * q + p * b)%R.
Proof. intros. replace (A * B - A' * B')%R with ((A - A') * B + A' * (B - B'))%R by ring. apply tri; apply mulb; auto. Qed.

Lemma poly_g : forall rm x X c A0 A1 A2 A3 A4 A5 B m0 m1 m2 m3 m4 m5, is_real D x X -> (Rabs X <= B)%R ->
  is_real D (ExpoF.at_ c 0) A0 -> is_real D (ExpoF.at_ c 1) A1 -> is_real D (ExpoF.at_ c 2) A2 -> is_real D (ExpoF.at_ c 3) A3 -> is_real D (ExpoF.at_ c 4) A4 -> is_real D (ExpoF.at_ c 5) A5 ->
  (Rabs A0 <= m0)%R -> (Rabs A1 <= m1)%R -> (Rabs A2 <= m2)%R -> (Rabs A3 <= m3)%R -> (Rabs A4 <= m4)%R -> (Rabs A5 <= m5)%R ->
  (bp (-20) <= B <= 16)%R -> (0 <= m0 <= 2)%R -> (bp (-60) <= m1 <= 2)%R -> (0 <= m2 <= 2)%R -> (bp (-60) <= m3 <= 2)%R -> (0 <= m4 <= 2)%R -> (bp (-60) <= m5 <= 2)%R ->
  exists P, is_real D (pf_poly rm c x) P /\ (Rabs (P - (A0 + X * (A1 + X * (A2 + X * (A3 + X * (A4 + X * (A5 + X * 0))))))) <= v * (23 * (B * B * (B * B * (2 * (B * m5 + m4)) + 2 * (B * m3 + m2))) + 3 * (2 * (B * m1 + m0))))%R.
Proof.
  intros rm x X c A0 A1 A2 A3 A4 A5 B m0 m1 m2 m3 m4 m5 Hx HX H0 H1 H2 H3 H4 H5 L0 L1 L2 L3 L4 L5 (BL & BU) M0 M1 M2 M3 M4 M5. unfold pf_poly. pose proof v_pos as VP.
  assert (BP : (0 < B)%R) by (pose proof (bpow_gt_0 radix2 (-20)); lra).
  assert (LO : forall m, (bp (-60) <= m)%R -> (bp (-80) <= B * m)%R). { intros m Hm. change (-80) with (-20 + -60). rewrite bpow_plus. apply Rmult_le_compat; auto; apply bpow_ge_0. }
  assert (LW : forall k, -999 <= k -> (bp (-999) <= bp k)%R) by (intros; apply bpow_le; lia).
  assert (HI : (bp 80 <= bp 990)%R) by (apply bpow_le; lia). assert (B80 : (1000000000 <= bp 80)%R) by (bpn; lra).
  assert (UB : forall m, (0 <= m <= 2)%R -> (0 <= B * m <= 32)%R) by (intros m Hm; nra).
  assert (P60 : (0 < bp (-60))%R) by apply bpow_gt_0. assert (P80 : (0 < bp (-80))%R) by apply bpow_gt_0.
  pose proof (UB _ M0). pose proof (UB m1 ltac:(lra)) as U1. pose proof (UB m3 ltac:(lra)) as U3. pose proof (UB m5 ltac:(lra)) as U5.
  pose proof (LO m1 ltac:(lra)) as O1. pose proof (LO m3 ltac:(lra)) as O3. pose proof (LO m5 ltac:(lra)) as O5. pose proof (LW (-80) ltac:(lia)) as LW80.
  destruct (madd_g rm x _ _ X A1 A0 B m1 m0 Hx H1 H0 HX L1 L0) as (C0 & HC0 & EC0); try lra.
  destruct (madd_g rm x _ _ X A3 A2 B m3 m2 Hx H3 H2 HX L3 L2) as (C1 & HC1 & EC1); try lra.
  destruct (madd_g rm x _ _ X A5 A4 B m5 m4 Hx H5 H4 HX L5 L4) as (C2 & HC2 & EC2); try lra.
  set (b1 := (B * m1)%R) in *. set (b3 := (B * m3)%R) in *. set (b5 := (B * m5)%R) in *.
  set (c0 := (2 * (b1 + m0))%R). set (c1 := (2 * (b3 + m2))%R). set (c2 := (2 * (b5 + m4))%R).
  assert (VM : forall k, (0 <= k)%R -> (0 <= v * k <= / 1000 * k)%R) by (intros k Hk; split; [apply Rmult_le_pos; lra|apply Rmult_le_compat_r; lra]).
  assert (N : forall C b m A A', (0 <= b)%R -> (0 <= m)%R -> (Rabs (C - (X * A + A')) <= v * (3 * b + m))%R -> (Rabs (X * A) <= b)%R -> (Rabs A' <= m)%R -> (Rabs C <= 2 * (b + m))%R /\ (Rabs (X * A + A') <= 2 * (b + m))%R /\ (Rabs (C - (X * A + A')) <= v * (2 * (2 * (b + m))))%R).
  { intros C b m A A' K1 K2 K3 K4 K5. pose proof (tri _ _ _ _ K4 K5) as K6. pose proof (near_b _ _ _ _ K3 K6). pose proof (VM (3 * b + m)%R ltac:(lra)). repeat split; try lra. eapply Rle_trans; [exact K3|]. apply Rmult_le_compat_l; lra. }
  destruct (N C0 b1 m0 A1 A0 ltac:(lra) ltac:(lra) EC0 (mulb _ _ _ _ HX L1) L0) as (Q0 & Q0' & E0).
  destruct (N C1 b3 m2 A3 A2 ltac:(lra) ltac:(lra) EC1 (mulb _ _ _ _ HX L3) L2) as (Q1 & Q1' & E1).
  destruct (N C2 b5 m4 A5 A4 ltac:(lra) ltac:(lra) EC2 (mulb _ _ _ _ HX L5) L4) as (Q2 & Q2' & E2). clear N.
  fold c0 in Q0, Q0', E0. fold c1 in Q1, Q1', E1. fold c2 in Q2, Q2', E2.
  assert (R0 : (0 <= c0 <= 70)%R) by (unfold c0; lra). assert (R1 : (bp (-80) <= c1 <= 70)%R) by (unfold c1; lra). assert (R2 : (bp (-80) <= c2 <= 70)%R) by (unfold c2; lra).
  pose proof (mulb _ _ _ _ HX HX) as XX. set (BB := (B * B)%R) in *.
  assert (BBb : (bp (-40) <= BB <= 256)%R). { unfold BB. change (-40) with (-20 + -20). rewrite bpow_plus. split; [apply Rmult_le_compat; auto; apply bpow_ge_0|nra]. }
  assert (P40 : (0 < bp (-40))%R) by apply bpow_gt_0.
  destruct (mul_g rm x x X X BB Hx Hx XX) as (X2 & HX2 & EX2). { split; [apply Rle_trans with (bp (-40)); [apply bpow_le; lia|lra]|apply Rle_trans with (bp 80); [lra|apply bpow_le; lia]]. }
  pose proof (VM BB ltac:(lra)) as VB. assert (QX2 : (Rabs X2 <= 2 * BB)%R) by (eapply Rle_trans; [apply (near_b _ _ _ _ EX2 XX)|lra]).
  assert (W2 : (bp (-120) <= BB * c2 <= 20000)%R). { split; [change (-120) with (-40 + -80); rewrite bpow_plus; apply Rmult_le_compat; lra|]. apply Rle_trans with (256 * 70)%R; [apply Rmult_le_compat; lra|lra]. }
  pose proof (LW (-120) ltac:(lia)) as LW120. pose proof (bpow_gt_0 radix2 (-120)) as P120.
  destruct (madd_g rm _ _ _ X2 C2 C1 (2 * BB) c2 c1 HX2 HC2 HC1 QX2 Q2 Q1) as (U & HU & EU); try (rewrite ?Rmult_assoc; lra).
  set (U' := (X * X * (X * A5 + A4) + (X * A3 + A2))%R). set (w := (BB * c2)%R) in *. set (ub := (w + c1)%R).
  pose proof (mul_near X2 C2 (X * X) (X * A5 + A4) _ _ _ _ EX2 E2 XX Q2) as D2.
  assert (QU' : (Rabs U' <= ub)%R) by (apply tri; [apply mulb; auto|auto]).
  assert (E3 : (Rabs (U - U') <= v * (9 * ub))%R).
  { replace (U - U')%R with ((U - (X2 * C2 + C1)) + ((X2 * C2 - X * X * (X * A5 + A4)) + (C1 - (X * A3 + A2))))%R by (unfold U'; ring).
    eapply Rle_trans; [apply tri; [exact EU|apply tri; [exact D2|exact E1]]|]. replace (2 * BB * c2)%R with (2 * w)%R by (unfold w; ring). replace (v * BB * c2)%R with (v * w)%R by (unfold w; ring). replace (BB * (v * (2 * c2)))%R with (2 * (v * w))%R by (unfold w; ring). unfold ub.
    pose proof (VM w ltac:(lra)). pose proof (VM c1 ltac:(lra)). lra. }
  assert (UBb : (bp (-80) <= ub <= 30000)%R) by (unfold ub; lra). pose proof (VM (9 * ub)%R ltac:(lra)) as VU.
  assert (QU : (Rabs U <= 2 * ub)%R) by (eapply Rle_trans; [apply (near_b _ _ _ _ E3 QU')|lra]).
  assert (W3 : (bp (-120) <= BB * ub <= 8000000)%R). { split; [change (-120) with (-40 + -80); rewrite bpow_plus; apply Rmult_le_compat; lra|]. apply Rle_trans with (256 * 30000)%R; [apply Rmult_le_compat; lra|lra]. }
  destruct (madd_g rm _ _ _ X2 U C0 (2 * BB) (2 * ub) c0 HX2 HU HC0 QX2 QU Q0) as (W & HW & EW); try (replace (2 * BB * (2 * ub))%R with (4 * (BB * ub))%R by ring; lra); try lra.
  exists W. split; [exact HW|].
  pose proof (mul_near X2 U (X * X) U' _ _ _ _ EX2 E3 XX QU) as D3.
  replace (W - _)%R with ((W - (X2 * U + C0)) + ((X2 * U - X * X * U') + (C0 - (X * A1 + A0))))%R by (unfold U'; ring).
  eapply Rle_trans; [apply tri; [exact EW|apply tri; [exact D3|exact E0]]|].
  replace (2 * BB * (2 * ub))%R with (4 * (BB * ub))%R by ring. replace (v * BB * (2 * ub))%R with (2 * (v * (BB * ub)))%R by ring. replace (BB * (v * (9 * ub)))%R with (9 * (v * (BB * ub)))%R by ring.
  fold w ub. set (z := (BB * ub)%R). fold c0. pose proof (VM z ltac:(unfold z; lra)). pose proof (VM c0 ltac:(lra)). lra.
Qed.
Ltac litc := match goal with |- is_real D (ExpoF.at_ ?c ?i) (IZR ?m * bp ?e) => change (ExpoF.at_ c i) with (round_int D RNE false m e); exact (lit_r false m e ltac:(lia) ltac:(lia)) end.
Lemma poly_log_g : forall rm x X, is_real D x X -> (Rabs X <= / 128)%R -> exists P, is_real D (pf_poly rm pf_log x) P /\ (Rabs (P - hr X rl) <= 20 * v)%R.
Proof.
  intros rm x X Hx HX.
  destruct (poly_g rm x X pf_log (IZR 0x171547652b82fe * bp (-52)) (IZR (-0x171547652b7a07) * bp (-53)) (IZR 0x1ec709dc458db1 * bp (-54)) (IZR (-0x1715479c2266c9) * bp (-54)) (IZR 0x12776ae1ddf8f0 * bp (-54)) (IZR (-0x1e7b2178870157) * bp (-55)) (/ 128) 1.5 1 1 1 1 1) as (P & HP & EP); [exact Hx|exact HX|litc|litc|litc|litc|litc|litc|..];
    try (bpn; interval with (i_prec 60)); try (bpn; lra).
  exists P. split; [exact HP|]. eapply Rle_trans; [exact EP|]. pose proof v_pos. replace (20 * v)%R with (v * 20)%R by ring. apply Rmult_le_compat_l; lra.
Qed.
Lemma poly_exp_g : forall rm x X, is_real D x X -> (Rabs X <= 10)%R -> exists P, is_real D (pf_poly rm pf_exp x) P /\ (Rabs (P - hr X re) <= 20 * v)%R.
Proof.
  intros rm x X Hx HX.
  destruct (poly_g rm x X pf_exp (IZR 1 * bp 0) (IZR 0x162e42fefa39ef * bp (-59)) (IZR 0x1ebfbdff82a23a * bp (-67)) (IZR 0x1c6b08d7076268 * bp (-75)) (IZR 0x13b2ad33f8b48b * bp (-83)) (IZR 0x15d870c4d84445 * bp (-92)) 10 1 0.011 0.0001 0.000001 0.00000001 0.0000000001) as (P & HP & EP); [exact Hx|exact HX|litc|litc|litc|litc|litc|litc|..];
    try (bpn; interval with (i_prec 60)); try (bpn; lra).
  exists P. split; [exact HP|]. eapply Rle_trans; [exact EP|]. pose proof v_pos. replace (20 * v)%R with (v * 20)%R by ring. apply Rmult_le_compat_l; lra.
Qed.

Lemma vk : (bp (-38) = 8192 * v /\ bp (-40) = 2048 * v /\ bp (-45) = 64 * v /\ bp (-60) = / 512 * v /\ bp (-37) = 16384 * v /\ bp (-50) = 2 * v)%R.
Proof. unfold v. bpn. repeat split; lra. Qed.
Lemma at_row1 : forall i, 0 <= i < 128 -> exists r l2 tl tm th, at_opt pf_R i = Some r /\ at_opt pf_RD i = Some r /\ at_opt pf_LOG2_R i = Some l2 /\ at_opt pf_LOG2_R_TD i = Some (tl, tm, th) /\ good1 i r l2 tl tm th.
Proof.
  intros i Hi. pose proof (tab1 i Hi) as T. unfold row1 in T. destruct (at_d pf_LOG2_R_TD z3 i) as ((tl & tm) & th) eqn:E.
  exists (at_d pf_RD 0 i), (at_d pf_LOG2_R 0 i), tl, tm, th. rewrite R_RD.
  split; [|split; [|split; [|split; [|exact T]]]]; try (apply at_opt_d; exact Hi). rewrite <- E. apply at_opt_d. exact Hi.
Qed.
Record redg (x y ex : Z) (Y : R) (L : R) (q : pf_red) : Prop := {
  rg : exists DX L2 HI MID LO n HL W z tl tm th, DX = (IZR z * bp (-32))%R /\ at_opt pf_LOG2_R_TD (pr_idx q) = Some (tl, tm, th) /\ redn (pr_idx q) (ex + Z.shiftr x 23) L DX L2 HI MID LO /\
    is_real D (pr_dx q) DX /\ is_real D tl LO /\ is_real D tm MID /\ is_real D (pr_y6 q) (64 * Y) /\ is_real D (pr_hm q) (IZR n) /\ is_real D (pr_hi q) HL /\ is_real D (pr_lo6 q) W /\
    (Rabs (64 * Y * L - IZR n) <= / 2 + bp (-37) * (Rabs (64 * Y) * Rabs L))%R /\
    (Rabs (HL - (64 * Y * (IZR (ex + Z.shiftr x 23) + HI) - IZR n)) <= v * (22 * (Rabs (64 * Y) * Rabs L) + 1))%R /\
    (Rabs (W - (64 * Y * L - IZR n)) <= bp (-37) * (Rabs (64 * Y) * Rabs L) + 2 * v)%R /\ (Rabs W <= 10)%R }.
Lemma y6_r : forall y Y, is_real S32 y Y -> (Rabs Y <= bp 32)%R -> is_real D (f_cast S32 D RNE (f_mul S32 RNE y (litf 1 6))) (64 * Y).
Proof.
  intros y Y Hy B. apply widen. apply (mul_x S32 good32 RNE y (litf 1 6) Y 64 (64 * Y) Hy).
  - replace 64%R with ((if false then -1 else 1) * IZR (2 ^ 23) * bp (-17))%R by (cbv iota; bpn; lra). apply (real_dec S32 (litf 1 6) false (2 ^ 23) (-17)); [split; vm_compute; congruence|vm_compute; reflexivity].
  - ring.
  - replace (64 * Y)%R with (Y * bp 6)%R by (bpn; ring). apply mult_bpow_pos_exact_FLT; [|lia]. exact (real_fmt S32 good32 y Y Hy).
  - rewrite Rabs_mult, (Rabs_pos_eq 64) by lra. apply Rle_lt_trans with (bp 6 * bp 32)%R; [replace (bp 6) with 64%R by (bpn; lra); lra|]. rewrite <- bpow_plus. apply bpow_lt. vm_compute; reflexivity.
Qed.
Lemma red_g : forall ct x y ex Y, 0 <= x < 2 ^ 31 -> is_real S32 y Y -> (bp (-150) <= Rabs Y <= bp 32)%R -> Z.abs (ex + Z.shiftr x 23) <= 200 ->
  let L := (IZR (ex + Z.shiftr x 23) + log2 (IZR (2 ^ 23 + mant x) * bp (-23)))%R in (bp (-30) <= Rabs L <= 205)%R ->
  exists q, pf_reduce false ct RNE x y ex = Some q /\ redg x y ex Y L q.
Proof.
  intros ct x y ex Y Hx Hy (YL & YU) HE L (LL & LU). set (E := ex + Z.shiftr x 23) in *.
  assert (M : mant x = x mod 2 ^ 23) by (apply (Z.land_ones x 23); lia). pose proof (Z.mod_pos_bound x (2 ^ 23) ltac:(lia)) as MB. rewrite <- M in MB.
  assert (ID : Z.shiftr (mant x) 16 = mant x / 2 ^ 16) by (apply Z.shiftr_div_pow2; lia).
  set (i := mant x / 2 ^ 16) in *. assert (IB : 0 <= i < 128) by (split; [apply Z.div_pos; lia|apply Z.div_lt_upper_bound; lia]).
  destruct (at_row1 i IB) as (r & l2 & tl & tm & th & A1 & A2 & A3 & A4 & G).
  destruct (redn_ok x E i r l2 tl tm th Hx eq_refl G) as (DX & L2 & HI & MID & LO & z & EZ & HD & H2 & HH & HM & HO & RN). fold L in RN.
  unfold pf_reduce. change (Z.land x 0x7fffff) with (mant x). rewrite ID. fold i. rewrite A1, A2, A3, A4. cbn [bindo]. fold E.
  set (dx := pf_dx false RNE (Z.lor (mant x) 1065353216) r r) in *.
  destruct vk as (K38 & K40 & K45 & K60 & K37 & _). pose proof v_pos as VP.
  destruct RN as [Rd Rl RL RS Rdd Rh R2 Rm Ro Rz]. assert (RN : redn i E L DX L2 HI MID LO) by (split; assumption).
  destruct (poly_log_g RNE dx DX HD Rd) as (P & HP & EP). pose proof (log_poly DX Rd) as LP. rewrite K40 in LP. rewrite K45 in RS. rewrite K60 in RL.
  assert (HB : (Rabs (hr DX rl) <= 1.46)%R). { unfold rl. cbn [hr]. bpn. interval with (i_prec 50). }
  assert (PB : (Rabs P <= 1.5)%R) by (eapply Rle_trans; [apply (near_b _ _ _ _ EP HB)|lra]).
  assert (He : is_real D (f_of_Z D RNE E) (IZR E)) by (apply ofZ_r; lia).
  pose proof (y6_r y Y Hy YU) as HY. set (y6 := f_cast S32 D RNE (f_mul S32 RNE y (litf 1 6))) in *.
  set (Y6 := (64 * Y)%R) in *. set (u := Rabs Y6) in *. set (La := Rabs L) in *. set (t := (u * La)%R).
  assert (UB : (bp (-144) <= u <= bp 38)%R). { unfold u, Y6. rewrite Rabs_mult, (Rabs_pos_eq 64) by lra. replace (bp (-144)) with (64 * bp (-150))%R by (replace 64%R with (bp 6) by (bpn; lra); rewrite <- bpow_plus; reflexivity). replace (bp 38) with (64 * bp 32)%R by (bpn; lra). lra. }
  assert (TB : (bp (-174) <= t <= 205 * bp 38)%R). { unfold t. split; [change (-174) with (-144 + -30); rewrite bpow_plus; apply Rmult_le_compat; try apply bpow_ge_0; lra|]. rewrite Rmult_comm. apply Rmult_le_compat; unfold La, u; try apply Rabs_pos; fold La; fold u; lra. }
  assert (PL : (0 < bp (-30))%R) by apply bpow_gt_0. assert (PT : (0 < bp (-174))%R) by apply bpow_gt_0. assert (PU : (0 < bp (-144))%R) by apply bpow_gt_0.
  assert (VL : (0 < v * La <= / 1000000000 * La)%R) by (split; [apply Rmult_lt_0_compat; lra|apply Rmult_le_compat_r; lra]).
  assert (VT : (0 < v * t <= / 1000000000 * t)%R) by (split; [apply Rmult_lt_0_compat; lra|apply Rmult_le_compat_r; lra]).
  assert (B38 : (205 * bp 38 <= bp 46)%R) by (bpn; lra).
  assert (low : forall k, (bp (-174) <= k)%R -> (bp (-1000) <= bp (-999) <= k)%R). { intros k K. split; [apply bpow_le; lia|]. apply Rle_trans with (bp (-174)); [apply bpow_le; lia|auto]. }
  assert (high : forall k, (k <= bp 60)%R -> (k <= bp 990 <= bp 1000)%R). { intros k K. split; [|apply bpow_le; lia]. apply Rle_trans with (bp 60); [auto|apply bpow_le; lia]. }
  assert (rg : forall k, (bp (-174) <= k <= bp 60)%R -> rng k) by (intros k (K1 & K2); split; [destruct (low k K1); lra|destruct (high k K2); lra]).
  assert (B60 : bp 60 = (1024 * 16 * bp 46)%R) by (bpn; lra). assert (P46 : (1000000 <= bp 46)%R) by (bpn; lra).
  assert (LT : (bp (-174) <= La)%R) by (apply Rle_trans with (bp (-30)); [apply bpow_le; lia|auto]).
  (* s *)
  destruct (add_g RNE l2 _ L2 (IZR E) (5 * La) H2 He) as (LE & HLE & ELE); [rewrite Rplus_comm; exact R2|apply rg; lra|].
  assert (QLE : (Rabs LE <= 5.1 * La)%R) by (eapply Rle_trans; [apply (near_b _ _ _ (5 * La) ELE); rewrite Rplus_comm; exact R2|lra]).
  destruct (madd_g RNE dx _ _ DX P LE (2 * La) 1.5 (5.1 * La) HD HP HLE Rdd PB QLE) as (S & HS & ES); [apply low; lra|apply high; lra|apply high; lra|].
  set (S0 := (IZR E + HI + MID + DX * P)%R).
  assert (DP : (Rabs (DX * P - log2 (1 + DX)) <= 5000 * (v * La))%R).
  { replace (DX * P - log2 (1 + DX))%R with (DX * (P - hr DX rl) + (DX * hr DX rl - log2 (1 + DX)))%R by ring. eapply Rle_trans; [apply tri; [apply mulb; [exact Rdd|exact EP]|exact LP]|].
    assert (v * Rabs DX <= v * (2 * La))%R by (apply Rmult_le_compat_l; lra). lra. }
  assert (E0L : (Rabs (S0 - L) <= 5001 * (v * La))%R).
  { replace (S0 - L)%R with ((DX * P - log2 (1 + DX)) - (L - (IZR E + HI + MID + log2 (1 + DX))))%R by (unfold S0; ring). eapply Rle_trans; [apply Rabs_triang|]. rewrite Rabs_Ropp. lra. }
  assert (ESS : (Rabs (S - S0) <= 86 * (v * La))%R).
  { replace (S - S0)%R with ((S - (DX * P + LE)) + ((LE - (L2 + IZR E)) + ((L - (IZR E + HI + MID + log2 (1 + DX))) - (L - (IZR E + L2 + log2 (1 + DX))))))%R by (unfold S0; ring).
    eapply Rle_trans; [apply tri; [exact ES|apply tri; [exact ELE|eapply Rle_trans; [apply Rabs_triang|rewrite Rabs_Ropp; apply Rplus_le_compat; [exact RL|exact RS]]]]|]. lra. }
  assert (S0B : (Rabs S0 <= 1.005 * La)%R) by (eapply Rle_trans; [apply (near_b _ _ _ La E0L); unfold La; lra|lra]).
  assert (SB : (Rabs S <= 1.01 * La)%R) by (eapply Rle_trans; [apply (near_b _ _ _ _ ESS S0B)|lra]).
  assert (UU : (Rabs Y6 <= u)%R) by (unfold u; lra).
  destruct (mul_g RNE _ y6 S Y6 (1.01 * t) HS HY) as (SY & HSY & ESY). { eapply Rle_trans; [apply (mulb _ _ _ _ SB UU)|unfold t; lra]. } { apply rg; lra. }
  assert (mt : forall a k, (Rabs a <= k * La)%R -> (Rabs (Y6 * a) <= k * t)%R). { intros a k K. eapply Rle_trans; [apply (mulb _ _ _ _ UU K)|unfold t; lra]. }
  assert (mtv : forall a k, (Rabs a <= k * (v * La))%R -> (Rabs (Y6 * a) <= k * (v * t))%R). { intros a k K. eapply Rle_trans; [apply (mulb _ _ _ _ UU K)|unfold t; lra]. }
  assert (E1 : (Rabs (SY - Y6 * S0) <= 88 * (v * t))%R).
  { replace (SY - Y6 * S0)%R with ((SY - S * Y6) + Y6 * (S - S0))%R by ring. eapply Rle_trans; [apply tri; [exact ESY|apply (mtv _ _ ESS)]|]. lra. }
  pose proof (mt _ _ S0B) as TB0. assert (SYB : (Rabs SY <= 1.01 * t)%R) by (eapply Rle_trans; [apply (near_b _ _ _ _ E1 TB0)|lra]).
  destruct HSY as (PS & FS & VS).
  destruct (ni_rne D good64 RNE eq_refl ct _ PS FS) as (N1 & N2 & N3). { rewrite VS. eapply Rle_lt_trans; [exact SYB|]. change (fl D) with 52. apply Rlt_le_trans with (bp 50); [|apply bpow_le; lia]. replace (bp 50) with (16 * bp 46)%R by (bpn; lra). lra. }
  rewrite VS in N3. set (n := ZnearestE SY) in *. set (hm := cc_nearest_integer D RNE ct _) in *. assert (HN : is_real D hm (IZR n)) by (repeat split; auto; apply N1).
  assert (NB : (Rabs (SY - IZR n) <= / 2)%R) by (apply Znearest_half).
  assert (T0n : (Rabs (Y6 * S0 - IZR n) <= / 2 + 88 * (v * t))%R). { replace (Y6 * S0 - IZR n)%R with ((SY - IZR n) - (SY - Y6 * S0))%R by ring. eapply Rle_trans; [apply Rabs_triang|]. rewrite Rabs_Ropp. lra. }
  assert (NN : (Rabs (- IZR n) <= 1.01 * t + / 2)%R). { rewrite Rabs_Ropp. replace (IZR n) with (SY - (SY - IZR n))%R by ring. eapply Rle_trans; [apply Rabs_triang|]. rewrite Rabs_Ropp. lra. }
  assert (TnT : (Rabs (Y6 * L - Y6 * S0) <= 5001 * (v * t))%R). { replace (Y6 * L - Y6 * S0)%R with (- (Y6 * (S0 - L)))%R by ring. rewrite Rabs_Ropp. apply mtv. exact E0L. }
  (* lo6_hi *)
  destruct (add_g RNE _ th (IZR E) HI (5 * La) He HH Rh) as (EH & HEH & EEH); [apply rg; lra|].
  assert (QEH : (Rabs EH <= 5.1 * La)%R) by (eapply Rle_trans; [apply (near_b _ _ _ _ EEH Rh)|lra]).
  assert (HNn : is_real D (f_neg D hm) (- IZR n)). { destruct HN as (Pn & Fn & Vn). destruct (f_neg_props D good64 hm Pn) as (X1 & _ & _ & X2 & X3). split; [exact X1|]. split; [congruence|]. rewrite X3, Vn. reflexivity. }
  assert (tt1 : (u * (5.1 * La) = 5.1 * t)%R) by (unfold t; ring). assert (tt2 : (u * (3.2 * La) = 3.2 * t)%R) by (unfold t; ring).
  destruct (madd_g RNE y6 _ _ Y6 EH (- IZR n) u (5.1 * La) (1.01 * t + / 2) HY HEH HNn UU QEH NN) as (HL & HHL & EHL); try (rewrite tt1); [apply low; lra|apply high; lra|apply high; lra|].
  rewrite tt1 in EHL.
  assert (EH2 : (Rabs (HL - (Y6 * (IZR E + HI) - IZR n)) <= v * (22 * t + 1))%R).
  { replace (HL - (Y6 * (IZR E + HI) - IZR n))%R with ((HL - (Y6 * EH + - IZR n)) + Y6 * (EH - (IZR E + HI)))%R by ring. eapply Rle_trans; [apply tri; [exact EHL|apply (mtv _ 5%R); lra]|]. lra. }
  assert (HLB : (Rabs HL <= 7 * t + 1)%R). { eapply Rle_trans; [apply (near_b _ _ _ (5 * t + (1.01 * t + / 2)) EH2)|lra]. unfold Rminus. apply tri; [apply mt; exact Rh|exact NN]. }
  (* lo6 *)
  assert (Rm' : (Rabs MID <= 0.1 * La)%R). { eapply Rle_trans; [exact Rm|]. apply Rmult_le_compat_r; [lra|]. bpn. lra. }
  destruct (madd_g RNE dx _ _ DX P MID (2 * La) 1.5 (0.1 * La) HD HP HM Rdd PB Rm') as (DM & HDM & EDM); [apply low; lra|apply high; lra|apply high; lra|].
  assert (DMB : (Rabs DM <= 3.2 * La)%R). { eapply Rle_trans; [apply (near_b _ _ _ (2 * La * 1.5 + 0.1 * La) EDM)|lra]. apply tri; [apply mulb; auto|exact Rm']. }
  destruct (madd_g RNE y6 _ _ Y6 DM HL u (3.2 * La) (7 * t + 1) HY HDM HHL UU DMB HLB) as (W & HW & EW); try (rewrite tt2); [apply low; lra|apply high; lra|apply high; lra|].
  rewrite tt2 in EW.
  assert (EW2 : (Rabs (W - (Y6 * S0 - IZR n)) <= 50 * (v * t) + 2 * v)%R).
  { replace (W - (Y6 * S0 - IZR n))%R with ((W - (Y6 * DM + HL)) + (Y6 * (DM - (DX * P + MID)) + (HL - (Y6 * (IZR E + HI) - IZR n))))%R by (unfold S0; ring).
    eapply Rle_trans; [apply tri; [exact EW|apply tri; [apply (mtv _ 9.1%R); lra|exact EH2]]|]. lra. }
  eexists. split; [reflexivity|]. split. exists DX, L2, HI, MID, LO, n, HL, W, z, tl, tm, th. cbn [pr_idx pr_dx pr_y6 pr_hm pr_hi pr_lo6]. rewrite K37. fold E Y6. fold u La. fold t.
  split; [exact EZ|]. split; [exact A4|]. split; [exact RN|]. split; [exact HD|]. split; [exact HO|]. split; [exact HM|]. split; [exact HY|]. split; [exact HN|]. split; [exact HHL|]. split; [exact HW|].
  split. { replace (Y6 * L - IZR n)%R with ((Y6 * L - Y6 * S0) + (Y6 * S0 - IZR n))%R by ring. eapply Rle_trans; [apply (tri _ _ _ _ TnT T0n)|]. lra. }
  split; [exact EH2|]. split. { replace (W - (Y6 * L - IZR n))%R with ((W - (Y6 * S0 - IZR n)) - (Y6 * L - Y6 * S0))%R by ring. eapply Rle_trans; [apply Rabs_triang|]. rewrite Rabs_Ropp. lra. }
  assert (VT2 : (v * t <= / 30)%R). { apply Rle_trans with (v * (205 * bp 38))%R; [apply Rmult_le_compat_l; lra|]. unfold v. bpn. lra. }
  eapply Rle_trans; [apply (near_b _ _ _ _ EW2 T0n)|]. lra.
Qed.
