(** * Neighbouring double patterns *)
From Coq Require Import ZArith Lia Reals Lra List Bool.
From Flocq Require Import Core.
From Verif Require Import MachInt Fmt FloatSpec RoundProofs FmtProofs ExtFloatSpec FOps FOpsProofs RemProofs FmanipWide ErrLib LogfNum ExtInterp Exp2fProofs ExtFloatProofs ExpoFWrap PowfScale.
Open Scope Z_scope.

Lemma near_pos : forall a d V, 2 ^ 53 <= a < 2046 * 2 ^ 52 -> Z.abs d <= 128 -> is_real D a V -> exists V', is_real D (a + d) V' /\ (Rabs (V' - V) <= bp (-44) * V)%R.
Proof.
  intros a d V Ha Hd (_ & _ & HV). pose proof (pos_pat a ltac:(lia)) as Ra. pose proof (pos_pat (a + d) ltac:(lia)) as Rb.
  assert (EV : V = (IZR (2 ^ 52 + a mod 2 ^ 52) * bp (a / 2 ^ 52 - 1075))%R) by (destruct Ra as (_ & _ & Ra); congruence).
  eexists. split; [exact Rb|]. rewrite EV. clear Ra Rb HV EV.
  pose proof (Z.div_mod a (2 ^ 52) ltac:(lia)) as DM. pose proof (Z.mod_pos_bound a (2 ^ 52) ltac:(lia)) as MB. set (e := a / 2 ^ 52) in *. set (m := a mod 2 ^ 52) in *.
  assert (B : (bp (-44) = 256 * bp (-52))%R) by (bpn; lra).
  assert (Q : forall p, 2 ^ 52 <= p -> (1 <= bp (-52) * IZR p)%R). { intros p P. apply IZR_le in P. change (IZR (2 ^ 52)) with 4503599627370496%R in P. bpn. lra. }
  pose proof (bpow_gt_0 radix2 (e - 1075)) as BP. pose proof (Q (2 ^ 52 + m) ltac:(lia)) as Q1. rewrite B.
  assert (HD : (Rabs (IZR d) <= 128)%R) by (rewrite <- abs_IZR; apply IZR_le; auto). apply Rabs_le_inv in HD.
  assert (FIN : forall k, (Rabs k <= 256)%R -> (Rabs (k * bp (e - 1075)) <= 256 * bp (-52) * (IZR (2 ^ 52 + m) * bp (e - 1075)))%R).
  { intros k K. rewrite Rabs_mult, (Rabs_pos_eq (bp _)) by lra. rewrite <- Rmult_assoc. apply Rmult_le_compat_r; [lra|]. lra. }
  assert (C : m + d < 0 \/ 0 <= m + d < 2 ^ 52 \/ 2 ^ 52 <= m + d) by lia. destruct C as [C|[C|C]].
  - assert (E1 : (a + d) / 2 ^ 52 = e - 1) by (symmetry; apply Z.div_unique with (m + d + 2 ^ 52); lia). assert (E2 : (a + d) mod 2 ^ 52 = m + d + 2 ^ 52) by (symmetry; apply Z.mod_unique with (e - 1); lia).
    rewrite E1, E2. replace (e - 1 - 1075) with (e - 1075 + -1) by ring. rewrite bpow_plus. change (bp (-1)) with (/ 2)%R.
    replace (IZR (2 ^ 52 + (m + d + 2 ^ 52)) * (bp (e - 1075) * / 2) - IZR (2 ^ 52 + m) * bp (e - 1075))%R with ((IZR (m + d) / 2 - IZR m) * bp (e - 1075))%R by (rewrite !plus_IZR; field).
    apply FIN. apply Rabs_le. assert (m1 : m <= 128) by lia. assert (m0 : 0 <= m) by lia. apply IZR_le in m1, m0. rewrite plus_IZR. lra.
  - assert (E1 : (a + d) / 2 ^ 52 = e) by (symmetry; apply Z.div_unique with (m + d); lia). assert (E2 : (a + d) mod 2 ^ 52 = m + d) by (symmetry; apply Z.mod_unique with e; lia).
    rewrite E1, E2. replace (IZR (2 ^ 52 + (m + d)) * bp (e - 1075) - IZR (2 ^ 52 + m) * bp (e - 1075))%R with (IZR d * bp (e - 1075))%R by (rewrite !plus_IZR; ring). apply FIN. apply Rabs_le. lra.
  - assert (E1 : (a + d) / 2 ^ 52 = e + 1) by (symmetry; apply Z.div_unique with (m + d - 2 ^ 52); lia). assert (E2 : (a + d) mod 2 ^ 52 = m + d - 2 ^ 52) by (symmetry; apply Z.mod_unique with (e + 1); lia).
    rewrite E1, E2. replace (e + 1 - 1075) with (e - 1075 + 1) by ring. rewrite bpow_plus. change (bp 1) with 2%R.
    set (w := m + d - 2 ^ 52). replace (IZR (2 ^ 52 + w) * (bp (e - 1075) * 2) - IZR (2 ^ 52 + m) * bp (e - 1075))%R with ((IZR w + IZR d) * bp (e - 1075))%R. 2: { replace (IZR w) with (IZR m + IZR d - IZR (2 ^ 52))%R at 1 by (unfold w; rewrite minus_IZR, plus_IZR; reflexivity). rewrite !plus_IZR. replace (IZR w) with (IZR m + IZR d - IZR (2 ^ 52))%R by (unfold w; rewrite minus_IZR, plus_IZR; reflexivity). ring. }
    apply FIN. assert (w1 : w <= 128) by (unfold w; lia). assert (w0 : 0 <= w) by (unfold w; lia). apply IZR_le in w1, w0. apply Rabs_le. lra.
Qed.
(** A pattern within 128 of that of a value in the middle of the range. *)
Lemma near_pat : forall p d V, is_real D p V -> (bp (-1000) <= Rabs V <= bp 1000)%R -> Z.abs d <= 128 -> exists V', is_real D (wrap 64 (p + d)) V' /\ (Rabs (V' - V) <= bp (-44) * Rabs V)%R.
Proof.
  intros p d V HP (B1 & B2) Hd. pose proof HP as (P & Fi & HV).
  assert (ML : 2 ^ 53 <= mag_of D p). { apply (mag_ge D p (2 ^ 53) V good64 HP); [lia|]. eapply Rle_trans; [|exact B1]. rewrite (mval_c D (2 ^ 53) good64) by (vm_compute; split; congruence). destruct (pos_pat (2 ^ 53) ltac:(lia)) as (_ & _ & ->). change (2 ^ 53 mod 2 ^ 52) with 0. change (2 ^ 53 / 2 ^ 52 - 1075) with (-1073). rewrite Z.add_0_r. change (2 ^ 52) with (radix_val radix2 ^ 52); rewrite IZR_Zpower by lia. rewrite <- bpow_plus. apply bpow_le. lia. }
  assert (MU : mag_of D p < 2046 * 2 ^ 52). { apply Z.nle_gt. intros C. apply (mag_ge D p (2046 * 2 ^ 52) V good64 HP) in C; [|lia]. rewrite (mval_c D _ good64) in C by (vm_compute; split; congruence). destruct (pos_pat (2046 * 2 ^ 52) ltac:(lia)) as (_ & _ & R). rewrite R in C. change (2046 * 2 ^ 52 mod 2 ^ 52) with 0 in C. change (2046 * 2 ^ 52 / 2 ^ 52 - 1075) with 971 in C. rewrite Z.add_0_r in C. change (2 ^ 52) with (radix_val radix2 ^ 52) in C; rewrite IZR_Zpower in C by lia. rewrite <- bpow_plus in C. change (52 + 971) with 1023 in C. assert (bp 1000 < bp 1023)%R by (apply bpow_lt; lia). lra. }
  pose proof (pattern_split D good64 p P) as PS. set (a := mag_of D p) in *.
  unfold sbit in PS. change (sign_unit D) with (2 ^ 63) in PS. destruct (sign_of D p) eqn:S.
  - assert (EP : p = a + 2 ^ 63) by lia. rewrite EP in HP. pose proof (neg_pat_inv a V ltac:(lia) HP) as RA.
    destruct (near_pos a d (- V) ltac:(lia) Hd RA) as (V' & R' & E').
    exists (- V')%R. split. { unfold wrap. rewrite Z.mod_small by lia. replace (p + d) with (a + d + 2 ^ 63) by lia. apply neg_pat; [lia|exact R']. }
    replace (- V' - V)%R with (- (V' - - V))%R by ring. rewrite Rabs_Ropp. eapply Rle_trans; [exact E'|]. apply Rmult_le_compat_l; [apply bpow_ge_0|]. rewrite <- Rabs_Ropp. apply Rle_abs.
  - assert (EP : p = a) by lia. rewrite EP in HP. destruct (near_pos a d V ltac:(lia) Hd HP) as (V' & R' & E'). exists V'. split. { unfold wrap. rewrite Z.mod_small by lia. rewrite EP. exact R'. }
    eapply Rle_trans; [exact E'|]. apply Rmult_le_compat_l; [apply bpow_ge_0|apply Rle_abs].
Qed.
