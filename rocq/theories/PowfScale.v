(** * powf: the power of two *)
From Coq Require Import ZArith Lia Reals Lra List Bool.
From Flocq Require Import Core.
From Verif Require Import MachInt Bits Fmt FloatSpec RoundProofs FmtProofs ExtFloatSpec FOps FOpsProofs RemProofs FmanipWide ErrLib LogfNum ExtInterp Expm1Proofs Exp2fProofs ExtFloatProofs SinRedF ExpoData ExpoF PowfData Powf PowfSpecial PowfTab PowfNum PowfDD.
Import ListNotations.
Open Scope Z_scope.

Lemma neg_pat : forall p V, 0 <= p < 2 ^ 63 -> is_real D p V -> is_real D (p + 2 ^ 63) (- V).
Proof.
  intros p V Hp (P & Fi & HV). assert (E : p + 2 ^ 63 = f_neg D p). { unfold f_neg. rewrite (sign_of_eq D good64) by auto. change (sign_unit D) with (2 ^ 63). replace (2 ^ 63 <=? p) with false by (symmetry; apply Z.leb_gt; lia). unfold mag_of. change (sign_unit D) with (2 ^ 63). rewrite Z.mod_small by lia. change (sbit D (negb false)) with (2 ^ 63). ring. }
  rewrite E. destruct (f_neg_props D good64 p P) as (X1 & _ & _ & X2 & X3). split; [exact X1|]. split; [congruence|]. rewrite X3, HV. reflexivity.
Qed.
Lemma neg_pat_inv : forall p V, 0 <= p < 2 ^ 63 -> is_real D (p + 2 ^ 63) V -> is_real D p (- V).
Proof.
  intros p V Hp (P & Fi & HV). assert (E : p = f_neg D (p + 2 ^ 63)). { unfold f_neg. rewrite (sign_of_eq D good64) by auto. change (sign_unit D) with (2 ^ 63). replace (2 ^ 63 <=? p + 2 ^ 63) with true by (symmetry; apply Z.leb_le; lia). unfold mag_of. change (sign_unit D) with (2 ^ 63). replace ((p + 2 ^ 63) mod 2 ^ 63) with p by (rewrite <- (Z.mul_1_l (2 ^ 63)) at 1; rewrite Z.mod_add, Z.mod_small by lia; reflexivity). reflexivity. }
  destruct (f_neg_props D good64 _ P) as (X1 & _ & _ & X2 & X3). rewrite <- E in *. split; [exact X1|]. split; [congruence|]. rewrite X3, HV. reflexivity.
Qed.
Definition clamp15 (n : Z) : Z := if 2 ^ 15 <? n then 2 ^ 15 else if n <? - 2 ^ 15 then - 2 ^ 15 else n.
Definition pm (s : bool) : R := if s then (-1)%R else 1%R.
Lemma scale_ok : forall hm n (s : bool), is_real D hm (IZR n) -> Z.abs n < 2 ^ 62 ->
  exists h l A B, pf_scale hm (if s then 0x8000000000000000 else 0) = Some (h, l) /\ is_real D h (pm s * A) /\ is_real D l B /\
    (Rabs (A - Rpower 2 (IZR (clamp15 n) / 64)) <= bp (-53) * Rpower 2 (IZR (clamp15 n) / 64))%R /\ (Rabs B <= bp (-53) * Rpower 2 (IZR (clamp15 n) / 64))%R.
Proof.
  intros hm n s (P & Fi & V) Hn. unfold pf_scale. rewrite (to_int_w D 64 hm n good64 P Fi V) by (unfold inS; lia). cbn [bindo]. fold (clamp15 n).
  assert (CB : - 2 ^ 15 <= clamp15 n <= 2 ^ 15) by (unfold clamp15; destruct (2 ^ 15 <? n) eqn:E1; [lia|]; apply Z.ltb_ge in E1; destruct (n <? - 2 ^ 15) eqn:E2; [lia|]; apply Z.ltb_ge in E2; lia).
  set (c := clamp15 n) in *. rewrite (Z.land_ones c 6 ltac:(lia) : Z.land c 63 = c mod 2 ^ 6). change (2 ^ 6) with 64. rewrite (Z.shiftr_div_pow2 c 6) by lia. change (2 ^ 6) with 64.
  set (j := c mod 64). set (k := c / 64). pose proof (Z.div_mod c 64 ltac:(lia)) as DM. fold j k in DM. pose proof (Z.mod_pos_bound c 64 ltac:(lia)) as JB. fold j in JB.
  assert (KB : - 512 <= k <= 512) by lia.
  assert (X : to_signed 64 (wrap 64 (Z.shiftl (wrap 64 k) 52)) = k * 2 ^ 52).
  { unfold wrap. rewrite Z.shiftl_mul_pow2, Z.mul_mod_idemp_l by lia. unfold to_signed. destruct (Z.lt_ge_cases k 0) as [N|N].
    - replace ((k * 2 ^ 52) mod 2 ^ 64) with (k * 2 ^ 52 + 2 ^ 64) by (apply Zmod_unique with (-1); lia). destruct (_ <? _) eqn:E; [apply Z.ltb_lt in E; change (64 - 1) with 63 in E; lia|ring].
    - rewrite Z.mod_small by lia. destruct (_ <? _) eqn:E; [reflexivity|apply Z.ltb_ge in E; change (64 - 1) with 63 in E; lia]. }
  rewrite X. pose proof (tab3 j JB) as T. destruct (at_d pf_EXP2_MID1 z3 j) as ((tl & tm) & th) eqn:E3. rewrite (at_opt_d _ pf_EXP2_MID1 z3 j) by exact JB. rewrite E3. cbn [bindo].
  destruct T as (TB & HI & MID & RH & RM & EH & EM & ML & TM).
  assert (SE : sarith 64 (k * 2 ^ 52 + to_signed 64 th) = Some (th + k * 2 ^ 52)). { unfold to_signed. change (64 - 1) with 63. replace (th <? 2 ^ 63) with true by (symmetry; apply Z.ltb_lt; lia). unfold sarith, inSb. change (64 - 1) with 63. replace (- 2 ^ 63 <=? k * 2 ^ 52 + th) with true by (symmetry; apply Z.leb_le; lia). replace (k * 2 ^ 52 + th <? 2 ^ 63) with true by (symmetry; apply Z.ltb_lt; lia). cbn [andb]. f_equal; ring. }
  rewrite SE. cbn [bindo].
  assert (D1 : th / 2 ^ 52 = 1023) by (symmetry; apply Z.div_unique with (th - 1023 * 2 ^ 52); lia).
  pose proof (scale_pat th k HI ltac:(lia) ltac:(lia) RH) as RS.
  assert (G : Rpower 2 (IZR c / 64) = (bp k * Rpower 2 (IZR j / 64))%R). { rewrite <- Rpower2_Z, <- Rpower_plus. f_equal. rewrite DM at 1. rewrite plus_IZR, mult_IZR. field. }
  assert (G1 : (1 <= Rpower 2 (IZR j / 64))%R). { rewrite <- (Rpower_O 2) by lra. apply Rle_Rpower; [lra|]. destruct JB as (j1 & _). apply IZR_le in j1. lra. }
  pose proof (bpow_gt_0 radix2 k) as KP. pose proof (bpow_gt_0 radix2 (-53)) as P53.
  assert (HL : exists l B, (if j =? 0 then Some 0 else sarith 64 (k * 2 ^ 52 + to_signed 64 tm)) = Some l /\ is_real D (wrap 64 l) B /\ (Rabs B <= bp (-53) * bp k)%R).
  { destruct (j =? 0) eqn:J.
    - exists 0, 0%R. split; [reflexivity|]. split; [change (wrap 64 0) with (round_int D RNE false 0 0); replace 0%R with (IZR 0 * bp 0)%R at 1 by ring; apply lit_r; lia|]. rewrite Rabs_R0. apply Rmult_le_pos; lra.
    - apply Z.eqb_neq in J. specialize (ML J). unfold mag_of in ML. change (sign_unit D) with (2 ^ 63) in ML.
      assert (MB : (Rabs (MID * bp k) <= bp (-53) * bp k)%R) by (rewrite Rabs_mult, (Rabs_pos_eq (bp k)) by lra; apply Rmult_le_compat_r; lra).
      unfold to_signed, sarith, inSb. change (64 - 1) with 63. destruct (tm <? 2 ^ 63) eqn:S.
      + apply Z.ltb_lt in S. rewrite Z.mod_small in ML by lia. exists (k * 2 ^ 52 + tm), (MID * bp k)%R.
        split; [replace (- 2 ^ 63 <=? k * 2 ^ 52 + tm) with true by (symmetry; apply Z.leb_le; lia); replace (k * 2 ^ 52 + tm <? 2 ^ 63) with true by (symmetry; apply Z.ltb_lt; lia); reflexivity|].
        split; [|exact MB]. unfold wrap. rewrite Z.mod_small by lia. rewrite Z.add_comm. apply scale_pat; [lia| |exact RM]. assert (960 <= tm / 2 ^ 52 < 1023) by (split; [apply Z.div_le_lower_bound; lia|apply Z.div_lt_upper_bound; lia]). lia.
      + apply Z.ltb_ge in S. set (p := tm - 2 ^ 63). assert (Ep : tm = p + 2 ^ 63) by (unfold p; ring). assert (pp : tm mod 2 ^ 63 = p) by (symmetry; apply Zmod_unique with 1; lia). rewrite pp in ML.
        rewrite Ep in RM. pose proof (neg_pat_inv p MID ltac:(lia) RM) as RP.
        assert (960 <= p / 2 ^ 52 < 1023) by (split; [apply Z.div_le_lower_bound; lia|apply Z.div_lt_upper_bound; lia]).
        pose proof (scale_pat p k (- MID) ltac:(lia) ltac:(lia) RP) as RQ. pose proof (neg_pat (p + k * 2 ^ 52) (- MID * bp k) ltac:(lia) RQ) as RR.
        exists (k * 2 ^ 52 + (tm - 2 ^ 64)), (- (- MID * bp k))%R. 
        split; [replace (- 2 ^ 63 <=? k * 2 ^ 52 + (tm - 2 ^ 64)) with true by (symmetry; apply Z.leb_le; lia); replace (k * 2 ^ 52 + (tm - 2 ^ 64) <? 2 ^ 63) with true by (symmetry; apply Z.ltb_lt; lia); reflexivity|].
        split; [|replace (- (- MID * bp k))%R with (MID * bp k)%R by ring; exact MB]. unfold wrap. replace ((k * 2 ^ 52 + (tm - 2 ^ 64)) mod 2 ^ 64) with (p + k * 2 ^ 52 + 2 ^ 63) by (apply Zmod_unique with (-1); lia). exact RR. }
  destruct HL as (l & B & EL & RB & BB). rewrite EL. cbn [bindo].
  eexists _, _, (HI * bp k)%R, B. split; [reflexivity|]. unfold wrap at 2. rewrite (Z.mod_small (th + k * 2 ^ 52)) by lia.
  split. { destruct s; unfold pm, wrap; rewrite Z.mod_small by lia; [change 0x8000000000000000 with (2 ^ 63); replace (-1 * (HI * bp k))%R with (- (HI * bp k))%R by ring; apply neg_pat; [lia|exact RS]|rewrite Z.add_0_r, Rmult_1_l; exact RS]. }
  split; [exact RB|]. rewrite G.
  assert (Q : (bp (-53) * bp k <= bp (-53) * (bp k * Rpower 2 (IZR j / 64)))%R). { apply Rmult_le_compat_l; [lra|]. rewrite <- (Rmult_1_r (bp k)) at 1. apply Rmult_le_compat_l; lra. }
  split; [|lra]. replace (HI * bp k - bp k * Rpower 2 (IZR j / 64))%R with ((HI - Rpower 2 (IZR j / 64)) * bp k)%R by ring. rewrite Rabs_mult, (Rabs_pos_eq (bp k)) by lra. eapply Rle_trans; [apply Rmult_le_compat_r; [lra|exact EH]|exact Q].
Qed.
