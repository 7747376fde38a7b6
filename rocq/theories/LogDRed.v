(** * The double logarithms: rounding errors, the tables as reals and the argument reduction *)
From Coq Require Import ZArith Lia Bool Reals Lra List.
From Flocq Require Import Core Relative.
From Interval Require Import Tactic.
From Verif Require Import MachInt Fmt FloatSpec FmtProofs RoundProofs FOps FOpsProofs ExactOps ExtFloatSpec ExtFloatProofs ExtInterp FmanipWide ErrLib ExpoData LogDataD ExpoF LogD Exp2fProofs ExpoFWrap LogRed LogfNum LogfProofs LogDTab LogDNum.
Import ListNotations.
Open Scope Z_scope.

(** ** Errors relative to a power of two above the value *)
Definition hD (rm : rmode) : R := bp (match rm with RNE => -54 | _ => -53 end).
Lemma hD_b : forall rm, (0 < hD rm <= bp (-53))%R.
Proof. intros rm. split; [apply bpow_gt_0|]. destruct rm; apply bpow_le; lia. Qed.
Lemma err_h : forall rm x k, -1021 <= k -> (Rabs x <= bp k)%R -> (Rabs (fround D rm x - x) <= bp k * hD rm)%R.
Proof.
  intros rm x k Hk H. pose proof (err_abs rm x k Hk H) as E. unfold hD. destruct rm; try (rewrite <- bpow_plus; exact E). clear E.
  pose proof pD as PP. pose proof VED as VE'. rewrite <- bpow_plus.
  destruct (Req_dec (Rabs x) (bp k)) as [E|N].
  - rewrite (fround_exact D RNE x).
    + rewrite Rminus_diag_eq, Rabs_R0 by auto. apply bpow_ge_0.
    + apply generic_format_abs_inv. rewrite E. apply generic_format_bpow. unfold FLT_exp. change (emin D) with (-1074). change (prec D) with 53. lia.
  - assert (L : (Rabs x < bp k)%R) by lra. clear N. destruct (Req_dec x 0) as [Z|NZ].
    { subst x. unfold fround. rewrite round_0 by apply RemProofs.VR. rewrite Rminus_diag_eq, Rabs_R0 by auto. apply bpow_ge_0. }
    apply Rle_trans with (/ 2 * ulp radix2 fexpD x)%R; [apply error_le_half_ulp; auto|].
    rewrite ulp_neq_0 by auto. change (/ 2)%R with (bp (-1)). rewrite <- bpow_plus. apply bpow_le. unfold cexp, FLT_exp. change (emin D) with (-1074). change (prec D) with 53.
    pose proof (mag_le_bpow radix2 x k NZ L). lia.
Qed.
Lemma add_h : forall rm a b A B k, is_real D a A -> is_real D b B -> -1021 <= k <= 1023 -> (Rabs (A + B) <= bp k)%R ->
  exists e, (Rabs e <= bp k * hD rm)%R /\ is_real D (f_add D rm a b) (A + B + e).
Proof.
  intros rm a b A B k Ha Hb Hk H. exists (fround D rm (A + B) - (A + B))%R. split; [apply err_h; [lia|auto]|].
  replace (A + B + (fround D rm (A + B) - (A + B)))%R with (fround D rm (A + B)) by ring. apply (add_r D good64); auto. apply bound_big with (2 := H). lia.
Qed.
Lemma sub_h : forall rm a b A B k, is_real D a A -> is_real D b B -> -1021 <= k <= 1023 -> (Rabs (A - B) <= bp k)%R ->
  exists e, (Rabs e <= bp k * hD rm)%R /\ is_real D (f_sub D rm a b) (A - B + e).
Proof.
  intros rm a b A B k Ha Hb Hk H. exists (fround D rm (A - B) - (A - B))%R. split; [apply err_h; [lia|auto]|].
  replace (A - B + (fround D rm (A - B) - (A - B)))%R with (fround D rm (A - B)) by ring. apply (sub_r D good64); auto. apply bound_big with (2 := H). lia.
Qed.
Lemma mul_h : forall rm a b A B k, is_real D a A -> is_real D b B -> -1021 <= k <= 1023 -> (Rabs (A * B) <= bp k)%R ->
  exists e, (Rabs e <= bp k * hD rm)%R /\ is_real D (f_mul D rm a b) (A * B + e).
Proof.
  intros rm a b A B k Ha Hb Hk H. exists (fround D rm (A * B) - (A * B))%R. split; [apply err_h; [lia|auto]|].
  replace (A * B + (fround D rm (A * B) - (A * B)))%R with (fround D rm (A * B)) by ring. apply (mul_r D good64); auto. apply bound_big with (2 := H). lia.
Qed.
(** Multiples of a power of two. *)
Lemma gfx : forall m e, -1074 <= e -> (Rabs (IZR m * bp e) < bp (e + 53))%R -> generic_format radix2 fexpD (IZR m * bp e).
Proof.
  intros m e He H. apply gfD; [|auto]. apply lt_IZR. rewrite abs_IZR. apply Rmult_lt_reg_r with (bp e); [apply bpow_gt_0|].
  rewrite Rabs_mult, (Rabs_pos_eq (bp e)) in H by apply bpow_ge_0. change (IZR (2 ^ 53)) with (bp 53). rewrite <- bpow_plus, Z.add_comm. exact H.
Qed.
Lemma fmt_mult : forall x k, generic_format radix2 fexpD x -> -1022 <= k -> (bp k <= Rabs x)%R -> exists m, x = (IZR m * bp (k - 52))%R.
Proof.
  intros x k G Hk H. assert (C : k - 52 <= cexp radix2 fexpD x).
  { unfold cexp, FLT_exp. change (emin D) with (-1074). change (prec D) with 53. assert (k < mag radix2 x); [|lia]. apply mag_gt_bpow. exact H. }
  unfold generic_format, F2R in G. cbn [Fnum Fexp] in G. set (c := cexp radix2 fexpD x) in *. set (n := Ztrunc (scaled_mantissa radix2 fexpD x)) in *.
  exists (n * 2 ^ (c - (k - 52))). rewrite G, mult_IZR. replace (IZR (2 ^ (c - (k - 52)))) with (bp (c - (k - 52))) by (symmetry; apply (IZR_Zpower radix2); lia).
  rewrite Rmult_assoc, <- bpow_plus. do 2 f_equal. ring.
Qed.
Lemma bigD : forall x k, k <= 1024 -> (Rabs x < bp k)%R -> (Rabs x < bp (bias D + 1))%R.
Proof. intros x k Hk H. apply Rlt_le_trans with (1 := H). apply bpow_le. exact Hk. Qed.

(** ** The reduction *)
Definition zf (b i : Z) : R := fval D (zd b i).
Lemma pos_D : forall x X, is_real D x X -> (0 < X)%R -> 0 < x < 0x7ff0000000000000 /\ mag_of D x = x.
Proof.
  intros x X ([P1 P2] & Fi & V) HX. pose proof good64 as HF. assert (S : sign_of D x = false).
  { rewrite (sign_fval D HF x Fi) by lra. apply Rlt_bool_false. lra. }
  rewrite (sign_of_eq D HF) in S by (split; auto). apply Z.leb_gt in S. change (sign_unit D) with (2 ^ 63) in S.
  assert (M : mag_of D x = x) by (unfold mag_of; apply Z.mod_small; change (sign_unit D) with (2 ^ 63); lia).
  unfold is_fin in Fi. apply Z.ltb_lt in Fi. rewrite M in Fi. change (inf_mag D) with 0x7ff0000000000000 in Fi. split; [|exact M]. split; [|exact Fi].
  destruct (Z.eq_dec x 0) as [->|]; [|lia]. exfalso. pose proof (proj2 (proj2 (zero_r D HF))) as V0. change (f_zero D false) with 0 in V0. lra.
Qed.
Lemma logd_reduce_spec : forall b rm x X, b = 6 \/ b = 7 -> is_real D x X -> (0 < X)%R ->
  exists i k z Z, logd_reduce b rm x = (i, k, z) /\ 0 <= i < 2 ^ b /\ -1075 <= k <= 1024 /\ is_real D z Z /\ X = (Z * bp k)%R /\
   (zf b i <= Z <= zf b (i + 1))%R /\ (11 / 16 <= Z <= 11 / 8)%R /\ (exists m, Z = (IZR m * bp (-53))%R).
Proof.
  intros b rm x X Hb Hx HX. pose proof good64 as HF. destruct (pos_D x X Hx HX) as [SG _].
  assert (PX : exists p s, (s = 0 \/ s = 52) /\ 2 ^ 52 <= p < 0x7ff0000000000000 /\ (X = fval D p * bp (- s))%R /\
    (if (0x7ff0 - 0x0010) <=? wrap 32 (Z.shiftr x 48 - 0x0010) then wrap 64 (f_mul D rm x (lit 1 52) - 52 * 2 ^ 52) else x) = wrap 64 (p - s * 2 ^ 52)).
  { assert (T : 0 <= Z.shiftr x 48 < 0x7ff0). { rewrite Z.shiftr_div_pow2 by lia. split; [apply Z.div_pos; lia|apply Z.div_lt_upper_bound; lia]. }
    destruct (Z.leb_spec (0x7ff0 - 0x0010) (wrap 32 (Z.shiftr x 48 - 0x0010))) as [H|H].
    - assert (HS : x < 2 ^ 52).
      { destruct (Z_lt_le_dec (Z.shiftr x 48) 0x10) as [C|C]; [|rewrite wrap_small in H by (unfold inU; lia); lia].
        rewrite Z.shiftr_div_pow2 in C by lia. apply Z.nle_gt. intros Q. apply (Z.div_le_mono _ _ (2 ^ 48)) in Q; [|lia]. change (2 ^ 52 / 2 ^ 48) with 16 in Q. lia. }
      assert (L : is_real D (lit 1 52) (bp 52)) by (pose proof (lit_r false 1 52 ltac:(lia) ltac:(lia)) as L; rewrite Rmult_1_l in L; exact L).
      assert (VX : X = (IZR x * bp (-1074))%R).
      { destruct Hx as ([P1 P2] & Fi & V). rewrite <- V. unfold fval, decode. replace (mag_of D x) with x by (unfold mag_of; rewrite Z.mod_small; [auto|change (sign_unit D) with (2 ^ 63); lia]).
        replace (x <? inf_mag D) with true by (symmetry; apply Z.ltb_lt; change (inf_mag D) with 0x7ff0000000000000; lia). cbn [dval].
        replace (sign_of D x) with false. 2: { symmetry. rewrite (sign_of_eq D HF) by (split; auto). apply Z.leb_gt. change (sign_unit D) with (2 ^ 63). lia. }
        unfold sig_of, exp_of. change (fl D) with 52. destruct (Z.ltb_spec x (2 ^ 52)); [|lia]. change (emin D) with (-1074). rewrite Rmult_1_l. reflexivity. }
      assert (XP : (1 <= IZR x)%R) by (apply (IZR_le 1); lia). assert (BP := bpow_gt_0 radix2 (-1022)).
      assert (M : is_real D (f_mul D rm x (lit 1 52)) (IZR x * bp (-1022))).
      { apply (mul_x D HF) with (1 := Hx) (2 := L).
        - rewrite VX, Rmult_assoc, <- bpow_plus. reflexivity.
        - apply gfD; [lia|lia].
        - apply bigD with (-970); [lia|]. rewrite Rabs_pos_eq by (apply Rmult_le_pos; [lra|apply bpow_ge_0]). change (-970) with (52 + -1022). rewrite bpow_plus.
          apply Rmult_lt_compat_r; [apply bpow_gt_0|]. change (bp 52) with (IZR (2 ^ 52)). apply IZR_lt. lia. }
      exists (f_mul D rm x (lit 1 52)), 52. split; [auto|]. split.
      + set (p := f_mul D rm x (lit 1 52)) in *. assert (VP : (bp (-1022) <= IZR x * bp (-1022))%R) by nra.
        destruct (pos_D p _ M ltac:(lra)) as [SP MG]. split; [|apply SP].
        rewrite <- MG. apply (mag_ge D p (2 ^ 52) (IZR x * bp (-1022))%R HF M); [lia|].
        rewrite Rabs_pos_eq by lra. unfold mval. change (sig_of D (2 ^ 52)) with (2 ^ 52). change (exp_of D (2 ^ 52)) with (-1074).
        change (IZR (2 ^ 52)) with (bp 52). rewrite <- bpow_plus. exact VP.
      + split; [|reflexivity]. destruct M as (_ & _ & ->). rewrite VX, Rmult_assoc, <- bpow_plus. reflexivity.
    - exists x, 0. split; [auto|]. assert (2 ^ 52 <= x).
      { destruct (Z_le_gt_dec (2 ^ 52) x); auto. exfalso. assert (Z.shiftr x 48 < 16) by (rewrite Z.shiftr_div_pow2 by lia; apply Z.div_lt_upper_bound; lia).
        unfold wrap in H. replace ((Z.shiftr x 48 - 16) mod 2 ^ 32) with (Z.shiftr x 48 - 16 + 2 ^ 32) in H; [lia|]. apply Z.mod_unique with (-1); lia. }
      split; [lia|]. split; [destruct Hx as (_ & _ & <-); change (- 0) with 0; change (bp 0) with 1%R; ring|]. rewrite Z.mul_0_l, Z.sub_0_r, wrap_small; [auto|unfold inU; lia]. }
  destruct PX as (p & s & Hs & Hp & VX & EQ). unfold logd_reduce. change F64 with D. rewrite EQ. clear EQ.
  pose proof (reduce_gen D HF 0x3fe6000000000000 b 0xfff p s) as RG. cbv zeta in RG. change (width D) with 64 in RG. change (fl D) with 52 in RG.
  destruct RG as (I & IZ & EI & K & V); [lia|vm_compute; congruence|lia|change (inf_mag D) with 0x7ff0000000000000; exact Hp|lia|change (64 - 1) with 63; destruct Hs; subst s; lia|reflexivity|].
  set (u := wrap 64 (p - s * 2 ^ 52)) in *. set (i := Z.shiftr (wrap 64 (u - 0x3fe6000000000000)) (52 - b) mod 2 ^ b) in *.
  set (k := Z.shiftr (to_signed 64 (wrap 64 (u - 0x3fe6000000000000))) 52) in *.
  set (iz := wrap 64 (u - Z.land (wrap 64 (u - 0x3fe6000000000000)) (wrap 64 (Z.shiftl 0xfff 52)))) in *.
  assert (IB : 0x3fe6000000000000 <= iz <= 0x3ff6000000000000 /\ 0x3fe6000000000000 <= zd b i <= 0x3ff6000000000000 /\ 0x3fe6000000000000 <= zd b (i + 1) <= 0x3ff6000000000000).
  { unfold zd. destruct Hb; subst b; [change (52 - 6) with 46 in *; change (2 ^ 6) with 64 in *|change (52 - 7) with 45 in *; change (2 ^ 7) with 128 in *]; lia. }
  assert (RI : is_real D iz (fval D iz)).
  { destruct (pos_patF D HF iz) as (A & B & _); [change (fl D) with 52; change (inf_mag D) with 0x7ff0000000000000; lia|]. split; auto. }
  exists i, k, iz, (fval D iz). split; [reflexivity|]. split; [auto|]. split.
  { rewrite K. destruct Hs; subst s; (split; [apply Z.div_le_lower_bound; lia|apply Zlt_succ_le, Z.div_lt_upper_bound; lia]). }
  split; [exact RI|]. split; [rewrite VX; exact V|].
  assert (ML : forall a, 0x3fe6000000000000 <= a <= 0x3ff6000000000000 -> fval D a = mval D a) by (intros a Ha; symmetry; apply mval_c; [exact HF|change (inf_mag D) with 0x7ff0000000000000; lia]).
  split; [|split].
  - unfold zf. rewrite !ML by lia. unfold zd in *. split; apply (mval_le D HF); lia.
  - replace (11 / 16)%R with (fval D 0x3fe6000000000000) by (fvalof D 0x3fe6000000000000; bpn; lra).
    replace (11 / 8)%R with (fval D 0x3ff6000000000000) by (fvalof D 0x3ff6000000000000; bpn; lra). rewrite !ML by lia. split; apply (mval_le D HF); lia.
  - destruct (pos_patF D HF iz) as (_ & _ & ->); [change (fl D) with 52; change (inf_mag D) with 0x7ff0000000000000; lia|].
    change (fl D) with 52. change (emin D) with (-1074).
    assert (E : iz / 2 ^ 52 = 1022 \/ iz / 2 ^ 52 = 1023).
    { assert (1022 <= iz / 2 ^ 52) by (apply Z.div_le_lower_bound; lia). assert (iz / 2 ^ 52 < 1024) by (apply Z.div_lt_upper_bound; lia). lia. }
    destruct E as [-> | ->].
    + exists (2 ^ 52 + iz mod 2 ^ 52). reflexivity.
    + exists (2 * (2 ^ 52 + iz mod 2 ^ 52)). rewrite mult_IZR. change (1023 + -1074 - 1) with (1 + -53). rewrite bpow_plus. change (bp 1) with 2%R. ring.
Qed.

(** ** The tables as reals *)
Lemma IZR_pow2 : forall k, 0 <= k -> IZR (2 ^ k) = bp k. Proof. intros k H. apply (IZR_Zpower radix2). exact H. Qed.
Lemma sc_le : forall a c, a <= 2 ^ c -> 0 <= c -> (IZR a * bp (-200) <= bp (c - 200))%R.
Proof. intros a c H Hc. unfold Zminus. rewrite bpow_plus, <- (IZR_pow2 c Hc). apply Rmult_le_compat_r; [apply bpow_ge_0|]. apply IZR_le; auto. Qed.
Lemma tab_spec : forall tab tab2 b s i, b = 6 \/ b = 7 -> 0 <= s <= 60 -> tab_ok tab tab2 b s i = true ->
  exists IV LV CH CL k, is_real D (fst (at2 tab i)) IV /\ is_real D (snd (at2 tab i)) LV /\ is_real D (fst (at2 tab2 i)) CH /\ is_real D (snd (at2 tab2 i)) CL /\
  (Rabs ((CH + CL) * IV - 1) <= bp (-106))%R /\ (1 / 2 <= IV <= 3 / 2)%R /\ (1 / 2 <= CH + CL <= 2)%R /\ (exists n, LV = IZR n * bp (- s))%R /\ (Rabs LV <= 1)%R /\
  (exists n, CH = IZR n * bp (-53))%R /\ (Rabs CL <= bp (-53))%R /\ - b - 1 <= k <= - b /\ (bp k * IV <= bp (- b))%R /\
  (forall Z, (zf b i <= Z <= zf b (i + 1))%R -> (Rabs (Z - (CH + CL)) <= bp k)%R /\ (Rabs ((Z - (CH + CL)) * IV) <= 3895 / 1000000 * bp (7 - b))%R) /\
  LV = (IZR (zv (snd (at2 tab i))) * bp (-200))%R /\ (CH + CL = IZR (zv (fst (at2 tab2 i)) + zv (snd (at2 tab2 i))) * bp (-200))%R.
Proof.
  intros tab tab2 b s i Hb Hs H. unfold tab_ok in H. destruct (at2 tab i) as [iv lc]. destruct (at2 tab2 i) as [chi clo]. cbn [fst snd].
  repeat match type of H with (_ && _ = true) => apply andb_prop in H; let H' := fresh "K" in destruct H as [H H'] end.
  apply zv_r in H. repeat match goal with K : zok _ = true |- _ => apply zv_r in K end.
  repeat match goal with K : (_ <=? _) = true |- _ => apply Z.leb_le in K | K : (_ =? _) = true |- _ => apply Z.eqb_eq in K | K : (_ <? _) = true |- _ => apply Z.ltb_lt in K end.
  rename K into KK. set (a := zv iv) in *. set (l := zv lc) in *. set (h := zv chi) in *. set (c := zv clo) in *. set (z0 := zv (zd b i)) in *. set (z1 := zv (zd b (i + 1))) in *.
  assert (ZF0 : zf b i = (IZR z0 * bp (-200))%R) by (unfold zf; match goal with K : is_real D (zd b i) _ |- _ => apply K end).
  assert (ZF1 : zf b (i + 1) = (IZR z1 * bp (-200))%R) by (unfold zf; match goal with K : is_real D (zd b (i + 1)) _ |- _ => apply K end).
  set (S := bp (-200)) in *. assert (SP : (0 < S)%R) by apply bpow_gt_0.
  assert (P2 : forall k, 0 <= k -> (bp k * S = bp (k - 200))%R) by (intros; unfold S; rewrite <- bpow_plus; reflexivity).
  assert (AB : forall x k, Z.abs x <= 2 ^ k -> 0 <= k -> (Rabs (IZR x * S) <= bp (k - 200))%R).
  { intros x k Hx Hk. rewrite Rabs_mult, (Rabs_pos_eq S), <- abs_IZR by lra. apply sc_le; auto. }
  assert (MM : forall x k, x mod 2 ^ (200 - k) = 0 -> k <= 200 -> exists n, (IZR x * S = IZR n * bp (- k))%R).
  { intros x k Hm Hk. exists (x / 2 ^ (200 - k)). rewrite (Z.div_mod x (2 ^ (200 - k))) at 1 by (apply Z.pow_nonzero; lia). rewrite Hm, Z.add_0_r, Z.mul_comm, mult_IZR, IZR_pow2, Rmult_assoc, P2 by lia. do 2 f_equal. ring. }
  assert (P400 : (bp 400 * (S * S) = 1)%R) by (unfold S; rewrite <- !bpow_plus; reflexivity).
  assert (AV : (1 / 2 <= IZR a * S <= 3 / 2)%R).
  { split.
    - apply Rle_trans with (IZR (2 ^ 199) * S)%R; [rewrite IZR_pow2, P2 by lia; change (199 - 200) with (-1); bpn; lra|]. apply Rmult_le_compat_r; [lra|]. apply IZR_le; lia.
    - apply Rmult_le_reg_l with 2%R; [lra|]. apply Rle_trans with (IZR (3 * 2 ^ 200) * S)%R.
      + rewrite <- Rmult_assoc. apply Rmult_le_compat_r; [lra|]. rewrite <- mult_IZR. apply IZR_le; lia.
      + rewrite mult_IZR, IZR_pow2, Rmult_assoc, P2 by lia. change (bp (200 - 200)) with 1%R. lra. }
  assert (CZ : forall k, 0 <= k -> Z.abs (z0 - (h + c)) <= 2 ^ k -> Z.abs (z1 - (h + c)) <= 2 ^ k -> forall Z, (zf b i <= Z <= zf b (i + 1))%R -> (Rabs (Z - IZR (h + c) * S) <= bp (k - 200))%R).
  { intros k Hk Q0 Q1 Z HZ. rewrite ZF0, ZF1 in HZ. pose proof (AB _ _ Q0 Hk) as R0. pose proof (AB _ _ Q1 Hk) as R1. rewrite minus_IZR, Rmult_minus_distr_r in R0, R1.
    apply Rabs_le_inv in R0. apply Rabs_le_inv in R1. apply Rabs_le. lra. }
  assert (RZ : forall Z, (zf b i <= Z <= zf b (i + 1))%R -> (Rabs ((Z - IZR (h + c) * S) * (IZR a * S)) <= 3895 / 1000000 * bp (7 - b))%R).
  { intros Z HZ. rewrite ZF0, ZF1 in HZ.
    assert (G : forall x, Z.abs (x - (h + c)) * a * 1000000 <= 3895 * 2 ^ (407 - b) -> (Rabs ((IZR x * S - IZR (h + c) * S) * (IZR a * S)) <= 3895 / 1000000 * bp (7 - b))%R).
    { intros x Q. rewrite <- Rmult_minus_distr_r, <- minus_IZR, !Rabs_mult, (Rabs_pos_eq S), <- abs_IZR by lra.
      assert (AP : (0 <= IZR a)%R) by (apply IZR_le; lia). rewrite (Rabs_pos_eq (IZR a)) by auto.
      apply Rmult_le_reg_l with 1000000%R; [lra|]. replace (1000000 * (IZR (Z.abs (x - (h + c))) * S * (IZR a * S)))%R with (IZR (Z.abs (x - (h + c)) * a * 1000000) * (S * S))%R by (rewrite !mult_IZR; ring).
      apply IZR_le in Q. apply Rle_trans with (IZR (3895 * 2 ^ (407 - b)) * (S * S))%R; [apply Rmult_le_compat_r; nra|].
      rewrite mult_IZR, IZR_pow2 by lia. replace (407 - b) with (400 + (7 - b)) by ring. rewrite bpow_plus. right.
      replace (3895 * (bp 400 * bp (7 - b)) * (S * S))%R with (3895 * bp (7 - b) * (bp 400 * (S * S)))%R by ring. rewrite P400. field. }
    match goal with K1 : Z.abs (z0 - _) * a * _ <= _, K2 : Z.abs (z1 - _) * a * _ <= _ |- _ => pose proof (G _ K1) as G0; pose proof (G _ K2) as G1 end.
    apply Rabs_le_inv in G0. apply Rabs_le_inv in G1. apply Rabs_le. split; nra. }
  assert (CS : (IZR h * S + IZR c * S = IZR (h + c) * S)%R) by (rewrite plus_IZR; ring).
  assert (KX : exists k, - b - 1 <= k <= - b /\ (bp k * (IZR a * S) <= bp (- b))%R /\ (forall Z, (zf b i <= Z <= zf b (i + 1))%R -> (Rabs (Z - IZR (h + c) * S) <= bp k)%R)).
  { apply orb_prop in KK. destruct KK as [Q|Q]; repeat (apply andb_prop in Q; let H' := fresh "Q" in destruct Q as [Q H']);
      repeat match goal with K : (_ <=? _) = true |- _ => apply Z.leb_le in K end.
    - exists (- b). split; [lia|]. split.
      + rewrite <- (Rmult_1_r (bp (- b))) at 2. apply Rmult_le_compat_l; [apply bpow_ge_0|]. change 1%R with (bp (200 - 200)). apply sc_le; lia.
      + intros Z HZ. replace (- b) with (200 - b - 200) by ring. apply CZ; auto; lia.
    - exists (- b - 1). split; [lia|]. split.
      + unfold Zminus. rewrite bpow_plus. change (bp (- (1))) with (/ 2)%R. assert (0 < bp (- b))%R by apply bpow_gt_0. nra.
      + intros Z HZ. replace (- b - 1) with (199 - b - 200) by ring. apply CZ; auto; lia. }
  destruct KX as (k & Hk & BK & KZ).
  exists (IZR a * S)%R, (IZR l * S)%R, (IZR h * S)%R, (IZR c * S)%R, k.
  split; [assumption|]. split; [assumption|]. split; [assumption|]. split; [assumption|]. rewrite CS.
  split.
  { replace (IZR (h + c) * S * (IZR a * S) - 1)%R with (IZR ((h + c) * a - 2 ^ 400) * (S * S))%R by (rewrite minus_IZR, mult_IZR, IZR_pow2 by lia; rewrite <- P400; ring).
    rewrite Rabs_mult, (Rabs_pos_eq (S * S)), <- abs_IZR by nra. apply Rle_trans with (IZR (2 ^ 294) * (S * S))%R; [apply Rmult_le_compat_r; [nra|]; apply IZR_le; assumption|].
    rewrite IZR_pow2 by lia. unfold S. rewrite <- !bpow_plus. apply Rle_refl. }
  split; [exact AV|]. split.
  { split; [|change 2%R with (bp (201 - 200)); apply sc_le; lia]. apply Rle_trans with (IZR (2 ^ 199) * S)%R; [rewrite IZR_pow2, P2 by lia; change (199 - 200) with (-1); bpn; lra|]. apply Rmult_le_compat_r; [lra|]. apply IZR_le; lia. }
  split; [apply MM; [assumption|lia]|]. split; [change 1%R with (bp (200 - 200)); apply AB; lia|].
  split; [apply (MM h 53); [assumption|lia]|]. split; [change (-53) with (147 - 200); apply AB; lia|].
  split; [auto|]. split; [auto|]. split; [intros Z HZ; split; auto|]. split; reflexivity.
Qed.
Lemma tab_ln_at : forall tab tab2 n (P : Z * Z -> Prop) i, List.Forall P (tab_pairs tab tab2 n) -> 0 <= i < Z.of_nat n ->
  P (zv (snd (at2 tab i)), zv (fst (at2 tab2 i)) + zv (snd (at2 tab2 i))).
Proof.
  intros tab tab2 n P i H Hi. rewrite List.Forall_forall in H. apply H. unfold tab_pairs. apply in_map_iff. exists (Z.to_nat i). rewrite Z2Nat.id by lia. split; [reflexivity|]. apply in_seq. lia.
Qed.
Lemma tab_ok_at : forall tab tab2 b s n i, forallb (fun i => tab_ok tab tab2 b s (Z.of_nat i)) (seq 0 n) = true -> 0 <= i < Z.of_nat n -> tab_ok tab tab2 b s i = true.
Proof.
  intros tab tab2 b s n i H Hi. rewrite forallb_forall in H. specialize (H (Z.to_nat i)). rewrite Z2Nat.id in H by lia. apply H. apply in_seq. lia.
Qed.
