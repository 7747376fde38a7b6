(** * op::add and op::sub on normal operands *)
From Coq Require Import ZArith Lia Bool Reals Lra.
From Flocq Require Import Core.
From Verif Require Import MachInt Bits Fmt FloatSpec FmtProofs RoundProofs RoundMore FOps FOpsProofs ExactOps FPBits FPBitsProofs
  CompareProofs FmanipProofs Fma FmaSpec FmaProofs Basic Dyadic DyadicSpec DyadicProofs DyadicFast DyadicArith GenOps GenOpsProofs.
Open Scope Z_scope.

Lemma half_digits : forall p A, 0 <= p -> 2 ^ p <= A -> p < digits A.
Proof.
  intros p A Hp HA. pose proof (pow2_pos p Hp). pose proof (digits_bounds A ltac:(lia)) as D.
  destruct (Z_lt_le_dec p (digits A)); [auto|]. pose proof (pow2_le (digits A) p ltac:(lia)). lia.
Qed.

(** An odd significand whose last bit stands for "a bit was lost" rounds like
    the number it stands for. *)
Lemma sticky_round : forall G (HG : good_fmt G) rm s A R e x zs b,
  brk A true e x -> R mod 2 = 1 -> R / 2 = A / 2 -> 2 ^ prec G <= A / 2 ->
  rounded G rm (sg s * (IZR R * bpow radix2 e)) zs b -> rounded G rm (sg s * x) zs b.
Proof.
  intros G HG rm s A R e x zs b HA HR HE HP Hb.
  assert (P0 : 0 <= prec G) by (unfold prec; pose proof (gf_fl G HG); lia).
  pose proof (pow2_pos (prec G) P0) as PP. pose proof (half_digits _ _ P0 HP) as HD.
  apply brk_half in HA. cbn [orb] in HA.
  pose proof (brk_half R false e _ (brk_exact R e)) as HB. cbn [orb] in HB.
  assert (OR : Z.odd R = true) by (rewrite Zmod_odd in HR; destruct (Z.odd R); [auto|discriminate]).
  rewrite OR, HE in HB.
  pose proof (brk_rounded G HG rm s (A / 2) true (e + 1) x zs ltac:(lia) HA ltac:(auto)) as R1.
  pose proof (brk_rounded G HG rm s (A / 2) true (e + 1) _ zs ltac:(lia) HB ltac:(auto)) as R2.
  rewrite (rounded_unique G HG rm _ zs b _ Hb R2). exact R1.
Qed.

Section Add.
Context (F G : fmt) (HF : good_fmt F) (HG : good_fmt G) (HelF : el F <= 16) (HelG : el G <= 16) (HFG : fl G <= fl F).
Context (H4 : 4 <= el F) (Hb3 : fl G + 3 <= bias G) (HBc : fl F + 5 <= bit_ceil_z (fl F + 4)) (H20 : fl F <= 2 ^ 20).
Notation W := (width F).

Lemma mag_abs : forall a, 0 <= a < sign_unit F -> mag_of F a = a /\ sign_of F a = false.
Proof.
  intros a Ha. pose proof (mag_of_sbit F false a Ha) as M. pose proof (sign_of_sbit F HF false a Ha) as S.
  unfold sbit in *. cbn in *. auto.
Qed.
Lemma cmp_abs : forall a b, 0 <= a < inf_mag F -> 0 <= b < inf_mag F -> f_cmp F a b = Some (a ?= b).
Proof.
  intros a b Ha Hb. assert (I : inf_mag F < sign_unit F) by (pose proof (sign_unit_inf F HF); pose proof (fl_pos F HF); lia).
  destruct (mag_abs a ltac:(lia)) as (M1 & S1). destruct (mag_abs b ltac:(lia)) as (M2 & S2).
  rewrite f_cmp_mag by (unfold is_nan; rewrite ?M1, ?M2; apply Z.ltb_ge; lia). rewrite M1, M2, S1, S2. reflexivity.
Qed.
Lemma gen_max_abs : forall a b, 0 < a < inf_mag F -> 0 < b < inf_mag F -> gen_max F a b = Z.max a b /\ gen_min F a b = Z.min a b.
Proof.
  intros a b Ha Hb. assert (I : inf_mag F < sign_unit F) by (pose proof (sign_unit_inf F HF); pose proof (fl_pos F HF); lia).
  destruct (mag_abs a ltac:(lia)) as (M1 & S1). destruct (mag_abs b ltac:(lia)) as (M2 & S2).
  unfold gen_max, gen_min. rewrite !(fp_is_nan_eq F HF HelF), !(fp_is_zero_eq F HF).
  replace (is_nan F a) with false by (symmetry; unfold is_nan; rewrite M1; apply Z.ltb_ge; lia).
  replace (is_nan F b) with false by (symmetry; unfold is_nan; rewrite M2; apply Z.ltb_ge; lia).
  rewrite M1. replace (a =? 0) with false by lia. cbn [andb].
  unfold f_gt, f_lt. rewrite cmp_abs by lia. destruct (Z.compare_spec a b); lia.
Qed.

(** The magnitudes of the aligned operands. *)
Section Mant.
Context (M m : Z) (HM : 2 ^ fl F <= M < inf_mag F) (Hm : 2 ^ fl F <= m <= M).
Notation sM := (sig_of F M).
Notation sm := (sig_of F m).
Notation al := (M / 2 ^ fl F - m / 2 ^ fl F).
Notation a := (8 * sm / 2 ^ al).
Notation st := (negb (8 * sm mod 2 ^ al =? 0)).
Notation e := (M / 2 ^ fl F - bias F - (fl F + 3)).

Lemma al_pos : 0 <= al /\ 1 <= m / 2 ^ fl F /\ M / 2 ^ fl F < expmax F.
Proof.
  pose proof (fl_pos F HF) as HP. split; [pose proof (Z.div_le_mono m M _ HP ltac:(lia)); lia|].
  split; [apply Z.div_le_lower_bound; lia|]. apply Z.div_lt_upper_bound; [lia|]. unfold inf_mag in *. lia.
Qed.
Lemma sigs : 2 ^ fl F <= sM < 2 ^ (fl F + 1) /\ 2 ^ fl F <= sm < 2 ^ (fl F + 1).
Proof.
  pose proof (fl_pos F HF) as HP. destruct (sig_exp_spec F HF M ltac:(lia)) as (A1 & _). destruct (sig_exp_spec F HF m ltac:(lia)) as (B1 & _).
  unfold prec in *. unfold sig_of in *. replace (M <? 2 ^ fl F) with false in * by lia. replace (m <? 2 ^ fl F) with false in * by lia.
  pose proof (Z.mod_pos_bound M _ HP). pose proof (Z.mod_pos_bound m _ HP). lia.
Qed.
Lemma mvals : mval F M = (IZR (8 * sM) * bpow radix2 e)%R /\ brk a st e (mval F m).
Proof.
  destruct al_pos as (P1 & P2 & P3). pose proof (fl_pos F HF) as HP. destruct sigs as (S1 & S2).
  assert (E8 : forall z k, (IZR (8 * z) * bpow radix2 k = IZR z * bpow radix2 (k + 3))%R).
  { intros z k. rewrite mult_IZR, (bpow_plus radix2 k 3). change (bpow radix2 3) with 8%R. ring. }
  split.
  - rewrite E8. unfold mval. f_equal. f_equal. unfold exp_of, emin. replace (M <? 2 ^ fl F) with false by lia. lia.
  - replace (mval F m) with (IZR (8 * sm) * bpow radix2 (e - al))%R.
    + pose proof (brk_shift (8 * sm) (e - al) al ltac:(lia) P1) as B. replace (e - al + al) with e in B by lia. exact B.
    + rewrite E8. unfold mval. f_equal. f_equal. unfold exp_of, emin. replace (m <? 2 ^ fl F) with false by lia. lia.
Qed.

Lemma W_big : fl F + 5 <= W. Proof. unfold width. lia. Qed.
Lemma wrapW : forall v, 0 <= v < 2 ^ (fl F + 5) -> wrap W v = v.
Proof. intros v Hv. apply wrap_small. unfold inU. pose proof W_big. pose proof (gf_fl F HF). pose proof (pow2_le (fl F + 5) W ltac:(lia)). lia. Qed.
Lemma p5 : 2 ^ (fl F + 1) = 2 * 2 ^ fl F /\ 2 ^ (fl F + 4) = 16 * 2 ^ fl F /\ 2 ^ (fl F + 5) = 32 * 2 ^ fl F.
Proof. pose proof (gf_fl F HF). rewrite !Z.pow_add_r by lia. change (2 ^ 1) with 2. change (2 ^ 4) with 16. change (2 ^ 5) with 32. lia. Qed.

Lemma a_range : 0 <= a < 16 * 2 ^ fl F.
Proof.
  destruct al_pos as (P1 & _). destruct sigs as (_ & S2). destruct p5 as (E1 & E4 & E5). pose proof (pow2_pos al P1) as HP. pose proof (fl_pos F HF).
  split; [apply Z.div_pos; lia|]. apply Z.div_lt_upper_bound; [lia|]. nia.
Qed.
Lemma st_al : st = true -> 4 <= al.
Proof.
  destruct al_pos as (P1 & _). intros H. destruct (Z_lt_le_dec al 4) as [L|L]; [|auto]. exfalso.
  assert (E : 8 * sm mod 2 ^ al = 0).
  { apply Z.mod_divide; [pose proof (pow2_pos al P1); lia|]. apply Z.divide_mul_l.
    exists (2 ^ (3 - al)). rewrite <- Z.pow_add_r by lia. replace (3 - al + al) with 3 by lia. reflexivity. }
  rewrite E in H. discriminate.
Qed.
Lemma a_small : st = true -> a < 2 ^ fl F.
Proof.
  intros H. apply st_al in H. destruct sigs as (_ & S2). destruct p5 as (E1 & E4 & E5). apply Z.div_lt_upper_bound; [apply pow2_pos; lia|].
  pose proof (pow2_le 4 al ltac:(lia)) as P. change (2 ^ 4) with 16 in P. pose proof (fl_pos F HF). nia.
Qed.
Lemma lor1 : forall v, 0 <= v -> Z.lor v 1 = if Z.odd v then v else v + 1.
Proof.
  intros v Hv. pose proof (Z.div_mod v 2 ltac:(lia)) as D. rewrite Zmod_odd in D. destruct (Z.odd v) eqn:E.
  - replace v with ((v / 2) * 2 ^ 1 + 1) by (change (2 ^ 1) with 2; lia). rewrite <- lor_add by (change (2 ^ 1) with 2; lia).
    rewrite <- Z.lor_assoc. reflexivity.
  - replace v with ((v / 2) * 2 ^ 1) at 1 by (change (2 ^ 1) with 2; lia). rewrite lor_add by (change (2 ^ 1) with 2; lia). change (2 ^ 1) with 2. lia.
Qed.
Definition amin : Z := if st then (if Z.odd a then a else a + 1) else a.

Lemma as_mant_eq : forall eff, (eff = false -> m < M) ->
  as_mant F eff M m = (if eff then 8 * sM + amin else 8 * sM - amin) /\ 0 < as_mant F eff M m < 2 ^ (fl F + 5).
Proof.
  intros eff Hlt. destruct al_pos as (P1 & P2 & P3). destruct sigs as (S1 & S2). destruct p5 as (E1 & E4 & E5). pose proof (fl_pos F HF) as HP.
  pose proof (gf_fl F HF) as Hf. pose proof a_range as AR.
  assert (I : inf_mag F < sign_unit F) by (pose proof (sign_unit_inf F HF); lia).
  destruct (mag_abs M ltac:(lia)) as (M1 & _). destruct (mag_abs m ltac:(lia)) as (M2 & _).
  assert (FM : is_fin F M = true) by (unfold is_fin; rewrite M1; apply Z.ltb_lt; lia).
  assert (Fm : is_fin F m = true) by (unfold is_fin; rewrite M2; apply Z.ltb_lt; lia).
  unfold as_mant. rewrite (fp_is_subnormal_eq F HF HelF), M1. replace (M <? 2 ^ fl F) with false by lia.
  rewrite !(explicit_mantissa_eq F HF HelF) by auto. rewrite M1, M2.
  rewrite !(get_biased_exponent_eq F HF HelF), !(field_div F HF), M1, M2.
  rewrite !Z.shiftl_mul_pow2 by lia. change (2 ^ 3) with 8. rewrite !(Z.mul_comm _ 8).
  rewrite (wrapW (8 * sM)), (wrapW (8 * sm)) by lia.
  assert (EA : Z.shiftr (8 * sm) (Z.min al (fl F + 4)) = a).
  { rewrite Z.shiftr_div_pow2 by lia. destruct (Z_le_gt_dec al (fl F + 4)) as [L|L]; [rewrite Z.min_l by lia; reflexivity|].
    rewrite Z.min_r by lia. rewrite !Z.div_small; [reflexivity| |lia]. pose proof (pow2_le (fl F + 4) al ltac:(lia)). lia. }
  assert (ES : (if al <=? 3 then false else if al <=? fl F + 3 then negb (wrap W (Z.shiftl (8 * sm) (W - al)) =? 0) else true) = st).
  { destruct (Z.leb_spec al 3) as [L|L].
    - destruct st eqn:E; [|reflexivity]. apply st_al in E. lia.
    - destruct (Z.leb_spec al (fl F + 3)) as [L2|L2].
      + rewrite Z.shiftl_mul_pow2 by (pose proof W_big; lia). unfold wrap.
        replace (2 ^ W) with (2 ^ al * 2 ^ (W - al)) by (rewrite <- Z.pow_add_r by (pose proof W_big; lia); f_equal; lia).
        rewrite Z.mul_mod_distr_r by (pose proof (pow2_pos al P1); pose proof (pow2_pos (W - al) ltac:(pose proof W_big; lia)); lia).
        pose proof (pow2_pos (W - al) ltac:(pose proof W_big; lia)).
        destruct (Z.eqb_spec (8 * sm mod 2 ^ al) 0) as [E0|E0]; [rewrite E0; reflexivity|].
        cbn [negb]. apply negb_true_iff, Z.eqb_neq. nia.
      + rewrite Z.mod_small by (pose proof (pow2_le (fl F + 4) al ltac:(lia)); lia). replace (8 * sm =? 0) with false by lia. reflexivity. }
  rewrite EA, ES.
  assert (EL : Z.lor a (b2z st) = amin).
  { unfold amin. destruct st; cbn [b2z]; [apply lor1; lia|apply Z.lor_0_r]. }
  rewrite EL.
  assert (AM : 0 <= amin < 16 * 2 ^ fl F /\ (st = true -> amin <= 2 ^ fl F)).
  { unfold amin. pose proof a_small as SM. destruct st; [|split; [lia|discriminate]]. specialize (SM eq_refl).
    destruct (Z.odd a); split; lia. }
  destruct AM as (AM1 & AM2). destruct eff.
  - rewrite wrapW by lia. split; [reflexivity|lia].
  - assert (POS : 0 < 8 * sM - amin).
    { specialize (Hlt eq_refl). destruct st eqn:E; [specialize (AM2 eq_refl); lia|].
      unfold amin. rewrite E. destruct (Z.eq_dec al 0) as [Z0|Z0].
      - rewrite Z0. change (2 ^ 0) with 1. rewrite Z.div_1_r.
        assert (sm < sM).
        { unfold sig_of. replace (M <? 2 ^ fl F) with false by lia. replace (m <? 2 ^ fl F) with false by lia.
          pose proof (Z.div_mod M (2 ^ fl F) ltac:(lia)) as D1. pose proof (Z.div_mod m (2 ^ fl F) ltac:(lia)) as D2.
          replace (m / 2 ^ fl F) with (M / 2 ^ fl F) in D2 by lia. lia. }
        lia.
      - assert (a < 8 * 2 ^ fl F); [|lia]. apply Z.div_lt_upper_bound; [apply pow2_pos; lia|].
        pose proof (pow2_le 1 al ltac:(lia)) as PL. change (2 ^ 1) with 2 in PL. nia. }
    rewrite wrapW by lia. split; [reflexivity|lia].
Qed.

(** The rounded sum (difference) of the magnitudes. *)
Lemma sum_rounded : forall rm eff s zs b, (eff = false -> m < M) ->
  rounded G rm (sg s * (IZR (as_mant F eff M m) * bpow radix2 e)) zs b ->
  rounded G rm (sg s * (if eff then (mval F M + mval F m)%R else (mval F M - mval F m)%R)) zs b.
Proof.
  intros rm eff s zs b Hlt Hb. destruct (as_mant_eq eff Hlt) as (E & R). rewrite E in Hb, R. destruct mvals as (V1 & V2).
  pose proof (brk_exact (8 * sM) e) as VM. rewrite <- V1 in VM. destruct sigs as (S1 & S2). pose proof a_range as AR.
  pose proof a_small as AS. destruct p5 as (E1 & E4 & E5). pose proof (fl_pos F HF) as HP. pose proof (gf_fl F HF).
  assert (HPG : 2 ^ prec G <= 2 * 2 ^ fl F) by (unfold prec; rewrite <- E1; apply pow2_le; pose proof (gf_fl G HG); lia).
  destruct eff.
  - pose proof (brk_add a (8 * sM) st e _ _ V2 VM) as BA. rewrite (Rplus_comm (mval F m)) in BA.
    unfold amin in *. destruct st.
    + apply (sticky_round G HG rm s (a + 8 * sM) (8 * sM + (if Z.odd a then a else a + 1)) e); auto.
      * rewrite Z.add_comm. replace (8 * sM) with ((4 * sM) * 2) by lia. rewrite Z.mod_add by lia.
        pose proof (Zmod_odd a) as O. destruct (Z.odd a); [auto|]. pose proof (Z.div_mod a 2 ltac:(lia)) as D. symmetry; apply (Z.mod_unique _ _ (a / 2)); lia.
      * rewrite !(Z.add_comm (8 * sM)). replace (8 * sM) with ((4 * sM) * 2) by lia. rewrite !Z.div_add by lia. f_equal.
        pose proof (Zmod_odd a) as O. destruct (Z.odd a); [auto|]. pose proof (Z.div_mod a 2 ltac:(lia)) as D. symmetry. apply Z.div_unique with 1; lia.
      * apply Z.div_le_lower_bound; lia.
    + unfold brk in BA. rewrite Z.add_comm in BA. rewrite BA. exact Hb.
  - pose proof (brk_sub (8 * sM) a st e _ _ VM V2) as BS.
    unfold amin in *. destruct st.
    + specialize (AS eq_refl). pose proof (Zmod_odd a) as O. pose proof (Z.div_mod a 2 ltac:(lia)) as D.
      apply (sticky_round G HG rm s (8 * sM - a - 1) (8 * sM - (if Z.odd a then a else a + 1)) e); auto.
      * destruct (Z.odd a); symmetry; apply (Z.mod_unique _ _ (4 * sM - a / 2 - 1)); lia.
      * destruct (Z.odd a).
        -- transitivity (4 * sM - a / 2 - 1); [symmetry; apply Z.div_unique with 1; lia|apply Z.div_unique with 0; lia].
        -- f_equal. lia.
      * apply Z.div_le_lower_bound; lia.
    + unfold brk in BS. rewrite BS. exact Hb.
Qed.
End Mant.

Lemma dy_make_rounded : forall rm h s e R, 0 < R < 2 ^ (fl F + 5) -> - 2 ^ 20 - 2 ^ 17 <= e <= 2 ^ 17 ->
  rounded G rm (sg s * (IZR R * bpow radix2 e)) s (fast_as G (bit_ceil_z (fl F + 4)) rm h (dy_make (bit_ceil_z (fl F + 4)) s e R)).
Proof.
  intros rm h s e R HR He. pose proof (gf_fl F HF). pose proof (bit_ceil_z_ge (fl F + 4) ltac:(lia)) as HB.
  set (B := bit_ceil_z (fl F + 4)) in *.
  assert (HRB : 0 <= R < 2 ^ B) by (pose proof (pow2_le (fl F + 5) B ltac:(lia)); lia).
  destruct (dy_make_spec B s e R HRB) as (D1 & D2 & D3 & D4).
  pose proof (normalize_spec B (Dyadic s e R) HRB) as NS. fold (dy_make B s e R) in NS. cbn [dmant dexp dsign] in NS.
  destruct NS as [NS|NS]; [|lia]. destruct NS as (_ & _ & _ & _ & NE).
  pose proof (fast_as_spec G HG HelG Hb3 B ltac:(lia) rm h (dy_make B s e R)) as FS.
  rewrite D1, D2 in FS. apply FS; [|exact D4]. split; [exact D3|]. lia.
Qed.

(** Normal operands; the sum of operands of opposite sign must not be dominated
    by the second one. *)
Lemma add_or_sub_normal : forall rm h dm (is_sub : bool) x y, is_fin F x = true -> is_fin F y = true ->
  2 ^ fl F <= mag_of F x -> 2 ^ fl F <= mag_of F y ->
  sign_of F x = sign_of F y \/ mag_of F y <= mag_of F x ->
  rounded G rm (if is_sub then (fval F x - fval F y)%R else (fval F x + fval F y)%R)
    (zero_sum_sign dm (sign_of F x) (xorb is_sub (sign_of F y))) (add_or_sub F G rm h dm is_sub x y).
Proof.
  intros rm h dm is_sub x y Hx Hy Nx Ny Hs. pose proof (fl_pos F HF) as HP. pose proof (gf_fl F HF) as Hf.
  assert (Ix : mag_of F x < inf_mag F) by (unfold is_fin in Hx; lia). assert (Iy : mag_of F y < inf_mag F) by (unfold is_fin in Hy; lia).
  unfold add_or_sub. rewrite !(fp_is_nan_eq F HF HelF), !(fp_is_inf_eq F HF HelF), !(fp_is_zero_eq F HF), !(fp_sign_eq F HF), !(fp_abs_eq F HF).
  rewrite (fin_nan F x), (fin_nan F y), (fin_inf F x), (fin_inf F y) by auto. cbn [orb].
  replace (mag_of F x =? 0) with false by lia. replace (mag_of F y =? 0) with false by lia.
  set (eff := negb (Bool.eqb (Bool.eqb (sign_of F x) (sign_of F y)) is_sub)).
  set (a := mag_of F x) in *. set (b := mag_of F y) in *.
  unfold f_eq. rewrite cmp_abs by lia.
  destruct (gen_max_abs a b ltac:(lia) ltac:(lia)) as (EM & Em). rewrite EM, Em.
  assert (VX : fval F x = (sg (sign_of F x) * mval F a)%R) by (apply fval_fin; auto).
  assert (VY : fval F y = (sg (sign_of F y) * mval F b)%R) by (apply fval_fin; auto).
  assert (EX : (if is_sub then fval F x - fval F y else fval F x + fval F y)%R = (sg (sign_of F x) * (if eff then mval F a + mval F b else mval F a - mval F b))%R).
  { rewrite VX, VY. unfold eff. destruct (sign_of F x), (sign_of F y), is_sub; cbn; ring. }
  rewrite EX.
  assert (ZS : eff = false -> zero_sum_sign dm (sign_of F x) (xorb is_sub (sign_of F y)) = (match dm with RDN => true | _ => false end)).
  { unfold eff, zero_sum_sign. destruct (sign_of F x), (sign_of F y), is_sub; cbn; intros; try discriminate; reflexivity. }
  destruct ((match (a ?= b) with Eq => true | _ => false end) && negb eff) eqn:EQ.
  { apply andb_true_iff in EQ. destruct EQ as (E1 & E2). apply negb_true_iff in E2. rewrite E2. rewrite (ZS E2).
    destruct (Z.compare_spec a b); try discriminate. replace (mval F a - mval F b)%R with 0%R by (rewrite H; ring). rewrite Rmult_0_r.
    unfold op_zero. rewrite (fp_zero_eq2 G HG HelG). apply (rounded_zero G HG). }
  assert (NE : eff = false -> a <> b).
  { intros E1 E2. rewrite E2, Z.compare_refl, E1 in EQ. discriminate. }
  set (s := as_sign F eff x y).
  assert (ESg : (sg (sign_of F x) * (if eff then mval F a + mval F b else mval F a - mval F b) =
                 sg s * (if eff then mval F (Z.max a b) + mval F (Z.min a b) else mval F (Z.max a b) - mval F (Z.min a b)))%R).
  { unfold s, as_sign. rewrite !(fp_sign_eq F HF), !(fp_abs_eq F HF). fold a b. unfold f_gt, f_lt. rewrite cmp_abs by lia.
    destruct (Z.compare_spec a b) as [C|C|C].
    - destruct eff; [rewrite <- C, Z.max_id, Z.min_id; reflexivity|exfalso; apply NE; auto].
    - destruct Hs as [Hs|Hs]; [|lia]. rewrite Z.max_r, Z.min_l, <- Hs by lia. destruct eff; [ring|]. rewrite sg_negb. ring.
    - rewrite Z.max_l, Z.min_r by lia. destruct eff; ring. }
  rewrite ESg.
  assert (MM : 2 ^ fl F <= Z.max a b < inf_mag F /\ 2 ^ fl F <= Z.min a b <= Z.max a b) by lia. destruct MM as (MM1 & MM2).
  assert (LT : eff = false -> Z.min a b < Z.max a b) by (intros E; specialize (NE E); lia).
  assert (I : inf_mag F < sign_unit F) by (pose proof (sign_unit_inf F HF); lia).
  destruct (mag_abs (Z.max a b) ltac:(lia)) as (M1 & _).
  rewrite (get_exponent_eq F HF HelF), M1.
  destruct (as_mant_eq (Z.max a b) (Z.min a b) MM1 MM2 eff LT) as (_ & RB).
  destruct (al_pos (Z.max a b) (Z.min a b) MM1 MM2) as (_ & P2 & P3).
  pose proof (expmax_bias F HF) as HE. pose proof (gf_bias F HF) as Hb. unfold expmax in HE. pose proof (pow2_le (el F) 16 ltac:(lia)) as HE2. change (2 ^ 16) with 65536 in HE2. unfold expmax in P3.
  assert (P4 : 1 <= Z.max a b / 2 ^ fl F) by (apply Z.div_le_lower_bound; lia).
  pose proof (dy_make_rounded rm h s (Z.max a b / 2 ^ fl F - bias F - (fl F + 3)) _ RB ltac:(lia)) as DR.
  assert (NZ : (sg s * (if eff then mval F (Z.max a b) + mval F (Z.min a b) else mval F (Z.max a b) - mval F (Z.min a b)) <> 0)%R).
  { apply Rmult_integral_contrapositive_currified; [apply sg_nz|].
    assert (Q1 : (0 < mval F (Z.min a b))%R) by (apply mval_pos; auto; lia).
    destruct eff; [assert (Q2 : (0 < mval F (Z.max a b))%R) by (apply mval_pos; auto; lia); lra|].
    specialize (NE eq_refl). assert (Q2 : (mval F (Z.min a b) < mval F (Z.max a b))%R) by (apply mval_lt; auto; lia). lra. }
  apply (rounded_zs G rm _ s _ _ NZ).
  apply (sum_rounded (Z.max a b) (Z.min a b) MM1 MM2); auto.
Qed.
End Add.

Section AddSpecial.
Context (F G : fmt) (HF : good_fmt F) (HG : good_fmt G) (HelF : el F <= 16) (HelG : el G <= 16) (HFG : fl G <= fl F).

Lemma op_nan_props : forall x y, is_pattern F x -> is_pattern F y -> is_nan F x = true \/ is_nan F y = true ->
  is_pattern G (op_nan F G x y) /\ quiet G (op_nan F G x y) /\
  (quiet F x -> op_nan F G x y = narrowed F G x) /\ (~ quiet F x -> quiet F y -> op_nan F G x y = narrowed F G y).
Proof.
  intros x y Px Py HN. unfold op_nan. pose proof (quiet_eq F HF HelF x) as QX. pose proof (quiet_eq F HF HelF y) as QY.
  destruct (fp_is_quiet_nan F x) eqn:EX.
  { assert (Q : quiet F x) by (apply QX; auto). rewrite (narrow_nan_eq F G HF HG HelG HFG) by auto.
    destruct (narrowed_quiet F G HF HG HelG HFG x Q) as (A1 & A2 & _). tauto. }
  assert (NX : ~ quiet F x) by (rewrite <- QX; discriminate).
  destruct (fp_is_quiet_nan F y) eqn:EY.
  { assert (Q : quiet F y) by (apply QY; auto). rewrite (narrow_nan_eq F G HF HG HelG HFG) by auto.
    destruct (narrowed_quiet F G HF HG HelG HFG y Q) as (A1 & A2 & _). tauto. }
  assert (NY : ~ quiet F y) by (rewrite <- QY; discriminate).
  rewrite (qnan0_eq G HG HelG). destruct (qnan_props G HG) as (A1 & A2 & A3).
  split; [auto|]. split; [|tauto]. apply (quiet_eq G HG HelG). rewrite (fp_is_quiet_nan_eq G HG HelG).
  apply Z.leb_le. rewrite (mag_qnan G HG). lia.
Qed.

Lemma add_or_sub_special : forall rm h dm is_sub x y, is_pattern F x -> is_pattern F y ->
  let r := add_or_sub F G rm h dm is_sub x y in
  (is_nan F x = true \/ is_nan F y = true -> is_pattern G r /\ quiet G r /\
     (quiet F x -> r = narrowed F G x) /\ (~ quiet F x -> quiet F y -> r = narrowed F G y)) /\
  (is_inf F x = true -> is_inf F y = true ->
     r = if Bool.eqb (sign_of F x) (xorb is_sub (sign_of F y)) then f_inf G (sign_of F x) else qnan G) /\
  (is_inf F x = true -> is_fin F y = true -> r = f_inf G (sign_of F x)) /\
  (is_fin F x = true -> is_inf F y = true -> r = f_inf G (sign_of F y)).
Proof.
  intros rm h dm is_sub x y Px Py r. unfold r, add_or_sub.
  rewrite !(fp_is_nan_eq F HF HelF), !(fp_is_inf_eq F HF HelF), !(fp_is_zero_eq F HF), !(fp_sign_eq F HF), !(fp_inf_eq G HG HelG), (qnan0_eq G HG HelG).
  split; [|split; [|split]].
  - intros HN. replace (is_nan F x || is_nan F y) with true by (symmetry; apply orb_true_iff; auto). apply op_nan_props; auto.
  - intros Hx Hy. rewrite (inf_nan F x Hx), (inf_nan F y Hy), Hx, Hy. cbn [orb].
    destruct (sign_of F x), (sign_of F y), is_sub; reflexivity.
  - intros Hx Hy. rewrite (inf_nan F x Hx), (fin_nan F y Hy), Hx, (fin_inf F y Hy). reflexivity.
  - intros Hx Hy. rewrite (fin_nan F x Hx), (inf_nan F y Hy), (fin_inf F x Hx), Hy. reflexivity.
Qed.

(** Zero plus a non-zero number. *)
Lemma add_or_sub_zero_left : forall rm h dm (is_sub : bool) x y, is_pattern F y -> is_fin F x = true -> is_fin F y = true -> mag_of F x = 0 -> mag_of F y <> 0 ->
  rounded G rm (if is_sub then (fval F x - fval F y)%R else (fval F x + fval F y)%R) (xorb is_sub (sign_of F y)) (add_or_sub F G rm h dm is_sub x y).
Proof.
  intros rm h dm is_sub x y Py Hx Hy Zx Zy. unfold add_or_sub.
  rewrite !(fp_is_nan_eq F HF HelF), !(fp_is_inf_eq F HF HelF), !(fp_is_zero_eq F HF).
  rewrite (fin_nan F x), (fin_nan F y), (fin_inf F x), (fin_inf F y) by auto. cbn [orb]. rewrite Zx.
  change (0 =? 0) with true. replace (mag_of F y =? 0) with false by lia. cbv iota.
  apply (fval_zero F HF x Hx) in Zx. rewrite Zx. unfold op_pass. destruct is_sub; rewrite ?xorb_true_l, ?xorb_false_l.
  - destruct (f_neg_props F HF y Py) as (N1 & N2 & N3 & N4 & N5). replace (0 - fval F y)%R with (fval F (f_neg F y)) by (rewrite N5; ring).
    rewrite <- N2. apply f_cast_spec; auto. rewrite N4. auto.
  - rewrite Rplus_0_l. apply f_cast_spec; auto.
Qed.
End AddSpecial.

Section Instances.
Context (F G : fmt) (HF : good_fmt F) (HG : good_fmt G) (HelF : el F <= 16) (HelG : el G <= 16) (HFG : fl G <= fl F).

Lemma add_normal : 4 <= el F -> fl G + 3 <= bias G -> fl F + 5 <= bit_ceil_z (fl F + 4) -> fl F <= 2 ^ 20 ->
  forall rm h dm x y, is_fin F x = true -> is_fin F y = true -> 2 ^ fl F <= mag_of F x -> 2 ^ fl F <= mag_of F y ->
  sign_of F x = sign_of F y \/ mag_of F y <= mag_of F x ->
  rounded G rm (fval F x + fval F y) (zero_sum_sign dm (sign_of F x) (sign_of F y)) (op_add F G rm h dm x y).
Proof.
  intros H4 Hb3 HBc H20 rm h dm x y Hx Hy Nx Ny Hs.
  pose proof (add_or_sub_normal F G HF HG HelF HelG HFG H4 Hb3 HBc H20 rm h dm false x y Hx Hy Nx Ny Hs) as H.
  rewrite xorb_false_l in H. exact H.
Qed.
Lemma sub_normal : 4 <= el F -> fl G + 3 <= bias G -> fl F + 5 <= bit_ceil_z (fl F + 4) -> fl F <= 2 ^ 20 ->
  forall rm h dm x y, is_fin F x = true -> is_fin F y = true -> 2 ^ fl F <= mag_of F x -> 2 ^ fl F <= mag_of F y ->
  sign_of F x = sign_of F y \/ mag_of F y <= mag_of F x ->
  rounded G rm (fval F x - fval F y) (zero_sum_sign dm (sign_of F x) (negb (sign_of F y))) (op_sub F G rm h dm x y).
Proof.
  intros H4 Hb3 HBc H20 rm h dm x y Hx Hy Nx Ny Hs.
  pose proof (add_or_sub_normal F G HF HG HelF HelG HFG H4 Hb3 HBc H20 rm h dm true x y Hx Hy Nx Ny Hs) as H.
  rewrite xorb_true_l in H. exact H.
Qed.
Lemma add_zero_left : forall rm h dm x y, is_pattern F y -> is_fin F x = true -> is_fin F y = true -> mag_of F x = 0 -> mag_of F y <> 0 ->
  rounded G rm (fval F x + fval F y) (sign_of F y) (op_add F G rm h dm x y) /\
  rounded G rm (fval F x - fval F y) (negb (sign_of F y)) (op_sub F G rm h dm x y).
Proof.
  intros rm h dm x y Py Hx Hy Zx Zy.
  pose proof (add_or_sub_zero_left F G HF HG HelF rm h dm false x y Py Hx Hy Zx Zy) as H1.
  pose proof (add_or_sub_zero_left F G HF HG HelF rm h dm true x y Py Hx Hy Zx Zy) as H2.
  rewrite xorb_false_l in H1. rewrite xorb_true_l in H2. exact (conj H1 H2).
Qed.
Lemma add_special : forall rm h dm x y, is_pattern F x -> is_pattern F y ->
  let r := op_add F G rm h dm x y in
  (is_nan F x = true \/ is_nan F y = true -> is_pattern G r /\ quiet G r /\
     (quiet F x -> r = narrowed F G x) /\ (~ quiet F x -> quiet F y -> r = narrowed F G y)) /\
  (is_inf F x = true -> is_inf F y = true ->
     r = if Bool.eqb (sign_of F x) (sign_of F y) then f_inf G (sign_of F x) else qnan G) /\
  (is_inf F x = true -> is_fin F y = true -> r = f_inf G (sign_of F x)) /\
  (is_fin F x = true -> is_inf F y = true -> r = f_inf G (sign_of F y)).
Proof.
  intros rm h dm x y Px Py r. pose proof (add_or_sub_special F G HF HG HelF HelG HFG rm h dm false x y Px Py) as H.
  cbv zeta in H. rewrite xorb_false_l in H. exact H.
Qed.
Lemma sub_special : forall rm h dm x y, is_pattern F x -> is_pattern F y ->
  let r := op_sub F G rm h dm x y in
  (is_nan F x = true \/ is_nan F y = true -> is_pattern G r /\ quiet G r /\
     (quiet F x -> r = narrowed F G x) /\ (~ quiet F x -> quiet F y -> r = narrowed F G y)) /\
  (is_inf F x = true -> is_inf F y = true ->
     r = if Bool.eqb (sign_of F x) (negb (sign_of F y)) then f_inf G (sign_of F x) else qnan G) /\
  (is_inf F x = true -> is_fin F y = true -> r = f_inf G (sign_of F x)) /\
  (is_fin F x = true -> is_inf F y = true -> r = f_inf G (sign_of F y)).
Proof.
  intros rm h dm x y Px Py r. pose proof (add_or_sub_special F G HF HG HelF HelG HFG rm h dm true x y Px Py) as H.
  cbv zeta in H. rewrite xorb_true_l in H. exact H.
Qed.
End Instances.
