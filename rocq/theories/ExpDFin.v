(** * exp, exp2 (double): the final scaling, including results out of the normal range *)
From Coq Require Import ZArith Lia Bool Reals Lra List.
From Flocq Require Import Core Sterbenz.
From Verif Require Import MachInt Fmt FloatSpec FmtProofs RoundProofs FOps FOpsProofs ExactOps RemProofs BasicProofs LerpProofs ExtFloatSpec ExtFloatProofs ExtInterp DyadicFast FmanipWide ErrLib ExpoData ExpoF Exp2fProofs ExpoDataD ExpD.
Import ListNotations.
Open Scope Z_scope.

(** ** Rounding to multiples of 2^-52. *)
Lemma floor_shift : forall x n, Zfloor (x + IZR n) = Zfloor x + n.
Proof. intros x n. apply Zfloor_imp. pose proof (Zfloor_lb x). pose proof (Zfloor_ub x). rewrite !plus_IZR. lra. Qed.
Lemma ceil_shift : forall x n, Zceil (x + IZR n) = Zceil x + n.
Proof. intros x n. apply Zceil_imp. pose proof (Zceil_ub x). pose proof (Zceil_lb x). unfold Z.sub. rewrite !plus_IZR. change (IZR (-(1))) with (-1)%R. lra. Qed.
Lemma rnd_shift : forall rm x n, (0 <= x)%R -> 0 <= n -> rnd rm (x + IZR (2 * n)) = rnd rm x + 2 * n.
Proof.
  intros rm x n Hx Hn. destruct rm; cbn [rnd].
  - unfold Znearest. rewrite floor_shift, ceil_shift. replace (x + IZR (2 * n) - IZR (Zfloor x + 2 * n))%R with (x - IZR (Zfloor x))%R by (rewrite plus_IZR; ring).
    replace (Z.even (Zfloor x + 2 * n)) with (Z.even (Zfloor x)) by (rewrite Z.even_add, Z.even_mul; destruct (Z.even (Zfloor x)); reflexivity).
    destruct (Rcompare _ _); auto. destruct (negb _); auto.
  - apply floor_shift.
  - apply ceil_shift.
  - rewrite !Ztrunc_floor; [apply floor_shift|auto|]. pose proof (IZR_le 0 (2 * n) ltac:(lia)). lra.
Qed.
Definition grid (rm : rmode) (u : R) : R := (IZR (rnd rm (u * bp 52)) * bp (-52))%R.
Lemma cexpD : forall x e, (bp (e - 1) <= x < bp e)%R -> cexp radix2 fexpD x = Z.max (e - 53) (-1074).
Proof.
  intros x e H. unfold cexp. rewrite (mag_unique radix2 x e). reflexivity. rewrite Rabs_pos_eq; [exact H|]. pose proof (bpow_gt_0 radix2 (e - 1)). lra.
Qed.
Lemma fround_cexp : forall rm x c, cexp radix2 fexpD x = c -> fround D rm x = (IZR (rnd rm (x * bp (- c))) * bp c)%R.
Proof. intros rm x c H. unfold fround, round, F2R, scaled_mantissa. cbn [Fnum Fexp]. rewrite H. reflexivity. Qed.
Lemma fround_grid1 : forall rm u, (0 <= u < 1)%R -> fround D rm (1 + u) = (1 + grid rm u)%R.
Proof.
  intros rm u H. rewrite (fround_cexp rm _ (-52)).
  - unfold grid. change (- -52) with 52. replace ((1 + u) * bp 52)%R with (u * bp 52 + IZR (2 * 2 ^ 51))%R by (change (IZR (2 * 2 ^ 51)) with (bp 52); ring).
    rewrite rnd_shift; [|apply Rmult_le_pos; [lra|apply bpow_ge_0]|lia]. rewrite plus_IZR. change (IZR (2 * 2 ^ 51)) with (bp 52).
    rewrite Rmult_plus_distr_r, <- (bpow_plus radix2 52 (-52)). change (bp (52 + -52)) with 1%R. ring.
  - rewrite (cexpD _ 1); [reflexivity|]. change (bp (1 - 1)) with 1%R. change (bp 1) with 2%R. lra.
Qed.
(** Just above one, in the modes that do not round up. *)
Lemma rnd_near : forall rm x n, rm <> RUP -> 0 <= n -> (IZR n <= x <= IZR n + / 4)%R -> rnd rm x = n.
Proof.
  intros rm x n Hrm Hn H. destruct rm; cbn [rnd].
  - apply Znearest_imp. rewrite Rabs_pos_eq; lra.
  - apply Zfloor_imp. rewrite plus_IZR. lra.
  - congruence.
  - pose proof (IZR_le 0 n Hn). rewrite Ztrunc_floor by lra. apply Zfloor_imp. rewrite plus_IZR. lra.
Qed.
Lemma fround_grid : forall rm u, (0 <= u)%R -> (u < 1 \/ (rm <> RUP /\ u <= 1 + bp (-54)))%R -> fround D rm (1 + u) = (1 + grid rm u)%R /\ (grid rm u <= 1)%R.
Proof.
  intros rm u H0 H. destruct (Rlt_dec u 1) as [L|L].
  - split; [apply fround_grid1; lra|]. unfold grid. apply Rle_trans with (IZR (2 ^ 52) * bp (-52))%R.
    + apply Rmult_le_compat_r; [apply bpow_ge_0|]. apply IZR_le. pose proof (VR rm) as VR'. rewrite <- (@Zrnd_IZR (rnd rm) VR' (2 ^ 52)).
      apply (@Zrnd_le (rnd rm) VR'). change (IZR (2 ^ 52)) with (bp 52). rewrite <- (Rmult_1_l (bp 52)) at 2. apply Rmult_le_compat_r; [apply bpow_ge_0|lra].
    + change (IZR (2 ^ 52)) with (bp 52). rewrite <- bpow_plus. change (bp (52 + -52)) with 1%R. lra.
  - destruct H as [H|[NU H]]; [lra|]. bpn_in H.
    assert (G : grid rm u = 1%R).
    { unfold grid. rewrite (rnd_near rm _ (2 ^ 52)); auto; try lia; [change (IZR (2 ^ 52)) with (bp 52); rewrite <- bpow_plus; reflexivity|]. bpn. lra. }
    rewrite G. split; [|lra]. rewrite (fround_cexp rm _ (-51)).
    + rewrite (rnd_near rm _ (2 ^ 52)); auto; try lia; [change (IZR (2 ^ 52)) with (bp 52); rewrite <- bpow_plus; change (bp (52 + -51)) with 2%R; ring|].
      change (- -51) with 51. bpn. lra.
    + rewrite (cexpD _ 2); [reflexivity|]. change (bp (2 - 1)) with 2%R. change (bp 2) with 4%R. lra.
Qed.
Lemma fround_sub : forall rm u, (0 <= u < 2)%R -> fround D rm (bp (-1022) * u) = (bp (-1022) * grid rm u)%R.
Proof.
  intros rm u H. assert (B : (0 < bp (-1022))%R) by apply bpow_gt_0. destruct (Req_dec u 0) as [->|N].
  { unfold grid. rewrite Rmult_0_r, (fround_0 D rm), Rmult_0_l. pose proof (VR rm) as VR'. rewrite (@Zrnd_IZR (rnd rm) VR' 0). ring. }
  assert (C : cexp radix2 fexpD (bp (-1022) * u) = -1074).
  { unfold cexp, FLT_exp. change (emin D) with (-1074). change (prec D) with 53.
    assert (mag radix2 (bp (-1022) * u) <= -1021); [|lia]. apply mag_le_bpow; [apply Rmult_integral_contrapositive_currified; lra|].
    rewrite Rabs_pos_eq by (apply Rmult_le_pos; lra). change (-1021) with (-1022 + 1). rewrite bpow_plus. change (bp 1) with 2%R. apply Rmult_lt_compat_l; lra. }
  rewrite (fround_cexp rm _ _ C). unfold grid. change (- -1074) with (1022 + 52). replace (bp (-1022) * u * bp (1022 + 52))%R with (u * bp 52)%R.
  - change (-1074) with (-1022 + -52). rewrite bpow_plus. ring.
  - rewrite bpow_plus. replace (bp (-1022) * u * (bp 1022 * bp 52))%R with ((bp (-1022) * bp 1022) * (u * bp 52))%R by ring. rewrite <- (bpow_plus radix2 (-1022) 1022). change (bp (-1022 + 1022)) with 1%R. ring.
Qed.
Lemma grid_pos : forall rm u, (0 <= u)%R -> (0 <= grid rm u)%R.
Proof.
  intros rm u H. unfold grid. apply Rmult_le_pos; [|apply bpow_ge_0]. apply (IZR_le 0). pose proof (VR rm) as VR'. rewrite <- (@Zrnd_IZR (rnd rm) VR' 0).
  apply (@Zrnd_le (rnd rm) VR'). apply Rmult_le_pos; [lra|apply bpow_ge_0].
Qed.
Lemma rnd_up : forall x, (x <= IZR (rnd RUP x))%R. Proof. intros. apply Zceil_ub. Qed.
Lemma fround_up : forall x, (x <= fround D RUP x)%R.
Proof. intros x. pose proof VED as VE'. destruct (round_UP_pt radix2 fexpD x) as (_ & H & _). exact H. Qed.

(** ** A positive exact result. *)
Lemma rounded_pos : forall rm x b, (0 < x)%R -> (fround D rm x < bp 1024)%R -> is_real D b (fround D rm x) -> sign_of D b = false -> rounded D rm x false b.
Proof.
  intros rm x b Hx HB (P & Fi & V) Hs. split; [auto|]. split; [|split].
  - rewrite Hs. destruct (Req_bool_spec x 0); [lra|]. destruct (Rlt_bool_spec x 0); [lra|reflexivity].
  - auto.
  - intros H. change (bias D + 1) with 1024 in H. rewrite Rabs_pos_eq in H; [lra|]. apply (fround_ge_gen D good64); [apply generic_format_0|lra].
Qed.
Lemma rounded_ext : forall rm x y b zs zt, (0 < x)%R -> (0 < y)%R -> fround D rm x = fround D rm y -> rounded D rm x zs b -> rounded D rm y zt b.
Proof.
  intros rm x y b zs zt Hx Hy E (P & S & V & O). destruct (Req_bool_spec x 0); [lra|]. destruct (Rlt_bool_spec x 0); [lra|].
  split; [auto|]. destruct (Req_bool_spec y 0); [lra|]. destruct (Rlt_bool_spec y 0); [lra|]. rewrite <- E. auto.
Qed.
Lemma pos_sign : forall b V, is_real D b V -> (0 < V)%R -> sign_of D b = false.
Proof. intros b V (P & Fi & <-) H. rewrite (sign_fval D good64) by (auto; lra). apply Rlt_bool_false. lra. Qed.
Lemma fround_id' : forall rm x, generic_format radix2 fexpD x -> fround D rm x = x.
Proof. intros. apply fround_exact. auto. Qed.
Lemma pow_real : forall e, -1022 <= e <= 1023 -> is_real D ((e + 1023) * 2 ^ 52) (bp e).
Proof.
  intros e He. pose proof (pos_pat ((e + 1023) * 2 ^ 52) ltac:(lia)) as P. rewrite Z.mod_mul, Z.div_mul in P by lia.
  replace (IZR (2 ^ 52 + 0) * bp (e + 1023 - 1075))%R with (bp e) in P; [exact P|]. change (IZR (2 ^ 52 + 0)) with (bp 52). rewrite <- bpow_plus. f_equal. ring.
Qed.

(** ** The sum of the scale and its correction. *)
Section FIN.
Variables (rm : rmode) (sc tm : Z) (V TM : R) (J q : Z).
Hypothesis HV : (1 <= V < 2)%R.
Hypothesis HS : is_real D sc (V * bp J).
Hypothesis HT : is_real D tm TM.
Hypothesis HJ : -960 <= J <= 1023.
Hypothesis HU : ((V + / 16) * bp J <= 31 / 16 * bp 1023)%R.
Hypothesis Hq : 7 <= q <= 8.
Hypothesis HB : (Rabs TM <= bp (- q))%R.
Let S := (V * bp J)%R.
Let p := fround D rm (S * TM).
Let v := (S + p)%R.
Let y := fround D rm v.
Lemma bpJ : (0 < bp J)%R. Proof. apply bpow_gt_0. Qed.
Lemma S_bounds : (bp J <= S < 2 * bp J)%R.
Proof. pose proof bpJ. unfold S. split; [rewrite <- (Rmult_1_l (bp J)) at 1; apply Rmult_le_compat_r; lra|apply Rmult_lt_compat_r; lra]. Qed.
Lemma ST_bound : (Rabs (S * TM) <= bp (J + 1 - q))%R.
Proof.
  pose proof S_bounds. pose proof bpJ. rewrite Rabs_mult, Rabs_pos_eq by lra. replace (J + 1 - q) with (J + 1 + - q) by ring. rewrite !bpow_plus. change (bp 1) with 2%R.
  apply Rmult_le_compat; auto; try lra. apply Rabs_pos.
Qed.
Lemma p_err : (Rabs (p - S * TM) <= bp (J - 52 - q))%R.
Proof. replace (J - 52 - q) with (J + 1 - q - 53) by ring. apply err_abs; [lia|apply ST_bound]. Qed.
Lemma p_bound : (Rabs p <= / 32 * bp J)%R.
Proof.
  pose proof p_err as H1. pose proof ST_bound as H2. pose proof bpJ.
  assert (A : (bp (J + 1 - q) <= / 64 * bp J)%R). { change (/ 64)%R with (bp (-6)). rewrite <- bpow_plus. apply bpow_le. lia. }
  assert (B : (bp (J - 52 - q) <= / 64 * bp J)%R). { change (/ 64)%R with (bp (-6)). rewrite <- bpow_plus. apply bpow_le. lia. }
  apply Rabs_le_inv in H1. apply Rabs_le_inv in H2. apply Rabs_le. lra.
Qed.
Lemma v_bounds : (31 / 32 * bp J <= v < 65 / 32 * bp J)%R.
Proof. pose proof p_bound as H. pose proof S_bounds. apply Rabs_le_inv in H. unfold v. lra. Qed.
Lemma BU : (bp J <= 31 / 16 * bp 1023)%R. Proof. pose proof bpJ. assert (1 * bp J <= (V + / 16) * bp J)%R by (apply Rmult_le_compat_r; lra). lra. Qed.
Lemma v_big : (v <= 31 / 16 * bp 1023)%R.
Proof. pose proof p_bound as H. pose proof bpJ. apply Rabs_le_inv in H. unfold v, S in *. lra. Qed.
Lemma big_fr : forall z, (Rabs z <= 31 / 16 * bp 1023)%R -> (Rabs (fround D rm z) <= 31 / 16 * bp 1023)%R.
Proof.
  intros z H. assert (G : generic_format radix2 fexpD (31 / 16 * bp 1023)).
  { replace (31 / 16 * bp 1023)%R with (IZR 31 * bp 1019)%R; [apply gfD; lia|]. change 1023 with (4 + 1019). rewrite bpow_plus. change (bp 4) with 16%R. lra. }
  apply Rabs_le_inv in H. apply Rabs_le. split; [apply (fround_ge_gen D good64); [apply generic_format_opp; auto|lra]|apply (fround_le_gen D good64); auto; lra].
Qed.
Lemma big_lt : (31 / 16 * bp 1023 < bp 1024)%R. Proof. change 1024 with (1 + 1023). rewrite bpow_plus. change (bp 1) with 2%R. pose proof (bpow_gt_0 radix2 1023). lra. Qed.
Lemma big_le : forall z, (Rabs z <= 31 / 16 * bp 1023)%R -> (Rabs (fround D rm z) < bp (bias D + 1))%R.
Proof. intros z H. apply Rle_lt_trans with (1 := big_fr z H). exact big_lt. Qed.
Lemma p_real : is_real D (f_mul D rm sc tm) p.
Proof.
  apply (mul_r D good64); auto. fold S. apply big_le. pose proof ST_bound. pose proof bpJ. pose proof BU.
  assert (A : (bp (J + 1 - q) <= / 64 * bp J)%R). { change (/ 64)%R with (bp (-6)). rewrite <- bpow_plus. apply bpow_le. lia. } lra.
Qed.
Lemma y_real : is_real D (f_add D rm sc (f_mul D rm sc tm)) y.
Proof. apply (add_r D good64); auto; [apply p_real|]. fold S v. apply big_le. pose proof v_bounds. pose proof v_big. pose proof bpJ. rewrite Rabs_pos_eq; lra. Qed.
Lemma y_err : (Rabs (y - v) <= bp (J - 51))%R.
Proof. replace (J - 51) with (J + 2 - 53) by ring. apply err_abs; [lia|]. pose proof v_bounds. pose proof bpJ. rewrite bpow_plus. change (bp 2) with 4%R. rewrite Rabs_pos_eq; lra. Qed.
Lemma y_bounds : (/ 2 * bp J <= y <= 3 * bp J)%R.
Proof.
  pose proof y_err as H. pose proof v_bounds. pose proof bpJ. assert (A : (bp (J - 51) <= / 4 * bp J)%R). { change (/ 4)%R with (bp (-2)). rewrite <- bpow_plus. apply bpow_le. lia. }
  apply Rabs_le_inv in H. lra.
Qed.
Lemma v_err : (Rabs (v - S * (1 + TM)) <= bp (J - 52 - q))%R.
Proof. replace (v - S * (1 + TM))%R with (p - S * TM)%R by (unfold v; ring). apply p_err. Qed.

Lemma fin_main : rounded D rm v false (f_add D rm sc (f_mul D rm sc tm)).
Proof.
  pose proof y_real as R. pose proof y_bounds. pose proof v_bounds. pose proof bpJ. apply rounded_pos; try exact R; try lra.
  - apply Rle_lt_trans with (1 := Rle_abs _). apply (big_le v). rewrite Rabs_pos_eq by lra. apply v_big.
  - apply (pos_sign _ y); [exact R|lra].
Qed.
(** Scaling up: one more exact multiplication, which may overflow. *)
Lemma fin_up : forall n, 0 <= n <= 1023 -> rounded D rm (bp n * v) false (f_mul D rm ((n + 1023) * 2 ^ 52) (f_add D rm sc (f_mul D rm sc tm))).
Proof.
  intros n Hn. pose proof y_real as R. pose proof y_bounds. pose proof v_bounds. pose proof bpJ. pose proof (pow_real n ltac:(lia)) as (_ & F1 & V1).
  pose proof (bpow_gt_0 radix2 n). destruct R as (P & Fi & VY).
  pose proof (f_mul_spec D good64 rm _ _ F1 Fi) as M. rewrite V1, VY in M. refine (rounded_ext _ _ _ _ _ _ _ _ _ M); try (apply Rmult_lt_0_compat; lra).
  assert (NB : forall z, (/ 2 * bp J <= z)%R -> (bp (1 - bias D) <= Rabs z)%R).
  { intros z Hz. rewrite Rabs_pos_eq by lra. apply Rle_trans with (bp (-1 + J)); [apply bpow_le; change (1 - bias D) with (-1022); lia|]. rewrite bpow_plus. change (bp (-1)) with (/ 2)%R. lra. }
  rewrite (Rmult_comm _ v), (Rmult_comm _ y). rewrite !(fround_scale D); try lia; try (apply NB; lra).
  f_equal. unfold y. apply fround_id'. apply generic_format_round; [apply VED|apply VR].
Qed.
Lemma fin_down_ge : (1 <= y)%R -> J <= 1000 -> rounded D rm (bp (-1022) * v) false (f_mul D rm (2 ^ 52) (f_add D rm sc (f_mul D rm sc tm))).
Proof.
  intros H1 HJ'. pose proof y_real as R. pose proof y_bounds. pose proof v_bounds. pose proof bpJ. pose proof (pow_real (-1022) ltac:(lia)) as R1. change ((-1022 + 1023) * 2 ^ 52) with (2 ^ 52) in R1.
  assert (B : (0 < bp (-1022))%R) by apply bpow_gt_0.
  assert (GY : generic_format radix2 fexpD y) by (apply generic_format_round; [apply VED|apply VR]).
  assert (E : fround D rm (bp (-1022) * v) = (bp (-1022) * y)%R).
  { destruct (Rle_dec 1 v) as [L|L].
    - pose proof (fround_scale D rm (bp (-1022) * v) 1022) as FS. 
      replace (bp (-1022) * v * bp 1022)%R with v in FS by (rewrite Rmult_comm, <- Rmult_assoc, <- bpow_plus; change (bp (1022 + -1022)) with 1%R; ring).
      fold y in FS. rewrite FS; [|rewrite Rabs_pos_eq by (apply Rmult_le_pos; lra); change (1 - bias D) with (-1022); rewrite <- (Rmult_1_r (bp (-1022))) at 1; apply Rmult_le_compat_l; lra|lia].
      rewrite (Rmult_comm _ (bp 1022)), <- Rmult_assoc, <- bpow_plus. change (bp (-1022 + 1022)) with 1%R. ring.
    - assert (Y1 : y = 1%R). { apply Rle_antisym; auto. apply (fround_le_gen D good64); [apply (bpD 0); lia|lra]. }
      rewrite fround_sub by lra. f_equal. rewrite Y1.
      assert (EA : (Rabs (y - v) <= bp (0 - 53))%R) by (apply err_abs; [lia|]; rewrite Rabs_pos_eq by lra; change (bp 0) with 1%R; lra).
      rewrite Y1 in EA. apply Rabs_le_inv in EA. bpn_in EA. unfold grid. replace (rnd rm (v * bp 52)) with (2 ^ 52).
      { change (IZR (2 ^ 52)) with (bp 52). rewrite <- bpow_plus. reflexivity. }
      symmetry. pose proof (VR rm) as VR'. apply Z.le_antisymm.
      + rewrite <- (@Zrnd_IZR (rnd rm) VR' (2 ^ 52)). apply (@Zrnd_le (rnd rm) VR'). bpn. change (2 ^ 52) with 4503599627370496. lra.
      + assert (VB : (IZR (2 ^ 52) - / 2 <= v * bp 52)%R) by (bpn; change (2 ^ 52) with 4503599627370496; lra).
        assert (CASE : rm = RDN \/ rm = RZR \/ rm = RUP \/ rm = RNE) by (destruct rm; auto).
        destruct CASE as [M|[M|[M|M]]].
        * exfalso. assert (y <= v)%R; [|lra]. unfold y. rewrite M. pose proof VED as VE'. destruct (round_DN_pt radix2 fexpD v) as (_ & X & _). exact X.
        * exfalso. assert (y <= v)%R; [|lra]. unfold y. rewrite M. pose proof VED as VE'. unfold fround. cbn [rnd]. rewrite round_ZR_DN by lra. destruct (round_DN_pt radix2 fexpD v) as (_ & X & _). exact X.
        * rewrite M. cbn [rnd]. rewrite (Zceil_imp (2 ^ 52)); [lia|]. rewrite minus_IZR. split; bpn; change (2 ^ 52) with 4503599627370496; lra.
        * rewrite M. cbn [rnd]. unfold Znearest. rewrite (Zfloor_imp (2 ^ 52 - 1)), (Zceil_imp (2 ^ 52)).
          -- destruct (Rcompare_spec (v * bp 52 - IZR (2 ^ 52 - 1)) (/ 2)); [|cbn; lia|lia]. exfalso. rewrite minus_IZR in *. lra.
          -- rewrite minus_IZR. split; [lra|]. bpn. change (2 ^ 52) with 4503599627370496. lra.
          -- rewrite plus_IZR, minus_IZR. split; [lra|]. bpn. change (2 ^ 52) with 4503599627370496. lra. }
  assert (YB : (Rabs (bp (-1022) * y) < bp (bias D + 1))%R).
  { rewrite Rabs_pos_eq by (apply Rmult_le_pos; lra). apply Rle_lt_trans with (bp (-1022) * bp (J + 2))%R; [apply Rmult_le_compat_l; [lra|]; rewrite bpow_plus; change (bp 2) with 4%R; lra|].
    rewrite <- bpow_plus. apply bpow_lt. change (bias D + 1) with 1024. lia. }
  assert (GP : generic_format radix2 fexpD (bp (-1022) * y)) by (rewrite <- E; apply generic_format_round; [apply VED|apply VR]).
  pose proof (mul_x D good64 rm _ _ _ _ _ R1 R eq_refl GP YB) as RR.
  apply rounded_pos; [apply Rmult_lt_0_compat; lra| |rewrite E; exact RR|].
  - rewrite E. rewrite Rabs_pos_eq in YB by (apply Rmult_le_pos; lra). exact YB.
  - apply (pos_sign _ _ RR). apply Rmult_lt_0_compat; lra.
Qed.
(** The correction of handle_special_case for subnormal results: the sum is rounded once, at
    the position of the last place of the subnormal range. *)
Lemma fin_down_lt : (y < 1)%R -> exists u, (0 < u)%R /\ (Rabs (u - v) <= bp (-102))%R /\ (generic_format radix2 fexpD v -> generic_format radix2 fexpD (1 + v) -> u = v) /\
  let yy := f_add D rm sc (f_mul D rm sc tm) in
  let lo := f_add D rm (f_sub D rm sc yy) (f_mul D rm sc tm) in
  let hi := f_add D rm (lit 1 0) yy in
  let lo := f_add D rm (f_add D rm (f_sub D rm (lit 1 0) hi) yy) lo in
  let r := f_sub D rm (f_add D rm hi lo) (lit 1 0) in
  rounded D rm (bp (-1022) * u) false (f_mul D rm (2 ^ 52) (if f_eq D r (f_zero D false) then f_zero D false else r)).
Proof.
  intros Y1. pose proof y_real as R. pose proof p_real as RP. pose proof y_bounds as YB. pose proof v_bounds as VB. pose proof bpJ as BJ. pose proof y_err as YE. pose proof S_bounds as SB.
  pose proof VED as VE'. pose proof (VR rm) as VR'.
  set (yy := f_add D rm sc (f_mul D rm sc tm)) in *.
  assert (GY : generic_format radix2 fexpD y) by (apply generic_format_round; auto).
  assert (R1 : is_real D (lit 1 0) 1) by (replace 1%R with (IZR 1 * bp 0)%R by (cbn; ring); apply lit_r; lia).
  assert (J1 : J <= 1). { destruct (Z_le_gt_dec J 1); auto. exfalso. assert (bp 2 <= bp J)%R by (apply bpow_le; lia). change (bp 2) with 4%R in *. lra. }
  assert (V1 : (v < 1)%R). { destruct (Rlt_dec v 1); auto. exfalso. assert (1 <= y)%R by (apply (fround_ge_gen D good64); [apply (bpD 0); lia|lra]). lra. }
  assert (Y2 : (y <= 1 - bp (-53))%R).
  { replace (1 - bp (-53))%R with (pred radix2 fexpD 1). { apply pred_ge_gt; auto. apply (bpD 0). lia. }
    change 1%R with (bp 0) at 1. rewrite pred_bpow. reflexivity. }
  (* S - y is exact *)
  assert (GS : generic_format radix2 fexpD S) by (apply (real_fmt D good64 _ _ HS)).
  assert (RA : is_real D (f_sub D rm sc yy) (S - y)).
  { apply (sub_x D good64 rm _ _ _ _ _ HS R eq_refl).
    - pose proof p_bound as PB. apply Rabs_le_inv in PB. pose proof (Rabs_le_inv _ _ YE) as YE0.
      assert (A : (bp (J - 51) <= / 4 * bp J)%R). { change (/ 4)%R with (bp (-2)). rewrite <- bpow_plus. apply bpow_le. lia. }
      apply sterbenz; auto; [apply FLT_exp_monotone|]. unfold v in YE0. fold S. lra.
    - apply Rle_lt_trans with (bp 3); [|apply bpow_lt; reflexivity]. change (bp 3) with 8%R. assert (bp J <= bp 1)%R by (apply bpow_le; lia). change (bp 1) with 2%R in *. fold S. apply Rabs_le. lra. }
  assert (EV : (S - y + p = v - y)%R) by (unfold v; ring).
  set (l1 := fround D rm (v - y)).
  assert (RL1 : is_real D (f_add D rm (f_sub D rm sc yy) (f_mul D rm sc tm)) l1).
  { unfold l1. rewrite <- EV. apply (add_r D good64); auto. rewrite EV. apply big_le. pose proof BU. rewrite Rabs_minus_sym. assert (bp (J - 51) <= bp J)%R by (apply bpow_le; lia). lra. }
  set (lo1 := f_add D rm (f_sub D rm sc yy) (f_mul D rm sc tm)) in *.
  assert (L1E : (Rabs (l1 - (v - y)) <= bp (J - 104))%R).
  { replace (J - 104) with (J - 51 - 53) by ring. apply err_abs; [lia|]. rewrite Rabs_minus_sym. exact YE. }
  set (H := fround D rm (1 + y)).
  assert (small : forall z, (Rabs z <= 8)%R -> (Rabs (fround D rm z) < bp (bias D + 1))%R) by (intros z Hz; apply bound_big with 3; [lia|exact Hz]).
  assert (small' : forall z, (Rabs z <= 8)%R -> (Rabs z < bp (bias D + 1))%R) by (intros z Hz; apply Rle_lt_trans with (bp 3); [exact Hz|apply bpow_lt; reflexivity]).
  assert (RH : is_real D (f_add D rm (lit 1 0) yy) H) by (apply (add_r D good64); auto; apply small; apply Rabs_le; lra).
  set (hi := f_add D rm (lit 1 0) yy) in *.
  assert (HB' : (1 <= H <= 2)%R).
  { split; [apply (fround_ge_gen D good64); [apply (bpD 0); lia|lra]|apply (fround_le_gen D good64); [apply (bpD 1); lia|lra]]. }
  assert (HE : (Rabs (H - (1 + y)) <= bp (-52))%R) by (apply (err_abs rm (1 + y) 1); [lia|]; change (bp 1) with 2%R; rewrite Rabs_pos_eq; lra).
  assert (RB1 : is_real D (f_sub D rm (lit 1 0) hi) (1 - H)).
  { apply (sub_x D good64 rm _ _ _ _ _ R1 RH eq_refl); [|apply small'; apply Rabs_le; lra].
    apply sterbenz; auto; [apply FLT_exp_monotone|apply (bpD 0); lia|apply generic_format_round; auto|lra]. }
  set (b2 := fround D rm (1 - H + y)).
  assert (RB2 : is_real D (f_add D rm (f_sub D rm (lit 1 0) hi) yy) b2) by (apply (add_r D good64); auto; apply small; apply Rabs_le; lra).
  assert (B2E : (Rabs (b2 - (1 - H + y)) <= bp (-105))%R).
  { apply (err_abs rm _ (-52)); [lia|]. replace (1 - H + y)%R with (- (H - (1 + y)))%R by ring. rewrite Rabs_Ropp. exact HE. }
  assert (BJ2 : (bp (J - 104) <= bp (-103))%R) by (apply bpow_le; lia).
  assert (YE' : (Rabs (y - v) <= bp (-53))%R) by (apply (err_abs rm v 0); [lia|]; change (bp 0) with 1%R; rewrite Rabs_pos_eq; lra).
  apply Rabs_le_inv in YE'. pose proof (Rabs_le_inv _ _ L1E) as L1E'. pose proof (Rabs_le_inv _ _ HE) as HE'. pose proof (Rabs_le_inv _ _ B2E) as B2E'.
  assert (BN : (0 < bp (-105) /\ bp (-103) <= / 2 * bp (-102) /\ bp (-105) <= / 8 * bp (-102) /\ bp (-102) <= / 4 * bp (-53) /\ bp (-52) = 2 * bp (-53) /\ bp (-51) = 4 * bp (-53) /\ bp (-53) <= / 100 /\ bp (-104) = / 4 * bp (-102))%R) by (bpn; lra).
  destruct BN as (N1 & N2 & N3 & N4 & N5 & N6 & N7 & N8).
  set (l2 := fround D rm (b2 + l1)).
  assert (BL : (Rabs (b2 + l1) <= bp (-51))%R) by (apply Rabs_le; lra).
  assert (RL2 : is_real D (f_add D rm (f_add D rm (f_sub D rm (lit 1 0) hi) yy) lo1) l2).
  { apply (add_r D good64); auto. apply small. apply Rle_trans with (1 := BL). lra. }
  assert (L2E : (Rabs (l2 - (b2 + l1)) <= bp (-104))%R) by (apply (err_abs rm _ (-51)); [lia|auto]).
  pose proof (Rabs_le_inv _ _ L2E) as L2E'.
  set (lo2 := f_add D rm (f_add D rm (f_sub D rm (lit 1 0) hi) yy) lo1) in *.
  set (u := (v + (l1 - (v - y)) + (b2 - (1 - H + y)) + (l2 - (b2 + l1)))%R).
  assert (UE : (H + l2 = 1 + u)%R) by (unfold u; ring).
  assert (U0 : (0 < u)%R).
  { destruct (Rle_dec (bp (-60)) (bp J)) as [GE|LT].
    { assert (bp (-102) <= / 8 * bp (-60))%R by (bpn; lra). unfold u. lra. }
    assert (J60 : J < -60) by (apply (lt_bpow radix2); lra).
    assert (CASE : rm = RUP \/ rm <> RUP) by (destruct rm; auto; right; congruence). destruct CASE as [M|M].
    - assert (G1 : (v - y <= l1)%R) by (unfold l1; rewrite M; apply fround_up).
      assert (G2 : (1 - H + y <= b2)%R) by (unfold b2; rewrite M; apply fround_up).
      assert (G3 : (b2 + l1 <= l2)%R) by (unfold l2; rewrite M; apply fround_up). unfold u. lra.
    - assert (B60 : (bp J <= bp (-61))%R) by (apply bpow_le; lia).
      assert (YS : (3 * bp (-61) <= / 4 * bp (-52))%R) by (bpn; lra).
      assert (H1 : H = 1%R).
      { unfold H. destruct (fround_grid rm y ltac:(lra) (or_introl Y1)) as (-> & _). unfold grid. rewrite (rnd_near rm _ 0); auto; [ring|lia|].
        split; [rewrite Rplus_0_l || idtac; apply Rmult_le_pos; [lra|apply bpow_ge_0]|]. rewrite Rplus_0_l. apply Rle_trans with (/ 4 * bp (-52) * bp 52)%R; [apply Rmult_le_compat_r; [apply bpow_ge_0|lra]|].
        rewrite Rmult_assoc, <- bpow_plus. change (bp (-52 + 52)) with 1%R. lra. }
      assert (B2 : b2 = y). { unfold b2. rewrite H1. replace (1 - 1 + y)%R with y by ring. apply fround_id'. exact GY. }
      assert (BP1 : (bp (J - 104) <= / 8 * bp J)%R) by (change (/ 8)%R with (bp (-3)); rewrite <- bpow_plus; apply bpow_le; lia).
      assert (EL : (Rabs (l2 - (b2 + l1)) <= bp (J + 2 - 53))%R).
      { apply err_abs; [lia|]. rewrite B2, bpow_plus. change (bp 2) with 4%R. apply Rabs_le. lra. }
      apply Rabs_le_inv in EL. assert (BP2 : (bp (J + 2 - 53) <= / 8 * bp J)%R) by (change (/ 8)%R with (bp (-3)); rewrite <- bpow_plus; apply bpow_le; lia).
      unfold u. rewrite B2, H1 in *. lra. }
  assert (UV : (Rabs (u - v) <= bp (-102))%R) by (unfold u; apply Rabs_le; lra).
  exists u. split; [exact U0|split; [exact UV|split]].
  { intros Gv G1v. assert (YV : y = v) by (unfold y; apply fround_id'; auto). assert (L1 : l1 = 0%R) by (unfold l1; rewrite YV, Rminus_diag_eq by auto; apply (fround_0 D)).
    assert (H1 : H = (1 + v)%R) by (unfold H; rewrite YV; apply fround_id'; auto). assert (B2 : b2 = 0%R) by (unfold b2; rewrite H1, YV; replace (1 - (1 + v) + v)%R with 0%R by ring; apply (fround_0 D)).
    assert (L2 : l2 = 0%R) by (unfold l2; rewrite B2, L1, Rplus_0_r; apply (fround_0 D)). unfold u. rewrite L2, B2, L1, H1, YV. ring. }
  cbv zeta. fold lo1 hi. fold lo2.
  apply Rabs_le_inv in UV.
  assert (UC : (u < 1 \/ (rm <> RUP /\ u <= 1 + bp (-54)))%R).
  { assert (CASE : rm = RUP \/ rm <> RUP) by (destruct rm; auto; right; congruence). destruct CASE as [M|M].
    - left. assert (v <= y)%R by (unfold y; rewrite M; apply fround_up). lra.
    - right. split; auto. assert (bp (-102) <= bp (-54))%R by (apply bpow_le; lia). lra. }
  destruct (fround_grid rm u ltac:(lra) UC) as (FG & GL). pose proof (grid_pos rm u ltac:(lra)) as GP.
  assert (RS : is_real D (f_add D rm hi lo2) (1 + grid rm u)).
  { rewrite <- FG, <- UE. apply (add_r D good64); auto. rewrite UE, FG. apply small'. apply Rabs_le. lra. }
  assert (GG : generic_format radix2 fexpD (grid rm u)).
  { assert (MM : 0 <= rnd rm (u * bp 52) <= 2 ^ 52).
    { split; [rewrite <- (@Zrnd_IZR (rnd rm) VR' 0); apply (@Zrnd_le (rnd rm) VR'); apply Rmult_le_pos; [lra|apply bpow_ge_0]|].
      apply le_IZR. unfold grid in GL. change (IZR (2 ^ 52)) with (bp 52). apply Rmult_le_reg_r with (bp (-52)); [apply bpow_gt_0|]. rewrite <- (bpow_plus radix2 52 (-52)). exact GL. }
    apply gfD; lia. }
  assert (RR : is_real D (f_sub D rm (f_add D rm hi lo2) (lit 1 0)) (grid rm u)).
  { apply (sub_x D good64 rm _ _ _ _ _ RS R1); auto; [ring|]. apply small'. apply Rabs_le. lra. }
  set (r := f_sub D rm (f_add D rm hi lo2) (lit 1 0)) in *.
  destruct (f_zero_props D good64 false) as (Z1 & Z2 & Z3 & Z4 & Z5).
  assert (UU : (u < 2)%R) by (destruct UC as [?|[_ ?]]; [lra|]; bpn_in H0; lra).
  pose proof (fround_sub rm u ltac:(lra)) as FS.
  assert (BB : (0 < bp (-1022))%R) by apply bpow_gt_0.
  pose proof (pow_real (-1022) ltac:(lia)) as RM. change ((-1022 + 1023) * 2 ^ 52) with (2 ^ 52) in RM.
  assert (BG : (bp (-1022) * grid rm u < bp 1024)%R).
  { apply Rle_lt_trans with (bp (-1022) * 1)%R; [apply Rmult_le_compat_l; lra|]. rewrite Rmult_1_r. apply bpow_lt. lia. }
  assert (GBF : generic_format radix2 fexpD (bp (-1022) * grid rm u)) by (rewrite <- FS; apply generic_format_round; auto).
  apply rounded_pos; [apply Rmult_lt_0_compat; lra|rewrite FS; exact BG| |].
  - rewrite FS.
    apply (mul_x D good64 rm _ _ _ (grid rm u) _ RM); auto; [|rewrite Rabs_pos_eq by (apply Rmult_le_pos; lra); exact BG].
    destruct RR as (Pr & Fr & Vr). rewrite (f_eq_fin D good64) by auto. rewrite Vr. destruct (Req_bool_spec (grid rm u) (fval D (f_zero D false))) as [E|E]; [|split; auto].
    rewrite E. split; auto.
  - destruct RR as (Pr & Fr & Vr). rewrite (f_eq_fin D good64) by auto. rewrite Vr. destruct (Req_bool_spec (grid rm u) (fval D (f_zero D false))) as [E|E].
    + pose proof (f_mul_spec D good64 rm (2 ^ 52) (f_zero D false) (proj1 (proj2 RM)) Z2) as (_ & SS & _). rewrite SS, Z5, Rmult_0_r, Z4.
      destruct (Req_bool_spec 0 0); [|lra]. reflexivity.
    + rewrite Z5 in E. assert (RX : is_real D (f_mul D rm (2 ^ 52) r) (bp (-1022) * grid rm u)).
      { apply (mul_x D good64 rm _ _ _ (grid rm u) _ RM); auto; [split; auto|rewrite Rabs_pos_eq by (apply Rmult_le_pos; lra); exact BG]. }
      apply (pos_sign _ _ RX). apply Rmult_lt_0_compat; lra.
Qed.
End FIN.

Lemma pat_V : forall P V, 1023 * 2 ^ 52 <= P < 1024 * 2 ^ 52 -> is_real D P V -> (1 <= V < 2)%R.
Proof.
  intros P V HP (_ & _ & HV). destruct (pos_pat P ltac:(lia)) as (_ & _ & H). rewrite HV in H.
  assert (Q : P / 2 ^ 52 = 1023) by (symmetry; apply Z.div_unique with (P - 1023 * 2 ^ 52); lia). rewrite Q in H.
  pose proof (Z.mod_pos_bound P (2 ^ 52) ltac:(lia)) as MB.
  pose proof (IZR_le (2 ^ 52) (2 ^ 52 + P mod 2 ^ 52) ltac:(lia)) as L1. pose proof (IZR_lt (2 ^ 52 + P mod 2 ^ 52) (2 ^ 53) ltac:(lia)) as L2.
  change (IZR (2 ^ 52)) with (bp 52) in L1. change (IZR (2 ^ 53)) with (bp 53) in L2. rewrite H. split.
  - apply Rle_trans with (bp 52 * bp (1023 - 1075))%R; [rewrite <- bpow_plus; right; reflexivity|apply Rmult_le_compat_r; [apply bpow_ge_0|auto]].
  - apply Rlt_le_trans with (bp 53 * bp (1023 - 1075))%R; [apply Rmult_lt_compat_r; [apply bpow_gt_0|auto]|rewrite <- bpow_plus; right; reflexivity].
Qed.
Lemma pat_scale : forall P V j, 1023 * 2 ^ 52 <= P < 1024 * 2 ^ 52 -> is_real D P V -> -1022 <= j <= 1023 -> is_real D (P + j * 2 ^ 52) (V * bp j).
Proof.
  intros P V j HP HV Hj. assert (Q : P / 2 ^ 52 = 1023) by (symmetry; apply Z.div_unique with (P - 1023 * 2 ^ 52); lia).
  apply scale_pat; auto; lia.
Qed.
Lemma wrap_pat : forall P j d, 1023 * 2 ^ 52 <= P < 1024 * 2 ^ 52 -> -1022 <= j + d <= 1023 -> wrap 64 (wrap 64 (P + j * 2 ^ 52) + d * 2 ^ 52) = P + (j + d) * 2 ^ 52.
Proof.
  intros P j d HP Hj. unfold wrap. rewrite Z.add_mod_idemp_l by lia. replace (P + j * 2 ^ 52 + d * 2 ^ 52) with (P + (j + d) * 2 ^ 52) by ring. apply Z.mod_small. lia.
Qed.

Lemma HU_small : forall V J, (1 <= V < 2)%R -> J <= 1022 \/ (J <= 1023 /\ V = 1%R) -> ((V + / 16) * bp J <= 31 / 16 * bp 1023)%R.
Proof.
  intros V J HV [HJ|[HJ ->]].
  - apply Rle_trans with (33 / 16 * bp 1022)%R; [apply Rmult_le_compat; [lra|apply bpow_ge_0|lra|apply bpow_le; lia]|]. change 1023 with (1 + 1022). rewrite bpow_plus. change (bp 1) with 2%R. pose proof (bpow_gt_0 radix2 1022). lra.
  - apply Rmult_le_compat; [lra|apply bpow_ge_0|lra|apply bpow_le; lia].
Qed.
Lemma special_fin : forall n rm tm P V TM j ki q, n = 1 \/ n = 1009 -> 1023 * 2 ^ 52 <= P < 1024 * 2 ^ 52 -> is_real D P V -> is_real D tm TM ->
  7 <= q <= 8 -> (Rabs TM <= bp (- q))%R -> (Z.land ki 0x80000000 =? 0) = (0 <=? j) -> (0 <= j -> -960 <= j - n /\ (j - n <= 1022 \/ (j - n <= 1023 /\ V = 1%R))) -> (j < 0 -> -900 <= j + 1022 <= 1000) ->
  exists v, rounded D rm v false (special_case n rm tm (wrap 64 (P + j * 2 ^ 52)) ki) /\ (0 < v)%R /\
    (Rabs (v - V * bp j * (1 + TM)) <= bp (j - 52 - q) + bp (-1124))%R /\ (TM = 0%R -> V = 1%R -> -1074 <= j -> v = bp j).
Proof.
  intros n rm tm P V TM j ki q Hn HP HV HT Hq HB Hk Hj1 Hj2. pose proof (pat_V P V HP HV) as VB. unfold special_case. rewrite Hk.
  destruct (Z.leb_spec 0 j) as [L|L].
  - specialize (Hj1 L). pose proof (HU_small V (j + - n) VB ltac:(replace (j + - n) with (j - n) by ring; apply Hj1)) as HU. replace (wrap 64 (P + j * 2 ^ 52) - n * 2 ^ 52) with (wrap 64 (P + j * 2 ^ 52) + (- n) * 2 ^ 52) by ring. rewrite wrap_pat by lia.
    pose proof (pat_scale P V (j + - n) HP HV ltac:(lia)) as RS.
    replace (lit 1 n) with ((n + 1023) * 2 ^ 52) by (destruct Hn as [-> | ->]; vm_compute; reflexivity).
    pose proof (fin_up rm _ tm V TM (j + - n) q VB RS HT ltac:(lia) HU Hq HB n ltac:(lia)) as FU.
    eexists. split; [exact FU|]. pose proof (v_bounds rm V TM (j + - n) q VB ltac:(lia) Hq HB) as VV. pose proof (v_err rm V TM (j + - n) q VB ltac:(lia) Hq HB) as VE.
    pose proof (bpow_gt_0 radix2 (j + - n)). pose proof (bpow_gt_0 radix2 n) as BN. split; [apply Rmult_lt_0_compat; lra|split].
    2: { intros -> -> _. rewrite Rmult_0_r, (fround_0 D), Rmult_1_l, Rplus_0_r, <- bpow_plus. f_equal. ring. }
    replace (V * bp j * (1 + TM))%R with (bp n * (V * bp (j + - n) * (1 + TM)))%R.
    2: { replace (bp j) with (bp n * bp (j + - n))%R by (rewrite <- bpow_plus; f_equal; ring). ring. }
    rewrite <- Rmult_minus_distr_l, Rabs_mult, (Rabs_pos_eq (bp n)) by lra.
    apply Rle_trans with (bp n * bp (j + - n - 52 - q))%R; [apply Rmult_le_compat_l; [lra|exact VE]|]. rewrite <- bpow_plus. replace (n + (j + - n - 52 - q)) with (j - 52 - q) by ring.
    pose proof (bpow_ge_0 radix2 (-1124)). lra.
  - specialize (Hj2 L). pose proof (HU_small V (j + 1022) VB ltac:(left; lia)) as HU. rewrite wrap_pat by lia. pose proof (pat_scale P V (j + 1022) HP HV ltac:(lia)) as RS.
    change (lit 1 (-1022)) with (2 ^ 52).
    assert (R1 : is_real D (lit 1 0) 1) by (replace 1%R with (IZR 1 * bp 0)%R by (cbn; ring); apply lit_r; lia).
    pose proof (y_real rm _ tm V TM (j + 1022) q VB RS HT ltac:(lia) HU Hq HB) as RY. pose proof (v_bounds rm V TM (j + 1022) q VB ltac:(lia) Hq HB) as VV. pose proof (v_err rm V TM (j + 1022) q VB ltac:(lia) Hq HB) as VE.
    set (sc := P + (j + 1022) * 2 ^ 52) in *. set (w := (V * bp (j + 1022) + fround D rm (V * bp (j + 1022) * TM))%R) in *.
    assert (BN : (0 < bp (-1022))%R) by apply bpow_gt_0.
    assert (FINAL : forall u e, (0 <= e)%R -> (Rabs (u - w) <= e)%R -> (Rabs (bp (-1022) * u - V * bp j * (1 + TM)) <= bp (j - 52 - q) + bp (-1022) * e)%R).
    { intros u e He Hu. replace (V * bp j * (1 + TM))%R with (bp (-1022) * (V * bp (j + 1022) * (1 + TM)))%R.
      2: { replace (bp j) with (bp (-1022) * bp (j + 1022))%R by (rewrite <- bpow_plus; f_equal; ring). ring. }
      rewrite <- Rmult_minus_distr_l, Rabs_mult, (Rabs_pos_eq (bp (-1022))) by lra. replace (bp (j - 52 - q)) with (bp (-1022) * bp (j + 1022 - 52 - q))%R by (rewrite <- bpow_plus; f_equal; ring).
      rewrite <- Rmult_plus_distr_l. apply Rmult_le_compat_l; [lra|]. replace (u - V * bp (j + 1022) * (1 + TM))%R with ((w - V * bp (j + 1022) * (1 + TM)) + (u - w))%R by ring.
      apply Rle_trans with (1 := Rabs_triang _ _). lra. }
    rewrite (f_lt_fin D good64) by (apply RY || apply R1). replace (fval D (lit 1 0)) with 1%R by (symmetry; apply R1).
    destruct RY as (_ & _ & VY). rewrite VY. destruct (Rlt_bool_spec (fround D rm w) 1) as [Y1|Y1].
    + destruct (fin_down_lt rm sc tm V TM (j + 1022) q VB RS HT ltac:(lia) HU Hq HB Y1) as (u & U0 & UV & UX & RU).
      cbv zeta in RU. exists (bp (-1022) * u)%R. split; [exact RU|]. split; [apply Rmult_lt_0_compat; lra|split].
      2: { intros T0 V0 Hj. fold w in UX. assert (WE : w = bp (j + 1022)) by (unfold w; rewrite T0, V0, Rmult_0_r, (fround_0 D); ring). rewrite WE in *.
           assert (j + 1022 <= 0). { destruct (Z_le_gt_dec (j + 1022) 0); auto. exfalso. rewrite fround_id' in Y1 by (apply bpD; lia). assert (bp 0 <= bp (j + 1022))%R by (apply bpow_le; lia). change (bp 0) with 1%R in *. lra. }
           rewrite UX; [rewrite <- bpow_plus; f_equal; ring|apply bpD; lia|]. replace (1 + bp (j + 1022))%R with (IZR (2 ^ (- (j + 1022)) + 1) * bp (j + 1022))%R.
           - assert (2 ^ (- (j + 1022)) <= 2 ^ 52) by (apply Z.pow_le_mono_r; lia). assert (0 < 2 ^ (- (j + 1022))) by (apply Z.pow_pos_nonneg; lia). apply gfD; lia.
           - rewrite plus_IZR. change 2 with (radix_val radix2). rewrite IZR_Zpower by lia. rewrite Rmult_plus_distr_r, <- bpow_plus. replace (- (j + 1022) + (j + 1022)) with 0 by ring. change (bp 0) with 1%R. ring. }
      apply Rle_trans with (1 := FINAL u (bp (-102)) (bpow_ge_0 _ _) UV). rewrite <- bpow_plus. right. reflexivity.
    + pose proof (fin_down_ge rm sc tm V TM (j + 1022) q VB RS HT ltac:(lia) HU Hq HB Y1 ltac:(lia)) as RU. pose proof (bpow_gt_0 radix2 (j + 1022)).
      exists (bp (-1022) * w)%R. split; [exact RU|]. split; [apply Rmult_lt_0_compat; lra|split].
      2: { intros T0 V0 Hj. unfold w. rewrite T0, V0, Rmult_0_r, (fround_0 D), Rplus_0_r, Rmult_1_l, <- bpow_plus. f_equal. ring. }
      apply Rle_trans with (1 := FINAL w 0%R ltac:(lra) ltac:(rewrite Rminus_diag_eq, Rabs_R0 by auto; lra)). pose proof (bpow_ge_0 radix2 (-1124)). lra.
Qed.
