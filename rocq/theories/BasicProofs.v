(** * min, max, fdim and nan *)
From Coq Require Import ZArith Lia Bool Reals Lra List.
From Flocq Require Import Core.
From Verif Require Import MachInt Bits Fmt FloatSpec FmtProofs RoundProofs FOps FOpsProofs ExactOps FPBits FPBitsProofs
  Compare CompareProofs Nearest NearestProofs FmaSpec FmaProofs Basic.
Import ListNotations.
Open Scope Z_scope.

Section Basic.
Context (F : fmt) (HF : good_fmt F) (HelF : el F <= 16).

Lemma xlt_irrefl : forall a, ~ xlt F a a.
Proof. intros a. unfold xlt. destruct (decode F a); [tauto|intuition congruence|lra]. Qed.
Lemma xlt_asym : forall a b, xlt F a b -> ~ xlt F b a.
Proof. intros a b. unfold xlt. destruct (decode F a), (decode F b); try tauto; try (intuition congruence). lra. Qed.
Lemma zero_xlt : forall a b, mag_of F a = 0 -> mag_of F b = 0 -> ~ xlt F a b.
Proof.
  intros a b Ha Hb H. apply (f_cmp_lt F HF) in H.
  assert (N : forall z, mag_of F z = 0 -> is_nan F z = false) by (intros z Hz; unfold is_nan; rewrite Hz; apply Z.ltb_ge; pose proof (inf_mag_pos F HF); lia).
  unfold f_lt in H. rewrite (f_cmp_mag F) in H by auto. rewrite Ha, Hb in H. destruct (sign_of F a), (sign_of F b); discriminate.
Qed.

Lemma max_spec : forall x y, is_pattern F x -> is_pattern F y -> let r := gen_max F x y in
  (is_nan F x = true -> is_nan F y = true -> r = qnan F) /\
  (is_nan F x = true -> is_nan F y = false -> r = y) /\
  (is_nan F x = false -> is_nan F y = true -> r = x) /\
  (is_nan F x = false -> is_nan F y = false ->
     (r = x \/ r = y) /\ ~ xlt F r x /\ ~ xlt F r y /\
     (mag_of F x = 0 -> mag_of F y = 0 -> sign_of F r = sign_of F x && sign_of F y)).
Proof.
  intros x y Px Py r. unfold r, gen_max. rewrite !(fp_is_nan_eq F HF HelF), !(fp_is_zero_eq F HF), (fp_sign_eq F HF).
  destruct (is_nan F x) eqn:Nx, (is_nan F y) eqn:Ny; cbn [andb]; (split; [intros; try discriminate; auto|split; [intros; try discriminate; auto|split; [intros; try discriminate; auto|intros; try discriminate]]]).
  destruct (Z.eqb_spec (mag_of F x) 0) as [Zx|Zx], (Z.eqb_spec (mag_of F y) 0) as [Zy|Zy]; cbn [andb].
  2,3,4: pose proof (f_cmp_lt F HF y x) as C; rewrite (f_gt_lt F); destruct (f_lt F y x);
    [assert (L : xlt F y x) by (apply C; auto); split; [auto|]; split; [apply xlt_irrefl|]; split; [apply xlt_asym; auto|intros; exfalso; auto]
    |assert (L : ~ xlt F y x) by (rewrite <- C; discriminate); split; [auto|]; split; [auto|]; split; [apply xlt_irrefl|intros; exfalso; auto]].
  destruct (sign_of F x) eqn:Sx.
  - split; [auto|]. split; [apply zero_xlt; auto|]. split; [apply xlt_irrefl|reflexivity].
  - split; [auto|]. split; [apply xlt_irrefl|]. split; [apply zero_xlt; auto|intros; auto].
Qed.
Lemma min_spec : forall x y, is_pattern F x -> is_pattern F y -> let r := gen_min F x y in
  (is_nan F x = true -> r = y) /\
  (is_nan F x = false -> is_nan F y = true -> r = x) /\
  (is_nan F x = false -> is_nan F y = false ->
     (r = x \/ r = y) /\ ~ xlt F x r /\ ~ xlt F y r /\
     (mag_of F x = 0 -> mag_of F y = 0 -> sign_of F r = sign_of F x || sign_of F y)).
Proof.
  intros x y Px Py r. unfold r, gen_min. rewrite !(fp_is_nan_eq F HF HelF), !(fp_is_zero_eq F HF), (fp_sign_eq F HF).
  destruct (is_nan F x) eqn:Nx, (is_nan F y) eqn:Ny; (split; [intros; try discriminate; auto|split; [intros; try discriminate; auto|intros; try discriminate]]).
  destruct (Z.eqb_spec (mag_of F x) 0) as [Zx|Zx], (Z.eqb_spec (mag_of F y) 0) as [Zy|Zy]; cbn [andb].
  2,3,4: pose proof (f_cmp_lt F HF x y) as C; destruct (f_lt F x y);
    [assert (L : xlt F x y) by (apply C; auto); split; [auto|]; split; [apply xlt_irrefl|]; split; [apply xlt_asym; auto|intros; exfalso; auto]
    |assert (L : ~ xlt F x y) by (rewrite <- C; discriminate); split; [auto|]; split; [auto|]; split; [apply xlt_irrefl|intros; exfalso; auto]].
  destruct (sign_of F x) eqn:Sx.
  - split; [auto|]. split; [apply xlt_irrefl|]. split; [apply zero_xlt; auto|intros; auto].
  - split; [auto|]. split; [apply zero_xlt; auto|]. split; [apply xlt_irrefl|reflexivity].
Qed.

(** ** fdim *)
Lemma max_mag_props : is_pattern F (max_mag F) /\ is_fin F (max_mag F) = true /\ sign_of F (max_mag F) = false.
Proof.
  pose proof (inf_mag_pos F HF). pose proof (inf_lt_sign F HF). unfold max_mag.
  assert (R : 0 <= inf_mag F - 1 < sign_unit F) by lia.
  pose proof (mag_of_sbit F false _ R) as M. pose proof (sign_of_sbit F HF false _ R) as S. pose proof (sbit_pattern F HF false _ R) as P.
  unfold sbit in *. cbn [Z.add] in *. split; [exact P|]. split; [|exact S]. unfold is_fin. rewrite M. apply Z.ltb_lt. lia.
Qed.
Lemma xlt_nan : forall a b, xlt F a b -> is_nan F a = false /\ is_nan F b = false.
Proof.
  intros a b H. destruct (is_nan F a) eqn:Na; [unfold xlt in H; rewrite (decode_nan F a Na) in H; tauto|].
  destruct (is_nan F b) eqn:Nb; [unfold xlt in H; rewrite (decode_nan F b Nb) in H; destruct (decode F a); tauto|]. auto.
Qed.
Lemma fdim_gt : forall rm x y, xlt F y x -> gen_fdim F rm x y =
  if f_lt F y (f_zero F false) && f_gt F x (f_add F rm (max_mag F) y) then f_inf F false else f_sub F rm x y.
Proof.
  intros rm x y H. destruct (xlt_nan _ _ H) as (Ny & Nx). unfold gen_fdim. rewrite !(fp_is_nan_eq F HF HelF), Nx, Ny.
  unfold f_le. assert (L : f_lt F x y = false).
  { destruct (f_lt F x y) eqn:E; [|auto]. apply (f_cmp_lt F HF) in E. destruct (xlt_asym _ _ H E). }
  assert (Q : f_eq F x y = false).
  { apply (f_cmp_lt F HF) in H. unfold f_lt in H. rewrite (f_cmp_mag F) in H by auto. unfold f_eq. rewrite (f_cmp_mag F) by auto. rewrite Z.compare_antisym.
    destruct (_ ?= _); try discriminate. reflexivity. }
  rewrite L, Q. reflexivity.
Qed.
(** The fround is monotone. *)
Lemma fround_le : forall rm x y, (x <= y)%R -> (fround F rm x <= fround F rm y)%R.
Proof.
  intros rm x y H. unfold fround. apply round_le; auto; [|destruct rm; simpl; auto with typeclass_instances].
  apply FLT_exp_valid. unfold Prec_gt_0, prec. pose proof (gf_fl F HF). lia.
Qed.
Lemma fround_id : forall rm b, is_fin F b = true -> fround F rm (fval F b) = fval F b.
Proof. intros rm b Hb. apply fround_exact; auto. apply (fval_format F HF); auto. Qed.

Lemma fdim_fin : forall rm x y, is_pattern F x -> is_pattern F y -> is_fin F x = true -> is_fin F y = true ->
  (fval F y < fval F x)%R -> (fval F x - fval F y <= fval F (max_mag F))%R ->
  rounded F rm (fval F x - fval F y) false (gen_fdim F rm x y).
Proof.
  intros rm x y Px Py Hx Hy Hlt Hmax.
  assert (XL : xlt F y x) by (apply (f_cmp_lt F HF); rewrite (f_lt_fin F HF) by auto; apply Rlt_bool_true; auto).
  rewrite (fdim_gt rm x y XL). destruct max_mag_props as (PM & FM & SM). destruct (f_zero_props F HF false) as (PZ & FZ & _ & _ & VZ).
  assert (E : f_lt F y (f_zero F false) && f_gt F x (f_add F rm (max_mag F) y) = false).
  { rewrite (f_lt_fin F HF), VZ by auto. destruct (Rlt_bool_spec (fval F y) 0) as [L|L]; [cbn [andb]|reflexivity].
    pose proof (f_add_spec F HF rm (max_mag F) y FM Hy) as (P & S & V & _).
    assert (FB : (fval F x <= fround F rm (fval F (max_mag F) + fval F y))%R).
    { rewrite <- (fround_id rm x) by auto. apply fround_le. lra. }
    assert (FU : (fround F rm (fval F (max_mag F) + fval F y) <= fval F (max_mag F))%R).
    { rewrite <- (fround_id rm (max_mag F)) at 2 by auto. apply fround_le. lra. }
    pose proof (fin_bound F HF (max_mag F) FM) as B. pose proof (fin_bound F HF x Hx) as Bx. apply Rabs_def2 in B. apply Rabs_def2 in Bx.
    destruct (V ltac:(apply Rabs_def1; lra)) as (V1 & V2).
    rewrite (f_gt_fin F HF), V2 by auto. apply Rlt_bool_false. auto. }
  rewrite E. apply (rounded_zs F rm _ (if Bool.eqb (sign_of F x) (negb (sign_of F y)) then sign_of F x else is_rdn rm)); [lra|].
  apply (f_sub_spec F HF); auto.
Qed.
(** When the rounded difference overflows to infinity. *)
Lemma fdim_overflow : forall rm x y, is_pattern F x -> is_pattern F y -> is_fin F x = true -> is_fin F y = true ->
  rm = RNE \/ rm = RUP -> (bpow radix2 (bias F + 1) <= fround F rm (fval F x - fval F y))%R ->
  gen_fdim F rm x y = f_inf F false /\ rounded F rm (fval F x - fval F y) false (f_inf F false).
Proof.
  intros rm x y Px Py Hx Hy Hrm Hov. pose proof (bpow_gt_0 radix2 (bias F + 1)) as B0.
  assert (HV : Valid_rnd (rnd rm)) by (destruct rm; simpl; auto with typeclass_instances).
  assert (Hpos : (0 < fval F x - fval F y)%R).
  { apply Rnot_le_lt. intros H. pose proof (fround_le rm _ _ H) as H2. unfold fround at 2 in H2. rewrite round_0 in H2 by auto. lra. }
  assert (HR : forall b, rounded F rm (fval F x - fval F y) false b -> b = f_inf F false).
  { intros b (P & S & _ & O). rewrite Rabs_pos_eq in O by lra. specialize (O Hov). rewrite Req_bool_false in S by lra.
    rewrite Rlt_bool_false in S, O by lra. rewrite (pattern_split F HF b P), S, O. unfold f_inf. f_equal. destruct Hrm; subst rm; reflexivity. }
  pose proof (f_sub_spec F HF rm x y Py Hx Hy) as R. apply (rounded_zs F rm _ _ false) in R; [|lra].
  assert (XL : xlt F y x) by (apply (f_cmp_lt F HF); rewrite (f_lt_fin F HF) by auto; apply Rlt_bool_true; lra).
  rewrite (fdim_gt rm x y XL). pose proof (HR _ R) as E. split; [rewrite E; destruct (_ && _); reflexivity|]. rewrite <- E. exact R.
Qed.
(** Not ordered: zero or NaN. *)
Lemma fdim_special : forall rm x y, is_pattern F x -> is_pattern F y ->
  (is_nan F x = true -> gen_fdim F rm x y = x) /\
  (is_nan F x = false -> is_nan F y = true -> gen_fdim F rm x y = y) /\
  (is_nan F x = false -> is_nan F y = false -> ~ xlt F y x -> gen_fdim F rm x y = f_zero F false) /\
  (xlt F y x -> is_inf F x = true \/ is_inf F y = true -> gen_fdim F rm x y = f_inf F false).
Proof.
  intros rm x y Px Py. split; [|split; [|split]].
  - intros H. unfold gen_fdim. rewrite (fp_is_nan_eq F HF HelF), H. reflexivity.
  - intros H1 H2. unfold gen_fdim. rewrite !(fp_is_nan_eq F HF HelF), H1, H2. reflexivity.
  - intros H1 H2 H3. unfold gen_fdim. rewrite !(fp_is_nan_eq F HF HelF), H1, H2.
    assert (L : f_le F x y = true).
    { unfold f_le. destruct (f_lt F y x) eqn:E; [destruct H3; apply (f_cmp_lt F HF); auto|]. unfold f_lt, f_eq in *. rewrite (f_cmp_mag F) in * by auto.
      rewrite Z.compare_antisym in E. destruct (_ ?= _); try discriminate; reflexivity. }
    rewrite L. reflexivity.
  - intros XL HI. destruct (xlt_nan _ _ XL) as (Ny & Nx). rewrite (fdim_gt rm x y XL).
    assert (ES : f_sub F rm x y = f_inf F false).
    { unfold f_sub. destruct (f_neg_props F HF y Py) as (NP & NS & NM & NF & NV). unfold f_add, xlt in *.
      assert (DN : forall b, is_inf F b = true -> decode F b = DInf (sign_of F b)) by (intros; apply decode_isinf; auto).
      destruct (class_cases F x) as [Cx|[Cx|Cx]]; [| |congruence]; destruct (class_cases F y) as [Cy|[Cy|Cy]]; try congruence.
      - destruct HI as [HI|HI]; [rewrite (fin_inf F x Cx) in HI|rewrite (fin_inf F y Cy) in HI]; discriminate.
      - rewrite (DN y Cy) in XL. rewrite (DN (f_neg F y)), NS by (unfold is_inf in *; rewrite NM; auto).
        destruct (decode_fin F HF x Cx) as (m & e & D & _). rewrite D in *. rewrite XL. reflexivity.
      - rewrite (DN x Cx) in *. destruct (decode_fin F HF y Cy) as (m & e & D & _). rewrite D in XL.
        destruct (decode_fin F HF (f_neg F y)) as (m' & e' & D' & _); [rewrite NF; auto|]. rewrite D', XL. reflexivity.
      - rewrite (DN x Cx) in *. rewrite (DN y Cy) in XL. rewrite (DN (f_neg F y)), NS by (unfold is_inf in *; rewrite NM; auto).
        destruct XL as (E1 & E2). rewrite E1, E2. reflexivity. }
    rewrite ES. destruct (_ && _); reflexivity.
Qed.
End Basic.

(** ** nan *)
(** The number written by the characters [s] in base [base]. *)
Definition numeral (base : Z) (digit : Z -> Z) (s : list Z) : Z := fold_left (fun a c => a * base + digit c) s 0.

Section Nan.
Context (w base lim m : Z) (digit : Z -> Z) (Hw : 8 <= w) (Hb : 1 <= base <= 16) (Hl : 0 <= lim)
  (HL : base ^ lim <= 2 ^ (w - 4)) (Hm : 0 < m <= 2 ^ (w - 4)).

Lemma wrap_digit : forall d, 0 <= d < base -> wrap 8 d = d.
Proof. intros d Hd. apply wrap_small. unfold inU. change (2 ^ 8) with 256. lia. Qed.
Lemma nan_loop_bound : forall s i acc, (forall c, In c s -> 0 <= digit c < base) -> 0 <= i ->
  0 <= acc < 2 ^ (w - 4) -> (i <= lim -> acc < base ^ i) -> 0 <= nan_loop w base lim m digit i acc s < 2 ^ (w - 4).
Proof.
  induction s as [|c s IH]; intros i acc HD Hi Ha HI; cbn [nan_loop]; [lia|].
  assert (Hd : 0 <= digit c < base) by (apply HD; left; auto). rewrite wrap_digit by auto.
  apply IH; [intros; apply HD; right; auto|lia| |].
  - destruct (Z.leb_spec lim i) as [L|L].
    + pose proof (Z.mod_pos_bound (wrap w (wrap w (acc * base) + digit c)) m ltac:(lia)). lia.
    + specialize (HI ltac:(lia)).
      assert (B : acc * base + digit c < base ^ (i + 1)) by (rewrite Z.pow_add_r, Z.pow_1_r by lia; nia).
      assert (B2 : base ^ (i + 1) <= base ^ lim) by (apply Z.pow_le_mono_r; lia).
      assert (B3 : 2 ^ (w - 4) <= 2 ^ w) by (apply pow2_le; lia).
      rewrite (wrap_small w (acc * base)) by (unfold inU; nia). rewrite wrap_small by (unfold inU; nia). nia.
  - intros L. replace (lim <=? i) with false by lia. specialize (HI ltac:(lia)).
    assert (B : acc * base + digit c < base ^ (i + 1)) by (rewrite Z.pow_add_r, Z.pow_1_r by lia; nia).
    assert (B2 : base ^ (i + 1) <= base ^ lim) by (apply Z.pow_le_mono_r; lia).
    assert (B3 : 2 ^ (w - 4) <= 2 ^ w) by (apply pow2_le; lia).
    rewrite (wrap_small w (acc * base)) by (unfold inU; nia). rewrite wrap_small by (unfold inU; nia). lia.
Qed.
Lemma nan_loop_value : forall s i acc, (forall c, In c s -> 0 <= digit c < base) -> 0 <= i ->
  0 <= acc < base ^ i -> i + Z.of_nat (length s) <= lim -> nan_loop w base lim m digit i acc s = fold_left (fun a c => a * base + digit c) s acc.
Proof.
  induction s as [|c s IH]; intros i acc HD Hi Ha HI; cbn [nan_loop fold_left]; [reflexivity|].
  cbn [length] in HI. rewrite Nat2Z.inj_succ in HI.
  assert (Hd : 0 <= digit c < base) by (apply HD; left; auto). rewrite wrap_digit by auto.
  replace (lim <=? i) with false by lia.
  assert (B : acc * base + digit c < base ^ (i + 1)) by (rewrite Z.pow_add_r, Z.pow_1_r by lia; nia).
  assert (B2 : base ^ (i + 1) <= base ^ lim) by (apply Z.pow_le_mono_r; lia).
  assert (B3 : 2 ^ (w - 4) <= 2 ^ w) by (apply pow2_le; lia).
  rewrite (wrap_small w (acc * base)) by (unfold inU; nia). rewrite wrap_small by (unfold inU; nia).
  apply IH; [intros; apply HD; right; auto|lia|nia|lia].
Qed.
End Nan.

Lemma digit_range : forall c, 0 <= digit_to_int c < 16.
Proof.
  intros c. unfold digit_to_int. destruct (Z.leb_spec 48 c), (Z.leb_spec c 57); cbn [andb]; try lia;
  destruct (Z.leb_spec 65 c), (Z.leb_spec c 70); cbn [andb]; try lia; destruct (Z.leb_spec 97 c), (Z.leb_spec c 102); cbn [andb]; lia.
Qed.
(** What the hexadecimal reader is to make of a character: the position of the
    character among the digits, 0 for any other character. *)
(* the ASCII codes of 0123456789abcdef and of 0123456789ABCDEF *)
Definition hex_lower : list Z := [48; 49; 50; 51; 52; 53; 54; 55; 56; 57; 97; 98; 99; 100; 101; 102].
Definition hex_upper : list Z := [48; 49; 50; 51; 52; 53; 54; 55; 56; 57; 65; 66; 67; 68; 69; 70].
Definition hex_char (c d : Z) : Prop :=
  0 <= d < 16 /\ (nth (Z.to_nat d) hex_lower 0 = c \/ nth (Z.to_nat d) hex_upper 0 = c).
Definition hex_read (c d : Z) : Prop := hex_char c d \/ ((forall e, ~ hex_char c e) /\ d = 0).
Lemma hex_char_int : forall c d, hex_char c d -> digit_to_int c = d.
Proof.
  intros c d (Hd & HC).
  assert (E : d = 0 \/ d = 1 \/ d = 2 \/ d = 3 \/ d = 4 \/ d = 5 \/ d = 6 \/ d = 7 \/ d = 8 \/ d = 9 \/ d = 10 \/ d = 11 \/ d = 12 \/ d = 13 \/ d = 14 \/ d = 15) by lia.
  repeat (destruct E as [E|E]; [subst d; destruct HC as [<-|<-]; reflexivity|]). subst d. destruct HC as [<-|<-]; reflexivity.
Qed.
Lemma int_hex_char : forall c, digit_to_int c <> 0 -> hex_char c (digit_to_int c).
Proof.
  intros c H. assert (E : 48 <= c <= 57 \/ 65 <= c <= 70 \/ 97 <= c <= 102).
  { unfold digit_to_int in H. destruct (Z.leb_spec 48 c), (Z.leb_spec c 57); cbn [andb] in H; try lia;
    destruct (Z.leb_spec 65 c), (Z.leb_spec c 70); cbn [andb] in H; try lia; destruct (Z.leb_spec 97 c), (Z.leb_spec c 102); cbn [andb] in H; lia. }
  assert (E' : c = 48 \/ c = 49 \/ c = 50 \/ c = 51 \/ c = 52 \/ c = 53 \/ c = 54 \/ c = 55 \/ c = 56 \/ c = 57 \/
    c = 65 \/ c = 66 \/ c = 67 \/ c = 68 \/ c = 69 \/ c = 70 \/ c = 97 \/ c = 98 \/ c = 99 \/ c = 100 \/ c = 101 \/ c = 102) by lia.
  clear H E. repeat (destruct E' as [E'|E']; [subst c; split; [vm_compute; split; congruence|first [left; reflexivity|right; reflexivity]]|]).
  subst c; split; [vm_compute; split; congruence|first [left; reflexivity|right; reflexivity]].
Qed.
Lemma hex_read_int : forall c d, hex_read c d -> digit_to_int c = d.
Proof.
  intros c d [H|(H & ->)]; [apply hex_char_int; auto|]. destruct (Z.eq_dec (digit_to_int c) 0) as [E|E]; auto.
  exfalso. apply (H (digit_to_int c)). apply int_hex_char; auto.
Qed.
Lemma numeral_read : forall s ds, Forall2 hex_read s ds -> numeral 16 digit_to_int s = numeral 16 (fun d => d) ds.
Proof.
  intros s ds H. unfold numeral. generalize 0. induction H as [|c d s ds Hc Hs IH]; intros a; [reflexivity|].
  cbn [fold_left]. rewrite (hex_read_int c d Hc). apply IH.
Qed.
Definition dec_digit (c : Z) : bool := (48 <=? c) && (c <=? 57).

Section NanF.
Context (F : fmt) (HF : good_fmt F) (lim m : Z) (Hw : 8 <= width F) (Hl : 0 <= lim) (HL : 16 ^ lim <= 2 ^ (width F - 4)) (Hm : 0 < m <= 2 ^ (width F - 4)).

Lemma lor_qnan : forall a, 0 <= a < sign_unit F -> is_pattern F (Z.lor a (qnan F)) /\ quiet F (Z.lor a (qnan F)) /\ sign_of F (Z.lor a (qnan F)) = false.
Proof.
  intros a Ha. pose proof (gf_fl F HF) as Hf. pose proof (gf_el F HF) as He. destruct (qnan_props F HF) as (Pq & Nq & Sq).
  set (r := Z.lor a (qnan F)).
  assert (QB : 0 <= qnan F < sign_unit F).
  { rewrite (sign_unit_inf F HF). unfold qnan. pose proof (inf_mag_pos F HF). pose proof (pow2_pos (fl F - 1) ltac:(lia)). rewrite (pow2_half (fl F)) by lia. lia. }
  assert (R : 0 <= r < sign_unit F).
  { split; [apply Z.lor_nonneg; lia|]. unfold sign_unit in *. destruct (Z.eq_dec r 0); [lia|]. apply Z.log2_lt_pow2; [assert (0 <= r) by (apply Z.lor_nonneg; lia); lia|].
    unfold r. rewrite Z.log2_lor by lia. apply Z.max_lub_lt.
    - destruct (Z.eq_dec a 0) as [->|]; [cbn; lia|apply Z.log2_lt_pow2; lia].
    - apply Z.log2_lt_pow2; [|lia]. pose proof (inf_mag_pos F HF). pose proof (pow2_pos (fl F - 1) ltac:(lia)). unfold qnan. lia. }
  assert (GE : qnan F <= r).
  { assert (EL : Z.ldiff (qnan F) r = 0) by (apply Z.bits_inj'; intros i Hi; unfold r; rewrite Z.ldiff_spec, Z.lor_spec, Z.bits_0; destruct (Z.testbit a i), (Z.testbit (qnan F) i); reflexivity).
    apply Z.ldiff_le in EL; lia. }
  pose proof (mag_of_sbit F false r R) as M. pose proof (sign_of_sbit F HF false r R) as S. pose proof (sbit_pattern F HF false r R) as P.
  unfold sbit in M, S, P. cbn [Z.add] in M, S, P. split; [exact P|]. split; [|exact S]. split.
  - unfold is_nan. rewrite M. apply Z.ltb_lt. pose proof (pow2_pos (fl F - 1) ltac:(lia)). unfold qnan in GE. lia.
  - unfold r. rewrite Z.lor_spec. apply orb_true_iff. right. unfold qnan, inf_mag.
    rewrite <- (Z.mod_pow2_bits_low _ (fl F)) by lia. rewrite Z.add_comm, Z.mod_add by (pose proof (fl_pos F HF); lia).
    rewrite Z.mod_small by (rewrite (pow2_half (fl F)) by lia; pose proof (pow2_pos (fl F - 1) ltac:(lia)); lia). apply Z.pow2_bits_true. lia.
Qed.
Lemma dec_in : forall s, forallb dec_digit s = true -> forall c, In c s -> 0 <= c - 48 < 10.
Proof. intros s H c Hc. rewrite forallb_forall in H. specialize (H c Hc). unfold dec_digit in H. lia. Qed.
Lemma base10 : 10 ^ lim <= 2 ^ (width F - 4).
Proof. apply Z.le_trans with (16 ^ lim); [apply Z.pow_le_mono_l; lia|auto]. Qed.
Lemma loop_qnan : forall base digit s, 1 <= base <= 16 -> base ^ lim <= 2 ^ (width F - 4) -> (forall c, In c s -> 0 <= digit c < base) ->
  let r := Z.lor (nan_loop (width F) base lim m digit 0 0 s) (qnan F) in is_pattern F r /\ quiet F r /\ sign_of F r = false.
Proof.
  intros base digit s Hb HB HD r. apply lor_qnan. pose proof (gf_fl F HF). pose proof (gf_el F HF).
  pose proof (nan_loop_bound (width F) base lim m digit Hw Hb Hl HB Hm s 0 0 HD ltac:(lia)) as B.
  assert (PW : 0 < 2 ^ (width F - 4)) by (apply pow2_pos; lia).
  specialize (B ltac:(lia) ltac:(intros _; change (base ^ 0) with 1; lia)).
  unfold sign_unit. pose proof (pow2_le (width F - 4) (fl F + el F) ltac:(unfold width in *; lia)). lia.
Qed.

Lemma cc_nan_dec : forall s, (forall c t, s = 48 :: c :: t -> c <> 120 /\ c <> 88) ->
  cc_nan F lim m s = if forallb dec_digit s then Z.lor (nan_loop (width F) 10 lim m (fun c => c - 48) 0 0 s) (qnan F) else qnan F.
Proof.
  intros s HX. unfold cc_nan. fold dec_digit. destruct s as [|c s]; [reflexivity|].
  destruct (Z.eq_dec c 48) as [->|N].
  - destruct s as [|c2 s]; [reflexivity|]. destruct (HX c2 s eq_refl).
    replace ((c2 =? 120) || (c2 =? 88)) with false by lia. reflexivity.
  - destruct c as [|p|p]; try reflexivity.
    repeat (destruct p as [p|p|]; try reflexivity). congruence.
Qed.
Lemma cc_nan_cases : forall s, (forall c t, s = 48 :: c :: t -> c <> 120 /\ c <> 88) \/ exists c t, s = 48 :: c :: t /\ (c = 120 \/ c = 88).
Proof.
  intros s. destruct s as [|c [|c2 t]]; [left; discriminate|left; discriminate|]. destruct (Z.eq_dec c 48) as [->|N]; [|left; congruence].
  destruct (Z.eq_dec c2 120) as [->|N1]; [right; eauto|]. destruct (Z.eq_dec c2 88) as [->|N2]; [right; eauto|].
  left. intros c t' E. injection E as E1 E2. subst. auto.
Qed.

Theorem nan_quiet : forall s, let r := cc_nan F lim m s in is_pattern F r /\ quiet F r /\ sign_of F r = false.
Proof.
  assert (Q : is_pattern F (qnan F) /\ quiet F (qnan F) /\ sign_of F (qnan F) = false).
  { pose proof (lor_qnan 0) as H. rewrite Z.lor_0_l in H. apply H. pose proof (sign_unit_pos F HF). lia. }
  assert (D : forall s, let r := if forallb dec_digit s then Z.lor (nan_loop (width F) 10 lim m (fun c => c - 48) 0 0 s) (qnan F) else qnan F in
    is_pattern F r /\ quiet F r /\ sign_of F r = false).
  { intros s r. unfold r. destruct (forallb dec_digit s) eqn:E; [|exact Q]. apply loop_qnan; [lia|apply base10|intros; apply dec_in with s; auto]. }
  assert (H : forall s, is_pattern F (Z.lor (nan_loop (width F) 16 lim m digit_to_int 0 0 s) (qnan F)) /\
    quiet F (Z.lor (nan_loop (width F) 16 lim m digit_to_int 0 0 s) (qnan F)) /\ sign_of F (Z.lor (nan_loop (width F) 16 lim m digit_to_int 0 0 s) (qnan F)) = false).
  { intros s. apply loop_qnan; [lia|auto|intros; apply digit_range]. }
  intros s r. unfold r. destruct (cc_nan_cases s) as [HX|(c & t & -> & HX)]; [rewrite cc_nan_dec by auto; exact (D s)|].
  cbn [cc_nan]. replace ((c =? 120) || (c =? 88)) with true by lia. exact (H t).
Qed.

(** The payload of a short tag. *)
Lemma lor_value : forall v, 0 <= v < 2 ^ (fl F - 1) -> Z.lor v (qnan F) = qnan F + v.
Proof.
  intros v Hv. pose proof (gf_fl F HF). rewrite Z.lor_comm. unfold qnan, inf_mag.
  replace (expmax F * 2 ^ fl F + 2 ^ (fl F - 1)) with ((2 * expmax F + 1) * 2 ^ (fl F - 1)) by (rewrite (pow2_half (fl F)) by lia; ring).
  apply lor_add; lia.
Qed.
Theorem nan_decimal : forall s, s <> [] -> forallb dec_digit s = true -> Z.of_nat (length s) <= lim -> numeral 10 (fun c => c - 48) s < 2 ^ (fl F - 1) ->
  cc_nan F lim m s = qnan F + numeral 10 (fun c => c - 48) s.
Proof.
  intros s Hs HD HLn HV. pose proof (dec_in s HD) as DI.
  pose proof (nan_loop_value (width F) 10 lim m (fun c => c - 48) Hw ltac:(lia) Hl base10 s 0 0 DI ltac:(lia) ltac:(change (10 ^ 0) with 1; lia) ltac:(lia)) as V.
  assert (NN : 0 <= numeral 10 (fun c => c - 48) s).
  { unfold numeral. rewrite <- V. assert (PW : 0 < 2 ^ (width F - 4)) by (apply pow2_pos; lia).
    apply (nan_loop_bound (width F) 10 lim m _ Hw ltac:(lia) Hl base10 Hm s 0 0 DI); [lia|lia|intros _; change (10 ^ 0) with 1; lia]. }
  assert (DV : (if forallb dec_digit s then Z.lor (nan_loop (width F) 10 lim m (fun c => c - 48) 0 0 s) (qnan F) else qnan F) = qnan F + numeral 10 (fun c => c - 48) s).
  { rewrite HD, V. apply lor_value. unfold numeral in *. lia. }
  rewrite cc_nan_dec; [exact DV|]. intros c t ->. cbn [forallb] in HD. unfold dec_digit at 2 in HD. lia.
Qed.
Theorem nan_hex : forall c s, c = 120 \/ c = 88 -> Z.of_nat (length s) <= lim -> numeral 16 digit_to_int s < 2 ^ (fl F - 1) ->
  cc_nan F lim m (48 :: c :: s) = qnan F + numeral 16 digit_to_int s.
Proof.
  intros c s Hc HLn HV. assert (DI : forall c, In c s -> 0 <= digit_to_int c < 16) by (intros; apply digit_range).
  pose proof (nan_loop_value (width F) 16 lim m digit_to_int Hw ltac:(lia) Hl HL s 0 0 DI ltac:(lia) ltac:(change (16 ^ 0) with 1; lia) ltac:(lia)) as V.
  assert (NN : 0 <= numeral 16 digit_to_int s).
  { unfold numeral. rewrite <- V. assert (PW : 0 < 2 ^ (width F - 4)) by (apply pow2_pos; lia).
    apply (nan_loop_bound (width F) 16 lim m _ Hw ltac:(lia) Hl HL Hm s 0 0 DI); [lia|lia|intros _; change (16 ^ 0) with 1; lia]. }
  cbn [cc_nan]. replace ((c =? 120) || (c =? 88)) with true by lia. rewrite V. apply lor_value. unfold numeral in *. lia.
Qed.
Theorem nan_other : forall s, forallb dec_digit s = false -> (forall c t, s = 48 :: c :: t -> c <> 120 /\ c <> 88) -> cc_nan F lim m s = qnan F.
Proof. intros s HD HX. rewrite cc_nan_dec, HD by auto. reflexivity. Qed.
End NanF.
