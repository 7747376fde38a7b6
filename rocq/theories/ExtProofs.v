(** * Integer functions of ccm::ext *)
From Coq Require Import ZArith Lia Bool.
From Verif Require Import MachInt Bits BitsSpec BitsProofs Ext.
Open Scope Z_scope.

Definition imax_val (T : ity) : Z := if isg T then 2 ^ (iw T - 1) - 1 else 2 ^ iw T - 1.

Section Int.
Context (T : ity) (HW : 1 <= iw T <= 16 \/ 32 <= iw T).
Let HT : 1 <= iw T. Proof. lia. Qed.

Lemma icast_id : forall z, in_ity T z -> icast T z = z.
Proof.
  intros z H. unfold icast, in_ity in *. destruct (isg T); [apply to_signed_of_S; auto|apply wrap_small; auto].
Qed.
Lemma iw_promote : 1 <= iw (promote T).
Proof. unfold promote. destruct (iw T <? 32); cbn; lia. Qed.
(** A value of the type is a value of the promoted type. *)
Lemma in_promote : forall z, in_ity T z -> in_ity (promote T) z.
Proof.
  intros z H. unfold promote. destruct (Z.ltb_spec (iw T) 32); auto. unfold in_ity in *. cbn [isg iw]. unfold inS, inU in *.
  change (2 ^ (32 - 1)) with (2 ^ 31). pose proof (pow2_le (iw T) 31 ltac:(lia)). pose proof (pow2_le (iw T - 1) 31 ltac:(lia)). destruct (isg T); lia.
Qed.
Lemma iarith_id : forall z, in_ity (promote T) z -> iarith (promote T) z = Some z.
Proof.
  intros z H. unfold iarith, in_ity in *. destruct (isg (promote T)); [|rewrite wrap_small; auto].
  unfold sarith. rewrite (proj2 (inSb_spec _ _)); auto.
Qed.
Lemma mask_in : forall k, 0 <= k -> k <= (if isg T then iw T - 1 else iw T) -> in_ity T (2 ^ k - 1).
Proof.
  intros k H0 H. pose proof (pow2_pos k H0). unfold in_ity, inS, inU. destruct (isg T).
  - pose proof (pow2_le k (iw T - 1) H). pose proof (pow2_nonneg (iw T - 1)). lia.
  - pose proof (pow2_le k (iw T) H). lia.
Qed.
(** Clearing the low bits. *)
Lemma land_lnot_mask : forall v k, 0 <= k -> Z.land v (Z.lnot (2 ^ k - 1)) = v / 2 ^ k * 2 ^ k.
Proof.
  intros v k Hk. replace (2 ^ k - 1) with (Z.ones k) by (rewrite Z.ones_equiv; lia). rewrite <- Z.ldiff_land.
  rewrite Z.ldiff_ones_r by auto. rewrite Z.shiftl_mul_pow2, Z.shiftr_div_pow2 by auto. reflexivity.
Qed.
Lemma land_inot : forall v k, 0 <= k -> in_ity (promote T) v -> k <= iw T -> Z.land v (inot (promote T) (2 ^ k - 1)) = v / 2 ^ k * 2 ^ k.
Proof.
  intros v k Hk Hv HkT. unfold inot. destruct (isg (promote T)) eqn:E; [apply land_lnot_mask; auto|].
  unfold promote in *. destruct (Z.ltb_spec (iw T) 32); [discriminate|]. unfold in_ity in Hv. rewrite E in Hv.
  rewrite <- land_lnot_mask by auto. pose proof (pow2_pos k Hk). pose proof (pow2_le k (iw T) HkT).
  assert (HM : inU (iw T) (2 ^ k - 1)) by (unfold inU; lia).
  apply Z.bits_inj'. intros n Hn. rewrite !Z.land_spec, testbit_unot, Z.lnot_spec by (auto; lia).
  destruct (Z.ltb_spec n (iw T)) as [L|L]; [reflexivity|]. rewrite (testbit_high (iw T) v n Hv L). reflexivity.
Qed.
Lemma floor_in : forall v k, 0 <= k -> k <= (if isg T then iw T - 1 else iw T) -> in_ity T v -> in_ity T (v / 2 ^ k * 2 ^ k).
Proof.
  intros v k Hk HkT Hv. pose proof (pow2_pos k Hk) as HP. pose proof (Z.div_mod v (2 ^ k) ltac:(lia)) as DM. pose proof (Z.mod_pos_bound v (2 ^ k) HP) as MB.
  unfold in_ity, inS, inU in *. destruct (isg T).
  - split; [|lia]. rewrite (pow2_split k (iw T - 1)) in * by lia. pose proof (pow2_pos (iw T - 1 - k) ltac:(lia)).
    assert (- 2 ^ (iw T - 1 - k) <= v / 2 ^ k) by (apply Z.div_le_lower_bound; lia). nia.
  - split; [|lia]. pose proof (Z.div_pos v (2 ^ k) ltac:(lia) HP). nia.
Qed.

Theorem align_down_spec : forall k v, 0 <= k -> k <= (if isg T then iw T - 1 else iw T) -> in_ity T v ->
  let r := align_down T k v in
  in_ity T r /\ (2 ^ k | r) /\ r <= v < r + 2 ^ k.
Proof.
  intros k v Hk HkT Hv r. pose proof (pow2_pos k Hk) as HP. unfold r, align_down.
  rewrite (icast_id (2 ^ k - 1)) by (apply mask_in; auto). rewrite land_inot by (auto using in_promote; destruct (isg T); lia).
  pose proof (floor_in v k Hk HkT Hv) as FI. rewrite icast_id by auto. split; [auto|]. split; [exists (v / 2 ^ k); reflexivity|].
  pose proof (Z.div_mod v (2 ^ k) ltac:(lia)). pose proof (Z.mod_pos_bound v (2 ^ k) HP). lia.
Qed.
(** The least multiple that is not below [v]: when it fits it is returned; when it
    does not, the addition overflows (undefined for a signed type of at least int's
    width) or the result wraps. *)
Theorem align_up_spec : forall k v u, 0 <= k -> k <= (if isg T then iw T - 1 else iw T) -> in_ity T v ->
  (2 ^ k | u) -> v <= u < v + 2 ^ k -> align_up T k v =
  if u <=? imax_val T then Some u else if isg T && (32 <=? iw T) then None else Some (icast T u).
Proof.
  intros k v u Hk HkT Hv (q & Hq) Hu. pose proof (pow2_pos k Hk) as HP. unfold align_up.
  rewrite (icast_id (2 ^ k - 1)) by (apply mask_in; auto).
  assert (FD : (v + (2 ^ k - 1)) / 2 ^ k * 2 ^ k = u).
  { rewrite Hq. f_equal. symmetry. apply (Z.div_unique _ _ _ (v + (2 ^ k - 1) - u)); lia. }
  assert (NW : iw T < 32 -> in_ity (promote T) (v + (2 ^ k - 1))).
  { intros W. unfold promote. replace (iw T <? 32) with true by lia. unfold in_ity in *. cbn [isg iw]. unfold inS, inU in *. change (2 ^ (32 - 1)) with (2 ^ 31).
    pose proof (pow2_le k (iw T) ltac:(destruct (isg T); lia)). pose proof (pow2_le (iw T) 30 ltac:(lia)). change (2 ^ 31) with (2 * 2 ^ 30).
    pose proof (pow2_half (iw T) ltac:(lia)). pose proof (pow2_nonneg (iw T - 1)). destruct (isg T); lia. }
  destruct (Z.ltb_spec (iw T) 32) as [W|W].
  - specialize (NW W). rewrite iarith_id by auto. cbn [bindo]. rewrite land_inot by (auto; destruct (isg T); lia). rewrite FD.
    replace (32 <=? iw T) with false by lia. rewrite andb_false_r. destruct (Z.leb_spec u (imax_val T)) as [L|L]; [|reflexivity].
    rewrite icast_id; [reflexivity|]. unfold in_ity, imax_val, inS, inU in *. destruct (isg T); lia.
  - replace (32 <=? iw T) with true by lia. rewrite andb_true_r.
    assert (PT : promote T = T) by (unfold promote; replace (iw T <? 32) with false by lia; reflexivity). rewrite PT.
    assert (UV : u <= imax_val T <-> v + (2 ^ k - 1) <= imax_val T).
    { unfold imax_val. split; [intros H|intros; lia].
      assert (Hw : exists m, (if isg T then 2 ^ (iw T - 1) else 2 ^ iw T) = m * 2 ^ k).
      { destruct (isg T); [exists (2 ^ (iw T - 1 - k))|exists (2 ^ (iw T - k))]; rewrite Z.mul_comm; apply pow2_split; lia. }
      destruct Hw as (m & Hm). assert (q * 2 ^ k < m * 2 ^ k) by (destruct (isg T); lia). assert (q < m) by nia.
      assert ((q + 1) * 2 ^ k <= m * 2 ^ k) by (apply Z.mul_le_mono_nonneg_r; lia). destruct (isg T); lia. }
    destruct (Z.leb_spec u (imax_val T)) as [L|L].
    + assert (VI : in_ity T (v + (2 ^ k - 1))).
      { apply UV in L. unfold in_ity, imax_val, inS, inU in *. destruct (isg T); lia. }
      pose proof (iarith_id (v + (2 ^ k - 1))) as IA. pose proof (land_inot (v + (2 ^ k - 1)) k Hk) as LI. rewrite PT in *.
      rewrite IA by auto. cbn [bindo]. rewrite LI by (auto; destruct (isg T); lia). rewrite FD.
      rewrite icast_id; [reflexivity|]. unfold in_ity, imax_val, inS, inU in *. destruct (isg T); lia.
    + assert (L2 : imax_val T < v + (2 ^ k - 1)) by lia. unfold iarith. destruct (isg T) eqn:E.
      * unfold sarith. replace (inSb (iw T) (v + (2 ^ k - 1))) with false; [reflexivity|]. symmetry. unfold inSb, imax_val in *. rewrite E in *. lia.
      * cbn [bindo]. unfold imax_val, in_ity, inU in *. rewrite E in *. unfold icast. rewrite E.
        assert (UE : u = 2 ^ iw T).
        { pose proof (pow2_split k (iw T) ltac:(lia)) as PS. set (M := 2 ^ (iw T - k)) in *. set (K := 2 ^ k) in *. set (N := 2 ^ iw T) in *. clearbody M K N.
          clear - HP L Hq Hu Hv PS. assert (q < M + 1) by nia. assert (M - 1 < q) by nia. nia. }
        pose proof (pow2_le k (iw T) HkT) as KN.
        assert (WR : wrap (iw T) (v + (2 ^ k - 1)) = v + (2 ^ k - 1) - 2 ^ iw T) by (apply (wrap_unique _ _ _ 1); unfold inU; [|ring]; lia).
        rewrite WR. pose proof (land_inot (v + (2 ^ k - 1) - 2 ^ iw T) k Hk) as LI. rewrite PT in LI. rewrite LI by (unfold in_ity, inU; rewrite ?E; lia).
        rewrite Z.div_small by lia. rewrite UE. unfold wrap. rewrite Z_mod_same_full. reflexivity.
Qed.

Theorem abs_diff_spec : forall a b, in_ity T a -> in_ity T b ->
  abs_diff T a b = if Z.abs (a - b) <=? imax_val T then Some (Z.abs (a - b)) else if 32 <=? iw T then None else Some (icast T (Z.abs (a - b))).
Proof.
  intros a b Ha Hb. assert (E : abs_diff T a b = do d <- iarith (promote T) (Z.abs (a - b)); Some (icast T d)).
  { unfold abs_diff. destruct (Z.ltb_spec b a); [replace (Z.abs (a - b)) with (a - b) by lia|replace (Z.abs (a - b)) with (b - a) by lia]; reflexivity. }
  rewrite E. clear E. set (d := Z.abs (a - b)). assert (D0 : 0 <= d) by lia. pose proof (pow2_half (iw T) HT) as PH. pose proof (pow2_pos (iw T - 1) ltac:(lia)) as PP.
  assert (DU : d < 2 ^ iw T) by (unfold in_ity, inS, inU in *; destruct (isg T); lia).
  destruct (Z.leb_spec d (imax_val T)) as [L|L].
  - assert (DI : in_ity T d) by (unfold in_ity, imax_val, inS, inU in *; destruct (isg T); lia).
    rewrite iarith_id by (apply in_promote; auto). cbn [bindo]. rewrite icast_id; auto.
  - assert (SG : isg T = true) by (unfold imax_val in L; destruct (isg T); auto; lia).
    destruct (Z.leb_spec 32 (iw T)) as [W|W].
    + unfold promote. replace (iw T <? 32) with false by lia. unfold iarith. rewrite SG. unfold sarith. unfold imax_val in L. rewrite SG in L.
      replace (inSb (iw T) d) with false by (unfold inSb; lia). reflexivity.
    + rewrite iarith_id; [reflexivity|]. unfold promote. replace (iw T <? 32) with true by lia. unfold in_ity. cbn [isg iw]. unfold inS.
      change (2 ^ (32 - 1)) with (2 ^ 31). pose proof (pow2_le (iw T) 31 ltac:(lia)). lia.
Qed.

(** The ceiling of v/d, for non-negative v and positive d. *)
Definition is_ceil (v d q : Z) : Prop := (q - 1) * d < v <= q * d.
Theorem ceil_div_spec : forall v d, in_ity T v -> in_ity T d -> 0 <= v -> 0 < d ->
  (iw T <= 16 \/ v + d <= (if isg T then imax_val T else imax_val T + 1)) ->
  exists q, ceil_div T v d = Some q /\ is_ceil v d q.
Proof.
  intros v d Hv Hd V0 D0 HB. set (q := (v + d - 1) / d). pose proof (Z.div_mod (v + d - 1) d ltac:(lia)) as DM. pose proof (Z.mod_pos_bound (v + d - 1) d D0) as MB. fold q in DM.
  assert (IC : is_ceil v d q) by (unfold is_ceil; nia).
  assert (Q0 : 0 <= q) by (apply Z.div_pos; lia).
  assert (QV : q <= v \/ q = 0). { destruct (Z.eq_dec v 0); [right; subst; unfold q; apply Z.div_small; lia|left]. unfold is_ceil in IC. nia. }
  assert (QI : in_ity T q).
  { unfold in_ity, inS, inU in *. pose proof (pow2_pos (iw T - 1) ltac:(lia)). pose proof (pow2_pos (iw T) ltac:(lia)). destruct (isg T); lia. }
  exists q. split; [|exact IC]. unfold ceil_div.
  assert (FIN : forall s, s = v + d - 1 -> (if d =? 0 then None else do q0 <- iarith (promote T) (Z.quot s d); Some (icast T q0)) = Some q).
  { intros s ->. replace (d =? 0) with false by lia. rewrite Z.quot_div_nonneg by lia. fold q. rewrite iarith_id by (apply in_promote; auto). cbn [bindo]. rewrite icast_id; auto. }
  destruct (isg (promote T)) eqn:SG.
  - assert (SI : in_ity (promote T) (v + d) /\ in_ity (promote T) (v + d - 1)).
    { unfold promote in *. destruct (Z.ltb_spec (iw T) 32) as [W|W].
      - unfold in_ity, inS, inU in *. cbn [isg iw]. change (2 ^ (32 - 1)) with (2 ^ 31). pose proof (pow2_le (iw T) 31 ltac:(lia)) as P1.
        pose proof (pow2_half (iw T) HT). pose proof (pow2_le (iw T) 30 ltac:(lia)). change (2 ^ 31) with (2 * 2 ^ 30). destruct (isg T); lia.
      - unfold imax_val, in_ity, inS in *. rewrite SG in *. lia. }
    rewrite iarith_id by apply SI. cbn [bindo]. rewrite iarith_id by apply SI. cbn [bindo]. apply FIN. reflexivity.
  - assert (PT : promote T = T) by (unfold promote in *; destruct (iw T <? 32); [discriminate|reflexivity]). rewrite PT in *.
    assert (W : 32 <= iw T) by (unfold promote in PT; destruct (Z.ltb_spec (iw T) 32); [rewrite <- PT in SG; discriminate|auto]).
    destruct HB as [HB|HB]; [lia|]. rewrite SG in HB. unfold imax_val in HB. rewrite SG in HB.
    unfold iarith at 1 2. rewrite SG. cbn [bindo]. apply FIN. rewrite wrap_sub_l by lia. apply wrap_small. unfold inU, in_ity, inS in *. rewrite SG in *. unfold inU in *. lia.
Qed.

(** Dividing by zero is undefined behaviour. *)
Theorem ceil_div_0 : forall v, ceil_div T v 0 = None.
Proof.
  intros v. unfold ceil_div. destruct (iarith (promote T) (v + 0)) as [x|]; [|reflexivity]. cbn [bindo]. destruct (iarith (promote T) (x - 1)); reflexivity.
Qed.
(** Beyond the bound the sum wraps to a value below the divisor (unsigned), or the
    behaviour is undefined (signed). *)
Theorem ceil_div_wrap : forall v d, in_ity T v -> in_ity T d -> 0 <= v -> 0 < d -> 32 <= iw T ->
  (if isg T then imax_val T else imax_val T + 1) < v + d ->
  ceil_div T v d = if isg T then None else Some 0.
Proof.
  intros v d Hv Hd V0 D0 W HB. unfold ceil_div. unfold promote. replace (iw T <? 32) with false by lia.
  unfold iarith, imax_val, in_ity, inS, inU in *. destruct (isg T) eqn:E.
  - unfold sarith. replace (inSb (iw T) (v + d)) with false by (unfold inSb; lia). reflexivity.
  - cbn [bindo]. replace (d =? 0) with false by lia. rewrite wrap_sub_l by lia.
    assert (WR : wrap (iw T) (v + d - 1) = v + d - 1 - 2 ^ iw T) by (apply (wrap_unique _ _ _ 1); unfold inU; [|ring]; lia).
    rewrite WR, Z.quot_small by lia. rewrite wrap_small by (unfold inU; lia). unfold icast. rewrite E. rewrite wrap_small by (unfold inU; lia). reflexivity.
Qed.
Theorem safe_ceil_div_spec : forall v d, in_ity T v -> in_ity T d -> 0 <= v -> 0 <= d ->
  (iw T <= 16 \/ v + d <= (if isg T then imax_val T else imax_val T + 1)) ->
  exists q, safe_ceil_div T v d = Some q /\ (d = 0 -> q = 0) /\ (0 < d -> is_ceil v d q).
Proof.
  intros v d Hv Hd V0 D0 HB. unfold safe_ceil_div. destruct (Z.eqb_spec d 0) as [->|NZ].
  - exists 0. split; [auto|]. split; [auto|lia].
  - destruct (ceil_div_spec v d Hv Hd V0 ltac:(lia) HB) as (q & E & C). exists q. split; [auto|]. split; [lia|auto].
Qed.

Theorem is_power_of_two_signed_spec : forall n, isg T = true -> in_ity T n ->
  match is_power_of_two_signed T n with
  | Some b => b = true <-> power_of_two n
  | None => n = - 2 ^ (iw T - 1) /\ 32 <= iw T
  end.
Proof.
  intros n SG Hn. assert (PN : power_of_two n -> 0 < n) by (intros (k & Hk & ->); apply pow2_pos; auto). unfold is_power_of_two_signed.
  destruct (Z.eqb_spec n 0) as [->|NZ]. { split; [discriminate|intros HQ; apply PN in HQ; lia]. }
  pose proof (in_promote n Hn) as HP. pose proof (pow2_pos (iw T - 1) ltac:(lia)) as PP.
  destruct (Z.eq_dec n (- 2 ^ (iw T - 1))) as [E|E].
  - unfold promote. destruct (Z.ltb_spec (iw T) 32) as [W|W].
    + unfold iarith. cbn [isg iw]. pose proof (pow2_le (iw T - 1) 30 ltac:(lia)). change (2 ^ 30) with 1073741824 in *. unfold sarith. rewrite (proj2 (inSb_spec _ _)) by (unfold inS; change (2 ^ (32 - 1)) with 2147483648; lia). cbn [bindo].
      assert (LN : Z.land n (n - 1) < 0) by (apply Z.land_neg; lia). rewrite Z.eqb_eq. split; [lia|intros HQ; apply PN in HQ; lia].
    + unfold iarith. rewrite SG. unfold sarith. replace (inSb (iw T) (n - 1)) with false by (unfold inSb; lia). cbn [bindo]. auto.
  - assert (N1 : in_ity T (n - 1)) by (unfold in_ity in *; rewrite SG in *; unfold inS in *; lia).
    rewrite iarith_id by (apply in_promote; auto). cbn [bindo]. rewrite Z.eqb_eq. destruct (Z_lt_dec 0 n) as [P|P]; [apply land_pred_pow2; auto|].
    assert (LN : Z.land n (n - 1) < 0) by (apply Z.land_neg; lia). split; [lia|intros HQ; apply PN in HQ; lia].
Qed.
Theorem safe_is_power_of_two_signed_spec : forall n, isg T = true -> in_ity T n -> safe_is_power_of_two_signed T n = true <-> power_of_two n.
Proof.
  intros n SG Hn. unfold safe_is_power_of_two_signed. unfold in_ity, inS in Hn. rewrite SG in Hn. pose proof (pow2_half (iw T) HT). destruct (Z.ltb_spec 0 n) as [P|P]; cbn [andb].
  - rewrite wrap_small by (unfold inU; lia). apply has_single_bit_spec. unfold inU; lia.
  - split; [discriminate|]. intros (k & Hk & ->). pose proof (pow2_pos k Hk). lia.
Qed.

Theorem isign_spec : forall v, 2 <= iw T -> in_ity T v -> isign T v = Z.sgn v.
Proof.
  intros v H2 Hv. unfold isign. pose proof (pow2_le 1 (iw T - 1) ltac:(lia)). change (2 ^ 1) with 2 in *.
  pose proof (pow2_half (iw T) HT). unfold in_ity in Hv.
  destruct (Z.ltb_spec 0 v), (Z.ltb_spec v 0); cbn [b2z]; rewrite icast_id; try (unfold in_ity, inS, inU in *; destruct (isg T); lia); lia.
Qed.
Theorem iclamp_spec : forall v lo hi, lo <= hi ->
  lo <= iclamp v lo hi <= hi /\ (lo <= v <= hi -> iclamp v lo hi = v) /\ (v < lo -> iclamp v lo hi = lo) /\ (hi < v -> iclamp v lo hi = hi) /\
  iclamp (iclamp v lo hi) lo hi = iclamp v lo hi.
Proof.
  intros v lo hi H. assert (E : forall w, iclamp w lo hi = Z.min (Z.max w lo) hi); [|rewrite !E; lia].
  intros w. unfold iclamp, imin. replace (imax w lo) with (Z.max w lo) by (unfold imax; destruct (Z.ltb_spec lo w); lia).
  destruct (Z.ltb_spec (Z.max w lo) hi); lia.
Qed.
Theorem istep_spec : forall e v, istep e v = if Z_lt_dec v e then 0 else 1.
Proof. intros e v. unfold istep. destruct (Z.ltb_spec v e), (Z_lt_dec v e); auto; lia. Qed.
End Int.
