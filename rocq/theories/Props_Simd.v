(** * C51: the data-parallel types

    [lt], [op] and the like are the element operations; the instances for
    integer and floating-point lanes are stated separately where they
    matter.  [n] is the number of lanes, [w] the width of a lane. *)
From Coq Require Import ZArith Bool List Lia Reals Lra.
Import ListNotations.
From Flocq Require Import Core.
From Verif Require Import MachInt Fmt FloatSpec FmtProofs FOps ExactOps FmanipWide ExtFloatSpec Simd SimdSpec SimdFloatSpec
  SimdProofs SimdReduce SimdFloat.
Open Scope Z_scope.

(** The mask operators and the comparisons produce well-formed masks and act lane by lane on the booleans. *)
Theorem C51_mask_operators : forall w n a b, 1 <= w -> mask_ok w n a -> mask_ok w n b ->
  (mask_ok w n (mand a b) /\ mlanes (mand a b) = zip andb (mlanes a) (mlanes b)) /\
  (mask_ok w n (mor a b) /\ mlanes (mor a b) = zip orb (mlanes a) (mlanes b)) /\
  (mask_ok w n (mxor a b) /\ mlanes (mxor a b) = zip xorb (mlanes a) (mlanes b)) /\
  (mask_ok w n (mnot w a) /\ mlanes (mnot w a) = map negb (mlanes a)) /\
  (mask_ok w n (mask_eq w a b) /\ mlanes (mask_eq w a b) = zip Bool.eqb (mlanes a) (mlanes b)) /\
  (mask_ok w n (mask_ne a b) /\ mlanes (mask_ne a b) = zip xorb (mlanes a) (mlanes b)).
Proof.
  intros w n a b Hw A B.
  exact (conj (mand_spec w Hw n a b A B) (conj (mor_spec w Hw n a b A B) (conj (mxor_spec w Hw n a b A B)
    (conj (mnot_spec w Hw n a A) (conj (mask_eq_spec w Hw n a b A B) (mask_ne_spec w Hw n a b A B)))))).
Qed.
Theorem C51_mask_sources : forall w n junk b op x y, 1 <= w -> length junk = n -> length x = n -> length y = n ->
  (mask_ok w n (mbroadcast w junk b) /\ mlanes (mbroadcast w junk b) = repeat b n) /\
  (mask_ok w n (vcmp w op x y) /\ mlanes (vcmp w op x y) = zip op x y).
Proof. intros w n junk b op x y Hw J X Y. exact (conj (mbroadcast_spec w Hw n junk b J) (vcmp_spec w Hw op n x y X Y)). Qed.

(** all_of / any_of / none_of / reduce_count, both the loop and the vector reduction. *)
Theorem C51_mask_reductions : forall w n m, 1 <= w -> mask_ok w n m ->
  all_of_loop m = forallb (fun b => b) (mlanes m) /\ all_of_red w m = forallb (fun b => b) (mlanes m) /\
  any_of_loop m = existsb (fun b => b) (mlanes m) /\ any_of_red m = existsb (fun b => b) (mlanes m) /\
  none_of_loop m = negb (existsb (fun b => b) (mlanes m)) /\ none_of_red m = negb (existsb (fun b => b) (mlanes m)) /\
  popcount m = Z.of_nat (count_occ Bool.bool_dec (mlanes m) true).
Proof.
  intros w n m Hw O. unfold none_of_loop, none_of_red.
  rewrite (all_of_red_spec w Hw n m O), (any_of_red_spec w Hw n m O), all_of_loop_spec, any_of_loop_spec, popcount_spec.
  exact (conj eq_refl (conj eq_refl (conj eq_refl (conj eq_refl (conj eq_refl (conj eq_refl eq_refl)))))).
Qed.
(** The first and the last set lane; the lane count when there is none. *)
Theorem C51_min_index : forall m,
  (reduce_min_index m < length m /\ nth (reduce_min_index m) (mlanes m) false = true /\
    forall k, (k < reduce_min_index m)%nat -> nth k (mlanes m) false = false)%nat
  \/ (reduce_min_index m = length m /\ forall k, nth k (mlanes m) false = false).
Proof. exact reduce_min_index_spec. Qed.
Theorem C51_max_index : forall m,
  (reduce_max_index m < length m /\ nth (reduce_max_index m) (mlanes m) false = true /\
    forall k, (reduce_max_index m < k)%nat -> nth k (mlanes m) false = false)%nat
  \/ (reduce_max_index m = length m /\ forall k, nth k (mlanes m) false = false).
Proof. exact reduce_max_index_spec. Qed.

(** to_ullong puts lane i in bit i; from_bits reads it back, whatever its result held before. *)
Theorem C51_to_ullong : forall m, (length m <= 64)%nat -> exists bits,
  to_ullong m = Some bits /\ 0 <= bits < 2 ^ Z.of_nat (length m) /\
  forall i, Z.testbit bits (Z.of_nat i) = nth i (mlanes m) false.
Proof. exact to_ullong_spec. Qed.
Theorem C51_from_bits : forall w junk bits, 1 <= w -> (length junk <= 64)%nat -> 0 <= bits -> exists m,
  from_bits w junk bits = Some m /\ mask_ok w (length junk) m /\
  forall i, (i < length junk)%nat -> nth i (mlanes m) false = Z.testbit bits (Z.of_nat i).
Proof. intros w junk bits Hw. exact (from_bits_spec w Hw junk bits). Qed.
Theorem C51_bits_roundtrip : forall w n m junk, 1 <= w -> mask_ok w n m -> (n <= 64)%nat -> length junk = n ->
  exists bits, to_ullong m = Some bits /\ from_bits w junk bits = Some m.
Proof. intros w n m junk Hw. exact (bits_roundtrip w Hw n m junk). Qed.

(** simd_select, by the branch-free blend and by the loop. *)
Theorem C51_select : forall w n m a b, 1 <= w -> mask_ok w n m -> vec_ok w n a -> vec_ok w n b ->
  select_bits w m a b = choose (mlanes m) a b /\ select_lanes m a b = choose (mlanes m) a b.
Proof.
  intros w n m a b Hw M A B. exact (conj (select_bits_spec w Hw n m a b M A B) (select_lanes_spec n m a b (proj1 M) (proj1 A) (proj1 B))).
Qed.
(** Well-formedness matters: on other lanes the two blends differ. *)
Theorem C51_select_raw_refuted : exists m a b, vec_ok 32 4 m /\ vec_ok 32 4 a /\ vec_ok 32 4 b /\ select_bits 32 m a b <> select_lanes m a b.
Proof.
  exists [1; 0; 0; 0], [6; 6; 6; 6], [9; 9; 9; 9].
  split; [split; [reflexivity|repeat constructor; vm_compute; congruence]|].
  split; [split; [reflexivity|repeat constructor; vm_compute; congruence]|].
  split; [split; [reflexivity|repeat constructor; vm_compute; congruence]|]. vm_compute. congruence.
Qed.

(** Element-wise operations. *)
Theorem C51_elementwise : forall f g a b, length b = length a -> vmap1 f a = map f a /\ vmap2 g a b = zip g a b.
Proof. intros f g a b L. exact (conj (vmap1_spec f a) (vmap2_spec g a b L)). Qed.

(** reduce(v, op): the left fold; for an associative operation also the right one. *)
Theorem C51_reduce : forall op x v, reduce_op op (x :: v) = fold_left op v x.
Proof. exact reduce_op_spec. Qed.
Theorem C51_reduce_assoc : forall (op : Z -> Z -> Z) x v, (forall a b c, op a (op b c) = op (op a b) c) ->
  reduce_op op (x :: v) = fold_right op (last (x :: v) 0) (removelast (x :: v)).
Proof. exact reduce_op_right. Qed.
(** reduce(v) on unsigned lanes: the sum of the lanes modulo 2^w. *)
Theorem C51_sum_unsigned : forall w v, 0 <= w -> hadd (fun a b => wrap w (a + b)) 0 v = wrap w (sumZ v).
Proof. exact hadd_unsigned. Qed.
(** reduce(v) on floating-point lanes, in every rounding mode. *)
Theorem C51_sum_float : forall F, good_fmt F -> forall rm v, Forall (fun x => is_fin F x = true) v ->
  (sumA F v * (1 + ulpfac F rm) ^ length v < bpow radix2 (bias F))%R ->
  is_fin F (hadd (f_add F rm) (f_zero F false) v) = true /\
  (Rabs (fval F (hadd (f_add F rm) (f_zero F false) v) - sumR F v) <= ((1 + ulpfac F rm) ^ length v - 1) * sumA F v)%R.
Proof. intros F HF rm v. exact (sum_error F HF rm v). Qed.
(** The sum of lanes that are all -0 is +0 in the vector back ends but -0 in the scalar one and for reduce(v, plus). *)
Theorem C51_sum_negative_zero_refuted : exists v, hadd (f_add binary32 RNE) (f_zero binary32 false) v = f_zero binary32 false /\
  reduce_op (f_add binary32 RNE) v = f_zero binary32 true /\ hadd_scalar v = f_zero binary32 true.
Proof. exists [2147483648; 2147483648]. vm_compute. auto. Qed.

(** Masked reduce: the fold of the selected lanes, when the identity is neutral on the values that occur. *)
Theorem C51_reduce_masked : forall w (P : Z -> Prop) n (op : Z -> Z -> Z) v m e, 1 <= w -> (1 <= n)%nat ->
  mask_ok w n m -> vec_ok w n v -> 0 <= e < 2 ^ w ->
  P e -> (forall x y, P x -> P y -> P (op x y)) -> (forall x, P x -> op x e = x) -> (forall x, P x -> op e x = x) ->
  Forall P (selected (mlanes m) v) ->
  reduce_masked (select_bits w) op v m e = fold_left op (selected (mlanes m) v) e /\
  reduce_masked select_lanes op v m e = fold_left op (selected (mlanes m) v) e.
Proof.
  intros w P n op v m e Hw Hn M V E Pe C R L S. assert (LV := proj1 V).
  assert (B : vec_ok w n (broadcast v e)).
  { rewrite broadcast_spec, LV. split; [apply repeat_length|]. apply Forall_forall. intros x Hx. apply repeat_spec in Hx. subst; auto. }
  destruct (C51_select w n m v (broadcast v e) Hw M V B) as [G1 G2].
  exact (conj (reduce_masked_P _ P n op v m e Hn (proj1 M) LV G1 Pe C R L S) (reduce_masked_P _ P n op v m e Hn (proj1 M) LV G2 Pe C R L S)).
Qed.
(** Floating-point addition with the identity -0 meets these conditions, except when rounding down ... *)
Theorem C51_minus_zero_neutral : forall F, good_fmt F -> forall rm, rm <> RDN ->
  canon F (f_zero F true) /\ (forall x y, canon F x -> canon F y -> canon F (f_add F rm x y)) /\
  (forall x, canon F x -> f_add F rm x (f_zero F true) = x) /\ (forall x, canon F x -> f_add F rm (f_zero F true) x = x).
Proof.
  intros F HF rm H. split; [split; [apply f_zero_props; auto|]; rewrite (fin_nan F) by (apply f_zero_props; auto); discriminate|].
  split; [exact (add_canon F HF rm)|]. split; intros x C; apply (add_mzero F HF rm x H C).
Qed.
(** ... whereas with the identity +0 a single selected -0 is lost. *)
Theorem C51_plus_zero_refuted : exists m v, mask_ok 32 2 m /\ selected (mlanes m) v = [f_zero binary32 true] /\
  reduce_masked select_lanes (f_add binary32 RNE) v m (f_zero binary32 false) = f_zero binary32 false.
Proof.
  exists [4294967295; 0], [2147483648; 1065353216]. split; [|vm_compute; auto].
  split; [reflexivity|]. repeat (apply Forall_cons; [first [left; reflexivity | right; reflexivity]|]); apply Forall_nil.
Qed.

(** reduce_min / reduce_max on integer lanes; [k] reads the pattern (identity for unsigned, two's complement for signed lanes). *)
Theorem C51_min_max_int : forall (k : Z -> Z) v, (1 <= length v)%nat ->
  is_least (fun a b => k a <? k b) v (hmin (fun a b => k a <? k b) v) /\
  is_greatest (fun a b => k a <? k b) v (hmax (fun a b => k a <? k b) v).
Proof. intros k v L. exact (conj (hmin_least _ v L (swo_key k v)) (hmax_greatest _ v L (swo_key k v))). Qed.
(** Masked, with the largest (smallest) value of the type as identity [e]. *)
Theorem C51_min_masked_int : forall (k : Z -> Z) w n v m e, 1 <= w -> (1 <= n)%nat -> mask_ok w n m -> vec_ok w n v -> 0 <= e < 2 ^ w ->
  (forall x, 0 <= x < 2 ^ w -> k x <= k e) -> (forall x, 0 <= x < 2 ^ w -> k x = k e -> x = e) ->
  forall sel, sel = select_bits w \/ sel = select_lanes ->
  (selected (mlanes m) v = [] -> reduce_min_masked sel (fun a b => k a <? k b) e v m = e) /\
  (selected (mlanes m) v <> [] -> is_least (fun a b => k a <? k b) (selected (mlanes m) v) (reduce_min_masked sel (fun a b => k a <? k b) e v m)).
Proof.
  intros k w n v m e Hw Hn M V E T I sel HS. assert (LV := proj1 V). assert (LM := proj1 M).
  assert (B : vec_ok w n (broadcast v e)).
  { rewrite broadcast_spec, LV. split; [apply repeat_length|]. apply Forall_forall. intros x Hx. apply repeat_spec in Hx. subst; auto. }
  destruct (C51_select w n m v (broadcast v e) Hw M V B) as [G1 G2].
  apply min_masked_spec; [lia|lia|destruct HS; subst; auto|apply swo_key|].
  intros x Hx H. apply in_selected in Hx. assert (0 <= x < 2 ^ w) by (destruct V as [_ V]; rewrite Forall_forall in V; auto).
  apply I; auto. specialize (T x H0). lia.
Qed.
Theorem C51_max_masked_int : forall (k : Z -> Z) w n v m e, 1 <= w -> (1 <= n)%nat -> mask_ok w n m -> vec_ok w n v -> 0 <= e < 2 ^ w ->
  (forall x, 0 <= x < 2 ^ w -> k e <= k x) -> (forall x, 0 <= x < 2 ^ w -> k x = k e -> x = e) ->
  forall sel, sel = select_bits w \/ sel = select_lanes ->
  (selected (mlanes m) v = [] -> reduce_max_masked sel (fun a b => k a <? k b) e v m = e) /\
  (selected (mlanes m) v <> [] -> is_greatest (fun a b => k a <? k b) (selected (mlanes m) v) (reduce_max_masked sel (fun a b => k a <? k b) e v m)).
Proof.
  intros k w n v m e Hw Hn M V E T I sel HS. assert (LV := proj1 V). assert (LM := proj1 M).
  assert (B : vec_ok w n (broadcast v e)).
  { rewrite broadcast_spec, LV. split; [apply repeat_length|]. apply Forall_forall. intros x Hx. apply repeat_spec in Hx. subst; auto. }
  destruct (C51_select w n m v (broadcast v e) Hw M V B) as [G1 G2].
  apply max_masked_spec; [lia|lia|destruct HS; subst; auto|apply swo_key|].
  intros x Hx H. apply in_selected in Hx. assert (0 <= x < 2 ^ w) by (destruct V as [_ V]; rewrite Forall_forall in V; auto).
  apply I; auto. specialize (T x H0). lia.
Qed.
(** reduce_min / reduce_max on floating-point lanes without NaN. *)
Theorem C51_min_max_float : forall F, good_fmt F -> forall v, (1 <= length v)%nat -> Forall (fun x => is_nan F x = false) v ->
  is_min F v (hmin (f_lt F) v) /\ is_max F v (hmax (f_lt F) v).
Proof. intros F HF v L N. exact (conj (hmin_float F HF v L N) (hmax_float F HF v L N)). Qed.
(** With NaN lanes: one in lane 0 is the result, any other is ignored. *)
Theorem C51_min_max_nan : forall F x v,
  (is_nan F x = true -> hmin (f_lt F) (x :: v) = x /\ hmax (f_lt F) (x :: v) = x) /\
  (is_nan F x = false ->
    hmin (f_lt F) (x :: v) = hmin (f_lt F) (filter (fun y => negb (is_nan F y)) (x :: v)) /\
    hmax (f_lt F) (x :: v) = hmax (f_lt F) (filter (fun y => negb (is_nan F y)) (x :: v))).
Proof. intros F x v. exact (conj (hmin_nan0 F x v) (hmin_skip F x v)). Qed.
(** Hence the result depends on the order of the lanes. *)
Theorem C51_min_order_refuted : exists a b, is_nan binary32 (hmin (f_lt binary32) [a; b]) = true /\ is_nan binary32 (hmin (f_lt binary32) [b; a]) = false.
Proof. exists 2143289344, 1065353216. vm_compute. auto. Qed.
(** Masked, with the infinities as identities. *)
Theorem C51_min_max_masked_float : forall F, good_fmt F -> forall w n m v, w = width F -> (1 <= n)%nat -> mask_ok w n m -> vec_ok w n v ->
  Forall (fun x => is_nan F x = false) (selected (mlanes m) v) ->
  forall sel, sel = select_bits w \/ sel = select_lanes ->
  (selected (mlanes m) v = [] -> reduce_min_masked sel (f_lt F) (f_inf F false) v m = f_inf F false /\
                                 reduce_max_masked sel (f_lt F) (f_inf F true) v m = f_inf F true) /\
  (selected (mlanes m) v <> [] -> is_min F (selected (mlanes m) v) (reduce_min_masked sel (f_lt F) (f_inf F false) v m) /\
                                  is_max F (selected (mlanes m) v) (reduce_max_masked sel (f_lt F) (f_inf F true) v m)).
Proof.
  intros F HF w n m v EW Hn M V N sel HS. assert (LV := proj1 V). assert (LM := proj1 M).
  assert (Hw : 1 <= w) by (rewrite EW; unfold width; pose proof (gf_fl F HF); pose proof (gf_el F HF); lia).
  assert (B : forall s, vec_ok w n (broadcast v (f_inf F s))).
  { intros s. rewrite broadcast_spec, LV. split; [apply repeat_length|]. apply Forall_forall. intros x Hx. apply repeat_spec in Hx. subst.
    apply (f_inf_props F HF s). }
  destruct (C51_select w n m v _ Hw M V (B false)) as [G1 G2]. destruct (C51_select w n m v _ Hw M V (B true)) as [G3 G4].
  assert (P : Forall (fun x => is_pattern F x /\ is_nan F x = false) (selected (mlanes m) v)).
  { rewrite Forall_forall in *. intros x Hx. split; auto. apply in_selected in Hx. destruct V as [_ V]. rewrite Forall_forall in V.
    unfold is_pattern. rewrite <- EW. auto. }
  destruct (min_masked_float F HF sel m v ltac:(lia) ltac:(lia) ltac:(destruct HS; subst; auto) P) as [A1 A2].
  destruct (max_masked_float F HF sel m v ltac:(lia) ltac:(lia) ltac:(destruct HS; subst; auto) P) as [B1 B2].
  split; intros K; split; auto.
Qed.

(** min and max of two vectors, lane by lane: both back ends. *)
Theorem C51_vector_min_max : forall w lt n a b i, 1 <= w -> vec_ok w n a -> vec_ok w n b -> (i < n)%nat ->
  (nth i (op_min_arr lt a b) 0 = (if lt (nth i a 0) (nth i b 0) then nth i a 0 else nth i b 0) /\
   nth i (op_max_arr lt a b) 0 = (if lt (nth i a 0) (nth i b 0) then nth i b 0 else nth i a 0)) /\
  (nth i (op_min_vec w lt a b) 0 = (if lt (nth i a 0) (nth i b 0) then nth i a 0 else nth i b 0) /\
   nth i (op_max_vec w lt a b) 0 = (if lt (nth i b 0) (nth i a 0) then nth i a 0 else nth i b 0)).
Proof.
  intros w lt n a b i Hw A B Hi. exact (conj (op_min_lane lt n a b i (proj1 A) (proj1 B) Hi) (op_min_vec_lane w lt n a b i Hw A B Hi)).
Qed.
(** The two back ends disagree on max: with a NaN, and with zeros of different signs. *)
Theorem C51_max_backends_refuted :
  (exists a b, is_nan binary32 (lane (op_max_vec 32 (f_lt binary32) [a] [b]) 0) = false /\
               is_nan binary32 (lane (op_max_arr (f_lt binary32) [a] [b]) 0) = true) /\
  (exists a b, op_max_vec 32 (f_lt binary32) [a] [b] = [f_zero binary32 true] /\ op_max_arr (f_lt binary32) [a] [b] = [f_zero binary32 false]).
Proof. split; [exists 2143289344, 1065353216|exists 0, 2147483648]; vm_compute; auto. Qed.

(** where(m, v) = rhs and where(m, v) op= rhs change the selected lanes only. *)
Theorem C51_where : forall w n op m v rhs, 1 <= w -> mask_ok w n m -> vec_ok w n v -> vec_ok w n rhs ->
  (forall x y, 0 <= x < 2 ^ w -> 0 <= y < 2 ^ w -> 0 <= op x y < 2 ^ w) ->
  forall sel, sel = select_bits w \/ sel = select_lanes ->
  where_assign sel m v rhs = choose (mlanes m) rhs v /\ where_op sel op m v rhs = choose (mlanes m) (zip op v rhs) v.
Proof.
  intros w n op m v rhs Hw M V R C sel HS. unfold where_assign, where_op.
  rewrite vmap2_spec by (rewrite (proj1 V), (proj1 R); reflexivity).
  destruct (C51_select w n m rhs v Hw M R V) as [A1 A2]. destruct (C51_select w n m _ v Hw M (vec_zip_ok w n op v rhs V R C) V) as [B1 B2].
  destruct HS; subst sel; auto.
Qed.
(** Masked load: touches the selected elements of memory only, and is undefined exactly when one of those is inaccessible. *)
Theorem C51_masked_load : forall m v p, length m = length v ->
  ((exists i, (i < length v)%nat /\ nth i (mlanes m) false = true /\ p i = None) -> where_copy_from m v p = None) /\
  ((forall i, (i < length v)%nat -> nth i (mlanes m) false = true -> p i <> None) ->
   exists r, where_copy_from m v p = Some r /\ length r = length v /\
     forall i, (i < length v)%nat -> Some (nth i r 0) = if nth i (mlanes m) false then p i else Some (nth i v 0)).
Proof. exact copy_from_spec. Qed.
(** Masked store: writes the selected lanes and leaves the rest of memory unchanged. *)
Theorem C51_masked_store : forall m v p, length m = length v ->
  ((exists i, (i < length v)%nat /\ nth i (mlanes m) false = true /\ p i = None) -> where_copy_to m v p = None) /\
  ((forall i, (i < length v)%nat -> nth i (mlanes m) false = true -> p i <> None) ->
   exists q, where_copy_to m v p = Some q /\ forall i, q i = if nth i (mlanes m) false then Some (nth i v 0) else p i).
Proof. exact copy_to_spec. Qed.

(** simd_cat concatenates, simd_split cuts into equal parts; they are inverse to each other. *)
Theorem C51_cat : forall junk xs, length junk = length (concat xs) -> simd_cat junk xs = concat xs.
Proof. exact simd_cat_spec. Qed.
Theorem C51_split : forall k p junk v, (1 <= k)%nat -> length junk = k -> length v = (p * k)%nat ->
  length (simd_split junk v) = p /\ Forall (fun x => length x = k) (simd_split junk v) /\ concat (simd_split junk v) = v.
Proof. exact split_spec. Qed.
Theorem C51_split_cat : forall k junk xs, (1 <= k)%nat -> length junk = k -> Forall (fun x => length x = k) xs ->
  simd_split junk (concat xs) = xs.
Proof. exact split_cat. Qed.
(** The same for masks of up to 64 lanes, which go through to_ullong / from_bits. *)
Theorem C51_mask_cat : forall w junk xs, 1 <= w -> length junk = length (concat xs) -> (length junk <= 64)%nat ->
  Forall (fun x => (1 <= length x)%nat) xs -> Forall (fun x => mask_ok w (length x) x) xs ->
  mask_cat w junk xs = Some (concat xs).
Proof. exact mask_cat_spec. Qed.
Theorem C51_mask_split : forall w k p junk m, 1 <= w -> (1 <= k)%nat -> length junk = k -> length m = (p * k)%nat -> (length m <= 64)%nat ->
  mask_ok w (length m) m ->
  exists parts, mask_split w junk m = Some parts /\ length parts = p /\ Forall (mask_ok w k) parts /\ concat parts = m.
Proof. exact mask_split_spec. Qed.

(** abs of signed integer lanes: the magnitude, except for the minimum of the type, which is undefined for int and
    wider and returned unchanged for the narrower types. *)
Theorem C51_abs_int : forall w x, 1 <= w -> inS w x ->
  (x <> - 2 ^ (w - 1) -> simd_abs_lane w x = Some (Z.abs x)) /\
  (x = - 2 ^ (w - 1) -> simd_abs_lane w x = if w <? 32 then Some x else None).
Proof. exact simd_abs_spec. Qed.

(** Concrete masks and vectors meeting the hypotheses. *)
Example C51_ex :
  let m := [4294967295; 0; 0; 4294967295] in
  let v := [1065353216; 3212836864; 2143289344; 1073741824] in
  mask_ok 32 4 m /\ vec_ok 32 4 v /\ mlanes m = [true; false; false; true] /\
  select_bits 32 m v [7; 7; 7; 7] = [1065353216; 7; 7; 1073741824] /\
  reduce_min_index m = 0%nat /\ reduce_max_index m = 3%nat /\ to_ullong m = Some 9 /\ from_bits 32 [5; 5; 5; 5] 9 = Some m /\
  selected (mlanes m) v = [1065353216; 1073741824] /\
  reduce_min_masked (select_bits 32) (f_lt binary32) (f_inf binary32 false) v m = 1065353216 /\
  reduce_max_masked select_lanes (f_lt binary32) (f_inf binary32 true) v m = 1073741824 /\
  hadd (f_add binary32 RNE) 0 [1065353216; 1073741824] = 1077936128 /\
  hadd (fun a b => wrap 8 (a + b)) 0 [200; 100; 7] = 51 /\
  simd_cat [9; 9; 9] [[1; 2]; [3]] = [1; 2; 3] /\ simd_split [0; 0] [1; 2; 3; 4] = [[1; 2]; [3; 4]] /\
  mask_cat 32 [1; 1; 1; 1] [[4294967295; 0]; [0; 4294967295]] = Some m /\ mask_split 32 [3; 3] m = Some [[4294967295; 0]; [0; 4294967295]] /\
  where_copy_from m [1; 2; 3; 4] (fun i => match i with O => Some 10 | 3%nat => Some 13 | _ => None end) = Some [10; 2; 3; 13].
Proof.
  cbv zeta. split; [split; [reflexivity|repeat (apply Forall_cons; [first [left; reflexivity | right; reflexivity]|]); apply Forall_nil]|].
  split; [split; [reflexivity|repeat constructor; vm_compute; congruence]|].
  repeat match goal with |- _ /\ _ => split end; vm_compute; reflexivity.
Qed.
(** The identities of the masked integer reductions: int32_t maximum and minimum, uint32_t maximum. *)
Example C51_identities :
  (forall x, 0 <= x < 2 ^ 32 -> to_signed 32 x <= to_signed 32 2147483647) /\
  (forall x, 0 <= x < 2 ^ 32 -> to_signed 32 x = to_signed 32 2147483647 -> x = 2147483647) /\
  (forall x, 0 <= x < 2 ^ 32 -> to_signed 32 2147483648 <= to_signed 32 x) /\
  (forall x, 0 <= x < 2 ^ 32 -> to_signed 32 x = to_signed 32 2147483648 -> x = 2147483648) /\
  (forall x, 0 <= x < 2 ^ 32 -> x <= 4294967295).
Proof.
  change (to_signed 32 2147483647) with 2147483647. change (to_signed 32 2147483648) with (-2147483648).
  unfold to_signed. change (2 ^ (32 - 1)) with 2147483648. change (2 ^ 32) with 4294967296.
  repeat split; intros x Hx; destruct (Z.ltb_spec x 2147483648); lia.
Qed.
(** The sum bound's hypothesis holds for ordinary lanes. *)
Example C51_sum_hyp : let v := [1065353216; 1073741824] in
  (Forall (fun x => is_fin binary32 x = true) v /\ sumA binary32 v * (1 + ulpfac binary32 RNE) ^ length v < bpow radix2 (bias binary32))%R.
Proof.
  cbv zeta. split; [repeat constructor|].
  assert (E1 : fval binary32 1065353216 = 1%R).
  { unfold fval. replace (decode binary32 1065353216) with (DFin false 8388608 (-23)) by (vm_compute; reflexivity). cbn. lra. }
  assert (E2 : fval binary32 1073741824 = 2%R).
  { unfold fval. replace (decode binary32 1073741824) with (DFin false 8388608 (-22)) by (vm_compute; reflexivity). cbn. lra. }
  cbn [sumA fold_right length pow]. rewrite E1, E2, !Rabs_pos_eq by lra. unfold ulpfac.
  assert (U : (0 < bpow radix2 (- prec binary32) <= 1)%R).
  { split; [apply bpow_gt_0|]. change 1%R with (bpow radix2 0). apply bpow_le. vm_compute. congruence. }
  assert (B : (16 <= bpow radix2 (bias binary32))%R).
  { change 16%R with (bpow radix2 4). apply bpow_le. vm_compute. congruence. }
  set (u := bpow radix2 (- prec binary32)) in *. nra.
Qed.

Print Assumptions C51_mask_operators.
Print Assumptions C51_mask_sources.
Print Assumptions C51_mask_reductions.
Print Assumptions C51_min_index.
Print Assumptions C51_max_index.
Print Assumptions C51_to_ullong.
Print Assumptions C51_from_bits.
Print Assumptions C51_bits_roundtrip.
Print Assumptions C51_select.
Print Assumptions C51_select_raw_refuted.
Print Assumptions C51_elementwise.
Print Assumptions C51_reduce.
Print Assumptions C51_reduce_assoc.
Print Assumptions C51_sum_unsigned.
Print Assumptions C51_sum_float.
Print Assumptions C51_sum_negative_zero_refuted.
Print Assumptions C51_reduce_masked.
Print Assumptions C51_minus_zero_neutral.
Print Assumptions C51_plus_zero_refuted.
Print Assumptions C51_min_max_int.
Print Assumptions C51_min_masked_int.
Print Assumptions C51_max_masked_int.
Print Assumptions C51_min_max_float.
Print Assumptions C51_min_max_nan.
Print Assumptions C51_min_order_refuted.
Print Assumptions C51_min_max_masked_float.
Print Assumptions C51_vector_min_max.
Print Assumptions C51_max_backends_refuted.
Print Assumptions C51_where.
Print Assumptions C51_masked_load.
Print Assumptions C51_masked_store.
Print Assumptions C51_cat.
Print Assumptions C51_split.
Print Assumptions C51_split_cat.
Print Assumptions C51_mask_cat.
Print Assumptions C51_mask_split.
Print Assumptions C51_abs_int.
