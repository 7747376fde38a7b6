(** * Proofs about the data-parallel types *)
From Coq Require Import ZArith Bool List Lia.
Import ListNotations.
From Verif Require Import MachInt Simd SimdSpec.
Open Scope Z_scope.

(** ** Loops over lanes *)
Lemma unroll_S : forall A n (b : nat -> A -> A) s, unroll (S n) b s = b n (unroll n b s).
Proof. intros. unfold unroll. rewrite seq_S, fold_left_app. reflexivity. Qed.

Lemma upd_length : forall A (v : list A) i x, length (upd v i x) = length v.
Proof. induction v; intros [|i] x; simpl; auto. Qed.

Lemma nth_upd : forall A (v : list A) i j x d, (i < length v)%nat ->
  nth j (upd v i x) d = if Nat.eqb j i then x else nth j v d.
Proof.
  induction v as [|a v IH]; intros [|i] [|j] x d H; simpl in *; try lia; auto.
  apply IH. lia.
Qed.

Lemma unroll_upd : forall n (r : list Z) (off : nat) f, (off + n <= length r)%nat ->
  length (unroll n (fun i r => upd r (off + i) (f i)) r) = length r /\
  forall j d, nth j (unroll n (fun i r => upd r (off + i) (f i)) r) d =
    if (Nat.leb off j && Nat.ltb j (off + n))%bool then f (j - off)%nat else nth j r d.
Proof.
  induction n; intros r off f H.
  - unfold unroll. simpl. split; auto. intros.
    destruct (Nat.leb_spec off j); destruct (Nat.ltb_spec j (off + 0)); simpl; auto; lia.
  - destruct (IHn r off f ltac:(lia)) as [L E]. rewrite unroll_S. split.
    + rewrite upd_length. exact L.
    + intros j d. rewrite nth_upd by (rewrite L; lia). rewrite E.
      destruct (Nat.eqb_spec j (off + n)).
      * subst. replace (Nat.leb off (off + n)) with true by (symmetry; apply Nat.leb_le; lia).
        replace (Nat.ltb (off + n) (off + S n)) with true by (symmetry; apply Nat.ltb_lt; lia).
        simpl. f_equal. lia.
      * destruct (Nat.leb_spec off j); destruct (Nat.ltb_spec j (off + n)); destruct (Nat.ltb_spec j (off + S n)); simpl; auto; lia.
Qed.

Lemma fill_length : forall junk f, length (fill junk f) = length junk.
Proof. intros. unfold fill. apply (unroll_upd (length junk) junk 0 f); lia. Qed.

Lemma fill_nth : forall junk f i, (i < length junk)%nat -> nth i (fill junk f) 0 = f i.
Proof.
  intros. unfold fill. destruct (unroll_upd (length junk) junk 0 f) as [_ E]; [lia|].
  simpl in E. rewrite E. destruct (Nat.ltb_spec i (length junk)); [|lia]. f_equal. lia.
Qed.

Lemma fill_map : forall junk f, fill junk f = map f (seq 0 (length junk)).
Proof.
  intros. apply nth_ext with (d := 0) (d' := f 0%nat).
  - rewrite fill_length, map_length, seq_length. reflexivity.
  - intros i Hi. rewrite fill_length in Hi. rewrite fill_nth by exact Hi.
    rewrite map_nth. rewrite seq_nth by exact Hi. f_equal.
Qed.

Lemma map_lane : forall v, map (lane v) (seq 0 (length v)) = v.
Proof.
  intros. apply nth_ext with (d := lane v 0) (d' := 0).
  - rewrite map_length, seq_length. reflexivity.
  - intros i Hi. rewrite map_length, seq_length in Hi. rewrite map_nth, seq_nth by exact Hi. reflexivity.
Qed.

Lemma fold_left_map_ : forall A B C (g : A -> C -> A) (h : B -> C) l s,
  fold_left g (map h l) s = fold_left (fun s x => g s (h x)) l s.
Proof. induction l; simpl; intros; auto. Qed.

Lemma unroll_fold : forall A (g : A -> Z -> A) v s,
  unroll (length v) (fun i s => g s (lane v i)) s = fold_left g v s.
Proof.
  intros. unfold unroll. transitivity (fold_left g (map (lane v) (seq 0 (length v))) s);
    [rewrite fold_left_map_; reflexivity | rewrite map_lane; reflexivity].
Qed.

Lemma seq_lanes2 : forall A (f : Z -> Z -> A) a b, length b = length a ->
  map (fun i => f (lane a i) (lane b i)) (seq 0 (length a)) = zip f a b.
Proof.
  intros A f. induction a as [|x a IH]; intros [|y b] H; simpl in *; try lia; auto.
  f_equal. rewrite <- seq_shift, map_map. apply (IH b). lia.
Qed.
Lemma seq_lanes1 : forall A (f : Z -> A) a, map (fun i => f (lane a i)) (seq 0 (length a)) = map f a.
Proof. intros. transitivity (map f (map (lane a) (seq 0 (length a)))); [rewrite map_map; reflexivity | rewrite map_lane; reflexivity]. Qed.

Lemma fill1 : forall f a, fill a (fun i => f (lane a i)) = map f a.
Proof. intros. rewrite fill_map. apply seq_lanes1. Qed.
Lemma fill2 : forall f a b, length b = length a -> fill a (fun i => f (lane a i) (lane b i)) = zip f a b.
Proof. intros. rewrite fill_map. apply seq_lanes2; auto. Qed.

Lemma zip_length : forall A B C (f : A -> B -> C) a b, length b = length a -> length (zip f a b) = length a.
Proof. induction a; intros [|y b] H; simpl in *; auto; try lia. Qed.
Lemma zip_nth : forall A B C (f : A -> B -> C) a b i d1 d2 d, length b = length a -> (i < length a)%nat ->
  nth i (zip f a b) d = f (nth i a d1) (nth i b d2).
Proof.
  induction a as [|x a IH]; intros [|y b] [|i] d1 d2 d H Hi; simpl in *; try lia; auto. apply IH; lia.
Qed.
Lemma map_zip : forall A B C D (g : C -> D) (f : A -> B -> C) a b, map g (zip f a b) = zip (fun x y => g (f x y)) a b.
Proof. induction a; intros [|y b]; simpl; auto. f_equal; auto. Qed.
Lemma zip_map : forall A B C D E (f : C -> D -> E) (g : A -> C) (h : B -> D) a b,
  zip f (map g a) (map h b) = zip (fun x y => f (g x) (h y)) a b.
Proof. induction a; intros [|y b]; simpl; auto. f_equal; auto. Qed.

(** ** Masks *)
Section Mask.
Context (w : Z) (Hw : 1 <= w).
Local Notation full := (2 ^ w - 1).
Lemma full_pos : 0 < full.
Proof. pose proof (pow2_le 1 w Hw). change (2 ^ 1) with 2 in H. lia. Qed.
Lemma unot0 : unot w 0 = full. Proof. unfold unot. lia. Qed.
Lemma unotf : unot w full = 0. Proof. unfold unot. lia. Qed.
Lemma landf : forall x, 0 <= x < 2 ^ w -> Z.land full x = x.
Proof. intros. rewrite Z.land_comm, land_ones_mod by lia. apply Z.mod_small. lia. Qed.
Lemma landff : Z.land full full = full. Proof. apply Z.land_diag. Qed.
Lemma nz_full : (full =? 0) = false. Proof. pose proof full_pos. lia. Qed.

Definition cl (x : Z) := x = 0 \/ x = full.
Lemma mask_int_cl : forall b, cl (mask_int w b).
Proof. intros []; unfold mask_int, cl; rewrite ?unot0; auto. Qed.
Lemma mask_int_nz : forall b, negb (mask_int w b =? 0) = b.
Proof. intros []; unfold mask_int; rewrite ?unot0, ?nz_full; reflexivity. Qed.

Ltac cls := unfold cl; intros; repeat match goal with H : cl _ |- _ => destruct H; subst end; unfold unot;
  rewrite ?Z.land_0_r, ?Z.land_0_l, ?Z.lor_0_r, ?Z.lor_0_l, ?Z.lxor_0_r, ?Z.lxor_0_l, ?Z.land_diag, ?Z.lor_diag, ?Z.lxor_nilpotent,
   ?Z.sub_0_r, ?Z.sub_diag, ?nz_full; auto.
Lemma cl_land : forall x y, cl x -> cl y -> cl (Z.land x y) /\ negb (Z.land x y =? 0) = negb (x =? 0) && negb (y =? 0).
Proof. intros x y [->| ->] [->| ->]; split; cls. Qed.
Lemma cl_lor : forall x y, cl x -> cl y -> cl (Z.lor x y) /\ negb (Z.lor x y =? 0) = negb (x =? 0) || negb (y =? 0).
Proof. intros x y [->| ->] [->| ->]; split; cls. Qed.
Lemma cl_lxor : forall x y, cl x -> cl y -> cl (Z.lxor x y) /\ negb (Z.lxor x y =? 0) = xorb (negb (x =? 0)) (negb (y =? 0)).
Proof. intros x y [->| ->] [->| ->]; split; cls. Qed.
Lemma cl_not : forall x, cl x -> cl (unot w x) /\ negb (unot w x =? 0) = negb (negb (x =? 0)).
Proof. intros x [->| ->]; split; cls. Qed.

Lemma Forall_zip : forall (P : Z -> Prop) (f : Z -> Z -> Z) a b,
  (forall x y, P x -> P y -> P (f x y)) -> Forall P a -> Forall P b -> Forall P (zip f a b).
Proof.
  intros P f a b Hf HA. revert b. induction HA; intros b HB; simpl; auto.
  destruct HB; constructor; auto.
Qed.
Lemma zip_ext_cl : forall A (f g : Z -> Z -> A) a b,
  (forall x y, cl x -> cl y -> f x y = g x y) -> Forall cl a -> Forall cl b -> zip f a b = zip g a b.
Proof.
  intros A f g a b Hf HA. revert b. induction HA; intros b HB; simpl; auto.
  destruct HB; f_equal; auto.
Qed.

Definition lift2 (f : Z -> Z -> Z) (g : bool -> bool -> bool) : Prop := forall x y, cl x -> cl y ->
  cl (f x y) /\ negb (f x y =? 0) = g (negb (x =? 0)) (negb (y =? 0)).
Lemma mask_lift2 : forall f g n a b, lift2 f g -> mask_ok w n a -> mask_ok w n b ->
  mask_ok w n (fill a (fun i => f (lane a i) (lane b i))) /\
  mlanes (fill a (fun i => f (lane a i) (lane b i))) = zip g (mlanes a) (mlanes b).
Proof.
  intros f g n a b L [La Ca] [Lb Cb]. rewrite fill2 by lia. split.
  - split; [rewrite zip_length; lia|]. apply Forall_zip; auto. intros; apply L; auto.
  - unfold mlanes. rewrite map_zip, zip_map. apply zip_ext_cl; auto. intros; apply L; auto.
Qed.
Lemma mask_lift1 : forall f g n a, (forall x, cl x -> cl (f x) /\ negb (f x =? 0) = g (negb (x =? 0))) -> mask_ok w n a ->
  mask_ok w n (fill a (fun i => f (lane a i))) /\ mlanes (fill a (fun i => f (lane a i))) = map g (mlanes a).
Proof.
  intros f g n a L [La Ca]. rewrite fill1. split.
  - split; [rewrite map_length; auto|]. apply Forall_map. eapply Forall_impl; [|exact Ca]. intros; apply L; auto.
  - unfold mlanes. rewrite !map_map. clear La. induction Ca; simpl; auto. f_equal; auto. apply L; auto.
Qed.

Lemma mand_spec : forall n a b, mask_ok w n a -> mask_ok w n b ->
  mask_ok w n (mand a b) /\ mlanes (mand a b) = zip andb (mlanes a) (mlanes b).
Proof. intros. apply (mask_lift2 Z.land andb); auto. exact cl_land. Qed.
Lemma mor_spec : forall n a b, mask_ok w n a -> mask_ok w n b ->
  mask_ok w n (mor a b) /\ mlanes (mor a b) = zip orb (mlanes a) (mlanes b).
Proof. intros. apply (mask_lift2 Z.lor orb); auto. exact cl_lor. Qed.
Lemma mxor_spec : forall n a b, mask_ok w n a -> mask_ok w n b ->
  mask_ok w n (mxor a b) /\ mlanes (mxor a b) = zip xorb (mlanes a) (mlanes b).
Proof. intros. apply (mask_lift2 Z.lxor xorb); auto. exact cl_lxor. Qed.
Lemma mnot_spec : forall n a, mask_ok w n a -> mask_ok w n (mnot w a) /\ mlanes (mnot w a) = map negb (mlanes a).
Proof. intros. apply (mask_lift1 (unot w) negb); auto. exact cl_not. Qed.
Lemma mask_eq_spec : forall n a b, mask_ok w n a -> mask_ok w n b ->
  mask_ok w n (mask_eq w a b) /\ mlanes (mask_eq w a b) = zip Bool.eqb (mlanes a) (mlanes b).
Proof.
  intros n a b A B. destruct (mxor_spec n a b A B) as [O E]. destruct (mnot_spec n _ O) as [O' E'].
  split; [exact O'|]. unfold mask_eq. rewrite E', E, map_zip.
  clear. generalize (mlanes a) (mlanes b). induction l; intros [|y l0]; simpl; auto. f_equal; auto. destruct a0, y; reflexivity.
Qed.
Lemma mask_ne_spec : forall n a b, mask_ok w n a -> mask_ok w n b ->
  mask_ok w n (mask_ne a b) /\ mlanes (mask_ne a b) = zip xorb (mlanes a) (mlanes b).
Proof. exact mxor_spec. Qed.

Lemma mlanes_fill : forall junk f, mlanes (fill junk (fun i => mask_int w (f i))) = map f (seq 0 (length junk)).
Proof. intros. rewrite fill_map. unfold mlanes. rewrite map_map. apply map_ext. intros; apply mask_int_nz. Qed.
Lemma fill_ok : forall junk f, mask_ok w (length junk) (fill junk (fun i => mask_int w (f i))).
Proof.
  intros. split; [apply fill_length|]. rewrite fill_map. apply Forall_map. apply Forall_forall. intros; apply mask_int_cl.
Qed.
Lemma map_const : forall A (b : A) n k, map (fun _ : nat => b) (seq k n) = repeat b n.
Proof. induction n; simpl; intros; auto. f_equal; auto. Qed.
Lemma mbroadcast_spec : forall n junk b, length junk = n ->
  mask_ok w n (mbroadcast w junk b) /\ mlanes (mbroadcast w junk b) = repeat b n.
Proof.
  intros n junk b <-. split; [apply (fill_ok junk (fun _ => b))|].
  unfold mbroadcast. rewrite (mlanes_fill junk (fun _ => b)). apply map_const.
Qed.
Lemma vcmp_spec : forall op n a b, length a = n -> length b = n ->
  mask_ok w n (vcmp w op a b) /\ mlanes (vcmp w op a b) = zip op a b.
Proof.
  intros op n a b <- Hb. split; [apply (fill_ok a (fun i => op (lane a i) (lane b i)))|].
  unfold vcmp. rewrite (mlanes_fill a (fun i => op (lane a i) (lane b i))). apply seq_lanes2; auto.
Qed.

(** ** Mask reductions *)
Lemma fold_andb : forall m acc, fold_left (fun r x => r && negb (x =? 0)) m acc = acc && forallb (fun b => b) (mlanes m).
Proof. induction m; simpl; intros. { rewrite andb_true_r; auto. } rewrite IHm, <- andb_assoc. reflexivity. Qed.
Lemma fold_orb : forall m acc, fold_left (fun r x => r || negb (x =? 0)) m acc = acc || existsb (fun b => b) (mlanes m).
Proof. induction m; simpl; intros. { rewrite orb_false_r; auto. } rewrite IHm, <- orb_assoc. reflexivity. Qed.
Lemma all_of_loop_spec : forall m, all_of_loop m = forallb (fun b => b) (mlanes m).
Proof. intros. unfold all_of_loop. rewrite (unroll_fold bool (fun r x => r && negb (x =? 0))). apply fold_andb. Qed.
Lemma any_of_loop_spec : forall m, any_of_loop m = existsb (fun b => b) (mlanes m).
Proof. intros. unfold any_of_loop. rewrite (unroll_fold bool (fun r x => r || negb (x =? 0))). apply fold_orb. Qed.
Lemma all_of_red_spec : forall n m, mask_ok w n m -> all_of_red w m = all_of_loop m.
Proof.
  intros n m [_ C]. rewrite all_of_loop_spec. unfold all_of_red. rewrite unot0.
  assert (G : forall acc, cl acc -> negb (fold_left Z.land m acc =? 0) = negb (acc =? 0) && forallb (fun b => b) (mlanes m)).
  { induction C; intros acc Ha; simpl. { rewrite andb_true_r; auto. }
    destruct (cl_land acc x Ha H) as [K E]. rewrite (IHC _ K), E, <- andb_assoc. reflexivity. }
  rewrite G by (right; auto). rewrite nz_full. reflexivity.
Qed.
Lemma any_of_red_spec : forall n m, mask_ok w n m -> any_of_red m = any_of_loop m.
Proof.
  intros n m [_ C]. rewrite any_of_loop_spec. unfold any_of_red.
  assert (G : forall acc, cl acc -> negb (fold_left Z.lor m acc =? 0) = negb (acc =? 0) || existsb (fun b => b) (mlanes m)).
  { induction C; intros acc Ha; simpl. { rewrite orb_false_r; auto. }
    destruct (cl_lor acc x Ha H) as [K E]. rewrite (IHC _ K), E, <- orb_assoc. reflexivity. }
  rewrite G by (left; auto). reflexivity.
Qed.
Lemma popcount_spec : forall m, popcount m = Z.of_nat (count_occ Bool.bool_dec (mlanes m) true).
Proof.
  intros. unfold popcount. rewrite (unroll_fold Z (fun r x => r + (if negb (x =? 0) then 1 else 0))).
  assert (G : forall acc, fold_left (fun r x => r + (if negb (x =? 0) then 1 else 0)) m acc =
    acc + Z.of_nat (count_occ Bool.bool_dec (mlanes m) true)).
  { induction m; simpl; intros. { lia. }
    rewrite IHm. destruct (a =? 0); simpl; lia. }
  rewrite G. lia.
Qed.

Lemma mget_nth : forall m i, (i < length m)%nat -> mget m i = nth i (mlanes m) false.
Proof.
  intros. unfold mlanes. rewrite nth_indep with (d' := negb (0 =? 0)) by (rewrite map_length; auto).
  rewrite (map_nth (fun x => negb (x =? 0))). reflexivity.
Qed.
Lemma min_from : forall n m i, (i + n <= length m)%nat ->
  (exists j, (i <= j < i + n)%nat /\ min_index_from m i n = j /\ mget m j = true /\ forall k, (i <= k < j)%nat -> mget m k = false)
  \/ (min_index_from m i n = length m /\ forall k, (i <= k < i + n)%nat -> mget m k = false).
Proof.
  induction n; intros m i H; simpl.
  - right. split; auto. intros; lia.
  - destruct (mget m i) eqn:E.
    + left. exists i. split; [lia|]. split; auto. split; auto. intros; lia.
    + destruct (IHn m (S i) ltac:(lia)) as [(j & Hj & -> & Hm & K) | [-> K]].
      * left. exists j. split; [lia|]. split; auto. split; auto. intros k Hk.
        destruct (Nat.eq_dec k i); [subst; auto|apply K; lia].
      * right. split; auto. intros k Hk. destruct (Nat.eq_dec k i); [subst; auto|apply K; lia].
Qed.
Lemma reduce_min_index_spec : forall m,
  (reduce_min_index m < length m /\ nth (reduce_min_index m) (mlanes m) false = true /\
    forall k, (k < reduce_min_index m)%nat -> nth k (mlanes m) false = false)%nat
  \/ (reduce_min_index m = length m /\ forall k, nth k (mlanes m) false = false).
Proof.
  intros. unfold reduce_min_index. destruct (min_from (length m) m 0 ltac:(lia)) as [(j & Hj & -> & Hm & K) | [-> K]].
  - left. split; [lia|]. rewrite <- mget_nth by lia. split; auto. intros k Hk. rewrite <- mget_nth by lia. apply K. lia.
  - right. split; auto. intros k. destruct (Nat.lt_ge_cases k (length m)).
    + rewrite <- mget_nth by lia. apply K. lia.
    + apply nth_overflow. unfold mlanes. rewrite map_length. auto.
Qed.
Lemma max_below : forall n m, (n <= length m)%nat ->
  (exists j, (j < n)%nat /\ max_index_below m n = j /\ mget m j = true /\ forall k, (j < k < n)%nat -> mget m k = false)
  \/ (max_index_below m n = length m /\ forall k, (k < n)%nat -> mget m k = false).
Proof.
  induction n; intros m H; simpl.
  - right. split; auto. intros; lia.
  - destruct (mget m n) eqn:E.
    + left. exists n. split; [lia|]. split; auto. split; auto. intros; lia.
    + destruct (IHn m ltac:(lia)) as [(j & Hj & -> & Hm & K) | [-> K]].
      * left. exists j. split; [lia|]. split; auto. split; auto. intros k Hk.
        destruct (Nat.eq_dec k n); [subst; auto|apply K; lia].
      * right. split; auto. intros k Hk. destruct (Nat.eq_dec k n); [subst; auto|apply K; lia].
Qed.
Lemma reduce_max_index_spec : forall m,
  (reduce_max_index m < length m /\ nth (reduce_max_index m) (mlanes m) false = true /\
    forall k, (reduce_max_index m < k)%nat -> nth k (mlanes m) false = false)%nat
  \/ (reduce_max_index m = length m /\ forall k, nth k (mlanes m) false = false).
Proof.
  assert (O : forall m k, (length m <= k)%nat -> nth k (mlanes m) false = false).
  { intros. apply nth_overflow. unfold mlanes. rewrite map_length. auto. }
  intros. unfold reduce_max_index. destruct (max_below (length m) m ltac:(lia)) as [(j & Hj & -> & Hm & K) | [-> K]].
  - left. split; [lia|]. rewrite <- mget_nth by lia. split; auto. intros k Hk.
    destruct (Nat.lt_ge_cases k (length m)); [rewrite <- mget_nth by lia; apply K; lia | auto].
  - right. split; auto. intros k. destruct (Nat.lt_ge_cases k (length m)); [rewrite <- mget_nth by lia; apply K; lia | auto].
Qed.

(** ** Bit serialisation *)
Lemma ushl1 : forall i, 0 <= i < 64 -> ushl 64 1 i = Some (2 ^ i).
Proof.
  intros. unfold ushl. replace ((0 <=? i) && (i <? 64)) with true by (symmetry; rewrite andb_true_iff; lia).
  rewrite Z.shiftl_mul_pow2, Z.mul_1_l by lia. rewrite wrap_small; auto.
  split; [apply pow2_nonneg|apply pow2_lt; lia].
Qed.
Lemma to_ullong_spec : forall m, (length m <= 64)%nat -> exists bits,
  to_ullong m = Some bits /\ 0 <= bits < 2 ^ Z.of_nat (length m) /\
  forall i, Z.testbit bits (Z.of_nat i) = nth i (mlanes m) false.
Proof.
  intros m Hm. unfold to_ullong.
  assert (G : forall n, (n <= length m)%nat -> exists bits,
    unroll n (fun i r => do bits <- r;
      if mget m i then do s <- ushl 64 1 (Z.of_nat i); Some (Z.lor bits s) else Some bits) (Some 0) = Some bits /\
    0 <= bits < 2 ^ Z.of_nat n /\ forall i, Z.testbit bits (Z.of_nat i) = Nat.ltb i n && nth i (mlanes m) false).
  { induction n; intros H.
    - exists 0. unfold unroll; simpl. split; auto. split; [lia|]. intros. rewrite Z.testbit_0_l. reflexivity.
    - destruct (IHn ltac:(lia)) as (b & E & R & T). rewrite unroll_S, E. cbn [bindo].
      assert (P : 2 ^ Z.of_nat (S n) = 2 * 2 ^ Z.of_nat n).
      { rewrite Nat2Z.inj_succ. apply Z.pow_succ_r. lia. }
      destruct (mget m n) eqn:Em.
      + rewrite ushl1 by lia. cbn [bindo]. exists (Z.lor b (2 ^ Z.of_nat n)). split; auto. split.
        * change (inU (Z.of_nat (S n)) (Z.lor b (2 ^ Z.of_nat n))). apply inU_lor; unfold inU; lia.
        * intros i. rewrite Z.lor_spec, T, Z.pow2_bits_eqb by lia.
          rewrite mget_nth in Em by lia.
          destruct (Nat.ltb_spec i n); destruct (Nat.ltb_spec i (S n)); destruct (Z.eqb_spec (Z.of_nat n) (Z.of_nat i)); simpl; try lia;
            rewrite ?orb_false_r; auto. replace i with n by lia. auto.
      + exists b. split; auto. split; [lia|]. intros i. rewrite T. rewrite mget_nth in Em by lia.
        destruct (Nat.ltb_spec i n); destruct (Nat.ltb_spec i (S n)); simpl; try lia; auto.
        replace i with n by lia. auto. }
  destruct (G (length m) ltac:(lia)) as (b & E & R & T). exists b. split; auto. split; auto.
  intros i. rewrite T. destruct (Nat.ltb_spec i (length m)); auto. simpl. symmetry. apply nth_overflow.
  unfold mlanes. rewrite map_length. auto.
Qed.

Lemma from_bits_spec : forall junk bits, (length junk <= 64)%nat -> 0 <= bits -> exists m,
  from_bits w junk bits = Some m /\ mask_ok w (length junk) m /\
  forall i, (i < length junk)%nat -> nth i (mlanes m) false = Z.testbit bits (Z.of_nat i).
Proof.
  intros junk bits Hj Hb.
  assert (G : from_bits w junk bits = Some (fill junk (fun i => mask_int w (Z.testbit bits (Z.of_nat i))))).
  { unfold from_bits, fill.
    assert (G : forall n, (n <= 64)%nat -> unroll n (fun i r => do r <- r; do s <- ushr 64 bits (Z.of_nat i);
        Some (mset w r i (negb (Z.land s 1 =? 0)))) (Some junk) =
        Some (unroll n (fun i r => upd r i (mask_int w (Z.testbit bits (Z.of_nat i)))) junk)).
    { induction n; intros H; [reflexivity|]. rewrite !unroll_S, IHn by lia. cbn [bindo].
      unfold ushr. replace ((0 <=? Z.of_nat n) && (Z.of_nat n <? 64)) with true by (symmetry; rewrite andb_true_iff; lia).
      cbn [bindo]. unfold mset. do 4 f_equal.
      change 1 with (Z.ones 1). rewrite Z.land_ones by lia. change (2 ^ 1) with 2.
      rewrite <- (Z.bit0_mod (Z.shiftr bits (Z.of_nat n))), Z.shiftr_spec by lia. rewrite Z.add_0_l.
      destruct (Z.testbit bits (Z.of_nat n)); reflexivity. }
    apply G; auto. }
  exists (fill junk (fun i => mask_int w (Z.testbit bits (Z.of_nat i)))). split; [exact G|]. split.
  - apply (fill_ok junk (fun i => Z.testbit bits (Z.of_nat i))).
  - intros i Hi. rewrite (mlanes_fill junk (fun i => Z.testbit bits (Z.of_nat i))).
    rewrite nth_indep with (d' := Z.testbit bits (Z.of_nat 0)) by (rewrite map_length, seq_length; auto).
    rewrite (map_nth (fun i => Z.testbit bits (Z.of_nat i))), seq_nth by auto. reflexivity.
Qed.

Lemma mlanes_length : forall m, length (mlanes m) = length m.
Proof. intros; apply map_length. Qed.
Lemma mask_inj : forall n a b, mask_ok w n a -> mask_ok w n b -> mlanes a = mlanes b -> a = b.
Proof.
  intros n a b [La Ca] [Lb Cb]. revert n b La Lb Cb. induction Ca; intros n b La Lb Cb E.
  - destruct b; auto. simpl in *. lia.
  - destruct Cb as [|y b Hy Cb]; [simpl in *; lia|]. simpl in E. injection E. intros E2 E1.
    f_equal.
    + destruct H as [->| ->]; destruct Hy as [->| ->]; auto; rewrite nz_full in E1; discriminate.
    + destruct n; simpl in *; [lia|]. apply (IHCa n b); auto; lia.
Qed.

Lemma bits_roundtrip : forall n m junk, mask_ok w n m -> (n <= 64)%nat -> length junk = n ->
  exists bits, to_ullong m = Some bits /\ from_bits w junk bits = Some m.
Proof.
  intros n m junk Om Hn Hj. assert (L := proj1 Om). destruct (to_ullong_spec m ltac:(lia)) as (b & E & R & T).
  exists b. split; auto. destruct (from_bits_spec junk b ltac:(lia) ltac:(lia)) as (m' & E' & O' & T').
  rewrite E'. f_equal. rewrite Hj in *. apply (mask_inj n); auto.
  apply nth_ext with (d := false) (d' := false).
  - rewrite !mlanes_length. destruct O', Om. lia.
  - intros i Hi. rewrite mlanes_length in Hi. destruct O' as [L' _]. rewrite T' by lia. apply T.
Qed.

(** ** Select *)
Lemma choose_nth : forall n m a b i, length m = n -> length a = n -> length b = n -> (i < n)%nat ->
  nth i (choose m a b) 0 = if nth i m false then nth i a 0 else nth i b 0.
Proof.
  induction n; intros m a b i Hm Ha Hb Hi; [lia|].
  destruct m, a, b; simpl in *; try lia. destruct i; auto. apply IHn; lia.
Qed.
Lemma choose_length : forall n m a b, length m = n -> length a = n -> length b = n -> length (choose m a b) = n.
Proof. induction n; intros m a b Hm Ha Hb; destruct m, a, b; simpl in *; try lia. f_equal. apply IHn; lia. Qed.
Lemma lane_lt : forall n v i, vec_ok w n v -> (i < n)%nat -> 0 <= lane v i < 2 ^ w.
Proof. intros n v i [L C] Hi. rewrite Forall_forall in C. apply C. apply nth_In. lia. Qed.
Lemma lane_cl : forall n m i, mask_ok w n m -> (i < n)%nat -> cl (lane m i).
Proof. intros n v i [L C] Hi. rewrite Forall_forall in C. apply C. apply nth_In. lia. Qed.
Lemma select_lanes_spec : forall n m a b, length m = n -> length a = n -> length b = n ->
  select_lanes m a b = choose (mlanes m) a b.
Proof.
  intros n m a b Lm La Lb. assert (L' : length (mlanes m) = n) by (rewrite mlanes_length; auto).
  apply nth_ext with (d := 0) (d' := 0).
  - rewrite (choose_length n) by auto. unfold select_lanes. rewrite fill_length. auto.
  - intros i Hi. unfold select_lanes in *. rewrite fill_length in Hi. rewrite fill_nth by auto.
    rewrite (choose_nth n) by lia. rewrite <- mget_nth by lia. reflexivity.
Qed.
Lemma select_bits_spec : forall n m a b, mask_ok w n m -> vec_ok w n a -> vec_ok w n b ->
  select_bits w m a b = choose (mlanes m) a b.
Proof.
  intros n m a b Om Oa Ob. assert (Lm := proj1 Om). assert (La := proj1 Oa). assert (Lb := proj1 Ob).
  rewrite <- (select_lanes_spec n) by auto. apply nth_ext with (d := 0) (d' := 0).
  - unfold select_bits, select_lanes. rewrite !fill_length. auto.
  - intros i Hi. unfold select_lanes, select_bits in *. rewrite fill_length in Hi. rewrite !fill_nth by auto.
    rewrite La in Hi. pose proof (lane_lt n a i Oa Hi). pose proof (lane_lt n b i Ob Hi).
    destruct (lane_cl n m i Om Hi) as [-> | ->].
    + rewrite Z.land_0_l, Z.lor_0_l, unot0, landf by auto. reflexivity.
    + rewrite unotf, Z.land_0_l, Z.lor_0_r, landf, nz_full by auto. reflexivity.
Qed.
End Mask.
