(** * Proofs about the reductions, where expressions and concatenation of the data-parallel types *)
From Coq Require Import ZArith Bool List Lia Permutation.
Import ListNotations.
From Verif Require Import MachInt Simd SimdSpec SimdProofs.
Open Scope Z_scope.

Lemma vmap1_spec : forall f a, vmap1 f a = map f a.
Proof. intros; apply fill1. Qed.
Lemma vmap2_spec : forall f a b, length b = length a -> vmap2 f a b = zip f a b.
Proof. intros; apply fill2; auto. Qed.
Lemma broadcast_spec : forall junk x, broadcast junk x = repeat x (length junk).
Proof. intros. unfold broadcast. rewrite fill_map. apply map_const. Qed.

(** ** Sums and folds *)
Lemma hadd_fold : forall add zero v, hadd add zero v = fold_left add v zero.
Proof. intros. unfold hadd. apply (unroll_fold Z add). Qed.

Lemma hadd_unsigned : forall w v, 0 <= w -> hadd (fun a b => wrap w (a + b)) 0 v = wrap w (sumZ v).
Proof.
  intros w v Hw. rewrite hadd_fold.
  assert (G : forall acc, fold_left (fun a b => wrap w (a + b)) v (wrap w acc) = wrap w (acc + sumZ v)).
  { induction v; simpl; intros acc. { f_equal. lia. }
    rewrite wrap_add_l by lia. rewrite IHv. f_equal. lia. }
  specialize (G 0). unfold wrap in G at 2. rewrite Z.mod_0_l in G by (pose proof (pow2_pos w Hw); lia). exact G.
Qed.

Lemma seq_tail : forall v, map (lane v) (seq 1 (length v - 1)) = tl v.
Proof.
  intros [|a v]; auto. simpl. rewrite Nat.sub_0_r. rewrite <- seq_shift, map_map.
  apply (map_lane v).
Qed.
Lemma reduce_op_spec : forall op x v, reduce_op op (x :: v) = fold_left op v x.
Proof.
  intros. unfold reduce_op.
  rewrite <- (fold_left_map_ Z nat Z op (lane (x :: v))). rewrite seq_tail. reflexivity.
Qed.

(** The grouping is irrelevant for an associative operation. *)
Lemma fold_assoc : forall (op : Z -> Z -> Z) v x y, (forall a b c, op a (op b c) = op (op a b) c) -> fold_left op v (op x y) = op x (fold_left op v y).
Proof. intros op v. induction v; simpl; intros; auto. rewrite <- H. apply IHv; auto. Qed.
Lemma reduce_op_right : forall (op : Z -> Z -> Z) x v, (forall a b c, op a (op b c) = op (op a b) c) ->
  reduce_op op (x :: v) = fold_right op (last (x :: v) 0) (removelast (x :: v)).
Proof.
  intros op x v A. rewrite reduce_op_spec. revert x. induction v as [|y v IH]; intros x; [reflexivity|].
  change (fold_left op (y :: v) x) with (fold_left op v (op x y)). rewrite fold_assoc by auto.
  rewrite IH. reflexivity.
Qed.

Section Sel.
Context (sel : list Z -> list Z -> list Z -> list Z).

Lemma choose_repeat : forall (op : Z -> Z -> Z) e m v acc, (forall x, op x e = x) -> length m = length v ->
  fold_left op (choose m v (repeat e (length v))) acc = fold_left op (selected m v) acc.
Proof.
  intros op e m v acc E. revert v acc. induction m as [|c m IH]; intros [|x v] acc L; simpl in *; try lia; auto.
  destruct c; simpl; [apply IH; lia|]. rewrite E. apply IH. lia.
Qed.

Lemma reduce_masked_spec : forall n (op : Z -> Z -> Z) v m e, (1 <= n)%nat -> length m = n -> length v = n ->
  sel m v (broadcast v e) = choose (mlanes m) v (broadcast v e) ->
  (forall x, op x e = x) -> (forall x, op e x = x) ->
  reduce_masked sel op v m e = fold_left op (selected (mlanes m) v) e.
Proof.
  intros n op v m e Hn Lm Lv G R L. unfold reduce_masked. rewrite G, broadcast_spec.
  rewrite <- (choose_repeat op e) by (rewrite ?mlanes_length; auto; lia).
  destruct (mlanes m) eqn:Em; [apply (f_equal (@length bool)) in Em; rewrite mlanes_length in Em; simpl in Em; lia|].
  destruct v as [|x v]; simpl in Lv; [lia|].
  change (choose (b :: l) (x :: v) (repeat e (length (x :: v)))) with ((if b then x else e) :: choose l v (repeat e (length v))).
  rewrite reduce_op_spec. cbn [fold_left]. rewrite L. reflexivity.
Qed.
End Sel.

(** ** Minimum and maximum *)
Section Order.
Context (lt : Z -> Z -> bool).

Definition swo (v : list Z) : Prop :=
  (forall x, In x v -> lt x x = false) /\
  (forall x y z, In x v -> In y v -> In z v -> lt x y = true -> lt y z = true -> lt x z = true) /\
  (forall x y z, In x v -> In y v -> In z v -> lt x y = false -> lt y z = false -> lt x z = false).

Lemma hmin_fold : forall v, hmin lt v = fold_left (fun s x => if lt x s then x else s) v (lane v 0).
Proof. intros. unfold hmin. apply (unroll_fold Z (fun s x => if lt x s then x else s)). Qed.
Lemma hmax_fold : forall v, hmax lt v = fold_left (fun s x => if lt s x then x else s) v (lane v 0).
Proof. intros. unfold hmax. apply (unroll_fold Z (fun s x => if lt s x then x else s)). Qed.

Lemma asym : forall V, swo V -> forall x y, In x V -> In y V -> lt x y = true -> lt y x = false.
Proof.
  intros V (I & T & N) x y Hx Hy E. destruct (lt y x) eqn:E'; auto.
  pose proof (T x y x Hx Hy Hx E E'). rewrite I in H by auto. discriminate.
Qed.

Lemma least_fold : forall V, swo V -> forall v s, (forall x, In x v -> In x V) -> In s V ->
  let r := fold_left (fun s x => if lt x s then x else s) v s in
  (r = s \/ In r v) /\ lt s r = false /\ forall x, In x v -> lt x r = false.
Proof.
  intros V HV. destruct HV as (I & T & N). assert (HV : swo V) by (split; auto).
  induction v as [|a v IH]; intros s Hv Hs; simpl.
  - split; [left; auto|]. split; [apply I; auto|]. intros x [].
  - assert (Ha : In a V) by (apply Hv; left; auto).
    destruct (lt a s) eqn:E.
    + destruct (IH a) as (A & B & C); [intros; apply Hv; right; auto|auto|].
      assert (Hr : In (fold_left (fun s0 x => if lt x s0 then x else s0) v a) V).
      { destruct A as [-> | A]; auto. apply Hv. right; auto. }
      split; [destruct A as [A|A]; [right; left; symmetry; exact A|right; right; exact A]|]. split.
      * apply N with a; auto. apply (asym V HV); auto.
      * intros x [<- | Hx]; auto.
    + destruct (IH s) as (A & B & C); [intros; apply Hv; right; auto|auto|].
      assert (Hr : In (fold_left (fun s0 x => if lt x s0 then x else s0) v s) V).
      { destruct A as [-> | A]; auto. apply Hv. right; auto. }
      split; [destruct A as [A|A]; [left; exact A|right; right; exact A]|]. split; auto.
      intros x [<- | Hx]; auto. apply N with s; auto.
Qed.
Lemma greatest_fold : forall V, swo V -> forall v s, (forall x, In x v -> In x V) -> In s V ->
  let r := fold_left (fun s x => if lt s x then x else s) v s in
  (r = s \/ In r v) /\ lt r s = false /\ forall x, In x v -> lt r x = false.
Proof.
  intros V HV. destruct HV as (I & T & N). assert (HV : swo V) by (split; auto).
  induction v as [|a v IH]; intros s Hv Hs; simpl.
  - split; [left; auto|]. split; [apply I; auto|]. intros x [].
  - assert (Ha : In a V) by (apply Hv; left; auto).
    destruct (lt s a) eqn:E.
    + destruct (IH a) as (A & B & C); [intros; apply Hv; right; auto|auto|].
      assert (Hr : In (fold_left (fun s0 x => if lt s0 x then x else s0) v a) V).
      { destruct A as [-> | A]; auto. apply Hv. right; auto. }
      split; [destruct A as [A|A]; [right; left; symmetry; exact A|right; right; exact A]|]. split.
      * apply N with a; auto. apply (asym V HV); auto.
      * intros x [<- | Hx]; auto.
    + destruct (IH s) as (A & B & C); [intros; apply Hv; right; auto|auto|].
      assert (Hr : In (fold_left (fun s0 x => if lt s0 x then x else s0) v s) V).
      { destruct A as [-> | A]; auto. apply Hv. right; auto. }
      split; [destruct A as [A|A]; [left; exact A|right; right; exact A]|]. split; auto.
      intros x [<- | Hx]; auto. apply N with s; auto.
Qed.
Lemma hmin_least : forall v, (1 <= length v)%nat -> swo v -> is_least lt v (hmin lt v).
Proof.
  intros v L S. destruct v as [|a v]; [simpl in L; lia|].
  destruct (least_fold (a :: v) S (a :: v) a) as (A & B & C); [auto|left; auto|].
  rewrite hmin_fold. change (lane (a :: v) 0) with a. split; [destruct A as [E | A]; [rewrite E; left; auto|exact A]|exact C].
Qed.
Lemma hmax_greatest : forall v, (1 <= length v)%nat -> swo v -> is_greatest lt v (hmax lt v).
Proof.
  intros v L S. destruct v as [|a v]; [simpl in L; lia|].
  destruct (greatest_fold (a :: v) S (a :: v) a) as (A & B & C); [auto|left; auto|].
  rewrite hmax_fold. change (lane (a :: v) 0) with a. split; [destruct A as [E | A]; [rewrite E; left; auto|exact A]|exact C].
Qed.

(** Masked: the identity is above every selected lane; a lane not below it is it. *)
Lemma in_choose : forall m v e x, length m = length v -> In x (choose m v (repeat e (length v))) -> In x (selected m v) \/ x = e.
Proof.
  induction m as [|c m IH]; intros [|y v] e x L H; simpl in *; try lia; try tauto.
  destruct c; simpl in *.
  - destruct H as [<- | H]; [left; left; auto|]. destruct (IH v e x ltac:(lia) H); auto.
  - destruct H as [<- | H]; [right; auto|]. auto.
Qed.
Lemma selected_choose : forall m v e x, length m = length v -> In x (selected m v) -> In x (choose m v (repeat e (length v))).
Proof.
  induction m as [|c m IH]; intros [|y v] e x L H; simpl in *; try lia; try tauto.
  destruct c; simpl in *; [destruct H; [left; auto|right; apply IH; auto; lia]|right; apply IH; auto; lia].
Qed.
Lemma none_choose : forall m v e, length m = length v -> selected m v = [] -> choose m v (repeat e (length v)) = repeat e (length v).
Proof.
  induction m as [|c m IH]; intros [|y v] e L H; simpl in *; try lia; auto.
  destruct c; [discriminate|]. f_equal. apply IH; auto; lia.
Qed.
Lemma fold_stay : forall (f : Z -> Z -> Z) e n, f e e = e -> fold_left f (repeat e n) e = e.
Proof. induction n; simpl; intros; auto. rewrite H. auto. Qed.

Context (sel : list Z -> list Z -> list Z -> list Z) (e : Z).
Lemma min_masked_spec : forall m v, (1 <= length v)%nat -> length m = length v ->
  sel m v (broadcast v e) = choose (mlanes m) v (broadcast v e) ->
  swo (e :: selected (mlanes m) v) -> (forall x, In x (selected (mlanes m) v) -> lt x e = false -> x = e) ->
  (selected (mlanes m) v = [] -> reduce_min_masked sel lt e v m = e) /\
  (selected (mlanes m) v <> [] -> is_least lt (selected (mlanes m) v) (reduce_min_masked sel lt e v m)).
Proof.
  intros m v L Lm G S E. unfold reduce_min_masked. rewrite G, broadcast_spec.
  assert (Lm' : length (mlanes m) = length v) by (rewrite mlanes_length; auto).
  split; intros K.
  - rewrite none_choose by auto. rewrite hmin_fold. destruct (length v) eqn:Ev; [lia|].
    cbn [repeat lane nth]. change (e :: repeat e n) with (repeat e (Datatypes.S n)). apply fold_stay. destruct (lt e e); auto.
  - set (c := choose (mlanes m) v (repeat e (length v))).
    assert (Lc : (1 <= length c)%nat) by (unfold c; rewrite (choose_length (length v)); auto; apply repeat_length).
    assert (SubIn : forall x, In x c -> In x (e :: selected (mlanes m) v)).
    { intros x Hx. apply in_choose in Hx; auto. destruct Hx as [Hx | ->]; [right; auto|left; auto]. }
    assert (Sc : swo c).
    { destruct S as (S1 & S2 & S3). split; [intros; apply S1; auto|]. split; intros x y z Hx Hy Hz; [apply S2|apply S3]; auto. }
    destruct (hmin_least c Lc Sc) as [I M]. split.
    + destruct (SubIn _ I) as [He | Hs]; auto. rewrite <- He in *.
      destruct (selected (mlanes m) v) as [|y s] eqn:Es; [congruence|].
      assert (Hy : In y c) by (apply selected_choose; auto; rewrite Es; left; auto).
      left. apply E; [left; auto|]. apply M; auto.
    + intros x Hx. apply M. apply selected_choose; auto.
Qed.
Lemma max_masked_spec : forall m v, (1 <= length v)%nat -> length m = length v ->
  sel m v (broadcast v e) = choose (mlanes m) v (broadcast v e) ->
  swo (e :: selected (mlanes m) v) -> (forall x, In x (selected (mlanes m) v) -> lt e x = false -> x = e) ->
  (selected (mlanes m) v = [] -> reduce_max_masked sel lt e v m = e) /\
  (selected (mlanes m) v <> [] -> is_greatest lt (selected (mlanes m) v) (reduce_max_masked sel lt e v m)).
Proof.
  intros m v L Lm G S E. unfold reduce_max_masked. rewrite G, broadcast_spec.
  assert (Lm' : length (mlanes m) = length v) by (rewrite mlanes_length; auto).
  split; intros K.
  - rewrite none_choose by auto. rewrite hmax_fold. destruct (length v) eqn:Ev; [lia|].
    cbn [repeat lane nth]. change (e :: repeat e n) with (repeat e (Datatypes.S n)). apply fold_stay. destruct (lt e e); auto.
  - set (c := choose (mlanes m) v (repeat e (length v))).
    assert (Lc : (1 <= length c)%nat) by (unfold c; rewrite (choose_length (length v)); auto; apply repeat_length).
    assert (SubIn : forall x, In x c -> In x (e :: selected (mlanes m) v)).
    { intros x Hx. apply in_choose in Hx; auto. destruct Hx as [Hx | ->]; [right; auto|left; auto]. }
    assert (Sc : swo c).
    { destruct S as (S1 & S2 & S3). split; [intros; apply S1; auto|]. split; intros x y z Hx Hy Hz; [apply S2|apply S3]; auto. }
    destruct (hmax_greatest c Lc Sc) as [I M]. split.
    + destruct (SubIn _ I) as [He | Hs]; auto. rewrite <- He in *.
      destruct (selected (mlanes m) v) as [|y s] eqn:Es; [congruence|].
      assert (Hy : In y c) by (apply selected_choose; auto; rewrite Es; left; auto).
      left. apply E; [left; auto|]. apply M; auto.
    + intros x Hx. apply M. apply selected_choose; auto.
Qed.
End Order.

Lemma swo_key : forall (k : Z -> Z) v, swo (fun a b => k a <? k b) v.
Proof. intros. split; [intros; apply Z.ltb_irrefl|]. split; intros; lia. Qed.

(** ** where expressions *)
Lemma vec_zip_ok : forall w n op a b, vec_ok w n a -> vec_ok w n b ->
  (forall x y, 0 <= x < 2 ^ w -> 0 <= y < 2 ^ w -> 0 <= op x y < 2 ^ w) -> vec_ok w n (zip op a b).
Proof.
  intros w n op a b [La Ca] [Lb Cb] H. split; [rewrite zip_length; lia|]. apply Forall_zip; auto.
Qed.

Lemma copy_from_spec : forall m v p, length m = length v ->
  ((exists i, (i < length v)%nat /\ nth i (mlanes m) false = true /\ p i = None) -> where_copy_from m v p = None) /\
  ((forall i, (i < length v)%nat -> nth i (mlanes m) false = true -> p i <> None) ->
   exists r, where_copy_from m v p = Some r /\ length r = length v /\
     forall i, (i < length v)%nat -> Some (nth i r 0) = if nth i (mlanes m) false then p i else Some (nth i v 0)).
Proof.
  intros m v p Lm. unfold where_copy_from.
  set (body := fun i r => do v' <- r; if mget m i then do x <- p i; Some (upd v' i x) else Some v').
  split.
  - intros (i & Hi & Hm & Hp).
    assert (G : forall n, (i < n)%nat -> unroll n body (Some v) = None).
    { induction n; intros H; [lia|]. rewrite unroll_S. destruct (Nat.eq_dec i n).
      - subst. unfold body at 1. destruct (unroll n body (Some v)); auto. cbn [bindo].
        rewrite mget_nth, Hm by lia. rewrite Hp. reflexivity.
      - rewrite IHn by lia. reflexivity. }
    apply G; auto.
  - intros Hp.
    assert (G : forall n, (n <= length v)%nat -> exists r, unroll n body (Some v) = Some r /\ length r = length v /\
      forall i, (i < length v)%nat -> Some (nth i r 0) = if Nat.ltb i n && nth i (mlanes m) false then p i else Some (nth i v 0)).
    { induction n; intros H.
      - exists v. split; auto.
      - destruct (IHn ltac:(lia)) as (r & E & L & K). rewrite unroll_S, E. unfold body at 1. cbn [bindo].
        rewrite mget_nth by lia. destruct (nth n (mlanes m) false) eqn:Em.
        + destruct (p n) as [x|] eqn:Ep; [|exfalso; apply (Hp n); auto; lia]. cbn [bindo].
          exists (upd r n x). split; auto. split; [rewrite upd_length; auto|]. intros i Hi.
          rewrite nth_upd by lia. destruct (Nat.eqb_spec i n).
          * subst. rewrite Em, Ep. replace (Nat.ltb n (S n)) with true by (symmetry; apply Nat.ltb_lt; lia). reflexivity.
          * rewrite K by auto. destruct (Nat.ltb_spec i n); destruct (Nat.ltb_spec i (S n)); auto; lia.
        + exists r. split; auto. split; auto. intros i Hi. rewrite K by auto.
          destruct (Nat.ltb_spec i n); destruct (Nat.ltb_spec i (S n)); simpl; auto; try lia.
          replace i with n by lia. rewrite Em. reflexivity. }
    destruct (G (length v) ltac:(lia)) as (r & E & L & K). exists r. split; auto. split; auto.
    intros i Hi. rewrite K by auto. destruct (Nat.ltb_spec i (length v)); [reflexivity|lia].
Qed.

Lemma copy_to_spec : forall m v p, length m = length v ->
  ((exists i, (i < length v)%nat /\ nth i (mlanes m) false = true /\ p i = None) -> where_copy_to m v p = None) /\
  ((forall i, (i < length v)%nat -> nth i (mlanes m) false = true -> p i <> None) ->
   exists q, where_copy_to m v p = Some q /\
     forall i, q i = if nth i (mlanes m) false then Some (nth i v 0) else p i).
Proof.
  intros m v p Lm. unfold where_copy_to.
  set (body := fun i r => do p' <- r; if mget m i then do _ <- p' i; Some (mem_set p' i (lane v i)) else Some p').
  assert (G : forall n, (n <= length v)%nat -> (forall i, (i < n)%nat -> nth i (mlanes m) false = true -> p i <> None) ->
      exists q, unroll n body (Some p) = Some q /\
      forall i, q i = if Nat.ltb i n && nth i (mlanes m) false then Some (nth i v 0) else p i).
  { induction n; intros H Hp.
    - exists p. split; auto.
    - destruct (IHn ltac:(lia) ltac:(intros; apply Hp; auto; lia)) as (q & E & K). rewrite unroll_S, E. unfold body at 1. cbn [bindo].
      rewrite mget_nth by lia. destruct (nth n (mlanes m) false) eqn:Em.
      + assert (Q : q n = p n) by (rewrite K, Nat.ltb_irrefl; reflexivity).
        rewrite Q. destruct (p n) as [x|] eqn:Ep; [|exfalso; apply (Hp n); auto; lia]. cbn [bindo].
        eexists. split; [reflexivity|]. intros i. unfold mem_set.
        destruct (Nat.eqb_spec i n).
        * subst. rewrite Em. replace (Nat.ltb n (S n)) with true by (symmetry; apply Nat.ltb_lt; lia). reflexivity.
        * rewrite K. destruct (Nat.ltb_spec i n); destruct (Nat.ltb_spec i (S n)); auto; lia.
      + exists q. split; auto. intros i. rewrite K.
        destruct (Nat.ltb_spec i n); destruct (Nat.ltb_spec i (S n)); simpl; auto; try lia.
        replace i with n by lia. rewrite Em. reflexivity. }
  split.
  - intros (i0 & Hi0 & Hm0 & Hp0).
    (* least offending index *)
    assert (W : exists i, (i < length v)%nat /\ nth i (mlanes m) false = true /\ p i = None /\
                 forall j, (j < i)%nat -> nth j (mlanes m) false = true -> p j <> None).
    { revert Hi0 Hm0 Hp0. induction i0 as [i IH] using (well_founded_induction lt_wf). intros Hi Hm Hp.
      destruct (Exists_dec (fun j => nth j (mlanes m) false = true /\ p j = None) (seq 0 i)) as [X|X].
      - intros j. destruct (nth j (mlanes m) false); [|right; intros []; discriminate].
        destruct (p j); [right; intros []; discriminate|left; auto].
      - apply Exists_exists in X. destruct X as (j & Hj & A & B). apply in_seq in Hj. apply (IH j); auto; lia.
      - exists i. repeat (split; auto). intros j Hj A B. apply X. apply Exists_exists. exists j. split; auto. apply in_seq. lia. }
    destruct W as (i & Hi & Hm & Hp & Hl).
    assert (N : unroll (S i) body (Some p) = None).
    { destruct (G i ltac:(lia) Hl) as (q & E & K). rewrite unroll_S, E. unfold body at 1. cbn [bindo].
      rewrite mget_nth, Hm by lia. rewrite K, Nat.ltb_irrefl. cbn [andb]. rewrite Hp. reflexivity. }
    assert (M : forall k, unroll (S i + k) body (Some p) = None).
    { induction k; [rewrite Nat.add_0_r; auto|]. rewrite Nat.add_succ_r, unroll_S, IHk. reflexivity. }
    specialize (M (length v - S i)%nat). replace (S i + (length v - S i))%nat with (length v) in M by lia. exact M.
  - intros Hp. destruct (G (length v) ltac:(lia) Hp) as (q & E & K). exists q. split; auto. intros i. rewrite K.
    destruct (Nat.ltb_spec i (length v)); auto. simpl.
    rewrite nth_overflow by (rewrite mlanes_length; lia). reflexivity.
Qed.

(** ** Concatenation and splitting *)
Lemma write_at_spec : forall pre r x, (length pre + length x <= length r)%nat -> firstn (length pre) r = pre ->
  firstn (length pre + length x) (write_at r (length pre) x) = pre ++ x /\ length (write_at r (length pre) x) = length r.
Proof.
  intros pre r x L P. unfold write_at. destruct (unroll_upd (length x) r (length pre) (lane x) L) as [L' E].
  split; auto. apply nth_ext with (d := 0) (d' := 0).
  - rewrite firstn_length, L', app_length. lia.
  - intros i Hi. rewrite firstn_length, L' in Hi.
    assert (N : forall k (l : list Z) j, (j < k)%nat -> nth j (firstn k l) 0 = nth j l 0).
    { clear. induction k; intros l j H; [lia|]. destruct l; auto. destruct j; auto. simpl. apply IHk. lia. }
    rewrite N by lia. rewrite E. destruct (Nat.leb_spec (length pre) i).
    + rewrite app_nth2 by lia. destruct (Nat.ltb_spec i (length pre + length x)); [reflexivity|lia].
    + rewrite app_nth1 by lia. simpl. rewrite <- P at 1. rewrite N by lia. reflexivity.
Qed.
Lemma simd_cat_spec : forall junk xs, length junk = length (concat xs) -> simd_cat junk xs = concat xs.
Proof.
  intros junk xs. unfold simd_cat.
  assert (G : forall xs pre r, (length pre + length (concat xs) <= length r)%nat -> firstn (length pre) r = pre ->
    firstn (length pre + length (concat xs)) (fst (fold_left (fun st x => (write_at (fst st) (snd st) x, (snd st + length x)%nat)) xs (r, length pre)))
      = pre ++ concat xs /\
    length (fst (fold_left (fun st x => (write_at (fst st) (snd st) x, (snd st + length x)%nat)) xs (r, length pre))) = length r).
  { clear. induction xs as [|x xs IH]; intros pre r L P; simpl in *.
    - rewrite Nat.add_0_r, app_nil_r. auto.
    - rewrite app_length in *. destruct (write_at_spec pre r x ltac:(lia) P) as [A B].
      destruct (IH (pre ++ x) (write_at r (length pre) x)) as [C D].
      + rewrite app_length. lia.
      + rewrite app_length. exact A.
      + rewrite app_length in C, D. rewrite <- app_assoc in C. rewrite Nat.add_assoc. split; [exact C|lia]. }
  intros L. destruct (G xs [] junk) as [A B]; [simpl; lia|reflexivity|].
  simpl in A, B. rewrite <- A. rewrite <- L. rewrite <- B at 1. symmetry. apply firstn_all.
Qed.

Fixpoint chunks (k p : nat) (v : list Z) : list (list Z) :=
  match p with O => [] | S p' => firstn k v :: chunks k p' (skipn k v) end.
Lemma nth_skipn : forall k (l : list Z) i, nth i (skipn k l) 0 = nth (k + i) l 0.
Proof. induction k; intros l i; auto. destruct l; [destruct i; auto|]. apply IHk. Qed.
Lemma nth_firstn : forall k (l : list Z) j, (j < k)%nat -> nth j (firstn k l) 0 = nth j l 0.
Proof. induction k; intros l j H; [lia|]. destruct l; auto. destruct j; auto. simpl. apply IHk. lia. Qed.
Lemma part_firstn : forall junk v off, (off + length junk <= length v)%nat ->
  fill junk (fun i => lane v (off + i)) = firstn (length junk) (skipn off v).
Proof.
  intros junk v off L. apply nth_ext with (d := 0) (d' := 0).
  - rewrite fill_length, firstn_length, skipn_length. lia.
  - intros i Hi. rewrite fill_length in Hi. rewrite fill_nth by auto. rewrite nth_firstn, nth_skipn by auto. reflexivity.
Qed.
Lemma skipn_skipn_ : forall a b (v : list Z), skipn a (skipn b v) = skipn (b + a) v.
Proof. intros a b. induction b; intros v; auto. destruct v; [destruct a; auto|]. apply IHb. Qed.
Lemma simd_split_spec : forall junk v p, (1 <= length junk)%nat -> length v = (p * length junk)%nat ->
  simd_split junk v = chunks (length junk) p v.
Proof.
  intros junk v p K L. unfold simd_split. rewrite L, Nat.div_mul by lia. set (k := length junk) in *.
  assert (G : forall n s acc off, (off + n * k <= length v)%nat ->
    fst (fold_left (fun st _ => (fst st ++ [fill junk (fun i => lane v (snd st + i))], (snd st + k)%nat)) (seq s n) (acc, off)) =
    acc ++ chunks k n (skipn off v)).
  { induction n; intros s acc off H; simpl.
    - rewrite app_nil_r. reflexivity.
    - rewrite IHn by lia. rewrite (part_firstn junk v off) by (fold k; lia). fold k.
      rewrite <- app_assoc. simpl. rewrite skipn_skipn_. reflexivity. }
  rewrite G by lia. reflexivity.
Qed.
Lemma concat_chunks : forall k p v, length v = (p * k)%nat -> concat (chunks k p v) = v.
Proof.
  intros k. induction p; intros v L; simpl in *.
  - destruct v; auto. simpl in L. lia.
  - rewrite IHp by (rewrite skipn_length; lia). apply firstn_skipn.
Qed.
Lemma chunks_ok : forall k p v, length v = (p * k)%nat -> length (chunks k p v) = p /\ Forall (fun x => length x = k) (chunks k p v).
Proof.
  intros k. induction p; intros v L; simpl in *; auto.
  destruct (IHp (skipn k v)) as [A B]; [rewrite skipn_length; lia|]. split; [lia|]. constructor; auto. rewrite firstn_length. lia.
Qed.
Lemma chunks_concat : forall k xs, Forall (fun x => length x = k) xs -> chunks k (length xs) (concat xs) = xs.
Proof.
  intros k xs H. induction H as [|x xs Hx H IH]; simpl; auto.
  f_equal.
  - rewrite firstn_app, <- Hx, Nat.sub_diag, firstn_all, firstn_O, app_nil_r. reflexivity.
  - rewrite skipn_app, <- Hx, Nat.sub_diag, skipn_all, skipn_O. simpl. rewrite Hx. exact IH.
Qed.
Lemma split_spec : forall k p junk v, (1 <= k)%nat -> length junk = k -> length v = (p * k)%nat ->
  length (simd_split junk v) = p /\ Forall (fun x => length x = k) (simd_split junk v) /\ concat (simd_split junk v) = v.
Proof.
  intros k p junk v K J L. rewrite (simd_split_spec junk v p) by (rewrite ?J; auto). rewrite J.
  destruct (chunks_ok k p v L). split; auto. split; auto. apply concat_chunks; auto.
Qed.
Lemma split_cat : forall k junk xs, (1 <= k)%nat -> length junk = k -> Forall (fun x => length x = k) xs ->
  simd_split junk (concat xs) = xs.
Proof.
  intros k junk xs K J H.
  assert (L : length (concat xs) = (length xs * k)%nat).
  { clear -H. induction H; simpl; auto. rewrite app_length. lia. }
  rewrite (simd_split_spec junk _ (length xs)) by (rewrite ?J; auto). rewrite J. apply chunks_concat; auto.
Qed.

(** Masks. *)
Lemma mask_cat_spec : forall w junk xs, 1 <= w -> length junk = length (concat xs) -> (length junk <= 64)%nat ->
  Forall (fun x => (1 <= length x)%nat) xs -> Forall (fun x => mask_ok w (length x) x) xs ->
  mask_cat w junk xs = Some (concat xs).
Proof.
  intros w junk xs Hw LJ L64 Hne Hok. unfold mask_cat.
  assert (ME : forall a b, mlanes (a ++ b) = mlanes a ++ mlanes b) by (intros; apply map_app).
  assert (G : forall xs pre bits, Forall (fun x => (1 <= length x)%nat) xs -> (length pre + length (concat xs) <= 64)%nat ->
    0 <= bits < 2 ^ Z.of_nat (length pre) -> (forall i, Z.testbit bits (Z.of_nat i) = nth i (mlanes pre) false) ->
    exists b, fst (fold_left (fun st x => ((do bits <- fst st; do u <- to_ullong x; do s <- ushl 64 u (snd st); Some (Z.lor bits s)),
                      snd st + Z.of_nat (length x))) xs (Some bits, Z.of_nat (length pre))) = Some b /\
     0 <= b < 2 ^ Z.of_nat (length (pre ++ concat xs)) /\ (forall i, Z.testbit b (Z.of_nat i) = nth i (mlanes (pre ++ concat xs)) false)).
  { clear -ME. induction xs as [|x xs IH]; intros pre bits Hne L R T; simpl in *.
    - rewrite app_nil_r. exists bits. auto.
    - inversion Hne as [|? ? Hx Hne']; subst. rewrite app_length in L.
      destruct (to_ullong_spec x ltac:(lia)) as (u & E & Ru & Tu). rewrite E. cbn [bindo].
      unfold ushl. replace ((0 <=? Z.of_nat (length pre)) && (Z.of_nat (length pre) <? 64)) with true
        by (symmetry; rewrite andb_true_iff; lia).
      cbn [bindo].
      assert (PW : 2 ^ Z.of_nat (length (pre ++ x)) = 2 ^ Z.of_nat (length pre) * 2 ^ Z.of_nat (length x)).
      { rewrite app_length, Nat2Z.inj_add, Z.pow_add_r by lia. reflexivity. }
      assert (P0 : 0 < 2 ^ Z.of_nat (length pre)) by (apply pow2_pos; lia).
      assert (S : Z.shiftl u (Z.of_nat (length pre)) = u * 2 ^ Z.of_nat (length pre)) by (apply Z.shiftl_mul_pow2; lia).
      assert (R2 : 0 <= Z.shiftl u (Z.of_nat (length pre)) < 2 ^ Z.of_nat (length (pre ++ x))).
      { rewrite S, PW. nia. }
      assert (M64 : 2 ^ Z.of_nat (length (pre ++ x)) <= 2 ^ 64).
      { apply pow2_le. rewrite app_length. lia. }
      rewrite wrap_small by (unfold inU; lia).
      destruct (IH (pre ++ x) (Z.lor bits (Z.shiftl u (Z.of_nat (length pre))))) as (b & E' & R' & T'); auto.
      + rewrite app_length. lia.
      + change (inU (Z.of_nat (length (pre ++ x))) (Z.lor bits (Z.shiftl u (Z.of_nat (length pre))))).
        apply inU_lor; unfold inU; try lia. rewrite PW. pose proof (pow2_ge1 (Z.of_nat (length x)) ltac:(lia)). nia.
      + intros i. rewrite Z.lor_spec, T, ME. destruct (Nat.lt_ge_cases i (length pre)).
        * rewrite Z.shiftl_spec_low by lia. rewrite orb_false_r. rewrite app_nth1 by (rewrite mlanes_length; auto). reflexivity.
        * rewrite Z.shiftl_spec by lia. rewrite nth_overflow by (rewrite mlanes_length; auto).
          rewrite app_nth2, mlanes_length by (rewrite mlanes_length; auto).
          rewrite <- Tu. simpl. f_equal. lia.
      + exists b. rewrite app_length, Nat2Z.inj_add in E'. split; [exact E'|]. rewrite app_assoc. split; auto. }
  destruct (G xs [] 0 Hne) as (b & E & R & T); [simpl; lia|simpl; lia| |].
  { intros i. rewrite Z.testbit_0_l. destruct i; reflexivity. }
  simpl in E, R, T. rewrite E. cbn [bindo].
  destruct (from_bits_spec w Hw junk b ltac:(lia) ltac:(lia)) as (m & Em & Om & Tm). rewrite Em. f_equal.
  assert (Oc : mask_ok w (length junk) (concat xs)).
  { split; [auto|]. clear -Hok. induction Hok; simpl; auto. apply Forall_app. split; auto. apply H. }
  apply (mask_inj w Hw (length junk)); auto. apply nth_ext with (d := false) (d' := false).
  - rewrite !mlanes_length. destruct Om, Oc. lia.
  - intros i Hi. rewrite mlanes_length in Hi. destruct Om as [Lm _]. rewrite Tm by lia. apply T.
Qed.

Lemma mask_split_spec : forall w k p junk m, 1 <= w -> (1 <= k)%nat -> length junk = k -> length m = (p * k)%nat -> (length m <= 64)%nat ->
  mask_ok w (length m) m ->
  exists parts, mask_split w junk m = Some parts /\ length parts = p /\ Forall (mask_ok w k) parts /\ concat parts = m.
Proof.
  intros w k p junk m Hw K J L L64 Om. unfold mask_split. rewrite J.
  destruct (to_ullong_spec m L64) as (b & E & R & T). rewrite E. cbn [bindo]. rewrite L, Nat.div_mul by lia.
  assert (LEN : forall n q, length (chunks k n q) = n) by (induction n; simpl; auto).
  assert (G : forall n s acc off, (off + n * k <= length m)%nat ->
    fst (fold_left (fun st _ => ((do out <- fst st; do s <- ushr 64 b (snd st); do p <- from_bits w junk s; Some (out ++ [p])),
                               snd st + Z.of_nat k)) (seq s n) (Some acc, Z.of_nat off)) = Some (acc ++ chunks k n (skipn off m))).
  { induction n; intros s acc off H; simpl.
    - rewrite app_nil_r. reflexivity.
    - unfold ushr at 2. replace ((0 <=? Z.of_nat off) && (Z.of_nat off <? 64)) with true by (symmetry; rewrite andb_true_iff; lia).
      cbn [bindo].
      assert (B0 : 0 <= Z.shiftr b (Z.of_nat off)) by (apply Z.shiftr_nonneg; lia).
      destruct (from_bits_spec w Hw junk (Z.shiftr b (Z.of_nat off)) ltac:(lia) B0) as (q & Eq & Oq & Tq). rewrite Eq. cbn [bindo].
      replace (Z.of_nat off + Z.of_nat k) with (Z.of_nat (off + k)) by lia. rewrite IHn by lia.
      rewrite <- app_assoc. simpl. rewrite skipn_skipn_.
      replace q with (firstn k (skipn off m)); [reflexivity|].
      assert (Of : mask_ok w k (firstn k (skipn off m))).
      { split; [rewrite firstn_length, skipn_length; lia|]. destruct Om as [_ C]. rewrite Forall_forall in *. intros x Hx.
        apply C. rewrite <- (firstn_skipn off m). apply in_or_app. right.
        rewrite <- (firstn_skipn k (skipn off m)). apply in_or_app. left. auto. }
      rewrite J in Oq, Tq. apply (mask_inj w Hw k); auto. apply nth_ext with (d := false) (d' := false).
      + rewrite !mlanes_length. destruct Oq, Of. lia.
      + intros i Hi. rewrite mlanes_length in Hi. destruct Of as [Lf _]. rewrite Lf in Hi.
        rewrite Tq by auto. rewrite Z.shiftr_spec by lia.
        replace (Z.of_nat i + Z.of_nat off) with (Z.of_nat (off + i)) by lia. rewrite T.
        rewrite <- !mget_nth by lia. unfold mget, lane. rewrite nth_firstn, nth_skipn by auto. reflexivity. }
  specialize (G p 0%nat [] 0%nat ltac:(lia)). change (Z.of_nat 0) with 0 in G. rewrite G. simpl.
  exists (chunks k p m). split; auto. destruct (chunks_ok k p m L) as [A B]. split; auto. split; [|apply concat_chunks; auto].
  pose proof (concat_chunks k p m L) as CC. apply Forall_forall. intros x Hx. rewrite Forall_forall in B. split; [apply B; auto|].
  destruct Om as [_ C]. rewrite <- CC in C. rewrite Forall_forall in *. intros y Hy. apply C.
  apply in_concat. exists x. auto.
Qed.

Lemma in_selected : forall m v x, In x (selected m v) -> In x v.
Proof.
  induction m as [|c m IH]; intros [|y v] x H; simpl in *; try tauto; [destruct c; tauto|].
  destruct c; simpl in H; [destruct H; auto|]; right; apply IH; auto.
Qed.
Lemma simd_abs_spec : forall w x, 1 <= w -> inS w x ->
  (x <> - 2 ^ (w - 1) -> simd_abs_lane w x = Some (Z.abs x)) /\
  (x = - 2 ^ (w - 1) -> simd_abs_lane w x = if w <? 32 then Some x else None).
Proof.
  intros w x Hw Hx. unfold simd_abs_lane, inS in *. pose proof (pow2_pos (w - 1) ltac:(lia)) as P. split; intros H.
  - destruct (Z.ltb_spec x 0); [|f_equal; lia].
    destruct (w <? 32).
    + rewrite to_signed_of_S by (unfold inS; lia). f_equal. lia.
    + unfold sarith. replace (inSb w (- x)) with true; [f_equal; lia|]. symmetry. apply inSb_spec. unfold inS. lia.
  - destruct (Z.ltb_spec x 0); [|lia]. destruct (w <? 32).
    + f_equal. subst x. rewrite Z.opp_involutive. unfold to_signed, wrap. pose proof (pow2_half w Hw).
      rewrite Z.mod_small by lia. rewrite Z.ltb_irrefl. lia.
    + unfold sarith. replace (inSb w (- x)) with false; auto. symmetry. apply not_true_is_false. intros C.
      apply inSb_spec in C. unfold inS in C. lia.
Qed.
