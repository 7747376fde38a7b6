(** * Correctness of the SWAR population counts (bits.hpp:421-489) *)
From Coq Require Import ZArith Lia Bool List.
From Verif Require Import MachInt Bits BitsSpec BitsProofs.
Import ListNotations.
Open Scope Z_scope.

(** Value of a little-endian digit list in base [B]. *)
Fixpoint ev (B : Z) (l : list Z) : Z :=
  match l with nil => 0 | d :: t => d + B * ev B t end.
Fixpoint sumZ (l : list Z) : Z := match l with nil => 0 | d :: t => d + sumZ t end.
Fixpoint pairup (B : Z) (l : list Z) : list Z :=
  match l with a :: b :: t => (a + B * b) :: pairup B t | _ => nil end.
Fixpoint pairsum (l : list Z) : list Z :=
  match l with a :: b :: t => (a + b) :: pairsum t | _ => nil end.
Definition bounded (m : Z) (l : list Z) := Forall (fun d => 0 <= d <= m) l.
Definition evenlen (l : list Z) := exists k, length l = (2 * k)%nat.

Lemma list_pair_ind : forall (P : list Z -> Prop),
  P nil -> (forall a b t, evenlen t -> P t -> P (a :: b :: t)) ->
  forall l, evenlen l -> P l.
Proof.
  intros P H0 H2 l [k Hk]. revert l Hk. induction k; intros l Hk.
  - destruct l; [auto|simpl in Hk; lia].
  - destruct l as [|a [|b t]]; simpl in Hk; try lia.
    assert (length t = (2 * k)%nat) by lia.
    apply H2; [exists k; auto|apply IHk; auto].
Qed.

Lemma ev_pairup : forall B l, evenlen l -> ev (B * B) (pairup B l) = ev B l.
Proof.
  intros B. apply list_pair_ind; [reflexivity|].
  intros a b t _ IH. cbn [pairup ev]. rewrite IH. ring.
Qed.

Lemma sum_pairsum : forall l, evenlen l -> sumZ (pairsum l) = sumZ l.
Proof.
  apply list_pair_ind; [reflexivity|].
  intros a b t _ IH. cbn [pairsum sumZ]. rewrite IH. lia.
Qed.

Lemma bounded_pairsum : forall m l, evenlen l -> bounded m l -> bounded (2 * m) (pairsum l).
Proof.
  intros m. apply (list_pair_ind (fun l => bounded m l -> bounded (2 * m) (pairsum l))).
  - intros. constructor.
  - intros a b t _ IH H. inversion H as [|? ? H1 H2]; subst. inversion H2 as [|? ? H3 H4]; subst.
    cbn [pairsum]. constructor; [lia|]. apply IH. auto.
Qed.

Lemma len_pairsum : forall k l, length l = (2 * k)%nat -> length (pairsum l) = k.
Proof.
  induction k; intros l H.
  - destruct l; simpl in *; [auto|lia].
  - destruct l as [|a [|b t]]; simpl in H; try lia. simpl. f_equal. apply IHk. lia.
Qed.

Lemma ev_nonneg : forall B m l, 0 <= B -> bounded m l -> 0 <= ev B l.
Proof. induction l; intros; simpl; [lia|]. inversion H0; subst. specialize (IHl H H4). nia. Qed.

(** [land] distributes over a split at bit [n]. *)
Lemma land_split : forall n a x b y, 0 <= n -> 0 <= a < 2 ^ n -> 0 <= b < 2 ^ n ->
  Z.land (a + 2 ^ n * x) (b + 2 ^ n * y) = Z.land a b + 2 ^ n * Z.land x y.
Proof.
  intros n a x b y Hn Ha Hb.
  assert (Hab : 0 <= Z.land a b < 2 ^ n).
  { assert (inU n (Z.land a b)) by (apply inU_land; unfold inU; lia). auto. }
  assert (Hs : forall a x, 0 <= a < 2 ^ n -> a + 2 ^ n * x = Z.lor (Z.shiftl x n) a).
  { intros. rewrite Z.shiftl_mul_pow2 by lia. rewrite lor_add by lia. lia. }
  rewrite !Hs by auto.
  apply Z.bits_inj'. intros i Hi.
  rewrite !Z.land_spec, !Z.lor_spec, !Z.land_spec.
  destruct (Z_lt_le_dec i n).
  - rewrite !Z.shiftl_spec_low by lia. reflexivity.
  - rewrite !Z.shiftl_spec_high by lia. rewrite Z.land_spec.
    rewrite (testbit_high n a), (testbit_high n b) by (auto; lia).
    rewrite !orb_false_r. reflexivity.
Qed.

Fixpoint maskN (s : Z) (k : nat) : Z :=
  match k with O => 0 | S k' => (2 ^ s - 1) + 2 ^ (2 * s) * maskN s k' end.

(** [(v & M) + ((v >> s) & M)] adds adjacent [s]-bit fields. *)
Lemma swar_step : forall s k l, 1 <= s -> length l = (2 * k)%nat -> bounded (2 ^ s - 1) l ->
  Z.land (ev (2 ^ s) l) (maskN s k) + Z.land (Z.shiftr (ev (2 ^ s) l) s) (maskN s k)
  = ev (2 ^ (2 * s)) (pairsum l).
Proof.
  intros s. induction k; intros l Hs Hl Hb.
  - destruct l; [|simpl in Hl; lia]. simpl. rewrite Z.shiftr_0_l. reflexivity.
  - destruct l as [|a [|b t]]; simpl in Hl; try lia.
    inversion Hb as [|? ? H1 H2]; subst. inversion H2 as [|? ? H3 H4]; subst.
    assert (Ht : length t = (2 * k)%nat) by lia.
    specialize (IHk t Hs Ht H4).
    cbn [ev pairsum maskN].
    assert (HP : 0 < 2 ^ s) by (apply pow2_pos; lia).
    assert (HPP : 2 ^ (2 * s) = 2 ^ s * 2 ^ s) by (rewrite <- Z.pow_add_r by lia; f_equal; lia).
    set (X := ev (2 ^ s) t) in *. set (Y := maskN s k) in *.
    replace (a + 2 ^ s * (b + 2 ^ s * X)) with ((a + 2 ^ s * b) + 2 ^ (2 * s) * X) by (rewrite HPP; ring).
    assert (E1 : Z.shiftr ((a + 2 ^ s * b) + 2 ^ (2 * s) * X) s
                 = (b + 2 ^ s * (X mod 2 ^ s)) + 2 ^ (2 * s) * Z.shiftr X s).
    { rewrite !Z.shiftr_div_pow2 by lia. rewrite HPP.
      pose proof (Z.div_mod X (2 ^ s) ltac:(lia)).
      symmetry. apply Z.div_unique with (r := a); [lia|]. nia. }
    rewrite E1.
    pose proof (Z.mod_pos_bound X (2 ^ s) HP) as HXm.
    rewrite !land_split by nia.
    rewrite !land_ones_mod by lia.
    replace ((a + 2 ^ s * b) mod 2 ^ s) with a.
    2:{ rewrite Z.mul_comm, Z.mod_add by lia. rewrite Z.mod_small; lia. }
    replace ((b + 2 ^ s * (X mod 2 ^ s)) mod 2 ^ s) with b.
    2:{ rewrite Z.mul_comm, Z.mod_add by lia. rewrite Z.mod_small; lia. }
    rewrite <- IHk. lia.
Qed.

(** [(v + (v >> s)) & M] does the same when no field overflows. *)
Lemma swar_step_late : forall s k l m, 1 <= s -> length l = (2 * k)%nat ->
  bounded m l -> 2 * m < 2 ^ s ->
  Z.land (ev (2 ^ s) l + Z.shiftr (ev (2 ^ s) l) s) (maskN s k)
  = ev (2 ^ (2 * s)) (pairsum l).
Proof.
  intros s. induction k; intros l m Hs Hl Hb Hm.
  - destruct l; [|simpl in Hl; lia]. simpl. rewrite Z.shiftr_0_l. reflexivity.
  - destruct l as [|a [|b t]]; simpl in Hl; try lia.
    inversion Hb as [|? ? H1 H2]; subst. inversion H2 as [|? ? H3 H4]; subst.
    assert (Ht : length t = (2 * k)%nat) by lia.
    specialize (IHk t m Hs Ht H4 Hm).
    cbn [ev pairsum maskN].
    assert (HP : 0 < 2 ^ s) by (apply pow2_pos; lia).
    assert (HPP : 2 ^ (2 * s) = 2 ^ s * 2 ^ s) by (rewrite <- Z.pow_add_r by lia; f_equal; lia).
    set (X := ev (2 ^ s) t) in *. set (Y := maskN s k) in *.
    assert (HXm : 0 <= X mod 2 ^ s <= m).
    { unfold X. destruct t as [|c t']; cbn [ev].
      - rewrite Z.mod_0_l by lia. lia.
      - inversion H4; subst. rewrite Z.mul_comm, Z.mod_add by lia.
        rewrite Z.mod_small; lia. }
    assert (E : a + 2 ^ s * (b + 2 ^ s * X) + Z.shiftr (a + 2 ^ s * (b + 2 ^ s * X)) s
              = ((a + b) + 2 ^ s * (b + X mod 2 ^ s)) + 2 ^ (2 * s) * (X + Z.shiftr X s)).
    { rewrite !Z.shiftr_div_pow2 by lia. rewrite HPP.
      replace ((a + 2 ^ s * (b + 2 ^ s * X)) / 2 ^ s) with (b + 2 ^ s * X).
      2:{ apply Z.div_unique with (r := a); lia. }
      pose proof (Z.div_mod X (2 ^ s) ltac:(lia)) as HX.
      assert (HPX : 2 ^ s * X = 2 ^ s * (X mod 2 ^ s) + 2 ^ s * 2 ^ s * (X / 2 ^ s))
        by (rewrite HX at 1; ring).
      replace (a + 2 ^ s * (b + 2 ^ s * X) + (b + 2 ^ s * X))
        with (a + b + 2 ^ s * b + 2 ^ s * 2 ^ s * X + 2 ^ s * X) by ring.
      rewrite HPX at 1. ring. }
    rewrite E. rewrite land_split by nia.
    rewrite !land_ones_mod by lia.
    rewrite IHk. f_equal. rewrite (Z.mul_comm (2 ^ s)), Z.mod_add by lia. apply Z.mod_small. lia.
Qed.

(** ** Bits of a value as a digit list *)
Fixpoint zbits (k : nat) (v : Z) : list Z :=
  match k with O => nil | S k' => v mod 2 :: zbits k' (v / 2) end.

Lemma zbits_len : forall k v, length (zbits k v) = k.
Proof. induction k; intros; simpl; auto. Qed.

Lemma zbits_bounded : forall k v, bounded 1 (zbits k v).
Proof.
  induction k; intros; simpl; constructor.
  - pose proof (Z.mod_pos_bound v 2). lia.
  - apply IHk.
Qed.

Lemma zbits_ev : forall k v, inU (Z.of_nat k) v -> ev 2 (zbits k v) = v.
Proof.
  induction k; intros v Hv; unfold inU in *.
  - simpl. change (2 ^ Z.of_nat 0) with 1 in Hv. lia.
  - cbn [zbits ev]. rewrite IHk.
    + zlia.
    + rewrite Nat2Z.inj_succ, Z.pow_succ_r in Hv by lia. zlia.
Qed.

Lemma zbits_sum : forall k v, sumZ (zbits k v) = bit_sum k v.
Proof.
  induction k; intros v; [reflexivity|]. cbn [zbits sumZ]. rewrite IHk.
  replace (S k) with (1 + k)%nat by lia. rewrite bit_sum_split.
  cbn [bit_sum]. change (Z.of_nat 0) with 0. change (Z.of_nat 1) with 1.
  rewrite <- Z.bit0_mod. rewrite Z.shiftr_div_pow2 by lia. change (2 ^ 1) with 2.
  destruct (Z.testbit v 0); simpl Z.b2z; lia.
Qed.

(** n - ((n >> 1) & M1) = (n & M1) + ((n >> 1) & M1) on an even number of bits. *)
Lemma first_step : forall k l, length l = (2 * k)%nat -> bounded 1 l ->
  ev 2 l - Z.land (Z.shiftr (ev 2 l) 1) (maskN 1 k)
  = Z.land (ev 2 l) (maskN 1 k) + Z.land (Z.shiftr (ev 2 l) 1) (maskN 1 k).
Proof.
  intros k l Hl Hb.
  enough (ev 2 l = Z.land (ev 2 l) (maskN 1 k) + 2 * Z.land (Z.shiftr (ev 2 l) 1) (maskN 1 k)) by lia.
  revert l Hl Hb. induction k; intros l Hl Hb.
  - destruct l; [|simpl in Hl; lia]. reflexivity.
  - destruct l as [|a [|b t]]; simpl in Hl; try lia.
    inversion Hb as [|? ? H1 H2]; subst. inversion H2 as [|? ? H3 H4]; subst.
    specialize (IHk t ltac:(lia) H4).
    cbn [ev maskN]. change (2 ^ (2 * 1)) with (2 ^ 2). change (2 ^ 1 - 1) with 1.
    set (X := ev 2 t) in *. set (Y := maskN 1 k) in *.
    replace (a + 2 * (b + 2 * X)) with ((a + 2 * b) + 2 ^ 2 * X) by lia.
    assert (E1 : Z.shiftr ((a + 2 * b) + 2 ^ 2 * X) 1
                 = (b + 2 * (X mod 2)) + 2 ^ 2 * Z.shiftr X 1).
    { rewrite !Z.shiftr_div_pow2 by lia. change (2 ^ 1) with 2. change (2 ^ 2) with 4. zlia. }
    rewrite E1.
    pose proof (Z.mod_pos_bound X 2 ltac:(lia)) as HXm.
    rewrite !land_split by (change (2 ^ 2) with 4; lia).
    rewrite !land1_mod.
    change (2 ^ 2) with 4 in *. zlia.
Qed.

Lemma ev_range : forall s m q, 1 <= s -> m < 2 ^ s -> bounded m q ->
             inU (s * Z.of_nat (length q)) (ev (2 ^ s) q).
Proof.
  intros s m q Hs Hm Hq. split; [apply (ev_nonneg _ m); auto; pose proof (pow2_nonneg s); lia|].
  induction q as [|d q IH]; [simpl; rewrite Z.mul_0_r; simpl; lia|].
  inversion Hq; subst. specialize (IH H2).
  cbn [ev length]. rewrite Nat2Z.inj_succ.
  replace (s * Z.succ (Z.of_nat (length q))) with (s + s * Z.of_nat (length q)) by lia.
  rewrite Z.pow_add_r by lia. nia.
Qed.

Lemma popcount_uint64_spec : forall v, inU 64 v -> popcount_uint64 v = bit_sum 64 v.
Proof.
  intros v Hv. unfold popcount_uint64.
  change 0x5555555555555555 with (maskN 1 32).
  change 0x3333333333333333 with (maskN 2 16).
  change 0xF0F0F0F0F0F0F0F with (maskN 4 8).
  set (l := zbits 64 v).
  assert (Hl : length l = 64%nat) by apply zbits_len.
  assert (Hb : bounded 1 l) by apply zbits_bounded.
  assert (E0 : v = ev 2 l) by (symmetry; apply (zbits_ev 64); auto).
  assert (S1 : v - Z.land (Z.shiftr v 1) (maskN 1 32) = ev (2 ^ 2) (pairsum l)).
  { rewrite E0 at 1 2. rewrite first_step by auto.
    apply (swar_step 1 32 l ltac:(lia) Hl Hb). }
  cbv zeta. rewrite S1. clear S1.
  set (l1 := pairsum l).
  assert (Hl1 : length l1 = 32%nat) by (apply (len_pairsum 32); auto).
  assert (Hb1 : bounded 2 l1) by (apply (bounded_pairsum 1); auto; exists 32%nat; auto).
  rewrite (wrap_small 64 (ev (2 ^ 2) l1)).
  2:{ pose proof (ev_range 2 2 l1 ltac:(lia) ltac:(lia) Hb1) as H. rewrite Hl1 in H. exact H. }
  rewrite (swar_step 2 16 l1); [| lia | auto | ].
  2:{ eapply Forall_impl; [|exact Hb1]. simpl. intros; lia. }
  change (2 ^ (2 * 2)) with (2 ^ 4).
  set (l2 := pairsum l1).
  assert (Hl2 : length l2 = 16%nat) by (apply (len_pairsum 16); auto).
  assert (Hb2 : bounded 4 l2) by (apply (bounded_pairsum 2); auto; exists 16%nat; auto).
  rewrite (wrap_small 64 (ev (2 ^ 4) l2)).
  2:{ pose proof (ev_range 4 4 l2 ltac:(lia) ltac:(lia) Hb2) as H. rewrite Hl2 in H. exact H. }
  rewrite (wrap_small 64 (ev (2 ^ 4) l2 + _)).
  2:{ (* ev l2 <= 4 * 0x1111.. ; sum below 2^64 *)
      assert (HH : 0 <= ev (2 ^ 4) l2 < 2 ^ 63).
      { split; [apply (ev_nonneg _ 4); auto; lia|].
        clearbody l2. clear -Hl2 Hb2.
        do 16 (destruct l2 as [|? l2]; [discriminate Hl2|inversion Hb2; subst; clear Hb2;
           match goal with H : Forall _ l2 |- _ => rename H into Hb2 end]).
        destruct l2; [|discriminate Hl2]. cbn [ev]. change (2 ^ 4) with 16. lia. }
      unfold inU. rewrite Z.shiftr_div_pow2 by lia. change (2 ^ 4) with 16 in *. zlia. }
  rewrite (swar_step_late 4 8 l2 4) by (auto; lia).
  change (2 ^ (2 * 4)) with 256.
  set (l3 := pairsum l2).
  assert (Hl3 : length l3 = 8%nat) by (apply (len_pairsum 8); auto).
  assert (Hb3 : bounded 8 l3) by (apply (bounded_pairsum 4); auto; exists 8%nat; auto).
  assert (Hsum : sumZ l3 = bit_sum 64 v).
  { unfold l3, l2, l1, l. rewrite !sum_pairsum. apply zbits_sum.
    - exists 32%nat; auto.
    - exists 16%nat; auto.
    - exists 8%nat; auto. }
  rewrite <- Hsum.
  clearbody l3. clear -Hl3 Hb3.
  do 8 (destruct l3 as [|? l3]; [discriminate Hl3|inversion Hb3; subst; clear Hb3;
           match goal with H : Forall _ l3 |- _ => rename H into Hb3 end]).
  destruct l3; [|discriminate Hl3]. cbn [ev sumZ].
  rewrite Z.shiftr_div_pow2 by lia.
  match goal with |- wrap 64 (?e * _) / _ = ?s => set (E := e); set (S0 := s) end.
  assert (HW : wrap 64 (E * 0x101010101010101) =
     2 ^ 56 * S0 + (2 ^ 48 * (z + z0 + z1 + z2 + z3 + z4 + z5)
                    + 2 ^ 40 * (z + z0 + z1 + z2 + z3 + z4) + 2 ^ 32 * (z + z0 + z1 + z2 + z3)
                    + 2 ^ 24 * (z + z0 + z1 + z2) + 2 ^ 16 * (z + z0 + z1) + 2 ^ 8 * (z + z0) + z)).
  { apply wrap_unique with
      (k := (z0 + z1 + z2 + z3 + z4 + z5 + z6) + 2 ^ 8 * (z1 + z2 + z3 + z4 + z5 + z6)
            + 2 ^ 16 * (z2 + z3 + z4 + z5 + z6) + 2 ^ 24 * (z3 + z4 + z5 + z6)
            + 2 ^ 32 * (z4 + z5 + z6) + 2 ^ 40 * (z5 + z6) + 2 ^ 48 * z6);
    unfold inU, S0, E; lia. }
  rewrite HW. symmetry. apply Z.div_unique with
    (r := 2 ^ 48 * (z + z0 + z1 + z2 + z3 + z4 + z5)
                    + 2 ^ 40 * (z + z0 + z1 + z2 + z3 + z4) + 2 ^ 32 * (z + z0 + z1 + z2 + z3)
                    + 2 ^ 24 * (z + z0 + z1 + z2) + 2 ^ 16 * (z + z0 + z1) + 2 ^ 8 * (z + z0) + z);
    unfold S0; lia.
Qed.

(** 8-bit type: all 256 values are the whole input space. *)
Lemma popcount_uchar_spec : forall v, inU 8 v -> popcount_uchar v = bit_sum 8 v.
Proof.
  assert (H : forallb (fun n => popcount_uchar (Z.of_nat n) =? bit_sum 8 (Z.of_nat n)) (seq 0 256) = true)
    by (vm_compute; reflexivity).
  intros v Hv. rewrite forallb_forall in H.
  specialize (H (Z.to_nat v)). unfold inU in Hv. change (2 ^ 8) with 256 in Hv.
  rewrite Z2Nat.id in H by lia. apply Z.eqb_eq. apply H. apply in_seq. lia.
Qed.

(** The 16- and 32-bit variants are wrong already on the argument 3 (two bits
    set): the missing parentheses turn [n - ((n>>1) & M)] into [(n - (n>>1)) & M]. *)
Lemma popcount_ushort_refuted : exists v, inU 16 v /\ popcount_ushort v <> bit_sum 16 v.
Proof. exists 3. split; [unfold inU; lia|]. vm_compute. discriminate. Qed.

Lemma popcount_uint32_refuted : exists v, inU 32 v /\ popcount_uint32 v <> bit_sum 32 v.
Proof. exists 3. split; [unfold inU; lia|]. vm_compute. discriminate. Qed.
