(** * exp, exp2 (double): the 128-entry table and the polynomials *)
From Coq Require Import ZArith Lia Bool Reals Lra List.
From Flocq Require Import Core.
From Interval Require Import Tactic.
From Verif Require Import MachInt Fmt FloatSpec FmtProofs RoundProofs FOps FOpsProofs ExactOps ExtFloatSpec ExtFloatProofs ExtInterp ErrLib ExpoData ExpoF Exp2fProofs LogfNum LogfProofs ExpoDataD ExpD.
Import ListNotations.
Open Scope Z_scope.

Lemma expd_tab_eq : expd_tab = exp2d_tab. Proof. reflexivity. Qed.

(** tab[2i+1] + (i << 45) is 2^(i/128) rounded down, and tab[2i] is the relative tail. *)
Lemma tab128 : forall i, 0 <= i < 128 -> exists V T, is_real D (at_ exp2d_tab (2 * i + 1) + i * 2 ^ 45) V /\ is_real D (at_ exp2d_tab (2 * i)) T /\
  1023 * 2 ^ 52 <= at_ exp2d_tab (2 * i + 1) + i * 2 ^ 45 < 1024 * 2 ^ 52 /\ (Rabs T <= bp (-53))%R /\ (Rabs (V * (1 + T) - Rpower 2 (IZR i / 128)) <= bp (-80))%R /\
  (i = 0 -> V = 1%R /\ T = 0%R).
Proof.
  intros i Hi.
  assert (H : 1023 * 2 ^ 52 <= at_ exp2d_tab (2 * i + 1) + i * 2 ^ 45 < 1024 * 2 ^ 52 /\ is_pattern D (at_ exp2d_tab (2 * i)) /\ is_fin D (at_ exp2d_tab (2 * i)) = true /\
    (Rabs (dval (decode D (at_ exp2d_tab (2 * i)))) <= bp (-53))%R /\
    (Rabs (IZR (2 ^ 52 + (at_ exp2d_tab (2 * i + 1) + i * 2 ^ 45) mod 2 ^ 52) * bp (-52) * (1 + dval (decode D (at_ exp2d_tab (2 * i)))) - Rpower 2 (IZR i / 128)) <= bp (-80))%R /\
    (i = 0%Z -> IZR (2 ^ 52 + (at_ exp2d_tab (2 * i + 1) + i * 2 ^ 45) mod 2 ^ 52) * bp (-52) = 1 /\ dval (decode D (at_ exp2d_tab (2 * i))) = 0)%R).
  { zenum i 128%nat; (split; [vm_compute; split; congruence|]); (split; [vm_compute; split; congruence|]); (split; [vm_compute; reflexivity|]);
    match goal with |- context [IZR (2 ^ 52 + ?m)] => let v := eval vm_compute in (2 ^ 52 + m) in change (2 ^ 52 + m) with v end;
    match goal with |- context [decode ?f ?p] => let v := eval vm_compute in (decode f p) in change (decode f p) with v end; cbn [dval];
    bpn; (split; [interval with (i_prec 80)|split; [unfold Rpower; interval with (i_prec 100)|]]); try (intros HI; discriminate HI); intros _; split; lra. }
  destruct H as (H1 & H2 & H3 & H4 & H5 & H6). do 2 eexists. split; [|split; [split; [exact H2|split; [exact H3|reflexivity]]|split; [exact H1|split; [exact H4|split; [exact H5|exact H6]]]]].
  pose proof (pos_pat (at_ exp2d_tab (2 * i + 1) + i * 2 ^ 45) ltac:(lia)) as P.
  replace ((at_ exp2d_tab (2 * i + 1) + i * 2 ^ 45) / 2 ^ 52) with 1023 in P; [exact P|].
  apply Z.div_unique with (at_ exp2d_tab (2 * i + 1) + i * 2 ^ 45 - 1023 * 2 ^ 52); lia.
Qed.

(** The polynomials of exp_data.hpp:67-70 and exp2_data.hpp:67. *)
Definition e2 : R := (IZR 0x1ffffffffffdbd * bp (-54))%R.
Definition e3 : R := (IZR 0x1555555555543c * bp (-55))%R.
Definition e4 : R := (IZR 0x155555cf172b91 * bp (-57))%R.
Definition e5 : R := (IZR 0x11111167a4d017 * bp (-59))%R.
Definition PE (r : R) : R := (r + r * r * (e2 + r * e3) + r * r * (r * r) * (e4 + r * e5))%R.
Definition t1 : R := (IZR 0x162e42fefa39ef * bp (-53))%R.
Definition t2 : R := (IZR 0x1ebfbdff82c424 * bp (-55))%R.
Definition t3 : R := (IZR 0x1c6b08d70cf4b5 * bp (-57))%R.
Definition t4 : R := (IZR 0x13b2abd24650cc * bp (-59))%R.
Definition t5 : R := (IZR 0x15d7e09b4e3a84 * bp (-62))%R.
Definition PT (r : R) : R := (r * t1 + r * r * (t2 + r * t3) + r * r * (r * r) * (t4 + r * t5))%R.
Lemma e_real : is_real D (at_ expd_poly 0) e2 /\ is_real D (at_ expd_poly 1) e3 /\ is_real D (at_ expd_poly 2) e4 /\ is_real D (at_ expd_poly 3) e5.
Proof. repeat match goal with |- _ /\ _ => split end; apply lit_r; lia. Qed.
Lemma t_real : is_real D (at_ exp2d_poly 0) t1 /\ is_real D (at_ exp2d_poly 1) t2 /\ is_real D (at_ exp2d_poly 2) t3 /\ is_real D (at_ exp2d_poly 3) t4 /\ is_real D (at_ exp2d_poly 4) t5.
Proof. repeat match goal with |- _ /\ _ => split end; apply lit_r; lia. Qed.

Lemma PE_near : forall r, (- (272 / 100000) <= r <= 272 / 100000)%R -> (Rabs (PE r - (exp r - 1)) <= bp (-64))%R.
Proof. intros r H. unfold PE, e2, e3, e4, e5. bpn. apply Rabs_le; split; apply Rminus_le; interval with (i_prec 110, i_bisect r, i_taylor r, i_degree 9). Qed.
Lemma PE_far : forall r, (- (543 / 100000) <= r <= 543 / 100000)%R -> (Rabs (PE r - (exp r - 1)) <= 7 * bp (-58))%R.
Proof. intros r H. unfold PE, e2, e3, e4, e5. bpn. apply Rabs_le; split; apply Rminus_le; interval with (i_prec 110, i_bisect r, i_taylor r, i_degree 9). Qed.
Lemma PT_near : forall r, (- (/ 256 + bp (-58)) <= r <= / 256 + bp (-58))%R -> (Rabs (PT r - (exp (r * ln 2) - 1)) <= bp (-64))%R.
Proof. intros r H. unfold PT, t1, t2, t3, t4, t5. bpn_in H. bpn. apply Rabs_le; split; apply Rminus_le; interval with (i_prec 110, i_bisect r, i_taylor r, i_degree 9). Qed.
Lemma PT_far : forall r, (- (/ 128 + bp (-58)) <= r <= / 128 + bp (-58))%R -> (Rabs (PT r - (exp (r * ln 2) - 1)) <= 8 * bp (-58))%R.
Proof. intros r H. unfold PT, t1, t2, t3, t4, t5. bpn_in H. bpn. apply Rabs_le; split; apply Rminus_le; interval with (i_prec 110, i_bisect r, i_taylor r, i_degree 9). Qed.
