(** Determined wires, continued: numbers cut into limbs, conjunctions and equality tests (C101). *)
From Coq Require Import String ZArith Znumtheory Bool List Lia Setoid Morphisms ZifyBool ZifyNat.
From Verif.Model Require Import Base CS Bellpepper Util Poly Bignat Gadget.
From Verif.Spec Require Import Spec SpecUnique.
From Verif.Proofs Require Import Field Arith Convert Limbs Wp Lc BitNum PolyP BoolP BignatEq BignatAlloc Group Carry Regroup Mult MultC TopBits TopPoly TopBignat1 MinBits
  Unique UniqueG UniqueC.
Import ListNotations.
Local Open Scope Z_scope.

Section UniqueD.
Context {E : Env} {W : Wf E}.
Context (r1 r2 : assignment) (one1 : r1 ONE = 1) (one2 : r2 ONE = 1).
Notation uwp := (uwp r1 r2).
Notation same := (same r1 r2).
Notation leq := (leq r1 r2).

Lemma concat_inj {A} w (xs : list (list A)) : forall ys, Forall (fun x => length x = w) xs -> Forall (fun y => length y = w) ys ->
  length xs = length ys -> List.concat xs = List.concat ys -> xs = ys.
Proof.
  induction xs as [|x xs IH]; intros [|y ys] HX HY HL H; try discriminate; auto. inversion HX; inversion HY; subst. cbn [List.concat] in H.
  apply app_inj_len in H; [|congruence]. destruct H as [-> H]. f_equal. apply IH; auto.
Qed.
Lemma concat_len {A} w (xs : list (list A)) : Forall (fun x => length x = w) xs -> length (List.concat xs) = (w * length xs)%nat.
Proof. induction 1 as [|x xs H _ IH]; cbn [List.concat length]; [lia|]. rewrite app_length, IH, H. lia. Qed.
Lemma Forall2_left {A B} (P : B -> Prop) (R : A -> B -> Prop) l bs : Forall2 (fun a b => P b /\ R a b) l bs -> Forall P bs /\ length bs = length l.
Proof. induction 1 as [|a b l bs [H1 H2] _ IH]; cbn [length]; [auto|]. destruct IH. split; [constructor; auto|congruence]. Qed.

Lemma from_num_uwp n w k : (w < NUM_BITS)%nat -> (w * k < NUM_BITS)%nat -> leq (n_lc n) ->
  uwp (from_num n w k) (fun b l => Forall leq (limbs b) /\ Forall same l).
Proof.
  intros HW HK HN. eapply uwp_mono.
  - apply uwp_both; [apply from_num_swp; exact one1|apply from_num_swp; exact one2|].
    instantiate (1 := fun b l => Forall leq (limbs b) -> Forall same l).
    unfold from_num. do 2 ustep. apply alloc_from_nat_uwp. intros b l Lb Pb Ll.
    assert (Pw : limb_width (bparams b) = w) by (rewrite Pb; reflexivity).
    do 2 ustep. eapply uwp_mono; [apply (uwp_imp _ _ _ (Forall leq (limbs b))); intros HL; apply bn_decompose_uwp; auto; rewrite Pw; exact HW|].
    cbv beta. intros bv l1 H1. do 2 ustep. unfold num_is_equal. ustep. intros _ _. ustep. intros HL. destruct (H1 HL) as (_ & _ & H2).
    rewrite Lb in HL. apply leq_vars in HL. fsame.
  - cbv beta. intros b l ((_ & L1 & bs1 & A1 & V1) & (_ & _ & bs2 & A2 & V2) & Hl).
    assert (HL : Forall leq (limbs b)); [|auto].
    destruct (Forall2_left _ _ _ _ A1) as [B1 N1]. destruct (Forall2_left _ _ _ _ A2) as [B2 N2].
    assert (K : bs1 = bs2).
    { apply (concat_inj w); auto; [congruence|]. eapply (bits_det _ _ (w * k)); [| |exact HK|exact V1|exact V2|exact HN].
      - rewrite (concat_len w); auto. congruence.
      - rewrite (concat_len w); auto. congruence. }
    subst bs2. clear -A1 A2. revert A2. induction A1 as [|a bs l bss [_ H1] _ IH]; intros A2; [constructor|].
    inversion A2 as [|? ? ? ? [_ K1] K2]; subst. constructor; auto. unfold Unique.leq. now rewrite H1, K1.
Qed.

Definition det (b : Boolean) : Prop := leq (bool_lc b 1).
Lemma det_is a : det (BIs a) <-> same (ab_var a).
Proof. unfold det, Unique.leq, Unique.same. cbn [bool_lc lc_eval]. rewrite !Z.add_0_r, !Z.mul_1_l. reflexivity. Qed.
Lemma det_neg a : det (BNot a) <-> same (ab_var a).
Proof.
  unfold det, Unique.leq, Unique.same. cbn [bool_lc lc_eval]. rewrite one1, one2. split; intros H.
  - replace (r1 (ab_var a)) with (1 - (1 * 1 + (- (1) * r1 (ab_var a) + 0))) by ring.
    replace (r2 (ab_var a)) with (1 - (1 * 1 + (- (1) * r2 (ab_var a) + 0))) by ring. now rewrite H.
  - now rewrite H.
Qed.
Lemma det_const c : det (BConst c).
Proof. unfold det, Unique.leq. destruct c; cbn [bool_lc lc_eval lc_zero]; rewrite ?one1, ?one2; reflexivity. Qed.
Lemma det_not b : det b -> det (bool_not b).
Proof. destruct b as [a|a|c]; cbn [bool_not]; rewrite ?det_is, ?det_neg; auto. intros _. apply det_const. Qed.
Lemma and_uwp a b : det a -> det b -> uwp (bool_and a b) (fun c l => det c /\ Forall same l).
Proof.
  intros HA HB.
  assert (T : forall c (Q : Boolean -> list var -> Prop), Q c [] -> uwp (Ret c) Q) by (intros; exact H).
  destruct a as [a|a|[]], b as [b|b|[]]; cbn [bool_and];
    try (apply T; split; [first [exact HA | exact HB | apply det_const] | apply Forall_nil]);
    unfold ab_and, ab_and_not, ab_nor; rewrite ?det_is, ?det_neg in *;
    do 3 ustep; intros x v; do 2 ustep; intros C1 C2; repeat ustep; lcs_in C1; lcs_in C2; rewrite ?one1 in C1; rewrite ?one2 in C2;
    (assert (Hx : same x); [|rewrite ?det_is; split; [exact Hx|fsame]]);
    unfold Unique.same in *; rewrite <- C1, <- C2; now rewrite ?HA, ?HB.
Qed.
Lemma or_uwp a b : det a -> det b -> uwp (bool_or a b) (fun c l => det c /\ Forall same l).
Proof.
  intros HA HB. unfold bool_or. do 2 ustep. eapply uwp_mono; [apply and_uwp; apply det_not; auto|]. cbv beta. intros c l [H1 H2]. ustep.
  split; [now apply det_not|fsame].
Qed.

Lemma equals_uwp a b : same (an_var a) -> same (an_var b) ->
  uwp (equals a b) (fun c l => det c /\ exists r d i t, l = [r; d; i; t] /\ same r /\ same d /\ same t /\
    (~ eqp (r1 (an_var a)) (r1 (an_var b)) -> same i)).
Proof.
  intros HA HB. unfold equals, ab_alloc, an_alloc. do 3 ustep. intros r vr. do 2 ustep. intros R1 R2. ustep. cbn [ab_var].
  do 3 ustep. intros d vd. ustep. do 2 ustep. cbn [an_var]. intros D1 D2.
  do 3 ustep. intros i vi. ustep. do 3 ustep. intros t vt. ustep. do 2 ustep. cbn [an_var]. intros T1 T2.
  do 2 ustep. intros U1 U2. do 2 ustep. intros V1 V2. do 2 ustep. intros X1 X2. ustep. cbn [app].
  repeat (progress lcs_in D1). repeat (progress lcs_in D2). repeat (progress lcs_in T1). repeat (progress lcs_in T2).
  repeat (progress lcs_in U1). repeat (progress lcs_in U2). repeat (progress lcs_in V1). repeat (progress lcs_in V2).
  repeat (progress lcs_in X1). repeat (progress lcs_in X2). rewrite ?one1, ?one2, ?Z.mul_1_r in *. rewrite det_is. cbn [ab_var].
  unfold Unique.same in *.
  assert (HD : eqp (r1 d) (r2 d)) by (rewrite <- D1, <- D2, HA, HB; reflexivity).
  destruct (Z.eq_dec (fmk (r1 (an_var a))) (fmk (r1 (an_var b)))) as [Heq|Hne]; rewrite <- eqp_eq in *.
  - assert (Z1 : eqp (r1 t) 0) by (rewrite <- T1, Heq, Z.sub_diag; reflexivity).
    assert (Z2 : eqp (r2 t) 0) by (rewrite <- T2, <- HA, <- HB, Heq, Z.sub_diag; reflexivity).
    assert (O1 : eqp (r1 r) 1).
    { rewrite Z1 in X1. apply eqp_sub_0. transitivity (- ((0 - 1) * (r1 r - 1))); [now replace (- ((0 - 1) * (r1 r - 1))) with (r1 r - 1) by ring|rewrite X1; reflexivity]. }
    assert (O2 : eqp (r2 r) 1).
    { rewrite Z2 in X2. apply eqp_sub_0. transitivity (- ((0 - 1) * (r2 r - 1))); [now replace (- ((0 - 1) * (r2 r - 1))) with (r2 r - 1) by ring|rewrite X2; reflexivity]. }
    assert (HR : eqp (r1 r) (r2 r)) by now rewrite O1, O2. split; [exact HR|]. exists r, d, i, t. repeat split; auto. now rewrite Z1, Z2. intros K; contradiction.
  - assert (N1 : ~ eqp (r1 (an_var a) - r1 (an_var b)) 0) by (intros K; apply Hne; now apply eqp_sub_0).
    assert (N2 : ~ eqp (r2 (an_var a) - r2 (an_var b)) 0) by (rewrite <- HA, <- HB; exact N1).
    assert (K1 : eqp (r1 t) 1) by (apply eqp_0_mul in U1; destruct U1 as [U1|U1]; [contradiction|now apply eqp_sub_0]).
    assert (K2 : eqp (r2 t) 1) by (apply eqp_0_mul in U2; destruct U2 as [U2|U2]; [contradiction|now apply eqp_sub_0]).
    assert (L1 : eqp (r1 r) 0) by (apply eqp_0_mul in V1; destruct V1; [contradiction|auto]).
    assert (L2 : eqp (r2 r) 0) by (apply eqp_0_mul in V2; destruct V2; [contradiction|auto]).
    assert (HR : eqp (r1 r) (r2 r)) by now rewrite L1, L2. split; [exact HR|]. exists r, d, i, t. repeat split; auto. now rewrite K1, K2.
    intros _. apply (eqp_cancel (r2 (an_var a) - r2 (an_var b))); [exact N2|]. rewrite <- HA, <- HB at 1. now rewrite T1, T2, K1, K2.
Qed.

Lemma is_equal_uwp a b : Forall leq (limbs a) -> Forall leq (limbs b) ->
  uwp (is_equal a b) (fun c l => det c /\
    ((forall i, (i < length (limbs a))%nat -> ~ eqp (lc_eval r1 (nth i (limbs a) lc_zero)) (lc_eval r1 (nth i (limbs b) lc_zero))) -> Forall same l)).
Proof.
  intros HA HB. unfold is_equal. destruct (negb _); [exact I|]. do 2 ustep. intros w _.
  set (ne := forall i, _ -> _).
  eapply uwp_mono; [apply (uwp_foldM _ _ _ det (fun x => ne -> same x))|].
  - intros c i Hi Hc. apply in_seq in Hi. do 2 ustep. unfold an_alloc at 1. ustep. ustep. intros x vx. ustep. do 2 ustep. cbn [an_var]. intros A1 A2.
    do 2 ustep. unfold an_alloc at 1. ustep. ustep. intros y vy. ustep. do 2 ustep. cbn [an_var]. intros B1 B2.
    lcs_in A1. lcs_in A2. lcs_in B1. lcs_in B2. apply (proj1 (eqp_sub_0 _ _)) in A1, A2, B1, B2.
    assert (HX : same x) by (apply (copy_same r1 r2 (nth i (limbs a) lc_zero)); auto; now apply leq_nth).
    assert (HY : same y) by (apply (copy_same r1 r2 (nth i (limbs b) lc_zero)); auto; now apply leq_nth).
    do 2 ustep. eapply uwp_mono; [apply equals_uwp; cbn [an_var]; auto|]. cbn [an_var].
    cbv beta. intros e l (He & r & d & iv & t & -> & Hr & Hd & Ht & Hiv). ustep.
    eapply uwp_mono; [apply and_uwp; auto|]. cbv beta. intros c' l' [Hc' Hl']. split; [exact Hc'|].
    assert (Hl : Forall (fun x => ne -> same x) l') by (eapply Forall_impl; [|exact Hl']; auto).
    cbn [app]. repeat (apply Forall_cons; [auto|]); auto. intros Hne. apply Hiv. rewrite <- A1, <- B1. apply Hne. lia.
  - apply det_const.
  - cbv beta. intros c l [Hc Hl]. split; [exact Hc|]. intros Hne. eapply Forall_impl; [|exact Hl]. auto.
Qed.
End UniqueD.
