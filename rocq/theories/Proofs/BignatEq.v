(** src/mp/bignat.rs: the equality gadgets (C14-C16). *)
From Coq Require Import ZArith Bool List Lia Setoid Morphisms ZifyBool ZifyNat.
From Verif.Model Require Import Base CS Bellpepper Util Poly Bignat.
From Verif.Spec Require Import Spec.
From Verif.Proofs Require Import Field Arith Convert Limbs Wp Lc BitNum PolyP BoolP.
Import ListNotations.
Local Open Scope Z_scope.

Section BignatEq.
Context {E : Env} {W : Wf E}.

Section Rho.
Context (rho : assignment) (one : rho ONE = 1).

(** ** equals *)
Definition is_an (n : allocated_num) (v : Z) : Prop :=
  an_val n = Some v /\ canon v /\ eqp (rho (an_var n)) v.

Lemma an_alloc_swp md w (Q : allocated_num -> Prop) :
  (forall x v, mpred md w (rho x) v -> Q (mkAN v x)) -> swp md rho (an_alloc w) Q.
Proof. intros H. unfold an_alloc. sstep. sstep. intros x v Hm. sstep. auto. Qed.
Lemma an_alloc_hwp w v (Q : allocated_num -> Prop) : w = Ok v ->
  (forall x, rho x = v -> Q (mkAN (Some v) x)) -> hwp rho (an_alloc w) Q.
Proof. intros Hw H. unfold an_alloc. hstep. hstep; [exact Hw|]. intros x Hx. hstep. auto. Qed.
Lemma an_alloc_awp md w y (Q : allocated_num -> Prop) : (md = Honest -> w = Ok y) ->
  (forall x v, rho x = y -> vpred md w y v -> Q (mkAN v x)) -> awp md rho (an_alloc w) [y] Q.
Proof.
  intros Hw H. unfold an_alloc. apply awp_bind_all. astep; [exact Hw|]. intros x v Hx Hv. astep. auto.
Qed.

Lemma equals_swp md a b : swp md rho (equals a b) (fun r =>
  exists x, wire_bool rho r x /\ (x = true <-> eqp (rho (an_var a)) (rho (an_var b)))).
Proof.
  unfold equals. do 2 sstep. eapply swp_mono; [apply ab_alloc_swp; auto|].
  intros r (_ & x & Hr & _). do 2 sstep. apply an_alloc_swp. intros d vd _. cbn [an_var an_val].
  do 2 sstep. intros Hd. do 2 sstep. apply an_alloc_swp. intros i vi _. cbn [an_var an_val].
  do 2 sstep. apply an_alloc_swp. intros t vt _. cbn [an_var an_val].
  do 2 sstep. intros Ht. do 2 sstep. intros H1. do 2 sstep. intros H2. do 2 sstep. intros H3. sstep.
  exists x. split; auto. rewrite wire_is in Hr.
  lcs_in H1. lcs_in H2. lcs_in H3. lcs_in Ht. rewrite one in *.
  set (A := rho (an_var a)) in *. set (B := rho (an_var b)) in *.
  destruct x; split; intros H; try discriminate; auto.
  - rewrite Hr in H2. cbn [Z.b2z] in H2. rewrite Z.mul_1_r in H2.
    apply (proj1 (eqp_sub_0 _ _)). exact H2.
  - exfalso. apply (proj2 (eqp_sub_0 _ _)) in H. rewrite H in Ht. rewrite <- Ht, Hr in H3.
    cbn [Z.b2z] in H3. apply eqp_1_0. rewrite <- H3. ering.
Qed.

Lemma equals_hwp a b x y : is_an a x -> is_an b y ->
  hwp rho (equals a b) (fun r => is_bool rho r (x =? y)).
Proof.
  intros (Va & Ca & Ha) (Vb & Cb & Hb). unfold equals. rewrite Va, Vb. cbn [unwrap rbind].
  do 2 hstep. eapply hwp_mono; [apply ab_alloc_hwp; auto|].
  intros r Hr. do 2 hstep. eapply an_alloc_hwp; [reflexivity|]. intros d Hd. cbn [an_var an_val].
  do 2 hstep. { lcs. rewrite one, Ha, Hb, Hd. feq. ering. }
  cbn [unwrap rbind].
  assert (Hi : exists i, (if fsub x y =? 0 then Ok fone else unwrap (finvert (fsub x y))) = Ok i /\
     (fsub x y <> 0 -> eqp ((x - y) * i) 1)).
  { destruct (Z.eqb_spec (fsub x y) 0) as [C|C].
    - eexists; split; [reflexivity|]. congruence.
    - destruct (finvert_spec (fsub x y)) as (i & H1 & H2 & H3).
      { intros H. apply C. apply canon_eq0; auto using fsub_canon. }
      exists i. rewrite H1. split; [reflexivity|]. intros _. rewrite <- H3. feq. reflexivity. }
  destruct Hi as (i & Hi & Hi').
  do 2 hstep. eapply an_alloc_hwp; [exact Hi|]. intros vi Hvi. cbn [an_var an_val unwrap rbind].
  do 2 hstep. eapply an_alloc_hwp; [reflexivity|]. intros t Ht. cbn [an_var an_val unwrap rbind].
  assert (Hxy : x =? y = (fsub x y =? 0)).
  { destruct (Z.eqb_spec x y) as [->|N].
    - symmetry. apply Z.eqb_eq. apply canon_eq0; auto using fsub_canon. feq. ering.
    - symmetry. apply Z.eqb_neq. intros C. apply N. apply canon_eqp; auto.
      apply (proj1 (eqp_sub_0 _ _)). rewrite <- C. now feq. }
  assert (Et : eqp (rho t) ((x - y) * i)) by (rewrite Ht; feq; feq; reflexivity).
  assert (Er : eqp (rho (ab_var r)) (Z.b2z (x =? y))) by (apply (proj1 (wire_is _ _ _)), Hr).
  do 2 hstep. { lcs. rewrite Ha, Hb, Hvi, Et. reflexivity. }
  destruct (Z.eqb_spec (fsub x y) 0) as [C|C].
  - assert (D : eqp (x - y) 0) by (rewrite <- C; now feq).
    assert (T0 : eqp (rho t) 0) by (rewrite Et, D; ering).
    do 2 hstep. { lcs. rewrite Ha, Hb, D. ering. }
    do 2 hstep. { lcs. rewrite Ha, Hb, D. ering. }
    do 2 hstep. { lcs. rewrite T0, one, Er, Hxy. cbn [Z.b2z]. ering. }
    hstep. exact Hr.
  - specialize (Hi' C). rewrite Hi' in Et.
    do 2 hstep. { lcs. rewrite Et, one. ering. }
    do 2 hstep. { lcs. rewrite Er, Hxy. cbn [Z.b2z]. ering. }
    do 2 hstep. { lcs. rewrite Et, one. ering. }
    hstep. exact Hr.
Qed.

(** ** equal *)
Lemma equal_ge_swp md a b : (length (limbs b) <= length (limbs a))%nat ->
  swp md rho (equal_ge a b) (fun _ => forall i, (i < length (limbs a))%nat ->
     eqp (lc_eval rho (nth i (limbs a) lc_zero)) (lc_eval rho (nth i (limbs b) lc_zero))).
Proof.
  intros HL. unfold equal_ge. do 2 sstep. intros _ _. sstep.
  apply (swp_iterM _ _ _ (fun i => eqp (lc_eval rho (nth i (limbs a) lc_zero)) (lc_eval rho (nth i (limbs b) lc_zero)))).
  { intros i _. sstep. lcs. intros H. now apply (proj1 (eqp_sub_0 _ _)). }
  intros H1. apply (swp_iterM _ _ _ (fun i => eqp (lc_eval rho (nth i (limbs a) lc_zero)) 0)).
  { intros i _. sstep. auto. }
  intros H2 i Hi. destruct (Nat.lt_ge_cases i (length (limbs b))).
  - apply H1. apply in_seq. lia.
  - rewrite (nth_overflow (limbs b)) by lia. apply H2. apply in_seq. lia.
Qed.
Lemma equal_ge_awp md a b : (length (limbs b) <= length (limbs a))%nat ->
  limb_width (bparams a) = limb_width (bparams b) ->
  (forall i, (i < length (limbs a))%nat ->
     eqp (lc_eval rho (nth i (limbs a) lc_zero)) (lc_eval rho (nth i (limbs b) lc_zero))) ->
  awp md rho (equal_ge a b) [] (fun _ => True).
Proof.
  intros HL HW H. unfold equal_ge. apply awp_bind_nil. eapply awp_lift.
  { unfold width_agreement. rewrite HW, Nat.eqb_refl. reflexivity. }
  apply awp_bind_nil. apply awp_iterM_nil.
  { intros i Hi. apply in_seq in Hi. astep; auto. lcs. apply (proj2 (eqp_sub_0 _ _)). apply H. lia. }
  apply awp_iterM_nil; auto.
  intros i Hi. apply in_seq in Hi. astep; auto. rewrite H by lia.
  rewrite nth_overflow by lia. reflexivity.
Qed.

Lemma equal_swp md a b : swp md rho (equal a b) (fun _ => forall i,
     eqp (lc_eval rho (nth i (limbs a) lc_zero)) (lc_eval rho (nth i (limbs b) lc_zero))).
Proof.
  unfold equal. destruct (Nat.ltb_spec (length (limbs a)) (length (limbs b))).
  - eapply swp_mono; [apply equal_ge_swp; lia|]. intros u H1 i. cbv beta in H1. symmetry.
    destruct (Nat.lt_ge_cases i (length (limbs b))); auto. rewrite !nth_overflow by lia. reflexivity.
  - eapply swp_mono; [apply equal_ge_swp; lia|]. intros u H1 i. cbv beta in H1.
    destruct (Nat.lt_ge_cases i (length (limbs a))); auto. rewrite !nth_overflow by lia. reflexivity.
Qed.
Lemma equal_awp md a b : limb_width (bparams a) = limb_width (bparams b) ->
  (forall i, eqp (lc_eval rho (nth i (limbs a) lc_zero)) (lc_eval rho (nth i (limbs b) lc_zero))) ->
  awp md rho (equal a b) [] (fun _ => True).
Proof.
  intros HW H. unfold equal. destruct (Nat.ltb_spec (length (limbs a)) (length (limbs b))).
  - apply equal_ge_awp; auto; [lia|]. intros. symmetry. auto.
  - apply equal_ge_awp; auto.
Qed.

(** ** is_equal *)
Lemma is_equal_swp md a b : swp md rho (is_equal a b) (fun r =>
  exists x, wire_bool rho r x /\ (x = true <-> forall i, (i < length (limbs a))%nat ->
     eqp (lc_eval rho (nth i (limbs a) lc_zero)) (lc_eval rho (nth i (limbs b) lc_zero)))).
Proof.
  unfold is_equal. destruct (negb _); [exact I|]. do 2 sstep. intros _ _.
  apply (swp_foldM _ _ _ (fun pre r => exists x, wire_bool rho r x /\ (x = true <-> forall i, In i pre ->
     eqp (lc_eval rho (nth i (limbs a) lc_zero)) (lc_eval rho (nth i (limbs b) lc_zero)))) _ []).
  - exists true. split; [now apply wire_const|]. split; auto. intros _ i [].
  - intros pre i post r _ (x & Hr & Hx).
    do 2 sstep. apply an_alloc_swp. intros sl vs _. cbn [an_var].
    do 2 sstep. intros H1. do 2 sstep. apply an_alloc_swp. intros ol vo _. cbn [an_var].
    do 2 sstep. intros H2. do 2 sstep. eapply swp_mono; [apply equals_swp|].
    intros e (y & He & Hy). cbn [an_var] in Hy. sstep.
    eapply swp_mono; [eapply bool_and_swp; eauto|]. intros r' Hr'.
    exists (y && x). split; auto. lcs_in H1. lcs_in H2.
    apply (proj1 (eqp_sub_0 _ _)) in H1. apply (proj1 (eqp_sub_0 _ _)) in H2.
    rewrite andb_true_iff, Hx, Hy, <- H1, <- H2. split.
    + intros [G1 G2] j Hj. apply in_app_iff in Hj. destruct Hj as [Hj|[<-|[]]]; auto.
    + intros G. split; [apply G, in_app_iff; right; left; auto|].
      intros j Hj. apply G, in_app_iff. auto.
  - intros r (x & Hr & Hx). exists x. split; auto. rewrite Hx. cbn [app]. split; intros H i Hi.
    + apply H, in_seq. lia.
    + apply in_seq in Hi. apply H. lia.
Qed.

Lemma is_equal_hwp a b xs ys : limb_values a = Some xs -> limb_values b = Some ys ->
  Forall canon xs -> Forall canon ys -> ev rho (limbs a) xs -> ev rho (limbs b) ys ->
  length xs = length ys -> limb_width (bparams a) = limb_width (bparams b) ->
  hwp rho (is_equal a b) (fun r => exists x, is_bool rho r x /\ (x = true <-> xs = ys)).
Proof.
  intros Va Vb Ca Cb Ha Hb HL HW. unfold is_equal.
  rewrite (ev_length _ _ _ Ha), (ev_length _ _ _ Hb), HL, Nat.eqb_refl. cbn [negb].
  do 2 hstep. { unfold width_agreement. rewrite HW, Nat.eqb_refl. reflexivity. }
  apply (hwp_foldM _ _ (fun pre r => exists x, is_bool rho r x /\ (x = true <-> forall i, In i pre ->
     nth i xs 0 = nth i ys 0)) _ []).
  - exists true. split; [split; [reflexivity|now apply wire_const]|]. split; auto. intros _ i [].
  - intros pre i post r Hpre (x & Hr & Hx).
    assert (Hi : (i < length ys)%nat).
    { assert (In i (seq 0 (length ys))) by (cbn [app] in Hpre; rewrite Hpre; apply in_app_iff; right; left; auto).
      apply in_seq in H. lia. }
    rewrite Va, Vb. cbn [grab rbind]. unfold idx.
    rewrite (nth_error_nth' xs 0) by lia. rewrite (nth_error_nth' ys 0) by lia. cbn [unwrap].
    do 2 hstep. eapply an_alloc_hwp; [reflexivity|]. intros sl Hsl. cbn [an_var].
    do 2 hstep. { lcs. rewrite Hsl. apply (proj2 (eqp_sub_0 _ _)). now apply ev_nth. }
    do 2 hstep. eapply an_alloc_hwp; [reflexivity|]. intros ol Hol. cbn [an_var].
    do 2 hstep. { lcs. rewrite Hol. apply (proj2 (eqp_sub_0 _ _)). now apply ev_nth. }
    do 2 hstep. eapply hwp_mono; [apply (equals_hwp _ _ (nth i xs 0) (nth i ys 0))|].
    { split; [reflexivity|]. cbn [an_var]. split; [|now rewrite Hsl].
      rewrite Forall_forall in Ca. apply Ca, nth_In. lia. }
    { split; [reflexivity|]. cbn [an_var]. split; [|now rewrite Hol].
      rewrite Forall_forall in Cb. apply Cb, nth_In. lia. }
    intros e He. cbv beta in He. hstep. eapply hwp_mono; [exact (bool_and_hwp _ one _ _ _ _ He Hr)|]. intros r' Hr'.
    eexists. split; [exact Hr'|]. rewrite andb_true_iff, Z.eqb_eq, Hx. split.
    + intros [G1 G2] j Hj. apply in_app_iff in Hj. destruct Hj as [Hj|[<-|[]]]; auto.
    + intros G. split; [apply G, in_app_iff; right; left; auto|].
      intros j Hj. apply G, in_app_iff. auto.
  - intros r (x & Hr & Hx). exists x. split; auto. rewrite Hx. cbn [app]. split.
    + intros H. apply (nth_ext _ _ 0 0 HL). intros i Hi. apply H, in_seq. lia.
    + intros -> i _. reflexivity.
Qed.

End Rho.
End BignatEq.
