(** Two calls build the same circuit: proof rules and the gadgets. *)
From Coq Require Import ZArith Bool String List Lia.
From Verif.Model Require Import Base CS Bellpepper Util Poly Bignat Gadget Ints Median Difficulty HeaderStep.
From Verif.Spec Require Import SpecShape.
Import ListNotations.

Fixpoint sh {A B} (R : A -> B -> Prop) (m1 : prog A) (m2 : prog B) : Prop :=
  match m1, m2 with
  | Fail _, _ | Crash, _ | _, Fail _ | _, Crash => True
  | Ret a, Ret b => R a b
  | Alloc i1 n1 _ k1, Alloc i2 n2 _ k2 =>
      i1 = i2 /\ n1 = n2 /\ forall x v1 v2, sh R (k1 x v1) (k2 x v2)
  | Enforce n1 c1 k1, Enforce n2 c2 k2 => n1 = n2 /\ c1 = c2 /\ sh R k1 k2
  | Push n1 k1, Push n2 k2 => n1 = n2 /\ sh R k1 k2
  | Pop k1, Pop k2 => sh R k1 k2
  | _, _ => False
  end.

Lemma layout_next inp s1 s2 : same_layout s1 s2 -> next_var inp s1 = next_var inp s2.
Proof. intros (H1 & H2 & _). destruct inp; cbn; congruence. Qed.
Lemma layout_var inp nm v1 v2 s1 s2 : same_layout s1 s2 -> same_layout (push_var inp nm v1 s1) (push_var inp nm v2 s2).
Proof.
  intros (H1 & H2 & H3 & H4 & H5). unfold same_layout, push_var, add_name; cbn.
  destruct inp; rewrite ?app_length; cbn; rewrite ?H1, ?H2, ?H3, ?H4, ?H5; auto.
Qed.
Lemma layout_con nm c s1 s2 : same_layout s1 s2 -> same_layout (push_con nm c s1) (push_con nm c s2).
Proof.
  intros (H1 & H2 & H3 & H4 & H5). unfold same_layout, push_con, add_name; cbn.
  rewrite ?H3, ?H4, ?H5; auto.
Qed.
Lemma layout_ns nm s1 s2 : same_layout s1 s2 -> same_layout (push_ns nm s1) (push_ns nm s2).
Proof.
  intros (H1 & H2 & H3 & H4 & H5). unfold same_layout, push_ns, add_name; cbn.
  rewrite ?H3, ?H4, ?H5; auto.
Qed.
Lemma layout_pop s1 s2 : same_layout s1 s2 -> same_layout (pop_ns s1) (pop_ns s2).
Proof.
  intros (H1 & H2 & H3 & H4 & H5). unfold same_layout, pop_ns; cbn.
  rewrite ?H3, ?H4, ?H5; auto.
Qed.

Ltac noteq := intros; try discriminate; try contradiction.

Lemma sh_run {A B} (R : A -> B -> Prop) (m1 : prog A) : forall m2, sh R m1 m2 -> same_circuit R m1 m2.
Proof.
  unfold same_circuit.
  induction m1 as [a|e| |inp nm w k IH|nm c k IH|nm k IH|k IH]; intros m2 H w1 w2 s1 s2 x y s1' s2' HL H1 H2;
    destruct m2 as [b|e2| |inp2 nm2 u k2|nm2 c2 k2|nm2 k2|k2]; cbn in H, H1, H2; try contradiction;
    try discriminate;
    try (repeat match type of H1 with (if ?b then _ else _) = _ => destruct b end;
         repeat match type of H1 with match ?r with _ => _ end = _ => destruct r end; discriminate);
    try (repeat match type of H2 with (if ?b then _ else _) = _ => destruct b end;
         repeat match type of H2 with match ?r with _ => _ end = _ => destruct r end; discriminate).
  - injection H1 as -> <-. injection H2 as -> <-. auto.
  - destruct H as (-> & -> & H). pose proof (layout_next inp2 _ _ HL) as Hn.
    assert (K : forall v1 v2 z1 z2,
      run w1 (k (next_var inp2 s1) v1) (push_var inp2 nm2 z1 s1) = (Ok x, s1') ->
      run w2 (k2 (next_var inp2 s2) v2) (push_var inp2 nm2 z2 s2) = (Ok y, s2') ->
      same_layout s1' s2' /\ R x y).
    { intros v1 v2 z1 z2 K1 K2. rewrite <- Hn in K2.
      exact (IH _ _ _ (H _ _ _) _ _ _ _ _ _ _ _ (layout_var _ _ _ _ _ _ HL) K1 K2). }
    destruct w1; [destruct w as [z1| |]; try discriminate|]; (destruct w2; [destruct u as [z2| |]; try discriminate|]);
      exact (K _ _ _ _ H1 H2).
  - destruct H as (-> & -> & H). exact (IH _ H _ _ _ _ _ _ _ _ (layout_con _ _ _ _ HL) H1 H2).
  - destruct H as (-> & H). exact (IH _ H _ _ _ _ _ _ _ _ (layout_ns _ _ _ HL) H1 H2).
  - exact (IH _ H _ _ _ _ _ _ _ _ (layout_pop _ _ HL) H1 H2).
Qed.

Lemma sh_fail_r {A B} (R : A -> B -> Prop) (m : prog A) e : sh R m (Fail e).
Proof. destruct m; exact I. Qed.
Lemma sh_crash_r {A B} (R : A -> B -> Prop) (m : prog A) : sh R m Crash.
Proof. destruct m; exact I. Qed.
Lemma sh_fail_l {A B} (R : A -> B -> Prop) (m : prog B) e : sh R (Fail e) m.
Proof. exact I. Qed.
Lemma sh_crash_l {A B} (R : A -> B -> Prop) (m : prog B) : sh R Crash m.
Proof. exact I. Qed.
Lemma sh_mono {A B} (R S : A -> B -> Prop) (H : forall a b, R a b -> S a b) (m1 : prog A) : forall m2, sh R m1 m2 -> sh S m1 m2.
Proof.
  induction m1; intros m2; destruct m2; cbn; auto; intuition.
Qed.
Lemma sh_bind {A B A' B'} (R : A -> A' -> Prop) (S : B -> B' -> Prop) (m1 : prog A) (f : A -> prog B)
  (g : A' -> prog B') : forall m2, sh R m1 m2 -> (forall a b, R a b -> sh S (f a) (g b)) -> sh S (bind m1 f) (bind m2 g).
Proof.
  induction m1; intros m2 Hm Hf; destruct m2; cbn in *; auto using sh_fail_r, sh_crash_r; try contradiction;
    intuition.
Qed.
Lemma sh_ns {A B} (R : A -> B -> Prop) nm m1 m2 : sh R m1 m2 -> sh R (ns nm m1) (ns nm m2).
Proof.
  intros H. cbn. split; [reflexivity|]. eapply sh_bind; [exact H|]. intros a b Hab. exact Hab.
Qed.
Lemma sh_unwrap {A B} (R : A -> B -> Prop) (m1 : prog A) : forall m2, sh R m1 m2 -> sh R (unwrap_prog m1) (unwrap_prog m2).
Proof.
  induction m1; intros m2; destruct m2; cbn; auto; intuition.
Qed.
Lemma sh_alloc inp nm w1 w2 :
  sh (fun a b : var * option Z => fst a = fst b)
     (Alloc inp nm w1 (fun x v => Ret (x, v))) (Alloc inp nm w2 (fun x v => Ret (x, v))).
Proof. cbn. auto. Qed.
Lemma sh_enforce nm a1 b1 c1 a2 b2 c2 : a1 = a2 -> b1 = b2 -> c1 = c2 ->
  sh (fun _ _ => True) (enforce nm a1 b1 c1) (enforce nm a2 b2 c2).
Proof. intros -> -> ->. cbn. auto. Qed.
Lemma sh_lift {A B} (R : A -> B -> Prop) r1 r2 : same_outcome R r1 r2 -> sh R (lift r1) (lift r2).
Proof. intros H. destruct r1, r2; cbn; auto. Qed.
Lemma sh_lift_any {A B} (r1 : res A) (r2 : res B) : sh (fun _ _ => True) (lift r1) (lift r2).
Proof. destruct r1, r2; cbn; auto. Qed.
Lemma sh_mapM {A B A' B'} (RA : A -> A' -> Prop) (RB : B -> B' -> Prop) f g l1 l2 :
  Forall2 RA l1 l2 -> (forall a b, RA a b -> sh RB (f a) (g b)) -> sh (Forall2 RB) (mapM f l1) (mapM g l2).
Proof.
  intros HL Hf. induction HL as [|a b l1 l2 Hab HL IH]; cbn; [constructor|].
  eapply sh_bind; [apply Hf, Hab|]. intros x y Hxy. eapply sh_bind; [exact IH|]. intros xs ys Hs. cbn. constructor; auto.
Qed.
Lemma sh_foldM {A A' S S'} (RA : A -> A' -> Prop) (RS : S -> S' -> Prop) f g l1 l2 :
  Forall2 RA l1 l2 -> (forall s t a b, RS s t -> RA a b -> sh RS (f s a) (g t b)) ->
  forall s t, RS s t -> sh RS (foldM f l1 s) (foldM g l2 t).
Proof.
  intros HL Hf. induction HL as [|a b l1 l2 Hab HL IH]; cbn; intros s t Hs; [exact Hs|].
  eapply sh_bind; [apply Hf; eauto|]. intros x y Hxy. apply IH, Hxy.
Qed.
Lemma sh_iterM {A A'} (RA : A -> A' -> Prop) f g l1 l2 :
  Forall2 RA l1 l2 -> (forall a b, RA a b -> sh (fun _ _ => True) (f a) (g b)) ->
  sh (fun _ _ => True) (iterM f l1) (iterM g l2).
Proof.
  intros HL Hf. induction HL as [|a b l1 l2 Hab HL IH]; cbn; [exact I|].
  eapply sh_bind; [apply Hf; eauto|]. intros x y Hxy. exact IH.
Qed.
Lemma F2_refl {A} (l : list A) : Forall2 eq l l.
Proof. induction l; auto. Qed.
Lemma F2_map {A B} (f : A -> B) l1 l2 : Forall2 (fun a b => f a = f b) l1 l2 <-> map f l1 = map f l2.
Proof.
  split; [induction 1; cbn; congruence|]. revert l2. induction l1; destruct l2; cbn; noteq; constructor; try congruence.
  apply IHl1. congruence.
Qed.
Lemma F2_len {A B} (R : A -> B -> Prop) l1 l2 : Forall2 R l1 l2 -> List.length l1 = List.length l2.
Proof. induction 1; cbn; congruence. Qed.
Lemma F2_nth {A B} (R : A -> B -> Prop) l1 l2 : Forall2 R l1 l2 -> forall i a b, nth_error l1 i = Some a -> nth_error l2 i = Some b -> R a b.
Proof.
  induction 1; intros [|i] a b; cbn; noteq; [congruence|eauto].
Qed.
Lemma F2_seq {A B} (R : A -> B -> Prop) l1 l2 : Forall2 R l1 l2 -> forall k n, n = List.length l1 ->
  Forall2 (fun p q => fst p = fst q /\ R (snd p) (snd q)) (combine (seq k n) l1) (combine (seq k n) l2).
Proof.
  induction 1; intros k n ->; cbn; constructor; cbn; auto.
Qed.
Lemma F2_rev {A B} (R : A -> B -> Prop) l1 l2 : Forall2 R l1 l2 -> Forall2 R (rev l1) (rev l2).
Proof. induction 1; cbn; [constructor|]. apply Forall2_app; auto. Qed.
Lemma F2_concat {A B} (R : A -> B -> Prop) l1 l2 : Forall2 (Forall2 R) l1 l2 -> Forall2 R (List.concat l1) (List.concat l2).
Proof. induction 1; cbn; [constructor|]. apply Forall2_app; auto. Qed.
Lemma F2_mono {A B} (R S : A -> B -> Prop) l1 l2 : (forall a b, R a b -> S a b) -> Forall2 R l1 l2 -> Forall2 S l1 l2.
Proof. intros H. induction 1; constructor; auto. Qed.
Lemma F2_skipn {A B} (R : A -> B -> Prop) l1 l2 : Forall2 R l1 l2 -> forall k, Forall2 R (skipn k l1) (skipn k l2).
Proof. induction 1; intros [|k]; cbn; auto. Qed.
Lemma F2_firstn {A B} (R : A -> B -> Prop) l1 l2 : Forall2 R l1 l2 -> forall k, Forall2 R (firstn k l1) (firstn k l2).
Proof. induction 1; intros [|k]; cbn; auto. Qed.
Lemma F2_combine {A B A' B'} (R : A -> A' -> Prop) (S : B -> B' -> Prop) l1 l1' l2 l2' :
  Forall2 R l1 l1' -> Forall2 S l2 l2' ->
  Forall2 (fun p q => R (fst p) (fst q) /\ S (snd p) (snd q)) (combine l1 l2) (combine l1' l2').
Proof. intros H. revert l2 l2'. induction H; intros l2 l2' H2; cbn; [constructor|]. destruct H2; constructor; cbn; auto. Qed.
Lemma F2_flat {A B} (f : A -> list B) l1 l2 : Forall2 (fun a b => f a = f b) l1 l2 -> flat_map f l1 = flat_map f l2.
Proof. induction 1; cbn; congruence. Qed.

(** ** Outcomes without constraint system *)
Lemma so_any {A B} (r1 : res A) (r2 : res B) : same_outcome (fun _ _ => True) r1 r2.
Proof. intros ? ? _ _. exact I. Qed.
Lemma so_eq {A} (r : res A) : same_outcome eq r r.
Proof. intros a b H1 H2. congruence. Qed.
Lemma so_bind {A B A' B'} (R : A -> A' -> Prop) (S : B -> B' -> Prop) r1 r2 (f : A -> res B) (g : A' -> res B') :
  same_outcome R r1 r2 -> (forall a b, R a b -> same_outcome S (f a) (g b)) -> same_outcome S (rbind r1 f) (rbind r2 g).
Proof. intros H Hf x y. destruct r1, r2; cbn; noteq. exact (Hf _ _ (H _ _ eq_refl eq_refl) _ _ H0 H1). Qed.
Lemma so_ok {A B} (R : A -> B -> Prop) a b : R a b -> same_outcome R (Ok a) (Ok b).
Proof. intros H x y [= <-] [= <-]. exact H. Qed.
Lemma so_if {A B} (R : A -> B -> Prop) (c : bool) r1 r2 q1 q2 : same_outcome R r1 r2 -> same_outcome R q1 q2 ->
  same_outcome R (if c then r1 else q1) (if c then r2 else q2).
Proof. destruct c; auto. Qed.
Lemma so_panic {A B} (R : A -> B -> Prop) r : @same_outcome A B R Panic r.
Proof. intros ? ?. noteq. Qed.
Lemma so_err {A B} (R : A -> B -> Prop) e r : @same_outcome A B R (Err e) r.
Proof. intros ? ?. noteq. Qed.
Lemma so_idx {A B} (R : A -> B -> Prop) l1 l2 i : Forall2 R l1 l2 -> same_outcome R (idx l1 i) (idx l2 i).
Proof.
  intros H a b H1 H2. unfold idx in *.
  destruct (nth_error l1 i) eqn:E1; cbn in H1; noteq. destruct (nth_error l2 i) eqn:E2; cbn in H2; noteq.
  injection H1 as ->. injection H2 as ->. eapply F2_nth; eauto.
Qed.
Lemma so_unwrap_res {A B} (R : A -> B -> Prop) r1 r2 : same_outcome R r1 r2 -> same_outcome R (unwrap_res r1) (unwrap_res r2).
Proof. intros H a b. destruct r1, r2; cbn; noteq. apply H; congruence. Qed.
Lemma so_unwrap {A B} (R : A -> B -> Prop) o1 o2 : (forall a b, o1 = Some a -> o2 = Some b -> R a b) -> same_outcome R (unwrap o1) (unwrap o2).
Proof. intros H a b. destruct o1, o2; cbn; noteq. apply H; congruence. Qed.
Lemma so_rmapM {A B A' B'} (RA : A -> A' -> Prop) (RB : B -> B' -> Prop) f g l1 l2 :
  Forall2 RA l1 l2 -> (forall a b, RA a b -> same_outcome RB (f a) (g b)) -> same_outcome (Forall2 RB) (rmapM f l1) (rmapM g l2).
Proof.
  intros HL Hf. induction HL as [|a b l1 l2 Hab HL IH]; cbn; [apply so_ok; constructor|].
  eapply so_bind; [apply Hf, Hab|]. intros x y Hxy. eapply so_bind; [exact IH|]. intros xs ys Hs. apply so_ok. constructor; auto.
Qed.
