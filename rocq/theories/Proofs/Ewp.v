(** What every result of a gadget satisfies ([rwp]), and what a prover achieves who chooses each
    auxiliary value when it is allocated, knowing only a set of assignments ([ewp]). *)
From Coq Require Import ZArith Bool List Lia.
From Verif.Model Require Import Base CS.
From Verif.Spec Require Import Spec.
From Verif.Proofs Require Import Field Wp.
Import ListNotations.
Local Open Scope Z_scope.

Fixpoint rwp {A} (m : prog A) (Q : A -> Prop) : Prop :=
  match m with
  | Ret a => Q a
  | Fail _ => True
  | Crash => True
  | Alloc inp nm w k => forall x v, rwp (k x v) Q
  | Enforce nm c k => rwp k Q
  | Push nm k => rwp k Q
  | Pop k => rwp k Q
  end.

Lemma rwp_mono {A} (m : prog A) : forall (Q R : A -> Prop), rwp m Q -> (forall a, Q a -> R a) -> rwp m R.
Proof. induction m; simpl; eauto. Qed.
Lemma rwp_bind {A B} (m : prog A) (f : A -> prog B) Q : rwp m (fun a => rwp (f a) Q) -> rwp (bind m f) Q.
Proof. induction m; simpl; eauto. Qed.
Lemma rwp_ns {A} nm (m : prog A) Q : rwp m Q -> rwp (ns nm m) Q.
Proof. intros H; simpl. apply rwp_bind. eapply rwp_mono; [exact H|]. simpl; auto. Qed.
Lemma rwp_mapM {A B} (f : A -> prog B) (R : A -> B -> Prop) : forall l (Q : list B -> Prop),
  (forall a, In a l -> rwp (f a) (R a)) -> (forall bs, Forall2 R l bs -> Q bs) -> rwp (mapM f l) Q.
Proof.
  induction l as [|a l IH]; intros Q Hf HQ; simpl.
  - apply HQ. constructor.
  - apply rwp_bind. eapply rwp_mono; [apply Hf; left; auto|]. intros b Hb. simpl.
    apply rwp_bind. apply IH; [intros; apply Hf; right; auto|].
    intros bs Hbs. simpl. apply HQ. constructor; auto.
Qed.

Section Ewp.
Context {E : Env}.

Lemma swp_rwp {A} md rho (m : prog A) : forall (P Q : A -> Prop),
  rwp m P -> swp md rho m Q -> swp md rho m (fun a => P a /\ Q a).
Proof. induction m; simpl; eauto. Qed.

Definition known := assignment -> Prop.
Definition sub (R' R : known) : Prop := forall rho, R' rho -> R rho.
Lemma sub_refl R : sub R R.
Proof. intros rho; auto. Qed.
Lemma sub_trans R1 R2 R3 : sub R1 R2 -> sub R2 R3 -> sub R1 R3.
Proof. intros H1 H2 rho H. auto. Qed.
Definition fixed (R : known) (x : var) (y : Z) : known := fun rho => R rho /\ rho x = y.
Lemma sub_fixed R x y : sub (fixed R x y) R.
Proof. intros rho [H _]; auto. Qed.

Fixpoint ewp {A} (md : mode) (R : known) (m : prog A) (Q : known -> A -> Prop) : Prop :=
  match m with
  | Ret a => Q R a
  | Fail _ => False
  | Crash => False
  | Alloc inp nm w k => exists y, (md = Honest -> w = Ok y) /\
      forall x v, vpred md w y v -> ewp md (fixed R x y) (k x v) Q
  | Enforce nm c k => (forall rho, R rho -> csat rho c) /\ ewp md R k Q
  | Push nm k => ewp md R k Q
  | Pop k => ewp md R k Q
  end.

Lemma ewp_mono {A} md (m : prog A) : forall R (Q Q' : known -> A -> Prop),
  ewp md R m Q -> (forall R' a, sub R' R -> Q R' a -> Q' R' a) -> ewp md R m Q'.
Proof.
  induction m; simpl; intros R Q Q' H1 HQ; try tauto; eauto using sub_refl.
  - destruct H1 as (y & Hy & Hk). exists y. split; auto. intros x v Hv.
    eapply H; [apply Hk, Hv|]. intros R' a Hs. apply HQ. eapply sub_trans; [exact Hs|apply sub_fixed].
  - destruct H1; eauto.
Qed.
Lemma ewp_bind {A B} md (m : prog A) (f : A -> prog B) Q : forall R,
  ewp md R m (fun R' a => ewp md R' (f a) Q) -> ewp md R (bind m f) Q.
Proof.
  induction m; simpl; intros R H1; try tauto; eauto.
  - destruct H1 as (y & Hy & Hk). exists y. split; auto.
  - destruct H1; eauto.
Qed.
Lemma ewp_ns {A} md R nm (m : prog A) Q : ewp md R m Q -> ewp md R (ns nm m) Q.
Proof. intros H; simpl. apply ewp_bind. eapply ewp_mono; [exact H|]. simpl; auto. Qed.
Lemma ewp_rwp {A} md (m : prog A) : forall (R : known) (P : A -> Prop) (Q : known -> A -> Prop),
  rwp m P -> ewp md R m Q -> ewp md R m (fun R' a => P a /\ Q R' a).
Proof.
  induction m; simpl; intros R P Q H1 H2; try tauto; eauto.
  - destruct H2 as (y & Hy & Hk). exists y. split; auto.
  - destruct H2; eauto.
Qed.
Lemma ewp_mapM {A B} md (f : A -> prog B) (T : known -> A -> B -> Prop) :
  (forall R R' a b, sub R' R -> T R a b -> T R' a b) ->
  forall l R (Q : known -> list B -> Prop),
  (forall a R', In a l -> sub R' R -> ewp md R' (f a) (fun R'' => T R'' a)) ->
  (forall R' bs, sub R' R -> Forall2 (T R') l bs -> Q R' bs) ->
  ewp md R (mapM f l) Q.
Proof.
  intros HT. induction l as [|a l IH]; intros R Q Hf HQ; simpl.
  - apply HQ; [apply sub_refl|constructor].
  - apply ewp_bind. eapply ewp_mono; [apply Hf; [left; auto|apply sub_refl]|]. intros R' b Hs Hb. simpl.
    apply ewp_bind. apply IH.
    + intros a' R2 Ha Hs2. apply Hf; [right; auto|]. eapply sub_trans; eauto.
    + intros R2 bs Hs2 Hbs. simpl. apply HQ; [eapply sub_trans; eauto|]. constructor; eauto.
Qed.

(** Actual runs. *)
Lemma ewp_run {A} wit (m : prog A) : forall s rho0 (R : known) (Q : known -> A -> Prop) a s',
  good_for rho0 s -> (forall rho, same_on s rho rho0 -> R rho) ->
  ewp (md_of wit) R m Q -> run wit m s = (Ok a, s') ->
  exists rho' (R' : known), same_on s rho' rho0 /\ good_for rho' s' /\ (forall r, same_on s' r rho' -> R' r) /\ Q R' a.
Proof.
  induction m as [a0|e| |inp nm w k IH|nm c k IH|nm k IH|k IH]; intros s rho0 R Q a s' Hg HR H Hr;
    simpl in Hr, H; try tauto.
  - injection Hr as <- <-. exists rho0, R. split; [apply same_on_refl|]. split; auto.
  - destruct H as (y & _ & Hk).
    assert (Hex : exists v v1, vpred (md_of wit) w y v /\
              run wit (k (next_var inp s) v) (push_var inp nm v1 s) = (Ok a, s')).
    { destruct wit; [destruct w; try discriminate|]; repeat eexists; eauto; simpl; eauto. }
    destruct Hex as (v & v1 & Hv & Hr').
    destruct (IH (next_var inp s) v (push_var inp nm v1 s) (upd rho0 (next_var inp s) y)
                (fixed R (next_var inp s) y) Q a s') as (rho' & R' & H1 & H2 & H3); [| |apply Hk, Hv|exact Hr'|].
    + intros r Hs. apply same_on_push in Hs. destruct Hs as [Hs _].
      apply (Hg r). eapply same_on_trans; [exact Hs|]. apply upd_fresh.
    + intros rho Hs. apply same_on_push in Hs. destruct Hs as [Hs Hx]. rewrite upd_same in Hx.
      split; auto. apply HR. eapply same_on_trans; [exact Hs|]. apply upd_fresh.
    + exists rho', R'. split; [|split]; auto.
      apply same_on_push in H1. destruct H1 as [H1 _].
      eapply same_on_trans; [exact H1|]. apply upd_fresh.
  - destruct H as [Hc Hk]. eapply IH with (rho0 := rho0) in Hr; eauto.
    intros r Hs. destruct (Hg r Hs) as [Ho Hcs]. split; auto. constructor; auto.
  - eapply IH with (rho0 := rho0) in Hr; eauto.
  - eapply IH with (rho0 := rho0) in Hr; eauto.
Qed.

Lemma ewp_shape {A} (m : prog A) : forall s rho0 (R : known) (Q : known -> A -> Prop),
  good_for rho0 s -> (forall rho, same_on s rho rho0 -> R rho) ->
  ewp Shape R m Q -> exists a s', run false m s = (Ok a, s').
Proof.
  induction m as [a0|e| |inp nm w k IH|nm c k IH|nm k IH|k IH]; intros s rho0 R Q Hg HR H; simpl in *;
    try tauto; eauto.
  - destruct H as (y & _ & Hk).
    apply (IH (next_var inp s) None (push_var inp nm 0 s) (upd rho0 (next_var inp s) y) (fixed R (next_var inp s) y) Q).
    + intros r Hs. apply same_on_push in Hs. destruct Hs as [Hs _].
      apply (Hg r). eapply same_on_trans; [exact Hs|]. apply upd_fresh.
    + intros rho Hs. apply same_on_push in Hs. destruct Hs as [Hs Hx]. rewrite upd_same in Hx.
      split; auto. apply HR. eapply same_on_trans; [exact Hs|]. apply upd_fresh.
    + apply Hk. reflexivity.
  - destruct H as [Hc Hk]. apply (IH (push_con nm c s) rho0 R Q); auto.
    intros r Hs. destruct (Hg r Hs) as [Ho Hcs]. split; auto. constructor; auto.
Qed.

Lemma ewp_honest {A} (m : prog A) : forall s (R : known) (Q : known -> A -> Prop),
  good s -> (forall rho, agree s rho -> R rho) -> ewp Honest R m Q ->
  exists a s' (R' : known), run true m s = (Ok a, s') /\ good s' /\ (forall rho, agree s' rho -> R' rho) /\ Q R' a.
Proof.
  induction m as [a0|e| |inp nm w k IH|nm c k IH|nm k IH|k IH]; intros s R Q Hg HR H; simpl in *;
    try tauto; eauto.
  - exists a0, s, R. auto.
  - destruct H as (y & Hy & Hk). rewrite (Hy eq_refl).
    apply (IH (next_var inp s) (Some y) (push_var inp nm y s) (fixed R (next_var inp s) y) Q).
    + intros rho Ha. apply agree_push in Ha. destruct Ha as [Ha _].
      destruct (Hg rho Ha) as [Ho Hc]. split; auto.
    + intros rho Ha. apply agree_push in Ha. destruct Ha as [Ha Hx]. split; auto.
    + apply Hk. reflexivity.
  - destruct H as [Hc Hk]. apply (IH (push_con nm c s) R Q); auto.
    intros rho Ha. destruct (Hg rho Ha) as [Ho Hcs]. split; auto. constructor; auto.
Qed.

End Ewp.
