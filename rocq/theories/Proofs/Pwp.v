(** Alternative assignments for runs that may stop at a host-side assertion: what [awp] says, except
    that nothing is claimed of a run that fails. *)
From Coq Require Import ZArith Bool List Lia.
From Verif.Model Require Import Base CS.
From Verif.Spec Require Import Spec.
From Verif.Proofs Require Import Field Wp Lc Owp.
Import ListNotations.
Local Open Scope Z_scope.

Section Pwp.
Context {E : Env}.

Fixpoint pwp {A} (md : mode) (rho : assignment) (m : prog A) (ys : list Z) (Q : A -> Prop) : Prop :=
  match m with
  | Ret a => ys = [] /\ Q a
  | Fail _ => True
  | Crash => True
  | Alloc inp nm w k =>
      match ys with
      | [] => False
      | y :: ys' => forall x v, rho x = y -> vpred md w y v -> pwp md rho (k x v) ys' Q
      end
  | Enforce nm c k => csat rho c /\ pwp md rho k ys Q
  | Push nm k => pwp md rho k ys Q
  | Pop k => pwp md rho k ys Q
  end.

Lemma awp_pwp {A} md rho (m : prog A) : forall ys (Q : A -> Prop), awp md rho m ys Q -> pwp md rho m ys Q.
Proof.
  induction m; simpl; intros ys Q HQ; try tauto; eauto.
  - destruct ys; [tauto|]. destruct HQ as [_ HQ]. eauto.
  - destruct HQ; eauto.
Qed.
Lemma pwp_mono {A} md rho (m : prog A) : forall ys (Q R : A -> Prop),
  pwp md rho m ys Q -> (forall a, Q a -> R a) -> pwp md rho m ys R.
Proof.
  induction m; simpl; intros ys Q R HQ HR; try tauto; eauto.
  - destruct HQ; auto.
  - destruct ys; [tauto|]. eauto.
  - destruct HQ; eauto.
Qed.
Lemma pwp_bind {A B} md rho (m : prog A) (f : A -> prog B) Q : forall ys1 ys2,
  pwp md rho m ys1 (fun a => pwp md rho (f a) ys2 Q) -> pwp md rho (bind m f) (ys1 ++ ys2) Q.
Proof.
  induction m; simpl; intros ys1 ys2 H1; try tauto; eauto.
  - destruct H1 as [-> H1]. exact H1.
  - destruct ys1; [tauto|]. simpl. eauto.
  - destruct H1; eauto.
Qed.
Lemma pwp_unwrap {A} md rho (m : prog A) Q : forall ys, pwp md rho m ys Q -> pwp md rho (unwrap_prog m) ys Q.
Proof.
  induction m; simpl; intros ys HQ; try tauto; eauto.
  - destruct ys; [tauto|]. intros x v Hx Hv. apply H, HQ; auto. destruct md; simpl in *; auto. destruct Hv as (z0 & Hz & ->). exists z0. split; auto. destruct w; simpl in *; congruence.
  - destruct HQ; eauto.
Qed.
Lemma pwp_ns {A} md rho nm (m : prog A) ys Q : pwp md rho m ys Q -> pwp md rho (ns nm m) ys Q.
Proof.
  intros H; simpl. rewrite <- (app_nil_r ys). apply pwp_bind. eapply pwp_mono; [exact H|]. simpl; auto.
Qed.
Lemma pwp_lift {A} md rho (r : res A) (Q : A -> Prop) : (forall a, r = Ok a -> Q a) -> pwp md rho (lift r) [] Q.
Proof. destruct r; simpl; auto. Qed.

Lemma pwp_run {A} wit (m : prog A) : forall s rho0 ys (Q : assignment -> A -> Prop) a s',
  good_for rho0 s ->
  (forall rho, same_on s rho rho0 -> rho ONE = 1 -> pwp (md_of wit) rho m ys (Q rho)) ->
  run wit m s = (Ok a, s') ->
  exists rho', same_on s rho' rho0 /\ good_for rho' s' /\
     (forall r, same_on s' r rho' -> Q r a).
Proof.
  induction m as [a0|e| |inp nm w k IH|nm c k IH|nm k IH|k IH]; intros s rho0 ys Q a s' Hg H Hr;
    simpl in Hr; try discriminate.
  - injection Hr as <- <-. exists rho0. split; [apply same_on_refl|]. split; auto.
    intros r Hs. apply H; auto. now apply Hg.
  - assert (Hex : exists v y ys' v1, ys = y :: ys' /\ vpred (md_of wit) w y v /\
              run wit (k (next_var inp s) v) (push_var inp nm v1 s) = (Ok a, s')).
    { specialize (H rho0 (same_on_refl _ _) (proj1 (Hg _ (same_on_refl _ _)))).
      simpl in H. destruct ys as [|y ys']; [tauto|]. clear H.
      destruct wit; [destruct w; try discriminate|]; repeat eexists; eauto; simpl; eauto. }
    destruct Hex as (v & y & ys' & v1 & -> & Hv & Hr').
    destruct (IH (next_var inp s) v (push_var inp nm v1 s) (upd rho0 (next_var inp s) y) ys' Q a s')
      as (rho' & H1 & H2 & H3); [| |exact Hr'|].
    + intros r Hs. apply same_on_push in Hs. destruct Hs as [Hs _].
      apply (Hg r). eapply same_on_trans; [exact Hs|]. apply upd_fresh.
    + intros rho Hs Ho. apply same_on_push in Hs. destruct Hs as [Hs Hx]. rewrite upd_same in Hx.
      apply (H rho); auto. eapply same_on_trans; [exact Hs|]. apply upd_fresh.
    + exists rho'. split; [|split]; auto.
      apply same_on_push in H1. destruct H1 as [H1 _].
      eapply same_on_trans; [exact H1|]. apply upd_fresh.
  - eapply IH with (Q := Q) (ys := ys) in Hr; [exact Hr| |].
    + intros r Hs. destruct (Hg r Hs) as [Ho Hc]. split; auto. constructor; auto.
      apply (H r Hs Ho).
    + intros rho Hs Ho. apply (H rho Hs Ho).
  - eapply IH with (Q := Q) (ys := ys) in Hr; eauto.
  - eapply IH with (Q := Q) (ys := ys) in Hr; eauto.
Qed.

(** Steps through a program: [p1] for a gadget with an [awp], [p2] for a host value. *)
Lemma pwp_step {A B} md rho nm (m : prog A) (f : A -> prog B) ys1 ys2 P Q :
  awp md rho m ys1 P -> (forall a, P a -> pwp md rho (f a) ys2 Q) ->
  pwp md rho (bind (unwrap_prog (ns nm m)) f) (ys1 ++ ys2) Q.
Proof.
  intros H1 H2. apply pwp_bind. apply pwp_unwrap, pwp_ns. eapply pwp_mono; [apply awp_pwp, H1|]. auto.
Qed.
Lemma pwp_host {A B} md rho (r : res A) (f : A -> prog B) ys Q :
  (forall a, r = Ok a -> pwp md rho (f a) ys Q) -> pwp md rho (bind (lift r) f) ys Q.
Proof. intros H. apply (pwp_bind md rho (lift r) f Q []). now apply pwp_lift. Qed.

(** A run that can only stop in a panic. *)
Lemma owp_any {A} rho (m : prog A) : owp rho m (fun _ => True).
Proof. induction m; simpl; auto. destruct w; auto. Qed.
Lemma owp_unwrap {A} rho (m : prog A) (Q : res A -> Prop) :
  owp rho m (fun r => match r with Ok a => Q (Ok a) | _ => Q Panic end) -> owp rho (unwrap_prog m) Q.
Proof. induction m; simpl; auto. destruct w; simpl; auto. Qed.
Lemma owp_skip {A B} rho (m : prog A) (f : A -> prog B) : (forall a, owp rho (f a) (fun r => r = Panic)) ->
  owp rho (bind (unwrap_prog m) f) (fun r => r = Panic).
Proof.
  intros H. apply owp_bind, owp_unwrap. eapply owp_mono; [apply owp_any|]. intros [a| |] _; auto.
Qed.
Lemma owp_step {A B} rho nm (m : prog A) (f : A -> prog B) P Q : hwp rho m P ->
  (forall a, P a -> owp rho (f a) Q) -> owp rho (bind (unwrap_prog (ns nm m)) f) Q.
Proof.
  intros H1 H2. apply owp_bind, owp_unwrap, owp_ns. eapply hwp_owp; [exact H1|]. auto.
Qed.

(** What holds of every value returned by a run with witnesses. *)
Fixpoint wrets {A} (m : prog A) (Q : A -> Prop) : Prop :=
  match m with
  | Ret a => Q a
  | Fail _ => True
  | Crash => True
  | Alloc inp nm w k => forall x z, w = Ok z -> wrets (k x (Some z)) Q
  | Enforce nm c k => wrets k Q
  | Push nm k => wrets k Q
  | Pop k => wrets k Q
  end.
Lemma wrets_mono {A} (m : prog A) : forall (Q R : A -> Prop), wrets m Q -> (forall a, Q a -> R a) -> wrets m R.
Proof. induction m; simpl; eauto. Qed.
Lemma wrets_bind {A B} (m : prog A) (f : A -> prog B) (Q : B -> Prop) : wrets m (fun a => wrets (f a) Q) -> wrets (bind m f) Q.
Proof. induction m; simpl; eauto. Qed.
Lemma wrets_any {A} (m : prog A) : wrets m (fun _ => True).
Proof. induction m; simpl; auto. Qed.
Lemma wrets_skip {A B} (m : prog A) (f : A -> prog B) (Q : B -> Prop) : (forall a, wrets (f a) Q) -> wrets (bind m f) Q.
Proof. intros H. apply wrets_bind. eapply wrets_mono; [apply wrets_any|]. auto. Qed.
Lemma wrets_ns {A} nm (m : prog A) (Q : A -> Prop) : wrets m Q -> wrets (ns nm m) Q.
Proof. intros H; simpl. apply wrets_bind. eapply wrets_mono; [exact H|]. simpl; auto. Qed.
Lemma wrets_mapM {A B} (f : A -> prog B) (R : A -> B -> Prop) : (forall a, wrets (f a) (R a)) ->
  forall l (Q : list B -> Prop), (forall bs, Forall2 R l bs -> Q bs) -> wrets (mapM f l) Q.
Proof.
  intros Hf. induction l as [|a l IH]; intros Q H; cbn [mapM]; [apply H; constructor|].
  apply wrets_bind. eapply wrets_mono; [apply Hf|]. intros b Hb. cbv beta. apply wrets_bind. apply IH. intros bs Hbs. simpl. apply H. constructor; auto.
Qed.
Lemma awp_wrets {A} rho (m : prog A) : forall ys (P Q : A -> Prop), awp Any rho m ys P -> wrets m Q -> awp Any rho m ys (fun a => P a /\ Q a).
Proof.
  induction m as [a0|e| |inp nm w k IH|nm c k IH|nm k IH|k IH]; simpl; intros ys P Q H1 H2; auto.
  - destruct H1; auto.
  - destruct ys as [|y ys]; [tauto|]. destruct H1 as [H0 H1]. split; auto. intros x v Hx (z & Hz & ->). apply IH; eauto.
  - destruct H1; auto.
Qed.

End Pwp.
