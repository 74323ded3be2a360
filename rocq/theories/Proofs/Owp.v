(** The outcome of an honest run, constraints aside: which result a run with witnesses returns,
    whether or not the constraints it emits are satisfied. *)
From Coq Require Import ZArith Bool List Lia.
From Verif.Model Require Import Base CS.
From Verif.Spec Require Import Spec.
From Verif.Proofs Require Import Field Wp.
Import ListNotations.
Local Open Scope Z_scope.

Section Owp.
Context {E : Env}.

Fixpoint owp {A} (rho : assignment) (m : prog A) (Q : res A -> Prop) : Prop :=
  match m with
  | Ret a => Q (Ok a)
  | Fail e => Q (Err e)
  | Crash => Q Panic
  | Alloc inp nm w k =>
      match w with
      | Ok v => forall x, rho x = v -> owp rho (k x (Some v)) Q
      | Err e => Q (Err e)
      | Panic => Q Panic
      end
  | Enforce nm c k => owp rho k Q
  | Push nm k => owp rho k Q
  | Pop k => owp rho k Q
  end.

Lemma owp_mono {A} rho (m : prog A) : forall (Q R : res A -> Prop),
  owp rho m Q -> (forall r, Q r -> R r) -> owp rho m R.
Proof. induction m; simpl; eauto. destruct w; eauto. Qed.

Lemma owp_bind {A B} rho (m : prog A) (f : A -> prog B) Q :
  owp rho m (fun r => match r with Ok a => owp rho (f a) Q | Err e => Q (Err e) | Panic => Q Panic end) ->
  owp rho (bind m f) Q.
Proof. induction m; simpl; eauto. destruct w; eauto. Qed.

Lemma owp_ns {A} rho nm (m : prog A) Q : owp rho m Q -> owp rho (ns nm m) Q.
Proof. intros H; simpl. apply owp_bind. eapply owp_mono; [exact H|]. intros [a|e|]; simpl; auto. Qed.

Lemma owp_lift {A} rho (r : res A) (Q : res A -> Prop) : Q r -> owp rho (lift r) Q.
Proof. destruct r; simpl; auto. Qed.

Lemma hwp_owp {A} rho (m : prog A) : forall (Q : A -> Prop) (R : res A -> Prop),
  hwp rho m Q -> (forall a, Q a -> R (Ok a)) -> owp rho m R.
Proof.
  induction m; simpl; intros Q R HQ HR; try tauto; eauto.
  - destruct HQ as (v & -> & Hk). eauto.
  - destruct HQ; eauto.
Qed.

Lemma owp_bind_ok {A B} rho (m : prog A) (f : A -> prog B) (P : A -> Prop) Q :
  hwp rho m P -> (forall a, P a -> owp rho (f a) Q) -> owp rho (bind m f) Q.
Proof. intros H1 H2. apply owp_bind. eapply hwp_owp; eauto. Qed.

Lemma owp_run {A} (m : prog A) : forall s (Q : assignment -> res A -> Prop) r s',
  (forall rho, agree s rho -> owp rho m (Q rho)) -> run true m s = (r, s') ->
  forall rho, agree s' rho -> agree s rho /\ Q rho r.
Proof.
  induction m as [a|e| |inp nm w k IH|nm c k IH|nm k IH|k IH]; intros s Q r s' H Hr rho Ha; simpl in *.
  - injection Hr as <- <-. auto.
  - injection Hr as <- <-. auto.
  - injection Hr as <- <-. auto.
  - destruct w as [v|e|]; [|injection Hr as <- <-; auto|injection Hr as <- <-; auto].
    eapply IH with (Q := Q) in Hr; eauto.
    + destruct Hr as [H1 H2]. apply agree_push in H1. destruct H1; auto.
    + intros rho' Ha'. apply agree_push in Ha'. destruct Ha' as [H1 H2]. auto.
  - eapply IH with (Q := Q) in Hr; eauto.
  - eapply IH with (Q := Q) in Hr; eauto.
  - eapply IH with (Q := Q) in Hr; eauto.
Qed.

(** A result that does not depend on the assignment. *)
Lemma owp_result {A} (m : prog A) s (P : res A -> Prop) : good s ->
  (forall rho, agree s rho -> rho ONE = 1 -> owp rho m P) -> P (fst (run true m s)).
Proof.
  intros G H. destruct (run true m s) as [r s'] eqn:Hr.
  eapply (owp_run m s (fun _ => P)) with (rho := asg s') in Hr; [apply Hr| |apply agree_asg].
  intros rho Ha. apply H; auto. apply (G rho Ha).
Qed.

(** An honest run that returns: its constraints hold iff what they force holds. *)
Lemma honest_good {A} (m : prog A) s a s' (Q : assignment -> Prop) : good s ->
  run true m s = (Ok a, s') -> good s' -> (forall rho, agree s rho -> rho ONE = 1 -> swp Honest rho m (fun _ => Q rho)) ->
  Q (asg s').
Proof.
  intros G Hr Hg H. pose proof (Hg _ (agree_asg s')) as Hs.
  assert (Ha : agree s (asg s')) by (eapply run_agree; eauto using agree_asg).
  exact (swp_run_honest _ _ _ _ _ (fun _ => Q (asg s')) Hr (agree_asg _) Hs (H _ Ha (proj1 Hs))).
Qed.

(** What holds of every returned value, whatever the witnesses and constraints. *)
Fixpoint rets {A} (m : prog A) (Q : A -> Prop) : Prop :=
  match m with
  | Ret a => Q a
  | Fail _ => True
  | Crash => True
  | Alloc inp nm w k => forall x v, rets (k x v) Q
  | Enforce nm c k => rets k Q
  | Push nm k => rets k Q
  | Pop k => rets k Q
  end.
Lemma rets_mono {A} (m : prog A) : forall (Q R : A -> Prop), rets m Q -> (forall a, Q a -> R a) -> rets m R.
Proof. induction m; simpl; eauto. Qed.
Lemma rets_bind {A B} (m : prog A) (f : A -> prog B) (Q : B -> Prop) : rets m (fun a => rets (f a) Q) -> rets (bind m f) Q.
Proof. induction m; simpl; eauto. Qed.
Lemma rets_any {A} (m : prog A) : rets m (fun _ => True).
Proof. induction m; simpl; auto. Qed.
Lemma rets_skip {A B} (m : prog A) (f : A -> prog B) (Q : B -> Prop) : (forall a, rets (f a) Q) -> rets (bind m f) Q.
Proof. intros H. apply rets_bind. eapply rets_mono; [apply rets_any|]. auto. Qed.
Lemma rets_ns {A} nm (m : prog A) (Q : A -> Prop) : rets m Q -> rets (ns nm m) Q.
Proof. intros H; simpl. apply rets_bind. eapply rets_mono; [exact H|]. simpl; auto. Qed.
Lemma rets_mapM {A B} (f : A -> prog B) : forall l (Q : list B -> Prop), (forall bs, length bs = length l -> Q bs) -> rets (mapM f l) Q.
Proof.
  induction l as [|a l IH]; intros Q H; cbn [mapM]; [apply H; reflexivity|].
  apply rets_skip. intros b. apply rets_bind. apply IH. intros bs Hb. simpl. apply H. simpl. auto.
Qed.
Lemma rets_lift {A} (r : res A) (Q : A -> Prop) : (forall a, r = Ok a -> Q a) -> rets (lift r) Q.
Proof. destruct r; simpl; auto. Qed.
Lemma rets_run {A} wit (m : prog A) : forall s (Q : A -> Prop) a s', rets m Q -> run wit m s = (Ok a, s') -> Q a.
Proof.
  induction m as [a0|e| |inp nm w k IH|nm c k IH|nm k IH|k IH]; intros s Q a s' H Hr; simpl in *; try discriminate; try (eapply IH; eassumption).
  - injection Hr as <- <-. auto.
  - destruct wit; [destruct w; try discriminate|]; eapply (IH _ _ _ Q); eauto.
Qed.

End Owp.
