(** Results of a run without witnesses, and numbers of allocated variables. *)
From Coq Require Import ZArith Bool List Lia.
From Verif.Model Require Import Base CS.
From Verif.Spec Require Import Spec.
From Verif.Proofs Require Import Wp.
Import ListNotations.

(** ** The result of a shape run *)
Fixpoint shp {A} (m : prog A) (Q : res A -> Prop) : Prop :=
  match m with
  | Ret a => Q (Ok a)
  | Fail e => Q (Err e)
  | Crash => Q Panic
  | Alloc inp nm w k => forall x, shp (k x None) Q
  | Enforce nm c k => shp k Q
  | Push nm k => shp k Q
  | Pop k => shp k Q
  end.
Lemma shp_mono {A} (m : prog A) : forall (Q R : res A -> Prop), shp m Q -> (forall r, Q r -> R r) -> shp m R.
Proof. induction m; simpl; eauto. Qed.
Lemma shp_bind {A B} (m : prog A) (f : A -> prog B) Q :
  shp m (fun r => match r with Ok a => shp (f a) Q | Err e => Q (Err e) | Panic => Q Panic end) -> shp (bind m f) Q.
Proof. induction m; simpl; eauto. Qed.
Lemma shp_ns {A} nm (m : prog A) Q : shp m Q -> shp (ns nm m) Q.
Proof. intros H; simpl. apply shp_bind. eapply shp_mono; [exact H|]. intros [a|e|]; simpl; auto. Qed.
Lemma shp_unwrap {A} (m : prog A) (Q : res A -> Prop) :
  shp m (fun r => match r with Ok a => Q (Ok a) | _ => Q Panic end) -> shp (unwrap_prog m) Q.
Proof. induction m; simpl; eauto. Qed.
Lemma shp_lift {A} (r : res A) (Q : res A -> Prop) : Q r -> shp (lift r) Q.
Proof. destruct r; simpl; auto. Qed.
Lemma shp_run {A} (m : prog A) : forall s (Q : res A -> Prop), shp m Q -> Q (fst (run false m s)).
Proof. induction m; simpl; intros s Q HQ; auto; try (now apply IHm). apply H, HQ. Qed.
Lemma shp_mapM {A B} (f : A -> prog B) (R : A -> B -> Prop) : forall l (Q : res (list B) -> Prop),
  (forall a, In a l -> shp (f a) (fun r => match r with Ok b => R a b | _ => False end)) ->
  (forall bs, Forall2 R l bs -> Q (Ok bs)) -> shp (mapM f l) Q.
Proof.
  induction l as [|a l IH]; intros Q Hf HQ; simpl; [apply HQ; constructor|].
  apply shp_bind. eapply shp_mono; [apply Hf; left; auto|]. intros [b|e|] Hb; try contradiction.
  apply shp_bind. apply IH; [intros; apply Hf; right; auto|]. intros bs Hbs. simpl. apply HQ. constructor; auto.
Qed.

(** ** How many variables a program allocates when it succeeds *)
Fixpoint takes {A} (m : prog A) (n : nat) (Q : A -> Prop) : Prop :=
  match m with
  | Ret a => n = 0 /\ Q a
  | Fail e => True
  | Crash => True
  | Alloc inp nm w k => match n with 0 => False | S n => forall x v, takes (k x v) n Q end
  | Enforce nm c k => takes k n Q
  | Push nm k => takes k n Q
  | Pop k => takes k n Q
  end.
Lemma takes_mono {A} (m : prog A) : forall n (Q R : A -> Prop), takes m n Q -> (forall a, Q a -> R a) -> takes m n R.
Proof. induction m; simpl; intuition eauto. destruct n; auto. intros. eauto. Qed.
Lemma takes_bind {A B} (m : prog A) (f : A -> prog B) Q : forall n1 n2,
  takes m n1 (fun a => takes (f a) n2 Q) -> takes (bind m f) (n1 + n2) Q.
Proof.
  induction m; simpl; intros n1 n2 H0; auto.
  - destruct H0 as [-> H0]. auto.
  - destruct n1; simpl; [contradiction|]. eauto.
Qed.
Lemma takes_ns {A} nm (m : prog A) n Q : takes m n Q -> takes (ns nm m) n Q.
Proof.
  intros H; simpl. rewrite <- (Nat.add_0_r n). apply takes_bind. eapply takes_mono; [exact H|]. intros a Ha. simpl. auto.
Qed.
Lemma takes_unwrap {A} (m : prog A) : forall n Q, takes m n Q -> takes (unwrap_prog m) n Q.
Proof. induction m; simpl; auto. destruct n; auto. Qed.
Definition n_vars (s : st) : nat := length (st_in s) + length (st_aux s).
Lemma n_vars_push inp nm v s : n_vars (push_var inp nm v s) = S (n_vars s).
Proof. unfold n_vars, push_var. destruct inp; simpl; rewrite app_length; simpl; lia. Qed.
Lemma takes_run {A} wit (m : prog A) : forall n Q s a s', takes m n Q -> run wit m s = (Ok a, s') ->
  n_vars s' = n_vars s + n /\ Q a.
Proof.
  induction m as [a0|e| |inp nm w k IH|nm c k IH|nm k IH|k IH]; intros n Q s a s' H Hr; simpl in *; try discriminate.
  - injection Hr as <- <-. destruct H as [-> H]. split; auto.
  - destruct n as [|n]; [contradiction|]. destruct wit; [destruct w; try discriminate|];
      (eapply IH in Hr; [|apply H]); rewrite n_vars_push in Hr; destruct Hr; split; auto; lia.
  - eapply IH in Hr; eauto.
  - eapply IH in Hr; eauto.
  - eapply IH in Hr; eauto.
Qed.

(** ** A run only appends variables *)
Lemma run_prefix {A} wit (m : prog A) : forall s r s', run wit m s = (r, s') ->
  exists l1 l2, st_in s' = st_in s ++ l1 /\ st_aux s' = st_aux s ++ l2.
Proof.
  induction m as [a0|e| |inp nm w k IH|nm c k IH|nm k IH|k IH]; intros s r s' Hr; simpl in *;
    try (injection Hr as <- <-; exists [], []; now rewrite !app_nil_r).
  - assert (HK : forall v y, run wit (k (next_var inp s) v) (push_var inp nm y s) = (r, s') ->
      exists l1 l2, st_in s' = st_in s ++ l1 /\ st_aux s' = st_aux s ++ l2).
    { intros v y H. apply IH in H. destruct H as (l1 & l2 & H1 & H2). unfold push_var in H1, H2. destruct inp; simpl in H1, H2.
      - exists (y :: l1), l2. rewrite H1, <- app_assoc. auto.
      - exists l1, (y :: l2). rewrite H2, <- app_assoc. auto. }
    destruct wit; [destruct w; try (injection Hr as <- <-; exists [], []; now rewrite !app_nil_r)|]; eauto.
  - apply IH in Hr. exact Hr.
  - apply IH in Hr. exact Hr.
  - apply IH in Hr. exact Hr.
Qed.
Lemma run_same {A} wit (m : prog A) s r s' : run wit m s = (r, s') -> same_on s (asg s) (asg s').
Proof.
  intros H. apply run_prefix in H. destruct H as (l1 & l2 & H1 & H2). split; intros n Hn; simpl.
  - rewrite H1, app_nth1; auto.
  - rewrite H2, app_nth1; auto.
Qed.
Fixpoint aux_only {A} (m : prog A) : Prop :=
  match m with
  | Alloc inp nm w k => inp = false /\ forall x v, aux_only (k x v)
  | Enforce nm c k => aux_only k
  | Push nm k => aux_only k
  | Pop k => aux_only k
  | _ => True
  end.
Lemma aux_only_run {A} wit (m : prog A) : forall s r s', aux_only m -> run wit m s = (r, s') -> st_in s' = st_in s.
Proof.
  induction m as [a0|e| |inp nm w k IH|nm c k IH|nm k IH|k IH]; intros s r s' H Hr; simpl in *;
    try (injection Hr as <- <-; auto; fail).
  - destruct H as [-> H]. destruct wit; [destruct w; try (injection Hr as <- <-; auto; fail)|]; eapply IH in Hr; eauto.
  - eapply IH in Hr; eauto.
  - eapply IH in Hr; eauto.
  - eapply IH in Hr; eauto.
Qed.
