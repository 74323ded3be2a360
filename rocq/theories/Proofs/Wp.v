(** Reasoning about gadget programs without mentioning states: what follows from satisfied
    constraints ([swp]), what an honest run achieves ([hwp]), and what a prover who chooses the
    auxiliary values can achieve ([awp]). *)
From Coq Require Import ZArith Bool List Lia.
From Verif.Model Require Import Base CS.
From Verif.Spec Require Import Spec.
From Verif.Proofs Require Import Field.
Import ListNotations.
Local Open Scope Z_scope.

(** ** Agreement of an assignment with the values stored in a state *)
Lemma agree_asg s : agree s (asg s).
Proof. split; intros; reflexivity. Qed.

Lemma agree_push s inp nm v rho :
  agree (push_var inp nm v s) rho <-> agree s rho /\ rho (next_var inp s) = v.
Proof.
  unfold agree, push_var, next_var; simpl. destruct inp; split.
  - intros [H1 H2]. split; [split|]; auto.
    + intros n Hn. rewrite H1 by (rewrite app_length; simpl; lia).
      now rewrite app_nth1.
    + rewrite H1 by (rewrite app_length; simpl; lia).
      now rewrite app_nth2, Nat.sub_diag by lia.
  - intros [[H1 H2] H3]. split; auto. intros n Hn. rewrite app_length in Hn; simpl in Hn.
    destruct (Nat.eq_dec n (length (st_in s))) as [->|].
    + rewrite app_nth2, Nat.sub_diag by lia. exact H3.
    + rewrite app_nth1 by lia. apply H1. lia.
  - intros [H1 H2]. split; [split|]; auto.
    + intros n Hn. rewrite H2 by (rewrite app_length; simpl; lia).
      now rewrite app_nth1.
    + rewrite H2 by (rewrite app_length; simpl; lia).
      now rewrite app_nth2, Nat.sub_diag by lia.
  - intros [[H1 H2] H3]. split; auto. intros n Hn. rewrite app_length in Hn; simpl in Hn.
    destruct (Nat.eq_dec n (length (st_aux s))) as [->|].
    + rewrite app_nth2, Nat.sub_diag by lia. exact H3.
    + rewrite app_nth1 by lia. apply H2. lia.
Qed.

Lemma agree_push_con s nm c rho : agree (push_con nm c s) rho <-> agree s rho.
Proof. reflexivity. Qed.
Lemma agree_push_ns s nm rho : agree (push_ns nm s) rho <-> agree s rho.
Proof. reflexivity. Qed.
Lemma agree_pop_ns s rho : agree (pop_ns s) rho <-> agree s rho.
Proof. reflexivity. Qed.

Lemma run_agree {A} wit (m : prog A) : forall s r s' rho,
  run wit m s = (r, s') -> wit = true -> agree s' rho -> agree s rho.
Proof.
  induction m as [a|e| |inp nm w k IH|nm c k IH|nm k IH|k IH]; intros s r s' rho Hr Hw Ha;
    subst wit; simpl in Hr.
  - injection Hr as _ <-; auto.
  - injection Hr as _ <-; auto.
  - injection Hr as _ <-; auto.
  - destruct w.
    + apply IH with (rho := rho) in Hr; auto. now apply agree_push in Hr.
    + injection Hr as _ <-; auto.
    + injection Hr as _ <-; auto.
  - apply IH with (rho := rho) in Hr; auto.
  - apply IH with (rho := rho) in Hr; auto.
  - apply IH with (rho := rho) in Hr; auto.
Qed.

(** Constraints only accumulate. *)
Lemma run_cons {A} wit (m : prog A) : forall s r s',
  run wit m s = (r, s') -> exists l, st_cons s' = l ++ st_cons s.
Proof.
  induction m as [a|e| |inp nm w k IH|nm c k IH|nm k IH|k IH]; intros s r s' Hr; simpl in Hr;
    try (injection Hr as _ <-; exists []; reflexivity).
  - destruct wit.
    + destruct w; try (injection Hr as _ <-; exists []; reflexivity).
      apply IH in Hr. exact Hr.
    + apply IH in Hr. exact Hr.
  - apply IH in Hr. destruct Hr as [l Hl]. exists (l ++ [c]). rewrite <- app_assoc. exact Hl.
  - apply IH in Hr. exact Hr.
  - apply IH in Hr. exact Hr.
Qed.

Lemma run_bind {A B} wit (m : prog A) (f : A -> prog B) : forall s,
  run wit (bind m f) s =
  match run wit m s with
  | (Ok a, s') => run wit (f a) s'
  | (Err e, s') => (Err e, s')
  | (Panic, s') => (Panic, s')
  end.
Proof.
  induction m as [a|e| |inp nm w k IH|nm c k IH|nm k IH|k IH]; intros s; simpl; auto.
  destruct wit; [destruct w|]; auto.
Qed.

(** ** Results *)
Lemma rmapM_length {A B} (f : A -> res B) : forall l bs, rmapM f l = Ok bs -> length bs = length l.
Proof.
  induction l as [|a l IH]; intros bs H; cbn [rmapM] in H.
  - now injection H as <-.
  - destruct (f a); cbn [rbind] in H; try discriminate.
    destruct (rmapM f l) eqn:Er; cbn [rbind] in H; try discriminate.
    injection H as <-. simpl. f_equal. now apply IH.
Qed.
Lemma rmapM_ok {A B} (f : A -> res B) (g : A -> B) : forall l,
  (forall a, In a l -> f a = Ok (g a)) -> rmapM f l = Ok (map g l).
Proof.
  induction l as [|a l IH]; intros H; auto. cbn [rmapM map].
  rewrite H by now left. cbn [rbind]. rewrite IH by (intros; apply H; now right). reflexivity.
Qed.
Lemma rmapM_Forall2 {A B} (f : A -> res B) : forall l bs, rmapM f l = Ok bs ->
  Forall2 (fun a b => f a = Ok b) l bs.
Proof.
  induction l as [|a l IH]; intros bs H; cbn [rmapM] in H.
  - injection H as <-. constructor.
  - destruct (f a) eqn:Ea; cbn [rbind] in H; try discriminate.
    destruct (rmapM f l) eqn:Er; cbn [rbind] in H; try discriminate.
    injection H as <-. constructor; auto.
Qed.
Lemma rbind_ok {A B} (m : res A) (f : A -> res B) b : rbind m f = Ok b ->
  exists a, m = Ok a /\ f a = Ok b.
Proof. destruct m; simpl; try discriminate. eauto. Qed.

Section Wp.
Context {E : Env}.

(** ** Consequences of satisfied constraints *)
Inductive mode := Any | Honest | Shape.

Definition mpred (md : mode) (w : res Z) (y : Z) (v : option Z) : Prop :=
  match md with
  | Any => True
  | Honest => exists z, w = Ok z /\ v = Some z /\ y = z
  | Shape => v = None
  end.

Fixpoint swp {A} (md : mode) (rho : assignment) (m : prog A) (Q : A -> Prop) : Prop :=
  match m with
  | Ret a => Q a
  | Fail _ => True
  | Crash => True
  | Alloc inp nm w k => forall x v, mpred md w (rho x) v -> swp md rho (k x v) Q
  | Enforce nm c k => csat rho c -> swp md rho k Q
  | Push nm k => swp md rho k Q
  | Pop k => swp md rho k Q
  end.

Lemma swp_mono {A} md rho (m : prog A) : forall (Q R : A -> Prop),
  swp md rho m Q -> (forall a, Q a -> R a) -> swp md rho m R.
Proof. induction m; simpl; eauto. Qed.

Lemma swp_imp {A} md rho (m : prog A) (P : Prop) : forall (Q : A -> Prop),
  (P -> swp md rho m Q) -> swp md rho m (fun a => P -> Q a).
Proof. induction m; simpl; eauto. Qed.

Lemma swp_bind {A B} md rho (m : prog A) (f : A -> prog B) Q :
  swp md rho m (fun a => swp md rho (f a) Q) -> swp md rho (bind m f) Q.
Proof. induction m; simpl; eauto. Qed.

Lemma swp_bind_inv {A B} md rho (m : prog A) (f : A -> prog B) Q :
  swp md rho (bind m f) Q -> swp md rho m (fun a => swp md rho (f a) Q).
Proof. induction m; simpl; eauto. Qed.

Lemma swp_any {A} md rho (m : prog A) Q : swp Any rho m Q -> swp md rho m Q.
Proof. induction m; simpl; eauto. Qed.

Lemma swp_lift {A} md rho (r : res A) (Q : A -> Prop) :
  (forall a, r = Ok a -> Q a) -> swp md rho (lift r) Q.
Proof. destruct r; simpl; auto. Qed.

Lemma swp_ns {A} md rho nm (m : prog A) Q : swp md rho m Q -> swp md rho (ns nm m) Q.
Proof. intros H; simpl. apply swp_bind. eapply swp_mono; [exact H|]. simpl; auto. Qed.

Lemma swp_unwrap {A} md rho (m : prog A) Q : swp md rho m Q -> swp md rho (unwrap_prog m) Q.
Proof.
  induction m; simpl; eauto.
  intros Hk x v Hm. apply H, Hk. destruct md; simpl in *; auto.
  destruct Hm as (z & Hz & ?). exists z; split; auto. destruct w; simpl in Hz; congruence.
Qed.

Lemma swp_mapM {A B} md rho (f : A -> prog B) (R : A -> B -> Prop) : forall l (Q : list B -> Prop),
  (forall a, In a l -> swp md rho (f a) (R a)) ->
  (forall bs, Forall2 R l bs -> Q bs) ->
  swp md rho (mapM f l) Q.
Proof.
  induction l as [|a l IH]; intros Q Hf HQ; simpl.
  - apply HQ. constructor.
  - apply swp_bind. eapply swp_mono; [apply Hf; left; auto|]. intros b Hb. simpl.
    apply swp_bind. apply IH; [intros; apply Hf; right; auto|].
    intros bs Hbs. simpl. apply HQ. constructor; auto.
Qed.

Lemma swp_iterM {A} md rho (f : A -> prog unit) (R : A -> Prop) : forall l (Q : unit -> Prop),
  (forall a, In a l -> swp md rho (f a) (fun _ => R a)) ->
  ((forall a, In a l -> R a) -> Q tt) ->
  swp md rho (iterM f l) Q.
Proof.
  induction l as [|a l IH]; intros Q Hf HQ; simpl.
  - apply HQ. intros ? [].
  - apply swp_bind. eapply swp_mono; [apply Hf; left; auto|]. intros [] Hb.
    apply IH; [intros; apply Hf; right; auto|].
    intros H. apply HQ. intros a' [<-|Ha]; auto.
Qed.

Lemma swp_foldM {A S} md rho (f : S -> A -> prog S) (I : list A -> S -> Prop) :
  forall l pre s (Q : S -> Prop),
  I pre s ->
  (forall pre' a post s, pre ++ l = pre' ++ a :: post -> I pre' s ->
      swp md rho (f s a) (I (pre' ++ [a]))) ->
  (forall s, I (pre ++ l) s -> Q s) ->
  swp md rho (foldM f l s) Q.
Proof.
  induction l as [|a l IH]; intros pre s Q HI Hf HQ; simpl.
  - apply HQ. now rewrite app_nil_r.
  - apply swp_bind. eapply swp_mono; [eapply Hf; eauto|].
    intros s' Hs'. apply (IH (pre ++ [a])); auto.
    + intros pre' a' post s2 Heq. apply (Hf pre' a' post). rewrite <- Heq, <- app_assoc. reflexivity.
    + intros s2 H2. apply HQ. now rewrite <- app_assoc in H2.
Qed.

(** Soundness of [swp] for actual runs. *)
Lemma swp_run_any {A} wit rho (m : prog A) : forall s a s' Q,
  run wit m s = (Ok a, s') -> sat rho s' -> swp Any rho m Q -> Q a.
Proof.
  induction m as [a0|e| |inp nm w k IH|nm c k IH|nm k IH|k IH]; intros s a s' Q Hr Hs Hw;
    simpl in Hr, Hw; try discriminate.
  - injection Hr as <- _; auto.
  - destruct wit; [destruct w; try discriminate|]; eapply IH; eauto; apply Hw; exact I.
  - eapply IH; eauto. apply Hw. apply run_cons in Hr. destruct Hr as [l Hl].
    destruct Hs as [_ Hs]. rewrite Hl in Hs. apply Forall_app in Hs. destruct Hs as [_ Hs].
    now inversion Hs.
  - eapply IH; eauto.
  - eapply IH; eauto.
Qed.

Lemma swp_run_shape {A} rho (m : prog A) : forall s a s' Q,
  run false m s = (Ok a, s') -> sat rho s' -> swp Shape rho m Q -> Q a.
Proof.
  induction m as [a0|e| |inp nm w k IH|nm c k IH|nm k IH|k IH]; intros s a s' Q Hr Hs Hw;
    simpl in Hr, Hw; try discriminate.
  - injection Hr as <- _; auto.
  - eapply IH; eauto; apply Hw; reflexivity.
  - eapply IH; eauto. apply Hw. apply run_cons in Hr. destruct Hr as [l Hl].
    destruct Hs as [_ Hs]. rewrite Hl in Hs. apply Forall_app in Hs. destruct Hs as [_ Hs].
    now inversion Hs.
  - eapply IH; eauto.
  - eapply IH; eauto.
Qed.

Lemma swp_run_honest {A} rho (m : prog A) : forall s a s' Q,
  run true m s = (Ok a, s') -> agree s' rho -> sat rho s' -> swp Honest rho m Q -> Q a.
Proof.
  induction m as [a0|e| |inp nm w k IH|nm c k IH|nm k IH|k IH]; intros s a s' Q Hr Ha Hs Hw;
    simpl in Hr, Hw; try discriminate.
  - injection Hr as <- _; auto.
  - destruct w; try discriminate. pose proof Hr as Hr'. eapply IH; eauto. apply Hw.
    exists a0; repeat split; auto. eapply run_agree in Hr'; eauto. now apply agree_push in Hr'.
  - eapply IH; eauto. apply Hw. apply run_cons in Hr. destruct Hr as [l Hl].
    destruct Hs as [_ Hs]. rewrite Hl in Hs. apply Forall_app in Hs. destruct Hs as [_ Hs].
    now inversion Hs.
  - eapply IH; eauto.
  - eapply IH; eauto.
Qed.

(** ** Honest runs *)
Fixpoint hwp {A} (rho : assignment) (m : prog A) (Q : A -> Prop) : Prop :=
  match m with
  | Ret a => Q a
  | Fail _ => False
  | Crash => False
  | Alloc inp nm w k => exists v, w = Ok v /\ forall x, rho x = v -> hwp rho (k x (Some v)) Q
  | Enforce nm c k => csat rho c /\ hwp rho k Q
  | Push nm k => hwp rho k Q
  | Pop k => hwp rho k Q
  end.

Lemma hwp_mono {A} rho (m : prog A) : forall (Q R : A -> Prop),
  hwp rho m Q -> (forall a, Q a -> R a) -> hwp rho m R.
Proof.
  induction m; simpl; eauto.
  - intros Q R (v & Hv & Hk) HQ. exists v; split; eauto.
  - intros Q R [Hc Hk] HQ; split; eauto.
Qed.

Lemma hwp_bind {A B} rho (m : prog A) (f : A -> prog B) Q :
  hwp rho m (fun a => hwp rho (f a) Q) -> hwp rho (bind m f) Q.
Proof.
  induction m; simpl; eauto.
  - intros (v & Hv & Hk). exists v; split; eauto.
  - intros [Hc Hk]; split; eauto.
Qed.

Lemma hwp_lift {A} rho (r : res A) a (Q : A -> Prop) :
  r = Ok a -> Q a -> hwp rho (lift r) Q.
Proof. intros ->; auto. Qed.

Lemma hwp_ns {A} rho nm (m : prog A) Q : hwp rho m Q -> hwp rho (ns nm m) Q.
Proof. intros H; simpl. apply hwp_bind. eapply hwp_mono; [exact H|]. simpl; auto. Qed.

Lemma hwp_unwrap {A} rho (m : prog A) Q : hwp rho m Q -> hwp rho (unwrap_prog m) Q.
Proof.
  induction m; simpl; try tauto.
  intros (v & -> & Hk). exists v; split; eauto.
Qed.

Lemma hwp_mapM {A B} rho (f : A -> prog B) (R : A -> B -> Prop) : forall l (Q : list B -> Prop),
  (forall a, In a l -> hwp rho (f a) (R a)) ->
  (forall bs, Forall2 R l bs -> Q bs) ->
  hwp rho (mapM f l) Q.
Proof.
  induction l as [|a l IH]; intros Q Hf HQ; simpl.
  - apply HQ. constructor.
  - apply hwp_bind. eapply hwp_mono; [apply Hf; left; auto|]. intros b Hb. simpl.
    apply hwp_bind. apply IH; [intros; apply Hf; right; auto|].
    intros bs Hbs. simpl. apply HQ. constructor; auto.
Qed.

Lemma hwp_iterM {A} rho (f : A -> prog unit) : forall l (Q : unit -> Prop),
  (forall a, In a l -> hwp rho (f a) (fun _ => True)) -> Q tt ->
  hwp rho (iterM f l) Q.
Proof.
  induction l as [|a l IH]; intros Q Hf HQ; simpl; auto.
  apply hwp_bind. eapply hwp_mono; [apply Hf; left; auto|]. intros [] _.
  apply IH; auto. intros; apply Hf; right; auto.
Qed.

Lemma hwp_foldM {A S} rho (f : S -> A -> prog S) (I : list A -> S -> Prop) :
  forall l pre s (Q : S -> Prop),
  I pre s ->
  (forall pre' a post s, pre ++ l = pre' ++ a :: post -> I pre' s ->
      hwp rho (f s a) (I (pre' ++ [a]))) ->
  (forall s, I (pre ++ l) s -> Q s) ->
  hwp rho (foldM f l s) Q.
Proof.
  induction l as [|a l IH]; intros pre s Q HI Hf HQ; simpl.
  - apply HQ. now rewrite app_nil_r.
  - apply hwp_bind. eapply hwp_mono; [eapply Hf; eauto|].
    intros s' Hs'. apply (IH (pre ++ [a])); auto.
    + intros pre' a' post s2 Heq. apply (Hf pre' a' post). rewrite <- Heq, <- app_assoc. reflexivity.
    + intros s2 H2. apply HQ. now rewrite <- app_assoc in H2.
Qed.

Lemma good_sat s : good s -> sat (asg s) s.
Proof. intros H. apply H, agree_asg. Qed.

Lemma good_init : good st_init.
Proof. intros rho [H _]. split; [apply (H 0%nat); simpl; lia|constructor]. Qed.

Lemma hwp_run {A} (m : prog A) : forall s (Q : assignment -> A -> Prop),
  good s ->
  (forall rho, agree s rho -> rho ONE = 1 -> hwp rho m (Q rho)) ->
  exists a s', run true m s = (Ok a, s') /\ good s' /\
    (forall rho, agree s' rho -> agree s rho) /\ (forall rho, agree s' rho -> Q rho a).
Proof.
  induction m as [a|e| |inp nm w k IH|nm c k IH|nm k IH|k IH]; intros s Q Hg H.
  - exists a, s. do 3 (split; [now auto|]). intros rho Ha. apply H; auto. now apply Hg.
  - exfalso. apply (H (asg s) (agree_asg s)). apply good_sat; auto.
  - exfalso. apply (H (asg s) (agree_asg s)). apply good_sat; auto.
  - destruct (H (asg s) (agree_asg s)) as (v & -> & _); [apply good_sat; auto|].
    simpl.
    destruct (IH (next_var inp s) (Some v) (push_var inp nm v s) Q) as (a & s' & H1 & H2 & H3 & H4).
    + intros rho Ha. apply agree_push in Ha. destruct Ha as [Ha _].
      destruct (Hg rho Ha) as [Ho Hc]. split; auto.
    + intros rho Ha Ho. apply agree_push in Ha. destruct Ha as [Ha Hx].
      destruct (H rho Ha Ho) as (v' & Hv & Hk). injection Hv as <-. apply Hk; auto.
    + exists a, s'. do 2 (split; [now auto|]). split; auto.
      intros rho Ha. apply H3 in Ha. now apply agree_push in Ha.
  - simpl. destruct (IH (push_con nm c s) Q) as (a & s' & H1 & H2 & H3 & H4).
    + intros rho Ha. destruct (Hg rho Ha) as [Ho Hc]. split; auto. constructor; auto.
      apply (H rho Ha Ho).
    + intros rho Ha Ho. apply (H rho Ha Ho).
    + exists a, s'; auto.
  - simpl. destruct (IH (push_ns nm s) Q) as (a & s' & H1 & H2 & H3 & H4); auto.
    exists a, s'; auto.
  - simpl. destruct (IH (pop_ns s) Q) as (a & s' & H1 & H2 & H3 & H4); auto.
    exists a, s'; auto.
Qed.

(** ** Chosen auxiliary values *)

Lemma same_on_refl s r : same_on s r r.
Proof. split; auto. Qed.
Lemma same_on_sym s r1 r2 : same_on s r1 r2 -> same_on s r2 r1.
Proof. intros [H1 H2]; split; intros; symmetry; auto. Qed.
Lemma same_on_trans s r1 r2 r3 : same_on s r1 r2 -> same_on s r2 r3 -> same_on s r1 r3.
Proof. intros [H1 H2] [H3 H4]; split; intros n Hn; [rewrite H1|rewrite H2]; auto. Qed.

Lemma same_on_push inp nm v s r1 r2 :
  same_on (push_var inp nm v s) r1 r2 <-> same_on s r1 r2 /\ r1 (next_var inp s) = r2 (next_var inp s).
Proof.
  unfold same_on, push_var, next_var; simpl.
  destruct inp; rewrite app_length; simpl; split.
  - intros [H1 H2]; repeat split; auto; intros; apply H1; lia.
  - intros [[H1 H2] H3]; split; auto. intros n Hn.
    destruct (Nat.eq_dec n (length (st_in s))) as [->|]; auto. apply H1; lia.
  - intros [H1 H2]; repeat split; auto; intros; apply H2; lia.
  - intros [[H1 H2] H3]; split; auto. intros n Hn.
    destruct (Nat.eq_dec n (length (st_aux s))) as [->|]; auto. apply H2; lia.
Qed.

Definition var_eqb (x y : var) : bool :=
  match x, y with
  | VIn a, VIn b => (a =? b)%nat
  | VAux a, VAux b => (a =? b)%nat
  | _, _ => false
  end.
Lemma var_eqb_spec x y : var_eqb x y = true <-> x = y.
Proof.
  destruct x, y; simpl; rewrite ?Nat.eqb_eq; split; congruence.
Qed.
Definition upd (rho : assignment) (x : var) (y : Z) : assignment :=
  fun z => if var_eqb z x then y else rho z.
Lemma upd_same rho x y : upd rho x y x = y.
Proof. unfold upd. now rewrite (proj2 (var_eqb_spec x x) eq_refl). Qed.
Lemma upd_fresh inp s rho y : same_on s (upd rho (next_var inp s) y) rho.
Proof.
  unfold upd, next_var. split; intros n Hn; destruct inp; simpl; auto;
    destruct (Nat.eqb_spec n (length (st_in s))); destruct (Nat.eqb_spec n (length (st_aux s)));
    auto; lia.
Qed.

(** Values captured by closures: in a run with witnesses, in an honest run (where the chosen value
    is the one the closure computes), and in a run without. *)
Definition vpred (md : mode) (w : res Z) (y : Z) (v : option Z) : Prop :=
  match md with
  | Any => exists z, w = Ok z /\ v = Some z
  | Honest => v = Some y
  | Shape => v = None
  end.
Definition md_of (wit : bool) : mode := if wit then Any else Shape.
Lemma md_of_not wit (P : Prop) : md_of wit = Honest -> P.
Proof. destruct wit; discriminate. Qed.

(** [ys]: the values given to the variables allocated by [m], in order. *)
Fixpoint awp {A} (md : mode) (rho : assignment) (m : prog A) (ys : list Z) (Q : A -> Prop) : Prop :=
  match m with
  | Ret a => ys = [] /\ Q a
  | Fail _ => False
  | Crash => False
  | Alloc inp nm w k =>
      match ys with
      | [] => False
      | y :: ys' => (md = Honest -> w = Ok y) /\
          forall x v, rho x = y -> vpred md w y v -> awp md rho (k x v) ys' Q
      end
  | Enforce nm c k => csat rho c /\ awp md rho k ys Q
  | Push nm k => awp md rho k ys Q
  | Pop k => awp md rho k ys Q
  end.

Lemma awp_mono {A} md rho (m : prog A) : forall ys (Q R : A -> Prop),
  awp md rho m ys Q -> (forall a, Q a -> R a) -> awp md rho m ys R.
Proof.
  induction m; simpl; intros ys Q R HQ HR; try tauto; eauto.
  - destruct HQ; auto.
  - destruct ys; eauto. destruct HQ; eauto.
  - destruct HQ; eauto.
Qed.

Lemma awp_bind {A B} md rho (m : prog A) (f : A -> prog B) Q : forall ys1 ys2,
  awp md rho m ys1 (fun a => awp md rho (f a) ys2 Q) -> awp md rho (bind m f) (ys1 ++ ys2) Q.
Proof.
  induction m; simpl; intros ys1 ys2 H1; try tauto; eauto.
  - destruct H1 as [-> H1]; auto.
  - destruct ys1; simpl; [tauto|]. destruct H1; eauto.
  - destruct H1; eauto.
Qed.

Lemma awp_ns {A} md rho nm (m : prog A) ys Q : awp md rho m ys Q -> awp md rho (ns nm m) ys Q.
Proof.
  intros H; simpl. rewrite <- (app_nil_r ys). apply awp_bind. eapply awp_mono; [exact H|].
  simpl; auto.
Qed.

Lemma awp_unwrap {A} md rho (m : prog A) Q : forall ys,
  awp md rho m ys Q -> awp md rho (unwrap_prog m) ys Q.
Proof.
  induction m; simpl; intros ys HQ; try tauto; eauto.
  - destruct ys as [|y ys]; auto. destruct HQ as [Hw HQ]. split.
    { intros Hh. rewrite (Hw Hh). reflexivity. }
    intros x v Hx Hv. apply H, HQ; auto.
    destruct md; simpl in *; auto. destruct Hv as (z & Hz & ->). exists z; split; auto.
    destruct w; simpl in Hz; congruence.
  - destruct HQ; split; auto.
Qed.

Lemma awp_lift {A} md rho (r : res A) a (Q : A -> Prop) :
  r = Ok a -> Q a -> awp md rho (lift r) [] Q.
Proof. intros ->; simpl; auto. Qed.

Lemma awp_mapM {A B} md rho (f : A -> prog B) (g : A -> list Z) (R : A -> B -> Prop) :
  forall l (Q : list B -> Prop),
  (forall a, In a l -> awp md rho (f a) (g a) (R a)) ->
  (forall bs, Forall2 R l bs -> Q bs) ->
  awp md rho (mapM f l) (flat_map g l) Q.
Proof.
  induction l as [|a l IH]; intros Q Hf HQ; simpl.
  - split; [reflexivity|]. apply HQ. constructor.
  - apply awp_bind. eapply awp_mono; [apply Hf; left; auto|]. intros b Hb. simpl.
    rewrite <- (app_nil_r (flat_map g l)).
    apply awp_bind. apply IH; [intros; apply Hf; right; auto|].
    intros bs Hbs. simpl. split; [reflexivity|]. apply HQ. constructor; auto.
Qed.

Lemma awp_iterM {A} md rho (f : A -> prog unit) (g : A -> list Z) : forall l (Q : unit -> Prop),
  (forall a, In a l -> awp md rho (f a) (g a) (fun _ => True)) -> Q tt ->
  awp md rho (iterM f l) (flat_map g l) Q.
Proof.
  induction l as [|a l IH]; intros Q Hf HQ; simpl; auto.
  apply awp_bind. eapply awp_mono; [apply Hf; left; auto|]. intros [] _.
  apply IH; auto. intros; apply Hf; right; auto.
Qed.

Lemma awp_foldM {A S} md rho (f : S -> A -> prog S) (g : A -> list Z) (I : list A -> S -> Prop) :
  forall l pre s (Q : S -> Prop),
  I pre s ->
  (forall pre' a post s, pre ++ l = pre' ++ a :: post -> I pre' s ->
      awp md rho (f s a) (g a) (I (pre' ++ [a]))) ->
  (forall s, I (pre ++ l) s -> Q s) ->
  awp md rho (foldM f l s) (flat_map g l) Q.
Proof.
  induction l as [|a l IH]; intros pre s Q HI Hf HQ; simpl.
  - split; [reflexivity|]. apply HQ. now rewrite app_nil_r.
  - apply awp_bind. eapply awp_mono; [eapply Hf; eauto|].
    intros s' Hs'. apply (IH (pre ++ [a])); auto.
    + intros pre' a' post s2 Heq. apply (Hf pre' a' post). rewrite <- Heq, <- app_assoc. reflexivity.
    + intros s2 H2. apply HQ. now rewrite <- app_assoc in H2.
Qed.

(** Gadgets that allocate nothing. *)
Lemma awp_run_nil {A} md wit rho (m : prog A) : forall s Q a s',
  awp md rho m [] Q -> sat rho s -> run wit m s = (Ok a, s') -> sat rho s' /\ Q a.
Proof.
  induction m as [a0|e| |inp nm w k IH|nm c k IH|nm k IH|k IH]; intros s Q a s' H Hs Hr;
    simpl in Hr, H; try tauto.
  - injection Hr as <- <-. destruct H; auto.
  - apply (IH (push_con nm c s)); auto; [apply H|]. destruct Hs as [H1 H2]. split; auto.
    simpl. constructor; auto. apply H.
  - apply (IH (push_ns nm s)); auto.
  - apply (IH (pop_ns s)); auto.
Qed.

(** What satisfies the constraints afterwards satisfied them before. *)
Lemma run_sat {A} wit rho (m : prog A) s r s' :
  run wit m s = (r, s') -> sat rho s' -> sat rho s.
Proof.
  intros Hr [H1 H2]. split; auto. apply run_cons in Hr. destruct Hr as [l Hl].
  rewrite Hl in H2. now apply Forall_app in H2.
Qed.

Lemma satb_sat rho s : satb rho s = true -> sat rho s.
Proof.
  unfold satb, sat. rewrite andb_true_iff, Z.eqb_eq, forallb_forall, Forall_forall.
  intros [H1 H2]. split; auto. intros c Hc. specialize (H2 c Hc).
  destruct c; simpl in *.
  - now apply Z.eqb_eq.
  - destruct (list_eq_dec _ _ _); [auto|discriminate].
Qed.

Lemma good_good_for s : good s -> good_for (asg s) s.
Proof.
  intros H r [H1 H2]. apply H. split; intros n Hn; [rewrite H1|rewrite H2]; auto.
Qed.

Lemma awp_run {A} wit (m : prog A) : forall s rho0 ys (Q : assignment -> A -> Prop) a s',
  good_for rho0 s ->
  (forall rho, same_on s rho rho0 -> rho ONE = 1 -> awp (md_of wit) rho m ys (Q rho)) ->
  run wit m s = (Ok a, s') ->
  exists rho', same_on s rho' rho0 /\ good_for rho' s' /\
     (forall r, same_on s' r rho' -> Q r a).
Proof.
  induction m as [a0|e| |inp nm w k IH|nm c k IH|nm k IH|k IH]; intros s rho0 ys Q a s' Hg H Hr;
    simpl in Hr; try discriminate.
  - injection Hr as <- <-. exists rho0. split; [apply same_on_refl|]. split; auto.
    intros r Hs. apply H; auto. now apply Hg.
  - assert (Hex : exists v y ys' v1, ys = y :: ys' /\ vpred (md_of wit) w y v /\
              run wit (k (next_var inp s) v) (push_var inp nm v1 s) = (Ok a, s')).
    { specialize (H rho0 (same_on_refl _ _) (proj1 (Hg _ (same_on_refl _ _)))).
      simpl in H. destruct ys as [|y ys']; [tauto|]. clear H.
      destruct wit; [destruct w; try discriminate|]; repeat eexists; eauto; simpl; eauto. }
    destruct Hex as (v & y & ys' & v1 & -> & Hv & Hr').
    destruct (IH (next_var inp s) v (push_var inp nm v1 s) (upd rho0 (next_var inp s) y) ys' Q a s')
      as (rho' & H1 & H2 & H3); [| |exact Hr'|].
    + intros r Hs. apply same_on_push in Hs. destruct Hs as [Hs _].
      apply (Hg r). eapply same_on_trans; [exact Hs|]. apply upd_fresh.
    + intros rho Hs Ho. apply same_on_push in Hs. destruct Hs as [Hs Hx]. rewrite upd_same in Hx.
      apply (H rho); auto. eapply same_on_trans; [exact Hs|]. apply upd_fresh.
    + exists rho'. split; [|split]; auto.
      apply same_on_push in H1. destruct H1 as [H1 _].
      eapply same_on_trans; [exact H1|]. apply upd_fresh.
  - eapply IH with (Q := Q) (ys := ys) in Hr; [exact Hr| |].
    + intros r Hs. destruct (Hg r Hs) as [Ho Hc]. split; auto. constructor; auto.
      apply (H r Hs Ho).
    + intros rho Hs Ho. apply (H rho Hs Ho).
  - eapply IH with (Q := Q) (ys := ys) in Hr; eauto.
  - eapply IH with (Q := Q) (ys := ys) in Hr; eauto.
Qed.

(** A shape run of a gadget with an [awp] does not fail. *)
Lemma awp_shape {A} (m : prog A) : forall s rho0 ys (Q : assignment -> A -> Prop),
  good_for rho0 s ->
  (forall rho, same_on s rho rho0 -> rho ONE = 1 -> awp Shape rho m ys (Q rho)) ->
  exists a s', run false m s = (Ok a, s').
Proof.
  induction m as [a0|e| |inp nm w k IH|nm c k IH|nm k IH|k IH]; intros s rho0 ys Q Hg H; simpl;
    pose proof (H rho0 (same_on_refl _ _) (proj1 (Hg _ (same_on_refl _ _)))) as H0; simpl in H0;
    try tauto; eauto.
  - destruct ys as [|y ys]; [tauto|].
    apply (IH (next_var inp s) None (push_var inp nm 0 s) (upd rho0 (next_var inp s) y) ys Q).
    + intros r Hs. apply same_on_push in Hs. destruct Hs as [Hs _].
      apply (Hg r). eapply same_on_trans; [exact Hs|]. apply upd_fresh.
    + intros rho Hs Ho. apply same_on_push in Hs. destruct Hs as [Hs Hx]. rewrite upd_same in Hx.
      apply (H rho); simpl; auto. eapply same_on_trans; [exact Hs|]. apply upd_fresh.
  - apply (IH (push_con nm c s) rho0 ys Q).
    + intros r Hs. destruct (Hg r Hs) as [Ho Hc]. split; auto. constructor; auto.
      apply (H r Hs Ho).
    + intros rho Hs Ho. apply (H rho Hs Ho).
Qed.

(** An honest run, with the values it computes spelled out. *)
Lemma hwp_awp {A} rho (m : prog A) : forall ys Q, awp Honest rho m ys Q -> hwp rho m Q.
Proof.
  induction m as [a0|e| |inp nm w k IH|nm c k IH|nm k IH|k IH]; intros ys Q H; simpl in *;
    try tauto; eauto.
  - destruct ys as [|y ys]; [tauto|]. destruct H as [Hw H]. exists y. split; auto.
    intros x Hx. eapply IH. apply H; simpl; auto.
  - destruct H; split; eauto.
Qed.

End Wp.
