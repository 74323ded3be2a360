(** Which wires are determined (C101): two satisfying assignments compared along one run of a gadget. *)
From Coq Require Import String ZArith Znumtheory Bool List Lia Setoid Morphisms ZifyBool ZifyNat.
From Verif.Model Require Import Base CS Bellpepper Util Poly Bignat Gadget.
From Verif.Spec Require Import Spec SpecExpr SpecUnique.
From Verif.Proofs Require Import Field Arith Convert Limbs Wp Lc BitNum PolyP BoolP BignatEq BignatAlloc Group Carry Regroup Mult MultC TopBits TopPoly TopBignat1 PureOps TopPure Owp Pwp
  TopBignat2 MuxP MedianP MinBits SubP Ewp Relation Expr.
Import ListNotations.
Local Open Scope Z_scope.

Section Unique.
Context {E : Env} {W : Wf E}.

(** ** The calculus: the variables allocated are collected, constraints hold for both assignments *)
Section Uwp.
Context (r1 r2 : assignment).

Fixpoint uwp {A} (m : prog A) (Q : A -> list var -> Prop) : Prop :=
  match m with
  | Ret a => Q a []
  | Fail _ => True
  | Crash => True
  | Alloc inp nm w k => forall x v, uwp (k x v) (fun a l => Q a (x :: l))
  | Enforce nm c k => csat r1 c -> csat r2 c -> uwp k Q
  | Push nm k => uwp k Q
  | Pop k => uwp k Q
  end.

Definition same (x : var) : Prop := eqp (r1 x) (r2 x).
Definition leq (l : LC) : Prop := eqp (lc_eval r1 l) (lc_eval r2 l).

Lemma uwp_mono {A} (m : prog A) : forall (Q R : A -> list var -> Prop),
  uwp m Q -> (forall a l, Q a l -> R a l) -> uwp m R.
Proof.
  induction m as [a|e| |inp nm w k IH|nm c k IH|nm k IH|k IH]; simpl; intros Q R H HQ; eauto.
Qed.
Lemma uwp_imp {A} (m : prog A) (P : Prop) : forall (Q : A -> list var -> Prop),
  (P -> uwp m Q) -> uwp m (fun a l => P -> Q a l).
Proof.
  induction m as [a|e| |inp nm w k IH|nm c k IH|nm k IH|k IH]; simpl; intros Q H; auto.
Qed.
Lemma uwp_true {A} (m : prog A) : uwp m (fun _ _ => True).
Proof. induction m as [a|e| |inp nm w k IH|nm c k IH|nm k IH|k IH]; simpl; auto. Qed.
Lemma uwp_bind {A B} (m : prog A) (f : A -> prog B) : forall Q,
  uwp m (fun a l => uwp (f a) (fun b l' => Q b (l ++ l'))) -> uwp (bind m f) Q.
Proof.
  induction m as [a|e| |inp nm w k IH|nm c k IH|nm k IH|k IH]; simpl; intros Q H; auto.
Qed.
Lemma uwp_ns {A} nm (m : prog A) Q : uwp m Q -> uwp (ns nm m) Q.
Proof.
  intros H. unfold ns. simpl. apply uwp_bind. eapply uwp_mono; [exact H|]. cbv beta. intros a l Ha. simpl. now rewrite app_nil_r.
Qed.
Lemma uwp_unwrap {A} (m : prog A) : forall Q, uwp m Q -> uwp (unwrap_prog m) Q.
Proof. induction m as [a|e| |inp nm w k IH|nm c k IH|nm k IH|k IH]; simpl; intros Q H; auto. Qed.
Lemma uwp_lift {A} (r : res A) (Q : A -> list var -> Prop) : (forall a, r = Ok a -> Q a []) -> uwp (lift r) Q.
Proof. destruct r; simpl; auto. Qed.
Lemma uwp_alloc nm w (Q : var * option Z -> list var -> Prop) : (forall x v, Q (x, v) [x]) -> uwp (alloc nm w) Q.
Proof. intros H. exact H. Qed.
Lemma uwp_alloc_input nm w (Q : var * option Z -> list var -> Prop) : (forall x v, Q (x, v) [x]) -> uwp (alloc_input nm w) Q.
Proof. intros H. exact H. Qed.
Lemma uwp_enforce nm a b c (Q : unit -> list var -> Prop) :
  (eqp (lc_eval r1 a * lc_eval r1 b) (lc_eval r1 c) -> eqp (lc_eval r2 a * lc_eval r2 b) (lc_eval r2 c) -> Q tt []) ->
  uwp (enforce nm a b c) Q.
Proof. intros H H1 H2. apply H; now apply csat_R1. Qed.
Lemma uwp_enforce0 nm c (Q : unit -> list var -> Prop) :
  (eqp (lc_eval r1 c) 0 -> eqp (lc_eval r2 c) 0 -> Q tt []) -> uwp (enforce nm lc_zero lc_zero c) Q.
Proof. intros H. apply uwp_enforce. lcs. intros G1 G2. apply H; now symmetry. Qed.
Lemma uwp_mapM {A B} (f : A -> prog B) (R : A -> B -> list var -> Prop) : forall l (Q : list B -> list var -> Prop),
  (forall a, In a l -> uwp (f a) (R a)) ->
  (forall bs, Forall2 (fun a b => R a (fst b) (snd b)) l bs -> Q (map fst bs) (List.concat (map snd bs))) ->
  uwp (mapM f l) Q.
Proof.
  induction l as [|a l IH]; intros Q H HQ.
  - exact (HQ [] (Forall2_nil _)).
  - cbn [mapM]. apply uwp_bind. eapply uwp_mono; [apply H; now left|]. cbv beta. intros b vs Hb. apply uwp_bind.
    apply IH; [intros; apply H; now right|]. intros bs Hbs. simpl. rewrite app_nil_r.
    apply (HQ ((b, vs) :: bs)). constructor; auto.
Qed.
Lemma uwp_iterM {A} (f : A -> prog unit) (R : A -> list var -> Prop) : forall l (Q : unit -> list var -> Prop),
  (forall a, In a l -> uwp (f a) (fun _ => R a)) ->
  (forall vs, Forall2 R l vs -> Q tt (List.concat vs)) -> uwp (iterM f l) Q.
Proof.
  induction l as [|a l IH]; intros Q H HQ.
  - exact (HQ [] (Forall2_nil _)).
  - cbn [iterM]. apply uwp_bind. eapply uwp_mono; [apply H; now left|]. cbv beta. intros b vs Hb.
    apply IH; [intros; apply H; now right|]. intros bs Hbs. apply (HQ (vs :: bs)). constructor; auto.
Qed.
Lemma uwp_foldM {A S} (f : S -> A -> prog S) (I : S -> Prop) (P : var -> Prop) : forall l s,
  (forall s a, In a l -> I s -> uwp (f s a) (fun s' vs => I s' /\ Forall P vs)) -> I s ->
  uwp (foldM f l s) (fun s' vs => I s' /\ Forall P vs).
Proof.
  induction l as [|a l IH]; intros s H Hs.
  - simpl. auto.
  - cbn [foldM]. apply uwp_bind. eapply uwp_mono; [apply H; [now left|exact Hs]|]. cbv beta. intros s' vs [Hs' Hv].
    eapply uwp_mono; [apply IH; [intros; apply H; auto; now right|exact Hs']|]. cbv beta. intros s'' vs' [H1 H2]. split; auto.
    apply Forall_app; auto.
Qed.
Lemma uwp_both {A} (m : prog A) : forall Q1 Q2 (Q : A -> list var -> Prop),
  swp Any r1 m Q1 -> swp Any r2 m Q2 -> uwp m Q -> uwp m (fun a l => Q1 a /\ Q2 a /\ Q a l).
Proof.
  induction m as [a|e| |inp nm w k IH|nm c k IH|nm k IH|k IH]; simpl; intros Q1 Q2 Q H1 H2 H; auto.
Qed.
Lemma uwp_and {A} (m : prog A) : forall (Q R : A -> list var -> Prop),
  uwp m Q -> uwp m R -> uwp m (fun a l => Q a l /\ R a l).
Proof.
  induction m as [a|e| |inp nm w k IH|nm c k IH|nm k IH|k IH]; simpl; intros Q R H1 H2; auto.
Qed.

(** ** From the calculus to runs *)
Lemma alike_push s inp nm v : alike s r1 r2 -> same (next_var inp s) -> alike (push_var inp nm v s) r1 r2.
Proof.
  intros [H1 H2] H. apply eqp_eq in H. unfold next_var in H. destruct inp; split; cbn [push_var st_in st_aux]; intros n Hn; auto;
    rewrite app_length in Hn; simpl in Hn.
  - destruct (Nat.eq_dec n (length (st_in s))) as [->|]; [exact H|]. apply H1. lia.
  - destruct (Nat.eq_dec n (length (st_aux s))) as [->|]; [exact H|]. apply H2. lia.
Qed.
Lemma alike_but_push F s inp nm v : alike_but F s r1 r2 -> (~ In (next_var inp s) F -> same (next_var inp s)) -> alike_but F (push_var inp nm v s) r1 r2.
Proof.
  intros [H1 H2] H. unfold next_var in H. destruct inp; split; cbn [push_var st_in st_aux]; intros n Hn HF; auto;
    rewrite app_length in Hn; simpl in Hn.
  - destruct (Nat.eq_dec n (length (st_in s))) as [->|]; [apply eqp_eq, H, HF|]. apply H1; auto. lia.
  - destruct (Nat.eq_dec n (length (st_aux s))) as [->|]; [apply eqp_eq, H, HF|]. apply H2; auto. lia.
Qed.
Lemma sat_push nm c rho s : sat rho (push_con nm c s) -> csat rho c.
Proof. intros [_ H]. cbn [push_con st_cons] in H. now inversion H. Qed.
Lemma uwp_run {A} wit (m : prog A) : forall s a s' Q,
  run wit m s = (Ok a, s') -> sat r1 s' -> sat r2 s' -> uwp m Q ->
  exists l, Q a l /\ (alike s r1 r2 -> Forall same l -> alike s' r1 r2) /\
    (forall F, alike_but F s r1 r2 -> Forall (fun x => ~ In x F -> same x) l -> alike_but F s' r1 r2).
Proof.
  induction m as [b|e| |inp nm w k IH|nm c k IH|nm k IH|k IH]; intros s a s' Q Hr S1 S2 H; simpl in Hr; simpl in H;
    try discriminate.
  - injection Hr as <- <-. exists []. auto.
  - assert (Hx : exists v o, run wit (k (next_var inp s) o) (push_var inp nm v s) = (Ok a, s')).
    { destruct wit; [destruct w; try discriminate|]; eauto. }
    destruct Hx as (v & o & Hx). destruct (IH _ _ _ _ _ _ Hx S1 S2 (H _ _)) as (l & HQ & Ha & Hb).
    exists (next_var inp s :: l). split; [exact HQ|]. split.
    + intros A1 A2. inversion A2; subst. apply Ha; auto. now apply alike_push.
    + intros F A1 A2. inversion A2; subst. apply Hb; auto. now apply alike_but_push.
  - pose proof (run_sat _ _ _ _ _ _ Hr S1) as C1. pose proof (run_sat _ _ _ _ _ _ Hr S2) as C2.
    apply sat_push in C1, C2. apply (IH _ _ _ _ Hr S1 S2). now apply H.
  - destruct (IH _ _ _ _ Hr S1 S2 H) as (l & HQ & Ha & Hb). exists l. auto.
  - destruct (IH _ _ _ _ Hr S1 S2 H) as (l & HQ & Ha & Hb). exists l. auto.
Qed.
Lemma uwp_alike {A} wit (m : prog A) s a s' :
  run wit m s = (Ok a, s') -> sat r1 s' -> sat r2 s' -> uwp m (fun _ l => Forall same l) -> alike s r1 r2 -> alike s' r1 r2.
Proof. intros Hr S1 S2 H Ha. destruct (uwp_run wit m s a s' _ Hr S1 S2 H) as (l & HQ & K & _). auto. Qed.
End Uwp.

Lemma made_of_leq s r1 r2 l : alike s r1 r2 -> made_of s l -> leq r1 r2 l.
Proof.
  intros [H1 H2]. unfold leq. induction l as [|[c v] l IH]; intros HM; [reflexivity|]. rewrite !lc_eval_cons.
  rewrite IH by (intros c' v' Hi; apply (HM c' v'); now right).
  assert (K : eqp (r1 v) (r2 v)).
  { apply eqp_eq. specialize (HM c v (or_introl eq_refl)). destruct v; auto. }
  now rewrite K.
Qed.
End Unique.

Ltac ustep :=
  cbv beta;
  lazymatch goal with
  | |- uwp _ _ (bind _ _) _ => apply uwp_bind
  | |- uwp _ _ (ns _ _) _ => apply uwp_ns
  | |- uwp _ _ (unwrap_prog _) _ => apply uwp_unwrap
  | |- uwp _ _ (lift _) _ => apply uwp_lift
  | |- uwp _ _ (alloc _ _) _ => apply uwp_alloc
  | |- uwp _ _ (alloc_input _ _) _ => apply uwp_alloc_input
  | |- uwp _ _ (enforce _ lc_zero lc_zero _) _ => apply uwp_enforce0
  | |- uwp _ _ (enforce _ _ _ _) _ => apply uwp_enforce
  | |- uwp _ _ (Ret _) _ => cbn [uwp]
  | |- uwp _ _ (Fail _) _ => exact I
  | |- uwp _ _ Crash _ => exact I
  end.
