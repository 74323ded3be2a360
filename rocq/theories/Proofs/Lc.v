(** Evaluation of linear combinations, single allocations and constraints. *)
From Coq Require Import ZArith Bool List Lia Setoid Morphisms.
From Verif.Model Require Import Base CS Bellpepper Util.
From Verif.Spec Require Import Spec.
From Verif.Proofs Require Import Field Arith Wp.
Import ListNotations.
Local Open Scope Z_scope.

Lemma lc_eval_app rho a b : lc_eval rho (a ++ b) = lc_eval rho a + lc_eval rho b.
Proof. induction a as [|[c v] a IH]; simpl; [ring|]. rewrite IH. ring. Qed.
Lemma lc_eval_add rho a b : lc_eval rho (lc_add a b) = lc_eval rho a + lc_eval rho b.
Proof. apply lc_eval_app. Qed.
Lemma lc_eval_scale rho c a : lc_eval rho (lc_scale c a) = c * lc_eval rho a.
Proof. induction a as [|[d v] a IH]; simpl; [ring|]. rewrite IH. ring. Qed.
Lemma lc_eval_sub rho a b : lc_eval rho (lc_sub a b) = lc_eval rho a - lc_eval rho b.
Proof. unfold lc_sub. rewrite lc_eval_app, lc_eval_scale. ring. Qed.
Lemma lc_eval_var rho v : lc_eval rho (lc_var v) = rho v.
Proof. unfold lc_var, lc_eval. ring. Qed.
Lemma lc_eval_zero rho : lc_eval rho lc_zero = 0.
Proof. reflexivity. Qed.
Lemma lc_eval_nil rho : lc_eval rho [] = 0.
Proof. reflexivity. Qed.
Lemma lc_eval_const rho c : rho ONE = 1 -> lc_eval rho (lc_const c) = c.
Proof. intros H. unfold lc_const, lc_eval. rewrite H. ring. Qed.
Lemma lc_eval_cons rho c v l : lc_eval rho ((c, v) :: l) = c * rho v + lc_eval rho l.
Proof. reflexivity. Qed.

Ltac lcs := rewrite ?lc_eval_add, ?lc_eval_sub, ?lc_eval_scale, ?lc_eval_var, ?lc_eval_zero, ?lc_eval_nil.
Ltac lcs_in H := rewrite ?lc_eval_add, ?lc_eval_sub, ?lc_eval_scale, ?lc_eval_var, ?lc_eval_zero, ?lc_eval_nil in H.

Section Lc.
Context {E : Env} {W : Wf E}.

Lemma csat_R1 rho a b c :
  csat rho (R1 a b c) <-> eqp (lc_eval rho a * lc_eval rho b) (lc_eval rho c).
Proof. simpl. unfold feval. symmetry. apply eqp_eq. Qed.

Lemma feval_eqp rho l v : canon v -> (feval rho l = v <-> eqp (lc_eval rho l) v).
Proof.
  intros H. unfold feval. rewrite <- (fmk_id v H) at 1. symmetry. apply eqp_eq.
Qed.
Lemma eqp_feval rho l : eqp (feval rho l) (lc_eval rho l).
Proof. apply eqp_fmk. Qed.

Lemma swp_alloc md rho nm w (Q : var * option Z -> Prop) :
  (forall x v, mpred md w (rho x) v -> Q (x, v)) -> swp md rho (alloc nm w) Q.
Proof. intros H. exact H. Qed.
Lemma swp_alloc_input md rho nm w (Q : var * option Z -> Prop) :
  (forall x v, mpred md w (rho x) v -> Q (x, v)) -> swp md rho (alloc_input nm w) Q.
Proof. intros H. exact H. Qed.
Lemma swp_enforce md rho nm a b c (Q : unit -> Prop) :
  (eqp (lc_eval rho a * lc_eval rho b) (lc_eval rho c) -> Q tt) -> swp md rho (enforce nm a b c) Q.
Proof. intros H Hc. apply H. now apply csat_R1. Qed.
Lemma swp_enforce0 md rho nm c (Q : unit -> Prop) :
  (eqp (lc_eval rho c) 0 -> Q tt) -> swp md rho (enforce nm lc_zero lc_zero c) Q.
Proof. intros H. apply swp_enforce. lcs. intros G. apply H. symmetry. exact G. Qed.

Lemma hwp_alloc rho nm w v (Q : var * option Z -> Prop) :
  w = Ok v -> (forall x, rho x = v -> Q (x, Some v)) -> hwp rho (alloc nm w) Q.
Proof. intros -> H. exists v; split; auto. Qed.
Lemma hwp_alloc_input rho nm w v (Q : var * option Z -> Prop) :
  w = Ok v -> (forall x, rho x = v -> Q (x, Some v)) -> hwp rho (alloc_input nm w) Q.
Proof. intros -> H. exists v; split; auto. Qed.
Lemma hwp_enforce rho nm a b c (Q : unit -> Prop) :
  eqp (lc_eval rho a * lc_eval rho b) (lc_eval rho c) -> Q tt -> hwp rho (enforce nm a b c) Q.
Proof. intros H HQ. split; [now apply csat_R1|exact HQ]. Qed.
Lemma hwp_enforce0 rho nm c (Q : unit -> Prop) :
  eqp (lc_eval rho c) 0 -> Q tt -> hwp rho (enforce nm lc_zero lc_zero c) Q.
Proof. intros H. apply hwp_enforce. lcs. symmetry. exact H. Qed.

Lemma awp_alloc md rho nm w y (Q : var * option Z -> Prop) :
  (md = Honest -> w = Ok y) ->
  (forall x v, rho x = y -> vpred md w y v -> Q (x, v)) -> awp md rho (alloc nm w) [y] Q.
Proof. intros Hw H. split; [exact Hw|]. intros x v Hx Hv. split; auto. Qed.
Lemma awp_enforce md rho nm a b c (Q : unit -> Prop) :
  eqp (lc_eval rho a * lc_eval rho b) (lc_eval rho c) -> Q tt -> awp md rho (enforce nm a b c) [] Q.
Proof. intros H HQ. split; [now apply csat_R1|split; auto]. Qed.
Lemma awp_enforce0 md rho nm c (Q : unit -> Prop) :
  eqp (lc_eval rho c) 0 -> Q tt -> awp md rho (enforce nm lc_zero lc_zero c) [] Q.
Proof. intros H. apply awp_enforce. lcs. symmetry. exact H. Qed.
Lemma awp_bind_eq {A B} md rho (m : prog A) (f : A -> prog B) Q ys ys1 ys2 :
  ys = ys1 ++ ys2 ->
  awp md rho m ys1 (fun a => awp md rho (f a) ys2 Q) -> awp md rho (bind m f) ys Q.
Proof. intros ->. apply awp_bind. Qed.

Lemma awp_bind_nil {A B} md rho (m : prog A) (f : A -> prog B) Q ys :
  awp md rho m [] (fun a => awp md rho (f a) ys Q) -> awp md rho (bind m f) ys Q.
Proof. apply (awp_bind md rho m f Q []). Qed.
Lemma awp_bind_all {A B} md rho (m : prog A) (f : A -> prog B) Q ys :
  awp md rho m ys (fun a => awp md rho (f a) [] Q) -> awp md rho (bind m f) ys Q.
Proof. intros H. rewrite <- (app_nil_r ys). now apply awp_bind. Qed.

Lemma awp_iterM_nil {A} md rho (f : A -> prog unit) l (Q : unit -> Prop) :
  (forall a, In a l -> awp md rho (f a) [] (fun _ => True)) -> Q tt ->
  awp md rho (iterM f l) [] Q.
Proof. intros H HQ. rewrite <- (flat_map_nil l). now apply awp_iterM. Qed.

(** Congruent digits give congruent values. *)
Lemma value_of_eqp B l1 l2 : Forall2 eqp l1 l2 -> eqp (value_of B l1) (value_of B l2).
Proof.
  induction 1 as [|x y l1 l2 H _ IH]; [reflexivity|]. cbn [value_of]. now rewrite H, IH.
Qed.

Lemma value_of_base_eqp B1 B2 l : eqp B1 B2 -> eqp (value_of B1 l) (value_of B2 l).
Proof. intros H. induction l; [reflexivity|]. cbn [value_of]. now rewrite IHl, H. Qed.

End Lc.

(** One step of a proof about a gadget. *)
Ltac sstep :=
  cbv beta;
  lazymatch goal with
  | |- swp _ _ (bind _ _) _ => apply swp_bind
  | |- swp _ _ (ns _ _) _ => apply swp_ns
  | |- swp _ _ (unwrap_prog _) _ => apply swp_unwrap
  | |- swp _ _ (lift _) _ => apply swp_lift
  | |- swp _ _ (alloc _ _) _ => apply swp_alloc
  | |- swp _ _ (alloc_input _ _) _ => apply swp_alloc_input
  | |- swp _ _ (enforce _ lc_zero lc_zero _) _ => apply swp_enforce0
  | |- swp _ _ (enforce _ _ _ _) _ => apply swp_enforce
  | |- swp _ _ (Ret _) _ => cbn [swp]
  | |- swp _ _ (Fail _) _ => exact I
  | |- swp _ _ Crash _ => exact I
  end.
Ltac hstep :=
  cbv beta;
  lazymatch goal with
  | |- hwp _ (bind _ _) _ => apply hwp_bind
  | |- hwp _ (ns _ _) _ => apply hwp_ns
  | |- hwp _ (unwrap_prog _) _ => apply hwp_unwrap
  | |- hwp _ (lift _) _ => eapply hwp_lift
  | |- hwp _ (alloc _ _) _ => eapply hwp_alloc
  | |- hwp _ (alloc_input _ _) _ => eapply hwp_alloc_input
  | |- hwp _ (enforce _ lc_zero lc_zero _) _ => apply hwp_enforce0
  | |- hwp _ (enforce _ _ _ _) _ => apply hwp_enforce
  | |- hwp _ (Ret _) _ => cbn [hwp]
  end.
Ltac astep :=
  cbv beta;
  lazymatch goal with
  | |- awp _ _ (bind _ _) _ _ => eapply awp_bind_eq
  | |- awp _ _ (ns _ _) _ _ => apply awp_ns
  | |- awp _ _ (unwrap_prog _) _ _ => apply awp_unwrap
  | |- awp _ _ (lift _) _ _ => eapply awp_lift
  | |- awp _ _ (alloc _ _) _ _ => apply awp_alloc
  | |- awp _ _ (enforce _ lc_zero lc_zero _) _ _ => apply awp_enforce0
  | |- awp _ _ (enforce _ _ _ _) _ _ => apply awp_enforce
  | |- awp _ _ (Ret _) _ _ => cbn [awp]; split; [reflexivity|]
  end.
