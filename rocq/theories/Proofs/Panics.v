(** Programs that panic whatever the state. *)
From Coq Require Import ZArith Bool String List Lia.
From Verif.Model Require Import Base CS Bellpepper Util Poly Bignat Ints Median Difficulty.
From Verif.Spec Require Import Spec.
From Verif.Proofs Require Import Wp Shp TopMedian.
Import ListNotations.
Local Open Scope string_scope.
Local Open Scope Z_scope.
Local Open Scope list_scope.

Definition panics {A} (wit : bool) (m : prog A) : Prop := forall s, fst (run wit m s) = Panic.
(** Never an [Err]. *)
Definition noerr {A} (wit : bool) (m : prog A) : Prop := forall s e, fst (run wit m s) <> Err e.

Lemma panics_bind {A B} wit (m : prog A) (f : A -> prog B) : panics wit m -> panics wit (bind m f).
Proof. intros H s. specialize (H s). rewrite run_bind. destruct (run wit m s) as [[a|e|] s1]; try discriminate. reflexivity. Qed.
Lemma panics_skip {A B} wit (m : prog A) (f : A -> prog B) : noerr wit m -> (forall a, panics wit (f a)) -> panics wit (bind m f).
Proof.
  intros H1 H2 s. specialize (H1 s). rewrite run_bind. destruct (run wit m s) as [[a|e|] s1]; [apply H2| |reflexivity].
  exfalso. now apply (H1 e).
Qed.
Lemma noerr_unwrap {A} wit (m : prog A) : noerr wit (unwrap_prog m).
Proof.
  induction m as [a|e| |inp nm w k IH|nm c k IH|nm k IH|k IH]; intros s e'; cbn [unwrap_prog run]; try discriminate.
  - destruct wit; [destruct w; cbn [unwrap_res]; try discriminate|]; apply IH.
  - apply IH.
  - apply IH.
  - apply IH.
Qed.
Lemma noerr_bind {A B} wit (m : prog A) (f : A -> prog B) : noerr wit m -> (forall a, noerr wit (f a)) -> noerr wit (bind m f).
Proof.
  intros H1 H2 s e. specialize (H1 s). rewrite run_bind. destruct (run wit m s) as [[a|e0|] s1]; [apply H2| |discriminate].
  cbn [fst]. intros H. apply (H1 e0). reflexivity.
Qed.
Lemma noerr_ret {A} wit (a : A) : noerr wit (Ret a).
Proof. intros s e. discriminate. Qed.
Lemma noerr_lift {A} wit (r : res A) : (forall e, r <> Err e) -> noerr wit (lift r).
Proof. intros H s e. destruct r; try discriminate. intros _. now apply (H e0). Qed.
Lemma noerr_enforce wit nm a b c : noerr wit (enforce nm a b c).
Proof. intros s e. discriminate. Qed.
Lemma noerr_ns {A} wit nm (m : prog A) : noerr wit m -> noerr wit (ns nm m).
Proof.
  intros H s e. cbn [ns run]. revert e. change (noerr wit (bind m (fun a => Pop (Ret a)))) with (noerr wit (bind m (fun a => Pop (Ret a)))).
  apply (noerr_bind wit m (fun a => Pop (Ret a)) H). intros a s0 e. discriminate.
Qed.
Lemma noerr_mapM {A B} wit (f : A -> prog B) : (forall a, noerr wit (f a)) -> forall l, noerr wit (mapM f l).
Proof.
  intros H. induction l as [|a l IH]; cbn [mapM]; [apply noerr_ret|]. apply noerr_bind; auto. intros b. apply noerr_bind; auto. intros bs. apply noerr_ret.
Qed.
Lemma unwrap_noerr {A} (o : option A) : forall e, unwrap o <> Err e.
Proof. destruct o; discriminate. Qed.
Lemma panics_shp {A} (m : prog A) : shp m (fun r => r = Panic) -> panics false m.
Proof. intros H s. exact (shp_run m s _ H). Qed.

Section Panics.
Context {E : Env}.

Lemma less_than_none a b n : shp (less_than a b n) (fun r => exists c, r = Ok c /\ bool_val c = None).
Proof.
  unfold less_than. cbv zeta. eapply shp_step; [apply an_alloc_shp|]. intros z Hz. eapply shp_step; [apply an_alloc_shp|]. intros nb _.
  apply shp_ns, equals_shp; auto.
Qed.
Lemma lt_u_shape nm a b n : panics false (lt_u nm a b n).
Proof.
  unfold lt_u. apply panics_shp. eapply shp_step; [apply less_than_none|]. intros c Hc. cbv beta. rewrite Hc. reflexivity.
Qed.

Lemma top_calculate_shape prev ts s : fst (run false (calculate_difficulty_update prev ts) s) = Panic.
Proof.
  revert s. change (panics false (calculate_difficulty_update prev ts)). unfold calculate_difficulty_update, bignat_u, an_u.
  do 4 (apply panics_skip; [apply noerr_unwrap|intros ?]). apply panics_bind, lt_u_shape.
Qed.
Lemma top_verify_shape cu cl pu pl t s : fst (run false (verify_difficulty_update cu cl pu pl t) s) = Panic.
Proof.
  revert s. change (panics false (verify_difficulty_update cu cl pu pl t)). unfold verify_difficulty_update, bignat_u, an_u, num_u.
  repeat (apply panics_skip; [first [apply noerr_unwrap|apply noerr_lift; intros e; destruct (concat _ _); discriminate]|intros ?]).
  apply panics_bind, lt_u_shape.
Qed.
End Panics.
