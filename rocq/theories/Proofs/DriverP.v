(** The example program. *)
From Coq Require Import ZArith Bool String List.
From Verif.Model Require Import Base CS Bellpepper Util Poly Bignat Ints Median Difficulty HeaderStep Driver Fields.
From Verif.Spec Require Import Spec.
From Verif.Proofs Require Import Wp Prime PrimeFields HeaderPanics HeaderP HeaderEx.
Import ListNotations.
Local Open Scope string_scope.
Local Open Scope Z_scope.
Local Open Scope list_scope.

Section D.
Context {E : Env}.

Lemma nova_synthesize_panics {A} wit inputs h (fin : res (list allocated_num) * st -> res A) z s :
  run wit inputs st_init = (Ok z, s) -> nova_synthesize wit inputs h fin = Panic.
Proof.
  intros H. unfold nova_synthesize. rewrite run_bind, H. pose proof (top_synthesize_panics wit h z s) as P.
  destruct (run wit (synthesize h z) s) as [r s']. cbn [fst] in P. now subst r.
Qed.

Lemma top_setup_panics N h z s : run false (shape_inputs N) st_init = (Ok z, s) -> setup N h = Panic.
Proof. apply nova_synthesize_panics. Qed.

Lemma top_main N z s : run false (shape_inputs N) st_init = (Ok z, s) ->
  main N = (["Producing public parameters..."], Panic).
Proof. intros H. unfold main. now rewrite (top_setup_panics N _ z s H). Qed.

Lemma initial_ok : exists zs, initial_z_i_scalars = Ok zs.
Proof. eexists. reflexivity. Qed.

Lemma top_prove_all N pp h hs :
  (forall z0, exists z s, run true (new_inputs N pp z0) st_init = (Ok z, s)) ->
  prove_all N pp (h :: hs) = (["Generating a RecursiveSNARK..."], Panic).
Proof.
  intros H. unfold prove_all. destruct initial_ok as [zs Hz]. rewrite Hz. destruct (H zs) as (z & s & R).
  cbn [pure io_bind new_blocks map]. unfold rs_new. change (idx (h :: map (fun b => b) hs) 0) with (Ok h : res (list Z)).
  cbn [io_bind say app]. unfold rs_new. rewrite (nova_synthesize_panics _ _ h _ z s R). reflexivity.
Qed.

Lemma top_prove_any N pp blocks :
  (forall z0, exists z s, run true (new_inputs N pp z0) st_init = (Ok z, s)) ->
  prove_all N pp blocks = (["Generating a RecursiveSNARK..."], Panic).
Proof.
  intros H. destruct blocks as [|h hs]; [|now apply top_prove_all].
  unfold prove_all. destruct initial_ok as [zs Hz]. rewrite Hz. reflexivity.
Qed.

Lemma top_prove_step N pp rs h z s : run true (step_inputs N pp rs) st_init = (Ok z, s) -> prove_step N pp rs h = Panic.
Proof. apply nova_synthesize_panics. Qed.


End D.

(** A Nova that allocates the sixteen words of the state and passes them. *)
Definition nova_16 : nova :=
  mkNova unit unit unit unit
    (mapM (fun i => ns (Nmi "z " i "") (an_alloc (Err AssignmentMissing))) (seq 0 16)) (fun _ => Ok tt)
    (fun _ z0 => mapM (fun p => ns (Nmi "z " (fst p) "") (an_alloc (Ok (snd p)))) (combine (seq 0 (List.length z0)) z0)) (fun _ _ => Ok tt)
    (fun _ _ => Ret []) (fun _ _ _ => Ok tt)
    (fun _ _ _ _ => Ok tt) (fun _ => Ok tt) (fun _ _ _ => Ok tt) (fun _ _ _ _ => Ok tt).

Lemma nova_16_shape : exists z s, run false (shape_inputs nova_16) st_init = (Ok z, s) /\ List.length z = 16%nat.
Proof. eexists _, _. split; [reflexivity | reflexivity]. Qed.
Lemma nova_16_new : forall z0, exists z s, run true (new_inputs nova_16 tt z0) st_init = (Ok z, s).
Proof.
  intros z0. unfold nova_16, new_inputs.
  assert (H : forall l s, exists z s', run true (mapM (fun p : nat * Z => ns (Nmi "z " (fst p) "") (an_alloc (Ok (snd p)))) l) s = (Ok z, s')).
  { induction l as [|p l IH]; intros s; cbn [mapM].
    - eexists _, _. reflexivity.
    - set (m := ns (Nmi "z " (fst p) "") (an_alloc (Ok (snd p)))).
      destruct (IH (snd (run true m s))) as (z & s' & Hz).
      eexists _, _. rewrite run_bind.
      replace (run true m s) with (Ok (mkAN (Some (snd p)) (next_var false (push_ns (Nmi "z " (fst p) "") s))), snd (run true m s)) by reflexivity.
      rewrite run_bind, Hz. reflexivity. }
  apply H.
Qed.
