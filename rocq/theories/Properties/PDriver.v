(** C87: the example program. *)
From Coq Require Import ZArith Bool String List.
From Verif.Model Require Import Base CS Bellpepper HeaderStep Driver.
From Verif.Proofs Require Import DriverP.
Import ListNotations.
Local Open Scope string_scope.
Local Open Scope list_scope.

(** Whatever Nova does around the step circuit, the program prints its first line and panics. *)
Theorem C87_example_panics : forall (E : Env) N z s, run false (shape_inputs N) st_init = (Ok z, s) ->
  main N = (["Producing public parameters..."], Panic).
Proof. exact @top_main. Qed.
Print Assumptions C87_example_panics.

(** No circuit can be set up. *)
Theorem C87_setup_panics : forall (E : Env) N h z s, run false (shape_inputs N) st_init = (Ok z, s) -> setup N h = Panic.
Proof. exact @top_setup_panics. Qed.
Print Assumptions C87_setup_panics.

(** With parameters from elsewhere the first proof panics, for every list of blocks. *)
Theorem C87_prove_panics : forall (E : Env) N pp blocks,
  (forall z0, exists z s, run true (new_inputs N pp z0) st_init = (Ok z, s)) ->
  prove_all N pp blocks = (["Generating a RecursiveSNARK..."], Panic).
Proof. exact @top_prove_any. Qed.
Print Assumptions C87_prove_panics.

(** And so does every later step from a proof obtained elsewhere. *)
Theorem C87_step_panics : forall (E : Env) N pp rs h z s, run true (step_inputs N pp rs) st_init = (Ok z, s) ->
  prove_step N pp rs h = Panic.
Proof. exact @top_prove_step. Qed.
Print Assumptions C87_step_panics.

Example C87_case : (exists z s, run false (shape_inputs nova_16) st_init = (Ok z, s) /\ List.length z = 16%nat) /\
  (forall z0, exists z s, run true (new_inputs nova_16 tt z0) st_init = (Ok z, s)).
Proof. exact (conj nova_16_shape nova_16_new). Qed.
