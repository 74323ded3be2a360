(** C80: numbers moved between [Num] and [AllocatedNum]. *)
From Coq Require Import ZArith Bool List.
From Verif.Model Require Import Base CS Bellpepper Util Fields.
From Verif.Spec Require Import Spec.
From Verif.Proofs Require Import Prime NumP.
Import ListNotations.
Local Open Scope Z_scope.

(** In every satisfying assignment the allocated number has the value of the number it was made from. *)
Theorem C80_to_allocated_sound : forall (E : Env) wit n s a s' rho,
  run wit (as_sapling_allocated_num n) s = (Ok a, s') -> sat rho s' ->
  feval rho (lc_var (an_var a)) = feval rho (n_lc n).
Proof. exact @top_sapling_sound. Qed.
Print Assumptions C80_to_allocated_sound.

(** The honest conversion is satisfied and records the value. *)
Theorem C80_to_allocated_complete : forall (E : Env) n v s, good s -> num_at s n v ->
  exists a s', run true (as_sapling_allocated_num n) s = (Ok a, s') /\ good s' /\ an_at s' a v.
Proof. exact @top_sapling_complete. Qed.
Print Assumptions C80_to_allocated_complete.

(** The conversion restricts nothing: every satisfying assignment of what was there extends to it. *)
Theorem C80_to_allocated_exists : forall (E : Env) wit n s a s' rho0 v,
  good_for rho0 s -> carries_for rho0 s (n_lc n) v ->
  run wit (as_sapling_allocated_num n) s = (Ok a, s') ->
  exists rho, same_on s rho rho0 /\ sat rho s' /\ feval rho (lc_var (an_var a)) = v.
Proof. exact @top_sapling_exists. Qed.
Print Assumptions C80_to_allocated_exists.

(** Without a recorded value the prover gets an error, not a panic. *)
Theorem C80_to_allocated_missing : forall n s, n_val n = None ->
  fst (run true (as_sapling_allocated_num n) s) = Err AssignmentMissing.
Proof. exact top_sapling_missing. Qed.
Print Assumptions C80_to_allocated_missing.

(** An allocated number records and carries the value computed by the closure. *)
Theorem C80_alloc_complete : forall (E : Env) v s, good s -> canon v ->
  exists n s', run true (num_alloc (Ok v)) s = (Ok n, s') /\ good s' /\ num_at s' n v.
Proof. exact @top_num_alloc. Qed.
Print Assumptions C80_alloc_complete.

(** Allocation constrains nothing: the new number may have any value. *)
Theorem C80_alloc_free : forall (E : Env) wit w s n s' rho0 v, good_for rho0 s -> canon v ->
  run wit (num_alloc w) s = (Ok n, s') ->
  exists rho, same_on s rho rho0 /\ sat rho s' /\ feval rho (n_lc n) = v.
Proof. exact @top_num_alloc_free. Qed.
Print Assumptions C80_alloc_free.

(** Errors and panics of the closure are passed on. *)
Theorem C80_alloc_fails : forall e s,
  fst (run true (num_alloc (Err e)) s) = Err e /\ fst (run true (num_alloc Panic) s) = Panic.
Proof. exact top_num_alloc_fails. Qed.
Print Assumptions C80_alloc_fails.

(** The other direction keeps value and wire. *)
Theorem C80_from_allocated : forall (E : Env) s a v, an_at s a v -> num_at s (num_from a) v.
Proof. exact @top_num_from. Qed.
Print Assumptions C80_from_allocated.

Theorem C80_from_allocated_wire : forall (E : Env) rho a,
  feval rho (n_lc (num_from a)) = feval rho (lc_var (an_var a)).
Proof. exact @top_num_from_wire. Qed.
Print Assumptions C80_from_allocated_wire.

(** There and back: the sum of two numbers, allocated anew, then tampered with. *)
Example C80_case : let E := small_env 251 in
  let '(r, s) := run true (
     let! m := num_alloc (Ok 200) in let! n := num_alloc (Ok 100) in
     as_sapling_allocated_num (mkNum (lc_add (n_lc m) (n_lc n)) (Some 49))) st_init in
  match r with
  | Ok a => an_val a = Some 49 /\ satb (asg s) s = true /\
      satb (fun x => match x with VAux 2 => 50 | _ => asg s x end) s = false
  | _ => False
  end.
Proof. vm_compute. auto. Qed.
