(** C114: headers reach the step as given; the example's block is a valid successor of the built-in state. *)
From Coq Require Import ZArith Bool List.
From Verif.Model Require Import Base Sha256 CS Bellpepper HeaderStep Driver Fields.
From Verif.Spec Require Import Spec SpecHeader SpecNext.
From Verif.Proofs Require Import Prime PrimeFields HeaderEx NextP.
Import ListNotations.
Local Open Scope Z_scope.

(** One header per block, in the same order, with the same words. *)
Theorem C114_blocks : forall bs, length (new_blocks bs) = length bs /\ forall i, nth_error (new_blocks bs) i = nth_error bs i.
Proof. exact blocks_kept. Qed.
Print Assumptions C114_blocks.

(** The default header is eighty zero bytes. *)
Theorem C114_default : header_ok default_header /\ header_bytes default_header = repeat 0 80.
Proof. exact default_zero. Qed.
Print Assumptions C114_default.

(** Over every field that can hold the initial state, the example's one block meets Bitcoin's conditions after that state; the
    step circuit panics on it in every state and run. *)
Theorem C114_valid_refuted : forall (E : Env), 2 ^ 207 <= modulus ->
  exists z h, initial_z_i_scalars = Ok z /\ new_blocks input = [h] /\ valid_next z h /\
    forall wit zs s, fst (run wit (synthesize h zs) s) = Panic.
Proof. exact @example_refused. Qed.
Print Assumptions C114_valid_refuted.

Example C114_case : new_blocks [block_123456; default_header] = [block_123456; default_header] /\ block_123456 <> default_header /\
  2 ^ 207 <= @modulus (pallas_env true).
Proof. split; [reflexivity|]. split; [discriminate|vm_compute; discriminate]. Qed.
