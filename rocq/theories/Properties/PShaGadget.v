(** C89: the constraints of the SHA-256 gadget are exactly SHA-256. *)
From Coq Require Import ZArith Bool List.
From Verif.Model Require Import Base Fields Sha256 CS Bellpepper Util Poly Bignat ShaGadget.
From Verif.Spec Require Import Spec SpecSha.
From Verif.Proofs Require Import ShaInst ShaTop.
Import ListNotations.
Local Open Scope Z_scope.

(** Soundness: any assignment satisfying the constraints gives the outputs the digest of the inputs. *)
Theorem C89_sound : forall (E : Env) (W : Wf E) wit ins vs s outs s' rho,
  run wit (sha256_r1cs ins) s = (Ok outs, s') -> sat rho s' ->
  Forall2 (fun b v => feval rho (bool_lc b 1) = Z.b2z v) ins vs ->
  Forall2 (fun b v => feval rho (bool_lc b 1) = Z.b2z v) outs (sha256 vs).
Proof. exact @top_sha_sound. Qed.
Print Assumptions C89_sound.

(** The constraints therefore imply the single constraint that stands for the gadget in the rest of
    the model, whenever the inputs are bits. *)
Theorem C89_macro : forall (E : Env) (W : Wf E) wit ins s outs s' rho,
  run wit (sha256_r1cs ins) s = (Ok outs, s') -> sat rho s' ->
  Forall (fun b => feval rho (bool_lc b 1) = 0 \/ feval rho (bool_lc b 1) = 1) ins ->
  csat rho (ShaC (map (fun b => bool_lc b 1) ins) (map (fun b => bool_lc b 1) outs)).
Proof. exact @top_sha_macro. Qed.
Print Assumptions C89_macro.

(** Completeness: the honest prover never fails and its outputs are the digest. *)
Theorem C89_complete : forall (E : Env) (W : Wf E) ins vs s,
  good s -> (64 <= NUM_BITS)%nat -> (List.length ins mod 8 = 0)%nat -> Forall2 (boolean_at s) ins vs ->
  exists outs s', run true (sha256_r1cs ins) s = (Ok outs, s') /\ good s' /\ Forall2 (boolean_at s') outs (sha256 vs).
Proof. exact @top_sha_complete. Qed.
Print Assumptions C89_complete.

(** The gadget adds no condition on what came before: every satisfying assignment extends. *)
Theorem C89_extends : forall (E : Env) (W : Wf E) wit ins vs s outs s' rho0,
  good_for rho0 s -> (64 <= NUM_BITS)%nat ->
  Forall2 (fun b v => carries_for rho0 s (bool_lc b 1) (Z.b2z v)) ins vs ->
  run wit (sha256_r1cs ins) s = (Ok outs, s') ->
  exists rho, same_on s rho rho0 /\ good_for rho s' /\
    Forall2 (fun b v => carries_for rho s' (bool_lc b 1) (Z.b2z v)) outs (sha256 vs).
Proof. exact @top_sha_extends. Qed.
Print Assumptions C89_extends.

(** Parameter generation succeeds exactly on whole bytes. *)
Theorem C89_shape : forall (E : Env) (W : Wf E) ins s, (64 <= NUM_BITS)%nat ->
  (fst (run false (sha256_r1cs ins) s) = Panic <-> (List.length ins mod 8 <> 0)%nat) /\
  ((List.length ins mod 8 = 0)%nat -> exists outs s', run false (sha256_r1cs ins) s = (Ok outs, s')).
Proof. exact @top_sha_shape. Qed.
Print Assumptions C89_shape.

(** Twenty-four allocated bits spelling "abc", in the field of the example program. *)
Example C89_case : exists ins s outs s', @good (pallas_env true) s /\ (64 <= @NUM_BITS (pallas_env true))%nat /\ List.length ins = 24%nat /\
  Forall2 (@boolean_at (pallas_env true) s) ins (bytes_bits [97; 98; 99]) /\ @run _ true (@sha256_r1cs (pallas_env true) ins) s = (Ok outs, s') /\
  Forall2 (@boolean_at (pallas_env true) s') outs
    (digest_words [0xba7816bf; 0x8f01cfea; 0x414140de; 0x5dae2223; 0xb00361a3; 0x96177a9c; 0xb410ff61; 0xf20015ad]).
Proof. exact C89_witness. Qed.
