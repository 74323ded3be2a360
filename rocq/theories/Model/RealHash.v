(** The circuits of prev_block_hash.rs and header_step.rs that hash, with the hash gadget as a
    parameter: [sha256_gadget] gives back the definitions of Model/Difficulty.v and
    Model/HeaderStep.v, [sha256_r1cs] the circuits with every constraint of the real gadget. *)
From Coq Require Import ZArith Bool String List.
From Verif.Model Require Import Base Sha256 CS Bellpepper Util Poly Bignat Ints Median Difficulty HeaderStep ShaGadget.
Import ListNotations.
Local Open Scope string_scope.
Local Open Scope Z_scope.
Local Open Scope list_scope.

Section RealHash.
Context {E : Env}.
Variable sha : list Boolean -> prog (list Boolean).

(** prev_block_hash.rs:7-35 [check_prev_hash]. *)
Definition check_prev_hash_by (prev_block prev_hash : list Z) : prog unit :=
  let! hash_vec := words_to_bits "dummy " prev_hash in
  let! preimage_vec := words_to_bits "dummy2 " prev_block in
  let! out_sha256 := unwrap_prog (ns (Nm "SHA 256") (sha preimage_vec)) in
  let! out := unwrap_prog (ns (Nm "SHA 256d") (sha out_sha256)) in
  iterM (fun p => ignore_err (ns (Nmi "bit " (fst p) "")
     (bool_enforce_equal (fst (snd p)) (snd (snd p)))))
    (combine (seq 0 (List.length (combine hash_vec out))) (combine hash_vec out)).

(** header_step.rs:190-247: stage 2, target, block hash and proof of work. *)
Definition stage_pow_by (header : list Z) : prog (quirk_bytes * allocated_num * allocated_num) :=
  let! h9 := lift (idx header 9) in
  let! n_bits := lift (u64_shr h9 32) in
  let! b := lift (split_bytes n_bits) in
  let! target := an_u "Block target" (target_closure b) in
  let! preimage := words_to_bits "dummy2 " header in
  let! out_sha256 := unwrap_prog (ns (Nm "SHA 256") (sha preimage)) in
  let! out := unwrap_prog (ns (Nm "SHA 256d") (sha out_sha256)) in
  let! curr_hash := an_u "current block hash" (hash_scalar out) in
  let! r := unwrap_prog (ns (Nm "Is PoW consensus achieved?") (less_than curr_hash target 224)) in
  let! _ := assert_true r in
  Ret (b, target, curr_hash).

(** header_step.rs:122-485 [synthesize], with the initial output vector as a parameter. *)
Definition synthesize_by (z_out : list allocated_num) (header : block_header)
    (z : list allocated_num) : prog (list allocated_num) :=
  let! _ := stage_prev_hash header z in
  let! (b, target, curr_hash) := stage_pow_by header in
  let! curr_timestamp := stage_time header z in
  let! block_work := stage_work target in
  let! (_, _, start_time_epoch) := stage_target_update b target z in
  stage_out z_out z curr_hash curr_timestamp target start_time_epoch block_work.
End RealHash.

(** The same with the constraints of the real gadget. *)
Section R1CS.
Context {E : Env}.
(** prev_block_hash.rs:7-35 with the constraints of the gadget. *)
Definition check_prev_hash_r1cs := check_prev_hash_by sha256_r1cs.
(** The proof-of-work stage of header_step.rs (see [stage_pow]) with the constraints of the gadget. *)
Definition stage_pow_r1cs := stage_pow_by sha256_r1cs.
(** header_step.rs [synthesize] (see Model/HeaderStep.v) with the constraints of the gadget. *)
Definition synthesize_r1cs := synthesize_by sha256_r1cs.
End R1CS.
