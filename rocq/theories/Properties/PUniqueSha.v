(** C103: the wires of the hash are determined by its input bits, and those of the previous-hash check by the block. *)
From Coq Require Import String ZArith Bool List.
From Verif.Model Require Import Base Fields Sha256 CS Bellpepper Util Poly Bignat Ints Median Difficulty HeaderStep ShaGadget RealHash.
From Verif.Spec Require Import Spec SpecHeader SpecSha SpecWires SpecUnique.
From Verif.Proofs Require Import Wp HeaderEx RealHashEx TopUniqueSha.
Import ListNotations.
Local Open Scope Z_scope.

(** The operations on bits: exclusive or, choice and majority. *)
Theorem C103_bits : forall (E : Env) wit a b c s o s' r1 r2,
  twice wit (bool_xor a b) s o s' r1 r2 \/ twice wit (bool_ch a b c) s o s' r1 r2 \/ twice wit (bool_maj a b c) s o s' r1 r2 ->
  made_of s (bool_lc a 1) -> made_of s (bool_lc b 1) -> made_of s (bool_lc c 1) ->
  alike s' r1 r2 /\ feval r1 (bool_lc o 1) = feval r2 (bool_lc o 1).
Proof. exact @top_unique_logic. Qed.
Print Assumptions C103_bits.

(** All wires of the hash of any number of bytes. *)
Theorem C103_hash : forall (E : Env) (W : Wf E) wit ins s outs s' r1 r2,
  twice wit (sha256_r1cs ins) s outs s' r1 r2 ->
  Forall (fun b => made_of s (bool_lc b 1)) ins ->
  Forall (fun b => feval r1 (bool_lc b 1) = 0 \/ feval r1 (bool_lc b 1) = 1) ins ->
  alike s' r1 r2 /\ Forall (fun b => feval r1 (bool_lc b 1) = feval r2 (bool_lc b 1)) outs.
Proof. exact @top_unique_hash. Qed.
Print Assumptions C103_hash.

(** With C89: an assignment of the input bits has exactly one completion. *)
Theorem C103_exactly_one : forall (E : Env) (W : Wf E) wit ins vs s outs s' rho0,
  good_for rho0 s -> (64 <= NUM_BITS)%nat ->
  Forall2 (fun b v => carries_for rho0 s (bool_lc b 1) (Z.b2z v)) ins vs ->
  Forall (fun b => made_of s (bool_lc b 1)) ins ->
  run wit (sha256_r1cs ins) s = (Ok outs, s') ->
  exists rho, same_on s rho rho0 /\ sat rho s' /\ forall rho', same_on s rho' rho0 -> sat rho' s' -> alike s' rho rho'.
Proof. exact @top_unique_one. Qed.
Print Assumptions C103_exactly_one.

(** The hash of the hash. *)
Theorem C103_double : forall (E : Env) (W : Wf E) wit nm1 nm2 ins s outs s' r1 r2,
  twice wit (let! d := unwrap_prog (ns nm1 (sha256_r1cs ins)) in unwrap_prog (ns nm2 (sha256_r1cs d))) s outs s' r1 r2 ->
  Forall (fun b => made_of s (bool_lc b 1)) ins ->
  Forall (fun b => feval r1 (bool_lc b 1) = 0 \/ feval r1 (bool_lc b 1) = 1) ins ->
  alike s' r1 r2 /\ Forall (fun b => feval r1 (bool_lc b 1) = feval r2 (bool_lc b 1)) outs.
Proof. exact @top_unique_double. Qed.
Print Assumptions C103_double.

(** The previous-hash check: the bits of the block determine everything but what is given of the hash beyond 256 bits. *)
Theorem C103_prev : forall (E : Env) (W : Wf E) wit blk hsh s s' r1 r2,
  twice wit (check_prev_hash_r1cs blk hsh) s tt s' r1 r2 ->
  let n := List.length (st_aux s) in
  Forall (fun x => fmk (r1 x) = fmk (r2 x)) (word_vars (n + 64 * List.length hsh) (List.length blk)) ->
  alike_but (skipn 256 (word_vars n (List.length hsh))) s' r1 r2.
Proof. exact @top_unique_prev. Qed.
Print Assumptions C103_prev.

Theorem C103_prev_all : forall (E : Env) (W : Wf E) wit blk hsh s s' r1 r2,
  twice wit (check_prev_hash_r1cs blk hsh) s tt s' r1 r2 -> (List.length hsh <= 4)%nat ->
  let n := List.length (st_aux s) in
  Forall (fun x => fmk (r1 x) = fmk (r2 x)) (word_vars (n + 64 * List.length hsh) (List.length blk)) -> alike s' r1 r2.
Proof. exact @top_unique_prev_all. Qed.
Print Assumptions C103_prev_all.

(** The hash determines everything, or else two different blocks with one double hash can be read off the two assignments. *)
Theorem C103_binding : forall (E : Env) (W : Wf E) wit blk hsh s s' r1 r2,
  twice wit (check_prev_hash_r1cs blk hsh) s tt s' r1 r2 -> List.length hsh = 4%nat ->
  let n := List.length (st_aux s) in
  Forall (fun x => fmk (r1 x) = fmk (r2 x)) (word_vars n 4) ->
  alike s' r1 r2 \/
  exists b1 b2, b1 <> b2 /\ sha256d b1 = sha256d b2 /\
    map (fun x => feval r1 (lc_var x)) (word_vars (n + 256) (List.length blk)) = map Z.b2z b1 /\
    map (fun x => feval r2 (lc_var x)) (word_vars (n + 256) (List.length blk)) = map Z.b2z b2.
Proof. exact @top_unique_binding. Qed.
Print Assumptions C103_binding.

(** "abc" over the Pallas field, and two different assignments (other representatives of the same residues). *)
Example C103_case : let E := pallas_env true in exists ins s outs s' r1 r2,
  twice true (sha256_r1cs ins) s outs s' r1 r2 /\ r1 <> r2 /\ List.length ins = 24%nat /\ Forall2 (boolean_at s) ins (bytes_bits [97; 98; 99]) /\
  good_for r1 s /\ (64 <= NUM_BITS)%nat /\ Forall2 (fun b v => carries_for r1 s (bool_lc b 1) (Z.b2z v)) ins (bytes_bits [97; 98; 99]) /\
  Forall (fun b => made_of s (bool_lc b 1)) ins /\
  Forall (fun b => feval r1 (bool_lc b 1) = 0 \/ feval r1 (bool_lc b 1) = 1) ins.
Proof. exact C103_witness. Qed.

(** Block 123456 and its hash. *)
Example C103_prev_case : let E := pallas_env true in exists s' r1 r2,
  twice true (check_prev_hash_r1cs block_123456 hash_123456) st_init tt s' r1 r2 /\ r1 <> r2 /\ List.length hash_123456 = 4%nat /\ List.length block_123456 = 10%nat /\
  Forall (fun x => fmk (r1 x) = fmk (r2 x)) (word_vars (List.length (st_aux st_init) + 64 * List.length hash_123456) (List.length block_123456)) /\
  Forall (fun x => fmk (r1 x) = fmk (r2 x)) (word_vars (List.length (st_aux st_init)) 4).
Proof. exact C103_prev_witness. Qed.
