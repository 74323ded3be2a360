(** C88: the hash the circuits compute is the SHA-256 of FIPS 180-4. *)
From Coq Require Import ZArith Bool List.
From Verif.Model Require Import Base Sha256 CS Bellpepper Util Poly Bignat Ints Median Difficulty.
From Verif.Spec Require Import Spec SpecHeader SpecSha.
From Verif.Proofs Require Import ShaP.
Import ListNotations.
Local Open Scope Z_scope.

(** On every message, whatever its length: constants, padding, schedule, rounds and chaining agree. *)
Theorem C88_sha256 : forall K H m p, round_constants K -> initial_hash H -> padding m p -> sha256 m = digest K H p.
Proof. exact top_sha256. Qed.
Print Assumptions C88_sha256.

(** The standard determines the constants and the padding. *)
Theorem C88_exists : (exists K, round_constants K) /\ (exists H, initial_hash H) /\ (forall m, exists! p, padding m p).
Proof. exact top_sha_exists. Qed.
Print Assumptions C88_exists.

(** Block hashes are that hash applied twice. *)
Theorem C88_sha256d : forall K H m d, round_constants K -> initial_hash H -> double_digest K H m d <-> d = sha256d m.
Proof. exact top_sha256d. Qed.
Print Assumptions C88_sha256d.

(** The previous-hash check accepts exactly the double SHA-256 of the block. *)
Theorem C88_prev_hash : forall (E : Env) (W : Wf E) K H blk hsh s, round_constants K -> initial_hash H ->
  good s -> List.length hsh = 4%nat ->
  exists s', run true (check_prev_hash blk hsh) s = (Ok tt, s') /\
    (sat (asg s') s' <-> double_digest K H (words_bits blk) (words_bits hsh)).
Proof. exact top_prev_hash_fips. Qed.
Print Assumptions C88_prev_hash.

(** The examples published with the standard: "abc" (one block), "abcdbcde...nopq" (two blocks). *)
Example C88_case : forall K H, round_constants K -> initial_hash H ->
  (forall p, padding (bytes_bits [97; 98; 99]) p -> List.length p = 512%nat /\ digest K H p =
     digest_words [0xba7816bf; 0x8f01cfea; 0x414140de; 0x5dae2223; 0xb00361a3; 0x96177a9c; 0xb410ff61; 0xf20015ad]) /\
  (forall p, padding (bytes_bits (flat_map (fun i => map (fun j => 97 + Z.of_nat (i + j)) (seq 0 4)) (seq 0 14))) p ->
     List.length p = 1024%nat /\ digest K H p =
     digest_words [0x248d6a61; 0xd20638b8; 0xe5c02693; 0x0c3e6039; 0xa33ce459; 0x64ff2167; 0xf6ecedd4; 0x19db06c1]).
Proof. exact C88_witness. Qed.
