(** C92: the exact size of the circuits that hash, in fields of 255 bits such as the Pallas scalar field. *)
From Coq Require Import ZArith NArith Bool List.
From Verif.Model Require Import Base Fields Sha256 CS Bellpepper Util Poly Bignat Ints Median Difficulty HeaderStep ShaGadget RealHash.
From Verif.Spec Require Import Spec SpecHeader SpecSize.
From Verif.Proofs Require Import PrimeFields HeaderEx RealHashEx ShaSizeStep ShaSizeEx.
Import ListNotations.

(** One block compressed: no input, 25814 variables and 25840 constraints. *)
Theorem C92_compress : forall (E : Env) ins, CAPACITY = 254 -> Forall (fun b => forall c, b <> BConst c) ins -> length ins = 512 ->
  has_size (sha_compress ins (map u_constant H0)) 0 (N.to_nat 25814) (N.to_nat 25840).
Proof. exact top_size_compress. Qed.
Print Assumptions C92_compress.

(** The hash of a header (two blocks) and of a digest (one block, half of it constant). *)
Theorem C92_sha_header : forall (E : Env) ins, CAPACITY = 254 -> Forall (fun b => forall c, b <> BConst c) ins -> length ins = 640 ->
  has_size (sha256_r1cs ins) 0 (N.to_nat 51140) (N.to_nat 51192).
Proof. exact top_size_sha_640. Qed.
Print Assumptions C92_sha_header.
Theorem C92_sha_digest : forall (E : Env) ins, CAPACITY = 254 -> Forall (fun b => forall c, b <> BConst c) ins -> length ins = 256 ->
  has_size (sha256_r1cs ins) 0 (N.to_nat 25218) (N.to_nat 25244).
Proof. exact top_size_sha_256. Qed.
Print Assumptions C92_sha_digest.

(** The previous-hash check of an 80-byte block and a 32-byte hash. *)
Theorem C92_check_prev_hash : forall (E : Env) blk hsh, CAPACITY = 254 -> length blk = 10 -> length hsh = 4 ->
  has_size (check_prev_hash_r1cs blk hsh) 0 (N.to_nat 77254) (N.to_nat 77588).
Proof. exact top_size_prev. Qed.
Print Assumptions C92_check_prev_hash.

(** The stages of the step up to the block work. *)
Theorem C92_stage_prev_hash : forall (E : Env) h z, has_size (stage_prev_hash h z) 0 261 262.
Proof. exact top_size_stage_prev. Qed.
Print Assumptions C92_stage_prev_hash.
Theorem C92_stage_pow : forall (E : Env) h, CAPACITY = 254 -> length h = 10 ->
  has_size (stage_pow_r1cs h) 0 (N.to_nat 77006) (N.to_nat 77082).
Proof. exact top_size_stage_pow. Qed.
Print Assumptions C92_stage_pow.
Theorem C92_stage_time : forall (E : Env) h z, has_size (stage_time h z) 0 194 187.
Proof. exact top_size_stage_time. Qed.
Print Assumptions C92_stage_time.
Theorem C92_stage_work : forall (E : Env) t, has_size (stage_work t) 0 2 1.
Proof. exact top_size_stage_work. Qed.
Print Assumptions C92_stage_work.

(** Block 123456 over the Pallas scalar field; a header accepted by the proof-of-work stage over
    another prime of 255 bits. *)
Example C92_case_prev : let E := pallas_env true in CAPACITY = 254 /\ length block_123456 = 10 /\ length hash_123456 = 4 /\
  exists s', run true (check_prev_hash_r1cs block_123456 hash_123456) st_init = (Ok tt, s') /\ sat (asg s') s' /\
  length (st_aux s') = N.to_nat 77254 /\ length (st_cons s') = N.to_nat 77588.
Proof. exact C92_prev_witness. Qed.
Example C92_case_pow : let E := window_env in CAPACITY = 254 /\ length window_header = 10 /\
  exists p s', run true (stage_pow_r1cs window_header) st_init = (Ok p, s') /\ good s' /\
  length (st_aux s') = N.to_nat 77006 /\ length (st_cons s') = N.to_nat 77082.
Proof. exact C92_pow_witness. Qed.
