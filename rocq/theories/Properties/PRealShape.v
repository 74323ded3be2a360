(** C91: one circuit for parameters and proof, with every constraint of the SHA-256 gadget. *)
From Coq Require Import ZArith Bool List.
From Verif.Model Require Import Base Fields Sha256 CS Bellpepper Util Poly Bignat Ints Median Difficulty HeaderStep ShaGadget RealHash.
From Verif.Spec Require Import Spec SpecHeader SpecShape SpecNames.
From Verif.Proofs Require Import Prime PrimeFields HeaderEx RealHashEx NamesP NamesG ShapeP ShaNames ShaShape ShaSetup ShaSizeEx.
Import ListNotations.
Local Open Scope Z_scope.

(** The hash gadget lays out the same variables, constraints and names for every input value. *)
Theorem C91_sha : forall (E : Env) ins1 ins2, Forall2 same_bool ins1 ins2 ->
  same_circuit (Forall2 same_bool) (sha256_r1cs ins1) (sha256_r1cs ins2).
Proof. exact (fun E l1 l2 H => sh_run _ _ _ (g_sha_r1cs l1 l2 H)). Qed.
Print Assumptions C91_sha.

(** So do the circuits that use it; only the numbers of words matter. *)
Theorem C91_check_prev_hash : forall (E : Env) blk1 blk2 hsh1 hsh2,
  List.length blk1 = List.length blk2 -> List.length hsh1 = List.length hsh2 ->
  same_circuit (fun _ _ => True) (check_prev_hash_r1cs blk1 hsh1) (check_prev_hash_r1cs blk2 hsh2).
Proof. exact (fun E b1 b2 h1 h2 Hb Hh => sh_run _ _ _ (g_check_prev_r1cs b1 b2 h1 h2 Hb Hh)). Qed.
Print Assumptions C91_check_prev_hash.
Theorem C91_stage_pow : forall (E : Env) h1 h2, List.length h1 = List.length h2 ->
  same_circuit (fun p q => same_an (snd (fst p)) (snd (fst q)) /\ same_an (snd p) (snd q)) (stage_pow_r1cs h1) (stage_pow_r1cs h2).
Proof. exact (fun E h1 h2 H => sh_run _ _ _ (g_pow_r1cs h1 h2 H)). Qed.
Print Assumptions C91_stage_pow.

(** Parameters for the previous-hash check can be generated from any block and hash. *)
Theorem C91_setup : forall (E : Env) (W : Wf E) blk hsh s, (64 <= NUM_BITS)%nat ->
  exists s', run false (check_prev_hash_r1cs blk hsh) s = (Ok tt, s').
Proof. exact (fun E W blk hsh s HN => top_prev_setup blk hsh s W HN). Qed.
Print Assumptions C91_setup.

(** In a [TestConstraintSystem] no two of the names collide. *)
Theorem C91_sha_names : forall (E : Env) ins, well_named (sha256_r1cs ins).
Proof. exact (fun E ins => tidy_well_named _ _ (n_sha_r1cs ins)). Qed.
Print Assumptions C91_sha_names.
Theorem C91_check_prev_hash_names : forall (E : Env) blk hsh, well_named (check_prev_hash_r1cs blk hsh).
Proof. exact (fun E b h => tidy_well_named _ _ (n_check_prev_r1cs b h)). Qed.
Print Assumptions C91_check_prev_hash_names.
Theorem C91_synthesize_names : forall (E : Env) o h z, well_named (synthesize_r1cs o h z).
Proof. exact (fun E o h z => tidy_well_named _ _ (n_synthesize_r1cs o h z)). Qed.
Print Assumptions C91_synthesize_names.

(** Setup on zeros, the honest run on block 123456 and one with a wrong hash: the same constraints. *)
Example C91_case : let E := pallas_env true in exists s1 s2 s3,
  run false (check_prev_hash_r1cs (repeat 0 10) (repeat 0 4)) st_init = (Ok tt, s1) /\
  run true (check_prev_hash_r1cs block_123456 hash_123456) st_init = (Ok tt, s2) /\
  run true (check_prev_hash_r1cs block_123456 [0; 0; 0; 0]) st_init = (Ok tt, s3) /\
  st_cons s1 = st_cons s2 /\ st_cons s2 = st_cons s3.
Proof. exact C91_prev_witness. Qed.
