(** C90: the circuits that hash, with every constraint of the SHA-256 gadget. *)
From Coq Require Import ZArith Bool List.
From Verif.Model Require Import Base Fields Sha256 CS Bellpepper Util Poly Bignat Ints Median Difficulty HeaderStep ShaGadget RealHash.
From Verif.Spec Require Import Spec SpecHeader SpecSha SpecWires.
From Verif.Proofs Require Import Prime PrimeFields HeaderBytes HeaderEx RealHashP PowHigh RealHashEx.
Import ListNotations.
Local Open Scope Z_scope.

(** The circuits below differ from those of C55-C75 in nothing but the hash gadget. *)
Theorem C90_same_text : forall (E : Env),
  (forall blk hsh, check_prev_hash_by sha256_gadget blk hsh = check_prev_hash blk hsh) /\
  (forall h, stage_pow_by sha256_gadget h = stage_pow h) /\
  (forall o h z, synthesize_by sha256_gadget o h z = synthesize_with o h z).
Proof. exact top_same_text. Qed.
Print Assumptions C90_same_text.

(** Soundness of the previous-hash check for every assignment: the bits of the hash words agree with
    the double SHA-256 of the bits of the block words. *)
Theorem C90_prev_hash_sound : forall (E : Env) (W : Wf E) wit blk hsh s s' rho,
  run wit (check_prev_hash_r1cs blk hsh) s = (Ok tt, s') -> sat rho s' ->
  let n := List.length (st_aux s) in
  exists hv bv, map (fun x => feval rho (lc_var x)) (word_vars n (List.length hsh)) = map Z.b2z hv /\
    map (fun x => feval rho (lc_var x)) (word_vars (n + 64 * List.length hsh) (List.length blk)) = map Z.b2z bv /\
    firstn 256 hv = firstn (64 * List.length hsh) (sha256d bv).
Proof. exact @top_real_prev_sound. Qed.
Print Assumptions C90_prev_hash_sound.

(** The honest run: satisfied exactly when the hash agrees on the shorter length. *)
Theorem C90_prev_hash_iff : forall (E : Env) (W : Wf E) blk hsh s,
  (64 <= NUM_BITS)%nat -> good s -> exists s', run true (check_prev_hash_r1cs blk hsh) s = (Ok tt, s') /\
  (sat (asg s') s' <-> firstn 256 (words_bits hsh) = firstn (64 * List.length hsh) (sha256d (words_bits blk))).
Proof. exact @top_real_prev_iff. Qed.
Print Assumptions C90_prev_hash_iff.

(** With four words: exactly the double hash of FIPS 180-4. *)
Theorem C90_prev_hash_fips : forall (E : Env) (W : Wf E) K H blk hsh s, round_constants K -> initial_hash H ->
  (64 <= NUM_BITS)%nat -> good s -> List.length hsh = 4%nat ->
  exists s', run true (check_prev_hash_r1cs blk hsh) s = (Ok tt, s') /\
    (sat (asg s') s' <-> double_digest K H (words_bits blk) (words_bits hsh)).
Proof. exact @top_real_prev_fips. Qed.
Print Assumptions C90_prev_hash_fips.

(** Block and hash remain the prover's choice. *)
Theorem C90_prev_hash_refuted : forall (E : Env) (W : Wf E) wit blk hsh s s' rho0,
  (64 <= NUM_BITS)%nat -> good_for rho0 s ->
  run wit (check_prev_hash_r1cs blk hsh) s = (Ok tt, s') -> exists rho, same_on s rho rho0 /\ sat rho s'.
Proof. exact @top_real_prev_free. Qed.
Print Assumptions C90_prev_hash_refuted.

(** Block 123456 and its hash; the same block and a wrong hash. *)
Example C90_prev_case : let E := pallas_env true in (64 <= @NUM_BITS E)%nat /\
  (exists s', run true (check_prev_hash_r1cs block_123456 hash_123456) st_init = (Ok tt, s') /\ sat (asg s') s') /\
  (exists s' rho, run true (check_prev_hash_r1cs block_123456 [0; 0; 0; 0]) st_init = (Ok tt, s') /\ ~ sat (asg s') s' /\ sat rho s').
Proof. exact C90_prev_witness. Qed.

(** The proof-of-work stage: the same exact condition, and the same headers rejected. *)
Theorem C90_pow_iff : forall (E : Env) (W : Wf E) h T s,
  good s -> header_ok h -> 2 ^ 228 <= modulus -> digest_int (sha256d (words_bits h)) < 2 ^ 255 ->
  (let? b := split_bytes (nth 9 h 0 / 2 ^ 32) in target_closure b) = Ok T ->
  ((exists p s', run true (stage_pow_r1cs h) s = (Ok p, s') /\ good s' /\ an_at s' (snd (fst p)) T /\
      an_at s' (snd p) (digest_int (sha256d (words_bits h)) mod modulus)) <->
   (digest_int (sha256d (words_bits h)) + 2 ^ 226 - T) mod modulus < 2 ^ 225) /\
  (~ (digest_int (sha256d (words_bits h)) + 2 ^ 226 - T) mod modulus < 2 ^ 225 -> fst (run true (stage_pow_r1cs h) s) = Panic).
Proof. exact @top_real_pow_iff. Qed.
Print Assumptions C90_pow_iff.
Theorem C90_pow_refuted : forall (E : Env) (W : Wf E) h s,
  good s -> header_ok h -> 2 ^ 228 <= modulus -> digest_int (sha256d (words_bits h)) < 2 ^ 255 ->
  digest_int (sha256d (words_bits h)) < modulus - 2 ^ 226 -> fst (run true (stage_pow_r1cs h) s) = Panic.
Proof. exact @top_real_pow_never. Qed.
Print Assumptions C90_pow_refuted.

(** Hashes of 2^255 and above, and every header of the checked profile. *)
Theorem C90_pow_high : forall (E : Env) (W : Wf E) h T s,
  good s -> header_ok h -> 2 ^ 228 <= modulus -> 2 ^ 255 <= digest_int (sha256d (words_bits h)) -> overflow_checks = false ->
  (let? b := split_bytes (nth 9 h 0 / 2 ^ 32) in target_closure b) = Ok T ->
  let v := digest_int (sha256d (words_bits h)) - 2 ^ 255 + 2 ^ 127 in
  ((exists p s', run true (stage_pow_r1cs h) s = (Ok p, s') /\ good s' /\ an_at s' (snd (fst p)) T /\ an_at s' (snd p) (v mod modulus)) <->
   (v + 2 ^ 226 - T) mod modulus < 2 ^ 225) /\
  (~ (v + 2 ^ 226 - T) mod modulus < 2 ^ 225 -> fst (run true (stage_pow_r1cs h) s) = Panic).
Proof. exact @top_real_pow_high. Qed.
Print Assumptions C90_pow_high.
Theorem C90_pow_checked : forall (E : Env) (W : Wf E) h s,
  good s -> header_ok h -> 2 ^ 228 <= modulus -> overflow_checks = true ->
  let H := digest_int (sha256d (words_bits h)) in let n := nbits_field h in
  let passes := n mod 2 ^ 16 = 0 /\ 3 <= n / 2 ^ 24 < 32 /\ H < 2 ^ 255 /\ modulus - 2 ^ 226 <= H mod modulus < modulus - 2 ^ 225 in
  ((exists p s', run true (stage_pow_r1cs h) s = (Ok p, s') /\ good s' /\ an_at s' (snd (fst p)) 0 /\ an_at s' (snd p) (H mod modulus)) <-> passes) /\
  (~ passes -> fst (run true (stage_pow_r1cs h) s) = Panic).
Proof. exact @top_real_pow_checked. Qed.
Print Assumptions C90_pow_checked.

(** Real hash constraints do not tie the hash used further on, or the target, to the header. *)
Theorem C90_pow_free_refuted : forall (E : Env) (W : Wf E) wit h T y s b target hash s' rho0,
  (64 <= NUM_BITS)%nat -> good_for rho0 s ->
  run wit (stage_pow_r1cs h) s = (Ok (b, target, hash), s') -> canon T -> canon y ->
  exists rho, same_on s rho rho0 /\ sat rho s' /\ feval rho (lc_var (an_var target)) = T /\ feval rho (lc_var (an_var hash)) = y.
Proof. exact @top_real_pow_free. Qed.
Print Assumptions C90_pow_free_refuted.
Example C90_pow_case : let E := proth_env true in
  exists b t h s', run true (stage_pow_r1cs easy_header) st_init = (Ok (b, t, h), s') /\ good s' /\
  exists rho, sat rho s' /\ feval rho (lc_var (an_var t)) = 12345 /\ feval rho (lc_var (an_var h)) = 1.
Proof. exact C90_pow_witness. Qed.

(** The step still never returns. *)
Theorem C90_synthesize_refuted : forall (E : Env) wit h z s, fst (run wit (synthesize_r1cs [] h z) s) = Panic.
Proof. exact @top_real_synthesize. Qed.
Print Assumptions C90_synthesize_refuted.
