(** C52-C55, C72: difficulty update, target comparison and previous-hash check. *)
From Coq Require Import ZArith Bool List.
From Verif.Model Require Import Base Sha256 CS Bellpepper Util Poly Bignat Ints Median Difficulty Fields.
From Verif.Spec Require Import Spec SpecHeader.
From Verif.Proofs Require Import Prime PrimeFields TopDifficulty HashP Panics DifficultyEx HashFree.
Import ListNotations.
Local Open Scope Z_scope.

(** The honest run returns floor(T*t/1209600), in five 64-bit limbs. *)
Theorem C52_calculate_complete : forall (E : Env) (W : Wf E) prev ts T t s,
  good s -> an_at s prev T -> an_at s ts t -> 302400 < t < 4838400 -> T * t / (2016 * 10 * 60) < 2 ^ 256 ->
  (194 <= CAPACITY <= 255)%nat -> exact_carries ((2 ^ 64 - 1) * 2 ^ 128) 64 ->
  exists b s' vs, run true (calculate_difficulty_update prev ts) s = (Ok b, s') /\ good s' /\ bignat_at s' b vs /\
    limb_width (bparams b) = 64%nat /\ List.length (limbs b) = 5%nat /\ value b = Some (T * t / (2016 * 10 * 60)).
Proof. exact @top_calculate. Qed.
Print Assumptions C52_calculate_complete.

(** Every other span panics, both boundaries included. *)
Theorem C52_calculate_panics : forall (E : Env) (W : Wf E) prev ts t s,
  good s -> an_at s ts t -> 2 ^ 64 <= modulus ->
  ~ (302400 < t < 4838400) -> fst (run true (calculate_difficulty_update prev ts) s) = Panic.
Proof. exact @top_calculate_panics. Qed.
Print Assumptions C52_calculate_panics.

(** What the constraints guarantee: the result is a quotient by some divisor chosen by the prover. *)
Theorem C52_calculate_sound : forall (E : Env) (W : Wf E) wit prev ts s b s' rho,
  run wit (calculate_difficulty_update prev ts) s = (Ok b, s') -> sat rho s' ->
  (194 <= CAPACITY <= 255)%nat -> exact_carries ((2 ^ 64 - 1) * 2 ^ 128) 64 ->
  limb_width (bparams b) = 64%nat /\ Forall (fun v => 0 <= v < 2 ^ 64) (wires rho (limbs b)) /\
  exists T d r, T mod modulus = feval rho (lc_var (an_var prev)) /\
    0 <= T < 2 ^ 256 /\ 0 <= d < 2 ^ 128 /\ 0 <= r < 2 ^ 64 /\ feval rho (lc_var (an_var ts)) < 2 ^ 64 /\
    T * feval rho (lc_var (an_var ts)) = int_of rho b * d + r.
Proof. exact @top_calculate_sound. Qed.
Print Assumptions C52_calculate_sound.

(** The divisor is not enforced: for every d the quotient by d satisfies the constraints emitted by the honest run,
    with the same target and span wires. *)
Theorem C52_calculate_divisor_refuted : forall (E : Env) (W : Wf E) prev ts T t d s b s',
  good s -> an_at s prev T -> an_at s ts t -> run true (calculate_difficulty_update prev ts) s = (Ok b, s') ->
  0 < d <= 2 ^ 64 -> T * t / d < 2 ^ 256 ->
  (194 <= CAPACITY <= 255)%nat -> exact_carries ((2 ^ 64 - 1) * 2 ^ 128) 64 ->
  exists rho, same_on s rho (asg s) /\ sat rho s' /\ int_of rho b = T * t / d.
Proof. exact @top_calculate_any. Qed.
Print Assumptions C52_calculate_divisor_refuted.

(** Cases that meet the hypotheses, in the Pallas scalar field; the last one returns 1000 * 1209600. *)
Example C52_case : let E := pallas_env true in
  exists b s', run true (
     let! target := an_alloc (Ok 1000) in
     let! span := an_alloc (Ok 1209601) in
     calculate_difficulty_update target span) st_init = (Ok b, s') /\ good s' /\ value b = Some 1000.
Proof. exact C52_witness. Qed.
Example C52_panic_case : let E := pallas_env true in
  fst (run true (
     let! target := an_alloc (Ok 1000) in
     let! span := an_alloc (Ok 302400) in
     calculate_difficulty_update target span) st_init) = Panic.
Proof. exact C52_panic_witness. Qed.
Example C52_divisor_case : let E := pallas_env true in
  exists b s' rho, run true (
     let! target := an_alloc (Ok 1000) in
     let! span := an_alloc (Ok 1209600) in
     calculate_difficulty_update target span) st_init = (Ok b, s') /\ value b = Some 1000 /\ sat rho s' /\ int_of rho b = 1209600000.
Proof. exact C52_any_witness. Qed.

(** In the honest run the constraints hold exactly for the floor quotient. *)
Theorem C53_verify_iff : forall (E : Env) (W : Wf E) cu cl pu pl t s,
  good s -> 0 <= cu < 2 ^ 128 -> 0 <= cl < 2 ^ 128 -> 0 <= pu < 2 ^ 128 -> 0 <= pl < 2 ^ 128 -> 302400 < t < 4838400 ->
  (194 <= CAPACITY <= 255)%nat -> exact_carries ((2 ^ 64 - 1) * (2 ^ 65 - 1)) 64 ->
  exists s', run true (verify_difficulty_update cu cl pu pl t) s = (Ok tt, s') /\
    (sat (asg s') s' <-> cu * 2 ^ 128 + cl = (pu * 2 ^ 128 + pl) * t / (2016 * 10 * 60)).
Proof. exact @top_verify_iff. Qed.
Print Assumptions C53_verify_iff.

(** Every other span panics. *)
Theorem C53_verify_panics : forall (E : Env) (W : Wf E) cu cl pu pl t s,
  good s -> 2 ^ 64 <= modulus -> 0 <= t < 2 ^ 64 -> ~ (302400 < t < 4838400) ->
  fst (run true (verify_difficulty_update cu cl pu pl t) s) = Panic.
Proof. exact @top_verify_panics. Qed.
Print Assumptions C53_verify_panics.

(** Targets, span and divisor are all chosen by the prover: whatever was verified, the constraints are satisfiable. *)
Theorem C53_verify_unenforced_refuted : forall (E : Env) (W : Wf E) cu cl pu pl t s s' rho0,
  good_for rho0 s -> run true (verify_difficulty_update cu cl pu pl t) s = (Ok tt, s') ->
  (194 <= CAPACITY <= 255)%nat -> exact_carries ((2 ^ 64 - 1) * (2 ^ 65 - 1)) 64 ->
  exists rho, same_on s rho rho0 /\ sat rho s'.
Proof. exact @top_verify_unenforced. Qed.
Print Assumptions C53_verify_unenforced_refuted.

(** A correct update is accepted; an incorrect one is rejected by the honest assignment but not by every assignment. *)
Example C53_case : let E := pallas_env true in
  exists s', run true (verify_difficulty_update 7 5 7 5 1209600) st_init = (Ok tt, s') /\ sat (asg s') s' /\
  exists s2 rho, run true (verify_difficulty_update 8 5 7 5 1209600) st_init = (Ok tt, s2) /\ ~ sat (asg s2) s2 /\ sat rho s2.
Proof. exact C53_witness. Qed.

(** hash < target is computed correctly when the compared halves are not more than 2^127 apart. *)
Theorem C54_hash_below_target : forall (E : Env) (W : Wf E) hu hl tu tl s,
  good s -> 0 <= hu < 2 ^ 128 -> 0 <= hl < 2 ^ 128 -> 0 <= tu < 2 ^ 128 -> 0 <= tl < 2 ^ 128 -> 2 ^ 130 < modulus ->
  tu - hu <= 2 ^ 127 -> (hu = tu -> tl - hl <= 2 ^ 127) ->
  exists r s', run true (verify_current_hash hu hl tu tl) s = (Ok r, s') /\ good s' /\
    boolean_at s' r (hu * 2 ^ 128 + hl <? tu * 2 ^ 128 + tl).
Proof. exact @top_hash_near. Qed.
Print Assumptions C54_hash_below_target.

(** A positive answer is always right. *)
Theorem C54_hash_positive : forall (E : Env) (W : Wf E) hu hl tu tl s r s',
  good s -> 0 <= hu < 2 ^ 128 -> 0 <= hl < 2 ^ 128 -> 0 <= tu < 2 ^ 128 -> 0 <= tl < 2 ^ 128 -> 2 ^ 130 < modulus ->
  run true (verify_current_hash hu hl tu tl) s = (Ok r, s') -> bool_val r = Some true -> hu * 2 ^ 128 + hl < tu * 2 ^ 128 + tl.
Proof. exact @top_hash_one_sided. Qed.
Print Assumptions C54_hash_positive.

(** A hash far below the target is rejected. *)
Theorem C54_hash_far_refuted : forall (E : Env) (W : Wf E) hu hl tu tl s,
  good s -> 0 <= hu -> 0 <= hl < 2 ^ 128 -> tu < 2 ^ 128 -> 0 <= tl < 2 ^ 128 -> 2 ^ 130 < modulus ->
  2 ^ 127 < tu - hu ->
  hu * 2 ^ 128 + hl < tu * 2 ^ 128 + tl /\
  exists r s', run true (verify_current_hash hu hl tu tl) s = (Ok r, s') /\ good s' /\ boolean_at s' r false.
Proof. exact @top_hash_wrong. Qed.
Print Assumptions C54_hash_far_refuted.

(** The answer on every pair of hash and target. *)
Theorem C54_hash_exact : forall (E : Env) (W : Wf E) hu hl tu tl s,
  good s -> 0 <= hu < 2 ^ 128 -> 0 <= hl < 2 ^ 128 -> 0 <= tu < 2 ^ 128 -> 0 <= tl < 2 ^ 128 -> 2 ^ 130 < modulus ->
  exists r s' v, run true (verify_current_hash hu hl tu tl) s = (Ok r, s') /\ good s' /\ boolean_at s' r v /\
    (v = true <-> hu < tu <= hu + 2 ^ 127 \/ (hu = tu /\ hl < tl <= hl + 2 ^ 127)).
Proof. exact @top_hash_total. Qed.
Print Assumptions C54_hash_exact.

(** The circuit enforces none of it: with the wires of hash and target holding the values given, both answers
    satisfy every constraint. *)
Theorem C54_hash_unenforced_refuted : forall (E : Env) (W : Wf E) hu hl tu tl x s r s',
  good s -> run true (verify_current_hash hu hl tu tl) s = (Ok r, s') ->
  exists rho, same_on s rho (asg s) /\ sat rho s' /\ feval rho (bool_lc r 1) = Z.b2z x /\
    map (fun k => rho (VAux (List.length (st_aux s) + k)%nat)) [0; 1; 2; 3]%nat = map (fun v => v mod modulus) [hu; hl; tu; tl].
Proof. exact @top_hash_free. Qed.
Print Assumptions C54_hash_unenforced_refuted.

Example C54_free_case : let E := pallas_env true in
  exists r s' rho, run true (verify_current_hash 0 5 0 4) st_init = (Ok r, s') /\ boolean_at s' r false /\ sat rho s' /\
    feval rho (bool_lc r 1) = 1 /\ map (fun k => rho (VAux k)) [0; 1; 2; 3]%nat = [0; 5; 0; 4].
Proof. exact C54_free_witness. Qed.

Example C54_case : let E := pallas_env true in
  (exists r s', run true (verify_current_hash 3 9 4 1) st_init = (Ok r, s') /\ good s' /\ boolean_at s' r true) /\
  (exists r s', run true (verify_current_hash 0 0 (2 ^ 128 - 1) 0) st_init = (Ok r, s') /\ good s' /\ boolean_at s' r false).
Proof. exact C54_witness. Qed.

(** In the honest run the constraints hold exactly when the hash agrees with SHA256(SHA256(block)) on the shorter length. *)
Theorem C55_prev_hash_iff : forall (E : Env) (W : Wf E) blk hsh s,
  good s -> exists s', run true (check_prev_hash blk hsh) s = (Ok tt, s') /\
  (sat (asg s') s' <-> firstn 256 (words_bits hsh) = firstn (64 * List.length hsh) (sha256d (words_bits blk))).
Proof. exact @top_prev_hash_iff. Qed.
Print Assumptions C55_prev_hash_iff.

(** With four words: exactly when the hash is the right one. *)
Theorem C55_prev_hash_whole : forall (E : Env) (W : Wf E) blk hsh s,
  good s -> List.length hsh = 4%nat ->
  exists s', run true (check_prev_hash blk hsh) s = (Ok tt, s') /\ (sat (asg s') s' <-> words_bits hsh = sha256d (words_bits blk)).
Proof. exact @C55_whole. Qed.
Print Assumptions C55_prev_hash_whole.

(** With no words every block is accepted. *)
Theorem C55_prev_hash_empty : forall (E : Env) (W : Wf E) blk s,
  good s -> exists s', run true (check_prev_hash blk []) s = (Ok tt, s') /\ sat (asg s') s'.
Proof. exact @C55_empty. Qed.
Print Assumptions C55_prev_hash_empty.

(** Block and hash are both chosen by the prover: whatever was checked, the constraints are satisfiable. *)
Theorem C55_prev_hash_unenforced_refuted : forall (E : Env) (W : Wf E) wit blk hsh s s' rho0,
  good_for rho0 s ->
  run wit (check_prev_hash blk hsh) s = (Ok tt, s') -> exists rho, same_on s rho rho0 /\ sat rho s'.
Proof. exact @top_prev_hash_unenforced. Qed.
Print Assumptions C55_prev_hash_unenforced_refuted.

(** Block 123456: the header in examples/validate_header.rs and its hash. *)
Example C55_block_123456 :
  words_bits [0xcac383cdf62f68ef; 0xaa8064e35f6fc4df; 0xc8aa74610c6580ed; 0x1729000000000000] =
  sha256d (words_bits
    [0x010000009500c43a; 0x25c624520b5100ad; 0xf82cb9f9da72fd24; 0x47a496bc600b0000; 0x000000006cd86237;
     0x0395dedf1da2841c; 0xcda0fc489e3039de; 0x5f1ccddef0e83499; 0x1a65600ea6c8cb4d; 0xb3936a1ae3143991]).
Proof. vm_compute. reflexivity. Qed.
Example C55_case : let E := pallas_env true in
  exists s' rho, run true (check_prev_hash [0] [0]) st_init = (Ok tt, s') /\ sat rho s'.
Proof. exact C55_witness. Qed.

(** Without witnesses the difficulty functions panic. *)
Theorem C72_calculate_shape : forall (E : Env) prev ts s,
  fst (run false (calculate_difficulty_update prev ts) s) = Panic.
Proof. exact @top_calculate_shape. Qed.
Print Assumptions C72_calculate_shape.

Theorem C72_verify_shape : forall (E : Env) cu cl pu pl t s,
  fst (run false (verify_difficulty_update cu cl pu pl t) s) = Panic.
Proof. exact @top_verify_shape. Qed.
Print Assumptions C72_verify_shape.

Example C72_case : let E := small_env 251 in
  fst (run false (verify_difficulty_update 0 0 0 0 1209600) st_init) = Panic.
Proof. vm_compute. reflexivity. Qed.
