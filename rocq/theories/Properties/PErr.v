(** C93: no error leaves the validation functions. *)
From Coq Require Import ZArith Bool String List.
From Verif.Model Require Import Base Fields Sha256 CS Bellpepper Util Poly Bignat Ints Median Difficulty HeaderStep ShaGadget RealHash.
From Verif.Spec Require Import Spec SpecErr.
From Verif.Proofs Require Import ErrP.
Import ListNotations.
Local Open Scope Z_scope.

(** Whatever the inputs, in setup and in proving, the call succeeds or panics; it never returns a [SynthesisError]. *)
Theorem C93_less_than : forall (E : Env) a b n, never_errs (less_than a b n).
Proof. exact (fun E a b n => nf_never _ hasb (fun wit => nf_less_than wit a b n)). Qed.
Print Assumptions C93_less_than.
Theorem C93_leq : forall (E : Env) a b n, never_errs (leq a b n).
Proof. exact (fun E a b n => nf_never _ hasb (fun wit => nf_leq wit a b n)). Qed.
Print Assumptions C93_leq.
Theorem C93_verify_median_timestamp : forall (E : Env) ts m, never_errs (verify_median_timestamp ts m).
Proof. exact (fun E ts m => nf_never _ (fun _ _ => True) (fun wit => nf_verify_median wit ts m)). Qed.
Print Assumptions C93_verify_median_timestamp.
Theorem C93_verify_current_hash : forall (E : Env) hu hl tu tl, never_errs (verify_current_hash hu hl tu tl).
Proof. exact (fun E a b c d => nf_never _ (fun _ _ => True) (fun wit => nf_current_hash wit a b c d)). Qed.
Print Assumptions C93_verify_current_hash.
Theorem C93_verify_difficulty_update : forall (E : Env) cu cl pu pl t, never_errs (verify_difficulty_update cu cl pu pl t).
Proof. exact (fun E a b c d t => nf_never _ (fun _ _ => True) (fun wit => nf_verify_difficulty wit a b c d t)). Qed.
Print Assumptions C93_verify_difficulty_update.
Theorem C93_calculate_difficulty_update : forall (E : Env) p t, never_errs (calculate_difficulty_update p t).
Proof. exact (fun E p t => nf_never _ (fun _ _ => True) (fun wit => nf_calculate wit p t)). Qed.
Print Assumptions C93_calculate_difficulty_update.
Theorem C93_check_prev_hash : forall (E : Env) blk hsh,
  never_errs (check_prev_hash blk hsh) /\ never_errs (check_prev_hash_r1cs blk hsh).
Proof. exact (fun E blk hsh => conj (nf_never _ (fun _ _ => True) (fun wit => nf_check_prev sha256_gadget wit blk hsh)) (nf_never _ (fun _ _ => True) (fun wit => nf_check_prev sha256_r1cs wit blk hsh))). Qed.
Print Assumptions C93_check_prev_hash.
(** The step is declared to return [Result<Vec<AllocatedNum<F>>, SynthesisError>]; the error case is never used. *)
Theorem C93_synthesize : forall (E : Env) h z, never_errs (synthesize h z).
Proof. exact (fun E h z => nf_never _ (fun _ _ => True) (fun wit => nf_synthesize sha256_gadget wit [] h z)). Qed.
Print Assumptions C93_synthesize.
Theorem C93_synthesize_with : forall (E : Env) o h z,
  never_errs (synthesize_with o h z) /\ never_errs (synthesize_r1cs o h z).
Proof. exact (fun E o h z => conj (nf_never _ (fun _ _ => True) (fun wit => nf_synthesize sha256_gadget wit o h z)) (nf_never _ (fun _ _ => True) (fun wit => nf_synthesize sha256_r1cs wit o h z))). Qed.
Print Assumptions C93_synthesize_with.

(** The gadgets underneath do return errors: [equals] on a number without a value, [from_num] on a number that
    does not fit its limbs.  The functions that use them panic instead. *)
Example C93_case : let E := pallas_env true in
  let a := mkAN None (VAux 0) in let b := mkAN (Some 5) (VAux 1) in let t := mkAN (Some (2 ^ 64)) (VAux 2) in
  fst (run true (equals a b) st_init) = Err AssignmentMissing /\
  fst (run true (less_than a b 64) st_init) = Panic /\ fst (run true (leq a b 64) st_init) = Panic /\
  fst (run true (from_num (num_from t) 64 1) st_init) = Err IoError /\
  fst (run true (calculate_difficulty_update b t) st_init) = Panic /\
  fst (run false (calculate_difficulty_update b t) st_init) = Panic.
Proof. vm_compute. auto 8. Qed.
