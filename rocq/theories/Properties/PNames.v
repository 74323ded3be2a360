(** C78: no gadget uses a name twice, so running one in bellpepper's test constraint system never panics on a name. *)
From Coq Require Import ZArith Bool String List.
From Verif.Model Require Import Base CS TestCS Bellpepper Util Poly Bignat Gadget Ints Median Difficulty HeaderStep Fields.
From Verif.Spec Require Import SpecNames.
From Verif.Proofs Require Import NamesG TopNames.
Import ListNotations.
Local Open Scope string_scope.
Local Open Scope Z_scope.
Local Open Scope list_scope.

Theorem C78_fits_in_bits : forall (E : Env) n k, well_named (fits_in_bits n k).
Proof. exact (fun E n k => tidy_well_named _ _ (n_fits n k)). Qed.
Print Assumptions C78_fits_in_bits.

Theorem C78_num_decompose : forall (E : Env) n k, well_named (num_decompose n k).
Proof. exact (fun E n k => tidy_well_named _ _ (n_num_decompose n k)). Qed.
Print Assumptions C78_num_decompose.

Theorem C78_num_is_equal : forall (E : Env) n v, well_named (num_is_equal n v).
Proof. exact (fun E n v => tidy_well_named _ _ (n_num_is_equal n v)). Qed.
Print Assumptions C78_num_is_equal.

Theorem C78_as_sapling : forall (E : Env) n, well_named (as_sapling_allocated_num n).
Proof. exact (fun E n => tidy_well_named _ _ (n_sapling n)). Qed.
Print Assumptions C78_as_sapling.

Theorem C78_num_alloc : forall (E : Env) w, well_named (num_alloc w).
Proof. exact (fun E w => tidy_well_named _ _ (n_num_alloc w)). Qed.
Print Assumptions C78_num_alloc.

Theorem C78_bit_alloc : forall (E : Env) w, well_named (bit_alloc w).
Proof. exact (fun E w => tidy_well_named _ _ (n_bit_alloc w)). Qed.
Print Assumptions C78_bit_alloc.

Theorem C78_constrain_value : forall (E : Env) b v, well_named (bit_constrain_value b v).
Proof. exact (fun E b v => tidy_well_named _ _ (n_constrain b v)). Qed.
Print Assumptions C78_constrain_value.

Theorem C78_alloc_product : forall (E : Env) a b, well_named (alloc_product a b).
Proof. exact (fun E a b => tidy_well_named _ _ (n_product a b)). Qed.
Print Assumptions C78_alloc_product.

Theorem C78_alloc_from_limbs : forall (E : Env) f mw w n, well_named (alloc_from_limbs f mw w n).
Proof. exact (fun E f mw w n => tidy_well_named _ _ (n_alloc_from_limbs f mw w n)). Qed.
Print Assumptions C78_alloc_from_limbs.

Theorem C78_alloc_from_nat : forall (E : Env) f w n, well_named (alloc_from_nat f w n).
Proof. exact (fun E f w n => tidy_well_named _ _ (n_alloc_from_nat f w n)). Qed.
Print Assumptions C78_alloc_from_nat.

Theorem C78_from_num : forall (E : Env) n w k, well_named (from_num n w k).
Proof. exact (fun E n w k => tidy_well_named _ _ (n_from_num n w k)). Qed.
Print Assumptions C78_from_num.

Theorem C78_inputize : forall (E : Env) b, well_named (bn_inputize b).
Proof. exact (fun E b => tidy_well_named _ _ (n_inputize b)). Qed.
Print Assumptions C78_inputize.

Theorem C78_equal : forall (E : Env) a b, well_named (equal a b).
Proof. exact (fun E a b => tidy_well_named _ _ (n_equal a b)). Qed.
Print Assumptions C78_equal.

Theorem C78_equals : forall (E : Env) a b, well_named (equals a b).
Proof. exact (fun E a b => tidy_well_named _ _ (n_equals a b)). Qed.
Print Assumptions C78_equals.

Theorem C78_is_equal : forall (E : Env) a b, well_named (is_equal a b).
Proof. exact (fun E a b => tidy_well_named _ _ (n_is_equal a b)). Qed.
Print Assumptions C78_is_equal.

Theorem C78_assert_well_formed : forall (E : Env) b, well_named (assert_well_formed b).
Proof. exact (fun E b => tidy_well_named _ _ (n_well_formed b)). Qed.
Print Assumptions C78_assert_well_formed.

Theorem C78_decompose : forall (E : Env) b, well_named (bn_decompose b).
Proof. exact (fun E b => tidy_well_named _ _ (n_decompose b)). Qed.
Print Assumptions C78_decompose.

Theorem C78_enforce_full_bits : forall (E : Env) b, well_named (enforce_full_bits b).
Proof. exact (fun E b => tidy_well_named _ _ (n_full_bits b)). Qed.
Print Assumptions C78_enforce_full_bits.

Theorem C78_enforce_min_bits : forall (E : Env) b k, well_named (enforce_min_bits b k).
Proof. exact (fun E b k => tidy_well_named _ _ (n_min_bits b k)). Qed.
Print Assumptions C78_enforce_min_bits.

Theorem C78_equal_when_carried : forall (E : Env) a b, well_named (equal_when_carried a b).
Proof. exact (fun E a b => tidy_well_named _ _ (n_carried a b)). Qed.
Print Assumptions C78_equal_when_carried.

Theorem C78_equal_when_carried_regroup : forall (E : Env) a b, well_named (equal_when_carried_regroup a b).
Proof. exact (fun E a b => tidy_well_named _ _ (n_regroup a b)). Qed.
Print Assumptions C78_equal_when_carried_regroup.

Theorem C78_verify_mult : forall (E : Env) a b p, well_named (verify_mult a b p).
Proof. exact (fun E a b p => tidy_well_named _ _ (n_verify_mult a b p)). Qed.
Print Assumptions C78_verify_mult.

Theorem C78_divides : forall (E : Env) a b, well_named (divides a b).
Proof. exact (fun E a b => tidy_well_named _ _ (n_divides a b)). Qed.
Print Assumptions C78_divides.

Theorem C78_sub : forall (E : Env) a b, well_named (sub a b).
Proof. exact (fun E a b => tidy_well_named _ _ (n_sub a b)). Qed.
Print Assumptions C78_sub.

Theorem C78_mult : forall (E : Env) a b, well_named (mult a b).
Proof. exact (fun E a b => tidy_well_named _ _ (n_mult a b)). Qed.
Print Assumptions C78_mult.

Theorem C78_assert_product_mod : forall (E : Env) a b m r, well_named (assert_product_mod a b m r).
Proof. exact (fun E a b m r => tidy_well_named _ _ (n_assert_product_mod a b m r)). Qed.
Print Assumptions C78_assert_product_mod.

Theorem C78_mult_mod : forall (E : Env) a b m, well_named (mult_mod a b m).
Proof. exact (fun E a b m => tidy_well_named _ _ (n_mult_mod a b m)). Qed.
Print Assumptions C78_mult_mod.

Theorem C78_red_mod : forall (E : Env) a m, well_named (red_mod a m).
Proof. exact (fun E a m => tidy_well_named _ _ (n_red_mod a m)). Qed.
Print Assumptions C78_red_mod.

Theorem C78_min : forall (E : Env) a b, well_named (bn_min a b).
Proof. exact (fun E a b => tidy_well_named _ _ (n_bn_min a b)). Qed.
Print Assumptions C78_min.

Theorem C78_gadget_inputize : forall (E : Env) b, well_named (gadget_inputize b).
Proof. exact (fun E b => tidy_well_named _ _ (n_gadget_inputize b)). Qed.
Print Assumptions C78_gadget_inputize.

Theorem C78_as_nums : forall (E : Env) b, well_named (as_nums b).
Proof. exact (fun E b => tidy_well_named _ _ (n_as_nums b)). Qed.
Print Assumptions C78_as_nums.

Theorem C78_mux : forall (E : Env) s a b, well_named (mux s a b).
Proof. exact (fun E s a b => tidy_well_named _ _ (n_mux s a b)). Qed.
Print Assumptions C78_mux.

Theorem C78_mux_default : forall (E : Env) s a b, well_named (mux_default s a b).
Proof. exact (fun E s a b => tidy_well_named _ _ (n_mux_default s a b)). Qed.
Print Assumptions C78_mux_default.

Theorem C78_mux_tree : forall (E : Env) bits l, well_named (mux_tree bits l).
Proof. exact (fun E bits l => tidy_well_named _ _ (n_mux_tree bits l)). Qed.
Print Assumptions C78_mux_tree.

Theorem C78_switch : forall (E : Env) s a b, well_named (switch s a b).
Proof. exact (fun E s a b => tidy_well_named _ _ (n_switch s a b)). Qed.
Print Assumptions C78_switch.

Theorem C78_assert_equal : forall (E : Env) a b, well_named (assert_equal a b).
Proof. exact (fun E a b => tidy_well_named _ _ (n_assert_equal a b)). Qed.
Print Assumptions C78_assert_equal.

Theorem C78_less_than : forall (E : Env) a b n, well_named (less_than a b n).
Proof. exact (fun E a b n => tidy_well_named _ _ (n_less_than a b n)). Qed.
Print Assumptions C78_less_than.

Theorem C78_leq : forall (E : Env) a b n, well_named (leq a b n).
Proof. exact (fun E a b n => tidy_well_named _ _ (n_leq a b n)). Qed.
Print Assumptions C78_leq.

Theorem C78_verify_median : forall (E : Env) ts m, well_named (verify_median_timestamp ts m).
Proof. exact (fun E ts m => tidy_well_named _ _ (n_verify_median ts m)). Qed.
Print Assumptions C78_verify_median.

Theorem C78_verify_difficulty_update : forall (E : Env) a b c d e, well_named (verify_difficulty_update a b c d e).
Proof. exact (fun E a b c d e => tidy_well_named _ _ (n_verify_difficulty a b c d e)). Qed.
Print Assumptions C78_verify_difficulty_update.

Theorem C78_calculate_difficulty_update : forall (E : Env) p t, well_named (calculate_difficulty_update p t).
Proof. exact (fun E p t => tidy_well_named _ _ (n_calculate p t)). Qed.
Print Assumptions C78_calculate_difficulty_update.

Theorem C78_verify_current_hash : forall (E : Env) a b c d, well_named (verify_current_hash a b c d).
Proof. exact (fun E a b c d => tidy_well_named _ _ (n_verify_hash a b c d)). Qed.
Print Assumptions C78_verify_current_hash.

Theorem C78_check_prev_hash : forall (E : Env) p h, well_named (check_prev_hash p h).
Proof. exact (fun E p h => tidy_well_named _ _ (n_check_prev p h)). Qed.
Print Assumptions C78_check_prev_hash.

Theorem C78_synthesize : forall (E : Env) o h z, well_named (synthesize_with o h z).
Proof. exact (fun E o h z => tidy_well_named _ _ (n_synthesize o h z)). Qed.
Print Assumptions C78_synthesize.

(** Calling well-named gadgets one after the other, each in its own namespace, is well named again. *)
Theorem C78_calls : forall l : list (name * prog unit), NoDup (map (fun c => render (fst c)) l) ->
  Forall (fun c => no_slash (render (fst c)) = true /\ well_named (snd c)) l ->
  well_named (iterM (fun c => ns (fst c) (snd c)) l).
Proof. exact top_calls. Qed.
Print Assumptions C78_calls.

(** Entering one namespace twice panics. *)
Theorem C78_twice : forall A B (m1 : prog A) (m2 : prog B) nm wit s a s', well_named m1 -> fresh_namespace s -> no_slash (render nm) = true ->
  run wit (ns nm m1) s = (Ok a, s') ->
  run_test wit (let! x := ns nm m1 in let! y := ns nm m2 in Ret (x, y)) s = (Panic, s').
Proof. exact top_twice. Qed.
Print Assumptions C78_twice.

(** The start of every circuit is fresh; a multiplication there names 66 things, and so does the same run unchecked;
    repeating it without a namespace panics. *)
Definition C78_prog : prog bignat :=
  let E := small_env 251 in
  let! a := ns (Nm "a") (alloc_from_nat (Ok 9) 2 2) in
  let! b := ns (Nm "b") (alloc_from_nat (Ok 7) 2 2) in
  ns (Nm "product") (mult a b).
Example C78_init : fresh_namespace st_init.
Proof. split; [intros p []|repeat constructor]. Qed.
Example C78_case :
  (let '(r, s) := run_test true C78_prog st_init in
   match r with Ok p => Some (value p, List.length (st_names s), List.length (st_path s)) | _ => None end) = Some (Some 63, 66%nat, 0%nat) /\
  fst (run_test true (let! _ := C78_prog in C78_prog) st_init) = Panic /\
  fst (run_test true (ns (Nm "a/b") (Ret tt)) st_init) = Panic.
Proof. split; [|split]; vm_compute; reflexivity. Qed.
