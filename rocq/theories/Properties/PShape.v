(** C64: the circuit does not depend on the witness. *)
From Coq Require Import ZArith Bool List.
From Verif.Model Require Import Base CS Bellpepper Util Poly Bignat Gadget Ints Median Difficulty HeaderStep Fields.
From Verif.Spec Require Import SpecShape.
From Verif.Proofs Require Import ShapeG TopShape.
Import ListNotations.
Local Open Scope Z_scope.
Local Notation any := (fun _ _ => True).

(** Range checks and bit decompositions of one number. *)
Theorem C64_fits_in_bits : forall (E : Env) n1 n2 k, same_num n1 n2 -> same_circuit any (fits_in_bits n1 k) (fits_in_bits n2 k).
Proof. exact top_shape_fits_in_bits. Qed.
Print Assumptions C64_fits_in_bits.

Theorem C64_num_decompose : forall (E : Env) n1 n2 k, same_num n1 n2 -> same_circuit same_bv (num_decompose n1 k) (num_decompose n2 k).
Proof. exact top_shape_num_decompose. Qed.
Print Assumptions C64_num_decompose.

Theorem C64_as_sapling : forall (E : Env) n1 n2, same_num n1 n2 -> same_circuit same_an (as_sapling_allocated_num n1) (as_sapling_allocated_num n2).
Proof. exact top_shape_as_sapling. Qed.
Print Assumptions C64_as_sapling.

Theorem C64_bit_alloc : forall (E : Env) w1 w2, same_circuit same_bit (bit_alloc w1) (bit_alloc w2).
Proof. exact top_shape_bit_alloc. Qed.
Print Assumptions C64_bit_alloc.

(** Polynomial products. *)
Theorem C64_alloc_product : forall (E : Env) a1 a2 b1 b2, same_poly a1 a2 -> same_poly b1 b2 ->
  same_circuit same_poly (alloc_product a1 b1) (alloc_product a2 b2).
Proof. exact top_shape_alloc_product. Qed.
Print Assumptions C64_alloc_product.

(** Allocation of multi-limb integers. *)
Theorem C64_alloc_from_nat : forall (E : Env) f1 f2 w n, same_circuit same_bignat (alloc_from_nat f1 w n) (alloc_from_nat f2 w n).
Proof. exact top_shape_alloc_from_nat. Qed.
Print Assumptions C64_alloc_from_nat.

Theorem C64_alloc_from_limbs : forall (E : Env) f1 f2 mw w n, same_circuit same_bignat (alloc_from_limbs f1 mw w n) (alloc_from_limbs f2 mw w n).
Proof. exact top_shape_alloc_from_limbs. Qed.
Print Assumptions C64_alloc_from_limbs.

Theorem C64_from_num : forall (E : Env) n1 n2 w k, same_num n1 n2 -> same_circuit same_bignat (from_num n1 w k) (from_num n2 w k).
Proof. exact top_shape_from_num. Qed.
Print Assumptions C64_from_num.

Theorem C64_inputize : forall (E : Env) b1 b2, same_bignat b1 b2 -> same_circuit any (bn_inputize b1) (bn_inputize b2).
Proof. exact top_shape_inputize. Qed.
Print Assumptions C64_inputize.

(** Comparisons of multi-limb integers. *)
Theorem C64_equal : forall (E : Env) a1 a2 b1 b2, same_bignat a1 a2 -> same_bignat b1 b2 ->
  same_circuit any (equal a1 b1) (equal a2 b2).
Proof. exact top_shape_equal. Qed.
Print Assumptions C64_equal.

Theorem C64_equals : forall (E : Env) a1 a2 b1 b2, same_an a1 a2 -> same_an b1 b2 ->
  same_circuit same_bool (equals a1 b1) (equals a2 b2).
Proof. exact top_shape_equals. Qed.
Print Assumptions C64_equals.

Theorem C64_is_equal : forall (E : Env) a1 a2 b1 b2, same_bignat a1 a2 -> same_bignat b1 b2 ->
  same_circuit same_bool (is_equal a1 b1) (is_equal a2 b2).
Proof. exact top_shape_is_equal. Qed.
Print Assumptions C64_is_equal.

(** Range checks and decompositions of multi-limb integers. *)
Theorem C64_assert_well_formed : forall (E : Env) b1 b2, same_bignat b1 b2 -> same_circuit any (assert_well_formed b1) (assert_well_formed b2).
Proof. exact top_shape_assert_well_formed. Qed.
Print Assumptions C64_assert_well_formed.

Theorem C64_bn_decompose : forall (E : Env) b1 b2, same_bignat b1 b2 -> same_circuit same_bv (bn_decompose b1) (bn_decompose b2).
Proof. exact top_shape_bn_decompose. Qed.
Print Assumptions C64_bn_decompose.

Theorem C64_enforce_full_bits : forall (E : Env) b1 b2, same_bignat b1 b2 -> same_circuit same_bignat (enforce_full_bits b1) (enforce_full_bits b2).
Proof. exact top_shape_enforce_full_bits. Qed.
Print Assumptions C64_enforce_full_bits.

Theorem C64_enforce_min_bits : forall (E : Env) b1 b2 k, same_bignat b1 b2 ->
  same_circuit same_bignat (enforce_min_bits b1 k) (enforce_min_bits b2 k).
Proof. exact top_shape_enforce_min_bits. Qed.
Print Assumptions C64_enforce_min_bits.

(** Carrying. *)
Theorem C64_equal_when_carried : forall (E : Env) a1 a2 b1 b2, same_bignat a1 a2 -> same_bignat b1 b2 ->
  same_circuit any (equal_when_carried a1 b1) (equal_when_carried a2 b2).
Proof. exact top_shape_equal_when_carried. Qed.
Print Assumptions C64_equal_when_carried.

Theorem C64_equal_when_carried_regroup : forall (E : Env) a1 a2 b1 b2, same_bignat a1 a2 -> same_bignat b1 b2 ->
  same_circuit any (equal_when_carried_regroup a1 b1) (equal_when_carried_regroup a2 b2).
Proof. exact top_shape_equal_when_carried_regroup. Qed.
Print Assumptions C64_equal_when_carried_regroup.

(** Arithmetic. *)
Theorem C64_divides : forall (E : Env) a1 a2 b1 b2, same_bignat a1 a2 -> same_bignat b1 b2 -> same_circuit any (divides a1 b1) (divides a2 b2).
Proof. exact top_shape_divides. Qed.
Print Assumptions C64_divides.

Theorem C64_sub : forall (E : Env) a1 a2 b1 b2, same_bignat a1 a2 -> same_bignat b1 b2 -> same_circuit same_bignat (sub a1 b1) (sub a2 b2).
Proof. exact top_shape_sub. Qed.
Print Assumptions C64_sub.

Theorem C64_mult : forall (E : Env) a1 a2 b1 b2, same_bignat a1 a2 -> same_bignat b1 b2 -> same_circuit same_bignat (mult a1 b1) (mult a2 b2).
Proof. exact top_shape_mult. Qed.
Print Assumptions C64_mult.

Theorem C64_assert_product_mod : forall (E : Env) a1 a2 b1 b2 m1 m2 r1 r2,
  same_bignat a1 a2 -> same_bignat b1 b2 -> same_bignat m1 m2 -> same_bignat r1 r2 ->
  same_circuit same_bignat (assert_product_mod a1 b1 m1 r1) (assert_product_mod a2 b2 m2 r2).
Proof. exact top_shape_assert_product_mod. Qed.
Print Assumptions C64_assert_product_mod.

Theorem C64_mult_mod : forall (E : Env) a1 a2 b1 b2 m1 m2,
  same_bignat a1 a2 -> same_bignat b1 b2 -> same_bignat m1 m2 ->
  same_circuit (fun p q => same_bignat (fst p) (fst q) /\ same_bignat (snd p) (snd q)) (mult_mod a1 b1 m1) (mult_mod a2 b2 m2).
Proof. exact top_shape_mult_mod. Qed.
Print Assumptions C64_mult_mod.

Theorem C64_red_mod : forall (E : Env) a1 a2 m1 m2, same_bignat a1 a2 -> same_bignat m1 m2 ->
  same_circuit same_bignat (red_mod a1 m1) (red_mod a2 m2).
Proof. exact top_shape_red_mod. Qed.
Print Assumptions C64_red_mod.

Theorem C64_bn_min : forall (E : Env) a1 a2 b1 b2, same_bignat a1 a2 -> same_bignat b1 b2 -> same_circuit same_bignat (bn_min a1 b1) (bn_min a2 b2).
Proof. exact top_shape_bn_min. Qed.
Print Assumptions C64_bn_min.

(** Selection. *)
Theorem C64_mux : forall (E : Env) s1 s2 a1 a2 b1 b2, same_bit s1 s2 -> same_bignat a1 a2 -> same_bignat b1 b2 ->
  same_circuit same_bignat (mux s1 a1 b1) (mux s2 a2 b2).
Proof. exact top_shape_mux. Qed.
Print Assumptions C64_mux.

Theorem C64_mux_default : forall (E : Env) s1 s2 a1 a2 b1 b2, same_bit s1 s2 -> same_bignat a1 a2 -> same_bignat b1 b2 ->
  same_circuit same_bignat (mux_default s1 a1 b1) (mux_default s2 a2 b2).
Proof. exact top_shape_mux_default. Qed.
Print Assumptions C64_mux_default.

Theorem C64_mux_tree : forall (E : Env) l1 l2 i1 i2, Forall2 same_bit l1 l2 -> Forall2 same_bignat i1 i2 ->
  same_circuit same_bignat (mux_tree l1 i1) (mux_tree l2 i2).
Proof. exact top_shape_mux_tree. Qed.
Print Assumptions C64_mux_tree.

Theorem C64_switch : forall (E : Env) s1 s2 a1 a2 b1 b2, same_bit s1 s2 -> same_bignat a1 a2 -> same_bignat b1 b2 ->
  same_circuit (fun p q => same_bignat (fst p) (fst q) /\ same_bignat (snd p) (snd q)) (switch s1 a1 b1) (switch s2 a2 b2).
Proof. exact top_shape_switch. Qed.
Print Assumptions C64_switch.

Theorem C64_assert_equal : forall (E : Env) a1 a2 b1 b2, same_bignat a1 a2 -> same_bignat b1 b2 -> same_circuit any (assert_equal a1 b1) (assert_equal a2 b2).
Proof. exact top_shape_assert_equal. Qed.
Print Assumptions C64_assert_equal.

Theorem C64_gadget_inputize : forall (E : Env) b1 b2, same_bignat b1 b2 -> same_circuit any (gadget_inputize b1) (gadget_inputize b2).
Proof. exact top_shape_gadget_inputize. Qed.
Print Assumptions C64_gadget_inputize.

Theorem C64_as_nums : forall (E : Env) b1 b2, same_bignat b1 b2 -> same_circuit (Forall2 same_an) (as_nums b1) (as_nums b2).
Proof. exact top_shape_as_nums. Qed.
Print Assumptions C64_as_nums.

(** Comparisons of numbers: the circuit does not even depend on the wires of the operands. *)
Theorem C64_less_than : forall (E : Env) a1 a2 b1 b2 n, same_circuit same_bool (less_than a1 b1 n) (less_than a2 b2 n).
Proof. exact top_shape_less_than. Qed.
Print Assumptions C64_less_than.

Theorem C64_leq : forall (E : Env) a1 a2 b1 b2 n, same_circuit same_bool (leq a1 b1 n) (leq a2 b2 n).
Proof. exact top_shape_leq. Qed.
Print Assumptions C64_leq.

(** The median check depends on the number of timestamps only. *)
Theorem C64_verify_median : forall (E : Env) ts1 ts2 m1 m2, List.length ts1 = List.length ts2 ->
  same_circuit same_bool (verify_median_timestamp ts1 m1) (verify_median_timestamp ts2 m2).
Proof. exact top_shape_verify_median. Qed.
Print Assumptions C64_verify_median.

(** The circuits of the difficulty update, hash comparison and previous-hash check are fixed. *)
Theorem C64_verify_difficulty : forall (E : Env) a1 b1 c1 d1 e1 a2 b2 c2 d2 e2,
  same_circuit any (verify_difficulty_update a1 b1 c1 d1 e1) (verify_difficulty_update a2 b2 c2 d2 e2).
Proof. exact top_shape_verify_difficulty. Qed.
Print Assumptions C64_verify_difficulty.

Theorem C64_calculate_difficulty : forall (E : Env) p1 p2 s1 s2, same_an p1 p2 -> same_an s1 s2 ->
  same_circuit same_bignat (calculate_difficulty_update p1 s1) (calculate_difficulty_update p2 s2).
Proof. exact top_shape_calculate_difficulty. Qed.
Print Assumptions C64_calculate_difficulty.

Theorem C64_verify_current_hash : forall (E : Env) a1 b1 c1 d1 a2 b2 c2 d2,
  same_circuit same_bool (verify_current_hash a1 b1 c1 d1) (verify_current_hash a2 b2 c2 d2).
Proof. exact top_shape_verify_current_hash. Qed.
Print Assumptions C64_verify_current_hash.

Theorem C64_check_prev_hash : forall (E : Env) p1 p2 h1 h2, List.length p1 = List.length p2 -> List.length h1 = List.length h2 ->
  same_circuit any (check_prev_hash p1 h1) (check_prev_hash p2 h2).
Proof. exact top_shape_check_prev_hash. Qed.
Print Assumptions C64_check_prev_hash.

(** The stages of the header step, and the step itself (with the initial output vector as a parameter). *)
Theorem C64_stage_prev_hash : forall (E : Env) h1 h2 z1 z2, Forall2 same_an z1 z2 -> same_circuit any (stage_prev_hash h1 z1) (stage_prev_hash h2 z2).
Proof. exact top_shape_stage_prev_hash. Qed.
Print Assumptions C64_stage_prev_hash.

Theorem C64_stage_pow : forall (E : Env) h1 h2, List.length h1 = List.length h2 ->
  same_circuit (fun p q => same_an (snd (fst p)) (snd (fst q)) /\ same_an (snd p) (snd q)) (stage_pow h1) (stage_pow h2).
Proof. exact top_shape_stage_pow. Qed.
Print Assumptions C64_stage_pow.

Theorem C64_stage_time : forall (E : Env) h1 h2 z1 z2, same_circuit same_an (stage_time h1 z1) (stage_time h2 z2).
Proof. exact top_shape_stage_time. Qed.
Print Assumptions C64_stage_time.

Theorem C64_stage_work : forall (E : Env) t1 t2, same_an t1 t2 -> same_circuit same_an (stage_work t1) (stage_work t2).
Proof. exact top_shape_stage_work. Qed.
Print Assumptions C64_stage_work.

Theorem C64_stage_target_update : forall (E : Env) q1 q2 t1 t2 z1 z2, same_an t1 t2 -> Forall2 same_an z1 z2 ->
  same_circuit (fun p q => same_an (snd p) (snd q)) (stage_target_update q1 t1 z1) (stage_target_update q2 t2 z2).
Proof. exact top_shape_stage_target_update. Qed.
Print Assumptions C64_stage_target_update.

Theorem C64_synthesize : forall (E : Env) o1 o2 h1 h2 z1 z2,
  Forall2 same_an o1 o2 -> List.length h1 = List.length h2 -> Forall2 same_an z1 z2 ->
  same_circuit (Forall2 same_an) (synthesize_with o1 h1 z1) (synthesize_with o2 h2 z2).
Proof. exact top_shape_synthesize. Qed.
Print Assumptions C64_synthesize.

(** Operations on wires alone return the same wires. *)
Theorem C64_concat : forall a1 a2 b1 b2, same_bignat a1 a2 -> same_bignat b1 b2 -> same_outcome same_bignat (concat a1 b1) (concat a2 b2).
Proof. exact @g_concat. Qed.
Print Assumptions C64_concat.

Theorem C64_add : forall (E : Env) a1 a2 b1 b2, same_bignat a1 a2 -> same_bignat b1 b2 -> same_outcome same_bignat (add a1 b1) (add a2 b2).
Proof. exact @g_add. Qed.
Print Assumptions C64_add.

Theorem C64_shift : forall (E : Env) b1 b2 c, same_bignat b1 b2 -> same_outcome same_bignat (shift b1 c) (shift b2 c).
Proof. exact @g_shift. Qed.
Print Assumptions C64_shift.

Theorem C64_scale : forall (E : Env) b1 b2 c, same_bignat b1 b2 -> same_outcome same_bignat (scale b1 c) (scale b2 c).
Proof. exact @g_scale. Qed.
Print Assumptions C64_scale.

Theorem C64_group_limbs : forall (E : Env) b1 b2 k, same_bignat b1 b2 -> same_outcome same_bignat (group_limbs b1 k) (group_limbs b2 k).
Proof. exact @g_group. Qed.
Print Assumptions C64_group_limbs.

Theorem C64_truncate_limbs : forall (E : Env) b1 b2 n, same_bignat b1 b2 -> same_outcome same_bignat (truncate_limbs b1 n) (truncate_limbs b2 n).
Proof. exact @g_truncate. Qed.
Print Assumptions C64_truncate_limbs.

Theorem C64_with_n_limbs : forall b1 b2 n, same_bignat b1 b2 -> same_outcome same_bignat (with_n_limbs b1 n) (with_n_limbs b2 n).
Proof. exact @g_with_n. Qed.
Print Assumptions C64_with_n_limbs.

Theorem C64_as_limbs : forall b1 b2, same_bignat b1 b2 -> same_outcome (Forall2 same_num) (as_limbs b1) (as_limbs b2).
Proof. exact @g_as_limbs. Qed.
Print Assumptions C64_as_limbs.

Theorem C64_recompose : forall (E : Env) b1 b2 k, same_bv b1 b2 -> same_outcome same_bignat (recompose b1 k) (recompose b2 k).
Proof. exact @g_recompose. Qed.
Print Assumptions C64_recompose.

(** Two runs of a modular multiplication, with and without witnesses, and with different witnesses. *)
Definition C64_prog (x y m : option Z) : prog (bignat * bignat) :=
  let E := small_env 251 in
  let! a := alloc_from_nat (grab x) 2 2 in
  let! b := alloc_from_nat (grab y) 2 2 in
  let! c := alloc_from_nat (grab m) 2 2 in
  mult_mod a b c.
Example C64_case :
  let go w x y m := let '(r, s) := run w (C64_prog x y m) st_init in
    match r with Ok (q, r) => Some (value q, value r, st_cons s, length (st_aux s)) | _ => None end in
  exists cs n, (30 < length cs)%nat /\
  go true (Some 13) (Some 11) (Some 5) = Some (Some 28, Some 3, cs, n) /\
  go true (Some 7) (Some 3) (Some 9) = Some (Some 2, Some 3, cs, n) /\
  go false None None None = Some (None, None, cs, n).
Proof. eexists. eexists. split; [|split; [|split]]; cycle 1. vm_compute. reflexivity. vm_compute. reflexivity. vm_compute. reflexivity. vm_compute. repeat constructor. Qed.
