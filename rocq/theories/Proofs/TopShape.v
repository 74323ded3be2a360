(** C64: statements about runs. *)
From Coq Require Import ZArith Bool List.
From Verif.Model Require Import Base CS Bellpepper Util Poly Bignat Gadget Ints Median Difficulty HeaderStep Fields.
From Verif.Spec Require Import SpecShape.
From Verif.Proofs Require Import ShapeP ShapeG.
Import ListNotations.
Local Open Scope Z_scope.

Lemma top_shape_fits_in_bits : forall (E : Env) n1 n2 k, same_num n1 n2 -> same_circuit any (fits_in_bits n1 k) (fits_in_bits n2 k).
Proof. intros. apply sh_run, g_fits; assumption. Qed.
Lemma top_shape_num_decompose : forall (E : Env) n1 n2 k, same_num n1 n2 -> same_circuit same_bv (num_decompose n1 k) (num_decompose n2 k).
Proof. intros. apply sh_run, g_decompose; assumption. Qed.
Lemma top_shape_as_sapling : forall (E : Env) n1 n2, same_num n1 n2 -> same_circuit same_an (as_sapling_allocated_num n1) (as_sapling_allocated_num n2).
Proof. intros. apply sh_run, g_as_sapling; assumption. Qed.
Lemma top_shape_bit_alloc : forall (E : Env) w1 w2, same_circuit same_bit (bit_alloc w1) (bit_alloc w2).
Proof. intros. apply sh_run, g_bit_alloc; assumption. Qed.
Lemma top_shape_alloc_product : forall (E : Env) a1 a2 b1 b2, same_poly a1 a2 -> same_poly b1 b2 ->
  same_circuit same_poly (alloc_product a1 b1) (alloc_product a2 b2).
Proof. intros. apply sh_run, g_product; assumption. Qed.
Lemma top_shape_alloc_from_nat : forall (E : Env) f1 f2 w n, same_circuit same_bignat (alloc_from_nat f1 w n) (alloc_from_nat f2 w n).
Proof. intros. apply sh_run, g_alloc_nat; assumption. Qed.
Lemma top_shape_alloc_from_limbs : forall (E : Env) f1 f2 mw w n, same_circuit same_bignat (alloc_from_limbs f1 mw w n) (alloc_from_limbs f2 mw w n).
Proof. intros. apply sh_run, g_alloc_limbs; assumption. Qed.
Lemma top_shape_from_num : forall (E : Env) n1 n2 w k, same_num n1 n2 -> same_circuit same_bignat (from_num n1 w k) (from_num n2 w k).
Proof. intros. apply sh_run, g_from_num; assumption. Qed.
Lemma top_shape_inputize : forall (E : Env) b1 b2, same_bignat b1 b2 -> same_circuit any (bn_inputize b1) (bn_inputize b2).
Proof. intros. apply sh_run, g_inputize; assumption. Qed.
Lemma top_shape_equal : forall (E : Env) a1 a2 b1 b2, same_bignat a1 a2 -> same_bignat b1 b2 ->
  same_circuit any (equal a1 b1) (equal a2 b2).
Proof. intros. apply sh_run, g_equal; assumption. Qed.
Lemma top_shape_equals : forall (E : Env) a1 a2 b1 b2, same_an a1 a2 -> same_an b1 b2 ->
  same_circuit same_bool (equals a1 b1) (equals a2 b2).
Proof. intros. apply sh_run, g_equals; assumption. Qed.
Lemma top_shape_is_equal : forall (E : Env) a1 a2 b1 b2, same_bignat a1 a2 -> same_bignat b1 b2 ->
  same_circuit same_bool (is_equal a1 b1) (is_equal a2 b2).
Proof. intros. apply sh_run, g_is_equal; assumption. Qed.
Lemma top_shape_assert_well_formed : forall (E : Env) b1 b2, same_bignat b1 b2 -> same_circuit any (assert_well_formed b1) (assert_well_formed b2).
Proof. intros. apply sh_run, g_wf; assumption. Qed.
Lemma top_shape_bn_decompose : forall (E : Env) b1 b2, same_bignat b1 b2 -> same_circuit same_bv (bn_decompose b1) (bn_decompose b2).
Proof. intros. apply sh_run, g_bn_decompose; assumption. Qed.
Lemma top_shape_enforce_full_bits : forall (E : Env) b1 b2, same_bignat b1 b2 -> same_circuit same_bignat (enforce_full_bits b1) (enforce_full_bits b2).
Proof. intros. apply sh_run, g_full_bits; assumption. Qed.
Lemma top_shape_enforce_min_bits : forall (E : Env) b1 b2 k, same_bignat b1 b2 ->
  same_circuit same_bignat (enforce_min_bits b1 k) (enforce_min_bits b2 k).
Proof. intros. apply sh_run, g_min_bits; assumption. Qed.
Lemma top_shape_equal_when_carried : forall (E : Env) a1 a2 b1 b2, same_bignat a1 a2 -> same_bignat b1 b2 ->
  same_circuit any (equal_when_carried a1 b1) (equal_when_carried a2 b2).
Proof. intros. apply sh_run, g_carried; assumption. Qed.
Lemma top_shape_equal_when_carried_regroup : forall (E : Env) a1 a2 b1 b2, same_bignat a1 a2 -> same_bignat b1 b2 ->
  same_circuit any (equal_when_carried_regroup a1 b1) (equal_when_carried_regroup a2 b2).
Proof. intros. apply sh_run, g_regroup; assumption. Qed.
Lemma top_shape_divides : forall (E : Env) a1 a2 b1 b2, same_bignat a1 a2 -> same_bignat b1 b2 -> same_circuit any (divides a1 b1) (divides a2 b2).
Proof. intros. apply sh_run, g_divides; assumption. Qed.
Lemma top_shape_sub : forall (E : Env) a1 a2 b1 b2, same_bignat a1 a2 -> same_bignat b1 b2 -> same_circuit same_bignat (sub a1 b1) (sub a2 b2).
Proof. intros. apply sh_run, g_sub; assumption. Qed.
Lemma top_shape_mult : forall (E : Env) a1 a2 b1 b2, same_bignat a1 a2 -> same_bignat b1 b2 -> same_circuit same_bignat (mult a1 b1) (mult a2 b2).
Proof. intros. apply sh_run, g_mult; assumption. Qed.
Lemma top_shape_assert_product_mod : forall (E : Env) a1 a2 b1 b2 m1 m2 r1 r2,
  same_bignat a1 a2 -> same_bignat b1 b2 -> same_bignat m1 m2 -> same_bignat r1 r2 ->
  same_circuit same_bignat (assert_product_mod a1 b1 m1 r1) (assert_product_mod a2 b2 m2 r2).
Proof. intros. apply sh_run, g_product_mod; assumption. Qed.
Lemma top_shape_mult_mod : forall (E : Env) a1 a2 b1 b2 m1 m2,
  same_bignat a1 a2 -> same_bignat b1 b2 -> same_bignat m1 m2 ->
  same_circuit (fun p q => same_bignat (fst p) (fst q) /\ same_bignat (snd p) (snd q)) (mult_mod a1 b1 m1) (mult_mod a2 b2 m2).
Proof. intros. apply sh_run, g_mult_mod; assumption. Qed.
Lemma top_shape_red_mod : forall (E : Env) a1 a2 m1 m2, same_bignat a1 a2 -> same_bignat m1 m2 ->
  same_circuit same_bignat (red_mod a1 m1) (red_mod a2 m2).
Proof. intros. apply sh_run, g_red_mod; assumption. Qed.
Lemma top_shape_bn_min : forall (E : Env) a1 a2 b1 b2, same_bignat a1 a2 -> same_bignat b1 b2 -> same_circuit same_bignat (bn_min a1 b1) (bn_min a2 b2).
Proof. intros. apply sh_run, g_bn_min; assumption. Qed.
Lemma top_shape_mux : forall (E : Env) s1 s2 a1 a2 b1 b2, same_bit s1 s2 -> same_bignat a1 a2 -> same_bignat b1 b2 ->
  same_circuit same_bignat (mux s1 a1 b1) (mux s2 a2 b2).
Proof. intros. apply sh_run, g_mux; assumption. Qed.
Lemma top_shape_mux_default : forall (E : Env) s1 s2 a1 a2 b1 b2, same_bit s1 s2 -> same_bignat a1 a2 -> same_bignat b1 b2 ->
  same_circuit same_bignat (mux_default s1 a1 b1) (mux_default s2 a2 b2).
Proof. intros. apply sh_run, g_mux_default; assumption. Qed.
Lemma top_shape_mux_tree : forall (E : Env) l1 l2 i1 i2, Forall2 same_bit l1 l2 -> Forall2 same_bignat i1 i2 ->
  same_circuit same_bignat (mux_tree l1 i1) (mux_tree l2 i2).
Proof. intros. apply sh_run. apply g_mux_tree; assumption. Qed.
Lemma top_shape_switch : forall (E : Env) s1 s2 a1 a2 b1 b2, same_bit s1 s2 -> same_bignat a1 a2 -> same_bignat b1 b2 ->
  same_circuit (fun p q => same_bignat (fst p) (fst q) /\ same_bignat (snd p) (snd q)) (switch s1 a1 b1) (switch s2 a2 b2).
Proof. intros. apply sh_run, g_switch; assumption. Qed.
Lemma top_shape_assert_equal : forall (E : Env) a1 a2 b1 b2, same_bignat a1 a2 -> same_bignat b1 b2 -> same_circuit any (assert_equal a1 b1) (assert_equal a2 b2).
Proof. intros. apply sh_run, g_assert_equal; assumption. Qed.
Lemma top_shape_gadget_inputize : forall (E : Env) b1 b2, same_bignat b1 b2 -> same_circuit any (gadget_inputize b1) (gadget_inputize b2).
Proof. intros. apply sh_run, g_gadget_inputize; assumption. Qed.
Lemma top_shape_as_nums : forall (E : Env) b1 b2, same_bignat b1 b2 -> same_circuit (Forall2 same_an) (as_nums b1) (as_nums b2).
Proof. intros. apply sh_run, g_as_nums; assumption. Qed.
Lemma top_shape_less_than : forall (E : Env) a1 a2 b1 b2 n, same_circuit same_bool (less_than a1 b1 n) (less_than a2 b2 n).
Proof. intros. apply sh_run, g_less_than; assumption. Qed.
Lemma top_shape_leq : forall (E : Env) a1 a2 b1 b2 n, same_circuit same_bool (leq a1 b1 n) (leq a2 b2 n).
Proof. intros. apply sh_run, g_leq; assumption. Qed.
Lemma top_shape_verify_median : forall (E : Env) ts1 ts2 m1 m2, List.length ts1 = List.length ts2 ->
  same_circuit same_bool (verify_median_timestamp ts1 m1) (verify_median_timestamp ts2 m2).
Proof. intros. apply sh_run, g_median; assumption. Qed.
Lemma top_shape_verify_difficulty : forall (E : Env) a1 b1 c1 d1 e1 a2 b2 c2 d2 e2,
  same_circuit any (verify_difficulty_update a1 b1 c1 d1 e1) (verify_difficulty_update a2 b2 c2 d2 e2).
Proof. intros. apply sh_run, g_verify_difficulty; assumption. Qed.
Lemma top_shape_calculate_difficulty : forall (E : Env) p1 p2 s1 s2, same_an p1 p2 -> same_an s1 s2 ->
  same_circuit same_bignat (calculate_difficulty_update p1 s1) (calculate_difficulty_update p2 s2).
Proof. intros. apply sh_run, g_calculate; assumption. Qed.
Lemma top_shape_verify_current_hash : forall (E : Env) a1 b1 c1 d1 a2 b2 c2 d2,
  same_circuit same_bool (verify_current_hash a1 b1 c1 d1) (verify_current_hash a2 b2 c2 d2).
Proof. intros. apply sh_run, g_verify_hash; assumption. Qed.
Lemma top_shape_check_prev_hash : forall (E : Env) p1 p2 h1 h2, List.length p1 = List.length p2 -> List.length h1 = List.length h2 ->
  same_circuit any (check_prev_hash p1 h1) (check_prev_hash p2 h2).
Proof. intros. apply sh_run, g_check_prev; assumption. Qed.
Lemma top_shape_stage_prev_hash : forall (E : Env) h1 h2 z1 z2, Forall2 same_an z1 z2 -> same_circuit any (stage_prev_hash h1 z1) (stage_prev_hash h2 z2).
Proof. intros. apply sh_run, g_stage1; assumption. Qed.
Lemma top_shape_stage_pow : forall (E : Env) h1 h2, List.length h1 = List.length h2 ->
  same_circuit (fun p q => same_an (snd (fst p)) (snd (fst q)) /\ same_an (snd p) (snd q)) (stage_pow h1) (stage_pow h2).
Proof. intros. apply sh_run, g_stage2; assumption. Qed.
Lemma top_shape_stage_time : forall (E : Env) h1 h2 z1 z2, same_circuit same_an (stage_time h1 z1) (stage_time h2 z2).
Proof. intros. apply sh_run, g_stage3; assumption. Qed.
Lemma top_shape_stage_work : forall (E : Env) t1 t2, same_an t1 t2 -> same_circuit same_an (stage_work t1) (stage_work t2).
Proof. intros. apply sh_run, g_stage4; assumption. Qed.
Lemma top_shape_stage_target_update : forall (E : Env) q1 q2 t1 t2 z1 z2, same_an t1 t2 -> Forall2 same_an z1 z2 ->
  same_circuit (fun p q => same_an (snd p) (snd q)) (stage_target_update q1 t1 z1) (stage_target_update q2 t2 z2).
Proof. intros. apply sh_run, g_stage5; assumption. Qed.
Lemma top_shape_synthesize : forall (E : Env) o1 o2 h1 h2 z1 z2,
  Forall2 same_an o1 o2 -> List.length h1 = List.length h2 -> Forall2 same_an z1 z2 ->
  same_circuit (Forall2 same_an) (synthesize_with o1 h1 z1) (synthesize_with o2 h2 z2).
Proof. intros. apply sh_run, g_synthesize; assumption. Qed.
