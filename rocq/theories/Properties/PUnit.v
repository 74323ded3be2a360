(** C84: the assertions of the remaining unit tests, on every input. *)
From Coq Require Import ZArith Bool String List.
From Verif.Model Require Import Base CS TestCS Bellpepper Util Poly Bignat Ints Median Difficulty UnitTests Fields F64.
From Verif.Spec Require Import Spec SpecHeader SpecF64.
From Verif.Proofs Require Import UnitP.
Import ListNotations.
Local Open Scope string_scope.
Local Open Scope Z_scope.
Local Open Scope list_scope.

(** [test_median_verify] on any vector of up to 23 timestamps. *)
Theorem C84_median : forall (E : Env) (W : Wf E) ts,
  ts <> [] -> (List.length ts <= 23)%nat -> Forall (fun t => 0 <= t < 2 ^ 32) ts -> 2 ^ 34 < modulus ->
  test_value (test_median_verify ts) = Ok true.
Proof. exact @top_test_median. Qed.
Print Assumptions C84_median.

Theorem C84_equals : forall (E : Env) (W : Wf E) x y, test_value (test_equals x y) = Ok (x mod modulus =? y mod modulus).
Proof. exact @top_test_equals. Qed.
Print Assumptions C84_equals.

Theorem C84_less_than : forall (E : Env) (W : Wf E) x y n, (n <= 126)%nat -> 2 ^ (Z.of_nat n + 2) < modulus ->
  0 <= x < 2 ^ (Z.of_nat n + 1) -> 0 <= y < 2 ^ (Z.of_nat n + 1) -> test_value (test_less_than x y n) = Ok (x <? y).
Proof. exact @top_test_less_than. Qed.
Print Assumptions C84_less_than.

Theorem C84_less_than_equal : forall (E : Env) (W : Wf E) x y n, (n <= 126)%nat -> 2 ^ (Z.of_nat n + 2) < modulus ->
  0 <= x < 2 ^ (Z.of_nat n + 1) -> 0 <= y < 2 ^ (Z.of_nat n + 1) -> test_value (test_less_than_equal x y n) = Ok (x <=? y).
Proof. exact @top_test_leq. Qed.
Print Assumptions C84_less_than_equal.

Theorem C84_fits_in_bits : forall (E : Env) (W : Wf E) v n, 0 <= v -> (1 <= n <= NUM_BITS)%nat ->
  test_satisfied (test_fits_in_bits v n) = Ok (v mod modulus <? 2 ^ Z.of_nat n).
Proof. exact @top_test_fits. Qed.
Print Assumptions C84_fits_in_bits.

Theorem C84_difficulty : forall (E : Env) (W : Wf E) cu cl pu pl t,
  0 <= cu < 2 ^ 128 -> 0 <= cl < 2 ^ 128 -> 0 <= pu < 2 ^ 128 -> 0 <= pl < 2 ^ 128 -> 302400 < t < 4838400 ->
  (194 <= CAPACITY <= 255)%nat -> exact_carries ((2 ^ 64 - 1) * (2 ^ 65 - 1)) 64 ->
  test_satisfied (test_difficulty cu cl pu pl t) =
    Ok (cu * 2 ^ 128 + cl =? (pu * 2 ^ 128 + pl) * t / (2016 * 10 * 60)).
Proof. exact @top_test_difficulty. Qed.
Print Assumptions C84_difficulty.

Theorem C84_calc_new_target : forall (E : Env) (W : Wf E) pu pl t tu tl, let T := pu * 2 ^ 128 + pl in
  0 <= pu < 2 ^ 127 -> 0 <= pl < 2 ^ 128 -> 0 <= tu < 2 ^ 127 -> 0 <= tl < 2 ^ 128 -> T < modulus ->
  302400 < t < 4838400 -> T * t / (2016 * 10 * 60) < 2 ^ 256 -> (194 <= CAPACITY <= 255)%nat -> exact_carries ((2 ^ 64 - 1) * 2 ^ 128) 64 ->
  test_value (test_calc_new_target pu pl t tu tl) = Ok (digits (2 ^ 64) (T * t / (2016 * 10 * 60))).
Proof. exact @top_test_calc. Qed.
Print Assumptions C84_calc_new_target.

Theorem C84_hash_target : forall (E : Env) (W : Wf E) hu hl tu tl,
  0 <= hu < 2 ^ 128 -> 0 <= hl < 2 ^ 128 -> 0 <= tu < 2 ^ 128 -> 0 <= tl < 2 ^ 128 -> 2 ^ 130 < modulus ->
  tu - hu <= 2 ^ 127 -> (hu = tu -> tl - hl <= 2 ^ 127) ->
  test_value (test_hash_target hu hl tu tl) = Ok (hu * 2 ^ 128 + hl <? tu * 2 ^ 128 + tl).
Proof. exact @top_test_hash. Qed.
Print Assumptions C84_hash_target.

Theorem C84_hash_previous : forall (E : Env) (W : Wf E) blk hsh, test_satisfied (test_hash_previous blk hsh) = Ok true <->
  firstn 256 (words_bits hsh) = firstn (64 * List.length hsh) (sha256d (words_bits blk)).
Proof. exact @top_test_prev. Qed.
Print Assumptions C84_hash_previous.

(** Every literal assertion of those tests holds over the test field, with the floating point carry width and any
    faithful logarithm. *)
Theorem C84_unit_tests : forall l ck, faithful_log2 l -> let E := fr_f64 l ck in
  (test_nat_to_f 4 "4" = Ok true /\ test_f_to_nat 4 "4" = Ok true /\ test_usize_to_f 4 "4" = Ok true /\ test_f_to_usize 4 "4" = Ok true) /\
  (test_median_compute [11; 2; 3; 4; 7; 5; 8; 6; 10; 9; 1] = Ok 6 /\
   test_value (test_median_verify [11; 2; 3; 4; 6; 6; 8; 6; 10; 9; 1]) = Ok true /\
   test_value (test_equals 4 4) = Ok true /\
   test_satisfied (test_fits_in_bits (Z.shiftl 2 30) 32) = Ok true /\
   test_value (test_less_than 11 14 32) = Ok true /\
   test_value (test_less_than_equal 11 14 32) = Ok true) /\
  (test_satisfied (test_difficulty (Z.shiftl 2 97) (Z.shiftl 2 97) (Z.shiftl 2 96) (Z.shiftl 2 96) (2016 * 10 * 60 * 2)) = Ok true /\
   test_satisfied (test_difficulty 0 0x053894 0 0x058ebe (13 * 24 * 3600 + 3 * 3600 + 39 * 60 + 6)) = Ok true /\
   test_value (test_calc_new_target 0x05 0x8ebe0000000000000000000000000000 (13 * 24 * 3600 + 3 * 3600 + 39 * 60 + 6)
     0x05 0x38940000000000000000000000000000) = Ok [0x04B6B1D1837E9E50; 0x3894871D1837E9E5; 5]) /\
  (test_value (test_hash_target 0x000000004ebadb55ee9096c9a2f8880e 0x09da59c0d68b1c228da88e48844a1485
     0x00ffff00000000000000000000 0x00) = Ok true /\
   test_satisfied (test_hash_previous
     [0x010000009500c43a; 0x25c624520b5100ad; 0xf82cb9f9da72fd24; 0x47a496bc600b0000; 0x000000006cd86237;
      0x0395dedf1da2841c; 0xcda0fc489e3039de; 0x5f1ccddef0e83499; 0x1a65600ea6c8cb4d; 0xb3936a1ae3143991]
     [0xcac383cdf62f68ef; 0xaa8064e35f6fc4df; 0xc8aa74610c6580ed; 0x1729000000000000]) = Ok true).
Proof. exact top_unit_tests. Qed.
Print Assumptions C84_unit_tests.

(** Some of the circuits executed outright, over a field with exact carry widths. *)
Example C84_case : let E := pallas_env true in
  test_value (test_median_verify [9; 3; 7; 3]) = Ok true /\
  test_value (test_less_than 14 14 32) = Ok false /\ test_value (test_less_than_equal 14 14 32) = Ok true /\
  test_value (test_equals 4 5) = Ok false /\
  test_satisfied (test_fits_in_bits (2 ^ 32) 32) = Ok false /\
  test_value (test_hash_target 3 9 3 8) = Ok false.
Proof. vm_compute. repeat split. Qed.
