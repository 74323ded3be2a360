(** The unit tests of /repo that are not circuits of [circuit_tests!] (those are in RepoTests.v). *)
From Coq Require Import ZArith Bool String List.
From Verif.Model Require Import Base CS TestCS Bellpepper Util Poly Bignat Ints Median Difficulty.
Import ListNotations.
Local Open Scope string_scope.
Local Open Scope Z_scope.
Local Open Scope list_scope.

Section UnitTests.
Context {E : Env}.

(** The value asserted by a test that unwraps the result of its circuit. *)
Definition test_value {A} (m : prog A) : res A := fst (run_test true m st_init).
(** [let _ = m; cs.is_satisfied()]: an error of [m] is dropped, and the constraints emitted so far are checked. *)
Definition test_satisfied {A} (m : prog A) : res bool :=
  match run_test true m st_init with
  | (Panic, _) => Panic
  | (_, s) => Ok (satb (asg s) s)
  end.

(** [.unwrap().get_value().unwrap()] on a gadget called in namespace [nm]. *)
Definition bool_u (nm : string) (m : prog Boolean) : prog bool :=
  let! r := unwrap_prog (ns (Nm nm) m) in lift (unwrap (bool_val r)).

(** util/convert.rs:48-73: each side of the assertions of the four conversion tests, for a literal [s] of a number [n]. *)
Definition test_nat_to_f (n : Z) (s : string) : res bool :=
  let? e := unwrap (from_str_vartime s) in let? x := unwrap (nat_to_f n) in Ok (x =? e).
(** util/convert.rs:55-60 [test_f_to_nat]. *)
Definition test_f_to_nat (n : Z) (s : string) : res bool :=
  let? e := unwrap (from_str_vartime s) in Ok (f_to_nat e =? n).
(** util/convert.rs:62-67 [test_usize_to_f]. *)
Definition test_usize_to_f (n : Z) (s : string) : res bool :=
  let? e := unwrap (from_str_vartime s) in Ok (usize_to_f n =? e).
(** util/convert.rs:69-74 [test_f_to_usize]. *)
Definition test_f_to_usize (n : Z) (s : string) : res bool :=
  let? e := unwrap (from_str_vartime s) in let? x := f_to_usize e in Ok (x =? n).

(** median.rs:233-239 [test_median_compute]. *)
Definition test_median_compute (ts : list Z) : res Z := let? (m, _) := compute_median_timestamp ts in Ok m.
(** median.rs:241-250 [test_median_verify]: the vector has been sorted in place when it is verified. *)
Definition test_median_verify (ts : list Z) : prog bool :=
  let! (m, l) := lift (compute_median_timestamp ts) in
  bool_u "verify median" (verify_median_timestamp l m).
(** median.rs:252-261, 274-284 and 286-296 [test_equals], [test_less_than], [test_less_than_equal]. *)
Definition test_two (nm : string) (f : allocated_num -> allocated_num -> prog Boolean) (x y : Z) : prog bool :=
  let! c := an_u "c" (Ok (from_u64 x)) in
  let! d := an_u "d" (Ok (from_u64 y)) in
  bool_u nm (f c d).
(** median.rs:252-261 [test_equals]. *)
Definition test_equals (x y : Z) : prog bool := test_two "check equal" equals x y.
(** median.rs:274-284 [test_less_than]. *)
Definition test_less_than (x y : Z) (n : nat) : prog bool := test_two "r2" (fun c d => less_than c d n) x y.
(** median.rs:286-296 [test_less_than_equal]. *)
Definition test_less_than_equal (x y : Z) (n : nat) : prog bool := test_two "r2" (fun c d => leq c d n) x y.
(** median.rs:263-272 [test_fits_in_bits]. *)
Definition test_fits_in_bits (v : Z) (n : nat) : prog unit :=
  let! x := num_u "value to check fit" (Ok (from_u64 v)) in
  ns (Nm "check if fits in bits") (fits_in_bits x n).

(** difficulty_update.rs:123-141 and 143-184 [test_trivial_difficulty], [test_btc_header_difficulty]. *)
Definition test_difficulty (tar_u tar_l prev_u prev_l t_sum : Z) : prog unit :=
  ns (Nm "trivial") (verify_difficulty_update tar_u tar_l prev_u prev_l t_sum).
(** difficulty_update.rs:200-210 and 224-234: a field element from two halves. *)
Definition halves_to_f (u l : Z) : res Z :=
  let? u2 := checked 128 (u * 2) in Ok (fadd (fmul (from_u128 (2 ^ 127)) (from_u128 u2)) (from_u128 l)).
(** difficulty_update.rs:186-247 [test_calc_new_target]: the digits it compares. *)
Definition test_calc_new_target (prev_u prev_l t_sum tar_u tar_l : Z) : prog (list Z) :=
  let! prev := an_u "780k block target" (halves_to_f prev_u prev_l) in
  let! ts := an_u "sum of timestamps" (Ok (from_u64 t_sum)) in
  let! _ := an_u "800k block target" (halves_to_f tar_u tar_l) in
  let! b := unwrap_prog (ns (Nm "calculates difficulty") (calculate_difficulty_update prev ts)) in
  let! v := lift (unwrap (value b)) in
  Ret (digits (2 ^ 64) v).

(** hash_target.rs:38-58 [test_hash_target] and prev_block_hash.rs:43-61 [test_hash_previous] (modules not compiled in). *)
Definition test_hash_target (hash_u hash_l tar_u tar_l : Z) : prog bool :=
  bool_u "trivial" (verify_current_hash hash_u hash_l tar_u tar_l).
(** prev_block_hash.rs:43-61 [test_hash_previous]. *)
Definition test_hash_previous (blk hsh : list Z) : prog unit :=
  ns (Nm "prev_hash") (check_prev_hash blk hsh).

End UnitTests.
