(** Rust's fixed-width unsigned integer operators, in both cargo profiles: with overflow checks
    (debug) an out-of-range result or shift amount panics; without (release) it wraps. *)
From Coq Require Import ZArith Bool List.
From Verif.Model Require Import Base.
Import ListNotations.
Local Open Scope Z_scope.

Section Ints.
Context {E : Env}.

(** The number of values of a [w]-bit integer. *)
Definition two_to (w : Z) : Z := 2 ^ w.

(** Arithmetic at width [w]: the exact result [r], or panic, or wrap. *)
Definition checked (w r : Z) : res Z :=
  if (0 <=? r) && (r <? two_to w) then Ok r
  else if overflow_checks then Panic else Ok (r mod two_to w).

(** Shift amounts at width [w]: in range, or panic, or masked ([w] is a power of two). *)
Definition amount (w n : Z) : res Z :=
  if n <? w then Ok n else if overflow_checks then Panic else Ok (n mod w).

(** [u64] addition (header_step.rs:149, 194, 197, 274). *)
Definition u64_add (a b : Z) : res Z := checked 64 (a + b).
(** [u64] subtraction (header_step.rs:193-194, 272-273). *)
Definition u64_sub (a b : Z) : res Z := checked 64 (a - b).
(** [u64] multiplication (header_step.rs:149). *)
Definition u64_mul (a b : Z) : res Z := checked 64 (a * b).
(** Shift left at width [w]: bits shifted out are lost in both profiles. *)
Definition shl (w a n : Z) : res Z :=
  let? k := amount w n in Ok (Z.shiftl a k mod two_to w).
(** Shift right at width [w]. *)
Definition shr (w a n : Z) : res Z :=
  let? k := amount w n in Ok (Z.shiftr a k).
(** [u64] shift left (header_step.rs:193-197, 272-274). *)
Definition u64_shl (a n : Z) : res Z := shl 64 a n.
(** [u64] shift right (header_step.rs:190-194, 271-273). *)
Definition u64_shr (a n : Z) : res Z := shr 64 a n.
(** [u128] shift left (header_step.rs:167, 172, 201-202, 208, 334-336, 341). *)
Definition u128_shl (a n : Z) : res Z := shl 128 a n.
(** [u128] shift right (header_step.rs:334, 336). *)
Definition u128_shr (a n : Z) : res Z := shr 128 a n.

(** num-bigint [to_u32_digits] / [to_u64_digits] of a non-negative number: little-endian digits
    without leading zeros; empty for zero. *)
Fixpoint digits_fuel (fuel : nat) (base n : Z) : list Z :=
  match fuel with
  | O => []
  | S fuel => if n <=? 0 then [] else n mod base :: digits_fuel fuel base (n / base)
  end.
(** num-bigint [to_u32_digits] (header_step.rs:254) and [to_u64_digits] (header_step.rs:299, 330). *)
Definition digits (base n : Z) : list Z := digits_fuel (S (Z.to_nat (Z.log2 n))) base n.

End Ints.
