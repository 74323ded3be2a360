(** The recomputed target: what it should be, and what the code computes. *)
From Coq Require Import ZArith.
Local Open Scope Z_scope.

(** 64-bit word [i] of an integer. *)
Definition word64 (q i : Z) : Z := q / 2 ^ (64 * i) mod 2 ^ 64.

(** Bitcoin keeps the three leading bytes of an integer of [n] bytes. *)
Definition has_bytes (q n : Z) : Prop := 2 ^ (8 * (n - 1)) <= q < 2 ^ (8 * n).
Definition three_bytes (q n : Z) : Z := q / 2 ^ (8 * (n - 3)) * 2 ^ (8 * (n - 3)).

(** What the code computes from the words of [q], with a shift by [e]: the words 0 and 1 added to each other rather than
    concatenated, word 2 behind a factor that is 0 when [e] exceeds 64, and word 3 left out. *)
Definition recomputed (p e q : Z) : Z :=
  (2 ^ 64 / 2 ^ e * (word64 q 2 * 2 ^ 64) + (word64 q 0 + word64 q 1) * 2 ^ 64 mod 2 ^ 128 / 2 ^ e) * 2 ^ e mod p.
