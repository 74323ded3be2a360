(** Sizes of circuits: how many inputs, auxiliary variables and constraints a gadget adds. *)
From Coq Require Import ZArith List.
From Verif.Model Require Import Base CS.
From Verif.Spec Require Import Spec.
Local Open Scope nat_scope.

(** Every successful run adds exactly [i] inputs, [a] auxiliary variables and [k] constraints,
    with witnesses or without. *)
Definition has_size {A} (m : prog A) (i a k : nat) : Prop := forall wit s x s',
  run wit m s = (Ok x, s') ->
  length (st_in s') = length (st_in s) + i /\
  length (st_aux s') = length (st_aux s) + a /\
  length (st_cons s') = length (st_cons s) + k.

Section Size.
Context {E : Env}.

(** Comparison after carrying of [la] and [lb] limbs up to [M] in base 2^[w]: a carry per common
    limb, all but the last decomposed, and a constraint per surplus limb. *)
Definition carried_aux (M : Z) (w la lb : nat) : nat :=
  let n := Nat.min la lb in n + (n - 1) * (carry_width M w - 1).
Definition carried_cons (M : Z) (w la lb : nat) : nat :=
  let n := Nat.min la lb in n + (n - 1) * carry_width M w + Nat.min 1 n + (Nat.max la lb - n).

(** The same with limbs merged first. *)
Definition grouped_aux (M : Z) (w la lb : nat) : nat :=
  let g := group_size M w in
  carried_aux (group_word M w) (w * g) (n_groups la g) (n_groups lb g).
Definition grouped_cons (M : Z) (w la lb : nat) : nat :=
  let g := group_size M w in
  carried_cons (group_word M w) (w * g) (n_groups la g) (n_groups lb g).

(** Range check of [n] limbs of [w] bits. *)
Definition range_aux (n w : nat) : nat := n * (w - 1).
Definition range_cons (n w : nat) : nat := n * Nat.max 1 w.

(** The largest limb of [w] bits. *)
Definition full_word (w : nat) : Z := (2 ^ Z.of_nat w - 1)%Z.

(** Product of [n] limbs up to [x] and [m] limbs up to [y] checked against [k] limbs up to [z]: the
    coefficients and a grouped comparison. *)
Definition check_aux (n : nat) (x : Z) (m : nat) (y : Z) (k : nat) (z : Z) (w : nat) : nat :=
  (n + m - 1) + grouped_aux (Z.max (product_word n x m y) z) w (n + m - 1) k.
Definition check_cons (n : nat) (x : Z) (m : nat) (y : Z) (k : nat) (z : Z) (w : nat) : nat :=
  (n + m - 1) + grouped_cons (Z.max (product_word n x m y) z) w (n + m - 1) k.

(** A quotient of [q] limbs times a modulus of [m] limbs up to [y], plus a remainder of [r] limbs up
    to [z]: the number of coefficients and the bound on them. *)
Definition right_len (q m r : nat) : nat := Nat.max (q + m - 1) r.
Definition right_word (q m : nat) (y z : Z) (w : nat) : Z := (product_word q (full_word w) m y + z)%Z.

End Size.
