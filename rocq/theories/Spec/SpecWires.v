(** Which variables carry the words given to a circuit that allocates their bits. *)
From Coq Require Import ZArith List.
From Verif.Model Require Import CS.
Import ListNotations.

(** [k] words allocated from auxiliary variable [n] on, 64 bits each, low-order bit first:
    their bits from the highest-order one of the first word down. *)
Definition word_vars (n k : nat) : list var :=
  flat_map (fun j => rev (map (fun i => VAux (n + 64 * j + i)) (seq 0 64))) (seq 0 k).
