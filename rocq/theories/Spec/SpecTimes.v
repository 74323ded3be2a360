(** The timestamps that the step circuit takes from the state (header_step.rs:251-257). *)
From Coq Require Import ZArith List.
From Verif.Model Require Import Base CS Bellpepper.
Local Open Scope Z_scope.

(** The state carries eleven timestamps, at positions 1 to 11 (header_step.rs:65-96). *)
Definition a_time (i : nat) : Prop := (1 <= i <= 11)%nat.

(** What the state has at a position: nothing, or an element with or without a value. *)
Definition entry (z : list allocated_num) (i : nat) : option (option Z) := option_map an_val (nth_error z i).

(** Two states with positive timestamps that agree in their low 32 bits. *)
Definition low_agree {E : Env} (z z' : list allocated_num) : Prop :=
  forall i, a_time i -> exists v v', entry z i = Some (Some v) /\ entry z' i = Some (Some v') /\
    0 < v < modulus /\ 0 < v' < modulus /\ v mod 2 ^ 32 = v' mod 2 ^ 32.
