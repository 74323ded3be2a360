(** Membership in a table of numbers, with the position chosen by the prover. *)
From Coq Require Import String ZArith List.
From Verif.Model Require Import Base CS Bellpepper Util Bignat Gadget.
Import ListNotations.
Local Open Scope string_scope.

Section Table.
Context {E : Env}.
(** The bits of the position, most significant first. *)
Fixpoint choice_bits (i : nat) (cs : list (option bool)) : prog (list bit) :=
  match cs with
  | [] => Ret []
  | c :: cs =>
      let! b := ns (Nmi "bit " i "") (bit_alloc c) in
      let! bs := choice_bits (S i) cs in
      Ret (b :: bs)
  end.
(** The caller selects an entry by bits that the prover supplies. *)
Definition pick (cs : list (option bool)) (table : list bignat) : prog bignat :=
  let! bits := ns (Nm "position") (choice_bits 0 cs) in
  ns (Nm "entry") (mux_tree bits table).
(** And compares it with a given number. *)
Definition member (cs : list (option bool)) (x : bignat) (table : list bignat) : prog unit :=
  let! y := ns (Nm "pick") (pick cs table) in
  ns (Nm "equal") (equal x y).
End Table.
