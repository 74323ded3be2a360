(** Comparisons by checked subtraction along a list, and a minimum chosen by the prover. *)
From Coq Require Import String ZArith List.
From Verif.Model Require Import Base CS Bellpepper Util Bignat Gadget.
From Verif.Spec Require Import Spec SpecSub.
Import ListNotations.
Local Open Scope string_scope.

Section Order.
Context {E : Env}.
(** Each number of the list from the second on, less the one before it. *)
Fixpoint ascend (i : nat) (a : bignat) (bs : list bignat) : prog unit :=
  match bs with
  | [] => Ret tt
  | b :: bs => let! _ := ns (Nmi "step " i "") (checked_sub b a) in ascend (S i) b bs
  end.
Definition ascending (bs : list bignat) : prog unit :=
  match bs with [] => Ret tt | a :: bs => ascend 0 a bs end.

(** The caller lets the prover choose one of two numbers ([c] is the choice: the second if it is true) and
    compares the chosen one with both. *)
Definition chosen_min (c : option bool) (a b : bignat) : prog bignat :=
  let! x := ns (Nm "choice") (bit_alloc c) in
  let! m := ns (Nm "chosen") (mux x a b) in
  let! _ := ns (Nm "first") (checked_sub a m) in
  let! _ := ns (Nm "second") (checked_sub b m) in
  Ret m.
End Order.
