(** A sorted copy of a list of numbers: switches set by the prover, then comparisons along the result. *)
From Coq Require Import String ZArith List.
From Verif.Model Require Import Base CS Bellpepper Util Bignat Gadget.
From Verif.Spec Require Import Spec SpecSub SpecOrder.
Import ListNotations.
Local Open Scope string_scope.

Section Sort.
Context {E : Env}.
(** What the caller's honest prover uses for the bit of a switch: whether the second number is the smaller one. *)
Definition hint (x y : bignat) : option bool :=
  match value x, value y with Some a, Some b => Some (b <? a)%Z | _, _ => None end.
(** The number passes the numbers of the list one by one; at each switch one of the two goes on. *)
Fixpoint insert_in (x : bignat) (ys : list bignat) : prog (list bignat) :=
  match ys with
  | [] => Ret [x]
  | y :: ys =>
      let! c := ns (Nm "bit") (bit_alloc (hint x y)) in
      let! p := ns (Nm "switch") (switch c x y) in
      let! r := ns (Nm "rest") (insert_in (snd p) ys) in
      Ret (fst p :: r)
  end.
Fixpoint arrange (xs : list bignat) : prog (list bignat) :=
  match xs with
  | [] => Ret []
  | x :: xs => let! ys := ns (Nm "others") (arrange xs) in ns (Nm "insert") (insert_in x ys)
  end.
Definition sorted_copy (xs : list bignat) : prog (list bignat) :=
  let! ys := ns (Nm "arrange") (arrange xs) in
  let! _ := ns (Nm "order") (ascending ys) in
  Ret ys.
End Sort.
