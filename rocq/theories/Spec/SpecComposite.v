(** A proper divisor supplied by the prover. *)
From Coq Require Import String ZArith List.
From Verif.Model Require Import Base CS Bellpepper Util Bignat.
From Verif.Spec Require Import Spec SpecSub.
Local Open Scope string_scope.

Section Composite.
Context {E : Env}.
(** The caller allocates [n] limbs for the divisor ([f] is what the prover supplies), requires at least two bits,
    that it divides [c], and that it is not above [top], which is to hold [c] less one. *)
Definition proper_divisor (f : res Z) (n : nat) (c top : bignat) : prog bignat :=
  let! x := ns (Nm "divisor") (alloc_from_nat f 64 n) in
  let! x := ns (Nm "at least two") (enforce_min_bits x 2) in
  let! _ := ns (Nm "divides") (divides x c) in
  let! _ := ns (Nm "proper") (checked_sub top x) in
  Ret x.
End Composite.
