(** Subtraction whose result is range-checked by the caller, as a comparison of two numbers. *)
From Coq Require Import String ZArith List.
From Verif.Model Require Import Base CS Bellpepper Util Bignat.
Local Open Scope string_scope.

Section CheckedSub.
Context {E : Env}.
(** The difference, and the check of its limbs that the subtraction itself leaves out. *)
Definition checked_sub (a b : bignat) : prog bignat :=
  let! d := ns (Nm "difference") (Bignat.sub a b) in
  let! _ := ns (Nm "difference rangecheck") (assert_well_formed d) in
  Ret d.
End CheckedSub.
