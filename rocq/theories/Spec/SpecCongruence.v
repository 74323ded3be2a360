(** A linear congruence with the unknown supplied by the prover. *)
From Coq Require Import String ZArith List.
From Verif.Model Require Import Base CS Bellpepper Util Bignat.
From Verif.Spec Require Import Spec.
Local Open Scope string_scope.

Section Congruence.
Context {E : Env}.
(** The caller allocates [n] limbs for the unknown ([f] is what the prover supplies), range-checks them and requires the
    product with [a] to leave the remainder [r] modulo [m]. *)
Definition congruence (f : res Z) (n : nat) (a m r : bignat) : prog bignat :=
  let! x := ns (Nm "unknown") (alloc_from_nat f 64 n) in
  let! _ := ns (Nm "unknown rangecheck") (assert_well_formed x) in
  let! _ := ns (Nm "product") (assert_product_mod a x m r) in
  Ret x.
End Congruence.
