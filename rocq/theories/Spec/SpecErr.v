(** A call that never hands a [SynthesisError] to its caller, in setup or in proving: it succeeds or panics. *)
From Coq Require Import ZArith.
From Verif.Model Require Import Base CS.

Definition never_errs {A} (m : prog A) : Prop := forall wit s e, fst (run wit m s) <> Err e.
