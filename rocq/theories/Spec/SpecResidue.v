(** A chain of modular operations whose last result is compared with the modulus less one. *)
From Coq Require Import String ZArith List.
From Verif.Model Require Import Base CS Bellpepper Util Bignat.
From Verif.Spec Require Import Spec SpecExpr SpecModular SpecWide SpecSub.
Import ListNotations.
Local Open Scope string_scope.

Section Residue.
Context {E : Env}.
(** [top] is to hold the modulus less one. *)
Definition residue (m top : bignat) (xs : list bignat) (ops : list op) : prog bignat :=
  let! zs := program m xs ops in
  let! _ := ns (Nm "below the modulus") (checked_sub top (List.last zs top)) in
  Ret (List.last zs top).

(** What the caller provides: a modulus, the number one below it, and operands as long as the modulus, all in 64-bit
    limbs; at least one operation, each on earlier numbers. *)
Local Open Scope Z_scope.
Definition chain_inputs (rho0 : assignment) (s : st) (m top : bignat) (xs : list bignat) (Mm T : list Z) (As : list (list Z)) (ops : list op) : Prop :=
  num64 rho0 s m Mm /\ num64 rho0 s top T /\ Forall2 (num64 rho0 s) xs As /\ Forall (fun A => List.length A = List.length Mm) As /\
  0 < int64 Mm /\ int64 T = int64 Mm - 1 /\ closed_ops (List.length xs) ops /\ ops <> [].
End Residue.
