(** Numbers in full 64-bit limbs over the fields in use (255 bits), for the statements without side conditions. *)
From Coq Require Import ZArith List.
From Verif.Model Require Import Base CS Bellpepper Util Bignat.
From Verif.Spec Require Import Spec SpecF64 SpecExpr SpecModular.
Import ListNotations.
Local Open Scope Z_scope.

(** Carry widths as the code computes them, and a modulus of 237 to 256 bits. *)
Definition usual_field (E : Env) : Prop := f64_carries E /\ (237 <= NUM_BITS <= 256)%nat.

(** The integer with 64-bit digits [xs]. *)
Definition int64 (xs : list Z) : Z := value_of (2 ^ 64) xs.
Definition digits (xs : list Z) : Prop := Forall (fun v => 0 <= v < 2 ^ 64) xs.

Section Wide.
Context {E : Env}.
(** The parameters [alloc_from_nat] records with 64-bit limbs; at least one limb and at most 2^40. *)
Definition plain64 (b : bignat) (xs : list Z) : Prop :=
  limb_width (bparams b) = 64%nat /\ max_word (bparams b) = 2 ^ 64 - 1 /\ min_bits (bparams b) = 0%nat /\
  xs <> [] /\ Z.of_nat (length xs) <= 2 ^ 40.
(** The wires of [b] have the values [xs] for an assignment, or in an honest run. *)
Definition num64 (rho0 : assignment) (s : st) (b : bignat) (xs : list Z) : Prop := bignat_for rho0 s b xs /\ plain64 b xs.
Definition num64_at (s : st) (b : bignat) (xs : list Z) : Prop := bignat_at s b xs /\ plain64 b xs.
(** Some assignment that keeps the values of [s] satisfies [s'] and has the property. *)
Definition completed (s : st) (rho0 : assignment) (s' : st) (P : assignment -> Prop) : Prop :=
  exists rho, same_on s rho rho0 /\ sat rho s' /\ P rho.
End Wide.

(** Modular multiplications and reductions only, each operand an input or an earlier result ([k] of them so far). *)
Fixpoint closed_ops (k : nat) (ops : list op) : Prop :=
  match ops with
  | [] => True
  | OMul i j :: ops => (i < k)%nat /\ (j < k)%nat /\ closed_ops (S k) ops
  | ORed i :: ops => (i < k)%nat /\ closed_ops (S k) ops
  | OAdd _ _ :: _ => False
  end.
