(** Vocabulary of the exact conditions under which the carried comparisons of products are satisfied. *)
From Coq Require Import ZArith List.
From Verif.Spec Require Import Spec.
Local Open Scope Z_scope.

(** Two sides of [nl] and [nr] limbs are merged [g] limbs at a time; the limbs of either side from this
    position on have no counterpart. *)
Definition common_limbs (g nl nr : nat) : nat := (Nat.min (n_groups nl g) (n_groups nr g) * g)%nat.

(** The product of [A] and [B] on one side, the product of [Q] and [M] plus [R] on the other: every limb
    without a counterpart is zero. *)
Definition no_excess (g : nat) (A B Q M R : list Z) : Prop :=
  forall i, (common_limbs g (length A + length B - 1) (Nat.max (length Q + length M - 1) (length R)) <= i)%nat ->
    conv A B i = 0 /\ conv Q M i = 0 /\ nth i R 0 = 0.
