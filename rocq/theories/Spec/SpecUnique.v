(** Vocabulary for the uniqueness of the wires a gadget allocates. *)
From Coq Require Import ZArith Bool List.
From Verif.Model Require Import Base CS Bellpepper Util Poly Bignat.
Import ListNotations.
Local Open Scope Z_scope.

Section Unique.
Context {E : Env}.

(** The two assignments give every variable allocated in [s] the same field element. *)
Definition alike (s : st) (r1 r2 : assignment) : Prop :=
  (forall n, (n < length (st_in s))%nat -> fmk (r1 (VIn n)) = fmk (r2 (VIn n))) /\
  (forall n, (n < length (st_aux s))%nat -> fmk (r1 (VAux n)) = fmk (r2 (VAux n))).

(** The same except possibly on the variables of [free]. *)
Definition alike_but (free : list var) (s : st) (r1 r2 : assignment) : Prop :=
  (forall n, (n < length (st_in s))%nat -> ~ In (VIn n) free -> fmk (r1 (VIn n)) = fmk (r2 (VIn n))) /\
  (forall n, (n < length (st_aux s))%nat -> ~ In (VAux n) free -> fmk (r1 (VAux n)) = fmk (r2 (VAux n))).

(** The linear combination uses variables of [s] only. *)
Definition made_of (s : st) (l : LC) : Prop :=
  forall c v, In (c, v) l -> match v with VIn n => (n < length (st_in s))%nat | VAux n => (n < length (st_aux s))%nat end.

Definition over (s : st) (b : bignat) : Prop := Forall (made_of s) (limbs b).

(** A completed call of [m] from [s], and two assignments that satisfy everything up to its end and give the variables that
    were there before the call the same values. *)
Definition twice {A} (wit : bool) (m : prog A) (s : st) (a : A) (s' : st) (r1 r2 : assignment) : Prop :=
  run wit m s = (Ok a, s') /\ sat r1 s' /\ sat r2 s' /\ alike s r1 r2.

End Unique.
