(** Vocabulary for the scoping of constraints: which variables a constraint and a value refer to. *)
From Coq Require Import ZArith Bool List.
From Verif.Model Require Import Base CS Bellpepper Util Poly Bignat.
From Verif.Spec Require Import SpecUnique.
Import ListNotations.
Local Open Scope Z_scope.

Section Scope.
Context {E : Env}.

(** The variable has been allocated in [s]. *)
Definition known (s : st) (v : var) : Prop :=
  match v with VIn n => (n < length (st_in s))%nat | VAux n => (n < length (st_aux s))%nat end.

(** The constraint uses variables of [s] only. *)
Definition con_of (s : st) (c : constraint) : Prop :=
  match c with
  | R1 a b c => made_of s a /\ made_of s b /\ made_of s c
  | ShaC ins outs => Forall (made_of s) ins /\ Forall (made_of s) outs
  end.

(** There is the constant-one variable, and every constraint uses variables of [s] only. *)
Definition closed (s : st) : Prop := known s ONE /\ Forall (con_of s) (st_cons s).

(** Values that refer to variables of [s] only. *)
Definition bool_of (s : st) (b : Boolean) : Prop :=
  match b with BIs a => known s (ab_var a) | BNot a => known s (ab_var a) | BConst _ => True end.
Definition bits_in (s : st) (b : bitvector) : Prop :=
  Forall (made_of s) (bv_bits b) /\ Forall (fun x => made_of s (b_lc x)) (bv_allocs b).
Definition poly_of (s : st) (p : polynomial) : Prop := Forall (made_of s) (p_coeffs p).
Definition nums_of (s : st) (l : list allocated_num) : Prop := Forall (fun a => known s (an_var a)) l.

(** [s'] is [s] with variables and constraints added. *)
Definition grown (s s' : st) : Prop :=
  exists i a c, st_in s' = st_in s ++ i /\ st_aux s' = st_aux s ++ a /\ st_cons s' = c ++ st_cons s.

(** A call of [m] from a closed state whose arguments satisfy [P] ends, also with an error or a panic, in a closed state;
    if it completes, the result satisfies [Q] there. *)
Definition scoped {A} (m : prog A) (P : st -> Prop) (Q : st -> A -> Prop) : Prop :=
  forall wit s r s', closed s -> P s -> run wit m s = (r, s') ->
  closed s' /\ forall a, r = Ok a -> Q s' a.

(** Nothing that [m] allocates is left open by its constraints, when the state and the first assignment satisfy [P]. *)
Definition determined {A} (m : prog A) (P : st -> assignment -> Prop) : Prop :=
  forall wit s a s' r1 r2, P s r1 -> twice wit m s a s' r1 r2 -> alike s' r1 r2.

End Scope.
