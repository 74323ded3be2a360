(** Histories of a lazily computed cell: borrows and drops of the references they return. *)
From Coq Require Import List.
From Verif.Model Require Import Base Util.
Import ListNotations.

Inductive lazy_op := LBorrow | LDrop.

(** The outcomes of the borrows in a history, in order, and the cell after it. *)
Fixpoint lazy_history {T} (c : lazy_cell T) (ops : list lazy_op) : list (res T) * lazy_cell T :=
  match ops with
  | [] => ([], c)
  | LBorrow :: ops =>
      let '(r, c') := lazy_borrow c in
      let '(rs, c'') := lazy_history c' ops in (r :: rs, c'')
  | LDrop :: ops => lazy_history (lazy_release c) ops
  end.

(** What the borrows should return when [n] references are alive: the value of the closure if none
    is, a panic otherwise; a borrow that panics leaves no reference behind. *)
Fixpoint lazy_expected {T} (f : option T) (n : nat) (ops : list lazy_op) : list (res T) :=
  match ops with
  | [] => []
  | LBorrow :: ops =>
      match n, f with
      | O, Some t => Ok t :: lazy_expected f 1 ops
      | _, _ => Panic :: lazy_expected f n ops
      end
  | LDrop :: ops => lazy_expected f (pred n) ops
  end.
