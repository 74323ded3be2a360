(** bellpepper-core 0.4 test_cs.rs [TestConstraintSystem] (external crate; src/util/test_helpers.rs and the unit
    tests run every circuit in it): like [run], but names matter. *)
From Coq Require Import ZArith Bool String Ascii List.
From Verif.Model Require Import Base CS.
Import ListNotations.
Local Open Scope string_scope.

(** The character '/' is not allowed in names. *)
Fixpoint no_slash (s : string) : bool :=
  match s with
  | EmptyString => true
  | String c s => negb (Ascii.eqb c "/"%char) && no_slash s
  end.

(** test_cs.rs [compute_path]: the components joined with '/', outermost first. *)
Fixpoint join (l : list string) : string :=
  match l with
  | [] => ""
  | [a] => a
  | a :: l => a ++ "/" ++ join l
  end.
(** test_cs.rs [compute_path]: the string of a path kept innermost first. *)
Definition path_string (p : list string) : string := join (rev p).

(** test_cs.rs [compute_path] and [set_named_obj]: the two assertions made whenever a variable, a constraint or a
    namespace is named. *)
Definition name_ok (nm : name) (s : st) : bool :=
  no_slash (render nm) &&
  negb (existsb (String.eqb (path_string (render nm :: st_path s))) (map path_string (st_names s))).

(** Running a gadget in a [TestConstraintSystem] ([wit = true]; [wit = false] is the same name discipline without
    calling closures). *)
Fixpoint run_test {A} (wit : bool) (m : prog A) (s : st) : res A * st :=
  match m with
  | Ret a => (Ok a, s)
  | Fail e => (Err e, s)
  | Crash => (Panic, s)
  | Alloc inp nm w k =>
      if no_slash (render nm) then
        if wit then
          match w with
          | Ok v => if name_ok nm s then run_test wit (k (next_var inp s) (Some v)) (push_var inp nm v s) else (Panic, s)
          | Err e => (Err e, s)
          | Panic => (Panic, s)
          end
        else if name_ok nm s then run_test wit (k (next_var inp s) None) (push_var inp nm 0 s) else (Panic, s)
      else (Panic, s)
  | Enforce nm c k => if name_ok nm s then run_test wit k (push_con nm c s) else (Panic, s)
  | Push nm k => if name_ok nm s then run_test wit k (push_ns nm s) else (Panic, s)
  | Pop k => run_test wit k (pop_ns s)
  end.
