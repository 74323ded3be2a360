(** Vocabulary for naming in a constraint system. *)
From Coq Require Import ZArith Bool String List.
From Verif.Model Require Import Base CS TestCS.
Import ListNotations.

(** A path that lies strictly below another one (paths are innermost first). *)
Definition below (p path : list string) : Prop := exists q nm, p = q ++ nm :: path.

(** Nothing has been named yet below the current namespace, and no component contains a '/'. *)
Definition fresh_namespace (s : st) : Prop :=
  (forall p, In p (st_names s) -> p <> [] /\ ~ below p (st_path s)) /\
  Forall (Forall (fun c => no_slash c = true)) (st_path s :: st_names s).

(** Called in any fresh namespace, a program behaves in a [TestConstraintSystem] as if names did not matter, and on
    success it leaves the namespace it was called in as the current one, having named only things below it. *)
Definition well_named {A} (m : prog A) : Prop :=
  forall wit s, fresh_namespace s ->
  run_test wit m s = run wit m s /\
  forall a s', run wit m s = (Ok a, s') ->
    st_path s' = st_path s /\ exists new, st_names s' = new ++ st_names s /\ Forall (fun p => below p (st_path s)) new.
