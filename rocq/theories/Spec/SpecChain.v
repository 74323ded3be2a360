(** Chains of header steps, on values. *)
From Coq Require Import ZArith List.
From Verif.Model Require Import Base CS Bellpepper HeaderStep.
From Verif.Spec Require Import Spec.
Import ListNotations.
Local Open Scope Z_scope.
Local Open Scope list_scope.

(** The last [n] entries. *)
Definition last_n {A} (n : nat) (l : list A) : list A := skipn (List.length l - n) l.

(** What a step adds to the state. *)
Record block := Block { b_hash : Z; b_time : Z; b_target : Z; b_work : Z }.
Definition sum_work (bs : list block) : Z := fold_right Z.add 0 (map b_work bs).

(** A state in which given values have been allocated, and the allocated numbers. *)
Definition vals_st (vs : list Z) : st := mkst [1] vs [] [] [].
Definition vnum (vs : list Z) (i : nat) : allocated_num := mkAN (Some (nth i vs 0)) (VAux i).

Section Chain.
Context {E : Env}.
(** The values an assignment gives to allocated numbers. *)
Definition values (rho : assignment) (l : list allocated_num) : list Z :=
  map (fun a => feval rho (lc_var (an_var a))) l.
(** One step, on values: some run of the output stage on a 16-entry vector and some satisfying assignment take the state
    [zv] to [zv'] with the hash, timestamp, target and work of [b]; the epoch start handed on is entry 13 of the state. *)
Definition step_values (b : block) (zv zv' : list Z) : Prop :=
  exists wit z_out z h t tg st w s out s' rho, List.length z_out = 16%nat /\ List.length z = 16%nat /\ nth_error z 13 = Some st /\
    run wit (stage_out z_out z h t tg st w) s = (Ok out, s') /\ sat rho s' /\
    values rho z = zv /\ values rho out = zv' /\
    feval rho (lc_var (an_var h)) = b_hash b /\ feval rho (lc_var (an_var t)) = b_time b /\
    feval rho (lc_var (an_var tg)) = b_target b /\ feval rho (lc_var (an_var w)) = b_work b.
Inductive chain : list Z -> list block -> list Z -> Prop :=
| chain_nil z : chain z [] z
| chain_cons z b z1 bs z' : step_values b z z1 -> chain z1 bs z' -> chain z (b :: bs) z'.
(** A block whose four values are field elements. *)
Definition block_ok (b : block) : Prop :=
  canon (b_hash b) /\ canon (b_time b) /\ canon (b_target b) /\ canon (b_work b).
End Chain.
