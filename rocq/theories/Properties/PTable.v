(** C112: a table entry at a position that the prover chooses. *)
From Coq Require Import ZArith Bool List.
From Verif.Model Require Import Base CS Bellpepper Util Poly Bignat Gadget Fields F64.
From Verif.Spec Require Import Spec SpecF64 SpecExact SpecWide SpecTable.
From Verif.Proofs Require Import PrimeFields F64P TopF64 Wide Table.
Import ListNotations.
Local Open Scope Z_scope.

(** Any field, widths and limb values, any prover: exactly the entries of the table can be picked, padded to the longest one. *)
Theorem C112_pick : forall (E : Env) (W : Wf E) wit cs table As D s out s' rho0, good_for rho0 s ->
  Forall2 (fun b A => well_shaped b /\ Forall2 (carries_for rho0 s) (limbs b) A) table As -> run wit (pick cs table) s = (Ok out, s') ->
  (completed s rho0 s' (fun rho => wires rho (limbs out) = D) <->
   exists A, In A As /\ D = padded (list_max (map (@length Z) As)) A).
Proof. exact @pick_exact. Qed.
Print Assumptions C112_pick.

(** Any prover: a number passes the comparison exactly if it is in the table. *)
Theorem C112_member : forall (E : Env) (W : Wf E), usual_field E -> forall wit cs x table X As s u s' rho0,
  good_for rho0 s -> num64 rho0 s x X -> Forall2 (num64 rho0 s) table As -> run wit (member cs x table) s = (Ok u, s') ->
  (completed s rho0 s' (fun _ => True) <-> In (int64 X) (map int64 As)).
Proof. exact @member_exact. Qed.
Print Assumptions C112_member.

(** The honest run completes for every position and passes exactly if the entry there is the number; the first bit counts most. *)
Theorem C112_verdict : forall (E : Env) (W : Wf E), usual_field E -> forall xs x table X As s,
  good s -> num64_at s x X -> Forall2 (num64_at s) table As -> length table = (2 ^ length xs)%nat ->
  exists s', run true (member (map Some xs) x table) s = (Ok tt, s') /\
    (good s' <-> int64 X = int64 (nth (Z.to_nat (bits_value (rev xs))) As [])).
Proof. exact @member_verdict. Qed.
Print Assumptions C112_verdict.

Example C112_case : let E := pallas_f64 log2_down true in
  let three x nx y ny z nz := let! ab := (let! a := alloc_from_nat (Ok x) 64 nx in let! b := alloc_from_nat (Ok y) 64 ny in Ret (a, b)) in let! c := alloc_from_nat (Ok z) 64 nz in Ret (ab, c) in
  (exists x a b s s1 s2, run true (three 7 1%nat (2 ^ 64 + 3) 2%nat 7 3%nat) st_init = (Ok (x, a, b), s) /\ good s /\
     run true (member [Some true] x [a; b]) s = (Ok tt, s1) /\ good s1 /\
     run true (member [Some false] x [a; b]) s = (Ok tt, s2) /\ ~ good s2 /\ completed s (asg s) s2 (fun _ => True)) /\
  (exists x a b s s', run true (three 8 1%nat (2 ^ 64 + 3) 2%nat 7 3%nat) st_init = (Ok (x, a, b), s) /\ good s /\
     run true (member [Some true] x [a; b]) s = (Ok tt, s') /\ ~ good s' /\ ~ completed s (asg s) s' (fun _ => True)).
Proof. exact table_witness. Qed.
