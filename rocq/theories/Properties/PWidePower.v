(** C105: chains of modular multiplications and powers on numbers in full 64-bit limbs over the fields in use. *)
From Coq Require Import ZArith Bool List.
From Verif.Model Require Import Base CS Bellpepper Util Poly Bignat Fields F64.
From Verif.Spec Require Import Spec SpecF64 SpecExpr SpecModular SpecExact SpecWide.
From Verif.Proofs Require Import PrimeFields F64P TopF64 Wide WidePower.
Import ListNotations.
Local Open Scope Z_scope.

(** Every result a prover can get through is congruent to the integer computed without any reduction. *)
Theorem C105_chain_sound : forall (E : Env) (W : Wf E), usual_field E -> forall wit m xs Mm As ops s rho0 zs s' rho,
  num64 rho0 s m Mm -> Forall2 (num64 rho0 s) xs As -> Forall (fun A => length A = length Mm) As ->
  closed_ops (length xs) ops -> run wit (program m xs ops) s = (Ok zs, s') -> same_on s rho rho0 -> sat rho s' ->
  Forall2 (fun z v => (int64 Mm | v - int_of rho z)) zs (grow op_value (map int64 As) ops).
Proof. exact @wide_chain_sound. Qed.
Print Assumptions C105_chain_sound.

(** The honest prover gets through every chain, with the reduced results. *)
Theorem C105_chain_complete : forall (E : Env) (W : Wf E), usual_field E -> forall m xs Mm As ops s,
  good s -> num64_at s m Mm -> Forall2 (num64_at s) xs As -> Forall (fun A => length A = length Mm) As ->
  0 < int64 Mm -> closed_ops (length xs) ops ->
  exists zs s' Zs, run true (program m xs ops) s = (Ok zs, s') /\ good s' /\ Forall2 (bignat_at s') zs Zs /\
    map int64 Zs = grow (op_reduced (int64 Mm)) (map int64 As) ops.
Proof. exact @wide_chain_complete. Qed.
Print Assumptions C105_chain_complete.

(** Whoever knows the input wires can complete any finished circuit to the reduced results. *)
Theorem C105_chain_any : forall (E : Env) (W : Wf E), usual_field E -> forall wit m xs Mm As ops s rho0 zs s',
  good_for rho0 s -> num64 rho0 s m Mm -> Forall2 (num64 rho0 s) xs As -> Forall (fun A => length A = length Mm) As ->
  0 < int64 Mm -> closed_ops (length xs) ops -> run wit (program m xs ops) s = (Ok zs, s') ->
  completed s rho0 s' (fun rho => map (int_of rho) zs = grow (op_reduced (int64 Mm)) (map int64 As) ops).
Proof. exact @wide_chain_any. Qed.
Print Assumptions C105_chain_any.

(** Powers, for every exponent: what a prover can get through, and the result of the honest prover. *)
Theorem C105_power_sound : forall (E : Env) (W : Wf E), usual_field E -> forall wit m x Mm A p s rho0 zs s' rho,
  num64 rho0 s m Mm -> num64 rho0 s x A -> length A = length Mm ->
  run wit (program m [x] (power_ops p)) s = (Ok zs, s') -> same_on s rho rho0 -> sat rho s' ->
  let z := int_of rho (last zs x) in
  (int64 Mm | int64 A ^ Zpos p - z) /\ 0 <= z < 2 ^ Z.of_nat (64 * length Mm) /\
  (z < int64 Mm -> z = int64 A ^ Zpos p mod int64 Mm).
Proof. exact @wide_power_sound. Qed.
Print Assumptions C105_power_sound.

Theorem C105_power_complete : forall (E : Env) (W : Wf E), usual_field E -> forall m x Mm A p s,
  good s -> num64_at s m Mm -> num64_at s x A -> length A = length Mm -> int64 A < int64 Mm ->
  exists zs s' R, run true (program m [x] (power_ops p)) s = (Ok zs, s') /\ good s' /\
    bignat_at s' (last zs x) R /\ int64 R = int64 A ^ Zpos p mod int64 Mm.
Proof. exact @wide_power_complete. Qed.
Print Assumptions C105_power_complete.

Theorem C105_power_any : forall (E : Env) (W : Wf E), usual_field E -> forall wit m x Mm A p s rho0 zs s',
  good_for rho0 s -> num64 rho0 s m Mm -> num64 rho0 s x A -> length A = length Mm -> int64 A < int64 Mm ->
  run wit (program m [x] (power_ops p)) s = (Ok zs, s') ->
  completed s rho0 s' (fun rho => int_of rho (last zs x) = int64 A ^ Zpos p mod int64 Mm).
Proof. exact @wide_power_any. Qed.
Print Assumptions C105_power_any.

(** The fifth power of 2^100 modulo 2^127 - 1 over the field of the example program. *)
Example C105_case : let E := pallas_f64 log2_down true in
  exists x m s zs s' R, run true (let! x := alloc_from_nat (Ok (2 ^ 100)) 64 2 in let! m := alloc_from_nat (Ok (2 ^ 127 - 1)) 64 2 in Ret (x, m)) st_init = (Ok (x, m), s) /\
    good s /\ closed_ops 1 (power_ops 5) /\ run true (program m [x] (power_ops 5)) s = (Ok zs, s') /\ good s' /\ bignat_at s' (last zs x) R /\ int64 R = 2 ^ 119.
Proof. exact wide_power_witness. Qed.
