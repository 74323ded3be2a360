(** C107: one comparison at the end makes a chain of modular operations exact for every prover. *)
From Coq Require Import ZArith Bool List.
From Verif.Model Require Import Base CS Bellpepper Util Poly Bignat Fields F64.
From Verif.Spec Require Import Spec SpecF64 SpecExpr SpecModular SpecExact SpecWide SpecSub SpecResidue.
From Verif.Proofs Require Import PrimeFields F64P TopF64 Wide Residue.
Import ListNotations.
Local Open Scope Z_scope.

(** Any prover, setup or proving: exactly the limbs of the least residue of the integer expression pass. *)
Theorem C107_exact : forall (E : Env) (W : Wf E), usual_field E -> forall wit m top xs Mm T As ops R s rho0 r s',
  good_for rho0 s -> chain_inputs rho0 s m top xs Mm T As ops -> run wit (residue m top xs ops) s = (Ok r, s') ->
  (completed s rho0 s' (fun rho => wires rho (limbs r) = R) <->
   length R = length Mm /\ digits R /\ int64 R = last (grow op_value (map int64 As) ops) 0 mod int64 Mm).
Proof. exact @residue_exact. Qed.
Print Assumptions C107_exact.

(** The honest prover always succeeds. *)
Theorem C107_honest : forall (E : Env) (W : Wf E), usual_field E -> forall m top xs Mm T As ops s,
  good s -> num64_at s m Mm -> num64_at s top T -> Forall2 (num64_at s) xs As ->
  Forall (fun A => length A = length Mm) As -> 0 < int64 Mm -> int64 T = int64 Mm - 1 -> closed_ops (length xs) ops -> ops <> [] ->
  exists r s', run true (residue m top xs ops) s = (Ok r, s') /\ good s' /\ value r = Some (last (grow op_value (map int64 As) ops) 0 mod int64 Mm).
Proof. exact @residue_honest. Qed.
Print Assumptions C107_honest.

(** Powers by repeated squaring. *)
Theorem C107_power : forall (E : Env) (W : Wf E), usual_field E -> forall wit m top x Mm T A p R s rho0 r s',
  good_for rho0 s -> num64 rho0 s m Mm -> num64 rho0 s top T -> num64 rho0 s x A ->
  length A = length Mm -> 0 < int64 Mm -> int64 T = int64 Mm - 1 -> p <> 1%positive ->
  run wit (residue m top [x] (power_ops p)) s = (Ok r, s') ->
  (completed s rho0 s' (fun rho => wires rho (limbs r) = R) <-> length R = length Mm /\ digits R /\ int64 R = int64 A ^ Zpos p mod int64 Mm).
Proof. exact @residue_power. Qed.
Print Assumptions C107_power.

Theorem C107_power_honest : forall (E : Env) (W : Wf E), usual_field E -> forall m top x Mm T A p s,
  good s -> num64_at s m Mm -> num64_at s top T -> num64_at s x A ->
  length A = length Mm -> 0 < int64 Mm -> int64 T = int64 Mm - 1 -> p <> 1%positive ->
  exists r s', run true (residue m top [x] (power_ops p)) s = (Ok r, s') /\ good s' /\ value r = Some (int64 A ^ Zpos p mod int64 Mm).
Proof. exact @residue_power_honest. Qed.
Print Assumptions C107_power_honest.

(** The fifth power of 2^100 modulo 2^127 - 1 over the field of the example program: 2^119 passes, and the other number
    in two limbs with that residue does not. *)
Example C107_case : let E := pallas_f64 log2_down true in
  exists x m t s r s',
    run true (let! ab := (let! a := alloc_from_nat (Ok (2 ^ 100)) 64 2 in let! b := alloc_from_nat (Ok (2 ^ 127 - 1)) 64 2 in Ret (a, b)) in let! c := alloc_from_nat (Ok (2 ^ 127 - 2)) 64 2 in Ret (ab, c)) st_init = (Ok (x, m, t), s) /\
    good s /\ run true (residue m t [x] (power_ops 5)) s = (Ok r, s') /\ good s' /\ value r = Some (2 ^ 119) /\
    completed s (asg s) s' (fun rho => wires rho (limbs r) = [0; 2 ^ 55]) /\
    ~ completed s (asg s) s' (fun rho => wires rho (limbs r) = [2 ^ 64 - 1; 2 ^ 55 + 2 ^ 63 - 1]) /\
    (2 ^ 127 - 1 | int64 [2 ^ 64 - 1; 2 ^ 55 + 2 ^ 63 - 1] - int64 [0; 2 ^ 55]).
Proof. exact residue_witness. Qed.
