(** C108: a product modulo m with an unknown factor is satisfiable exactly if the congruence is solvable. *)
From Coq Require Import ZArith Znumtheory Bool List.
From Verif.Model Require Import Base CS Bellpepper Util Poly Bignat Fields F64.
From Verif.Spec Require Import Spec SpecF64 SpecExact SpecWide SpecCongruence.
From Verif.Proofs Require Import PrimeFields F64P TopF64 Wide Congruence.
Import ListNotations.
Local Open Scope Z_scope.

(** Any prover: exactly the solutions of the congruence pass (with the product not below the remainder). *)
Theorem C108_exact : forall (E : Env) (W : Wf E), usual_field E -> forall wit f n a m r A Mm R B s rho0 x s',
  good_for rho0 s -> num64 rho0 s a A -> num64 rho0 s m Mm -> num64 rho0 s r R ->
  (1 <= n)%nat -> Z.of_nat n <= 2 ^ 40 -> Nat.Even (length A + n) -> 0 < int64 Mm ->
  run wit (congruence f n a m r) s = (Ok x, s') ->
  (completed s rho0 s' (fun rho => wires rho (limbs x) = B) <->
   length B = n /\ digits B /\ int64 R <= int64 A * int64 B /\ (int64 Mm | int64 A * int64 B - int64 R)).
Proof. exact @congruence_exact. Qed.
Print Assumptions C108_exact.

(** Hence satisfiable exactly if the greatest common divisor divides the remainder. *)
Theorem C108_solvable : forall (E : Env) (W : Wf E), usual_field E -> forall wit f n a m r A Mm R s rho0 x s',
  good_for rho0 s -> num64 rho0 s a A -> num64 rho0 s m Mm -> num64 rho0 s r R ->
  (length Mm <= n)%nat -> Z.of_nat n <= 2 ^ 40 -> Nat.Even (length A + n) -> int64 R < int64 Mm ->
  run wit (congruence f n a m r) s = (Ok x, s') ->
  (completed s rho0 s' (fun _ => True) <-> (Z.gcd (int64 A) (int64 Mm) | int64 R)).
Proof. exact @congruence_solvable. Qed.
Print Assumptions C108_solvable.

(** With remainder one: satisfiable exactly if the factor is coprime to the modulus, and exactly by its inverses. *)
Theorem C108_inverse : forall (E : Env) (W : Wf E), usual_field E -> forall wit f n a m r A Mm R s rho0 x s',
  good_for rho0 s -> num64 rho0 s a A -> num64 rho0 s m Mm -> num64 rho0 s r R ->
  (length Mm <= n)%nat -> Z.of_nat n <= 2 ^ 40 -> Nat.Even (length A + n) -> int64 R = 1 -> 1 < int64 Mm ->
  run wit (congruence f n a m r) s = (Ok x, s') ->
  (completed s rho0 s' (fun _ => True) <-> rel_prime (int64 A) (int64 Mm)) /\
  (forall B, completed s rho0 s' (fun rho => wires rho (limbs x) = B) <-> length B = n /\ digits B /\ (int64 A * int64 B) mod int64 Mm = 1).
Proof. exact @congruence_inverse. Qed.
Print Assumptions C108_inverse.

(** A prover supplying [v] completes the run, and the circuit holds exactly if [v] solves the congruence. *)
Theorem C108_honest : forall (E : Env) (W : Wf E), usual_field E -> forall v n a m r A Mm R s,
  good s -> num64_at s a A -> num64_at s m Mm -> num64_at s r R ->
  (1 <= n)%nat -> Z.of_nat n <= 2 ^ 40 -> Nat.Even (length A + n) -> 0 < int64 Mm -> 0 <= v < 2 ^ Z.of_nat (64 * n) ->
  exists x s', run true (congruence (Ok v) n a m r) s = (Ok x, s') /\ value x = Some v /\ (good s' <-> (int64 A * v) mod int64 Mm = int64 R).
Proof. exact @congruence_honest. Qed.
Print Assumptions C108_honest.

(** Three has an inverse modulo 2^127 - 1; six has none modulo 2^126. *)
Example C108_case : let E := pallas_f64 log2_down true in
  let three x nx y ny z nz := let! ab := (let! a := alloc_from_nat (Ok x) 64 nx in let! b := alloc_from_nat (Ok y) 64 ny in Ret (a, b)) in let! c := alloc_from_nat (Ok z) 64 nz in Ret (ab, c) in
  (exists a m r s x s', run true (three 3 2%nat (2 ^ 127 - 1) 2%nat 1 1%nat) st_init = (Ok (a, m, r), s) /\ good s /\
     run true (congruence (Ok ((2 ^ 128 - 1) / 3)) 2 a m r) s = (Ok x, s') /\ good s' /\ value x = Some ((2 ^ 128 - 1) / 3) /\ completed s (asg s) s' (fun _ => True)) /\
  (exists a m r s x s', run true (three 6 2%nat (2 ^ 126) 2%nat 1 1%nat) st_init = (Ok (a, m, r), s) /\ good s /\
     run true (congruence (Ok 5) 2 a m r) s = (Ok x, s') /\ ~ completed s (asg s) s' (fun _ => True)).
Proof. exact congruence_witness. Qed.
