(** C109: a proper divisor chosen by the prover exists exactly for composite numbers. *)
From Coq Require Import ZArith Znumtheory Bool List.
From Verif.Model Require Import Base CS Bellpepper Util Poly Bignat Fields F64.
From Verif.Spec Require Import Spec SpecF64 SpecExact SpecWide SpecComposite.
From Verif.Proofs Require Import PrimeFields F64P TopF64 Wide Composite.
Import ListNotations.
Local Open Scope Z_scope.

(** Any prover: exactly the proper divisors of [c] pass. *)
Theorem C109_exact : forall (E : Env) (W : Wf E), usual_field E -> forall wit f n c t C T B s rho0 x s',
  good_for rho0 s -> num64 rho0 s c C -> num64 rho0 s t T -> int64 T = int64 C - 1 ->
  (1 <= n)%nat -> Z.of_nat n <= 2 ^ 40 -> run wit (proper_divisor f n c t) s = (Ok x, s') ->
  (completed s rho0 s' (fun rho => wires rho (limbs x) = B) <->
   length B = n /\ digits B /\ 1 < int64 B < int64 C /\ (int64 B | int64 C)).
Proof. exact @divisor_exact. Qed.
Print Assumptions C109_exact.

(** Hence, with half the limbs of [c] for the divisor, satisfiable exactly if [c] is not prime. *)
Theorem C109_composite : forall (E : Env) (W : Wf E), usual_field E -> forall wit f n c t C T s rho0 x s',
  good_for rho0 s -> num64 rho0 s c C -> num64 rho0 s t T -> int64 T = int64 C - 1 ->
  1 < int64 C -> (length C <= 2 * n)%nat -> Z.of_nat n <= 2 ^ 40 -> run wit (proper_divisor f n c t) s = (Ok x, s') ->
  (completed s rho0 s' (fun _ => True) <-> ~ prime (int64 C)).
Proof. exact @divisor_composite. Qed.
Print Assumptions C109_composite.

(** A prover supplying a proper divisor completes the run with every constraint satisfied. *)
Theorem C109_honest : forall (E : Env) (W : Wf E), usual_field E -> forall v n c t C T s,
  good s -> num64_at s c C -> num64_at s t T -> int64 T = int64 C - 1 ->
  (1 <= n)%nat -> Z.of_nat n <= 2 ^ 40 -> v < 2 ^ Z.of_nat (64 * n) -> 1 < v < int64 C -> (v | int64 C) ->
  exists x s', run true (proper_divisor (Ok v) n c t) s = (Ok x, s') /\ good s' /\ value x = Some v.
Proof. exact @divisor_honest. Qed.
Print Assumptions C109_honest.

(** A prover supplying a divisor above one, perhaps [c] itself: the run completes, and the constraints hold exactly
    if the divisor is proper. *)
Theorem C109_verdict : forall (E : Env) (W : Wf E), usual_field E -> forall v n c t C T s,
  good s -> num64_at s c C -> num64_at s t T -> int64 T = int64 C - 1 ->
  (1 <= n <= length T)%nat -> v < 2 ^ Z.of_nat (64 * n) -> 1 < v -> 0 < int64 C -> (v | int64 C) ->
  exists x s', run true (proper_divisor (Ok v) n c t) s = (Ok x, s') /\ value x = Some v /\ (good s' <-> v < int64 C).
Proof. exact @divisor_verdict. Qed.
Print Assumptions C109_verdict.

(** 2^67 - 1 has two one-limb factors and both pass, one does not; for the prime modulus of the scalar field of
    Pallas the circuit is built and cannot be satisfied. *)
Example C109_case : let E := pallas_f64 log2_down true in
  let two x nx y ny := let! a := alloc_from_nat (Ok x) 64 nx in let! b := alloc_from_nat (Ok y) 64 ny in Ret (a, b) in
  (exists c t s x s', run true (two (2 ^ 67 - 1) 2%nat (2 ^ 67 - 2) 2%nat) st_init = (Ok (c, t), s) /\ good s /\
     run true (proper_divisor (Ok 193707721) 1 c t) s = (Ok x, s') /\ good s' /\ value x = Some 193707721 /\
     completed s (asg s) s' (fun rho => wires rho (limbs x) = [761838257287]) /\ ~ completed s (asg s) s' (fun rho => wires rho (limbs x) = [1])) /\
  (exists c t s x s', run true (two pallas_scalar_modulus 4%nat (pallas_scalar_modulus - 1) 4%nat) st_init = (Ok (c, t), s) /\ good s /\
     run true (proper_divisor (Ok pallas_scalar_modulus) 4 c t) s = (Ok x, s') /\ ~ good s' /\ ~ completed s (asg s) s' (fun _ => True)).
Proof. exact composite_witness. Qed.
