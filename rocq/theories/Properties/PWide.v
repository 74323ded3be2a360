(** C104: big numbers in full 64-bit limbs over the fields in use: exact verdicts without side conditions. *)
From Coq Require Import ZArith Bool List.
From Verif.Model Require Import Base CS Bellpepper Util Poly Bignat Fields F64.
From Verif.Spec Require Import Spec SpecF64 SpecExact SpecWide.
From Verif.Proofs Require Import PrimeFields F64P TopF64 Wide WideEx.
Import ListNotations.
Local Open Scope Z_scope.

(** Both fields the code is used with qualify, for every faithful [log2]. *)
Theorem C104_fields : forall log2f ck, faithful_log2 log2f ->
  (usual_field (pallas_f64 log2f ck) /\ Wf (pallas_f64 log2f ck)) /\ (usual_field (fr_f64 log2f ck) /\ Wf (fr_f64 log2f ck)).
Proof. intros l ck H. exact (conj (usual_pallas l ck H) (usual_fr l ck H)). Qed.
Print Assumptions C104_fields.

(** An allocated number is in full 64-bit limbs. *)
Theorem C104_alloc : forall (E : Env) (W : Wf E), usual_field E -> forall v n s,
  good s -> (1 <= n)%nat -> Z.of_nat n <= 2 ^ 40 -> 0 <= v < 2 ^ Z.of_nat (64 * n) ->
  exists b s' xs, run true (alloc_from_nat (Ok v) 64 n) s = (Ok b, s') /\ good s' /\ num64_at s' b xs /\ length xs = n /\ int64 xs = v.
Proof. exact @wide_alloc. Qed.
Print Assumptions C104_alloc.

(** Equality, for any prover: it can be satisfied exactly if the integers are equal, whatever the two sizes. *)
Theorem C104_equal : forall (E : Env) (W : Wf E), usual_field E -> forall wit a b A B s u s' rho0,
  good_for rho0 s -> num64 rho0 s a A -> num64 rho0 s b B ->
  run wit (equal_when_carried_regroup a b) s = (Ok u, s') -> (completed s rho0 s' (fun _ => True) <-> int64 A = int64 B).
Proof. exact @wide_equal. Qed.
Print Assumptions C104_equal.

Theorem C104_equal_honest : forall (E : Env) (W : Wf E), usual_field E -> forall a b A B s,
  good s -> num64_at s a A -> num64_at s b B ->
  exists s', run true (equal_when_carried_regroup a b) s = (Ok tt, s') /\ (good s' <-> int64 A = int64 B).
Proof. exact @honest_equal. Qed.
Print Assumptions C104_equal_honest.

(** Multiplication, for any prover: whatever satisfies it has the product; it can be satisfied exactly if the
    operands have an even number of limbs together or the product leaves the top limb empty. *)
Theorem C104_mult : forall (E : Env) (W : Wf E), usual_field E -> forall wit a b A B s p s' rho0,
  let n := (length A + length B)%nat in
  good_for rho0 s -> num64 rho0 s a A -> num64 rho0 s b B -> run wit (mult a b) s = (Ok p, s') ->
  (completed s rho0 s' (fun rho => int64 (wires rho (limbs p)) = int64 A * int64 B /\ digits (wires rho (limbs p)) /\ length (limbs p) = n) <->
   Nat.Even n \/ int64 A * int64 B < 2 ^ Z.of_nat (64 * (n - 1))) /\
  (forall rho, same_on s rho rho0 -> sat rho s' -> int64 (wires rho (limbs p)) = int64 A * int64 B).
Proof. exact @wide_mult. Qed.
Print Assumptions C104_mult.

Theorem C104_mult_honest : forall (E : Env) (W : Wf E), usual_field E -> forall a b A B s,
  let n := (length A + length B)%nat in
  good s -> num64_at s a A -> num64_at s b B ->
  exists p s' D, run true (mult a b) s = (Ok p, s') /\ bignat_at s' p D /\ length D = n /\ value p = Some (int64 A * int64 B) /\
    (good s' <-> Nat.Even n \/ int64 A * int64 B < 2 ^ Z.of_nat (64 * (n - 1))).
Proof. exact @honest_mult. Qed.
Print Assumptions C104_mult_honest.

(** Modular multiplication, for any prover: exactly which quotients and remainders are accepted. *)
Theorem C104_mult_mod : forall (E : Env) (W : Wf E), usual_field E -> forall wit a b m A B Mm Q R s q r s' rho0,
  let n := (length A + length B)%nat in
  good_for rho0 s -> num64 rho0 s a A -> num64 rho0 s b B -> num64 rho0 s m Mm -> run wit (mult_mod a b m) s = (Ok (q, r), s') ->
  (completed s rho0 s' (fun rho => wires rho (limbs q) = Q /\ wires rho (limbs r) = R) <->
   length Q = n /\ length R = length Mm /\ digits Q /\ digits R /\ int64 A * int64 B = int64 Q * int64 Mm + int64 R /\
   (Nat.Even n \/ forall i, (n - 1 <= i)%nat -> conv Q Mm i = 0 /\ nth i R 0 = 0)).
Proof. exact @wide_mult_mod. Qed.
Print Assumptions C104_mult_mod.

Theorem C104_mult_mod_honest : forall (E : Env) (W : Wf E), usual_field E -> forall a b m A B Mm s,
  let n := (length A + length B)%nat in
  good s -> num64_at s a A -> num64_at s b B -> num64_at s m Mm -> 0 < int64 Mm -> Nat.Even n ->
  exists q r s', run true (mult_mod a b m) s = (Ok (q, r), s') /\ good s' /\
    value q = Some (int64 A * int64 B / int64 Mm) /\ value r = Some ((int64 A * int64 B) mod int64 Mm).
Proof. exact @honest_mult_mod. Qed.
Print Assumptions C104_mult_mod_honest.

(** The check of a given remainder, for any prover: exactly which quotients are accepted. *)
Theorem C104_assert_product_mod : forall (E : Env) (W : Wf E), usual_field E -> forall wit a b m r A B Mm R Q s q s' rho0,
  let n := (length A + length B)%nat in
  good_for rho0 s -> num64 rho0 s a A -> num64 rho0 s b B -> num64 rho0 s m Mm -> num64 rho0 s r R ->
  run wit (assert_product_mod a b m r) s = (Ok q, s') ->
  (completed s rho0 s' (fun rho => wires rho (limbs q) = Q) <->
   length Q = n /\ digits Q /\ int64 A * int64 B = int64 Q * int64 Mm + int64 R /\
   (Nat.Even n \/ forall i, (n - 1 <= i)%nat -> conv Q Mm i = 0 /\ nth i R 0 = 0)).
Proof. exact @wide_apm. Qed.
Print Assumptions C104_assert_product_mod.

Theorem C104_assert_product_mod_honest : forall (E : Env) (W : Wf E), usual_field E -> forall a b m r A B Mm R s,
  let n := (length A + length B)%nat in
  good s -> num64_at s a A -> num64_at s b B -> num64_at s m Mm -> num64_at s r R -> 0 < int64 Mm ->
  exists q s', run true (assert_product_mod a b m r) s = (Ok q, s') /\ value q = Some (int64 A * int64 B / int64 Mm) /\
    (Nat.Even n -> (good s' <-> int64 R = (int64 A * int64 B) mod int64 Mm)).
Proof. exact @honest_apm. Qed.
Print Assumptions C104_assert_product_mod_honest.

(** Reduction, for any prover: exactly the numbers congruent to the operand, not above it, that fit the limbs
    are accepted, whatever the two sizes; so the remainder is not the only one. *)
Theorem C104_red_mod : forall (E : Env) (W : Wf E), usual_field E -> forall wit a m A Mm R s r s' rho0,
  good_for rho0 s -> num64 rho0 s a A -> num64 rho0 s m Mm -> run wit (red_mod a m) s = (Ok r, s') ->
  (completed s rho0 s' (fun rho => wires rho (limbs r) = R) <->
   length R = length Mm /\ digits R /\ exists q, 0 <= q /\ int64 A = q * int64 Mm + int64 R).
Proof. exact @wide_red_mod. Qed.
Print Assumptions C104_red_mod.

Theorem C104_red_mod_honest : forall (E : Env) (W : Wf E), usual_field E -> forall a m A Mm s,
  good s -> num64_at s a A -> num64_at s m Mm -> 0 < int64 Mm ->
  exists r s', run true (red_mod a m) s = (Ok r, s') /\ good s' /\ value r = Some (int64 A mod int64 Mm).
Proof. exact @honest_red_mod. Qed.
Print Assumptions C104_red_mod_honest.

(** Divisibility, for any prover, whatever the two sizes. *)
Theorem C104_divides : forall (E : Env) (W : Wf E), usual_field E -> forall wit a b A B s u s' rho0,
  good_for rho0 s -> num64 rho0 s a A -> num64 rho0 s b B ->
  run wit (divides a b) s = (Ok u, s') -> (completed s rho0 s' (fun _ => True) <-> (int64 A | int64 B)).
Proof. exact @wide_divides. Qed.
Print Assumptions C104_divides.

Theorem C104_divides_honest : forall (E : Env) (W : Wf E), usual_field E -> forall a b A B s,
  good s -> num64_at s a A -> num64_at s b B -> 0 < int64 A -> (int64 A | int64 B) ->
  exists s', run true (divides a b) s = (Ok tt, s') /\ good s'.
Proof. exact @honest_divides. Qed.
Print Assumptions C104_divides_honest.

(** The hypotheses are met by numbers allocated over the field of the example program; three limbs together
    reject a product that fills them, two accept it; numbers of different sizes compare as integers. *)
Example C104_case : let E := pallas_f64 log2_down true in
  let two x nx y ny := let! a := alloc_from_nat (Ok x) 64 nx in let! b := alloc_from_nat (Ok y) 64 ny in Ret (a, b) in
  (exists a b s p s', run true (two (2 ^ 63) 1%nat (2 ^ 65) 2%nat) st_init = (Ok (a, b), s) /\ good s /\
     run true (mult a b) s = (Ok p, s') /\ value p = Some (2 ^ 128) /\ ~ good s') /\
  (exists a b s p s', run true (two (2 ^ 64 - 1) 1%nat (2 ^ 64 - 1) 1%nat) st_init = (Ok (a, b), s) /\ good s /\
     run true (mult a b) s = (Ok p, s') /\ value p = Some ((2 ^ 64 - 1) ^ 2) /\ good s') /\
  (exists a b s s', run true (two (2 ^ 64 + 12) 2%nat (2 ^ 64 + 12) 5%nat) st_init = (Ok (a, b), s) /\ good s /\
     run true (equal_when_carried_regroup a b) s = (Ok tt, s') /\ good s') /\
  (exists a b s s', run true (two 12 1%nat (2 ^ 64 + 12) 5%nat) st_init = (Ok (a, b), s) /\ good s /\
     run true (equal_when_carried_regroup a b) s = (Ok tt, s') /\ ~ good s').
Proof. exact wide_witness. Qed.

(** Division: 2^200 modulo 2^127 - 1 is 2^73, and the remainder increased by the modulus passes as well; a wrong
    remainder does not; 2^127 - 1 modulo 2^100 likewise; 2^73 divides 2^100. *)
Example C104_division_case : let E := pallas_f64 log2_down true in
  let three x y z := let! ab := (let! a := alloc_from_nat (Ok x) 64 2 in let! b := alloc_from_nat (Ok y) 64 2 in Ret (a, b)) in let! c := alloc_from_nat (Ok z) 64 2 in Ret (ab, c) in
  exists a m r s, run true (three (2 ^ 100) (2 ^ 127 - 1) (2 ^ 73)) st_init = (Ok (a, m, r), s) /\ good s /\
  (exists q r' s', run true (mult_mod a a m) s = (Ok (q, r'), s') /\ good s' /\ value q = Some (2 ^ 73) /\ value r' = Some (2 ^ 73) /\
     completed s (asg s) s' (fun rho => wires rho (limbs q) = [2 ^ 64 - 1; 2 ^ 9 - 1; 0; 0] /\ wires rho (limbs r') = [2 ^ 64 - 1; 2 ^ 63 + 2 ^ 9 - 1]) /\
     ~ completed s (asg s) s' (fun rho => wires rho (limbs q) = [0; 2 ^ 9; 0; 0] /\ wires rho (limbs r') = [1; 2 ^ 9])) /\
  (exists q s', run true (assert_product_mod a a m r) s = (Ok q, s') /\ good s' /\ value q = Some (2 ^ 73)) /\
  (exists q s', run true (assert_product_mod a a m a) s = (Ok q, s') /\ ~ good s') /\
  (exists r' s', run true (red_mod m a) s = (Ok r', s') /\ good s' /\ value r' = Some (2 ^ 100 - 1) /\
     completed s (asg s) s' (fun rho => wires rho (limbs r') = [2 ^ 64 - 1; 2 ^ 37 - 1])) /\
  (exists s', run true (divides r a) s = (Ok tt, s') /\ good s').
Proof. exact wide_division_witness. Qed.
