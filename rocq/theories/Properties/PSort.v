(** C113: a sorted copy of a list, and the median, that the circuit enforces. *)
From Coq Require Import ZArith Bool List Permutation Sorting.Sorted.
From Verif.Model Require Import Base CS Bellpepper Util Poly Bignat Gadget Fields F64 Median.
From Verif.Spec Require Import Spec SpecF64 SpecExact SpecWide SpecSub SpecOrder SpecSort.
From Verif.Proofs Require Import PrimeFields F64P TopF64 Wide Sort.
Import ListNotations.
Local Open Scope Z_scope.

(** Any prover: the numbers on the resulting wires are exactly the given numbers in ascending order. *)
Theorem C113_exact : forall (E : Env) (W : Wf E), usual_field E -> forall wit xs Xs L s ys s' rho0,
  good_for rho0 s -> Forall2 (num64 rho0 s) xs Xs -> run wit (sorted_copy xs) s = (Ok ys, s') ->
  (completed s rho0 s' (fun rho => map (int_of rho) ys = L) <-> Permutation L (map int64 Xs) /\ StronglySorted Z.le L).
Proof. exact @sort_exact. Qed.
Print Assumptions C113_exact.

(** In every satisfying assignment the list is the one [compute_median_timestamp] leaves behind and the middle is its median. *)
Theorem C113_median : forall (E : Env) (W : Wf E), usual_field E -> forall wit xs Xs s ys s' rho0 rho,
  good_for rho0 s -> Forall2 (num64 rho0 s) xs Xs -> xs <> [] -> run wit (sorted_copy xs) s = (Ok ys, s') ->
  same_on s rho rho0 -> sat rho s' ->
  exists m, compute_median_timestamp (map int64 Xs) = Ok (m, map (int_of rho) ys) /\ nth_error (map (int_of rho) ys) (length xs / 2) = Some m.
Proof. exact @sort_median. Qed.
Print Assumptions C113_median.

(** The honest prover completes it on every list. *)
Theorem C113_honest : forall (E : Env) (W : Wf E), usual_field E -> forall xs Xs s,
  good s -> Forall2 (num64_at s) xs Xs ->
  exists ys L s', run true (sorted_copy xs) s = (Ok ys, s') /\ good s' /\ map value ys = map Some L /\
    Permutation L (map int64 Xs) /\ StronglySorted Z.le L.
Proof. exact @sort_honest. Qed.
Print Assumptions C113_honest.

Example C113_case : let E := pallas_f64 log2_down true in
  let three x nx y ny z nz := let! ab := (let! a := alloc_from_nat (Ok x) 64 nx in let! b := alloc_from_nat (Ok y) 64 ny in Ret (a, b)) in let! c := alloc_from_nat (Ok z) 64 nz in Ret (ab, c) in
  exists a b c s ys s', run true (three (2 ^ 64 + 3) 2%nat 9 1%nat 4 3%nat) st_init = (Ok (a, b, c), s) /\ good s /\
    run true (sorted_copy [a; b; c]) s = (Ok ys, s') /\ good s' /\ map value ys = [Some 4; Some 9; Some (2 ^ 64 + 3)] /\
    completed s (asg s) s' (fun rho => map (int_of rho) ys = [4; 9; 2 ^ 64 + 3]) /\
    ~ completed s (asg s) s' (fun rho => map (int_of rho) ys = [9; 4; 2 ^ 64 + 3]) /\
    ~ completed s (asg s) s' (fun rho => map (int_of rho) ys = [4; 4; 9]).
Proof. exact sort_witness. Qed.
