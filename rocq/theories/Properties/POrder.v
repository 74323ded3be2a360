(** C110: comparisons along a list force its order; C111: a minimum that the circuit enforces. *)
From Coq Require Import ZArith Bool List Sorting.Sorted.
From Verif.Model Require Import Base CS Bellpepper Util Poly Bignat Gadget Fields F64 Median.
From Verif.Spec Require Import Spec SpecF64 SpecExact SpecWide SpecSub SpecOrder.
From Verif.Proofs Require Import PrimeFields F64P TopF64 Wide Order.
Import ListNotations.
Local Open Scope Z_scope.

(** Any prover, any number of numbers of any sizes: the circuit can be completed exactly if they are in order. *)
Theorem C110_exact : forall (E : Env) (W : Wf E), usual_field E -> forall wit bs Bs s u s' rho0,
  good_for rho0 s -> Forall2 (num64 rho0 s) bs Bs -> run wit (ascending bs) s = (Ok u, s') ->
  (completed s rho0 s' (fun _ => True) <-> StronglySorted Z.le (map int64 Bs)).
Proof. exact @order_exact. Qed.
Print Assumptions C110_exact.

(** Then the number in the middle is the median that the library computes outside the circuit. *)
Theorem C110_median : forall (E : Env) (W : Wf E), usual_field E -> forall wit bs Bs s u s' rho0,
  good_for rho0 s -> Forall2 (num64 rho0 s) bs Bs -> bs <> [] -> run wit (ascending bs) s = (Ok u, s') ->
  completed s rho0 s' (fun _ => True) ->
  exists m, compute_median_timestamp (map int64 Bs) = Ok (m, map int64 Bs) /\ nth_error (map int64 Bs) (length bs / 2) = Some m.
Proof. exact @order_median. Qed.
Print Assumptions C110_median.

(** The honest prover completes it on every list in order, whatever the sizes. *)
Theorem C110_honest : forall (E : Env) (W : Wf E), usual_field E -> forall bs Bs s,
  good s -> Forall2 (num64_at s) bs Bs -> StronglySorted Z.le (map int64 Bs) ->
  exists s', run true (ascending bs) s = (Ok tt, s') /\ good s'.
Proof. exact @order_honest. Qed.
Print Assumptions C110_honest.

(** If no number has fewer limbs than the one before it, the honest run succeeds on every list and gives the verdict. *)
Theorem C110_verdict : forall (E : Env) (W : Wf E), usual_field E -> forall bs Bs s,
  good s -> Forall2 (num64_at s) bs Bs -> StronglySorted Nat.le (map (@length Z) Bs) ->
  exists s', run true (ascending bs) s = (Ok tt, s') /\ (good s' <-> StronglySorted Z.le (map int64 Bs)).
Proof. exact @order_verdict. Qed.
Print Assumptions C110_verdict.

Example C110_case : let E := pallas_f64 log2_down true in
  let three x nx y ny z nz := let! ab := (let! a := alloc_from_nat (Ok x) 64 nx in let! b := alloc_from_nat (Ok y) 64 ny in Ret (a, b)) in let! c := alloc_from_nat (Ok z) 64 nz in Ret (ab, c) in
  (exists a b c s s', run true (three 5 3%nat 5 1%nat (2 ^ 64 + 1) 2%nat) st_init = (Ok (a, b, c), s) /\ good s /\ run true (ascending [a; b; c]) s = (Ok tt, s') /\ good s') /\
  (exists a b c s s', run true (three 7 1%nat 5 1%nat 9 1%nat) st_init = (Ok (a, b, c), s) /\ good s /\ run true (ascending [a; b; c]) s = (Ok tt, s') /\
     ~ good s' /\ ~ completed s (asg s) s' (fun _ => True)).
Proof. exact order_witness. Qed.

(** Any prover: exactly the limbs of the smaller number pass, in as many limbs as the longer operand has. *)
Theorem C111_exact : forall (E : Env) (W : Wf E), usual_field E -> forall wit c a b A B D s m s' rho0,
  good_for rho0 s -> num64 rho0 s a A -> num64 rho0 s b B -> run wit (chosen_min c a b) s = (Ok m, s') ->
  (completed s rho0 s' (fun rho => wires rho (limbs m) = D) <->
   length D = Nat.max (length A) (length B) /\ digits D /\ int64 D = Z.min (int64 A) (int64 B)).
Proof. exact @min_exact. Qed.
Print Assumptions C111_exact.

(** The honest prover who chooses the smaller number completes the circuit. *)
Theorem C111_honest : forall (E : Env) (W : Wf E), usual_field E -> forall a b A B s,
  good s -> num64_at s a A -> num64_at s b B ->
  exists m s', run true (chosen_min (Some (int64 B <? int64 A)) a b) s = (Ok m, s') /\ good s' /\ value m = Some (Z.min (int64 A) (int64 B)).
Proof. exact @min_honest. Qed.
Print Assumptions C111_honest.

(** With operands of one size the run completes for either choice and passes exactly if the choice is right. *)
Theorem C111_verdict : forall (E : Env) (W : Wf E), usual_field E -> forall x a b A B s,
  good s -> num64_at s a A -> num64_at s b B -> length A = length B ->
  exists m s', run true (chosen_min (Some x) a b) s = (Ok m, s') /\ value m = Some (if x then int64 B else int64 A) /\
    (good s' <-> (if x then int64 B <= int64 A else int64 A <= int64 B)).
Proof. exact @min_verdict. Qed.
Print Assumptions C111_verdict.

Example C111_case : let E := pallas_f64 log2_down true in let two x nx y ny := let! a := alloc_from_nat (Ok x) 64 nx in let! b := alloc_from_nat (Ok y) 64 ny in Ret (a, b) in
  (exists a b s m s', run true (two (2 ^ 64 + 12) 2%nat 13 3%nat) st_init = (Ok (a, b), s) /\ good s /\
     run true (chosen_min (Some true) a b) s = (Ok m, s') /\ good s' /\ value m = Some 13 /\
     completed s (asg s) s' (fun rho => wires rho (limbs m) = [13; 0; 0]) /\ ~ completed s (asg s) s' (fun rho => wires rho (limbs m) = [12; 1; 0])) /\
  (exists a b s m s', run true (two (2 ^ 64 + 12) 2%nat 13 2%nat) st_init = (Ok (a, b), s) /\ good s /\
     run true (chosen_min (Some false) a b) s = (Ok m, s') /\ ~ good s' /\ value m = Some (2 ^ 64 + 12)).
Proof. exact min_witness. Qed.
