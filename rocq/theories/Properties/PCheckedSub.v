(** C106: subtraction with a range check of the difference is an exact comparison. *)
From Coq Require Import ZArith Bool List.
From Verif.Model Require Import Base CS Bellpepper Util Poly Bignat Fields F64.
From Verif.Spec Require Import Spec SpecF64 SpecExact SpecWide SpecSub.
From Verif.Proofs Require Import PrimeFields F64P TopF64 Wide CheckedSub Prime PrimeMid.
Import ListNotations.
Local Open Scope Z_scope.

(** Any field, any prover: exactly the limbs of the difference pass. *)
Theorem C106_exact : forall (E : Env) (W : Wf E) wit a b A B D s d s' rho0,
  let w := limb_width (bparams a) in
  let X := 2 ^ Z.of_nat w in
  let M := Z.max (max_word (bparams a)) (max_word (bparams b) + (X - 1)) in
  good_for rho0 s -> bignat_for rho0 s a A -> bignat_for rho0 s b B -> limb_width (bparams b) = w ->
  run wit (checked_sub a b) s = (Ok d, s') -> (1 <= length B <= length A)%nat -> (1 <= w)%nat -> (w < NUM_BITS)%nat ->
  group_no_wrap M w -> group_room M w ->
  (completed s rho0 s' (fun rho => wires rho (limbs d) = D) <->
   length D = length A /\ Forall (fun v => 0 <= v < X) D /\ value_of X A = value_of X B + value_of X D).
Proof. exact @top_checked_sub_exact. Qed.
Print Assumptions C106_exact.

(** Any field, the honest prover: the run succeeds, and the circuit holds exactly if the difference is not negative. *)
Theorem C106_verdict : forall (E : Env) (W : Wf E) a b A B s,
  let w := limb_width (bparams a) in
  let X := 2 ^ Z.of_nat w in
  let v := value_of X A - value_of X B in
  good s -> bignat_at s a A -> bignat_at s b B -> limb_width (bparams b) = w ->
  (1 <= w)%nat -> (w < NUM_BITS)%nat -> (1 <= length B <= length A)%nat ->
  Z.abs v < 2 ^ Z.of_nat (w * length A) ->
  group_no_wrap (Z.max (max_word (bparams a)) (max_word (bparams b) + (X - 1))) w ->
  group_room (Z.max (max_word (bparams a)) (max_word (bparams b) + (X - 1))) w ->
  exists d s', run true (checked_sub a b) s = (Ok d, s') /\ value d = Some v /\ (good s' <-> value_of X B <= value_of X A).
Proof. exact @top_checked_sub_verdict. Qed.
Print Assumptions C106_verdict.

(** Two limbs of three bits over a field of 65521 elements meet the conditions. *)
Example C106_small_case : let E := mid_env 65521 in let M := Z.max 7 (7 + (2 ^ 3 - 1)) in group_no_wrap M 3 /\ group_room M 3 /\
  let v x y := let '(r, s) := run true (let! a := alloc_from_nat (Ok x) 3 2 in let! b := alloc_from_nat (Ok y) 3 2 in checked_sub a b) st_init in
    match r with Ok d => Some (value d, satb (asg s) s) | _ => None end in
  v 37 30 = Some (Some 7, true) /\ v 30 37 = Some (Some (-7), false) /\ v 30 30 = Some (Some 0, true).
Proof. vm_compute. repeat split; first [discriminate | repeat constructor]. Qed.

(** 64-bit limbs over the fields in use: no condition on the two sizes. *)
Theorem C106_wide_exact : forall (E : Env) (W : Wf E), usual_field E -> forall wit a b A B D s d s' rho0,
  good_for rho0 s -> num64 rho0 s a A -> num64 rho0 s b B -> run wit (checked_sub a b) s = (Ok d, s') ->
  (completed s rho0 s' (fun rho => wires rho (limbs d) = D) <-> length D = length A /\ digits D /\ int64 A = int64 B + int64 D).
Proof. exact @wide_sub_exact. Qed.
Print Assumptions C106_wide_exact.

(** Hence a comparison, for any prover. *)
Theorem C106_compare : forall (E : Env) (W : Wf E), usual_field E -> forall wit a b A B s d s' rho0,
  good_for rho0 s -> num64 rho0 s a A -> num64 rho0 s b B -> run wit (checked_sub a b) s = (Ok d, s') ->
  (completed s rho0 s' (fun _ => True) <-> int64 B <= int64 A).
Proof. exact @wide_sub_compare. Qed.
Print Assumptions C106_compare.

(** The honest prover completes it whenever the difference is not negative, whatever the two sizes. *)
Theorem C106_honest : forall (E : Env) (W : Wf E), usual_field E -> forall a b A B s,
  good s -> num64_at s a A -> num64_at s b B -> int64 B <= int64 A ->
  exists d s', run true (checked_sub a b) s = (Ok d, s') /\ good s' /\ value d = Some (int64 A - int64 B).
Proof. exact @honest_checked_sub. Qed.
Print Assumptions C106_honest.

Theorem C106_honest_verdict : forall (E : Env) (W : Wf E), usual_field E -> forall a b A B s,
  good s -> num64_at s a A -> num64_at s b B -> (length B <= length A)%nat ->
  exists d s', run true (checked_sub a b) s = (Ok d, s') /\ value d = Some (int64 A - int64 B) /\ (good s' <-> int64 B <= int64 A).
Proof. exact @honest_sub_verdict. Qed.
Print Assumptions C106_honest_verdict.

(** Without the check of the limbs the same operands always pass, whichever is greater: the limbs of the result
    are the limb-by-limb differences in the field. *)
Theorem C106_unchecked : forall (E : Env) (W : Wf E), usual_field E -> forall wit a b A B s d s' rho0,
  good_for rho0 s -> num64 rho0 s a A -> num64 rho0 s b B -> (length B <= length A)%nat ->
  run wit (Bignat.sub a b) s = (Ok d, s') ->
  completed s rho0 s' (fun rho => wires rho (limbs d) = map (fun i => (nth i A 0 - nth i B 0) mod modulus) (seq 0 (length A))).
Proof. exact @wide_sub_unchecked. Qed.
Print Assumptions C106_unchecked.

(** Over the field of the example program: a borrow across limbs with a longer subtrahend passes; five minus six
    cannot be completed with the check, and can without it. *)
Example C106_case : let E := pallas_f64 log2_down true in let two x nx y ny := let! a := alloc_from_nat (Ok x) 64 nx in let! b := alloc_from_nat (Ok y) 64 ny in Ret (a, b) in
  (exists a b s d s', run true (two (2 ^ 64 + 12) 2%nat 13 5%nat) st_init = (Ok (a, b), s) /\ good s /\
     run true (checked_sub a b) s = (Ok d, s') /\ good s' /\ value d = Some (2 ^ 64 - 1)) /\
  (exists a b s d s', run true (two 5 2%nat 6 1%nat) st_init = (Ok (a, b), s) /\ good s /\
     run true (checked_sub a b) s = (Ok d, s') /\ ~ completed s (asg s) s' (fun _ => True)) /\
  (exists a b s d s', run true (two 5 2%nat 6 1%nat) st_init = (Ok (a, b), s) /\ good s /\
     run true (Bignat.sub a b) s = (Ok d, s') /\ completed s (asg s) s' (fun rho => wires rho (limbs d) = [modulus - 1; 0])).
Proof. exact checked_sub_witness. Qed.
