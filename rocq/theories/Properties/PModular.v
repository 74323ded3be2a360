(** C100: circuits of modular operations, and powers. *)
From Coq Require Import ZArith Znumtheory Bool List.
From Verif.Model Require Import Base CS Bellpepper Util Poly Bignat Gadget Fields.
From Verif.Spec Require Import Spec SpecExpr SpecModular.
From Verif.Proofs Require Import Prime PrimeMid Modular.
Import ListNotations.
Local Open Scope Z_scope.

(** Every result of a satisfied chain of modular operations is congruent, modulo the integer on the wires of the modulus,
    to the integer obtained from the inputs with no reduction at all. *)
Theorem C100_value : forall (E : Env) (W : Wf E) w nm mb mw, (1 <= w)%nat -> (1 <= nm)%nat ->
  forall wit m shs xs ops s zs s' rho,
  run wit (program m xs ops) s = (Ok zs, s') -> sat rho s' ->
  of_shape w (nm, mw) m -> bounded rho m -> min_bits (bparams m) = mb ->
  ins_ok shs -> Forall2 (of_shape w) shs xs -> Forall (bounded rho) xs -> program_room w nm mb mw shs ops ->
  Forall2 (of_shape w) (grow (op_shape w nm) shs ops) zs /\ Forall (bounded rho) zs /\
  Forall2 (fun z v => (int_of rho m | v - int_of rho z)) zs (grow op_value (map (int_of rho) xs) ops).
Proof. exact @top_program_value. Qed.
Print Assumptions C100_value.

(** The honest prover completes the chain and records the reduced results. *)
Theorem C100_complete : forall (E : Env) (W : Wf E) w nm mb mw, (1 <= w)%nat -> (1 <= nm)%nat -> 0 <= mw -> (w < NUM_BITS)%nat ->
  forall m shs xs Mm As ops s,
  let vs := map (value_of (2 ^ Z.of_nat w)) As in
  let mz := value_of (2 ^ Z.of_nat w) Mm in
  good s -> of_shape w (nm, mw) m -> bignat_at s m Mm -> min_bits (bparams m) = mb -> 0 < mz <= 2 ^ Z.of_nat (w * nm) ->
  ins_ok shs -> Forall2 (of_shape w) shs xs -> Forall2 (bignat_at s) xs As ->
  program_room w nm mb mw shs ops -> program_fits w nm mb mw mz shs vs ops ->
  exists zs s' Zs, run true (program m xs ops) s = (Ok zs, s') /\ good s' /\
    Forall2 (of_shape w) (grow (op_shape w nm) shs ops) zs /\ Forall2 (bignat_at s') zs Zs /\
    map (value_of (2 ^ Z.of_nat w)) Zs = grow (op_reduced mz) vs ops.
Proof. exact @top_program_complete. Qed.
Print Assumptions C100_complete.

(** Whoever knows the input wires can complete any finished circuit to the reduced results. *)
Theorem C100_any : forall (E : Env) (W : Wf E) w nm mb mw, (1 <= w)%nat -> (1 <= nm)%nat -> 0 <= mw -> (w < NUM_BITS)%nat ->
  forall wit m shs xs Mm As ops s rho0 zs s',
  let vs := map (value_of (2 ^ Z.of_nat w)) As in
  let mz := value_of (2 ^ Z.of_nat w) Mm in
  good_for rho0 s -> of_shape w (nm, mw) m -> bignat_for rho0 s m Mm -> min_bits (bparams m) = mb -> 0 < mz <= 2 ^ Z.of_nat (w * nm) ->
  ins_ok shs -> Forall2 (of_shape w) shs xs -> Forall2 (bignat_for rho0 s) xs As ->
  run wit (program m xs ops) s = (Ok zs, s') ->
  program_room w nm mb mw shs ops -> program_fits w nm mb mw mz shs vs ops ->
  exists rho, same_on s rho rho0 /\ sat rho s' /\ map (int_of rho) zs = grow (op_reduced mz) vs ops.
Proof. exact @top_program_any. Qed.
Print Assumptions C100_any.

(** Square and multiply computes a power, for every exponent; the room for one squaring is room for all. *)
Theorem C100_power : forall (E : Env) (W : Wf E) w n mb mw, (1 <= w)%nat -> (1 <= n)%nat ->
  forall wit m x p s zs s' rho,
  run wit (program m [x] (power_ops p)) s = (Ok zs, s') -> sat rho s' ->
  of_shape w (n, mw) m -> bounded rho m -> min_bits (bparams m) = mb ->
  of_shape w (n, 2 ^ Z.of_nat w - 1) x -> bounded rho x ->
  op_room w n mb mw [(n, 2 ^ Z.of_nat w - 1)] (OMul 0 0) ->
  (int_of rho m | int_of rho x ^ Zpos p - int_of rho (last zs x)) /\
  of_shape w (n, 2 ^ Z.of_nat w - 1) (last zs x) /\ bounded rho (last zs x).
Proof. exact @top_power_value. Qed.
Print Assumptions C100_power.

Theorem C100_power_complete : forall (E : Env) (W : Wf E) w n mb mw, (1 <= w)%nat -> (1 <= n)%nat -> 0 <= mw -> (w < NUM_BITS)%nat ->
  forall m x Mm A p s,
  let X := 2 ^ Z.of_nat w in
  let mz := value_of X Mm in
  good s -> of_shape w (n, mw) m -> bignat_at s m Mm -> min_bits (bparams m) = mb -> 0 < mz <= 2 ^ Z.of_nat (w * n) ->
  of_shape w (n, X - 1) x -> bignat_at s x A -> 0 <= value_of X A < mz ->
  op_room w n mb mw [(n, X - 1)] (OMul 0 0) -> op_fits w n mb mw mz [(n, X - 1)] [mz - 1] (OMul 0 0) ->
  exists zs s' R, run true (program m [x] (power_ops p)) s = (Ok zs, s') /\ good s' /\
    bignat_at s' (last zs x) R /\ value_of X R = value_of X A ^ Zpos p mod mz.
Proof. exact @top_power_complete. Qed.
Print Assumptions C100_power_complete.

Theorem C100_power_any : forall (E : Env) (W : Wf E) w n mb mw, (1 <= w)%nat -> (1 <= n)%nat -> 0 <= mw -> (w < NUM_BITS)%nat ->
  forall wit m x Mm A p s rho0 zs s',
  let X := 2 ^ Z.of_nat w in
  let mz := value_of X Mm in
  good_for rho0 s -> of_shape w (n, mw) m -> bignat_for rho0 s m Mm -> min_bits (bparams m) = mb -> 0 < mz <= 2 ^ Z.of_nat (w * n) ->
  of_shape w (n, X - 1) x -> bignat_for rho0 s x A -> 0 <= value_of X A < mz ->
  run wit (program m [x] (power_ops p)) s = (Ok zs, s') ->
  op_room w n mb mw [(n, X - 1)] (OMul 0 0) -> op_fits w n mb mw mz [(n, X - 1)] [mz - 1] (OMul 0 0) ->
  exists rho, same_on s rho rho0 /\ sat rho s' /\ int_of rho (last zs x) = value_of X A ^ Zpos p mod mz.
Proof. exact @top_power_any. Qed.
Print Assumptions C100_power_any.

(** The last condition holds for every modulus recorded with the length it is given. *)
Theorem C100_full_modulus : forall (E : Env) (W : Wf E) w n mw mz, (1 <= w)%nat -> (1 <= n)%nat -> 0 < mz <= 2 ^ Z.of_nat (w * n) ->
  op_fits w n (w * n) mw mz [(n, 2 ^ Z.of_nat w - 1)] [mz - 1] (OMul 0 0).
Proof. exact @top_full_fits. Qed.
Print Assumptions C100_full_modulus.

(** Two 3-bit limbs over the field of 65521 elements. *)
Definition C100_shs : list (nat * Z) := [(2%nat, 7); (2%nat, 7)].
Definition C100_run {E : Env} (k x y : Z) (f : bignat -> bignat -> bignat -> prog (list bignat)) : option (list Z * bool) :=
  let '(r, s) := run true (
     let! m := alloc_from_nat (Ok k) 3 2 in let! m := enforce_full_bits m in
     let! a := alloc_from_nat (Ok x) 3 2 in let! b := alloc_from_nat (Ok y) 3 2 in f m a b) st_init in
  match r with Ok zs => Some (map (int_of (asg s)) zs, satb (asg s) s) | _ => None end.

(** [a * b], [a + b], the sum reduced, and the product of the two, modulo 55. *)
Definition C100_ops : list op := [OMul 0 1; OAdd 0 1; ORed 3; OMul 4 2].
Example C100_case : let E := mid_env 65521 in
  program_room 3 2 6 7 C100_shs C100_ops /\ ins_ok C100_shs /\
  program_fits 3 2 6 7 55 C100_shs [29; 47] C100_ops /\
  grow (op_reduced 55) [29; 47] C100_ops = [29; 47; 43; 76; 21; 23] /\
  C100_run 55 29 47 (fun m a b => program m [a; b] C100_ops) = Some ([29; 47; 43; 76; 21; 23], true).
Proof.
  split; [|split; [|split; [|split]]].
  - vm_compute. repeat split; first [discriminate | left; reflexivity | right; reflexivity | repeat constructor].
  - repeat constructor; discriminate.
  - vm_compute. repeat split; first [discriminate | left; reflexivity | right; reflexivity | repeat constructor].
  - reflexivity.
  - vm_compute. reflexivity.
Qed.

(** Fermat's test of 53, the power 52 of 17. *)
Example C100_power_case : let E := mid_env 65521 in
  op_room 3 2 6 7 [(2%nat, 7)] (OMul 0 0) /\
  map (fun p => option_map (fun r => (last (fst r) 0, snd r)) (C100_run 53 17 0 (fun m a _ => program m [a] (power_ops p))))
    [5; 52]%positive = [Some (40, true); Some (1, true)] /\ 17 ^ 5 mod 53 = 40.
Proof.
  split; [|split].
  - vm_compute. repeat split; first [discriminate | left; reflexivity | right; reflexivity | repeat constructor].
  - vm_compute. reflexivity.
  - reflexivity.
Qed.

(** Over the Pallas field four limbs of 64 bits leave room for every power. *)
Example C100_pallas : let E := pallas_env true in
  op_room 64 4 256 (2 ^ 64 - 1) [(4%nat, 2 ^ 64 - 1)] (OMul 0 0).
Proof. vm_compute. repeat split; first [discriminate | left; reflexivity | right; reflexivity | repeat constructor]. Qed.
