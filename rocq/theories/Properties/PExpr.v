(** C99: circuits for arithmetic expressions. *)
From Coq Require Import ZArith Znumtheory Bool List.
From Verif.Model Require Import Base CS Bellpepper Util Poly Bignat Gadget Fields.
From Verif.Spec Require Import Spec SpecExpr.
From Verif.Proofs Require Import Prime PrimeMid Expr.
Import ListNotations.
Local Open Scope Z_scope.

(** Any assignment that satisfies the circuit of an expression gives its result the integer the expression denotes for the
    integers on the input wires, and the value conditions hold: no difference was negative, no product was cut. *)
Theorem C99_value : forall (E : Env) (W : Wf E) wit w ins xs bs cs e s b s' rho,
  run wit (circuit xs bs e) s = (Ok b, s') -> sat rho s' ->
  (1 <= w)%nat -> ins_ok ins -> Forall2 (of_shape w) ins xs -> Forall (bounded rho) xs ->
  Forall2 (fun c x => feval rho (b_lc c) = Z.b2z x) bs cs ->
  in_room w ins (length bs) e ->
  of_shape w (size ins e, word w ins e) b /\ bounded rho b /\
  int_of rho b = denote w ins (map (int_of rho) xs) cs e /\ fits w ins (map (int_of rho) xs) cs e.
Proof. exact @top_expr_value. Qed.
Print Assumptions C99_value.

(** The honest prover completes the circuit whenever the value conditions hold, and records the integer denoted. *)
Theorem C99_complete : forall (E : Env) (W : Wf E) w ins xs bs As cs e s,
  let vs := map (value_of (2 ^ Z.of_nat w)) As in
  good s -> (1 <= w)%nat -> (w < NUM_BITS)%nat -> ins_ok ins ->
  Forall2 (of_shape w) ins xs -> Forall2 (bignat_at s) xs As -> Forall2 (bit_at s) bs cs ->
  in_room w ins (length bs) e -> fits w ins vs cs e ->
  exists b s' A, run true (circuit xs bs e) s = (Ok b, s') /\ good s' /\ of_shape w (size ins e, word w ins e) b /\
    bignat_at s' b A /\ value_of (2 ^ Z.of_nat w) A = denote w ins vs cs e.
Proof. exact @top_expr_complete. Qed.
Print Assumptions C99_complete.

(** The inputs that any prover can complete are exactly those that meet the value conditions. *)
Theorem C99_exact : forall (E : Env) (W : Wf E) wit w ins xs bs As cs s rho0 e b s',
  good_for rho0 s -> (1 <= w)%nat -> (w < NUM_BITS)%nat -> ins_ok ins ->
  Forall2 (of_shape w) ins xs -> Forall2 (bignat_for rho0 s) xs As ->
  Forall2 (fun c x => carries_for rho0 s (b_lc c) (Z.b2z x)) bs cs ->
  no_concat e -> run wit (circuit xs bs e) s = (Ok b, s') -> in_room w ins (length bs) e ->
  ((exists rho, same_on s rho rho0 /\ sat rho s') <-> fits w ins (map (value_of (2 ^ Z.of_nat w)) As) cs e).
Proof.
  exact (fun E W wit w ins xs bs As cs s rho0 e b s' G Hw HwN HI HX HA HB =>
    @top_expr_exact E W wit w ins xs bs As cs s rho0 G Hw HwN HI HX HA HB e b s').
Qed.
Print Assumptions C99_exact.

(** Two expressions that are computed and compared denote the same integer, ... *)
Theorem C99_identity : forall (E : Env) (W : Wf E) wit w ins xs bs cs e1 e2 s u s' rho,
  run wit (identity xs bs e1 e2) s = (Ok u, s') -> sat rho s' ->
  (1 <= w)%nat -> ins_ok ins -> Forall2 (of_shape w) ins xs -> Forall (bounded rho) xs ->
  Forall2 (fun c x => feval rho (b_lc c) = Z.b2z x) bs cs ->
  in_room w ins (length bs) e1 -> in_room w ins (length bs) e2 ->
  group_no_wrap (Z.max (word w ins e1) (word w ins e2)) w ->
  denote w ins (map (int_of rho) xs) cs e1 = denote w ins (map (int_of rho) xs) cs e2.
Proof. exact @top_identity_sound. Qed.
Print Assumptions C99_identity.

(** ... and over equally many limbs that is all the comparison asks. *)
Theorem C99_identity_exact : forall (E : Env) (W : Wf E) wit w ins xs bs As cs s rho0 e1 e2 u s',
  let vs := map (value_of (2 ^ Z.of_nat w)) As in
  good_for rho0 s -> (1 <= w)%nat -> (w < NUM_BITS)%nat -> ins_ok ins ->
  Forall2 (of_shape w) ins xs -> Forall2 (bignat_for rho0 s) xs As ->
  Forall2 (fun c x => carries_for rho0 s (b_lc c) (Z.b2z x)) bs cs ->
  no_concat e1 -> no_concat e2 -> run wit (identity xs bs e1 e2) s = (Ok u, s') ->
  in_room w ins (length bs) e1 -> in_room w ins (length bs) e2 -> size ins e1 = size ins e2 ->
  group_no_wrap (Z.max (word w ins e1) (word w ins e2)) w -> group_room (Z.max (word w ins e1) (word w ins e2)) w ->
  ((exists rho, same_on s rho rho0 /\ sat rho s') <->
   fits w ins vs cs e1 /\ fits w ins vs cs e2 /\ denote w ins vs cs e1 = denote w ins vs cs e2).
Proof.
  exact (fun E W wit w ins xs bs As cs s rho0 e1 e2 u s' G Hw HwN HI HX HA HB =>
    @top_identity_exact E W wit w ins xs bs As cs s rho0 G Hw HwN HI HX HA HB e1 e2 u s').
Qed.
Print Assumptions C99_identity_exact.

(** Two inputs of two 3-bit limbs. *)
Definition C99_ins : list (nat * Z) := [(2%nat, 7); (2%nat, 7)].
Definition C99_run {E : Env} {A B} (x y : Z) (c : bool) (m : list bignat -> list bit -> prog A) (f : st -> A -> B) : option (B * bool) :=
  let '(r, s) := run true (
     let! a := alloc_from_nat (Ok x) 3 2 in let! b := alloc_from_nat (Ok y) 3 2 in
     let! t := bit_alloc (Some c) in m [a; b] [t]) st_init in
  match r with Ok b => Some (f s b, satb (asg s) s) | _ => None end.

(** The product of the field of 16 bits is compared limb by limb over three limbs, so it must stay below 512.
    [if c then (a + b) * b - (2 a + 5) else a * a], with [b] placed above it. *)
Definition C99_expr : expr :=
  EConcat (EIn 1) (ECase 0 (EMul (EIn 0) (EIn 0)) (ESub (EMul (EAdd (EIn 0) (EIn 1)) (EIn 1)) (EShift (EScale (EIn 0) 2) 5))).

Example C99_case : let E := mid_env 65521 in
  in_room 3 C99_ins 1 C99_expr /\ ins_ok C99_ins /\
  fits 3 C99_ins [3; 20] [true] C99_expr /\ ~ fits 3 C99_ins [3; 0] [true] C99_expr /\
  denote 3 C99_ins [3; 20] [true] C99_expr = 20 * 2 ^ 12 + (23 * 20 - 11) /\
  let go x y c := C99_run x y c (fun xs bs => circuit xs bs C99_expr) (fun s b => int_of (asg s) b) in
  go 3 20 true = Some (20 * 2 ^ 12 + 449, true) /\ go 3 20 false = Some (20 * 2 ^ 12 + 9, true) /\
  option_map snd (go 3 0 true) = Some false /\ option_map snd (go 20 30 true) = Some false.
Proof.
  split; [|split; [|split; [|split]]].
  - vm_compute. repeat split; first [discriminate | repeat constructor].
  - repeat constructor; discriminate.
  - vm_compute. repeat split; first [discriminate | repeat constructor].
  - vm_compute. intros (_ & _ & (_ & _ & H & _)). exact (H eq_refl).
  - vm_compute. auto.
Qed.

(** The binomial identity holds for every pair; a wrong one holds only by accident. *)
Definition C99_square : expr := EMul (EAdd (EIn 0) (EIn 1)) (EAdd (EIn 0) (EIn 1)).
Definition C99_binomial (k : Z) : expr :=
  EAdd (EAdd (EMul (EIn 0) (EIn 0)) (EScale (EMul (EIn 0) (EIn 1)) k)) (EMul (EIn 1) (EIn 1)).
Example C99_identity_case : let E := mid_env 65521 in
  in_room 3 C99_ins 1 C99_square /\ in_room 3 C99_ins 1 (C99_binomial 2) /\
  size C99_ins C99_square = size C99_ins (C99_binomial 2) /\
  (let M := Z.max (word 3 C99_ins C99_square) (word 3 C99_ins (C99_binomial 2)) in group_no_wrap M 3 /\ group_room M 3) /\
  (forall x y, denote 3 C99_ins [x; y] [true] C99_square = denote 3 C99_ins [x; y] [true] (C99_binomial 2)) /\
  let go k x y := option_map snd (C99_run x y true (fun xs bs => identity xs bs C99_square (C99_binomial k)) (fun s b => tt)) in
  map (fun p => go (fst p) (fst (snd p)) (snd (snd p))) [(2, (7, 15)); (2, (11, 11)); (3, (7, 15)); (3, (0, 22))] =
    [Some true; Some true; Some false; Some true].
Proof.
  split; [|split; [|split; [|split; [|split]]]].
  - vm_compute. repeat split; first [discriminate | repeat constructor].
  - vm_compute. repeat split; first [discriminate | repeat constructor].
  - reflexivity.
  - vm_compute. repeat split; first [discriminate | repeat constructor].
  - intros x y. cbn [denote C99_square C99_binomial nth]. ring.
  - vm_compute. reflexivity.
Qed.
