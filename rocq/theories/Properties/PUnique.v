(** C101: the wires a gadget allocates are determined by the wires it is given. *)
From Coq Require Import String ZArith Znumtheory Bool List Lia.
From Verif.Model Require Import Base CS Bellpepper Util Poly Bignat Gadget Fields.
From Verif.Spec Require Import Spec SpecExpr SpecUnique.
From Verif.Proofs Require Import Wp Prime PrimeMid TopUnique.
Import ListNotations.
Local Open Scope string_scope.
Local Open Scope Z_scope.
Local Open Scope list_scope.

(** Bits, range checks and copies: the wires they allocate are functions of the wires they are given. *)
Theorem C101_bits : forall (E : Env) (W : Wf E) wit n k s bv s' r1 r2,
  twice wit (num_decompose n k) s bv s' r1 r2 ->
  made_of s (n_lc n) -> (k < NUM_BITS)%nat -> alike s' r1 r2.
Proof. exact @top_unique_bits. Qed.
Print Assumptions C101_bits.

Theorem C101_fits : forall (E : Env) (W : Wf E) wit n k s u s' r1 r2,
  twice wit (fits_in_bits n k) s u s' r1 r2 ->
  made_of s (n_lc n) -> (k < NUM_BITS)%nat -> alike s' r1 r2.
Proof. exact @top_unique_fits. Qed.
Print Assumptions C101_fits.

Theorem C101_range : forall (E : Env) (W : Wf E) wit b s u s' r1 r2,
  twice wit (assert_well_formed b) s u s' r1 r2 ->
  over s b -> (limb_width (bparams b) < NUM_BITS)%nat -> alike s' r1 r2.
Proof. exact @top_unique_range. Qed.
Print Assumptions C101_range.

Theorem C101_number_bits : forall (E : Env) (W : Wf E) wit b s bv s' r1 r2,
  twice wit (bn_decompose b) s bv s' r1 r2 ->
  over s b -> (limb_width (bparams b) < NUM_BITS)%nat -> alike s' r1 r2.
Proof. exact @top_unique_number_bits. Qed.
Print Assumptions C101_number_bits.

(** The bits and the inverse by which a number is shown to be full or to have at least [k] bits. *)
Theorem C101_top_bits : forall (E : Env) (W : Wf E) wit b k s c s' r1 r2,
  twice wit (enforce_full_bits b) s c s' r1 r2 \/ twice wit (enforce_min_bits b k) s c s' r1 r2 ->
  over s b -> (limb_width (bparams b) < NUM_BITS)%nat -> alike s' r1 r2.
Proof. exact @top_unique_top_bits. Qed.
Print Assumptions C101_top_bits.

(** A field element cut into limbs, if the limbs are too few to wrap around (if they are not: C19). *)
Theorem C101_from_num : forall (E : Env) (W : Wf E) wit n w k s b s' r1 r2,
  twice wit (from_num n w k) s b s' r1 r2 ->
  made_of s (n_lc n) -> (w < NUM_BITS)%nat -> (w * k < NUM_BITS)%nat -> alike s' r1 r2 /\ wires r1 (limbs b) = wires r2 (limbs b).
Proof. exact @top_unique_from_num. Qed.
Print Assumptions C101_from_num.

Theorem C101_copies : forall (E : Env) wit b s (u : unit) (l : list allocated_num) s' r1 r2,
  twice wit (bn_inputize b) s u s' r1 r2 \/ twice wit (gadget_inputize b) s u s' r1 r2 \/ twice wit (as_nums b) s l s' r1 r2 ->
  over s b -> alike s' r1 r2.
Proof. exact @top_unique_copies. Qed.
Print Assumptions C101_copies.

Theorem C101_copy : forall (E : Env) wit n s a s' r1 r2,
  twice wit (as_sapling_allocated_num n) s a s' r1 r2 -> made_of s (n_lc n) -> alike s' r1 r2.
Proof. exact @top_unique_copy. Qed.
Print Assumptions C101_copy.

(** The coefficients of a product of polynomials. *)
Theorem C101_poly : forall (E : Env) (W : Wf E) wit p q s o s' r1 r2,
  twice wit (alloc_product p q) s o s' r1 r2 ->
  Forall (made_of s) (p_coeffs p) -> Forall (made_of s) (p_coeffs q) ->
  Z.of_nat (List.length (p_coeffs p) + List.length (p_coeffs q)) <= modulus ->
  alike s' r1 r2 /\ wires r1 (p_coeffs o) = wires r2 (p_coeffs o).
Proof. exact @top_unique_poly. Qed.
Print Assumptions C101_poly.

(** The carries of a comparison. *)
Theorem C101_comparison : forall (E : Env) (W : Wf E) wit a b s u s' r1 r2,
  twice wit (equal_when_carried_regroup a b) s u s' r1 r2 ->
  over s a -> over s b -> group_no_wrap (Z.max (max_word (bparams a)) (max_word (bparams b))) (limb_width (bparams a)) -> alike s' r1 r2.
Proof. exact @top_unique_comparison. Qed.
Print Assumptions C101_comparison.

(** A product: limbs, coefficients, range bits and carries. *)
Theorem C101_product : forall (E : Env) (W : Wf E) wit a b s p s' r1 r2,
  let w := limb_width (bparams a) in
  let M := Z.max (product_word (List.length (limbs a)) (max_word (bparams a)) (List.length (limbs b)) (max_word (bparams b))) (2 ^ Z.of_nat w - 1) in
  twice wit (mult a b) s p s' r1 r2 -> over s a -> over s b -> well_shaped a -> well_shaped b -> bounded r1 a -> bounded r1 b ->
  Z.of_nat (List.length (limbs a) + List.length (limbs b)) <= modulus -> (w < NUM_BITS)%nat -> group_no_wrap M w ->
  alike s' r1 r2 /\ wires r1 (limbs p) = wires r2 (limbs p).
Proof. exact @top_unique_product. Qed.
Print Assumptions C101_product.

(** A difference whose limbs are checked (without the check: C67). *)
Theorem C101_difference : forall (E : Env) (W : Wf E) wit n1 n2 a b s d s' r1 r2,
  let w := limb_width (bparams a) in
  twice wit (let! d := ns n1 (Bignat.sub a b) in let! _ := ns n2 (assert_well_formed d) in Ret d) s d s' r1 r2 ->
  over s a -> over s b -> well_shaped a -> well_shaped b -> bounded r1 a -> bounded r1 b -> 0 <= max_word (bparams b) ->
  (1 <= w)%nat -> (w < NUM_BITS)%nat -> group_no_wrap (Z.max (max_word (bparams a)) (max_word (bparams b) + (2 ^ Z.of_nat w - 1))) w ->
  alike s' r1 r2 /\ wires r1 (limbs d) = wires r2 (limbs d).
Proof. exact @top_unique_difference. Qed.
Print Assumptions C101_difference.

(** Choices. *)
Theorem C101_choice : forall (E : Env) wit x i0 i1 s o s' r1 r2,
  twice wit (mux x i0 i1) s o s' r1 r2 ->
  made_of s (b_lc x) -> over s i0 -> over s i1 -> well_shaped i0 -> well_shaped i1 ->
  alike s' r1 r2 /\ wires r1 (limbs o) = wires r2 (limbs o).
Proof. exact @top_unique_choice. Qed.
Print Assumptions C101_choice.

Theorem C101_switch : forall (E : Env) wit x i0 i1 s o s' r1 r2,
  twice wit (switch x i0 i1) s o s' r1 r2 ->
  made_of s (b_lc x) -> over s i0 -> over s i1 -> well_shaped i0 -> well_shaped i1 -> alike s' r1 r2.
Proof. exact @top_unique_switch. Qed.
Print Assumptions C101_switch.

Theorem C101_tree : forall (E : Env) wit bits ins s o s' r1 r2,
  twice wit (mux_tree bits ins) s o s' r1 r2 ->
  Forall (fun b => made_of s (b_lc b)) bits -> Forall (over s) ins -> Forall well_shaped ins ->
  alike s' r1 r2 /\ wires r1 (limbs o) = wires r2 (limbs o).
Proof. exact @top_unique_tree. Qed.
Print Assumptions C101_tree.

(** Conjunction and disjunction. *)
Theorem C101_logic : forall (E : Env) wit a b s c s' r1 r2,
  twice wit (bool_and a b) s c s' r1 r2 \/ twice wit (bool_or a b) s c s' r1 r2 ->
  made_of s (bool_lc a 1) -> made_of s (bool_lc b 1) -> alike s' r1 r2 /\ feval r1 (bool_lc c 1) = feval r2 (bool_lc c 1).
Proof. exact @top_unique_logic. Qed.
Print Assumptions C101_logic.

(** The outcome of an equality test is determined; so are all its wires if the limbs differ pairwise, ... *)
Theorem C101_equal : forall (E : Env) (W : Wf E) wit a b s c s' r1 r2,
  twice wit (is_equal a b) s c s' r1 r2 -> over s a -> over s b ->
  feval r1 (bool_lc c 1) = feval r2 (bool_lc c 1) /\
  (Forall2 (fun x y => x <> y) (wires r1 (limbs a)) (wires r1 (limbs b)) -> alike s' r1 r2).
Proof. exact @top_unique_equal. Qed.
Print Assumptions C101_equal.

(** ... but where two limbs agree the inverse is anything. *)
Theorem C101_inverse_refuted : forall ck, let E := pallas_env ck in exists s a b c s' r1 r2,
  run false (let! a := an_alloc (Ok 5) in let! b := an_alloc (Ok 5) in Ret (a, b)) st_init = (Ok (a, b), s) /\
  twice false (equals a b) s c s' r1 r2 /\ ~ alike s' r1 r2.
Proof. exact @top_unique_inverse. Qed.
Print Assumptions C101_inverse_refuted.

(** Quotients: they are determined unless the divisor is zero. *)
Theorem C101_quotient : forall (E : Env) (W : Wf E) wit a b m r s q s' r1 r2,
  let w := limb_width (bparams a) in
  let X := 2 ^ Z.of_nat w in
  twice wit (assert_product_mod a b m r) s q s' r1 r2 -> over s a -> over s b -> over s m -> over s r ->
  bounded r1 a -> bounded r1 b -> bounded r1 m -> bounded r1 r -> 0 <= max_word (bparams r) ->
  Z.of_nat (List.length (limbs a) + List.length (limbs b) + List.length (limbs m)) <= modulus -> (w < NUM_BITS)%nat ->
  group_no_wrap (Z.max (product_word (List.length (limbs a)) (max_word (bparams a)) (List.length (limbs b)) (max_word (bparams b)))
    (product_word (List.length (limbs a) + List.length (limbs b)) (X - 1) (List.length (limbs m)) (max_word (bparams m)) + max_word (bparams r))) w ->
  int_of r1 m <> 0 -> alike s' r1 r2 /\ wires r1 (limbs q) = wires r2 (limbs q).
Proof. exact @top_unique_quotient. Qed.
Print Assumptions C101_quotient.

Theorem C101_divides : forall (E : Env) (W : Wf E) wit a b s u s' r1 r2,
  let w := limb_width (bparams a) in
  twice wit (divides a b) s u s' r1 r2 -> over s a -> over s b -> well_shaped a -> well_shaped b -> bounded r1 a -> bounded r1 b ->
  Z.of_nat (List.length (limbs a) + List.length (limbs b)) <= modulus -> (w < NUM_BITS)%nat ->
  group_no_wrap (Z.max (product_word (List.length (limbs a)) (max_word (bparams a)) (List.length (limbs b)) (2 ^ Z.of_nat w - 1)) (max_word (bparams b))) w ->
  int_of r1 a <> 0 -> alike s' r1 r2.
Proof. exact @top_unique_divides. Qed.
Print Assumptions C101_divides.

(** Quotient and remainder, of two assignments that give a reduced remainder (if they do not: C35). *)
Theorem C101_mult_mod : forall (E : Env) (W : Wf E) wit a b m s q r s' r1 r2,
  let w := limb_width (bparams a) in
  let X := 2 ^ Z.of_nat w in
  twice wit (mult_mod a b m) s (q, r) s' r1 r2 -> over s a -> over s b -> over s m ->
  bounded r1 a -> bounded r1 b -> bounded r1 m -> limb_width (bparams m) = w ->
  Z.of_nat (List.length (limbs a) + List.length (limbs b)) <= modulus -> Z.of_nat (List.length (limbs q) + List.length (limbs m)) <= modulus -> (w < NUM_BITS)%nat ->
  group_no_wrap (Z.max (product_word (List.length (limbs a)) (max_word (bparams a)) (List.length (limbs b)) (max_word (bparams b)))
     (product_word (List.length (limbs q)) (X - 1) (List.length (limbs m)) (max_word (bparams m)) + (X - 1))) w ->
  int_of r1 r < int_of r1 m -> int_of r2 r < int_of r1 m ->
  alike s' r1 r2 /\ wires r1 (limbs q) = wires r2 (limbs q) /\ wires r1 (limbs r) = wires r2 (limbs r).
Proof. exact @top_unique_mult_mod. Qed.
Print Assumptions C101_mult_mod.

Theorem C101_red_mod : forall (E : Env) (W : Wf E) wit a m s r s' r1 r2,
  let w := limb_width (bparams a) in
  let X := 2 ^ Z.of_nat w in
  let ql := q_limbs (n_bits_of a) (min_bits (bparams m)) w in
  twice wit (red_mod a m) s r s' r1 r2 -> over s a -> over s m -> bounded r1 a -> bounded r1 m ->
  Z.of_nat (ql + List.length (limbs m)) <= modulus -> (w < NUM_BITS)%nat ->
  group_no_wrap (Z.max (max_word (bparams a)) (product_word ql (X - 1) (List.length (limbs m)) (max_word (bparams m)) + (X - 1))) w ->
  int_of r1 r < int_of r1 m -> int_of r2 r < int_of r1 m ->
  alike s' r1 r2 /\ wires r1 (limbs r) = wires r2 (limbs r).
Proof. exact @top_unique_red_mod. Qed.
Print Assumptions C101_red_mod.

(** Whole circuits for expressions: every wire is a function of the inputs. *)
Theorem C101_circuit : forall (E : Env) (W : Wf E) wit w ins xs bs cs e s b s' r1 r2,
  twice wit (circuit xs bs e) s b s' r1 r2 ->
  (1 <= w)%nat -> (w < NUM_BITS)%nat -> ins_ok ins -> Forall2 (of_shape w) ins xs -> Forall (bounded r1) xs -> Forall (over s) xs ->
  Forall2 (fun c x => feval r1 (b_lc c) = Z.b2z x) bs cs -> Forall (fun c => made_of s (b_lc c)) bs ->
  in_room w ins (length bs) e ->
  alike s' r1 r2 /\ wires r1 (limbs b) = wires r2 (limbs b).
Proof. exact @top_unique_circuit. Qed.
Print Assumptions C101_circuit.

(** Cases: the hypotheses hold in a small field, and after an honest call every change of one new wire is refused.  The
    second assignment differs from the first by multiples of the modulus, and outside the variables allocated. *)
Definition C101_bump (s : st) (i : nat) : assignment :=
  fun v => match v with VAux n => asg s v + (if Nat.eqb n i then 1 else 0) | VIn _ => asg s v end.
Definition C101_rigid {E : Env} (s s' : st) : bool :=
  forallb (fun i => negb (satb (C101_bump s' i) s')) (seq (List.length (st_aux s)) (List.length (st_aux s') - List.length (st_aux s))).
Definition C101_shift {E : Env} (s : st) : assignment :=
  fun v => match v with VAux n => asg s v + modulus | VIn _ => asg s v end.
(** Result: satisfied by the honest values, by the shifted ones, number of new wires, all rigid. *)
Definition C101_try {E : Env} {P A} (prep : prog P) (m : P -> prog A) : option (bool * bool * nat * bool) :=
  let (x, s) := run true prep st_init in
  match x with
  | Ok x => let (a, s') := run true (m x) s in
      match a with
      | Ok _ => Some (satb (asg s') s', satb (C101_shift s') s', (List.length (st_aux s') - List.length (st_aux s))%nat, C101_rigid s s')
      | _ => None
      end
  | _ => None
  end.
Definition C101_pair {E : Env} (u v : Z) : prog (bignat * bignat) :=
  let! a := alloc_from_nat (Ok u) 3 2 in let! b := alloc_from_nat (Ok v) 3 2 in Ret (a, b).
Definition C101_bit {E : Env} (c : bool) (u v : Z) : prog (bit * (bignat * bignat)) :=
  let! x := bit_alloc (Some c) in let! p := C101_pair u v in Ret (x, p).
Definition C101_num {E : Env} (v : Z) : prog num := let! (x, v) := alloc (Nm "x") (Ok v) in Ret (mkNum (lc_var x) v).

Example C101_case : let E := mid_env 65521 in
  (forall s a b, run true (C101_pair 17 30) st_init = (Ok (a, b), s) ->
     over s a /\ over s b /\ well_shaped a /\ well_shaped b /\ bounded (asg s) a /\ bounded (asg s) b /\ limb_width (bparams a) = 3%nat /\
     max_word (bparams a) = 7 /\ max_word (bparams b) = 7 /\ int_of (asg s) a = 17) /\ (3 < NUM_BITS)%nat /\
  group_no_wrap (Z.max (product_word 2 7 2 7) 7) 3 /\ group_no_wrap (Z.max 7 (7 + 7)) 3 /\
  group_no_wrap (Z.max (product_word 2 7 2 7) (product_word 3 7 2 7 + 7)) 3 /\ group_no_wrap (Z.max (product_word 2 7 2 7) (product_word 4 7 2 7 + 7)) 3.
Proof.
  cbv zeta. split; [|split; [|vm_compute; repeat split; discriminate]].
  - intros s a b H. vm_compute in H. injection H as <- <- <-.
    repeat split; try (vm_compute; repeat constructor; discriminate); try reflexivity; unfold over, bounded; cbn [limbs map wires];
      repeat constructor; try (intros c v [K|[]]; injection K as <- <-; vm_compute; repeat constructor); vm_compute; discriminate.
  - vm_compute. repeat constructor.
Qed.

Example C101_rigid_case : let E := mid_env 65521 in
  map (fun o => option_map (fun r => let '(a, b, n, c) := r in (n, a && b && c)) o)
  [C101_try (C101_pair 17 30) (fun p => mult (fst p) (snd p));
   C101_try (C101_pair 30 17) (fun p => let! d := ns (Nm "d") (Bignat.sub (fst p) (snd p)) in let! _ := ns (Nm "w") (assert_well_formed d) in Ret d);
   C101_try (C101_pair 5 30) (fun p => divides (fst p) (snd p));
   C101_try (C101_pair 30 17) (fun p => mult_mod (fst p) (fst p) (snd p));
   C101_try (C101_pair 30 17) (fun p => red_mod (fst p) (snd p));
   C101_try (C101_pair 38 17) (fun p => enforce_full_bits (fst p));
   C101_try (C101_pair 30 17) (fun p => enforce_min_bits (fst p) 4);
   C101_try (C101_pair 30 17) (fun p => equal_when_carried_regroup (fst p) (fst p));
   C101_try (C101_pair 30 17) (fun p => is_equal (fst p) (snd p));
   C101_try (C101_num 30) (fun p => from_num p 3 3);
   C101_try (C101_num 30) (fun p => fits_in_bits p 7);
   C101_try (C101_bit true 30 17) (fun p => mux (fst p) (fst (snd p)) (snd (snd p)));
   C101_try (C101_bit true 30 17) (fun p => circuit [fst (snd p); snd (snd p)] [fst p] (ECase 0 (EMul (EIn 0) (EIn 1)) (ESub (EMul (EIn 1) (EIn 1)) (EIn 0))))]
  = map (fun n => Some (n, true)) [16; 7; 10; 27; 16; 3; 7; 1; 13; 12; 6; 2; 49]%nat.
Proof. vm_compute. reflexivity. Qed.

(** Not so where two limbs agree (30 and 22 share the low limb). *)
Example C101_free_case : let E := mid_env 65521 in
  C101_try (C101_pair 30 22) (fun p => is_equal (fst p) (snd p)) = Some (true, true, 13%nat, false).
Proof. vm_compute. reflexivity. Qed.
