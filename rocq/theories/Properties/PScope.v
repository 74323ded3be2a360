(** C102: constraints refer to allocated wires only, and calls only add to what was there. *)
From Coq Require Import String ZArith Bool List Lia.
From Verif.Model Require Import Base CS Bellpepper Util Poly Bignat Gadget Median Difficulty HeaderStep ShaGadget RealHash Fields.
From Verif.Spec Require Import Spec SpecUnique SpecScope.
From Verif.Proofs Require Import Wp PrimeMid TopScope.
Import ListNotations.
Local Open Scope string_scope.
Local Open Scope Z_scope.
Local Open Scope list_scope.

(** Any program of constraint-system operations only adds variables and constraints, however it ends. *)
Theorem C102_grow : forall A wit (m : prog A) s r s', run wit m s = (r, s') -> grown s s'.
Proof. exact @top_grow. Qed.
Print Assumptions C102_grow.

(** So the values it found stay, and what satisfies the constraints afterwards satisfied them before. *)
Theorem C102_values : forall A wit (m : prog A) s r s' v, run wit m s = (r, s') -> known s v -> asg s' v = asg s v.
Proof. exact @top_scope_values. Qed.
Print Assumptions C102_values.

Theorem C102_before : forall (E : Env) A wit (m : prog A) s r s' rho, run wit m s = (r, s') -> sat rho s' -> sat rho s.
Proof. exact @top_scope_before. Qed.
Print Assumptions C102_before.

(** In a closed state only the values of the allocated variables matter, up to the modulus. *)
Theorem C102_local : forall (E : Env) (W : Wf E) s r1 r2,
  closed s -> r1 ONE = 1 -> r2 ONE = 1 -> alike s r1 r2 -> sat r1 s -> sat r2 s.
Proof. exact @top_scope_local. Qed.
Print Assumptions C102_local.

(** A new constraint system is closed, and sequences of scoped calls are scoped. *)
Theorem C102_init : closed st_init.
Proof. exact @top_scope_init. Qed.
Print Assumptions C102_init.

Theorem C102_sequence : forall A B (m : prog A) (f : A -> prog B) P Q R,
  scoped m P Q -> (forall a, scoped (f a) (fun s => Q s a) R) -> scoped (bind m f) P R.
Proof. exact @top_scope_bind. Qed.
Print Assumptions C102_sequence.

(** Allocation. *)
Theorem C102_alloc : forall (E : Env) w f g mw lw n v p vb,
  scoped (an_alloc w) (fun _ => True) (fun s r => known s (an_var r)) /\
  scoped (num_alloc w) (fun _ => True) (fun s r => made_of s (n_lc r)) /\
  scoped (alloc_from_nat f lw n) (fun _ => True) (fun s r => over s r) /\
  scoped (alloc_from_limbs g mw lw n) (fun _ => True) (fun s r => over s r) /\
  scoped (gadget_alloc v p) (fun _ => True) (fun s r => over s r) /\
  scoped (bit_alloc vb) (fun _ => True) (fun s r => made_of s (b_lc r)) /\
  scoped (ab_alloc vb) (fun _ => True) (fun s r => known s (ab_var r)).
Proof. exact @top_scope_alloc. Qed.
Print Assumptions C102_alloc.

(** Decompositions and range checks. *)
Theorem C102_bits : forall (E : Env) n k b bv,
  scoped (num_decompose n k) (fun s => made_of s (n_lc n)) (fun s r => bits_in s r) /\
  scoped (fits_in_bits n k) (fun s => made_of s (n_lc n)) (fun _ _ => True) /\
  scoped (num_is_equal n bv) (fun s => made_of s (n_lc n) /\ bits_in s bv) (fun _ _ => True) /\
  scoped (bn_decompose b) (fun s => over s b) (fun s r => bits_in s r) /\
  scoped (assert_well_formed b) (fun s => over s b) (fun _ _ => True) /\
  scoped (enforce_full_bits b) (fun s => over s b) (fun s r => over s r) /\
  scoped (enforce_min_bits b k) (fun s => over s b) (fun s r => over s r).
Proof. exact @top_scope_bits. Qed.
Print Assumptions C102_bits.

(** Field elements and their limbs. *)
Theorem C102_from_num : forall (E : Env) n w k,
  scoped (from_num n w k) (fun s => made_of s (n_lc n)) (fun s r => over s r) /\
  scoped (as_sapling_allocated_num n) (fun s => made_of s (n_lc n)) (fun s r => known s (an_var r)).
Proof. exact @top_scope_from_num. Qed.
Print Assumptions C102_from_num.

(** Copies and public inputs. *)
Theorem C102_copies : forall b,
  scoped (bn_inputize b) (fun s => over s b) (fun _ _ => True) /\
  scoped (gadget_inputize b) (fun s => over s b) (fun _ _ => True) /\
  scoped (as_nums b) (fun s => over s b) (fun s r => nums_of s r).
Proof. exact @top_scope_copies. Qed.
Print Assumptions C102_copies.

(** Products of polynomials. *)
Theorem C102_poly : forall (E : Env) p q,
  scoped (alloc_product p q) (fun s => poly_of s p /\ poly_of s q) (fun s r => poly_of s r).
Proof. exact @top_scope_poly. Qed.
Print Assumptions C102_poly.

(** Equalities. *)
Theorem C102_equality : forall (E : Env) a b x y,
  scoped (equal a b) (fun s => over s a /\ over s b) (fun _ _ => True) /\
  scoped (is_equal a b) (fun s => over s a /\ over s b) (fun s r => bool_of s r) /\
  scoped (assert_equal a b) (fun s => over s a /\ over s b) (fun _ _ => True) /\
  scoped (equals x y) (fun s => known s (an_var x) /\ known s (an_var y)) (fun s r => bool_of s r) /\
  scoped (equal_when_carried a b) (fun s => over s a /\ over s b) (fun _ _ => True) /\
  scoped (equal_when_carried_regroup a b) (fun s => over s a /\ over s b) (fun _ _ => True).
Proof. exact @top_scope_equality. Qed.
Print Assumptions C102_equality.

(** Arithmetic. *)
Theorem C102_arith : forall (E : Env) a b c d,
  scoped (verify_mult a b c) (fun s => over s a /\ over s b /\ over s c) (fun _ _ => True) /\
  scoped (mult a b) (fun s => over s a /\ over s b) (fun s r => over s r) /\
  scoped (divides a b) (fun s => over s a /\ over s b) (fun _ _ => True) /\
  scoped (Bignat.sub a b) (fun s => over s a /\ over s b) (fun s r => over s r) /\
  scoped (assert_product_mod a b c d) (fun s => over s a /\ over s b /\ over s c /\ over s d) (fun s r => over s r) /\
  scoped (mult_mod a b c) (fun s => over s a /\ over s b /\ over s c) (fun s r => over s (fst r) /\ over s (snd r)) /\
  scoped (red_mod a b) (fun s => over s a /\ over s b) (fun s r => over s r).
Proof. exact @top_scope_arith. Qed.
Print Assumptions C102_arith.

(** Choices. *)
Theorem C102_choice : forall (E : Env) x a b xs bs,
  scoped (mux x a b) (fun s => made_of s (b_lc x) /\ over s a /\ over s b) (fun s r => over s r) /\
  scoped (mux_default x a b) (fun s => made_of s (b_lc x) /\ over s a /\ over s b) (fun s r => over s r) /\
  scoped (switch x a b) (fun s => made_of s (b_lc x) /\ over s a /\ over s b) (fun s r => over s (fst r) /\ over s (snd r)) /\
  scoped (mux_tree xs bs) (fun s => Forall (fun x => made_of s (b_lc x)) xs /\ Forall (over s) bs) (fun s r => over s r) /\
  scoped (bn_min a b) (fun s => over s a /\ over s b) (fun s r => over s r).
Proof. exact @top_scope_choice. Qed.
Print Assumptions C102_choice.

(** Booleans and field elements. *)
Theorem C102_logic : forall (E : Env) a b x y,
  scoped (bool_and a b) (fun s => bool_of s a /\ bool_of s b) (fun s r => bool_of s r) /\
  scoped (bool_or a b) (fun s => bool_of s a /\ bool_of s b) (fun s r => bool_of s r) /\
  scoped (bool_enforce_equal a b) (fun s => bool_of s a /\ bool_of s b) (fun _ _ => True) /\
  scoped (an_add x y) (fun s => known s (an_var x) /\ known s (an_var y)) (fun s r => known s (an_var r)) /\
  scoped (an_conditionally_reverse x y a) (fun s => known s (an_var x) /\ known s (an_var y) /\ bool_of s a) (fun s r => known s (an_var (fst r)) /\ known s (an_var (snd r))).
Proof. exact @top_scope_logic. Qed.
Print Assumptions C102_logic.

(** Comparison and median. *)
Theorem C102_compare : forall (E : Env) x y n ts m,
  scoped (less_than x y n) (fun s => known s (an_var x) /\ known s (an_var y)) (fun s r => bool_of s r) /\
  scoped (leq x y n) (fun s => known s (an_var x) /\ known s (an_var y)) (fun s r => bool_of s r) /\
  scoped (verify_median_timestamp ts m) (fun _ => True) (fun s r => bool_of s r).
Proof. exact @top_scope_compare. Qed.
Print Assumptions C102_compare.

(** Difficulty and proof of work. *)
Theorem C102_difficulty : forall (E : Env) cu cl pu pl t x y,
  scoped (verify_difficulty_update cu cl pu pl t) (fun _ => True) (fun _ _ => True) /\
  scoped (calculate_difficulty_update x y) (fun s => known s (an_var x) /\ known s (an_var y)) (fun s r => over s r) /\
  scoped (verify_current_hash cu cl pu pl) (fun _ => True) (fun s r => bool_of s r).
Proof. exact @top_scope_difficulty. Qed.
Print Assumptions C102_difficulty.

(** Hashing, with the macro constraint and with the real constraints of the gadget. *)
Theorem C102_hash : forall (E : Env) ins b h v,
  scoped (u64_into_boolean_vec_le v) (fun _ => True) (fun s r => Forall (bool_of s) r) /\
  scoped (sha256_gadget ins) (fun s => Forall (bool_of s) ins) (fun s r => Forall (bool_of s) r) /\
  scoped (sha256_r1cs ins) (fun s => Forall (bool_of s) ins) (fun s r => Forall (bool_of s) r) /\
  scoped (check_prev_hash b h) (fun _ => True) (fun _ _ => True) /\
  scoped (check_prev_hash_r1cs b h) (fun _ => True) (fun _ _ => True).
Proof. exact @top_scope_hash. Qed.
Print Assumptions C102_hash.

(** The step circuit, however far the call gets. *)
Theorem C102_step : forall (E : Env) zo h z,
  scoped (synthesize_with zo h z) (fun s => nums_of s zo /\ nums_of s z) (fun s r => nums_of s r) /\
  scoped (synthesize h z) (fun s => nums_of s z) (fun s r => nums_of s r) /\
  scoped (synthesize_r1cs zo h z) (fun s => nums_of s zo /\ nums_of s z) (fun s r => nums_of s r).
Proof. exact @top_scope_step. Qed.
Print Assumptions C102_step.

(** What the operations without constraints return refers to what they were given. *)
Theorem C102_reshape : forall (E : Env) s a b c k z w bv p q mw ns,
  (group_limbs a k = Ok c -> over s a -> over s c) /\
  (concat a b = Ok c -> over s a -> over s b -> over s c) /\
  (Bignat.add a b = Ok c -> over s a -> over s b -> over s c) /\
  (with_n_limbs a k = Ok c -> over s a -> over s c) /\
  (truncate_limbs a k = Ok c -> over s a -> over s c) /\
  (shift a z = Ok c -> known s ONE -> over s a -> over s c) /\
  (scale a z = Ok c -> over s a -> over s c) /\
  (recompose bv w = Ok c -> bits_in s bv -> over s c) /\
  (as_limbs a = Ok ns -> over s a -> Forall (fun n => made_of s (n_lc n)) ns) /\
  (Forall (fun n => made_of s (n_lc n)) ns -> over s (from_limbs ns w)) /\
  (poly_of s p -> poly_of s q -> poly_of s (poly_sum p q) /\ over s (from_poly p w mw)) /\
  (over s a -> poly_of s (to_poly a)) /\ (known s ONE -> over s (bn_one w)).
Proof. exact @top_scope_reshape. Qed.
Print Assumptions C102_reshape.

(** Determined gadgets (C101) may be chained: the wires of the chain are determined. *)
Theorem C102_chain : forall (E : Env) A B (m : prog A) (f : A -> prog B) P (R : A -> st -> assignment -> Prop),
  determined m P -> (forall wit s a s' r, P s r -> run wit m s = (Ok a, s') -> sat r s' -> R a s' r) ->
  (forall a, determined (f a) (R a)) -> determined (bind m f) P.
Proof. exact @top_scope_compose. Qed.
Print Assumptions C102_chain.

(** For instance: a field element is cut into limbs, the number is shown to have [j] bits, and its limbs are copied. *)
Theorem C102_pipeline : forall (E : Env) (W : Wf E) n w k j, (w < NUM_BITS)%nat -> (w * k < NUM_BITS)%nat ->
  determined (let! b := from_num n w k in let! c := enforce_min_bits b j in as_nums c) (fun s _ => closed s /\ made_of s (n_lc n)).
Proof. exact @top_scope_pipeline. Qed.
Print Assumptions C102_pipeline.

(** Cases: the states after honest calls, checked by computation; a program that refers to a wire before allocating it. *)
Definition C102_knownb (s : st) (v : var) : bool :=
  match v with VIn n => Nat.ltb n (List.length (st_in s)) | VAux n => Nat.ltb n (List.length (st_aux s)) end.
Definition C102_lcb (s : st) (l : LC) : bool := forallb (fun t => C102_knownb s (snd t)) l.
Definition C102_closedb (s : st) : bool :=
  C102_knownb s ONE && forallb (fun c => match c with
    | R1 a b c => C102_lcb s a && C102_lcb s b && C102_lcb s c
    | ShaC i o => forallb (C102_lcb s) i && forallb (C102_lcb s) o end) (st_cons s).
Definition C102_pair {E : Env} (u v : Z) : prog (bignat * bignat) :=
  let! a := alloc_from_nat (Ok u) 3 2 in let! b := alloc_from_nat (Ok v) 3 2 in Ret (a, b).
Definition C102_after {E : Env} {A} (m : bignat -> bignat -> prog A) : bool * nat :=
  let (_, s) := run true (let! (a, b) := C102_pair 30 17 in m a b) st_init in (C102_closedb s, List.length (st_cons s)).
Definition C102_early {E : Env} : prog allocated_num :=
  let! _ := enforce (Nm "early") lc_zero lc_zero (lc_var (VAux 9)) in an_alloc (Ok 1).

Example C102_case : let E := mid_env 65521 in
  [C102_after (fun a b => mult_mod a a b); C102_after (fun a b => is_equal a b); C102_after (fun a b => bn_min a b); C102_after (fun a b => equal a b);
   C102_after (fun _ _ => C102_early)] = [(true, 29%nat); (true, 17%nat); (true, 7%nat); (true, 2%nat); (false, 1%nat)].
Proof. vm_compute. reflexivity. Qed.

Example C102_early_case : let E := mid_env 65521 in
  ~ scoped C102_early (fun _ => True) (fun s a => known s (an_var a)).
Proof.
  cbv zeta. intros H. destruct (H true st_init _ _ (C102_init) I eq_refl) as [[_ F] _]. apply Forall_inv in F. destruct F as (_ & _ & M).
  specialize (M 1 (VAux 9) (or_introl eq_refl)). cbn in M. lia.
Qed.

(** The hypotheses of [C102_local] and [C102_pipeline]: an assignment changed outside the state and by the modulus inside. *)
Example C102_local_case : let E := mid_env 65521 in
  let (r, s) := run true (let! n := num_alloc (Ok 30) in let! b := from_num n 3 3 in let! c := enforce_min_bits b 4 in as_nums c) st_init in
  exists r2, closed s /\ alike s (asg s) r2 /\ (exists v, r2 v <> asg s v) /\ sat (asg s) s /\ sat r2 s /\ (exists l, r = Ok l /\ List.length l = 3%nat) /\
    (3 < NUM_BITS)%nat /\ (3 * 3 < NUM_BITS)%nat.
Proof.
  cbv zeta. pose (E := mid_env 65521). change (mid_env 65521) with E.
  destruct (run true _ st_init) as [r s] eqn:H.
  assert (C : closed s).
  { eapply (C102_sequence _ _ _ _ (fun _ => True) (fun s x => made_of s (n_lc x)) (fun _ _ => True)); [|intros n|exact C102_init|exact I|exact H].
    - apply (C102_alloc E (Ok 30) (Ok 0) (Ok []) None 0 0 None (params_new 0 0) None).
    - apply (C102_sequence _ _ _ _ _ (fun s b => over s b)); [apply (C102_from_num E n 3 3)|]. intros b.
      apply (C102_sequence _ _ _ _ _ (fun s b => over s b)); [apply (C102_bits E n 4 b (mkBV [] None []))|]. intros c.
      intros wit s0 r0 s1 C0 O0 R0. split; [|auto]. apply (proj2 (proj2 (C102_copies c)) wit s0 r0 s1 C0 O0 R0). }
  exists (fun v => match v with VIn n => asg s v | VAux n => asg s v + 65521 end). split; [exact C|]. clear C.
  vm_compute in H. injection H as <- <-. split; [|split; [|split; [|split; [|split; [|vm_compute; split; repeat constructor]]]]].
  - split; intros n _; [reflexivity|]. change fmk with (fun x => x mod 65521). cbv beta. now rewrite <- (Z_mod_plus_full _ 1 65521), Z.mul_1_l.
  - exists (VAux 0). vm_compute. discriminate.
  - apply satb_sat. vm_compute. reflexivity.
  - apply satb_sat. vm_compute. reflexivity.
  - eexists. split; reflexivity.
Qed.
