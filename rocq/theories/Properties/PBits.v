(** C06-C11: bits, range checks, decompositions and bit vectors. *)
From Coq Require Import ZArith Bool List.
From Verif.Model Require Import Base CS Bellpepper Util Poly Bignat Fields.
From Verif.Spec Require Import Spec SpecBits.
From Verif.Proofs Require Import Field BitNum Prime TopBits.
Import ListNotations.
Local Open Scope Z_scope.

(** An allocated bit is 0 or 1 in every satisfying assignment. *)
Theorem C06_bit_sound : forall (E : Env) (W : Wf E) wit v s b s' rho,
  run wit (bit_alloc v) s = (Ok b, s') -> sat rho s' ->
  feval rho (b_lc b) = 0 \/ feval rho (b_lc b) = 1.
Proof. exact @top_bit_sound. Qed.
Print Assumptions C06_bit_sound.

(** The honest allocation satisfies its constraint and carries the value. *)
Theorem C06_bit_complete : forall (E : Env) (W : Wf E) v s, good s ->
  exists b s', run true (bit_alloc (Some v)) s = (Ok b, s') /\ good s' /\ bit_at s' b v.
Proof. exact @top_bit_complete. Qed.
Print Assumptions C06_bit_complete.

(** Negation is one minus the bit. *)
Theorem C06_bit_not : forall (E : Env) (b : bit) rho, rho ONE = 1 ->
  feval rho (b_lc (bit_not b)) = (1 - feval rho (b_lc b)) mod modulus.
Proof. exact @top_bit_not. Qed.
Print Assumptions C06_bit_not.

Theorem C06_bit_not_value : forall (E : Env) (W : Wf E) s b v,
  bit_at s b v -> bit_at s (bit_not b) (negb v).
Proof. exact @top_bit_not_at. Qed.
Print Assumptions C06_bit_not_value.

(** [constrain_value] is satisfied exactly by the bits with that value. *)
Theorem C06_constrain : forall (E : Env) (W : Wf E) wit b v s, exists s',
  run wit (bit_constrain_value b v) s = (Ok tt, s') /\
  forall rho, sat rho s' <-> sat rho s /\ feval rho (b_lc b) = Z.b2z v.
Proof. exact @top_bit_constrain. Qed.
Print Assumptions C06_constrain.

(** A bit taken over from a bellpepper Boolean has its wire and its value. *)
Theorem C06_from_boolean : forall (E : Env) rho x, rho ONE = 1 -> 1 < modulus ->
  let b := bit_from_sapling x in
  match x with
  | BIs a => feval rho (b_lc b) = rho (ab_var a) mod modulus /\ b_val b = ab_val a
  | BNot a => feval rho (b_lc b) = (1 - rho (ab_var a)) mod modulus /\ b_val b = option_map negb (ab_val a)
  | BConst c => feval rho (b_lc b) = Z.b2z c /\ b_val b = Some c
  end.
Proof. exact @top_from_sapling. Qed.
Print Assumptions C06_from_boolean.

(** The constant bits. *)
Theorem C06_constant : forall (E : Env) rho v, 1 < modulus -> rho ONE = 1 -> bit_for rho (bit_new_value v) v.
Proof. exact @top_new_value. Qed.
Print Assumptions C06_constant.

Example C06_case : let E := small_env 13 in
  let '(r, s) := run true (let! b := bit_alloc (Some true) in
                           let! _ := bit_constrain_value (bit_not b) false in Ret b) st_init in
  match r with
  | Ok b => feval (asg s) (b_lc b) = 1 /\ feval (asg s) (b_lc (bit_not b)) = 0 /\
            satb (asg s) s = true /\ length (st_cons s) = 2%nat
  | _ => False
  end.
Proof. vm_compute. auto. Qed.

(** The range check: nothing outside the range passes, whatever the auxiliary values. *)
Theorem C07_fits_sound : forall (E : Env) (W : Wf E) wit n k s u s' rho, (1 <= k)%nat ->
  run wit (fits_in_bits n k) s = (Ok u, s') -> sat rho s' ->
  0 <= feval rho (n_lc n) < 2 ^ Z.of_nat k.
Proof. exact @top_fits_sound. Qed.
Print Assumptions C07_fits_sound.

(** Everything inside the range passes in the honest run. *)
Theorem C07_fits_complete : forall (E : Env) (W : Wf E) n k v s, good s -> num_at s n v ->
  (1 <= k <= NUM_BITS)%nat -> v < 2 ^ Z.of_nat k ->
  exists s', run true (fits_in_bits n k) s = (Ok tt, s') /\ good s'.
Proof. exact @top_fits_complete. Qed.
Print Assumptions C07_fits_complete.

(** For fixed values of the earlier variables: some choice of the new variables satisfies the
    constraints iff the value is in the range. *)
Theorem C07_fits_exact : forall (E : Env) (W : Wf E) wit n k v s u s' rho0, (1 <= k)%nat ->
  good_for rho0 s -> carries_for rho0 s (n_lc n) v ->
  run wit (fits_in_bits n k) s = (Ok u, s') ->
  ((exists rho, same_on s rho rho0 /\ sat rho s') <-> v < 2 ^ Z.of_nat k).
Proof. exact @top_fits_exact. Qed.
Print Assumptions C07_fits_exact.

Definition C07_run (v : Z) (k : nat) : bool :=
  let E := small_env 251 in
  let '(r, s) := run true (let! n := num_alloc (Ok v) in fits_in_bits n k) st_init in
  match r with Ok _ => satb (asg s) s | _ => false end.
Example C07_case : C07_run 127 7 = true /\ C07_run 128 7 = false /\ C07_run 200 8 = true.
Proof. vm_compute. auto. Qed.

(** Width zero is the one-bit check. *)
Theorem C08_fits_zero : forall (E : Env) (W : Wf E) wit n v s u s' rho0,
  good_for rho0 s -> carries_for rho0 s (n_lc n) v ->
  run wit (fits_in_bits n 0) s = (Ok u, s') ->
  ((exists rho, same_on s rho rho0 /\ sat rho s') <-> v = 0 \/ v = 1).
Proof. exact @top_fits_zero. Qed.
Print Assumptions C08_fits_zero.

Theorem C08_zero_is_one : forall (E : Env) wit n s,
  run wit (fits_in_bits n 0) s = run wit (fits_in_bits n 1) s.
Proof. exact @top_fits_zero_one. Qed.
Print Assumptions C08_zero_is_one.

Example C08_case : C07_run 0 0 = true /\ C07_run 1 0 = true /\ C07_run 2 0 = false.
Proof. vm_compute. auto. Qed.

(** Decomposition: the wires are bits that recompose to the number. *)
Theorem C09_decompose_sound : forall (E : Env) (W : Wf E) wit n k s bv s' rho,
  run wit (num_decompose n k) s = (Ok bv, s') -> sat rho s' ->
  exists bs, length bs = k /\ wires rho (bv_bits bv) = map Z.b2z bs /\
    feval rho (n_lc n) = bits_value bs mod modulus /\
    ((k < NUM_BITS)%nat -> feval rho (n_lc n) = bits_value bs).
Proof. exact @top_decompose_sound. Qed.
Print Assumptions C09_decompose_sound.

Theorem C09_decompose_complete : forall (E : Env) (W : Wf E) n k v s, good s -> num_at s n v ->
  (k <= NUM_BITS)%nat -> v < 2 ^ Z.of_nat k ->
  exists bv s', run true (num_decompose n k) s = (Ok bv, s') /\ good s' /\
    exists bs, bits_value bs = v /\ length bs = k /\ bv_vals bv = Some bs /\
      Forall2 (carries s') (bv_bits bv) (map Z.b2z bs).
Proof. exact @top_decompose_complete. Qed.
Print Assumptions C09_decompose_complete.

Theorem C09_decompose_exact : forall (E : Env) (W : Wf E) wit n k v s bv s' rho0,
  good_for rho0 s -> carries_for rho0 s (n_lc n) v -> (forall x, n_val n = Some x -> canon x) ->
  run wit (num_decompose n k) s = (Ok bv, s') -> (k <= NUM_BITS)%nat ->
  ((exists rho, same_on s rho rho0 /\ sat rho s') <-> v < 2 ^ Z.of_nat k).
Proof. exact @top_decompose_exact. Qed.
Print Assumptions C09_decompose_exact.

(** At the full width the bits are not determined: those of value + modulus also satisfy the
    constraints. *)
Theorem C09_decompose_ambiguous : forall (E : Env) (W : Wf E) wit n v s bv s' rho0,
  good_for rho0 s -> carries_for rho0 s (n_lc n) v -> (forall x, n_val n = Some x -> canon x) ->
  run wit (num_decompose n NUM_BITS) s = (Ok bv, s') ->
  v + modulus < 2 ^ Z.of_nat NUM_BITS ->
  exists rho bs, same_on s rho rho0 /\ sat rho s' /\
    wires rho (bv_bits bv) = map Z.b2z bs /\ bits_value bs = v + modulus.
Proof. exact @top_decompose_ambiguous. Qed.
Print Assumptions C09_decompose_ambiguous.

(** Above the full width a run with a value panics. *)
Theorem C09_decompose_panics : forall (E : Env) (W : Wf E) wit n k v s,
  n_val n = Some v -> canon v -> (NUM_BITS < k)%nat ->
  run wit (num_decompose n k) s = (Panic, s).
Proof. exact @num_decompose_panic. Qed.
Print Assumptions C09_decompose_panics.

Definition C09_run (v : Z) (k : nat) : res (option (list bool)) * bool :=
  let E := small_env 251 in
  let '(r, s) := run true (let! n := num_alloc (Ok v) in num_decompose n k) st_init in
  (rmap bv_vals r, satb (asg s) s).
Example C09_case :
  C09_run 11 5 = (Ok (Some [true; true; false; true; false]), true) /\
  C09_run 32 5 = (Ok (Some [false; false; false; false; false]), false) /\
  fst (C09_run 3 9) = Panic.
Proof. vm_compute. auto. Qed.

(** Every history of bit-vector operations keeps wires and values aligned with the list of booleans
    the history describes, and panics exactly when the history is out of range. *)
Theorem C10_histories : forall (E : Env) rho ops bv vs,
  aligned rho bv vs -> Forall (op_ok rho) ops ->
  match spec_ops ops vs with
  | Some vs' => exists bv', bv_ops ops bv = Ok bv' /\ aligned rho bv' vs'
  | None => bv_ops ops bv = Panic
  end.
Proof. exact @top_bv_ops. Qed.
Print Assumptions C10_histories.

(** The numbers represented after shifting and truncating. *)
Theorem C10_shl : forall (E : Env) rho bv vs i, aligned rho bv vs ->
  exists vs', aligned rho (bv_shl i bv) vs' /\ bits_value vs' = 2 ^ Z.of_nat i * bits_value vs.
Proof. exact @top_shl_value. Qed.
Print Assumptions C10_shl.

Theorem C10_shr : forall (E : Env) rho bv vs i, aligned rho bv vs -> (i <= length vs)%nat ->
  exists bv' vs', bv_shr i bv = Ok bv' /\ aligned rho bv' vs' /\
    bits_value vs' = bits_value vs / 2 ^ Z.of_nat i.
Proof. exact @top_shr_value. Qed.
Print Assumptions C10_shr.

Theorem C10_truncate : forall (E : Env) rho bv vs n, aligned rho bv vs ->
  exists vs', aligned rho (bv_truncate n bv) vs' /\
    bits_value vs' = bits_value vs mod 2 ^ Z.of_nat n.
Proof. exact @top_truncate_value. Qed.
Print Assumptions C10_truncate.

(** [pop] returns the last bit. *)
Theorem C10_pop : forall (E : Env) rho bv vs v, aligned rho bv (vs ++ [v]) ->
  exists x bv', bv_pop bv = Ok (Some x, bv') /\ bit_for rho x v /\ aligned rho bv' vs.
Proof. exact @top_pop. Qed.
Print Assumptions C10_pop.

(** [get] returns the bit at a position with its value, and nothing past the end. *)
Theorem C10_get : forall (E : Env) rho bv vs i, aligned rho bv vs ->
  match nth_error vs i with
  | Some v => exists x, bv_get i bv = Ok (Some x) /\ bit_for rho x v
  | None => bv_get i bv = Ok None
  end.
Proof. exact @top_get. Qed.
Print Assumptions C10_get.

Example C10_case : let E := small_env 13 in
  let bv := bv_from_bits [bit_true; bit_false; bit_true] in
  let rho := fun _ => 1 in
  Forall2 (fun l v => feval rho l = Z.b2z v) (bv_bits bv) [true; false; true] /\
  bv_vals bv = Some [true; false; true] /\
  rmap bv_vals (bv_ops [OpShl 2; OpPush bit_true true; OpReversed; OpTruncate 4; OpPop; OpShr 1] bv)
    = Ok (Some [true; false]).
Proof. vm_compute. repeat constructor. Qed.

(** [from_bits] followed by [into_bits]. *)
Theorem C11_from_into : forall bs,
  bv_bits (bv_from_bits bs) = map b_lc bs /\
  ((forall b, In b bs -> b_val b <> None) -> bv_into_bits (bv_from_bits bs) = Ok bs) /\
  ((exists b, In b bs /\ b_val b = None) ->
     bv_into_bits (bv_from_bits bs) = Ok (map (fun b => mkBit (b_lc b) None) bs)).
Proof. exact top_into_from. Qed.
Print Assumptions C11_from_into.

(** Pushing a bit without a value onto a vector with values makes [into_bits] panic. *)
Theorem C11_push_none_panics : forall (E : Env) rho bv vs x,
  aligned rho bv vs -> b_val x = None -> bv_into_bits (bv_push x bv) = Panic.
Proof. exact @top_push_none. Qed.
Print Assumptions C11_push_none_panics.

Theorem C11_get_panics : forall (E : Env) rho bv vs x,
  aligned rho bv vs -> b_val x = None -> bv_get (length vs) (bv_push x bv) = Panic.
Proof. exact @top_get_push_none. Qed.
Print Assumptions C11_get_panics.

Example C11_case :
  bv_into_bits (bv_from_bits [bit_true; bit_false]) = Ok [bit_true; bit_false] /\
  bv_into_bits (bv_from_bits [bit_true; mkBit [] None]) =
    Ok [mkBit (lc_var ONE) None; mkBit [] None] /\
  bv_into_bits (bv_push (mkBit [] None) (bv_from_bits [bit_true])) = Panic.
Proof. vm_compute. auto. Qed.

(** [Num::is_equal] demands equality, in the field, with the bits the vector was allocated with. *)
Theorem C65_is_equal_exact : forall (E : Env) (W : Wf E) wit n bv s,
  exists s', run wit (num_is_equal n bv) s = (Ok tt, s') /\
  forall rho bs, Forall2 (fun b x => feval rho (b_lc b) = Z.b2z x) (bv_allocs bv) bs ->
    (sat rho s' <-> sat rho s /\ feval rho (n_lc n) = bits_value bs mod modulus).
Proof. exact @top_is_equal_iff. Qed.
Print Assumptions C65_is_equal_exact.

(** No sequence of operations on the vector changes what it checks. *)
Theorem C65_is_equal_stale : forall (E : Env) wit n ops bv bv' s, bv_ops ops bv = Ok bv' ->
  run wit (num_is_equal n bv') s = run wit (num_is_equal n bv) s.
Proof. exact @top_is_equal_stale. Qed.
Print Assumptions C65_is_equal_stale.

(** Whatever is done to a vector made from bits, the number is compared with those bits. *)
Theorem C65_is_equal_from_bits : forall (E : Env) (W : Wf E) wit n ops bits bv s, bv_ops ops (bv_from_bits bits) = Ok bv ->
  exists s', run wit (num_is_equal n bv) s = (Ok tt, s') /\
  forall rho bs, Forall2 (fun b x => feval rho (b_lc b) = Z.b2z x) bits bs ->
    (sat rho s' <-> sat rho s /\ feval rho (n_lc n) = bits_value bs mod modulus).
Proof. exact @top_is_equal_from_bits. Qed.
Print Assumptions C65_is_equal_from_bits.

(** The vector 101 truncated to 01 has value 1: the number 1 is rejected and 5 accepted. *)
Example C65_case : let E := small_env 13 in
  let bv := bv_truncate 2 (bv_from_bits [bit_true; bit_false; bit_true]) in
  let check c := satb (fun _ => 1) (snd (run true (num_is_equal (mkNum (lc_scale c (lc_var ONE)) (Some c)) bv) st_init)) in
  bv_vals bv = Some [true; false] /\ check 1 = false /\ check 5 = true.
Proof. vm_compute. auto. Qed.
