(** C41-C45: selection, switching, wire equality, public inputs, the lazy cell. *)
From Coq Require Import ZArith Znumtheory Bool List.
From Verif.Model Require Import Base CS Bellpepper Util Poly Bignat Gadget Fields.
From Verif.Spec Require Import Spec SpecLazy.
From Verif.Proofs Require Import Prime TopGadget PrimeFields.
Import ListNotations.
Local Open Scope Z_scope.

(** [mux] returns the selected operand, padded with zero limbs. *)
Theorem C41_mux_sound : forall (E : Env) (W : Wf E) wit b x i0 i1 s out s' rho,
  let n := Nat.max (length (limbs i0)) (length (limbs i1)) in
  run wit (mux b i0 i1) s = (Ok out, s') -> sat rho s' -> feval rho (b_lc b) = Z.b2z x ->
  n_limbs (bparams i0) = length (limbs i0) -> n_limbs (bparams i1) = length (limbs i1) ->
  limb_width (bparams i1) = limb_width (bparams i0) /\
  bparams out = params_new (limb_width (bparams i0)) n /\ length (limbs out) = n /\
  wires rho (limbs out) = padded n (wires rho (limbs (if x then i1 else i0))) /\
  int_of rho out = int_of rho (if x then i1 else i0).
Proof. exact @top_mux_sound. Qed.
Print Assumptions C41_mux_sound.

(** Operands of different widths are refused. *)
Theorem C41_mux_error : forall (E : Env) wit b i0 i1 s,
  well_shaped i0 -> well_shaped i1 ->
  limb_width (bparams i0) <> limb_width (bparams i1) -> run wit (mux b i0 i1) s = (Err Unsatisfiable, s).
Proof. exact @top_mux_error. Qed.
Print Assumptions C41_mux_error.

(** The honest run succeeds on operands whose selected limbs fit the limb width. *)
Theorem C41_mux_complete : forall (E : Env) (W : Wf E) b x i0 i1 A0 A1 s,
  let n := Nat.max (length A0) (length A1) in
  let w := limb_width (bparams i0) in
  good s -> bit_at s b x -> bignat_at s i0 A0 -> bignat_at s i1 A1 -> limb_width (bparams i1) = w ->
  (1 <= n)%nat -> (w < NUM_BITS)%nat -> Forall (fun v => v < 2 ^ Z.of_nat w) (if x then A1 else A0) ->
  exists out s', run true (mux b i0 i1) s = (Ok out, s') /\ good s' /\
    bignat_at s' out (padded n (if x then A1 else A0)) /\ bparams out = params_new w n.
Proof. exact @top_mux_complete. Qed.
Print Assumptions C41_mux_complete.

Example C41_case : let E := small_env 251 in
  let '(r, s) := run true (
     let! b := bit_alloc (Some true) in
     let! i0 := alloc_from_limbs (Ok [1; 2; 3]) (Some 7) 3 3 in
     let! i1 := alloc_from_limbs (Ok [5; 6]) (Some 7) 3 2 in
     mux b i0 i1) st_init in
  match r with
  | Ok out => satb (asg s) s = true /\ wires (asg s) (limbs out) = [5; 6; 0] /\ value out = Some 53
  | _ => False
  end.
Proof. vm_compute. auto. Qed.

(** [mux_tree] returns the input whose index the bits spell, most significant first. *)
Theorem C42_mux_tree_sound : forall (E : Env) (W : Wf E) wit bits xs inputs s out s' rho d,
  run wit (mux_tree bits inputs) s = (Ok out, s') -> sat rho s' ->
  Forall2 (fun b x => feval rho (b_lc b) = Z.b2z x) bits xs ->
  Forall (fun i => n_limbs (bparams i) = length (limbs i)) inputs ->
  let i := nth (Z.to_nat (bits_value (rev xs))) inputs d in
  length inputs = (2 ^ length bits)%nat /\ In i inputs /\
  limb_width (bparams out) = limb_width (bparams i) /\
  wires rho (limbs out) = padded (length (limbs out)) (wires rho (limbs i)) /\
  int_of rho out = int_of rho i.
Proof. exact @top_mux_tree_sound. Qed.
Print Assumptions C42_mux_tree_sound.

(** Any number of inputs other than 2^k is refused. *)
Theorem C42_mux_tree_count : forall (E : Env) wit bits inputs s,
  length inputs <> (2 ^ length bits)%nat ->
  forall out, fst (run wit (mux_tree bits inputs) s) <> Ok out.
Proof. exact @top_mux_tree_count. Qed.
Print Assumptions C42_mux_tree_count.

Theorem C42_mux_tree_complete : forall (E : Env) (W : Wf E) bits xs inputs As w s,
  good s -> Forall2 (bit_at s) bits xs -> Forall2 (bignat_at s) inputs As ->
  length inputs = (2 ^ length bits)%nat -> (w < NUM_BITS)%nat ->
  Forall (fun i => limb_width (bparams i) = w) inputs ->
  Forall (fun A => A <> [] /\ Forall (fun v => v < 2 ^ Z.of_nat w) A) As ->
  exists out s', run true (mux_tree bits inputs) s = (Ok out, s') /\ good s' /\ limb_width (bparams out) = w /\
    bignat_at s' out (padded (list_max (map (@length Z) As)) (nth (Z.to_nat (bits_value (rev xs))) As [])).
Proof. exact @top_mux_tree_complete. Qed.
Print Assumptions C42_mux_tree_complete.

Example C42_case : let E := small_env 251 in
  let '(r, s) := run true (
     let! b1 := bit_alloc (Some true) in
     let! b0 := bit_alloc (Some false) in
     let! is := mapM (fun v => alloc_from_nat (Ok v) 3 2) [10; 20; 30; 40] in
     mux_tree [b1; b0] is) st_init in
  match r with
  | Ok out => satb (asg s) s = true /\ value out = Some 30 /\ bits_value (rev [true; false]) = 2
  | _ => False
  end.
Proof. vm_compute. auto. Qed.

(** [switch] keeps or swaps its operands. *)
Theorem C43_switch_sound : forall (E : Env) (W : Wf E) wit b x i0 i1 s o0 o1 s' rho,
  let n := Nat.max (length (limbs i0)) (length (limbs i1)) in
  run wit (switch b i0 i1) s = (Ok (o0, o1), s') -> sat rho s' -> feval rho (b_lc b) = Z.b2z x ->
  n_limbs (bparams i0) = length (limbs i0) -> n_limbs (bparams i1) = length (limbs i1) ->
  limb_width (bparams i1) = limb_width (bparams i0) /\
  wires rho (limbs o0) = padded n (wires rho (limbs (if x then i1 else i0))) /\
  wires rho (limbs o1) = padded n (wires rho (limbs (if x then i0 else i1))) /\
  int_of rho o0 = int_of rho (if x then i1 else i0) /\ int_of rho o1 = int_of rho (if x then i0 else i1).
Proof. exact @top_switch_sound. Qed.
Print Assumptions C43_switch_sound.

Theorem C43_switch_complete : forall (E : Env) (W : Wf E) b x i0 i1 A0 A1 s,
  let n := Nat.max (length A0) (length A1) in
  let w := limb_width (bparams i0) in
  good s -> bit_at s b x -> bignat_at s i0 A0 -> bignat_at s i1 A1 -> limb_width (bparams i1) = w ->
  (1 <= n)%nat -> (w < NUM_BITS)%nat ->
  Forall (fun v => v < 2 ^ Z.of_nat w) A0 -> Forall (fun v => v < 2 ^ Z.of_nat w) A1 ->
  exists o0 o1 s', run true (switch b i0 i1) s = (Ok (o0, o1), s') /\ good s' /\
    bignat_at s' o0 (padded n (if x then A1 else A0)) /\ bignat_at s' o1 (padded n (if x then A0 else A1)).
Proof. exact @top_switch_complete. Qed.
Print Assumptions C43_switch_complete.

Example C43_case : let E := small_env 251 in
  let '(r, s) := run true (
     let! b := bit_alloc (Some true) in
     let! i0 := alloc_from_nat (Ok 10) 3 2 in
     let! i1 := alloc_from_nat (Ok 20) 3 2 in
     switch b i0 i1) st_init in
  match r with
  | Ok (o0, o1) => satb (asg s) s = true /\ value o0 = Some 20 /\ value o1 = Some 10
  | _ => False
  end.
Proof. vm_compute. auto. Qed.

(** [assert_equal] always succeeds on equal counts and holds exactly when all wires agree. *)
Theorem C44_assert_equal_exact : forall (E : Env) wit a b s,
  length (limbs a) = length (limbs b) ->
  exists s', run wit (assert_equal a b) s = (Ok tt, s') /\ forall rho, sat rho s' <->
    sat rho s /\ wires rho (limbs a) = wires rho (limbs b).
Proof. exact @top_assert_equal_iff. Qed.
Print Assumptions C44_assert_equal_exact.

Theorem C44_assert_equal_error : forall wit a b s,
  length (limbs a) <> length (limbs b) ->
  run wit (assert_equal a b) s = (Err Unsatisfiable, s).
Proof. exact @top_assert_equal_error. Qed.
Print Assumptions C44_assert_equal_error.

(** Each wire gets one public input, and the new constraints say exactly that they agree. *)
Theorem C44_inputize_exact : forall (E : Env) m wit b s s',
  m = gadget_inputize \/ m = bn_inputize -> run wit (m b) s = (Ok tt, s') ->
  length (st_in s') = (length (st_in s) + length (limbs b))%nat /\ st_aux s' = st_aux s /\
  forall rho, sat rho s' <-> sat rho s /\
    map (fun i => feval rho (lc_var (VIn i))) (seq (length (st_in s)) (length (limbs b))) = wires rho (limbs b).
Proof. exact @top_inputize_sound. Qed.
Print Assumptions C44_inputize_exact.

(** The honest run appends the limbs to the public inputs. *)
Theorem C44_inputize_complete : forall (E : Env) m b vs s,
  m = gadget_inputize \/ m = bn_inputize -> good s -> bignat_at s b vs ->
  exists s', run true (m b) s = (Ok tt, s') /\ good s' /\ st_in s' = st_in s ++ vs.
Proof. exact @top_inputize_complete. Qed.
Print Assumptions C44_inputize_complete.

(** [as_nums] returns one number per wire with the value of the wire. *)
Theorem C44_as_nums_sound : forall (E : Env) wit b s l s' rho,
  run wit (as_nums b) s = (Ok l, s') -> sat rho s' ->
  map (fun n => feval rho (lc_var (an_var n))) l = wires rho (limbs b).
Proof. exact @top_as_nums_sound. Qed.
Print Assumptions C44_as_nums_sound.

Theorem C44_as_nums_complete : forall (E : Env) b vs s,
  good s -> bignat_at s b vs ->
  exists l s', run true (as_nums b) s = (Ok l, s') /\ good s' /\ Forall2 (an_at s') l vs.
Proof. exact @top_as_nums_complete. Qed.
Print Assumptions C44_as_nums_complete.

Example C44_case : let E := small_env 251 in
  let '(r, s) := run true (
     let! a := alloc_from_nat (Ok 53) 3 3 in
     let! _ := gadget_inputize a in
     let! l := as_nums a in
     let! b := alloc_from_nat (Ok 53) 3 3 in
     let! _ := assert_equal a b in Ret l) st_init in
  satb (asg s) s = true /\ st_in s = [1; 5; 6; 0] /\ rmap (map an_val) r = Ok [Some 5; Some 6; Some 0].
Proof. vm_compute. auto. Qed.

(** The closure runs at most once, and exactly once if there is a borrow; every successful borrow returns its value. *)
Theorem C45_once : forall T (f : option T) ops rs c,
  lazy_history (lazy_new f) ops = (rs, c) ->
  (lz_calls c <= 1)%nat /\ (In LBorrow ops -> lz_calls c = 1%nat) /\ (forall t, In (Ok t) rs -> f = Some t).
Proof. exact @top_lazy_once. Qed.
Print Assumptions C45_once.

(** A borrow while an earlier reference is alive panics and changes nothing. *)
Theorem C45_alive_panics : forall T (c : lazy_cell T),
  (0 < lz_refs c)%nat -> lazy_borrow c = (Panic, c).
Proof. exact @lazy_refs_borrow. Qed.
Print Assumptions C45_alive_panics.

(** A borrow with no reference alive returns the value. *)
Theorem C45_free_borrow : forall T (f : option T) ops rs c t,
  lazy_history (lazy_new f) ops = (rs, c) -> f = Some t ->
  lz_refs c = 0%nat -> fst (lazy_borrow c) = Ok t.
Proof. exact @top_lazy_borrow_free. Qed.
Print Assumptions C45_free_borrow.

(** If the closure panics, every borrow does. *)
Theorem C45_closure_panics : forall T ops rs (c : lazy_cell T) r,
  lazy_history (lazy_new None) ops = (rs, c) -> In r rs -> r = Panic.
Proof. exact @top_lazy_panic. Qed.
Print Assumptions C45_closure_panics.

(** A cell made from a value never runs a closure. *)
Theorem C45_from : forall T (t : T) ops rs c,
  lazy_history (lazy_from t) ops = (rs, c) ->
  lz_calls c = 0%nat /\ (forall u, In (Ok u) rs -> u = t).
Proof. exact @top_lazy_from. Qed.
Print Assumptions C45_from.

(** The outcomes of all borrows of a history: the value when no reference is alive, else a panic. *)
Theorem C45_history : forall T (f : option T) ops, fst (lazy_history (lazy_new f) ops) = lazy_expected f 0 ops.
Proof. exact @top_lazy_expected. Qed.
Print Assumptions C45_history.

Theorem C45_history_from : forall T (t : T) ops, fst (lazy_history (lazy_from t) ops) = lazy_expected (Some t) 0 ops.
Proof. exact @top_lazy_expected_from. Qed.
Print Assumptions C45_history_from.

Example C45_case :
  lazy_history (lazy_new (Some 7)) [LBorrow; LBorrow; LDrop; LBorrow] = ([Ok 7; Panic; Ok 7], mkLazy (Forced 7) 1 1) /\
  fst (lazy_history (lazy_new (@None Z)) [LBorrow; LBorrow]) = [Panic; Panic].
Proof. vm_compute. auto. Qed.
