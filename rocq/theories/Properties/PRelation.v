(** C98: which assignments extend over the gadgets that compute a value, and over the bit checks. *)
From Coq Require Import ZArith Znumtheory Bool List.
From Verif.Model Require Import Base CS Bellpepper Util Poly Bignat Gadget Fields.
From Verif.Spec Require Import Spec.
From Verif.Proofs Require Import Prime Relation.
Import ListNotations.
Local Open Scope Z_scope.

(** Whatever the two wires hold, the equality test can be completed, with the right answer. *)
Theorem C98_equals : forall (E : Env) (W : Wf E) s rho0 wit a b x y r s',
  good_for rho0 s -> carries_for rho0 s (lc_var (an_var a)) x -> carries_for rho0 s (lc_var (an_var b)) y ->
  run wit (equals a b) s = (Ok r, s') ->
  exists rho, same_on s rho rho0 /\ sat rho s' /\ feval rho (bool_lc r 1) = Z.b2z (x =? y).
Proof. exact (fun E W s rho0 wit a b x y r s' G => @top_equals_extends E W s rho0 G wit a b x y r s'). Qed.
Print Assumptions C98_equals.

(** The same of [is_equal], whatever the limbs: they are compared as field elements. *)
Theorem C98_is_equal : forall (E : Env) (W : Wf E) s rho0 wit a b xs ys r s',
  good_for rho0 s -> Forall2 (carries_for rho0 s) (limbs a) xs -> Forall2 (carries_for rho0 s) (limbs b) ys ->
  run wit (is_equal a b) s = (Ok r, s') ->
  exists rho, same_on s rho rho0 /\ sat rho s' /\
    feval rho (bool_lc r 1) = Z.b2z (if list_eq_dec Z.eq_dec xs ys then true else false).
Proof. exact (fun E W s rho0 wit a b xs ys r s' G => @top_is_equal_extends E W s rho0 G wit a b xs ys r s'). Qed.
Print Assumptions C98_is_equal.

(** Limbs can always be turned into allocated numbers. *)
Theorem C98_as_nums : forall (E : Env) (W : Wf E) s rho0 wit b xs ns s',
  good_for rho0 s -> Forall2 (carries_for rho0 s) (limbs b) xs ->
  run wit (as_nums b) s = (Ok ns, s') ->
  exists rho, same_on s rho rho0 /\ sat rho s' /\ map (fun n => rho (an_var n)) ns = xs.
Proof. exact (fun E W s rho0 wit b xs ns s' G => @top_as_nums_extends E W s rho0 G wit b xs ns s'). Qed.
Print Assumptions C98_as_nums.

(** The product of two polynomials can always be completed, coefficients of any size. *)
Theorem C98_product : forall (E : Env) (W : Wf E) s rho0 wit a b A B p s',
  good_for rho0 s -> Forall2 (carries_for rho0 s) (p_coeffs a) A -> Forall2 (carries_for rho0 s) (p_coeffs b) B ->
  (match p_vals a with Some xs => length xs = length A | None => True end) ->
  (match p_vals b with Some xs => length xs = length B | None => True end) ->
  (1 <= length A)%nat -> (1 <= length B)%nat ->
  run wit (alloc_product a b) s = (Ok p, s') ->
  exists rho, same_on s rho rho0 /\ sat rho s' /\
    wires rho (p_coeffs p) = map (fun i => conv A B i mod modulus) (seq 0 (length A + length B - 1)).
Proof. exact (fun E W s rho0 wit a b A B p s' G => @top_product_extends E W s rho0 G wit a b A B p s'). Qed.
Print Assumptions C98_product.

(** A choice between two numbers can be completed for either value of the bit. *)
Theorem C98_mux : forall (E : Env) (W : Wf E) s rho0 wit sb x i0 i1 A0 A1 out s',
  good_for rho0 s -> carries_for rho0 s (b_lc sb) (Z.b2z x) ->
  well_shaped i0 -> Forall2 (carries_for rho0 s) (limbs i0) A0 ->
  well_shaped i1 -> Forall2 (carries_for rho0 s) (limbs i1) A1 ->
  run wit (mux sb i0 i1) s = (Ok out, s') ->
  exists rho, same_on s rho rho0 /\ sat rho s' /\
    wires rho (limbs out) = padded (Nat.max (length A0) (length A1)) (if x then A1 else A0).
Proof. exact (fun E W s rho0 wit sb x i0 i1 A0 A1 out s' G => @top_mux_extends E W s rho0 G wit sb x i0 i1 A0 A1 out s'). Qed.
Print Assumptions C98_mux.

(** The same of the switch and of the tree of choices; what the tree returns is settled by C42. *)
Theorem C98_switch : forall (E : Env) (W : Wf E) s rho0 wit sb x i0 i1 A0 A1 o0 o1 s',
  good_for rho0 s -> carries_for rho0 s (b_lc sb) (Z.b2z x) ->
  well_shaped i0 -> Forall2 (carries_for rho0 s) (limbs i0) A0 ->
  well_shaped i1 -> Forall2 (carries_for rho0 s) (limbs i1) A1 ->
  run wit (switch sb i0 i1) s = (Ok (o0, o1), s') ->
  exists rho, same_on s rho rho0 /\ sat rho s' /\
    wires rho (limbs o0) = padded (Nat.max (length A0) (length A1)) (if x then A1 else A0) /\
    wires rho (limbs o1) = padded (Nat.max (length A0) (length A1)) (if x then A0 else A1).
Proof. exact (fun E W s rho0 wit sb x i0 i1 A0 A1 o0 o1 s' G => @top_switch_extends E W s rho0 G wit sb x i0 i1 A0 A1 o0 o1 s'). Qed.
Print Assumptions C98_switch.

Theorem C98_mux_tree : forall (E : Env) (W : Wf E) s rho0 wit bits xs inputs As out s',
  good_for rho0 s -> Forall2 (fun b x => carries_for rho0 s (b_lc b) (Z.b2z x)) bits xs ->
  Forall2 (fun i A => well_shaped i /\ Forall2 (carries_for rho0 s) (limbs i) A) inputs As ->
  run wit (mux_tree bits inputs) s = (Ok out, s') ->
  exists rho, same_on s rho rho0 /\ sat rho s'.
Proof. exact (fun E W s rho0 wit bits xs inputs As out s' G => @top_mux_tree_extends E W s rho0 G wit bits xs inputs As out s'). Qed.
Print Assumptions C98_mux_tree.

(** A number can be split into bits exactly if each limb fits its width. *)
Theorem C98_decompose : forall (E : Env) (W : Wf E) s rho0 wit b vs bv s',
  good_for rho0 s -> well_shaped b -> Forall2 (carries_for rho0 s) (limbs b) vs ->
  (limb_width (bparams b) < NUM_BITS)%nat ->
  run wit (bn_decompose b) s = (Ok bv, s') ->
  ((exists rho, same_on s rho rho0 /\ sat rho s') <->
   Forall (fun v => v < 2 ^ Z.of_nat (limb_width (bparams b))) vs).
Proof. exact (fun E W s rho0 wit b vs bv s' G => @top_decompose_exact E W s rho0 G wit b vs bv s'). Qed.
Print Assumptions C98_decompose.

(** The full-length check is a condition on the top limb alone. *)
Theorem C98_full_bits : forall (E : Env) (W : Wf E) s rho0 wit b vs v c s',
  good_for rho0 s -> well_shaped b -> Forall2 (carries_for rho0 s) (limbs b) (vs ++ [v]) ->
  (limb_width (bparams b) < NUM_BITS)%nat ->
  run wit (enforce_full_bits b) s = (Ok c, s') ->
  ((exists rho, same_on s rho rho0 /\ sat rho s') <->
   2 ^ Z.of_nat (limb_width (bparams b) - 1) <= v < 2 ^ Z.of_nat (limb_width (bparams b))).
Proof. exact (fun E W s rho0 wit b vs v c s' G => @top_full_bits_exact E W s rho0 G wit b vs v c s'). Qed.
Print Assumptions C98_full_bits.

(** The minimum-length check holds exactly for numbers of at least [k] bits with limbs in range. *)
Theorem C98_min_bits : forall (E : Env) (W : Wf E) s rho0 wit b k vs c s',
  good_for rho0 s -> well_shaped b -> Forall2 (carries_for rho0 s) (limbs b) vs ->
  (limb_width (bparams b) < NUM_BITS)%nat -> (1 <= k)%nat ->
  Z.of_nat (limb_width (bparams b) * length vs) < modulus ->
  run wit (enforce_min_bits b k) s = (Ok c, s') ->
  ((exists rho, same_on s rho rho0 /\ sat rho s') <->
   Forall (fun v => v < 2 ^ Z.of_nat (limb_width (bparams b))) vs /\
   2 ^ Z.of_nat (k - 1) <= value_of (2 ^ Z.of_nat (limb_width (bparams b))) vs).
Proof. exact (fun E W s rho0 wit b k vs c s' G => @top_min_bits_exact E W s rho0 G wit b k vs c s'). Qed.
Print Assumptions C98_min_bits.

(** Limbs far over the width are compared and multiplied without complaint; the answer then selects. *)
Example C98_wide_case : let E := small_env 251 in
  let '(r, s) := run true (
     let! a := alloc_from_limbs (Ok [200; 7]) None 3 2 in let! b := alloc_from_limbs (Ok [200; 7]) None 3 2 in
     let! e := is_equal a b in let! ns := as_nums a in
     let! p := alloc_product (mkPoly (limbs a) (limb_values a)) (mkPoly (limbs b) (limb_values b)) in
     let! c := alloc_from_nat (Ok 9) 3 2 in let! d := alloc_from_nat (Ok 44) 3 3 in
     let! m := mux (mkBit (bool_lc e 1) (bool_val e)) c d in Ret (e, p, m)) st_init in
  match r with
  | Ok (e, p, m) => satb (asg s) s = true /\ bool_val e = Some true /\ wires (asg s) (p_coeffs p) = [91; 39; 49] /\
      wires (asg s) (limbs m) = [4; 5; 0]
  | _ => False
  end.
Proof. vm_compute. auto. Qed.

Example C98_tree_case : let E := small_env 251 in
  let '(r, s) := run true (
     let! a := alloc_from_nat (Ok 1) 3 1 in let! b := alloc_from_nat (Ok 20) 3 2 in
     let! c := alloc_from_nat (Ok 3) 3 1 in let! d := alloc_from_nat (Ok 4) 3 1 in
     let! x := bit_alloc (Some false) in let! y := bit_alloc (Some true) in
     let! m := mux_tree [x; y] [a; b; c; d] in let! p := switch y a b in Ret (m, p)) st_init in
  match r with
  | Ok (m, (p, q)) => satb (asg s) s = true /\ wires (asg s) (limbs m) = [4; 2] /\
      wires (asg s) (limbs p) = [4; 2] /\ wires (asg s) (limbs q) = [1; 0]
  | _ => False
  end.
Proof. vm_compute. auto. Qed.

(** The top limb decides the full-length check even under a limb of 200 and with three bits each. *)
Example C98_full_case : let E := small_env 251 in
  let f v := let '(r, s) := run true (
     let! a := alloc_from_limbs (Ok [200; v]) None 3 2 in enforce_full_bits a) st_init in
     match r with Ok _ => Some (satb (asg s) s) | _ => None end in
  map f [3; 4; 7; 8; 12] = [Some false; Some true; Some true; Some false; Some false].
Proof. vm_compute. auto. Qed.

Example C98_min_case : let E := small_env 251 in
  let f a v := let '(r, s) := run true (
     let! a := alloc_from_limbs (Ok [a; v]) None 3 2 in enforce_min_bits a 5) st_init in
     match r with Ok _ => Some (satb (asg s) s) | _ => None end in
  (f 1 2, f 7 5, f 9 2, f 7 1) = (Some true, Some true, Some false, None).
Proof. vm_compute. auto. Qed.
