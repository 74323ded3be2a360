(** C21-C27: recomposition, minimum bit checks, concatenation, truncation, limb arithmetic. *)
From Coq Require Import ZArith Bool List.
From Verif.Model Require Import Base CS Bellpepper Util Poly Bignat Gadget Fields.
From Verif.Spec Require Import Spec.
From Verif.Proofs Require Import Prime Group MinBits TopPure TopBignat3 TopBignat4.
Import ListNotations.
Local Open Scope Z_scope.

(** [recompose] has the value of the bits. *)
Theorem C21_recompose : forall (E : Env) (W : Wf E) bv g,
  (1 <= length (bv_bits bv))%nat -> (1 <= g)%nat ->
  (match bv_vals bv with Some vs => length vs = length (bv_bits bv) | None => True end) ->
  exists c, recompose bv g = Ok c /\ well_shaped c /\ limb_width (bparams c) = g /\
    length (limbs c) = n_groups (length (bv_bits bv)) g /\ max_word (bparams c) = 2 ^ Z.of_nat g - 1 /\
    (forall rho bs, wires rho (bv_bits bv) = map Z.b2z bs -> (g < NUM_BITS)%nat ->
       int_of rho c = bits_value bs /\ Forall (fun v => v < 2 ^ Z.of_nat g) (wires rho (limbs c))) /\
    (forall s bs, good s -> bv_vals bv = Some bs -> Forall2 (fun l x => carries s l (Z.b2z x)) (bv_bits bv) bs ->
       (g < NUM_BITS)%nat -> exists vs, bignat_at s c vs /\ value c = Some (bits_value bs)).
Proof. exact @top_recompose. Qed.
Print Assumptions C21_recompose.

Theorem C21_recompose_panic : forall (E : Env) bv g,
  bv_bits bv = [] /\ (overflow_checks = true \/ g <> 1%nat) \/ (g = 0%nat /\
  match bv_vals bv with Some vs => length vs = length (bv_bits bv) | None => True end) -> recompose bv g = Panic.
Proof. exact @top_recompose_panic. Qed.
Print Assumptions C21_recompose_panic.

(** Without overflow checks no bits at one bit per limb give a number without limbs. *)
Theorem C21_recompose_empty : forall (E : Env) bv, bv_bits bv = [] -> overflow_checks = false ->
  exists c, recompose bv 1 = Ok c /\ limbs c = [] /\ limb_width (bparams c) = 1%nat /\ n_limbs (bparams c) = 0%nat.
Proof. exact @top_recompose_empty. Qed.
Print Assumptions C21_recompose_empty.

Example C21_recompose_case : let E := small_env 251 in
  let '(r, s) := run true (
     let! b := alloc_from_nat (Ok 37) 3 2 in let! bv := bn_decompose b in
     lift (recompose bv 4)) st_init in
  match r with
  | Ok c => int_of (asg s) c = 37 /\ wires (asg s) (limbs c) = [5; 2] /\ value c = Some 37 /\
            satb (asg s) s = true
  | _ => False
  end.
Proof. vm_compute. auto 6. Qed.

(** A satisfied [enforce_full_bits] bounds the number from below; only the recorded minimum changes. *)
Theorem C22_full_bits_sound : forall (E : Env) (W : Wf E) wit b s c s' rho,
  run wit (enforce_full_bits b) s = (Ok c, s') -> sat rho s' ->
  (limb_width (bparams b) < NUM_BITS)%nat ->
  2 ^ Z.of_nat (limb_width (bparams b) * length (limbs b) - 1) <= int_of rho b /\
  limbs c = limbs b /\ limb_values c = limb_values b /\ value c = value b /\
  bparams c = mkParams (limb_width (bparams b) * n_limbs (bparams b))
     (max_word (bparams b)) (limb_width (bparams b)) (n_limbs (bparams b)).
Proof. exact @top_full_bits_sound. Qed.
Print Assumptions C22_full_bits_sound.

(** A satisfied [enforce_min_bits k] makes the number at least 2^(k-1). *)
Theorem C22_min_bits_sound : forall (E : Env) (W : Wf E) wit b k s c s' rho,
  run wit (enforce_min_bits b k) s = (Ok c, s') -> sat rho s' ->
  (limb_width (bparams b) < NUM_BITS)%nat ->
  2 ^ Z.of_nat (k - 1) <= int_of rho b /\
  limbs c = limbs b /\ limb_values c = limb_values b /\ value c = value b /\
  bparams c = mkParams k (max_word (bparams b)) (limb_width (bparams b)) (n_limbs (bparams b)).
Proof. exact @top_min_bits_sound. Qed.
Print Assumptions C22_min_bits_sound.

(** The honest run of [enforce_full_bits] is satisfied exactly when the bound holds. *)
Theorem C22_full_bits_honest : forall (E : Env) (W : Wf E) b vs s,
  good s -> bignat_at s b vs -> vs <> [] ->
  Forall (fun v => v < 2 ^ Z.of_nat (limb_width (bparams b))) vs ->
  (1 <= limb_width (bparams b) <= NUM_BITS)%nat -> (limb_width (bparams b) < NUM_BITS)%nat ->
  exists c s', run true (enforce_full_bits b) s = (Ok c, s') /\
    (good s' <-> 2 ^ Z.of_nat (limb_width (bparams b) * length vs - 1) <=
       value_of (2 ^ Z.of_nat (limb_width (bparams b))) vs).
Proof. exact @top_full_bits_honest. Qed.
Print Assumptions C22_full_bits_honest.

(** The honest run of [enforce_min_bits] succeeds when the bound holds and panics when it does not. *)
Theorem C22_min_bits_honest : forall (E : Env) (W : Wf E) b vs s,
  good s -> bignat_at s b vs -> vs <> [] ->
  Forall (fun v => v < 2 ^ Z.of_nat (limb_width (bparams b))) vs ->
  (1 <= limb_width (bparams b) <= NUM_BITS)%nat ->
  forall k, (1 <= k)%nat -> Z.of_nat (limb_width (bparams b) * length vs) < modulus ->
  2 ^ Z.of_nat (k - 1) <= value_of (2 ^ Z.of_nat (limb_width (bparams b))) vs ->
  exists c s', run true (enforce_min_bits b k) s = (Ok c, s') /\ good s' /\ bignat_at s' c vs.
Proof. exact @top_min_bits_honest. Qed.
Print Assumptions C22_min_bits_honest.

Theorem C22_min_bits_short : forall (E : Env) (W : Wf E) b vs s,
  good s -> bignat_at s b vs -> vs <> [] ->
  Forall (fun v => v < 2 ^ Z.of_nat (limb_width (bparams b))) vs ->
  (1 <= limb_width (bparams b) <= NUM_BITS)%nat ->
  forall k, (1 <= k)%nat -> value_of (2 ^ Z.of_nat (limb_width (bparams b))) vs < 2 ^ Z.of_nat (k - 1) ->
  fst (run true (enforce_min_bits b k) s) = Panic.
Proof. exact @top_min_bits_short. Qed.
Print Assumptions C22_min_bits_short.

Theorem C22_min_bits_zero : forall (E : Env) (W : Wf E) b vs s,
  good s -> bignat_at s b vs -> vs <> [] ->
  Forall (fun v => v < 2 ^ Z.of_nat (limb_width (bparams b))) vs ->
  (1 <= limb_width (bparams b) <= NUM_BITS)%nat ->
  fst (run true (enforce_min_bits b 0) s) = Panic.
Proof. exact @top_min_bits_zero. Qed.
Print Assumptions C22_min_bits_zero.

(** Without overflow checks and without witnesses a bound of zero is not refused; no assignment
    satisfies the constraints. *)
Theorem C22_min_bits_zero_unsat : forall (E : Env) (W : Wf E) wit b s c s' rho,
  run wit (enforce_min_bits b 0) s = (Ok c, s') -> ~ sat rho s'.
Proof. exact @top_min_bits_zero_unsat. Qed.
Print Assumptions C22_min_bits_zero_unsat.
Example C22_zero_case :
  (let E := pallas_env false in
   match fst (run false (let! b := alloc_from_nat (Ok 37) 3 2 in enforce_min_bits b 0) st_init) with
   | Ok _ => True | _ => False end) /\
  (let E := pallas_env true in
   fst (run false (let! b := alloc_from_nat (Ok 37) 3 2 in enforce_min_bits b 0) st_init) = Panic).
Proof. vm_compute. auto. Qed.

Example C22_case : let E := small_env 251 in
  (let '(r, s) := run true (
     let! b := alloc_from_nat (Ok 37) 3 2 in
     let! _ := enforce_full_bits b in enforce_min_bits b 5) st_init in
  match r with
  | Ok c => min_bits (bparams c) = 5%nat /\ satb (asg s) s = true /\ value c = Some 37
  | _ => False
  end) /\
  (let '(r, s) := run true (let! b := alloc_from_nat (Ok 31) 3 2 in enforce_full_bits b) st_init in
   satb (asg s) s = false) /\
  fst (run true (let! b := alloc_from_nat (Ok 31) 3 2 in enforce_min_bits b 6) st_init) = Panic.
Proof. vm_compute. auto 6. Qed.

(** [concat] is positional concatenation; value, wires, bounds and minimum bits. *)
Theorem C23_concat : forall (E : Env) hi lo,
  well_shaped hi -> well_shaped lo -> limb_width (bparams hi) = limb_width (bparams lo) ->
  exists c, concat hi lo = Ok c /\ limbs c = limbs lo ++ limbs hi /\
    limb_width (bparams c) = limb_width (bparams hi) /\ n_limbs (bparams c) = length (limbs c) /\
    max_word (bparams c) = Z.max (max_word (bparams hi)) (max_word (bparams lo)) /\
    (forall rho, int_of rho c =
       int_of rho hi * 2 ^ Z.of_nat (limb_width (bparams lo) * length (limbs lo)) + int_of rho lo) /\
    (forall rho, bounded rho hi -> bounded rho lo -> bounded rho c) /\
    (forall s xs ys, good s -> bignat_at s hi xs -> bignat_at s lo ys -> bignat_at s c (ys ++ xs)) /\
    (forall v w, 0 <= v -> 0 <= w -> min_bits_ok hi v -> min_bits_ok lo w ->
       min_bits_ok c (v * 2 ^ Z.of_nat (limb_width (bparams lo) * length (limbs lo)) + w)).
Proof. exact @top_concat. Qed.
Print Assumptions C23_concat.

Theorem C23_concat_error : forall hi lo,
  limb_width (bparams hi) <> limb_width (bparams lo) -> concat hi lo = Err Unsatisfiable.
Proof. exact @top_concat_error. Qed.
Print Assumptions C23_concat_error.

Example C23_case : let E := small_env 251 in
  let '(r, s) := run true (
     let! hi := alloc_from_nat (Ok 5) 3 1 in let! lo := alloc_from_nat (Ok 37) 3 2 in
     lift (concat hi lo)) st_init in
  match r with
  | Ok c => value c = Some 357 /\ wires (asg s) (limbs c) = [5; 4; 5] /\ int_of (asg s) c = 357
  | _ => False
  end.
Proof. vm_compute. auto. Qed.

(** [truncate_limbs] keeps the low limbs. *)
Theorem C24_truncate : forall (E : Env) b n c,
  truncate_limbs b n = Ok c ->
  limbs c = firstn n (limbs b) /\ limb_width (bparams c) = limb_width (bparams b) /\
  max_word (bparams c) = max_word (bparams b) /\
  forall rho, int_of rho c = value_of (2 ^ Z.of_nat (limb_width (bparams b))) (firstn n (wires rho (limbs b))).
Proof. exact @top_truncate_wires. Qed.
Print Assumptions C24_truncate.

Theorem C24_truncate_values : forall (E : Env) (W : Wf E) s b vs n,
  good s -> bignat_at s b vs ->
  exists c, truncate_limbs b n = Ok c /\ bignat_at s c (firstn n vs).
Proof. exact @top_truncate_values. Qed.
Print Assumptions C24_truncate_values.

Example C24_case : let E := small_env 251 in
  let '(r, s) := run true (let! b := alloc_from_nat (Ok 357) 3 3 in lift (truncate_limbs b 2)) st_init in
  match r with
  | Ok c => value c = Some 37 /\ wires (asg s) (limbs c) = [5; 4] /\ limb_values c = Some [5; 4]
  | _ => False
  end.
Proof. vm_compute. auto. Qed.

(** The recorded minimum is preserved by the other operations. *)
Theorem C25_min_bits_add : forall (E : Env) a b c u v,
  add a b = Ok c -> 0 <= u -> 0 <= v ->
  min_bits_ok a u -> min_bits_ok b v -> min_bits_ok c (u + v).
Proof. exact @top_min_bits_add. Qed.
Print Assumptions C25_min_bits_add.

Theorem C25_min_bits_shift : forall (E : Env) b k c v,
  canon k -> shift b k = Ok c -> min_bits_ok b v -> min_bits_ok c (v + k).
Proof. exact @top_min_bits_shift. Qed.
Print Assumptions C25_min_bits_shift.

Theorem C25_min_bits_scale : forall (E : Env) b k c v,
  1 <= k -> 0 <= v -> scale b k = Ok c -> min_bits_ok b v -> min_bits_ok c (v * k).
Proof. exact @top_min_bits_scale. Qed.
Print Assumptions C25_min_bits_scale.

Theorem C25_min_bits_group : forall (E : Env) b g c v,
  group_limbs b g = Ok c -> min_bits_ok b v -> min_bits_ok c v.
Proof. exact @top_min_bits_group. Qed.
Print Assumptions C25_min_bits_group.

Theorem C25_min_bits_with_n : forall b n c v,
  with_n_limbs b n = Ok c -> min_bits_ok b v -> min_bits_ok c v.
Proof. exact @top_min_bits_with_n. Qed.
Print Assumptions C25_min_bits_with_n.

Theorem C25_min_bits_mult : forall (E : Env) wit a b s p s' u v,
  run wit (mult a b) s = (Ok p, s') -> 0 <= u -> 0 <= v ->
  min_bits_ok a u -> min_bits_ok b v -> min_bits_ok p (u * v).
Proof. exact @top_min_bits_mult. Qed.
Print Assumptions C25_min_bits_mult.

Theorem C25_min_bits_mux : forall (E : Env) wit x i0 i1 s c s' v,
  run wit (mux x i0 i1) s = (Ok c, s') -> min_bits_ok c v.
Proof. exact @top_min_bits_mux. Qed.
Print Assumptions C25_min_bits_mux.

Theorem C25_min_bits_sub : forall (E : Env) wit a b s c s' v,
  run wit (sub a b) s = (Ok c, s') -> min_bits_ok c v.
Proof. exact @top_min_bits_sub. Qed.
Print Assumptions C25_min_bits_sub.

(** [truncate_limbs] keeps a minimum that the result does not have. *)
Theorem C25_truncate_refuted : forall (E : Env) (W : Wf E) w s,
  good s -> (2 <= w)%nat -> exists b c,
  bignat_at s b [0; 1] /\ limb_width (bparams b) = w /\ min_bits_ok b (2 ^ Z.of_nat w) /\
  truncate_limbs b 1 = Ok c /\ bignat_at s c [0] /\ ~ min_bits_ok c 0.
Proof. exact @top_truncate_min_bits. Qed.
Print Assumptions C25_truncate_refuted.

(** So does [scale] by zero. *)
Theorem C25_scale_refuted : forall (E : Env) (W : Wf E) w s,
  good s -> exists c,
  bignat_at s (bn_one w) [1] /\ min_bits_ok (bn_one w) 1 /\
  scale (bn_one w) 0 = Ok c /\ bignat_at s c [0] /\ ~ min_bits_ok c 0.
Proof. exact @top_scale_min_bits. Qed.
Print Assumptions C25_scale_refuted.

Example C25_case : let E := small_env 251 in
  let '(r, s) := run true (
     let! b := alloc_from_nat (Ok 8) 3 2 in let! b := enforce_min_bits b 2 in
     lift (truncate_limbs b 1)) st_init in
  match r with
  | Ok c => int_of (asg s) c = 0 /\ min_bits (bparams c) = 2%nat /\ satb (asg s) s = true
  | _ => False
  end.
Proof. vm_compute. auto. Qed.

(** The bounds that are kept: 60 and 9, their sum, shifted, scaled, regrouped, padded, and their product. *)
Example C25_kept_case : let E := pallas_env true in
  let '(r, s) := run true (
     let! a := alloc_from_nat (Ok 60) 3 2 in let! a := enforce_min_bits a 6 in
     let! b := alloc_from_nat (Ok 9) 3 2 in let! b := enforce_min_bits b 4 in
     let! c := lift (add a b) in let! d := lift (shift c 2) in let! e := lift (scale d 3) in
     let! g := lift (group_limbs e 2) in let! h := lift (with_n_limbs e 4) in
     let! p := mult a b in Ret [a; b; c; d; e; g; h; p]) st_init in
  match r with
  | Ok l => satb (asg s) s = true /\ map value l = map Some [60; 9; 69; 71; 213; 213; 213; 540] /\
            map (fun b => min_bits (bparams b)) l = [6; 4; 6; 6; 6; 6; 6; 9]%nat
  | _ => False
  end.
Proof. vm_compute. auto. Qed.

(** [add], [shift] and [scale] are exact while the words stay below the modulus. *)
Theorem C26_add : forall (E : Env) (W : Wf E) a b,
  well_shaped a -> well_shaped b -> limb_width (bparams a) = limb_width (bparams b) ->
  exists c, add a b = Ok c /\ well_shaped c /\ max_word (bparams c) = max_word (bparams a) + max_word (bparams b) /\
    limb_width (bparams c) = limb_width (bparams a) /\
    (forall rho, bounded rho a -> bounded rho b -> 0 <= max_word (bparams a) -> 0 <= max_word (bparams b) ->
       max_word (bparams a) + max_word (bparams b) < modulus ->
       bounded rho c /\ int_of rho c = int_of rho a + int_of rho b) /\
    (forall s xs ys, good s -> bignat_at s a xs -> bignat_at s b ys ->
       0 <= max_word (bparams a) -> 0 <= max_word (bparams b) ->
       max_word (bparams a) + max_word (bparams b) < modulus ->
       exists zs, bignat_at s c zs /\ length zs = Nat.max (length xs) (length ys) /\
         (forall i, nth i zs 0 = nth i xs 0 + nth i ys 0) /\
         value_of (2 ^ Z.of_nat (limb_width (bparams c))) zs =
           value_of (2 ^ Z.of_nat (limb_width (bparams a))) xs + value_of (2 ^ Z.of_nat (limb_width (bparams b))) ys).
Proof. exact @top_add. Qed.
Print Assumptions C26_add.

Theorem C26_add_error : forall (E : Env) a b,
  limb_width (bparams a) <> limb_width (bparams b) -> add a b = Err Unsatisfiable.
Proof. exact @top_add_error. Qed.
Print Assumptions C26_add_error.

Theorem C26_shift : forall (E : Env) (W : Wf E) b k,
  well_shaped b -> limbs b <> [] -> canon k -> 
  max_word (bparams b) + k <= 2 ^ Z.of_nat CAPACITY ->
  exists c, shift b k = Ok c /\ well_shaped c /\ max_word (bparams c) = max_word (bparams b) + k /\
    limb_width (bparams c) = limb_width (bparams b) /\
    (forall rho, rho ONE = 1 -> bounded rho b -> bounded rho c /\ int_of rho c = int_of rho b + k) /\
    (forall s x xs, good s -> bignat_at s b (x :: xs) -> bignat_at s c (x + k :: xs)).
Proof. exact @top_shift. Qed.
Print Assumptions C26_shift.

Theorem C26_shift_panic : forall (E : Env) (W : Wf E) b k,
  canon k ->
  limbs b = [] \/ 2 ^ Z.of_nat CAPACITY < max_word (bparams b) + k -> shift b k = Panic.
Proof. exact @top_shift_panic. Qed.
Print Assumptions C26_shift_panic.

Theorem C26_scale : forall (E : Env) (W : Wf E) b k,
  well_shaped b -> canon k -> 0 <= max_word (bparams b) ->
  max_word (bparams b) * k <= 2 ^ Z.of_nat CAPACITY ->
  exists c, scale b k = Ok c /\ well_shaped c /\ max_word (bparams c) = max_word (bparams b) * k /\
    limb_width (bparams c) = limb_width (bparams b) /\
    (forall rho, bounded rho b -> bounded rho c /\ int_of rho c = int_of rho b * k) /\
    (forall s xs, good s -> bignat_at s b xs -> bignat_at s c (map (fun x => x * k) xs)).
Proof. exact @top_scale. Qed.
Print Assumptions C26_scale.

Theorem C26_scale_panic : forall (E : Env) (W : Wf E) b k,
  canon k -> 2 ^ Z.of_nat CAPACITY < max_word (bparams b) * k -> scale b k = Panic.
Proof. exact @top_scale_panic. Qed.
Print Assumptions C26_scale_panic.

(** [add] does not check the words: in every field some operands give a value that no wires carry. *)
Theorem C26_add_refuted : forall (E : Env) (W : Wf E) w s,
  good s -> exists a s' c,
  run true (alloc_from_limbs (Ok [modulus - 1]) (Some (modulus - 1)) w 1) s = (Ok a, s') /\ good s' /\
  bignat_at s' a [modulus - 1] /\ add a a = Ok c /\ value c = Some (2 * modulus - 2) /\
  forall vs, ~ bignat_at s' c vs.
Proof. exact @top_add_overflow. Qed.
Print Assumptions C26_add_refuted.

Example C26_case : let E := small_env 251 in
  let '(r, s) := run true (
     let! a := alloc_from_nat (Ok 37) 3 2 in let! b := alloc_from_nat (Ok 30) 3 2 in
     let! c := lift (add a b) in let! d := lift (shift c 4) in lift (scale d 3)) st_init in
  match r with
  | Ok c => value c = Some 213 /\ wires (asg s) (limbs c) = [45; 21] /\ int_of (asg s) c = 213 /\
            max_word (bparams c) = 54
  | _ => False
  end.
Proof. vm_compute. auto. Qed.

(** [group_limbs] preserves the number. *)
Theorem C27_group : forall (E : Env) (W : Wf E) b g,
  well_shaped b -> limbs b <> [] -> (1 <= g)%nat -> (1 <= limb_width (bparams b))%nat ->
  exists c, group_limbs b g = Ok c /\ well_shaped c /\ value c = value b /\
    length (limbs c) = n_groups (length (limbs b)) g /\
    limb_width (bparams c) = (limb_width (bparams b) * g)%nat /\
    max_word (bparams c) = max_word (bparams b) * sum_n g (fun t => 2 ^ Z.of_nat (limb_width (bparams b) * t)) /\
    min_bits (bparams c) = min_bits (bparams b) /\
    (forall rho, bounded rho b -> max_word (bparams c) < modulus ->
       bounded rho c /\ int_of rho c = int_of rho b /\
       wires rho (limbs c) = group_digits (2 ^ Z.of_nat (limb_width (bparams b))) g
          (n_groups (length (limbs b)) g) (wires rho (limbs b))) /\
    (forall s vs, good s -> bignat_at s b vs -> max_word (bparams c) < modulus ->
       bignat_at s c (group_digits (2 ^ Z.of_nat (limb_width (bparams b))) g (n_groups (length vs) g) vs)).
Proof. exact @top_group. Qed.
Print Assumptions C27_group.

Theorem C27_group_panics : forall (E : Env) b g,
  limbs b = [] /\ (overflow_checks = true \/ g <> 1%nat) \/ g = 0%nat -> group_limbs b g = Panic.
Proof. exact @group_limbs_panic. Qed.
Print Assumptions C27_group_panics.

Example C27_case : let E := small_env 251 in
  let '(r, s) := run true (let! b := alloc_from_nat (Ok 357) 3 3 in lift (group_limbs b 2)) st_init in
  match r with
  | Ok c => wires (asg s) (limbs c) = [37; 5] /\ limb_width (bparams c) = 6%nat /\
            max_word (bparams c) = 63 /\ int_of (asg s) c = 357
  | _ => False
  end.
Proof. vm_compute. auto. Qed.
