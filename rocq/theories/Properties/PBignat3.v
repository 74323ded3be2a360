(** C28-C40, C66-C68: carried comparison, multiplication, division, minimum, sizes. *)
From Coq Require Import ZArith Znumtheory Bool List.
From Verif.Model Require Import Base CS Bellpepper Util Poly Bignat Gadget Fields.
From Verif.Spec Require Import Spec.
From Verif.Proofs Require Import Prime PrimeMid TopPure TopBignat2 TopBignat3 TopBignat4 PrimeFields SubFree.
Import ListNotations.
Local Open Scope Z_scope.

(** A satisfied [equal_when_carried] makes the two integers equal. *)
Theorem C28_sound : forall (E : Env) (W : Wf E) wit a b s u s' rho,
  let w := limb_width (bparams a) in
  let M := Z.max (max_word (bparams a)) (max_word (bparams b)) in
  run wit (equal_when_carried a b) s = (Ok u, s') -> sat rho s' ->
  bounded rho a -> bounded rho b -> (1 <= w)%nat -> no_wrap M w ->
  int_of rho a = int_of rho b.
Proof. exact @top_ewc_sound. Qed.
Print Assumptions C28_sound.

Theorem C28_error : forall (E : Env) wit a b s,
  limb_width (bparams a) <> limb_width (bparams b) ->
  run wit (equal_when_carried a b) s = (Err Unsatisfiable, s) /\
  run wit (equal_when_carried_regroup a b) s = (Err Unsatisfiable, s).
Proof. exact @top_ewc_error. Qed.
Print Assumptions C28_error.

Example C28_case : let E := small_env 251 in
  let '(r, s) := run true (
     let! a := alloc_from_limbs (Ok [9; 3; 0]) (Some 9) 3 3 in
     let! b := alloc_from_limbs (Ok [1; 4; 0]) (Some 9) 3 3 in
     let! _ := equal_when_carried a b in Ret (a, b)) st_init in
  match r with
  | Ok (a, b) => satb (asg s) s = true /\ int_of (asg s) a = 33 /\ int_of (asg s) b = 33 /\ no_wrap 9 3
  | _ => False
  end.
Proof. vm_compute. repeat split; discriminate. Qed.

(** Equal numbers with the same number of limbs are accepted by the honest run. *)
Theorem C29_complete : forall (E : Env) (W : Wf E) a b xs ys s,
  let w := limb_width (bparams a) in
  let M := Z.max (max_word (bparams a)) (max_word (bparams b)) in
  good s -> bignat_at s a xs -> bignat_at s b ys -> limb_width (bparams b) = w -> (1 <= w)%nat ->
  length xs = length ys -> value_of (2 ^ Z.of_nat w) xs = value_of (2 ^ Z.of_nat w) ys ->
  carry_room M w -> exists s', run true (equal_when_carried a b) s = (Ok tt, s') /\ good s'.
Proof. exact @top_ewc_complete_same. Qed.
Print Assumptions C29_complete.

Theorem C29_complete_any_count : forall (E : Env) (W : Wf E) a b xs ys s,
  let w := limb_width (bparams a) in
  let M := Z.max (max_word (bparams a)) (max_word (bparams b)) in
  good s -> bignat_at s a xs -> bignat_at s b ys -> limb_width (bparams b) = w -> (1 <= w)%nat ->
  value_of (2 ^ Z.of_nat w) xs = value_of (2 ^ Z.of_nat w) ys ->
  (forall i, (Nat.min (length xs) (length ys) <= i)%nat -> nth i xs 0 = 0 /\ nth i ys 0 = 0) ->
  carry_room M w -> exists s', run true (equal_when_carried a b) s = (Ok tt, s') /\ good s'.
Proof. exact @top_ewc_complete. Qed.
Print Assumptions C29_complete_any_count.

Example C29_case : let E := small_env 251 in carry_room 7 3 /\ carry_room 9 3.
Proof. vm_compute. repeat split; first [discriminate | repeat constructor]. Qed.

(** Exactly which operands [equal_when_carried] accepts. *)
Theorem C30_exact : forall (E : Env) (W : Wf E) wit a b xs ys s u s' rho0,
  let w := limb_width (bparams a) in
  let M := Z.max (max_word (bparams a)) (max_word (bparams b)) in
  let n := Nat.min (length xs) (length ys) in
  good_for rho0 s -> bignat_for rho0 s a xs -> bignat_for rho0 s b ys ->
  run wit (equal_when_carried a b) s = (Ok u, s') -> (1 <= w)%nat -> no_wrap M w ->
  ((exists rho, same_on s rho rho0 /\ sat rho s') <->
   value_of (2 ^ Z.of_nat w) xs = value_of (2 ^ Z.of_nat w) ys /\
   (forall i, (n <= i)%nat -> nth i xs 0 = 0 /\ nth i ys 0 = 0) /\
   (forall i, (i < n)%nat -> 0 <= running_carry M (2 ^ Z.of_nat w) xs ys i < 2 ^ Z.of_nat (carry_width M w))).
Proof. exact @top_ewc_exact. Qed.
Print Assumptions C30_exact.

(** A nonzero limb beyond the shorter operand is rejected. *)
Theorem C30_high_limb : forall (E : Env) (W : Wf E) wit a b xs ys s u s' rho0 i,
  let w := limb_width (bparams a) in
  let M := Z.max (max_word (bparams a)) (max_word (bparams b)) in
  good_for rho0 s -> bignat_for rho0 s a xs -> bignat_for rho0 s b ys ->
  run wit (equal_when_carried a b) s = (Ok u, s') -> (1 <= w)%nat -> no_wrap M w ->
  (Nat.min (length xs) (length ys) <= i)%nat -> nth i xs 0 <> 0 \/ nth i ys 0 <> 0 ->
  ~ exists rho, same_on s rho rho0 /\ sat rho s'.
Proof. exact @top_ewc_high_limb. Qed.
Print Assumptions C30_high_limb.

(** Equal numbers rejected because a carry does not fit. *)
Theorem C30_carry_refuted : forall (E : Env) (W : Wf E) wit a b x s u s' rho0,
  good_for rho0 s -> bignat_for rho0 s a [15; 15; x] -> bignat_for rho0 s b [7; 0; x + 2] ->
  limb_width (bparams a) = 3%nat -> max_word (bparams a) = 15 -> max_word (bparams b) = 15 ->
  carry_bits_f64 15 3 = 2%nat -> 40 <= modulus ->
  run wit (equal_when_carried a b) s = (Ok u, s') ->
  value_of (2 ^ 3) [15; 15; x] = value_of (2 ^ 3) [7; 0; x + 2] /\
  ~ exists rho, same_on s rho rho0 /\ sat rho s'.
Proof. exact @top_ewc_15. Qed.
Print Assumptions C30_carry_refuted.

Example C30_case : let E := small_env 251 in
  carry_bits_f64 15 3 = 2%nat /\ 40 <= modulus /\ no_wrap 15 3 /\
  (let '(r, s) := run true (
     let! a := alloc_from_limbs (Ok [15; 15; 1]) (Some 15) 3 3 in
     let! b := alloc_from_limbs (Ok [7; 0; 3]) (Some 15) 3 3 in
     equal_when_carried a b) st_init in satb (asg s) s = false) /\
  (let '(r, s) := run true (
     let! a := alloc_from_limbs (Ok [8]) (Some 8) 3 1 in
     let! b := alloc_from_limbs (Ok [0; 1]) (Some 8) 3 2 in
     equal_when_carried a b) st_init in r = Ok tt /\ satb (asg s) s = false).
Proof. vm_compute. repeat split; discriminate. Qed.

(** A satisfied [equal_when_carried_regroup] makes the two integers equal. *)
Theorem C31_sound : forall (E : Env) (W : Wf E) wit a b s u s' rho,
  let w := limb_width (bparams a) in
  let M := Z.max (max_word (bparams a)) (max_word (bparams b)) in
  run wit (equal_when_carried_regroup a b) s = (Ok u, s') -> sat rho s' ->
  bounded rho a -> bounded rho b -> group_no_wrap M w -> int_of rho a = int_of rho b.
Proof. exact @top_regroup_sound. Qed.
Print Assumptions C31_sound.

Theorem C31_exact : forall (E : Env) (W : Wf E) wit a b xs ys s u s' rho0,
  let w := limb_width (bparams a) in
  let M := Z.max (max_word (bparams a)) (max_word (bparams b)) in
  let g := group_size M w in
  let n := Nat.min (n_groups (length xs) g) (n_groups (length ys) g) in
  good_for rho0 s -> bignat_for rho0 s a xs -> bignat_for rho0 s b ys ->
  run wit (equal_when_carried_regroup a b) s = (Ok u, s') -> xs <> [] -> ys <> [] -> (1 <= w)%nat ->
  group_no_wrap M w -> group_room M w ->
  ((exists rho, same_on s rho rho0 /\ sat rho s') <->
   value_of (2 ^ Z.of_nat w) xs = value_of (2 ^ Z.of_nat w) ys /\
   (forall i, (n * g <= i)%nat -> nth i xs 0 = 0 /\ nth i ys 0 = 0)).
Proof. exact @top_regroup_exact. Qed.
Print Assumptions C31_exact.

Theorem C31_complete : forall (E : Env) (W : Wf E) a b xs ys s,
  let w := limb_width (bparams a) in
  let M := Z.max (max_word (bparams a)) (max_word (bparams b)) in
  let g := group_size M w in
  let n := Nat.min (n_groups (length xs) g) (n_groups (length ys) g) in
  good s -> bignat_at s a xs -> bignat_at s b ys -> limb_width (bparams b) = w -> (1 <= w)%nat ->
  xs <> [] -> ys <> [] ->
  value_of (2 ^ Z.of_nat w) xs = value_of (2 ^ Z.of_nat w) ys ->
  (forall i, (n * g <= i)%nat -> nth i xs 0 = 0 /\ nth i ys 0 = 0) ->
  group_room M w -> exists s', run true (equal_when_carried_regroup a b) s = (Ok tt, s') /\ good s'.
Proof. exact @top_regroup_complete. Qed.
Print Assumptions C31_complete.

(** The conditions hold for full limbs, as soon as the field is large enough for one product. *)
Theorem C31_room_equal : forall (E : Env) (W : Wf E) w,
  let M := 2 ^ Z.of_nat w - 1 in
  (2 <= w)%nat -> 2 * M <= 2 ^ Z.of_nat CAPACITY -> exact_carries M w -> group_no_wrap M w /\ group_room M w.
Proof. exact @top_room_equal. Qed.
Print Assumptions C31_room_equal.

Theorem C31_room_product : forall (E : Env) (W : Wf E) w n m,
  let B := 2 ^ Z.of_nat w in
  let M := Z.max (product_word n (B - 1) m (B - 1)) (B - 1) in
  (1 <= w)%nat -> (1 <= n)%nat -> (1 <= m)%nat ->
  4 * Z.of_nat (Nat.min n m) < B -> 2 * M <= 2 ^ Z.of_nat CAPACITY -> exact_carries M w ->
  group_no_wrap M w /\ group_room M w.
Proof. exact @top_room_product. Qed.
Print Assumptions C31_room_product.

Theorem C31_room_mod : forall (E : Env) (W : Wf E) w n m q l,
  let B := 2 ^ Z.of_nat w in
  let M := Z.max (product_word n (B - 1) m (B - 1)) (product_word q (B - 1) l (B - 1) + (B - 1)) in
  (1 <= w)%nat -> (1 <= n)%nat -> (1 <= m)%nat -> (1 <= q)%nat -> (1 <= l)%nat ->
  4 * Z.of_nat (Nat.max (Nat.min n m) (Nat.min q l)) < B -> 2 * M <= 2 ^ Z.of_nat CAPACITY -> exact_carries M w ->
  group_no_wrap M w /\ group_room M w.
Proof. exact @top_room_mod. Qed.
Print Assumptions C31_room_mod.

Theorem C31_room_red : forall (E : Env) (W : Wf E) w q l,
  let B := 2 ^ Z.of_nat w in
  let M := Z.max (B - 1) (product_word q (B - 1) l (B - 1) + (B - 1)) in
  (1 <= w)%nat -> (1 <= q)%nat -> (1 <= l)%nat ->
  4 * Z.of_nat (Nat.min q l) < B -> 2 * M <= 2 ^ Z.of_nat CAPACITY -> exact_carries M w ->
  group_no_wrap M w /\ group_room M w.
Proof. exact @top_room_red. Qed.
Print Assumptions C31_room_red.

Example C31_case : let E := small_env 251 in group_no_wrap 7 3 /\ group_room 7 3 /\
  (let '(r, s) := run true (
     let! a := alloc_from_nat (Ok 300) 3 3 in let! b := alloc_from_nat (Ok 300) 3 3 in
     equal_when_carried_regroup a b) st_init in r = Ok tt /\ satb (asg s) s = true).
Proof. vm_compute. repeat split; first [discriminate | repeat constructor]. Qed.

(** [mult] computes the product. *)
Theorem C32_mult_sound : forall (E : Env) (W : Wf E) wit a b s p s' rho,
  let w := limb_width (bparams a) in
  let M := Z.max (product_word (length (limbs a)) (max_word (bparams a)) (length (limbs b)) (max_word (bparams b))) (2 ^ Z.of_nat w - 1) in
  run wit (mult a b) s = (Ok p, s') -> sat rho s' ->
  well_shaped a -> well_shaped b -> bounded rho a -> bounded rho b ->
  Z.of_nat (length (limbs a) + length (limbs b)) <= modulus -> group_no_wrap M w ->
  int_of rho p = int_of rho a * int_of rho b /\
  Forall (fun v => 0 <= v < 2 ^ Z.of_nat w) (wires rho (limbs p)) /\
  length (limbs p) = (length (limbs a) + length (limbs b))%nat /\ limb_width (bparams p) = w.
Proof. exact @top_mult_sound. Qed.
Print Assumptions C32_mult_sound.

Theorem C32_mult_complete : forall (E : Env) (W : Wf E) a b A B s,
  let w := limb_width (bparams a) in
  let M := Z.max (product_word (length A) (max_word (bparams a)) (length B) (max_word (bparams b))) (2 ^ Z.of_nat w - 1) in
  let g := group_size M w in
  let P := value_of (2 ^ Z.of_nat w) A * value_of (2 ^ Z.of_nat w) B in
  good s -> bignat_at s a A -> bignat_at s b B -> limb_width (bparams b) = w ->
  A <> [] -> B <> [] -> (1 <= w)%nat -> (w < NUM_BITS)%nat ->
  Forall (fun v => v < 2 ^ Z.of_nat w) A -> Forall (fun v => v < 2 ^ Z.of_nat w) B ->
  group_room M w -> P < 2 ^ Z.of_nat (w * (n_groups (length A + length B - 1) g * g)) ->
  exists p s' D, run true (mult a b) s = (Ok p, s') /\ good s' /\ bignat_at s' p D /\ value p = Some P /\
    length D = (length A + length B)%nat /\ Forall (fun v => 0 <= v < 2 ^ Z.of_nat w) D.
Proof. exact @top_mult_complete. Qed.
Print Assumptions C32_mult_complete.

(** Over the Pallas scalar field with 64-bit limbs no further condition is left. *)
Theorem C32_mult_pallas : forall ck wit a b s p s' rho, let E := pallas_env ck in
  run wit (mult a b) s = (Ok p, s') -> sat rho s' -> well_shaped a -> well_shaped b ->
  limb_width (bparams a) = 64%nat -> max_word (bparams a) = 2 ^ 64 - 1 -> max_word (bparams b) = 2 ^ 64 - 1 ->
  Forall (fun v => 0 <= v < 2 ^ 64) (wires rho (limbs a)) -> Forall (fun v => 0 <= v < 2 ^ 64) (wires rho (limbs b)) ->
  limbs a <> [] -> limbs b <> [] ->
  Z.of_nat (length (limbs a)) <= 2 ^ 60 -> Z.of_nat (length (limbs b)) <= 2 ^ 60 ->
  int_of rho p = int_of rho a * int_of rho b /\
  Forall (fun v => 0 <= v < 2 ^ 64) (wires rho (limbs p)) /\
  length (limbs p) = (length (limbs a) + length (limbs b))%nat.
Proof. exact @top_mult_pallas. Qed.
Print Assumptions C32_mult_pallas.

Example C32_case : let E := mid_env 65521 in
  let '(r, s) := run true (
     let! a := alloc_from_nat (Ok 17) 3 2 in let! b := alloc_from_nat (Ok 30) 3 2 in mult a b) st_init in
  match r with
  | Ok p => satb (asg s) s = true /\ int_of (asg s) p = 510 /\ length (limbs p) = 4%nat
  | _ => False
  end.
Proof. vm_compute. auto. Qed.

(** Exactly which products are accepted: those that fit the limbs of the grouped left side. *)
Theorem C33_mult_exact : forall (E : Env) (W : Wf E) wit a b A B s p s' rho0,
  let w := limb_width (bparams a) in
  let M := Z.max (product_word (length A) (max_word (bparams a)) (length B) (max_word (bparams b))) (2 ^ Z.of_nat w - 1) in
  let g := group_size M w in
  let P := value_of (2 ^ Z.of_nat w) A * value_of (2 ^ Z.of_nat w) B in
  good_for rho0 s -> bignat_for rho0 s a A -> bignat_for rho0 s b B ->
  run wit (mult a b) s = (Ok p, s') -> A <> [] -> B <> [] -> (1 <= w)%nat -> (w < NUM_BITS)%nat ->
  Z.of_nat (length A + length B) <= modulus -> group_no_wrap M w -> group_room M w ->
  ((exists rho, same_on s rho rho0 /\ sat rho s') <->
   P < 2 ^ Z.of_nat (w * (n_groups (length A + length B - 1) g * g)) /\ P < 2 ^ Z.of_nat (w * (length A + length B))).
Proof. exact @top_mult_exact. Qed.
Print Assumptions C33_mult_exact.

(** One 64-bit limb times two: a product that needs the third limb has no satisfying assignment. *)
Theorem C33_mult_1x2_pallas : forall ck wit a b x y z s p s' rho0, let E := pallas_env ck in
  good_for rho0 s -> bignat_for rho0 s a [x] -> bignat_for rho0 s b [y; z] ->
  limb_width (bparams a) = 64%nat -> max_word (bparams a) = 2 ^ 64 - 1 -> max_word (bparams b) = 2 ^ 64 - 1 ->
  run wit (mult a b) s = (Ok p, s') ->
  ((exists rho, same_on s rho rho0 /\ sat rho s') <-> x * (y + 2 ^ 64 * z) < 2 ^ 128).
Proof. exact @top_mult_1x2_pallas. Qed.
Print Assumptions C33_mult_1x2_pallas.

Example C33_case : let E := pallas_env true in
  let '(r, s) := run true (
     let! a := alloc_from_nat (Ok (2 ^ 63)) 64 1 in let! b := alloc_from_nat (Ok (2 ^ 65)) 64 2 in mult a b) st_init in
  match r with
  | Ok p => satb (asg s) s = false /\ value p = Some (2 ^ 128)
  | _ => False
  end.
Proof. vm_compute. auto. Qed.

(** A satisfied [mult_mod] enforces the division identity with quotient and remainder in range. *)
Theorem C34_mult_mod_sound : forall (E : Env) (W : Wf E) wit a b m s q r s' rho,
  let w := limb_width (bparams a) in
  let X := 2 ^ Z.of_nat w in
  run wit (mult_mod a b m) s = (Ok (q, r), s') -> sat rho s' ->
  bounded rho a -> bounded rho b -> bounded rho m ->
  Z.of_nat (length (limbs a) + length (limbs b)) <= modulus ->
  Z.of_nat (length (limbs q) + length (limbs m)) <= modulus ->
  group_no_wrap (Z.max (product_word (length (limbs a)) (max_word (bparams a)) (length (limbs b)) (max_word (bparams b)))
     (product_word (length (limbs q)) (X - 1) (length (limbs m)) (max_word (bparams m)) + (X - 1))) w ->
  int_of rho a * int_of rho b = int_of rho q * value_of X (wires rho (limbs m)) + int_of rho r /\
  Forall (fun v => 0 <= v < X) (wires rho (limbs q)) /\ Forall (fun v => 0 <= v < X) (wires rho (limbs r)) /\
  limb_width (bparams q) = w /\ limb_width (bparams r) = w /\ length (limbs r) = length (limbs m).
Proof. exact @top_mult_mod_sound. Qed.
Print Assumptions C34_mult_mod_sound.

(** The honest run returns the Euclidean quotient and remainder. *)
Theorem C34_mult_mod_complete : forall (E : Env) (W : Wf E) a b m A B Mm s,
  let w := limb_width (bparams a) in
  let X := 2 ^ Z.of_nat w in
  let ql := q_limbs (n_bits_of a + n_bits_of b) (min_bits (bparams m)) w in
  let M := Z.max (product_word (length A) (max_word (bparams a)) (length B) (max_word (bparams b)))
     (product_word ql (X - 1) (length Mm) (max_word (bparams m)) + (X - 1)) in
  let g := group_size M w in
  let P := value_of X A * value_of X B in
  good s -> bignat_at s a A -> bignat_at s b B -> bignat_at s m Mm ->
  limb_width (bparams b) = w -> limb_width (bparams m) = w \/ length Mm = 1%nat ->
  A <> [] -> B <> [] -> Mm <> [] -> (1 <= w)%nat -> (w < NUM_BITS)%nat ->
  0 < value_of X Mm <= 2 ^ Z.of_nat (w * length Mm) ->
  P / value_of X Mm < 2 ^ Z.of_nat (w * ql) ->
  group_room M w ->
  fits_groups w g (length A + length B - 1) (Nat.max (ql + length Mm - 1) (length Mm)) P ->
  exists q r s' Q R, run true (mult_mod a b m) s = (Ok (q, r), s') /\ good s' /\
    bignat_at s' q Q /\ bignat_at s' r R /\ length Q = ql /\ length R = length Mm /\
    value q = Some (P / value_of X Mm) /\ value r = Some (P mod value_of X Mm).
Proof. exact @top_mult_mod_complete. Qed.
Print Assumptions C34_mult_mod_complete.

(** The quotient fits the limbs it is given unless the bit count is a multiple of the limb width. *)
Theorem C34_quotient_fits : forall bits mb w P m,
  (1 <= w)%nat -> 0 <= P < 2 ^ Z.of_nat bits -> 0 < m ->
  mb = 0%nat \/ (2 ^ Z.of_nat (mb - 1) <= m /\ ((bits - mb) mod w <> 0)%nat) ->
  P / m < 2 ^ Z.of_nat (w * q_limbs bits mb w).
Proof. exact @top_quotient_fits. Qed.
Print Assumptions C34_quotient_fits.

Example C34_case : let E := pallas_env true in
  let '(r, s) := run true (
     let! a := alloc_from_nat (Ok 370) 8 2 in let! b := alloc_from_nat (Ok 300) 8 2 in
     let! m := alloc_from_nat (Ok 430) 8 2 in mult_mod a b m) st_init in
  match r with
  | Ok (q, r) => satb (asg s) s = true /\ int_of (asg s) q = 258 /\ int_of (asg s) r = 60 /\
       length (limbs q) = 4%nat
  | _ => False
  end.
Proof. vm_compute. auto. Qed.

(** Every quotient and remainder in range that satisfy the identity are accepted. *)
Theorem C35_mult_mod_any : forall (E : Env) (W : Wf E) wit a b m A B Mm Q R s q r s' rho0,
  let w := limb_width (bparams a) in
  let X := 2 ^ Z.of_nat w in
  let M := Z.max (product_word (length A) (max_word (bparams a)) (length B) (max_word (bparams b)))
     (product_word (length Q) (X - 1) (length Mm) (max_word (bparams m)) + (X - 1)) in
  let g := group_size M w in
  good_for rho0 s -> bignat_for rho0 s a A -> bignat_for rho0 s b B -> bignat_for rho0 s m Mm ->
  run wit (mult_mod a b m) s = (Ok (q, r), s') -> A <> [] -> B <> [] -> Mm <> [] -> (1 <= w)%nat -> (w < NUM_BITS)%nat ->
  length Q = length (limbs q) -> length R = length Mm ->
  Forall (fun v => 0 <= v < X) Q -> Forall (fun v => 0 <= v < X) R ->
  value_of X A * value_of X B = value_of X Q * value_of X Mm + value_of X R ->
  group_room M w ->
  fits_groups w g (length A + length B - 1) (Nat.max (length Q + length Mm - 1) (length R)) (value_of X A * value_of X B) ->
  exists rho, same_on s rho rho0 /\ sat rho s' /\ wires rho (limbs q) = Q /\ wires rho (limbs r) = R.
Proof. exact @top_mult_mod_any. Qed.
Print Assumptions C35_mult_mod_any.

(** So the remainder is not determined: whenever it fits, remainder plus modulus is accepted too. *)
Theorem C35_mult_mod_refuted : forall (E : Env) (W : Wf E) a b m A B Mm s,
  let w := limb_width (bparams a) in
  let X := 2 ^ Z.of_nat w in
  let ql := q_limbs (n_bits_of a + n_bits_of b) (min_bits (bparams m)) w in
  let M := Z.max (product_word (length A) (max_word (bparams a)) (length B) (max_word (bparams b)))
     (product_word ql (X - 1) (length Mm) (max_word (bparams m)) + (X - 1)) in
  let g := group_size M w in
  let P := value_of X A * value_of X B in
  good s -> bignat_at s a A -> bignat_at s b B -> bignat_at s m Mm ->
  limb_width (bparams b) = w -> limb_width (bparams m) = w ->
  A <> [] -> B <> [] -> Mm <> [] -> (1 <= w)%nat -> (w < NUM_BITS)%nat ->
  0 < value_of X Mm <= P -> P mod value_of X Mm + value_of X Mm < 2 ^ Z.of_nat (w * length Mm) ->
  P / value_of X Mm < 2 ^ Z.of_nat (w * ql) ->
  group_room M w ->
  fits_groups w g (length A + length B - 1) (Nat.max (ql + length Mm - 1) (length Mm)) P ->
  exists q r s' rho, run true (mult_mod a b m) s = (Ok (q, r), s') /\ good s' /\
    value r = Some (P mod value_of X Mm) /\
    same_on s rho (asg s) /\ sat rho s' /\
    int_of rho a = value_of X A /\ int_of rho b = value_of X B /\ int_of rho m = value_of X Mm /\
    int_of rho r = P mod value_of X Mm + value_of X Mm.
Proof. exact @top_mult_mod_ambiguous. Qed.
Print Assumptions C35_mult_mod_refuted.

(** Conditions of the theorem at a = 370, b = 300, m = 430 with two limbs of 8 bits. *)
Example C35_case : let E := pallas_env true in
  let '(r, s) := run true (
     let! a := alloc_from_nat (Ok 370) 8 2 in let! b := alloc_from_nat (Ok 300) 8 2 in
     let! m := alloc_from_nat (Ok 430) 8 2 in Ret (a, b, m)) st_init in
  match r with
  | Ok (a, b, m) =>
      let M := Z.max (product_word 2 255 2 255) (product_word 4 255 2 255 + 255) in
      q_limbs (n_bits_of a + n_bits_of b) (min_bits (bparams m)) 8 = 4%nat /\
      0 < 430 <= 370 * 300 /\ (370 * 300) mod 430 + 430 < 2 ^ Z.of_nat (8 * 2) /\
      (370 * 300) / 430 < 2 ^ Z.of_nat (8 * 4) /\ group_room M 8 /\
      370 * 300 < 2 ^ Z.of_nat (8 * (Nat.min (n_groups 3 (group_size M 8)) (n_groups 5 (group_size M 8)) * group_size M 8))
  | _ => False
  end.
Proof. vm_compute. repeat split; first [discriminate | repeat constructor]. Qed.

(** [red_mod] and [assert_product_mod] enforce the division identity. *)
Theorem C36_red_mod_sound : forall (E : Env) (W : Wf E) wit a m s r s' rho,
  let w := limb_width (bparams a) in
  let X := 2 ^ Z.of_nat w in
  let ql := q_limbs (n_bits_of a) (min_bits (bparams m)) w in
  run wit (red_mod a m) s = (Ok r, s') -> sat rho s' -> bounded rho a -> bounded rho m ->
  Z.of_nat (ql + length (limbs m)) <= modulus ->
  group_no_wrap (Z.max (max_word (bparams a)) (product_word ql (X - 1) (length (limbs m)) (max_word (bparams m)) + (X - 1))) w ->
  (exists q, 0 <= q /\ int_of rho a = q * int_of rho m + int_of rho r) /\
  Forall (fun v => 0 <= v < X) (wires rho (limbs r)) /\ limb_width (bparams r) = w /\ length (limbs r) = length (limbs m).
Proof. exact @top_red_mod_sound. Qed.
Print Assumptions C36_red_mod_sound.

Theorem C36_red_mod_complete : forall (E : Env) (W : Wf E) a m A Mm s,
  let w := limb_width (bparams a) in
  let X := 2 ^ Z.of_nat w in
  let ql := q_limbs (n_bits_of a) (min_bits (bparams m)) w in
  let M := Z.max (max_word (bparams a)) (product_word ql (X - 1) (length Mm) (max_word (bparams m)) + (X - 1)) in
  let g := group_size M w in
  good s -> bignat_at s a A -> bignat_at s m Mm -> limb_width (bparams m) = w ->
  A <> [] -> Mm <> [] -> (1 <= w)%nat -> (w < NUM_BITS)%nat ->
  0 < value_of X Mm <= 2 ^ Z.of_nat (w * length Mm) ->
  value_of X A / value_of X Mm < 2 ^ Z.of_nat (w * ql) ->
  group_room M w ->
  fits_groups w g (length A) (Nat.max (ql + length Mm - 1) (length Mm)) (value_of X A) ->
  exists r s' R, run true (red_mod a m) s = (Ok r, s') /\ good s' /\
    bignat_at s' r R /\ length R = length Mm /\ value r = Some (value_of X A mod value_of X Mm).
Proof. exact @top_red_mod_complete. Qed.
Print Assumptions C36_red_mod_complete.

Theorem C36_red_mod_refuted : forall (E : Env) (W : Wf E) a m A Mm s,
  let w := limb_width (bparams a) in
  let X := 2 ^ Z.of_nat w in
  let ql := q_limbs (n_bits_of a) (min_bits (bparams m)) w in
  let M := Z.max (max_word (bparams a)) (product_word ql (X - 1) (length Mm) (max_word (bparams m)) + (X - 1)) in
  let g := group_size M w in
  let P := value_of X A in
  good s -> bignat_at s a A -> bignat_at s m Mm -> limb_width (bparams m) = w ->
  A <> [] -> Mm <> [] -> (1 <= w)%nat -> (w < NUM_BITS)%nat ->
  0 < value_of X Mm <= P -> P mod value_of X Mm + value_of X Mm < 2 ^ Z.of_nat (w * length Mm) ->
  P / value_of X Mm < 2 ^ Z.of_nat (w * ql) ->
  group_room M w ->
  fits_groups w g (length A) (Nat.max (ql + length Mm - 1) (length Mm)) P ->
  exists r s' rho, run true (red_mod a m) s = (Ok r, s') /\ good s' /\
    value r = Some (P mod value_of X Mm) /\
    same_on s rho (asg s) /\ sat rho s' /\ int_of rho a = P /\ int_of rho m = value_of X Mm /\
    int_of rho r = P mod value_of X Mm + value_of X Mm.
Proof. exact @top_red_mod_ambiguous. Qed.
Print Assumptions C36_red_mod_refuted.

Theorem C36_assert_product_mod_sound : forall (E : Env) (W : Wf E) wit a b m r s q s' rho,
  let w := limb_width (bparams a) in
  let X := 2 ^ Z.of_nat w in
  run wit (assert_product_mod a b m r) s = (Ok q, s') -> sat rho s' ->
  bounded rho a -> bounded rho b -> bounded rho m -> bounded rho r -> 0 <= max_word (bparams r) ->
  Z.of_nat (length (limbs a) + length (limbs b) + length (limbs m)) <= modulus ->
  group_no_wrap (Z.max (product_word (length (limbs a)) (max_word (bparams a)) (length (limbs b)) (max_word (bparams b)))
     (product_word (length (limbs a) + length (limbs b)) (X - 1) (length (limbs m)) (max_word (bparams m)) + max_word (bparams r))) w ->
  int_of rho a * int_of rho b = int_of rho q * int_of rho m + int_of rho r /\
  Forall (fun v => 0 <= v < X) (wires rho (limbs q)).
Proof. exact @top_apm_sound. Qed.
Print Assumptions C36_assert_product_mod_sound.

Theorem C36_assert_product_mod_complete : forall (E : Env) (W : Wf E) a b m r A B Mm R s,
  let w := limb_width (bparams a) in
  let X := 2 ^ Z.of_nat w in
  let ql := (length A + length B)%nat in
  let M := Z.max (product_word (length A) (max_word (bparams a)) (length B) (max_word (bparams b)))
     (product_word ql (X - 1) (length Mm) (max_word (bparams m)) + max_word (bparams r)) in
  let g := group_size M w in
  let P := value_of X A * value_of X B in
  good s -> bignat_at s a A -> bignat_at s b B -> bignat_at s m Mm -> bignat_at s r R ->
  limb_width (bparams b) = w -> limb_width (bparams m) = w -> limb_width (bparams r) = w ->
  A <> [] -> B <> [] -> Mm <> [] -> R <> [] -> (1 <= w)%nat -> (w < NUM_BITS)%nat ->
  value_of X R = P mod value_of X Mm -> 0 < value_of X Mm ->
  P / value_of X Mm < 2 ^ Z.of_nat (w * ql) ->
  group_room M w ->
  fits_groups w g (length A + length B - 1) (Nat.max (ql + length Mm - 1) (length R)) P ->
  exists q s' Q, run true (assert_product_mod a b m r) s = (Ok q, s') /\ good s' /\
    bignat_at s' q Q /\ length Q = ql /\ value q = Some (P / value_of X Mm).
Proof. exact @top_apm_complete. Qed.
Print Assumptions C36_assert_product_mod_complete.

Example C36_case : let E := mid_env 65521 in
  let '(r, s) := run true (
     let! a := alloc_from_nat (Ok 17) 3 2 in let! b := alloc_from_nat (Ok 30) 3 2 in
     let! m := alloc_from_nat (Ok 43) 3 2 in let! x := alloc_from_nat (Ok 37) 3 2 in
     let! r := red_mod m b in let! q := assert_product_mod a b m x in Ret (r, q)) st_init in
  match r with
  | Ok (r, q) => satb (asg s) s = true /\ int_of (asg s) r = 13 /\ int_of (asg s) q = 11
  | _ => False
  end.
Proof. vm_compute. auto. Qed.

(** A satisfied [divides] makes the first number divide the second. *)
Theorem C37_divides_sound : forall (E : Env) (W : Wf E) wit a b s u s' rho,
  let w := limb_width (bparams a) in
  let M := Z.max (product_word (length (limbs a)) (max_word (bparams a)) (length (limbs b)) (2 ^ Z.of_nat w - 1)) (max_word (bparams b)) in
  run wit (divides a b) s = (Ok u, s') -> sat rho s' ->
  well_shaped a -> well_shaped b -> bounded rho a -> bounded rho b ->
  Z.of_nat (length (limbs a) + length (limbs b)) <= modulus -> group_no_wrap M w ->
  (int_of rho a | int_of rho b).
Proof. exact @top_divides_sound. Qed.
Print Assumptions C37_divides_sound.

Theorem C37_divides_complete : forall (E : Env) (W : Wf E) a b A B s,
  let w := limb_width (bparams a) in
  let X := 2 ^ Z.of_nat w in
  let M := Z.max (product_word (length A) (max_word (bparams a)) (length B) (X - 1)) (max_word (bparams b)) in
  let g := group_size M w in
  good s -> bignat_at s a A -> bignat_at s b B -> limb_width (bparams b) = w ->
  A <> [] -> B <> [] -> (1 <= w)%nat -> (w < NUM_BITS)%nat -> Forall (fun v => v < X) B ->
  0 < value_of X A -> (value_of X A | value_of X B) -> group_room M w ->
  fits_groups w g (length A + length B - 1) (length B) (value_of X B) ->
  exists s', run true (divides a b) s = (Ok tt, s') /\ good s'.
Proof. exact @top_divides_complete. Qed.
Print Assumptions C37_divides_complete.

Theorem C37_divides_error : forall (E : Env) a b A B s,
  good s -> bignat_at s a A -> bignat_at s b B -> B <> [] -> limb_width (bparams b) = limb_width (bparams a) ->
  ~ (value_of (2 ^ Z.of_nat (limb_width (bparams a))) A | value_of (2 ^ Z.of_nat (limb_width (bparams b))) B) ->
  fst (run true (divides a b) s) = Err IoError.
Proof. exact @top_divides_error. Qed.
Print Assumptions C37_divides_error.

Example C37_case : let E := mid_env 65521 in
  (let '(r, s) := run true (
     let! a := alloc_from_nat (Ok 5) 3 1 in let! b := alloc_from_nat (Ok 35) 3 2 in divides a b) st_init in
   r = Ok tt /\ satb (asg s) s = true) /\
  fst (run true (
     let! a := alloc_from_nat (Ok 6) 3 1 in let! b := alloc_from_nat (Ok 35) 3 2 in divides a b) st_init) = Err IoError.
Proof. vm_compute. auto. Qed.

(** The honest run of [min] returns the smaller operand. *)
Theorem C38_min_complete : forall (E : Env) (W : Wf E) a b A B s,
  let w := limb_width (bparams a) in
  let X := 2 ^ Z.of_nat w in
  good s -> bignat_at s a A -> bignat_at s b B -> limb_width (bparams b) = w ->
  (1 <= w)%nat -> (w < NUM_BITS)%nat -> B <> [] ->
  Forall (fun v => v < X) A -> Forall (fun v => v < X) B ->
  group_room (max_word (bparams b) + (X - 1)) w ->
  exists r s' R, run true (bn_min a b) s = (Ok r, s') /\ good s' /\ bignat_at s' r R /\
    value r = Some (Z.min (value_of X A) (value_of X B)).
Proof. exact @top_min_complete. Qed.
Print Assumptions C38_min_complete.

(** [min] accepts either operand, whatever the other one is. *)
Theorem C38_min_refuted : forall (E : Env) (W : Wf E) wit a b A B s r s' rho0 (x : bool),
  let w := limb_width (bparams a) in
  let X := 2 ^ Z.of_nat w in
  good_for rho0 s -> bignat_for rho0 s a A -> bignat_for rho0 s b B -> limb_width (bparams b) = w ->
  run wit (bn_min a b) s = (Ok r, s') -> (1 <= w)%nat -> B <> [] ->
  Forall (fun v => v < X) A -> Forall (fun v => v < X) B ->
  group_room (max_word (bparams b) + (X - 1)) w ->
  exists rho, same_on s rho rho0 /\ sat rho s' /\ int_of rho r = value_of X (if x then B else A).
Proof. exact @top_min_free. Qed.
Print Assumptions C38_min_refuted.

Example C38_case : let E := mid_env 65521 in group_room (7 + 7) 3 /\
  (let '(r, s) := run true (
     let! a := alloc_from_nat (Ok 37) 3 2 in let! b := alloc_from_nat (Ok 30) 3 2 in bn_min a b) st_init in
  match r with
  | Ok c => satb (asg s) s = true /\ int_of (asg s) c = 30
  | _ => False
  end).
Proof. vm_compute. repeat split; first [discriminate | repeat constructor]. Qed.

(** [n_bits] bounds the bit length of carried numbers. *)
Theorem C39_n_bits : forall (E : Env) (W : Wf E) b rho k,
  well_shaped b -> bounded rho b -> max_word (bparams b) < 2 ^ Z.of_nat (limb_width (bparams b)) ->
  n_bits b = Ok k -> 0 <= int_of rho b < 2 ^ Z.of_nat k.
Proof. exact @top_n_bits. Qed.
Print Assumptions C39_n_bits.

Theorem C39_n_bits_panic : forall b,
  n_limbs (bparams b) = 0%nat -> n_bits b = Panic.
Proof. exact @top_n_bits_panic. Qed.
Print Assumptions C39_n_bits_panic.

(** It does not bound the bit length of uncarried numbers. *)
Theorem C39_uncarried_refuted : forall (E : Env) (W : Wf E) w,
  (1 <= w)%nat -> 2 ^ Z.of_nat (S w) <= modulus -> exists s b vs k v,
  good s /\ bignat_at s b vs /\ value b = Some v /\ limb_width (bparams b) = w /\ n_bits b = Ok k /\ 2 ^ Z.of_nat k <= v.
Proof. exact @top_n_bits_uncarried. Qed.
Print Assumptions C39_uncarried_refuted.

Example C39_case : let E := small_env 251 in
  match run true (let! a := alloc_from_nat (Ok 37) 3 2 in lift (n_bits a)) st_init with
  | (Ok k, _) => k = 6%nat
  | _ => False
  end.
Proof. vm_compute. auto. Qed.

(** [with_n_limbs] pads, and [one] is one. *)
Theorem C40_with_n_limbs : forall (E : Env) (W : Wf E) b n,
  well_shaped b -> (length (limbs b) <= n)%nat -> 0 <= max_word (bparams b) ->
  exists c, with_n_limbs b n = Ok c /\ well_shaped c /\ length (limbs c) = n /\
    value c = value b /\ limb_width (bparams c) = limb_width (bparams b) /\
    max_word (bparams c) = max_word (bparams b) /\ min_bits (bparams c) = min_bits (bparams b) /\
    (forall rho, wires rho (limbs c) = wires rho (limbs b) ++ repeat 0 (n - length (limbs b)) /\
       int_of rho c = int_of rho b) /\
    (forall s vs, good s -> bignat_at s b vs -> bignat_at s c (vs ++ repeat 0 (n - length vs))).
Proof. exact @top_with_n_limbs. Qed.
Print Assumptions C40_with_n_limbs.

Theorem C40_with_n_limbs_panic : forall b n,
  (n < n_limbs (bparams b))%nat -> with_n_limbs b n = Panic.
Proof. exact @top_with_n_limbs_panic. Qed.
Print Assumptions C40_with_n_limbs_panic.

Theorem C40_one : forall (E : Env) (W : Wf E) w s,
  good s -> bignat_at s (bn_one w) [1] /\
  value (bn_one w) = Some 1 /\ min_bits_ok (bn_one w) 1 /\
  (forall rho, rho ONE = 1 -> wires rho (limbs (bn_one w)) = [1] /\ int_of rho (bn_one w) = 1).
Proof. exact @top_one. Qed.
Print Assumptions C40_one.

Example C40_case : let E := small_env 251 in
  match run true (let! a := alloc_from_nat (Ok 37) 3 2 in lift (with_n_limbs a 4)) st_init with
  | (Ok c, s) => wires (asg s) (limbs c) = [5; 4; 0; 0] /\ value c = Some 37
  | _ => False
  end.
Proof. vm_compute. auto. Qed.

(** The quotient can be given one limb too few: then the honest run fails. *)
Theorem C66_mult_mod_short : forall (E : Env) a b m A B Mm s,
  let w := limb_width (bparams a) in
  let X := 2 ^ Z.of_nat w in
  let ql := q_limbs (n_bits_of a + n_bits_of b) (min_bits (bparams m)) w in
  let P := value_of X A * value_of X B in
  good s -> bignat_at s a A -> bignat_at s b B -> bignat_at s m Mm ->
  limb_width (bparams b) = w -> limb_width (bparams m) = w -> A <> [] -> B <> [] -> (1 <= w)%nat ->
  0 < value_of X Mm -> 2 ^ Z.of_nat (w * ql) <= P / value_of X Mm ->
  fst (run true (mult_mod a b m) s) = Err IoError.
Proof. exact @top_mult_mod_short. Qed.
Print Assumptions C66_mult_mod_short.

Theorem C66_red_mod_short : forall (E : Env) a m A Mm s,
  let w := limb_width (bparams a) in
  let X := 2 ^ Z.of_nat w in
  let ql := q_limbs (n_bits_of a) (min_bits (bparams m)) w in
  good s -> bignat_at s a A -> bignat_at s m Mm ->
  limb_width (bparams m) = w -> A <> [] -> (1 <= w)%nat ->
  0 < value_of X Mm -> 2 ^ Z.of_nat (w * ql) <= value_of X A / value_of X Mm ->
  fst (run true (red_mod a m) s) = Err IoError.
Proof. exact @top_red_mod_short. Qed.
Print Assumptions C66_red_mod_short.

Example C66_case : let E := mid_env 65521 in
  fst (run true (
     let! a := alloc_from_nat (Ok 7) 3 1 in
     let! m := alloc_from_nat (Ok 4) 3 1 in let! m := enforce_min_bits m 3 in
     mult_mod a a m) st_init) = Err IoError /\
  fst (run true (
     let! a := alloc_from_nat (Ok 63) 3 2 in
     let! m := alloc_from_nat (Ok 4) 3 1 in let! m := enforce_min_bits m 3 in
     red_mod a m) st_init) = Err IoError.
Proof. vm_compute. auto. Qed.

(** [sub]: when the returned limbs are in range they are the difference. *)
Theorem C67_sub_sound : forall (E : Env) (W : Wf E) wit a b s d s' rho,
  let w := limb_width (bparams a) in
  run wit (sub a b) s = (Ok d, s') -> sat rho s' ->
  well_shaped a -> well_shaped b -> bounded rho a -> bounded rho b -> 0 <= max_word (bparams b) ->
  group_no_wrap (Z.max (max_word (bparams a)) (max_word (bparams b) + (2 ^ Z.of_nat w - 1))) w ->
  bounded rho d -> int_of rho a = int_of rho b + int_of rho d.
Proof. exact @top_sub_sound. Qed.
Print Assumptions C67_sub_sound.

Theorem C67_sub_complete : forall (E : Env) (W : Wf E) a b A B s,
  let w := limb_width (bparams a) in
  let X := 2 ^ Z.of_nat w in
  good s -> bignat_at s a A -> bignat_at s b B -> limb_width (bparams b) = w ->
  (1 <= w)%nat -> (w < NUM_BITS)%nat -> (1 <= length B <= length A)%nat ->
  0 <= value_of X A - value_of X B < 2 ^ Z.of_nat (w * length A) ->
  group_room (Z.max (max_word (bparams a)) (max_word (bparams b) + (X - 1))) w ->
  exists d s' D, run true (sub a b) s = (Ok d, s') /\ good s' /\ bignat_at s' d D /\ length D = length A /\
    value d = Some (value_of X A - value_of X B).
Proof. exact @top_sub_complete. Qed.
Print Assumptions C67_sub_complete.

(** They need not be: 0 - 1 is accepted over the Pallas scalar field with 64-bit limbs. *)
Theorem C67_sub_refuted : forall ck, let E := pallas_env ck in exists s a b d s' rho,
  run false (let! a := alloc_from_nat (Ok 0) 64 1 in let! b := alloc_from_nat (Ok 1) 64 1 in Ret (a, b)) st_init = (Ok (a, b), s) /\
  run false (sub a b) s = (Ok d, s') /\ sat rho s' /\
  bounded rho a /\ bounded rho b /\
  int_of rho a = 0 /\ int_of rho b = 1 /\ int_of rho d = pallas_scalar_modulus - 1 /\ ~ bounded rho d.
Proof. exact @top_sub_wraps. Qed.
Print Assumptions C67_sub_refuted.

(** Nor is this peculiar to a pair: the circuit accepts the subtraction of any two numbers, with the limbs of the
    result being the differences of the limbs in the field. *)
Theorem C67_sub_any_refuted : forall (E : Env) (W : Wf E) wit a b A B s d s' rho0,
  let w := limb_width (bparams a) in
  let X := 2 ^ Z.of_nat w in
  good_for rho0 s -> bignat_for rho0 s a A -> bignat_for rho0 s b B -> limb_width (bparams b) = w ->
  run wit (sub a b) s = (Ok d, s') -> (1 <= w)%nat -> A <> [] -> (length B <= length A)%nat ->
  Forall (fun v => v <= max_word (bparams b) + (X - 1)) A ->
  group_room (Z.max (max_word (bparams a)) (max_word (bparams b) + (X - 1))) w ->
  exists rho, same_on s rho rho0 /\ sat rho s' /\
    wires rho (limbs d) = map (fun i => (nth i A 0 - nth i B 0) mod modulus) (seq 0 (length A)).
Proof. exact @top_sub_free. Qed.
Print Assumptions C67_sub_any_refuted.

(** The honest run of 30 - 37 ends in a circuit its own values do not satisfy; the limb differences do. *)
Example C67_any_case : let E := small_env 251 in group_room (Z.max 7 (7 + (2 ^ 3 - 1))) 3 /\
  (let '(r, s) := run true (
     let! a := alloc_from_nat (Ok 30) 3 2 in let! b := alloc_from_nat (Ok 37) 3 2 in sub a b) st_init in
  match r with
  | Ok d => satb (asg s) s = false
  | _ => False
  end) /\
  map (fun i => (nth i [6; 3] 0 - nth i [5; 4] 0) mod modulus) (seq 0 2) = [1; 250].
Proof. vm_compute. repeat split; first [discriminate | repeat constructor]. Qed.

Example C67_case : let E := small_env 251 in
  let '(r, s) := run true (
     let! a := alloc_from_nat (Ok 37) 3 2 in let! b := alloc_from_nat (Ok 30) 3 2 in sub a b) st_init in
  match r with
  | Ok d => satb (asg s) s = true /\ wires (asg s) (limbs d) = [7; 0]
  | _ => False
  end.
Proof. vm_compute. auto. Qed.

(** [equal_when_carried_regroup] does not check its parameters: numbers whose recorded word bound
    exceeds the limb width can be accepted although they differ. *)
Theorem C68_regroup_refuted : let E := small_env 251 in exists s a b s' rho,
  run false (let! a := alloc_from_limbs (Ok []) (Some 4) 1 10 in let! b := alloc_from_limbs (Ok []) (Some 4) 1 10 in Ret (a, b)) st_init = (Ok (a, b), s) /\
  run false (equal_when_carried_regroup a b) s = (Ok tt, s') /\ sat rho s' /\
  bounded rho a /\ bounded rho b /\ int_of rho a = 0 /\ int_of rho b = 251.
Proof. exact @top_regroup_wraps. Qed.
Print Assumptions C68_regroup_refuted.
