(** C81: how large the circuits are. *)
From Coq Require Import ZArith Bool List.
From Verif.Model Require Import Base CS Bellpepper Util Poly Bignat Gadget Median Difficulty Fields F64.
From Verif.Spec Require Import Spec SpecF64 SpecSize.
From Verif.Proofs Require Import PrimeFields PrimeMid F64P TopF64 SizeP SizeF64.
Import ListNotations.
Local Open Scope nat_scope.

(** A range check of a number to [k] bits. *)
Theorem C81_fits : forall (E : Env) n k, has_size (fits_in_bits n k) 0 (k - 1) (S (k - 1)).
Proof. exact (fun E n k => sz_has _ _ _ _ _ (z_fits n k)). Qed.
Print Assumptions C81_fits.

(** Decomposition of a number into [k] bits. *)
Theorem C81_num_decompose : forall (E : Env) n k, has_size (num_decompose n k) 0 k (S k).
Proof. exact (fun E n k => sz_has _ _ _ _ _ (z_decompose_num n k)). Qed.
Print Assumptions C81_num_decompose.

(** Equality of two allocated numbers, as a bit. *)
Theorem C81_equals : forall (E : Env) a b, has_size (equals a b) 0 4 6.
Proof. exact (fun E a b => sz_has _ _ _ _ _ (z_equals a b)). Qed.
Print Assumptions C81_equals.

(** Both comparisons, whatever the number of bits: nothing is decomposed. *)
Theorem C81_compare : forall (E : Env) a b n, has_size (less_than a b n) 0 6 6 /\ has_size (leq a b n) 0 6 6.
Proof. exact (fun E a b n => conj (sz_has _ _ _ _ _ (z_less_than a b n)) (sz_has _ _ _ _ _ (z_leq a b n))). Qed.
Print Assumptions C81_compare.

(** Allocation adds a variable per limb and constrains nothing. *)
Theorem C81_alloc : forall (E : Env) f g mw w n,
  has_size (alloc_from_nat f w n) 0 n 0 /\ has_size (alloc_from_limbs g mw w n) 0 n 0.
Proof. exact (fun E f g mw w n => conj (sz_has _ _ _ _ _ (z_alloc_nat f w n)) (sz_has _ _ _ _ _ (z_alloc_limbs g mw w n))). Qed.
Print Assumptions C81_alloc.

(** Both ways of making the limbs inputs. *)
Theorem C81_inputize : forall (E : Env) b,
  let n := length (limbs b) in
  has_size (bn_inputize b) n 0 n /\ has_size (gadget_inputize b) n 0 n.
Proof. exact (fun E b => conj (sz_has _ _ _ _ _ (z_inputize b)) (sz_has _ _ _ _ _ (z_ginputize b))). Qed.
Print Assumptions C81_inputize.

(** A number per limb. *)
Theorem C81_as_nums : forall (E : Env) b, has_size (as_nums b) 0 (length (limbs b)) (length (limbs b)).
Proof. exact (fun E b => sz_has _ _ _ _ _ (z_as_nums b)). Qed.
Print Assumptions C81_as_nums.

(** Limbwise comparison, missing limbs included. *)
Theorem C81_equal : forall (E : Env) a b,
  has_size (equal a b) 0 0 (Nat.max (length (limbs a)) (length (limbs b))).
Proof. exact (fun E a b => sz_has _ _ _ _ _ (z_equal a b)). Qed.
Print Assumptions C81_equal.

(** Equality of two numbers, as a bit. *)
Theorem C81_is_equal : forall (E : Env) a b,
  has_size (is_equal a b) 0 (7 * length (limbs a) - 1) (9 * length (limbs a) - 1).
Proof. exact (fun E a b => sz_has _ _ _ _ _ (z_is_equal a b)). Qed.
Print Assumptions C81_is_equal.

(** The gadget trait's equality. *)
Theorem C81_assert_equal : forall (E : Env) a b, has_size (assert_equal a b) 0 0 (length (limbs a)).
Proof. exact (fun E a b => sz_has _ _ _ _ _ (z_assert_equal a b)). Qed.
Print Assumptions C81_assert_equal.

(** Range checks of all limbs. *)
Theorem C81_well_formed : forall (E : Env) b,
  has_size (assert_well_formed b) 0
    (range_aux (length (limbs b)) (limb_width (bparams b))) (range_cons (length (limbs b)) (limb_width (bparams b))).
Proof. exact (fun E b => sz_has _ _ _ _ _ (z_range b _ _ eq_refl eq_refl)). Qed.
Print Assumptions C81_well_formed.

(** All bits of all limbs. *)
Theorem C81_decompose : forall (E : Env) b,
  let n := length (limbs b) in let w := limb_width (bparams b) in
  has_size (bn_decompose b) 0 (n * w) (n * S w).
Proof. exact (fun E b => sz_has _ _ _ _ _ (z_bn_decompose b)). Qed.
Print Assumptions C81_decompose.

(** A field element split into [k] limbs of [w] bits. *)
Theorem C81_from_num : forall (E : Env) n w k, has_size (from_num n w k) 0 (k + k * w) (k * S w + 1).
Proof. exact (fun E n w k => sz_has _ _ _ _ _ (z_from_num n w k)). Qed.
Print Assumptions C81_from_num.

(** Only the top limb is decomposed ... *)
Theorem C81_full_bits : forall (E : Env) b,
  let w := limb_width (bparams b) in
  has_size (enforce_full_bits b) 0 w (w + 2).
Proof. exact (fun E b => sz_has _ _ _ _ _ (z_full_bits b)). Qed.
Print Assumptions C81_full_bits.

(** ... while a minimum bit length costs all bits. *)
Theorem C81_min_bits : forall (E : Env) b mb,
  let n := length (limbs b) in let w := limb_width (bparams b) in
  has_size (enforce_min_bits b mb) 0 (n * w + 1) (n * S w + 1).
Proof. exact (fun E b mb => sz_has _ _ _ _ _ (z_min_bits b mb)). Qed.
Print Assumptions C81_min_bits.

(** A product of polynomials adds its coefficients. *)
Theorem C81_product : forall (E : Env) p q,
  let n := length (p_coeffs p) + length (p_coeffs q) - 1 in
  has_size (alloc_product p q) 0 n n.
Proof. exact (fun E p q => sz_has _ _ _ _ _ (z_product p q)). Qed.
Print Assumptions C81_product.

(** Comparison after carrying. *)
Theorem C81_carried : forall (E : Env) a b,
  let M := Z.max (max_word (bparams a)) (max_word (bparams b)) in let w := limb_width (bparams a) in
  has_size (equal_when_carried a b) 0
    (carried_aux M w (length (limbs a)) (length (limbs b))) (carried_cons M w (length (limbs a)) (length (limbs b))).
Proof. exact (fun E a b => sz_has _ _ _ _ _ (z_carried a b)). Qed.
Print Assumptions C81_carried.

(** The same with limbs merged. *)
Theorem C81_regrouped : forall (E : Env) a b,
  let M := Z.max (max_word (bparams a)) (max_word (bparams b)) in let w := limb_width (bparams a) in
  has_size (equal_when_carried_regroup a b) 0
    (grouped_aux M w (length (limbs a)) (length (limbs b))) (grouped_cons M w (length (limbs a)) (length (limbs b))).
Proof. exact (fun E a b => sz_has _ _ _ _ _ (z_grouped a b)). Qed.
Print Assumptions C81_regrouped.

(** Multiplication. *)
Theorem C81_mult : forall (E : Env) a b,
  n_limbs (bparams a) = length (limbs a) -> n_limbs (bparams b) = length (limbs b) ->
  let n := length (limbs a) in let m := length (limbs b) in let w := limb_width (bparams a) in
  has_size (mult a b) 0
    (n + m + range_aux (n + m) w + check_aux n (max_word (bparams a)) m (max_word (bparams b)) (n + m) (full_word w) w)
    (range_cons (n + m) w + check_cons n (max_word (bparams a)) m (max_word (bparams b)) (n + m) (full_word w) w).
Proof. exact (fun E a b => fun Na Nb => sz_has _ _ _ _ _ (z_mult a b Na Nb)). Qed.
Print Assumptions C81_mult.

(** Divisibility. *)
Theorem C81_divides : forall (E : Env) a b,
  n_limbs (bparams a) = length (limbs a) -> n_limbs (bparams b) = length (limbs b) ->
  let n := length (limbs a) in let m := length (limbs b) in let w := limb_width (bparams a) in
  has_size (divides a b) 0
    (m + range_aux m w + check_aux n (max_word (bparams a)) m (full_word w) m (max_word (bparams b)) w)
    (range_cons m w + check_cons n (max_word (bparams a)) m (full_word w) m (max_word (bparams b)) w).
Proof. exact (fun E a b => fun Na Nb => sz_has _ _ _ _ _ (z_divides a b Na Nb)). Qed.
Print Assumptions C81_divides.

(** Subtraction: the difference is not range checked. *)
Theorem C81_sub : forall (E : Env) a b,
  n_limbs (bparams a) = length (limbs a) -> n_limbs (bparams b) = length (limbs b) ->
  let n := length (limbs a) in let m := length (limbs b) in let w := limb_width (bparams a) in
  let M := Z.max (max_word (bparams a)) (max_word (bparams b) + full_word w) in
  has_size (sub a b) 0 (n + grouped_aux M w n (Nat.max m n)) (grouped_cons M w n (Nat.max m n)).
Proof. exact (fun E a b => fun Na Nb => sz_has _ _ _ _ _ (z_sub a b Na Nb)). Qed.
Print Assumptions C81_sub.

(** Checking a product modulo [m] against a given remainder. *)
Theorem C81_assert_product_mod : forall (E : Env) a b m r,
  let na := length (limbs a) in let nb := length (limbs b) in let nm := length (limbs m) in let nr := length (limbs r) in
  let w := limb_width (bparams a) in let q := na + nb in
  let M := Z.max (product_word na (max_word (bparams a)) nb (max_word (bparams b)))
                 (right_word q nm (max_word (bparams m)) (max_word (bparams r)) w) in
  has_size (assert_product_mod a b m r) 0
    (q + range_aux q w + (na + nb - 1) + (q + nm - 1) + grouped_aux M w (na + nb - 1) (right_len q nm nr))
    (range_cons q w + (na + nb - 1) + (q + nm - 1) + grouped_cons M w (na + nb - 1) (right_len q nm nr)).
Proof. exact (fun E a b m r => sz_has _ _ _ _ _ (z_assert_mod a b m r)). Qed.
Print Assumptions C81_assert_product_mod.

(** Product and reduction. *)
Theorem C81_mult_mod : forall (E : Env) a b m,
  let na := length (limbs a) in let nb := length (limbs b) in let nm := length (limbs m) in
  let w := limb_width (bparams a) in let q := q_limbs (n_bits_of a + n_bits_of b) (min_bits (bparams m)) w in
  let M := Z.max (product_word na (max_word (bparams a)) nb (max_word (bparams b)))
                 (right_word q nm (max_word (bparams m)) (full_word w) w) in
  has_size (mult_mod a b m) 0
    (q + nm + range_aux (q + nm) w + (na + nb - 1) + (q + nm - 1) + grouped_aux M w (na + nb - 1) (q + nm - 1))
    (range_cons (q + nm) w + (na + nb - 1) + (q + nm - 1) + grouped_cons M w (na + nb - 1) (q + nm - 1)).
Proof. exact (fun E a b m => sz_has _ _ _ _ _ (z_mult_mod a b m)). Qed.
Print Assumptions C81_mult_mod.

(** Reduction. *)
Theorem C81_red_mod : forall (E : Env) a m,
  let na := length (limbs a) in let nm := length (limbs m) in
  let w := limb_width (bparams a) in let q := q_limbs (n_bits_of a) (min_bits (bparams m)) w in
  let M := Z.max (max_word (bparams a)) (right_word q nm (max_word (bparams m)) (full_word w) w) in
  has_size (red_mod a m) 0
    (q + nm + range_aux (q + nm) w + (q + nm - 1) + grouped_aux M w na (q + nm - 1))
    (range_cons (q + nm) w + (q + nm - 1) + grouped_cons M w na (q + nm - 1)).
Proof. exact (fun E a m => sz_has _ _ _ _ _ (z_red_mod a m)). Qed.
Print Assumptions C81_red_mod.

(** Selection: one variable and one constraint per limb of the longer number. *)
Theorem C81_mux : forall (E : Env) s a b,
  n_limbs (bparams a) = length (limbs a) -> n_limbs (bparams b) = length (limbs b) ->
  let n := Nat.max (length (limbs a)) (length (limbs b)) in
  has_size (mux s a b) 0 n n.
Proof. exact (fun E s a b => fun Na Nb => sz_has _ _ _ _ _ (z_mux s a b Na Nb)). Qed.
Print Assumptions C81_mux.

(** A tree over [d] bits selects 2^[d] - 1 times. *)
Theorem C81_mux_tree : forall (E : Env) n bits inputs,
  Forall (fun b => length (limbs b) = n /\ n_limbs (bparams b) = n) inputs ->
  has_size (mux_tree bits inputs) 0 (n * (2 ^ length bits - 1)) (n * (2 ^ length bits - 1)).
Proof. exact (fun E n bits inputs => fun H => sz_has _ _ _ _ _ (z_mux_tree n bits inputs H)). Qed.
Print Assumptions C81_mux_tree.

(** A switch selects twice. *)
Theorem C81_switch : forall (E : Env) s a b,
  n_limbs (bparams a) = length (limbs a) -> n_limbs (bparams b) = length (limbs b) ->
  let n := Nat.max (length (limbs a)) (length (limbs b)) in
  has_size (switch s a b) 0 (2 * n) (2 * n).
Proof. exact (fun E s a b => fun Na Nb => sz_has _ _ _ _ _ (z_switch s a b Na Nb)). Qed.
Print Assumptions C81_switch.

(** Minimum. *)
Theorem C81_min : forall (E : Env) a b,
  n_limbs (bparams a) = length (limbs a) -> n_limbs (bparams b) = length (limbs b) ->
  let n := Nat.max (length (limbs a)) (length (limbs b)) in
  let w := limb_width (bparams a) in
  let M := Z.max (full_word w) (max_word (bparams b) + full_word w) in
  has_size (bn_min a b) 0 (3 * n + 1 + grouped_aux M w n n) (2 * n + 1 + grouped_cons M w n n).
Proof. exact (fun E a b => fun Na Nb => sz_has _ _ _ _ _ (z_min a b Na Nb)). Qed.
Print Assumptions C81_min.

(** The median check, from the number of timestamps alone. *)
Theorem C81_median : forall (E : Env) ts m,
  has_size (verify_median_timestamp ts m) 0 (15 * length ts + 21) (15 * length ts + 16).
Proof. exact (fun E ts m => sz_has _ _ _ _ _ (z_median ts m)). Qed.
Print Assumptions C81_median.

(** The comparison of hash and target. *)
Theorem C81_current_hash : forall (E : Env) hu hl tu tl, has_size (verify_current_hash hu hl tu tl) 0 22 20.
Proof. exact (fun E hu hl tu tl => sz_has _ _ _ _ _ (z_hash_check hu hl tu tl)). Qed.
Print Assumptions C81_current_hash.

(** The difficulty functions over the Pallas scalar field, with the carry widths of the code. *)
Theorem C81_calculate_pallas : forall log2f ck, faithful_log2 log2f -> let E := pallas_f64 log2f ck in
  forall prev sum, has_size (calculate_difficulty_update prev sum) 0 1250 1255.
Proof. exact size_calculate. Qed.
Print Assumptions C81_calculate_pallas.

Theorem C81_update_pallas : forall log2f ck, faithful_log2 log2f -> let E := pallas_f64 log2f ck in
  forall cu cl pu pl sum, has_size (verify_difficulty_update cu cl pu pl sum) 0 1458 1465.
Proof. exact size_update. Qed.
Print Assumptions C81_update_pallas.

(** Two-limb numbers multiplied, reduced and compared in a small field, with and without witnesses;
    the counts are those of the formulas. *)
Example C81_case : let E := mid_env 65537 in
  forall wit,
    let '(r, s) := run wit (
       let! a := alloc_from_nat (Ok 11%Z) 2 2 in let! b := alloc_from_nat (Ok 13%Z) 2 2 in Ret (a, b)) st_init in
    match r with
    | Ok (a, b) =>
        n_limbs (bparams a) = 2 /\ n_limbs (bparams b) = 2 /\
        let '(r, t) := run wit (mult a b) s in
        match r with
        | Ok p => length (limbs p) = 4 /\ (length (st_aux t), length (st_cons t)) = (16, 13) /\
            4 + (4 + range_aux 4 2 + check_aux 2 3 2 3 4 3 2) = 16 /\ range_cons 4 2 + check_cons 2 3 2 3 4 3 2 = 13
        | _ => False
        end
    | _ => False
    end.
Proof. intros E [|]; vm_compute; auto 10. Qed.
