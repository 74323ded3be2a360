(** Vocabulary in which the properties are stated: positional values of digit lists, states and
    assignments of a constraint system, and what it means for a gadget object to carry a value.
    Nothing here refers to how the gadgets compute. *)
From Coq Require Import ZArith Znumtheory Bool List.
From Verif.Model Require Import Base CS Bellpepper Util Poly Bignat.
Import ListNotations.
Local Open Scope Z_scope.

(** What is assumed of the parameters: a prime modulus above 2, a representation that is long
    enough, and a bit length that fits the u32 constant [PrimeField::NUM_BITS]. *)
Class Wf (E : Env) : Prop := {
  wf_prime : prime modulus;
  wf_two : 2 < modulus;
  wf_repr : modulus <= 256 ^ Z.of_nat repr_len;
  wf_bits : Z.of_nat NUM_BITS < 2 ^ 32
}.

(** The integer with little-endian digits [l] in base [B] (digits may exceed the base). *)
Fixpoint value_of (B : Z) (l : list Z) : Z :=
  match l with [] => 0 | d :: l => d + B * value_of B l end.

(** The integer with little-endian bits [l]. *)
Definition bits_value (l : list bool) : Z := value_of 2 (map Z.b2z l).

(** The sum of the first [n] values of [f]. *)
Fixpoint sum_n (n : nat) (f : nat -> Z) : Z :=
  match n with O => 0 | S n => sum_n n f + f n end.

(** Coefficient [k] of the product of the polynomials with coefficients [a] and [b]. *)
Definition conv (a b : list Z) (k : nat) : Z :=
  sum_n (S k) (fun i => nth i a 0 * nth (k - i) b 0).

(** The digit list extended with zeros to [n] digits. *)
Definition padded (n : nat) (l : list Z) : list Z := l ++ repeat 0 (n - length l).

(** Digit [j] of the number with base-[B] digits [l] when [g] digits at a time are merged. *)
Definition group_digit (B : Z) (g : nat) (l : list Z) (j : nat) : Z :=
  sum_n g (fun t => nth (j * g + t) l 0 * B ^ Z.of_nat t).
Definition group_digits (B : Z) (g n : nat) (l : list Z) : list Z :=
  map (group_digit B g l) (seq 0 n).

(** The assignment [rho] agrees with the values stored in [s]. *)
Definition agree (s : st) (rho : assignment) : Prop :=
  (forall n, (n < length (st_in s))%nat -> rho (VIn n) = nth n (st_in s) 0) /\
  (forall n, (n < length (st_aux s))%nat -> rho (VAux n) = nth n (st_aux s) 0).

(** Two assignments give the same values to the variables allocated in [s]. *)
Definition same_on (s : st) (r1 r2 : assignment) : Prop :=
  (forall n, (n < length (st_in s))%nat -> r1 (VIn n) = r2 (VIn n)) /\
  (forall n, (n < length (st_aux s))%nat -> r1 (VAux n) = r2 (VAux n)).

Section Spec.
Context {E : Env}.

(** The stored values satisfy the constraints, whatever variables are allocated later. *)
Definition good (s : st) : Prop := forall rho, agree s rho -> sat rho s.

(** [rho] satisfies the constraints of [s], whatever variables are allocated later. *)
Definition good_for (rho : assignment) (s : st) : Prop :=
  forall r, same_on s r rho -> sat r s.

(** The linear combination is built from variables of [s] and evaluates to [v] there. *)
Definition carries (s : st) (l : LC) (v : Z) : Prop :=
  forall rho, agree s rho -> rho ONE = 1 -> feval rho l = v.

(** The linear combination evaluates to [v] for [rho0], whatever variables are allocated later. *)
Definition carries_for (rho0 : assignment) (s : st) (l : LC) (v : Z) : Prop :=
  forall rho, same_on s rho rho0 -> rho ONE = 1 -> feval rho l = v.

(** Objects whose wires carry, in the values stored in [s], the values they record. *)
Definition num_at (s : st) (n : num) (v : Z) : Prop :=
  n_val n = Some v /\ canon v /\ carries s (n_lc n) v.
Definition an_at (s : st) (n : allocated_num) (v : Z) : Prop :=
  an_val n = Some v /\ canon v /\ carries s (lc_var (an_var n)) v.
Definition bit_at (s : st) (b : bit) (v : bool) : Prop :=
  b_val b = Some v /\ carries s (b_lc b) (Z.b2z v).
Definition boolean_at (s : st) (b : Boolean) (v : bool) : Prop :=
  bool_val b = Some v /\ carries s (bool_lc b 1) (Z.b2z v).

(** The values of a list of wires for an assignment. *)
Definition wires (rho : assignment) (ls : list LC) : list Z := map (feval rho) ls.

(** A polynomial whose coefficient wires carry the recorded values. *)
Definition poly_at (s : st) (p : polynomial) (vs : list Z) : Prop :=
  p_vals p = Some vs /\ Forall canon vs /\ Forall2 (carries s) (p_coeffs p) vs.

(** A big natural with recorded limb values [vs]: the wires carry them, the recorded integer is
    their positional value, the recorded bound bounds them. *)
Definition bignat_at (s : st) (b : bignat) (vs : list Z) : Prop :=
  limb_values b = Some vs /\
  Forall2 (carries s) (limbs b) vs /\
  value b = Some (value_of (2 ^ Z.of_nat (limb_width (bparams b))) vs) /\
  n_limbs (bparams b) = length vs /\
  Forall (fun v => 0 <= v <= max_word (bparams b) /\ canon v) vs.

(** The recorded limb count and the recorded limb values, if any, match the limb wires. *)
Definition well_shaped (b : bignat) : Prop :=
  n_limbs (bparams b) = length (limbs b) /\
  match limb_values b with
  | Some vs => length vs = length (limbs b) /\ Forall canon vs
  | None => True
  end.

(** The limb wires of [b] have the values [vs] for [rho0], within the recorded bound. *)
Definition bignat_for (rho0 : assignment) (s : st) (b : bignat) (vs : list Z) : Prop :=
  well_shaped b /\ Forall2 (carries_for rho0 s) (limbs b) vs /\
  Forall (fun v => v <= max_word (bparams b)) vs.

(** The integer represented by the limbs of [b] for an assignment. *)
Definition int_of (rho : assignment) (b : bignat) : Z :=
  value_of (2 ^ Z.of_nat (limb_width (bparams b))) (wires rho (limbs b)).

(** The carried comparison of limbs up to [M] in base 2^[w]: the width allotted to the carries, and
    the condition that neither side of the carry equation can reach the modulus. *)
Definition carry_width (M : Z) (w : nat) : nat := Nat.max 1 (carry_bits_f64 M w).
Definition no_wrap (M : Z) (w : nat) : Prop :=
  2 ^ Z.of_nat (carry_width M w) + 2 * M <= modulus /\
  2 ^ Z.of_nat w * 2 ^ Z.of_nat (carry_width M w) <= modulus.

(** The carry into position [i] when the digits [ys] are subtracted from [xs] in base [B], with the
    running offset that keeps it nonnegative when [M] is added at every position. *)
Fixpoint carry_offset (M B : Z) (i : nat) : Z :=
  match i with O => 0 | S i => (carry_offset M B i + M) / B end.
Definition running_carry (M B : Z) (xs ys : list Z) (i : nat) : Z :=
  carry_offset M B i + sum_n i (fun j => (nth j xs 0 - nth j ys 0) * B ^ Z.of_nat j) / B ^ Z.of_nat i.

(** Limbs merged together before the comparison, and the bound on a merged limb. *)
Definition group_size (M : Z) (w : nat) : nat := (CAPACITY - carry_bits_f64 M w) / w.
Definition group_word (M : Z) (w : nat) : Z :=
  M * sum_n (group_size M w) (fun t => 2 ^ Z.of_nat (w * t)).
Definition group_no_wrap (M : Z) (w : nat) : Prop :=
  no_wrap (group_word M w) (w * group_size M w).

(** The honest carries fit the width allotted to them. *)
Definition carry_room (M : Z) (w : nat) : Prop :=
  2 * M <= (2 ^ Z.of_nat w - 1) * 2 ^ Z.of_nat (carry_width M w) /\
  (carry_width M w <= CAPACITY)%nat.
Definition group_room (M : Z) (w : nat) : Prop :=
  (carry_bits_f64 M w <= CAPACITY)%nat /\ (1 <= group_size M w)%nat /\
  carry_room (group_word M w) (w * group_size M w) /\ group_word M w < modulus.

(** The floating point computation of the carry width is exact at the points where it is used. *)
Definition exact_carries (M : Z) (w : nat) : Prop :=
  carry_bits_f64 M w = carry_bits_exact M w /\
  carry_bits_f64 (group_word M w) (w * group_size M w) = carry_bits_exact (group_word M w) (w * group_size M w).

(** Bound on the coefficients of the product of two limb lists: [n] limbs up to [x] times [m] limbs
    up to [y]. *)
Definition product_word (n : nat) (x : Z) (m : nat) (y : Z) : Z := Z.of_nat (Nat.min n m) * x * y.

(** Number of groups when [n] limbs are merged [g] at a time. *)
Definition n_groups (n g : nat) : nat := match n with O => O | S k => (k / g + 1)%nat end.

(** No limb of the two sides of a grouped comparison falls beyond the groups of the other side:
    [nl] and [nr] limbs make equally many groups, or the common value [P] fits the fewer groups. *)
Definition fits_groups (w g nl nr : nat) (P : Z) : Prop :=
  n_groups nl g = n_groups nr g \/
  P < 2 ^ Z.of_nat (w * (Nat.min (n_groups nl g) (n_groups nr g) * g)).

(** The bit count computed for a number, and the limbs given to a quotient of a number of [bits]
    bits by a number of at least [mb] bits. *)
Definition n_bits_of (b : bignat) : nat :=
  (limb_width (bparams b) * (n_limbs (bparams b) - 1) + bigint_bits (max_word (bparams b)))%nat.
Definition q_limbs (bits mb w : nat) : nat := ((bits - mb - 1) / w + 1)%nat.

(** The limbs respect the recorded word bound. *)
Definition bounded (rho : assignment) (b : bignat) : Prop :=
  Forall (fun v => v <= max_word (bparams b)) (wires rho (limbs b)).

(** The recorded minimum bit length is right: the number has at least that many bits. *)
Definition min_bits_ok (b : bignat) (v : Z) : Prop :=
  min_bits (bparams b) = 0%nat \/ 2 ^ Z.of_nat (min_bits (bparams b) - 1) <= v.

End Spec.
