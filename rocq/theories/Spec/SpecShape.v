(** Vocabulary for "the same circuit": when two states have the same layout, when two gadget objects
    are made of the same wires, and when two gadget calls build the same circuit. *)
From Coq Require Import ZArith Bool List.
From Verif.Model Require Import Base CS Bellpepper Util Poly Bignat.
Import ListNotations.

(** Same numbers of variables, same constraints in the same order, same names; the values of the
    variables are left open. *)
Definition same_layout (s1 s2 : st) : Prop :=
  length (st_in s1) = length (st_in s2) /\ length (st_aux s1) = length (st_aux s2) /\
  st_cons s1 = st_cons s2 /\ st_path s1 = st_path s2 /\ st_names s1 = st_names s2.

(** Objects made of the same wires; the captured values are left open. *)
Definition same_an (a b : allocated_num) : Prop := an_var a = an_var b.
Definition same_bool (a b : Boolean) : Prop :=
  match a, b with
  | BIs x, BIs y => ab_var x = ab_var y
  | BNot x, BNot y => ab_var x = ab_var y
  | BConst x, BConst y => x = y
  | _, _ => False
  end.
Definition same_bit (a b : bit) : Prop := b_lc a = b_lc b.
Definition same_num (a b : num) : Prop := n_lc a = n_lc b.
Definition same_bv (a b : bitvector) : Prop :=
  bv_bits a = bv_bits b /\ Forall2 same_bit (bv_allocs a) (bv_allocs b).
Definition same_poly (a b : polynomial) : Prop := p_coeffs a = p_coeffs b.
Definition same_bignat (a b : bignat) : Prop := limbs a = limbs b /\ bparams a = bparams b.

(** Started in states of the same layout, and whether or not witnesses are generated, the two calls
    leave states of the same layout and return related results, whenever both succeed. *)
Definition same_circuit {A B} (R : A -> B -> Prop) (m1 : prog A) (m2 : prog B) : Prop :=
  forall w1 w2 s1 s2 a b s1' s2',
    same_layout s1 s2 -> run w1 m1 s1 = (Ok a, s1') -> run w2 m2 s2 = (Ok b, s2') ->
    same_layout s1' s2' /\ R a b.

(** The same for operations that do not touch the constraint system. *)
Definition same_outcome {A B} (R : A -> B -> Prop) (r1 : res A) (r2 : res B) : Prop :=
  forall a b, r1 = Ok a -> r2 = Ok b -> R a b.
