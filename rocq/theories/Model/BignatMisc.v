(** The remaining trait implementations of mp/bignat.rs and util/bit.rs: comparison, allocation
    through the [Gadget] trait, display. *)
From Coq Require Import ZArith Bool String List.
From Verif.Model Require Import Base CS Bellpepper Util Poly Bignat.
Import ListNotations.
Local Open Scope Z_scope.

Section BignatMisc.
Context {E : Env}.

(** bignat.rs:71-77: derived [PartialEq] of [BigNatParams], field by field. *)
Definition params_eqb (p q : params) : bool :=
  (min_bits p =? min_bits q)%nat && (max_word p =? max_word q) &&
  (limb_width p =? limb_width q)%nat && (n_limbs p =? n_limbs q)%nat.

(** [PartialEq] of [Option<BigInt>]. *)
Definition value_eqb (a b : option Z) : bool :=
  match a, b with
  | Some x, Some y => x =? y
  | None, None => true
  | _, _ => false
  end.

(** bignat.rs:105-109 [PartialEq for BigNat]. *)
Definition bn_eqb (a b : bignat) : bool := value_eqb (value a) (value b) && params_eqb (bparams a) (bparams b).

(** bignat.rs:1288-1300 [Gadget::alloc]: only the width and the number of limbs of the parameters are used. *)
Definition gadget_alloc (v : option Z) (p : params) : prog bignat := alloc_from_nat (grab v) (limb_width p) (n_limbs p).

(** bignat.rs:1894-1901 [Display]. *)
Definition bn_display (b : bignat) : string :=
  match value b with
  | Some n => String.append "BigNat(" (String.append (bigint_display n) ")")
  | None => "BigNat(empty)"
  end.

(** bit.rs:221-226: the bits in the order of the vector, one digit each. *)
Fixpoint bits_display (vs : list bool) : string :=
  match vs with
  | [] => ""
  | v :: vs => String.append (if v then "1" else "0") (bits_display vs)
  end.

(** bit.rs:217-231 [Display for Bitvector]. *)
Definition bv_display (b : bitvector) : string :=
  match bv_vals b with
  | Some vs => String.append "Bitvector(" (String.append (bits_display vs) ")")
  | None => String.append "Bitvector(len " (String.append (bigint_display (Z.of_nat (List.length (bv_bits b)))) ")")
  end.

End BignatMisc.
