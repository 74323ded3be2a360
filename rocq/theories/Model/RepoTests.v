(** The circuits of the project's own unit tests, and the function that runs one and asks whether it is satisfied. *)
From Coq Require Import ZArith Bool String List.
From Verif.Model Require Import Base CS TestCS Bellpepper Util Poly Bignat.
Import ListNotations.
Local Open Scope string_scope.
Local Open Scope Z_scope.
Local Open Scope list_scope.

Section Circuits.
Context {E : Env}.

(** util/test_helpers.rs:5-23 [circuit_tests!]: the circuit is synthesized in a [TestConstraintSystem] over the field
    and [is_satisfied] is the verdict; [expect] makes an error a failing test, kept apart here as [Err]. *)
Definition verdict {A} (m : prog A) : res bool :=
  match run_test true m st_init with
  | (Ok _, s) => Ok (satb (asg s) s)
  | (Err e, _) => Err e
  | (Panic, _) => Panic
  end.

(** mp/bignat.rs:1457-1517 [Carrier::synthesize] with inputs given most significant digit first; digits are [usize]. *)
Definition carrier (a b : list Z) (mw : Z) (w n : nat) : prog unit :=
  if negb (Nat.eqb (List.length a) n) then Fail Unsatisfiable else
  if negb (Nat.eqb (List.length b) n) then Fail Unsatisfiable else
  let! a := ns (Nm "a") (alloc_from_limbs (Ok (map usize_to_f (rev a))) (Some mw) w n) in
  let! b := ns (Nm "b") (alloc_from_limbs (Ok (map usize_to_f (rev b))) (Some mw) w n) in
  let! _ := ns (Nm "carrier") (equal_when_carried a b) in
  ns (Nm "carrier_regroup") (equal_when_carried_regroup a b).

(** mp/bignat.rs:1539-1585 [MultMod::synthesize]. *)
Definition mult_mod_circuit (w na nb nm : nat) (full : bool) (a b m q r : Z) : prog unit :=
  let! a := ns (Nm "a") (alloc_from_nat (Ok a) w na) in
  let! b := ns (Nm "b") (alloc_from_nat (Ok b) w nb) in
  let! m := ns (Nm "m") (alloc_from_nat (Ok m) w nm) in
  let! m := (if full then ns (Nm "m is full") (enforce_full_bits m) else Ret m) in
  let! nq := lift (usub (na + nb) nm) in
  let! q := ns (Nm "q") (alloc_from_nat (Ok q) w nq) in
  let! r := ns (Nm "r") (alloc_from_nat (Ok r) w nm) in
  let! (qa, ra) := ns (Nm "prod") (mult_mod a b m) in
  let! _ := ns (Nm "qcheck") (equal qa q) in
  ns (Nm "rcheck") (equal ra r).

(** mp/bignat.rs:1777-1791 [NumberBitDecomp::synthesize]. *)
Definition number_bit_decomp (n : Z) (k : nat) : prog unit :=
  let! x := ns (Nm "n") (num_alloc (unwrap (nat_to_f n))) in
  let! _ := ns (Nm "fits") (fits_in_bits x k) in
  let! _ := ns (Nm "explicit decomp") (num_decompose x k) in
  Ret tt.

(** mp/bignat.rs:1853-1867 [BigNatBitDecomp::synthesize]. *)
Definition bignat_bit_decomp (n : Z) (w k : nat) : prog unit :=
  let! x := ns (Nm "n") (alloc_from_nat (Ok n) w k) in
  let! _ := ns (Nm "decomp") (bn_decompose x) in
  Ret tt.

(** mp/bignat.rs:1869-1891 [big_nat_can_decompose]: the number of limbs it asks for, and the property checked;
    [None] is a discarded case. *)
Definition quickcheck_limbs (n : Z) (w : nat) : nat :=
  if n =? 0 then 1%nat else Z.to_nat ((n - 1) / Z.of_nat w + 1).
(** mp/bignat.rs:1869-1891 [big_nat_can_decompose]: the property. *)
Definition big_nat_can_decompose (n : Z) (w : nat) : option (res bool) :=
  if (Nat.ltb w 4 || Nat.ltb 200 w)%bool then None
  else Some (verdict (bignat_bit_decomp n w (quickcheck_limbs n w))).

(** mp/poly.rs:152-185 [PolynomialMultiplier::synthesize]. *)
Definition alloc_coeffs (pre : string) (xs : list Z) : prog (list LC) :=
  mapM (fun p => let! (x, _) := alloc (Nmi pre (fst p) "") (Ok (snd p)) in Ret (lc_var x)) (combine (seq 0 (List.length xs)) xs).
(** mp/poly.rs:152-185 [PolynomialMultiplier::synthesize]. *)
Definition polynomial_multiplier (a b : list Z) : prog unit :=
  let! ca := alloc_coeffs "coeff_a " a in
  let! cb := alloc_coeffs "coeff_b " b in
  let! _ := ns (Nm "product") (alloc_product (mkPoly ca (Some a)) (mkPoly cb (Some b))) in
  Ret tt.

End Circuits.
