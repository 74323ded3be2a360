(** C12-C13: polynomials. *)
From Coq Require Import ZArith Bool List.
From Verif.Model Require Import Base CS Bellpepper Util Poly Bignat Fields.
From Verif.Spec Require Import Spec.
From Verif.Proofs Require Import Prime TopPoly ProductAll.
Import ListNotations.
Local Open Scope Z_scope.

(** In every satisfying assignment the product wires are the convolution of the factor wires. *)
Theorem C12_product_sound : forall (E : Env) (W : Wf E) wit a b s p s' rho,
  run wit (alloc_product a b) s = (Ok p, s') -> sat rho s' ->
  Z.of_nat (length (p_coeffs a) + length (p_coeffs b) - 1) < modulus ->
  wires rho (p_coeffs p) =
  map (fun k => conv (wires rho (p_coeffs a)) (wires rho (p_coeffs b)) k mod modulus)
      (seq 0 (length (p_coeffs a) + length (p_coeffs b) - 1)).
Proof. exact @top_product_sound. Qed.
Print Assumptions C12_product_sound.

(** The honest run satisfies its constraints and records the convolution; one of the factors may be empty. *)
Theorem C12_product_complete : forall (E : Env) (W : Wf E) a b A B s,
  good s -> poly_at s a A -> poly_at s b B -> A <> [] \/ B <> [] ->
  exists p s', run true (alloc_product a b) s = (Ok p, s') /\ good s' /\
    poly_at s' p (map (fun k => conv A B k mod modulus) (seq 0 (length A + length B - 1))).
Proof. exact @top_product_all. Qed.
Print Assumptions C12_product_complete.

(** Two empty factors make the length computation underflow. *)
Theorem C12_product_empty : forall (E : Env) wit a b s, p_coeffs a = [] -> p_coeffs b = [] ->
  run wit (alloc_product a b) s = (Panic, s).
Proof. exact @top_product_empty. Qed.
Print Assumptions C12_product_empty.

Example C12_case : let E := small_env 251 in
  let '(r, s) := run true (
     let! a := num_alloc (Ok 7) in let! b := num_alloc (Ok 200) in let! c := num_alloc (Ok 3) in
     alloc_product (mkPoly [n_lc a; n_lc b] (Some [7; 200])) (mkPoly [n_lc c; n_lc a] (Some [3; 7])))
     st_init in
  match r with
  | Ok p => wires (asg s) (p_coeffs p) = [21; 147; 145] /\ p_vals p = Some [21; 147; 145] /\
            satb (asg s) s = true
  | _ => False
  end.
Proof. vm_compute. auto. Qed.

(** With one empty factor all the coefficients of the product are zero. *)
Example C12_one_empty_case : let E := small_env 251 in
  let '(r, s) := run true (
     let! a := num_alloc (Ok 7) in let! b := num_alloc (Ok 200) in
     alloc_product (mkPoly [] (Some [])) (mkPoly [n_lc a; n_lc b] (Some [7; 200])))
     st_init in
  match r with
  | Ok p => wires (asg s) (p_coeffs p) = [0] /\ p_vals p = Some [0] /\ satb (asg s) s = true
  | _ => False
  end.
Proof. vm_compute. auto. Qed.

(** Evaluation. *)
Theorem C13_evaluate : forall (E : Env) (W : Wf E) p vs x, p_vals p = Some vs ->
  evaluate_at p x = Some (value_of x vs mod modulus).
Proof. exact @top_evaluate. Qed.
Print Assumptions C13_evaluate.

(** The sum evaluates to the sum, both in its values and in its wires. *)
Theorem C13_sum : forall (E : Env) (W : Wf E) p q A B x, p_vals p = Some A -> p_vals q = Some B ->
  length A = length (p_coeffs p) -> length B = length (p_coeffs q) ->
  evaluate_at (poly_sum p q) x = Some ((value_of x A + value_of x B) mod modulus) /\
  (forall rho, value_of x (wires rho (p_coeffs (poly_sum p q))) mod modulus =
     (value_of x (wires rho (p_coeffs p)) + value_of x (wires rho (p_coeffs q))) mod modulus).
Proof. exact @top_sum_evaluate. Qed.
Print Assumptions C13_sum.

(** The allocated product evaluates to the product. *)
Theorem C13_product : forall (E : Env) (W : Wf E) a b A B s p s' x,
  good s -> poly_at s a A -> poly_at s b B -> A <> [] \/ B <> [] ->
  run true (alloc_product a b) s = (Ok p, s') ->
  evaluate_at p x = Some ((value_of x A * value_of x B) mod modulus).
Proof. exact @top_product_evaluate_all. Qed.
Print Assumptions C13_product.

Example C13_case : let E := small_env 251 in
  let p := mkPoly [lc_var ONE; lc_const 5] (Some [1; 5]) in
  let q := mkPoly [lc_const 2; lc_const 3; lc_const 4] (Some [2; 3; 4]) in
  evaluate_at p 10 = Some 51 /\ evaluate_at q 10 = Some 181 /\
  evaluate_at (poly_sum p q) 10 = Some 232.
Proof. vm_compute. auto. Qed.
