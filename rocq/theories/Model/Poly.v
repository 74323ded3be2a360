(** Model of src/mp/poly.rs. *)
From Coq Require Import ZArith Bool String List.
From Verif.Model Require Import Base CS Bellpepper Util.
Import ListNotations.
Local Open Scope string_scope.
Local Open Scope Z_scope.
Local Open Scope list_scope.

Section Poly.
Context {E : Env}.

(** poly.rs:9-12 [Polynomial]. *)
Record polynomial := mkPoly { p_coeffs : list LC; p_vals : option (list Z) }.

(** poly.rs:23-35: running power of [x]. *)
Fixpoint eval_from (v x : Z) (cs : list Z) (acc : Z) : Z :=
  match cs with
  | [] => acc
  | c :: cs => eval_from (fmul v x) x cs (fadd acc (fmul c v))
  end.
(** poly.rs:23-35 [evaluate_at]. *)
Definition evaluate_at (p : polynomial) (x : Z) : option Z :=
  option_map (fun vs => eval_from fone x vs fzero) (p_vals p).

(** [values[k].add_assign(v)]: panics when out of range. *)
Fixpoint add_at (k : nat) (v : Z) (l : list Z) : res (list Z) :=
  match l, k with
  | [], _ => Panic
  | a :: l, O => Ok (fadd a v :: l)
  | a :: l, S k => let? l' := add_at k v l in Ok (a :: l')
  end.

(** poly.rs:47-53: the double loop over the factor values. *)
Fixpoint conv_inner (k : nat) (a : Z) (bs : list Z) (acc : list Z) : res (list Z) :=
  match bs with
  | [] => Ok acc
  | b :: bs => let? acc := add_at k (fmul a b) acc in conv_inner (S k) a bs acc
  end.
(** poly.rs:47-53: the outer loop. *)
Fixpoint conv_outer (k : nat) (xs bs : list Z) (acc : list Z) : res (list Z) :=
  match xs with
  | [] => Ok acc
  | a :: xs => let? acc := conv_inner k a bs acc in conv_outer (S k) xs bs acc
  end.
(** poly.rs:44-54: from a vector of zeros. *)
Definition conv_values (n : nat) (xs bs : list Z) : res (list Z) :=
  conv_outer 0 xs bs (repeat fzero n).

(** poly.rs:74-80: sum of x^i * coefficient_i, the power kept in the field. *)
Fixpoint lc_at (i x : Z) (cs : list LC) : LC :=
  match cs with
  | [] => lc_zero
  | c :: cs => lc_add (lc_scale i c) (lc_at (fmul i x) x cs)
  end.

(** poly.rs:36-100 [alloc_product]. *)
Definition alloc_product (a b : polynomial) : prog polynomial :=
  let! n := lift (usub (List.length (p_coeffs a) + List.length (p_coeffs b)) 1) in
  let! values := lift (match p_vals a, p_vals b with
     | Some xs, Some ys => let? vs := conv_values n xs ys in Ok (Some vs)
     | _, _ => Ok None
     end) in
  let! coeffs := mapM (fun i =>
     let! (x, _) := alloc (Nmi "prod " i "") (let? vs := grab values in idx vs i) in
     Ret (lc_var x)) (seq 0 n) in
  let product := mkPoly coeffs values in
  let! _ := iterM (fun k =>
     let x := fmk (Z.of_nat k) in
     enforce (Nmi "pointwise product @ " k "")
       (lc_at fone x (p_coeffs a)) (lc_at fone x (p_coeffs b)) (lc_at fone x coeffs))
     (seq 1 n) in
  Ret product.

(** poly.rs:102-136 [sum]. *)
Definition poly_sum (a b : polynomial) : polynomial :=
  let n := Nat.max (List.length (p_coeffs a)) (List.length (p_coeffs b)) in
  let values := match p_vals a, p_vals b with
     | Some xs, Some ys => Some (map (fun i => fadd (fadd fzero (nth i xs 0)) (nth i ys 0)) (seq 0 n))
     | _, _ => None
     end in
  mkPoly (map (fun i => lc_add (nth i (p_coeffs a) lc_zero) (nth i (p_coeffs b) lc_zero)) (seq 0 n))
         values.

End Poly.
