(** Arithmetic expressions over big naturals: the circuit a caller writes by calling one operation per node, the integer
    the expression denotes, and the size conditions, read off the expression, under which the two are to agree. *)
From Coq Require Import String ZArith Bool List.
From Verif.Model Require Import Base CS Bellpepper Util Poly Bignat Gadget.
From Verif.Spec Require Import Spec.
Import ListNotations.
Local Open Scope Z_scope.

Inductive expr :=
  | EIn (i : nat)                     (** input number [i] *)
  | EAdd (a b : expr)
  | EMul (a b : expr)
  | ESub (a b : expr)
  | EShift (a : expr) (k : Z)         (** add a constant *)
  | EScale (a : expr) (k : Z)         (** multiply by a constant *)
  | EConcat (hi lo : expr)            (** [hi] placed above the limbs of [lo] *)
  | ECase (i : nat) (a b : expr).     (** [b] if condition [i] holds, [a] otherwise *)

(** Number of limbs and bound on a limb of the result, from those of the inputs. *)
Fixpoint size (ins : list (nat * Z)) (e : expr) : nat :=
  match e with
  | EIn i => fst (nth i ins (0%nat, 0))
  | EAdd a b | ECase _ a b => Nat.max (size ins a) (size ins b)
  | EMul a b | EConcat a b => (size ins a + size ins b)%nat
  | ESub a _ | EShift a _ | EScale a _ => size ins a
  end.
Fixpoint word (w : nat) (ins : list (nat * Z)) (e : expr) : Z :=
  match e with
  | EIn i => snd (nth i ins (0%nat, 0))
  | EAdd a b => word w ins a + word w ins b
  | EShift a k => word w ins a + k
  | EScale a k => word w ins a * k
  | EConcat a b => Z.max (word w ins a) (word w ins b)
  | EMul _ _ | ESub _ _ | ECase _ _ _ => 2 ^ Z.of_nat w - 1
  end.

(** The integer denoted, for inputs [vs] and conditions [cs]. *)
Fixpoint denote (w : nat) (ins : list (nat * Z)) (vs : list Z) (cs : list bool) (e : expr) : Z :=
  match e with
  | EIn i => nth i vs 0
  | EAdd a b => denote w ins vs cs a + denote w ins vs cs b
  | EMul a b => denote w ins vs cs a * denote w ins vs cs b
  | ESub a b => denote w ins vs cs a - denote w ins vs cs b
  | EShift a k => denote w ins vs cs a + k
  | EScale a k => denote w ins vs cs a * k
  | EConcat a b => denote w ins vs cs a * 2 ^ Z.of_nat (w * size ins b) + denote w ins vs cs b
  | ECase i a b => if nth i cs false then denote w ins vs cs b else denote w ins vs cs a
  end.

(** Without [concat]: its result has recorded limb values of the wrong length when only the lower operand has values. *)
Fixpoint no_concat (e : expr) : Prop :=
  match e with
  | EIn _ => True
  | EAdd a b | EMul a b | ESub a b | ECase _ a b => no_concat a /\ no_concat b
  | EShift a _ | EScale a _ => no_concat a
  | EConcat _ _ => False
  end.

Section Expr.
Context {E : Env}.

(** One call per node. A difference is range-checked, as every caller of the subtraction has to do. *)
Fixpoint circuit (xs : list bignat) (bs : list bit) (e : expr) : prog bignat :=
  match e with
  | EIn i => match nth_error xs i with Some b => Ret b | None => Crash end
  | EAdd a b =>
      let! x := ns (Nm "left") (circuit xs bs a) in
      let! y := ns (Nm "right") (circuit xs bs b) in
      lift (add x y)
  | EMul a b =>
      let! x := ns (Nm "left") (circuit xs bs a) in
      let! y := ns (Nm "right") (circuit xs bs b) in
      ns (Nm "mult") (mult x y)
  | ESub a b =>
      let! x := ns (Nm "left") (circuit xs bs a) in
      let! y := ns (Nm "right") (circuit xs bs b) in
      let! d := ns (Nm "sub") (sub x y) in
      let! _ := ns (Nm "range") (assert_well_formed d) in
      Ret d
  | EShift a k =>
      let! x := ns (Nm "left") (circuit xs bs a) in
      lift (shift x k)
  | EScale a k =>
      let! x := ns (Nm "left") (circuit xs bs a) in
      lift (scale x k)
  | EConcat a b =>
      let! x := ns (Nm "left") (circuit xs bs a) in
      let! y := ns (Nm "right") (circuit xs bs b) in
      lift (concat x y)
  | ECase i a b =>
      let! x := ns (Nm "left") (circuit xs bs a) in
      let! y := ns (Nm "right") (circuit xs bs b) in
      match nth_error bs i with Some c => ns (Nm "mux") (mux c x y) | None => Crash end
  end.

(** The bound on the words compared by a product and by a difference. *)
Definition mul_word (w : nat) (ins : list (nat * Z)) (a b : expr) : Z :=
  Z.max (product_word (size ins a) (word w ins a) (size ins b) (word w ins b)) (2 ^ Z.of_nat w - 1).
Definition dif_word (w : nat) (ins : list (nat * Z)) (a b : expr) : Z :=
  Z.max (word w ins a) (word w ins b + (2 ^ Z.of_nat w - 1)).

(** The words stay within the field at every node. Nothing here depends on the values. *)
Fixpoint in_room (w : nat) (ins : list (nat * Z)) (nc : nat) (e : expr) : Prop :=
  match e with
  | EIn i => (i < length ins)%nat
  | EAdd a b => in_room w ins nc a /\ in_room w ins nc b /\ word w ins a + word w ins b < modulus
  | EMul a b => in_room w ins nc a /\ in_room w ins nc b /\
      Z.of_nat (size ins a + size ins b) <= modulus /\
      group_no_wrap (mul_word w ins a b) w /\ group_room (mul_word w ins a b) w
  | ESub a b => in_room w ins nc a /\ in_room w ins nc b /\ (size ins b <= size ins a)%nat /\
      group_no_wrap (dif_word w ins a b) w /\ group_room (dif_word w ins a b) w
  | EShift a k => in_room w ins nc a /\ canon k /\ word w ins a + k <= 2 ^ Z.of_nat CAPACITY
  | EScale a k => in_room w ins nc a /\ canon k /\ word w ins a * k <= 2 ^ Z.of_nat CAPACITY
  | EConcat a b => in_room w ins nc a /\ in_room w ins nc b
  | ECase i a b => in_room w ins nc a /\ in_room w ins nc b /\ (i < nc)%nat /\
      word w ins a < 2 ^ Z.of_nat w /\ word w ins b < 2 ^ Z.of_nat w
  end.

(** What does depend on the values: differences are not negative and fit the limbs of the minuend, products fit the limbs
    that are compared. Both branches of a case are computed. *)
Fixpoint fits (w : nat) (ins : list (nat * Z)) (vs : list Z) (cs : list bool) (e : expr) : Prop :=
  match e with
  | EIn _ => True
  | EAdd a b | EConcat a b | ECase _ a b => fits w ins vs cs a /\ fits w ins vs cs b
  | EMul a b => fits w ins vs cs a /\ fits w ins vs cs b /\
      let g := group_size (mul_word w ins a b) w in
      denote w ins vs cs (EMul a b) < 2 ^ Z.of_nat (w * (n_groups (size ins a + size ins b - 1) g * g)) /\
      denote w ins vs cs (EMul a b) < 2 ^ Z.of_nat (w * (size ins a + size ins b))
  | ESub a b => fits w ins vs cs a /\ fits w ins vs cs b /\
      0 <= denote w ins vs cs (ESub a b) < 2 ^ Z.of_nat (w * size ins a)
  | EShift a _ | EScale a _ => fits w ins vs cs a
  end.

(** The recorded parameters of a number: [n] limbs of width [w], words up to [M]. *)
Definition of_shape (w : nat) (p : nat * Z) (b : bignat) : Prop :=
  limb_width (bparams b) = w /\ n_limbs (bparams b) = fst p /\ length (limbs b) = fst p /\ max_word (bparams b) = snd p.


(** Every input has a limb and a bound that is not negative. *)
Definition ins_ok (ins : list (nat * Z)) : Prop := Forall (fun p => (1 <= fst p)%nat /\ 0 <= snd p) ins.

(** Two expressions computed and compared. *)
Definition identity (xs : list bignat) (bs : list bit) (e1 e2 : expr) : prog unit :=
  let! x := ns (Nm "lhs") (circuit xs bs e1) in
  let! y := ns (Nm "rhs") (circuit xs bs e2) in
  ns (Nm "equal") (equal_when_carried_regroup x y).

End Expr.
