(** Modular arithmetic with a fixed modulus: the circuit a caller writes by calling one operation after the other, each
    result available to the later ones, the integers the results denote, and the size conditions under which they agree. *)
From Coq Require Import String ZArith Bool List.
From Verif.Model Require Import Base CS Bellpepper Util Poly Bignat Gadget.
From Verif.Spec Require Import Spec SpecExpr.
Import ListNotations.
Local Open Scope Z_scope.

(** Operands are numbered: first the inputs, then the results in order. *)
Inductive op :=
  | OMul (i j : nat)    (** multiplication modulo the modulus *)
  | OAdd (i j : nat)    (** addition, not reduced *)
  | ORed (i : nat).     (** reduction modulo the modulus *)

(** Every operation appends its result. *)
Fixpoint grow {A} (f : list A -> op -> A) (l : list A) (ops : list op) : list A :=
  match ops with
  | [] => l
  | o :: ops => grow f (l ++ [f l o]) ops
  end.

(** The integer denoted, without any reduction, and the value the honest prover computes. *)
Definition op_value (vs : list Z) (o : op) : Z :=
  match o with
  | OMul i j => nth i vs 0 * nth j vs 0
  | OAdd i j => nth i vs 0 + nth j vs 0
  | ORed i => nth i vs 0
  end.
Definition op_reduced (m : Z) (vs : list Z) (o : op) : Z :=
  match o with
  | OMul i j => (nth i vs 0 * nth j vs 0) mod m
  | OAdd i j => nth i vs 0 + nth j vs 0
  | ORed i => nth i vs 0 mod m
  end.

(** Square and multiply: the operations that raise input 0 to the power [p]; the result is the last entry. *)
Fixpoint power_ops (p : positive) : list op :=
  match p with
  | xH => []
  | xO p => let l := power_ops p in l ++ [OMul (length l) (length l)]
  | xI p => let l := power_ops p in l ++ [OMul (length l) (length l); OMul (S (length l)) 0]
  end.

(** ** Sizes: width [w]; the modulus has [nm] limbs up to [mw] and is recorded to have [mb] bits *)
Section Sizes.
Context (w nm mb : nat) (mw : Z).

Definition op_shape (shs : list (nat * Z)) (o : op) : nat * Z :=
  match o with
  | OMul _ _ | ORed _ => (nm, 2 ^ Z.of_nat w - 1)
  | OAdd i j =>
      let a := nth i shs (0%nat, 0) in let b := nth j shs (0%nat, 0) in
      (Nat.max (fst a) (fst b), snd a + snd b)
  end.

(** Limbs given to the quotient and the bound on the words compared. *)
Definition number_bits (p : nat * Z) : nat := (w * (fst p - 1) + bigint_bits (snd p))%nat.
Definition quot_limbs (shs : list (nat * Z)) (o : op) : nat :=
  match o with
  | OMul i j => q_limbs (number_bits (nth i shs (0%nat, 0)) + number_bits (nth j shs (0%nat, 0))) mb w
  | OAdd _ _ => 0%nat
  | ORed i => q_limbs (number_bits (nth i shs (0%nat, 0))) mb w
  end.
Definition op_word (shs : list (nat * Z)) (o : op) : Z :=
  let rest := product_word (quot_limbs shs o) (2 ^ Z.of_nat w - 1) nm mw + (2 ^ Z.of_nat w - 1) in
  match o with
  | OMul i j =>
      let a := nth i shs (0%nat, 0) in let b := nth j shs (0%nat, 0) in
      Z.max (product_word (fst a) (snd a) (fst b) (snd b)) rest
  | OAdd _ _ => 0
  | ORed i => Z.max (snd (nth i shs (0%nat, 0))) rest
  end.
End Sizes.

Section Modular.
Context {E : Env}.

Section Conditions.
Context (w nm mb : nat) (mw : Z).

(** The words stay within the field. *)
Definition op_room (shs : list (nat * Z)) (o : op) : Prop :=
  let M := op_word w nm mb mw shs o in
  let ql := quot_limbs w mb shs o in
  match o with
  | OMul i j => (i < length shs)%nat /\ (j < length shs)%nat /\
      Z.of_nat (fst (nth i shs (0%nat, 0%Z)) + fst (nth j shs (0%nat, 0%Z))) <= modulus /\ Z.of_nat (ql + nm) <= modulus /\
      group_no_wrap M w /\ group_room M w
  | OAdd i j => (i < length shs)%nat /\ (j < length shs)%nat /\
      snd (nth i shs (0%nat, 0%Z)) + snd (nth j shs (0%nat, 0%Z)) < modulus
  | ORed i => (i < length shs)%nat /\ Z.of_nat (ql + nm) <= modulus /\ group_no_wrap M w /\ group_room M w
  end.
Fixpoint program_room (shs : list (nat * Z)) (ops : list op) : Prop :=
  match ops with
  | [] => True
  | o :: ops => op_room shs o /\ program_room (shs ++ [op_shape w nm shs o]) ops
  end.

(** The quotient fits its limbs and the number divided fits the groups that are compared. *)
Definition op_fits (m : Z) (shs : list (nat * Z)) (vs : list Z) (o : op) : Prop :=
  let M := op_word w nm mb mw shs o in
  let ql := quot_limbs w mb shs o in
  let P := op_value vs o in
  match o with
  | OMul i j => P / m < 2 ^ Z.of_nat (w * ql) /\
      fits_groups w (group_size M w) (fst (nth i shs (0%nat, 0%Z)) + fst (nth j shs (0%nat, 0%Z)) - 1) (Nat.max (ql + nm - 1) nm) P
  | OAdd _ _ => True
  | ORed i => P / m < 2 ^ Z.of_nat (w * ql) /\
      fits_groups w (group_size M w) (fst (nth i shs (0%nat, 0%Z))) (Nat.max (ql + nm - 1) nm) P
  end.
Fixpoint program_fits (m : Z) (shs : list (nat * Z)) (vs : list Z) (ops : list op) : Prop :=
  match ops with
  | [] => True
  | o :: ops => op_fits m shs vs o /\ program_fits m (shs ++ [op_shape w nm shs o]) (vs ++ [op_reduced m vs o]) ops
  end.
End Conditions.

(** ** The circuit *)
Definition do_op (m : bignat) (xs : list bignat) (o : op) : prog bignat :=
  match o with
  | OMul i j =>
      match nth_error xs i, nth_error xs j with
      | Some x, Some y => let! qr := mult_mod x y m in Ret (snd qr)
      | _, _ => Crash
      end
  | OAdd i j =>
      match nth_error xs i, nth_error xs j with
      | Some x, Some y => lift (add x y)
      | _, _ => Crash
      end
  | ORed i =>
      match nth_error xs i with
      | Some x => red_mod x m
      | None => Crash
      end
  end.
Fixpoint program (m : bignat) (xs : list bignat) (ops : list op) : prog (list bignat) :=
  match ops with
  | [] => Ret xs
  | o :: ops => let! r := ns (Nmi "op " (length xs) "") (do_op m xs o) in program m (xs ++ [r]) ops
  end.

End Modular.
