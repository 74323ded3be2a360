(** Results, parameters and scalar-field operations shared by the whole model. *)
From Coq Require Import ZArith String List.
Import ListNotations.
Local Open Scope Z_scope.

(** bellpepper-core [SynthesisError], the three variants that /repo produces:
    [AssignmentMissing] (src/lib.rs:22), [Unsatisfiable] (src/mp/bignat.rs:67 and others),
    [IoError] (src/mp/bignat.rs:158-161 and 238-241). *)
Inductive err := AssignmentMissing | Unsatisfiable | IoError.

(** Outcome of a Rust call returning [Result]: [Ok], [Err], or a panic
    (unwrap on [None]/[Err], failed assert, index out of range, overflow). *)
Inductive res (A : Type) : Type :=
| Ok (a : A)
| Err (e : err)
| Panic.
Arguments Ok {A} _.
Arguments Err {A} _.
Arguments Panic {A}.

(** The [?] operator of Rust, used throughout /repo (e.g. src/mp/bignat.rs:166): errors and panics propagate. *)
Definition rbind {A B} (m : res A) (f : A -> res B) : res B :=
  match m with Ok a => f a | Err e => Err e | Panic => Panic end.

Notation "'let?' x := m 'in' k" := (rbind m (fun x => k))
  (at level 200, x pattern, m at level 100, k at level 200, right associativity).

(** [Result::map]. *)
Definition rmap {A B} (f : A -> B) (m : res A) : res B := rbind m (fun a => Ok (f a)).

(** [Option::unwrap]. *)
Definition unwrap {A} (o : option A) : res A :=
  match o with Some a => Ok a | None => Panic end.

(** src/lib.rs:20-27 [OptionExt::grab]: [None] becomes [Err(AssignmentMissing)]. *)
Definition grab {A} (o : option A) : res A :=
  match o with Some a => Ok a | None => Err AssignmentMissing end.

(** [Result::unwrap]: an error becomes a panic. *)
Definition unwrap_res {A} (r : res A) : res A :=
  match r with Ok a => Ok a | Err _ => Panic | Panic => Panic end.

(** Slice indexing [v[i]]: panics when out of range. *)
Definition idx {A} (v : list A) (i : nat) : res A := unwrap (nth_error v i).

(** Collecting an iterator of [Result]s, left to right, stopping at the first failure. *)
Fixpoint rmapM {A B} (f : A -> res B) (l : list A) : res (list B) :=
  match l with
  | [] => Ok []
  | a :: l => let? b := f a in let? bs := rmapM f l in Ok (b :: bs)
  end.

(** usize subtraction with overflow checks (debug profile): panics on underflow. *)
Definition usub (a b : nat) : res nat :=
  if (b <=? a)%nat then Ok (a - b)%nat else Panic.

(** Everything the Rust code is generic over or that the platform decides.
    [modulus], [repr_len]: the [Scalar: PrimeField] type parameter (modulus and number of bytes of
    the little-endian canonical representation).
    [overflow_checks]: the cargo profile (debug: true, release: false); used by header_step.
    [carry_bits_f64 max_word limb_width]: the result of the f64 expression
    [(((max_word.to_f64().unwrap() * 2.0).log2() - limb_width as f64).ceil() + 0.1) as usize]
    (src/mp/bignat.rs:724-726 and 801-803); its exact-arithmetic value is
    [carry_bits_exact] below. *)
Class Env := mkEnv {
  modulus : Z;
  repr_len : nat;
  overflow_checks : bool;
  carry_bits_f64 : Z -> nat -> nat
}.

(** src/mp/bignat.rs:724-726 evaluated without floating-point rounding: the cast to usize
    saturates negative values to 0. *)
Definition carry_bits_exact (max_word : Z) (limb_width : nat) : nat :=
  Z.to_nat (Z.log2_up (2 * max_word) - Z.of_nat limb_width).

Section Field.
Context {E : Env}.

(** ff [PrimeField::NUM_BITS] and [PrimeField::CAPACITY]. *)
Definition NUM_BITS : nat := S (Z.to_nat (Z.log2 modulus)).
(** ff [PrimeField::CAPACITY], used at src/mp/bignat.rs:804. *)
Definition CAPACITY : nat := Nat.pred NUM_BITS.

(** Scalars are canonical representatives [0 <= x < modulus]. *)
Definition canon (x : Z) : Prop := 0 <= x < modulus.

(** The scalar that an integer stands for. *)
Definition fmk (x : Z) : Z := x mod modulus.
(** ff [Field::ZERO] (e.g. src/util/num.rs:58). *)
Definition fzero : Z := 0.
(** ff [Field::ONE] (e.g. src/util/num.rs:56). *)
Definition fone : Z := fmk 1.
(** Addition of scalars ([add_assign], e.g. src/mp/poly.rs:51). *)
Definition fadd (a b : Z) : Z := fmk (a + b).
(** Subtraction of scalars ([sub_assign], e.g. src/btc_validation/median.rs:133). *)
Definition fsub (a b : Z) : Z := fmk (a - b).
(** Multiplication of scalars ([mul_assign], e.g. src/mp/poly.rs:50). *)
Definition fmul (a b : Z) : Z := fmk (a * b).
(** ff [Field::double] (e.g. src/util/num.rs:82). *)
Definition fdouble (a : Z) : Z := fmk (a + a).
(** Negation of a scalar. *)
Definition fneg (a : Z) : Z := fmk (- a).

(** Extended Euclid: the coefficient [s0] of the second argument in the gcd. *)
Fixpoint egcd (fuel : nat) (r0 r1 s0 s1 : Z) : Z :=
  match fuel with
  | O => s0
  | S fuel =>
      if r1 =? 0 then s0
      else let q := r0 / r1 in egcd fuel r1 (r0 - q * r1) s1 (s0 - q * s1)
  end.

(** ff [Field::invert]: [None] on zero, the inverse otherwise (the crate computes it by
    exponentiation; the value is the same). *)
Definition finvert (a : Z) : option Z :=
  if fmk a =? 0 then None
  else Some (fmk (egcd (2 * NUM_BITS) modulus (fmk a) 0 1)).

(** ff [From<u64>] and [PrimeField::from_u128]. *)
Definition from_u64 (n : Z) : Z := fmk n.
(** ff [PrimeField::from_u128] (e.g. src/btc_validation/header_step.rs:166). *)
Definition from_u128 (n : Z) : Z := fmk n.

(** Little-endian bytes of an integer. *)
Fixpoint le_bytes (n : nat) (x : Z) : list Z :=
  match n with
  | O => []
  | S n' => x mod 256 :: le_bytes n' (x / 256)
  end.

(** num-bigint [BigInt::from_bytes_le] with sign plus. *)
Fixpoint from_bytes_le (bs : list Z) : Z :=
  match bs with [] => 0 | b :: bs => b + 256 * from_bytes_le bs end.

(** ff [PrimeField::to_repr] for a little-endian representation. *)
Definition to_repr (x : Z) : list Z := le_bytes repr_len x.

End Field.
