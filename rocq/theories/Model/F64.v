(** The f64 expression that sizes the carries of [equal_when_carried] and
    [equal_when_carried_regroup] (src/mp/bignat.rs:724-726 and 801-803), operation by operation.
    A finite f64 is [Fin m e] with the value [m * 2^e]; several pairs may denote the same number.
    Simplified: no signed zeros and no subnormal numbers.  No operation below reaches a nonzero
    magnitude under 2^-60 when [log2] returns a number that is at least 1. *)
From Coq Require Import ZArith Bool.
From Verif.Model Require Import Base Fields.
Local Open Scope Z_scope.

(** The type [f64] (bignat.rs:724-726 and 801-803). *)
Inductive f64 := Fin (m e : Z) | Inf (negative : bool) | NaN.

(** The integer nearest to [m / 2^s], ties to even (IEEE 754 default rounding). *)
Definition rne (m s : Z) : Z :=
  let q := m / 2 ^ s in
  let r := m mod 2 ^ s in
  if 2 * r <? 2 ^ s then q
  else if 2 ^ s <? 2 * r then q + 1
  else if Z.even q then q else q + 1.

(** Rounding of [m * 2^e] to 53 bits, with overflow to infinity at 2^1024. *)
Definition fround (m e : Z) : f64 :=
  let s := Z.max 0 (Z.log2 (Z.abs m) - 52) in
  let q := rne m s in
  if negb (q =? 0) && (1024 <=? Z.log2 (Z.abs q) + (e + s)) then Inf (q <? 0) else Fin q (e + s).

(** num-bigint 0.4.4 [BigInt::to_f64] (bignat.rs:725, 802): rounds to nearest, infinity when too big. *)
Definition f64_of_bigint (x : Z) : f64 := fround x 0.
(** [limb_width as f64] (bignat.rs:725, 802). *)
Definition f64_of_usize (w : nat) : f64 := fround (Z.of_nat w) 0.

(** [_ * 2.0] (bignat.rs:725, 802). *)
Definition fmul2 (x : f64) : f64 :=
  match x with Fin m e => fround m (e + 1) | _ => x end.

(** [_ + _] (bignat.rs:726, 803), and the sum in [_ - _]. *)
Definition fadd (x y : f64) : f64 :=
  match x, y with
  | Fin m1 e1, Fin m2 e2 =>
      let e := Z.min e1 e2 in fround (m1 * 2 ^ (e1 - e) + m2 * 2 ^ (e2 - e)) e
  | Inf b, Inf c => if Bool.eqb b c then Inf b else NaN
  | Inf b, Fin _ _ => Inf b
  | Fin _ _, Inf c => Inf c
  | _, _ => NaN
  end.
(** Negation, for [_ - _] (bignat.rs:725, 802). *)
Definition fneg64 (x : f64) : f64 :=
  match x with Fin m e => Fin (- m) e | Inf b => Inf (negb b) | NaN => NaN end.
(** [_ - _] (bignat.rs:725, 802). *)
Definition fsub64 (x y : f64) : f64 := fadd x (fneg64 y).

(** [f64::ceil] (bignat.rs:725, 802): exact. *)
Definition fceil (x : f64) : f64 :=
  match x with
  | Fin m e => if 0 <=? e then Fin m e else Fin (- ((- m) / 2 ^ (- e))) 0
  | _ => x
  end.

(** The literal [0.1] (bignat.rs:726, 803): the f64 nearest to a tenth. *)
Definition tenth : f64 := Fin 3602879701896397 (-55).

(** [_ as usize] (bignat.rs:726, 803) on a 64-bit target: truncates, saturates, NaN becomes 0. *)
Definition usize_max : Z := 2 ^ 64 - 1.
(** [_ as usize] (bignat.rs:726, 803). *)
Definition f64_as_usize (x : f64) : nat :=
  match x with
  | Fin m e =>
      let v := if 0 <=? e then m * 2 ^ e else Z.quot m (2 ^ (- e)) in
      Z.to_nat (Z.min v usize_max)
  | Inf true => O
  | Inf false => Z.to_nat usize_max
  | NaN => O
  end.

(** bignat.rs:724-726 and 801-803, for a given implementation of [f64::log2]. *)
Definition carry_bits_of (log2f : f64 -> f64) (max_word : Z) (limb_width : nat) : nat :=
  f64_as_usize (fadd (fceil (fsub64 (log2f (fmul2 (f64_of_bigint max_word))) (f64_of_usize limb_width))) tenth).

(** The Pallas scalar field and the field of src/util/scalar.rs with that expression. *)
Definition pallas_f64 (log2f : f64 -> f64) (checks : bool) : Env :=
  mkEnv pallas_scalar_modulus 32 checks (carry_bits_of log2f).
(** The field of src/util/scalar.rs with that expression. *)
Definition fr_f64 (log2f : f64 -> f64) (checks : bool) : Env :=
  mkEnv fr_modulus 32 checks (carry_bits_of log2f).
