(** C79: the carry widths computed in floating point. *)
From Coq Require Import ZArith Bool List.
From Verif.Model Require Import Base CS Bellpepper Util Poly Bignat Fields F64.
From Verif.Spec Require Import Spec SpecF64.
From Verif.Proofs Require Import PrimeFields F64P TopF64 F64Ex.
Import ListNotations.
Local Open Scope Z_scope.

(** The assumption on the platform can be met: a faithful logarithm exists. *)
Theorem C79_faithful_exists : faithful_log2 log2_down.
Proof. exact log2_down_faithful. Qed.
Print Assumptions C79_faithful_exists.

(** Never too wide, at most one bit short. *)
Theorem C79_bounds : forall log2f, faithful_log2 log2f -> forall M w,
  0 <= M < 2 ^ 1020 -> Z.of_nat w < 2 ^ 53 ->
  (Nat.pred (carry_bits_exact M w) <= carry_bits_of log2f M w <= carry_bits_exact M w)%nat.
Proof. exact top_carry_bounds. Qed.
Print Assumptions C79_bounds.

(** Exact at the powers of two, and from 2^k + 2^(k-43) on. *)
Theorem C79_exact : forall log2f, faithful_log2 log2f -> forall M w,
  0 <= M < 2 ^ 1020 -> Z.of_nat w < 2 ^ 53 ->
  M = 2 ^ Z.log2 M \/ 2 ^ Z.log2 M <= (M - 2 ^ Z.log2 M) * 2 ^ 43 ->
  carry_bits_of log2f M w = carry_bits_exact M w.
Proof. exact top_carry_exact. Qed.
Print Assumptions C79_exact.

(** One bit short from 2^k + 1 to 2^k + 2^(k-53). *)
Theorem C79_short : forall log2f, faithful_log2 log2f -> forall M w,
  1 <= M < 2 ^ 1020 -> Z.of_nat w < 2 ^ 53 ->
  2 ^ Z.log2 M < M -> (M - 2 ^ Z.log2 M) * 2 ^ 53 <= 2 ^ Z.log2 M ->
  carry_bits_of log2f M w = Nat.pred (carry_bits_exact M w).
Proof. exact top_carry_short. Qed.
Print Assumptions C79_short.

(** The largest usize when the doubled word overflows f64. *)
Theorem C79_overflow : forall log2f M w, faithful_log2 log2f ->
  2 ^ 1023 <= M -> Z.of_nat w < 2 ^ 53 -> carry_bits_of log2f M w = Z.to_nat (2 ^ 64 - 1).
Proof. exact top_overflow. Qed.
Print Assumptions C79_overflow.

(** The comparisons between numbers with full limbs have the widths they need. *)
Theorem C79_room_equal : forall (E : Env) (W : Wf E), f64_carries E -> (CAPACITY <= 500)%nat -> forall w,
  let M := 2 ^ Z.of_nat w - 1 in
  (2 <= w)%nat -> 2 * M <= 2 ^ Z.of_nat CAPACITY -> group_no_wrap M w /\ group_room M w.
Proof. exact @top_f64_equal. Qed.
Print Assumptions C79_room_equal.

Theorem C79_room_product : forall (E : Env) (W : Wf E), f64_carries E -> (CAPACITY <= 500)%nat -> forall w n m,
  let B := 2 ^ Z.of_nat w in
  let M := Z.max (product_word n (B - 1) m (B - 1)) (B - 1) in
  (1 <= w)%nat -> (1 <= n)%nat -> (1 <= m)%nat -> Z.of_nat (Nat.min n m) <= 2 ^ 42 ->
  4 * Z.of_nat (Nat.min n m) < B -> 2 * M <= 2 ^ Z.of_nat CAPACITY ->
  group_no_wrap M w /\ group_room M w.
Proof. exact @top_f64_product. Qed.
Print Assumptions C79_room_product.

Theorem C79_room_mod : forall (E : Env) (W : Wf E), f64_carries E -> (CAPACITY <= 500)%nat -> forall w n m q l,
  let B := 2 ^ Z.of_nat w in
  let M := Z.max (product_word n (B - 1) m (B - 1)) (product_word q (B - 1) l (B - 1) + (B - 1)) in
  (1 <= w)%nat -> (1 <= n)%nat -> (1 <= m)%nat -> (1 <= q)%nat -> (1 <= l)%nat ->
  Z.of_nat (Nat.max (Nat.min n m) (Nat.min q l)) <= 2 ^ 42 ->
  4 * Z.of_nat (Nat.max (Nat.min n m) (Nat.min q l)) < B -> 2 * M <= 2 ^ Z.of_nat CAPACITY ->
  group_no_wrap M w /\ group_room M w.
Proof. exact @top_f64_mod. Qed.
Print Assumptions C79_room_mod.

Theorem C79_room_red : forall (E : Env) (W : Wf E), f64_carries E -> (CAPACITY <= 500)%nat -> forall w q l,
  let B := 2 ^ Z.of_nat w in
  let M := Z.max (B - 1) (product_word q (B - 1) l (B - 1) + (B - 1)) in
  (1 <= w)%nat -> (1 <= q)%nat -> (1 <= l)%nat -> Z.of_nat (Nat.min q l) <= 2 ^ 42 ->
  4 * Z.of_nat (Nat.min q l) < B -> 2 * M <= 2 ^ Z.of_nat CAPACITY ->
  group_no_wrap M w /\ group_room M w.
Proof. exact @top_f64_red. Qed.
Print Assumptions C79_room_red.

(** The condition on the carries of the difficulty and header theorems (C52, C53, C62). *)
Theorem C79_header_words : forall (E : Env), f64_carries E -> (CAPACITY <= 500)%nat -> (194 <= CAPACITY)%nat ->
  exact_carries ((2 ^ 64 - 1) * 2 ^ 128) 64 /\ exact_carries ((2 ^ 64 - 1) * (2 ^ 65 - 1)) 64.
Proof. exact @top_f64_header. Qed.
Print Assumptions C79_header_words.

(** Multiplication over the Pallas scalar field with the widths of the code. *)
Theorem C79_mult_pallas : forall log2f ck wit a b s p s' rho, let E := pallas_f64 log2f ck in faithful_log2 log2f ->
  run wit (mult a b) s = (Ok p, s') -> sat rho s' -> well_shaped a -> well_shaped b ->
  limb_width (bparams a) = 64%nat -> max_word (bparams a) = 2 ^ 64 - 1 -> max_word (bparams b) = 2 ^ 64 - 1 ->
  Forall (fun v => 0 <= v < 2 ^ 64) (wires rho (limbs a)) -> Forall (fun v => 0 <= v < 2 ^ 64) (wires rho (limbs b)) ->
  limbs a <> [] -> limbs b <> [] ->
  Z.of_nat (length (limbs a)) <= 2 ^ 42 -> Z.of_nat (length (limbs b)) <= 2 ^ 42 ->
  int_of rho p = int_of rho a * int_of rho b /\
  Forall (fun v => 0 <= v < 2 ^ 64) (wires rho (limbs p)) /\
  length (limbs p) = (length (limbs a) + length (limbs b))%nat.
Proof. exact top_mult_pallas_f64. Qed.
Print Assumptions C79_mult_pallas.

(** Equal numbers rejected because of the missing bit: a full limb shifted by 2 ... *)
Theorem C79_shift_refuted : forall (E : Env) (W : Wf E) wit a b x s, f64_carries E -> 2 ^ 67 <= modulus ->
  good s -> bignat_at s a [2 ^ 64 - 1; x] -> bignat_at s b [1; x + 1] ->
  limb_width (bparams a) = 64%nat -> max_word (bparams a) = 2 ^ 64 - 1 -> max_word (bparams b) = 2 ^ 64 - 1 ->
  exists c, shift a 2 = Ok c /\
    (2 ^ 64 - 1 + 2 ^ 64 * x) + 2 = 1 + 2 ^ 64 * (x + 1) /\
    forall u s', run wit (equal_when_carried c b) s = (Ok u, s') -> ~ exists rho, same_on s rho (asg s) /\ sat rho s'.
Proof. exact @top_short_shift. Qed.
Print Assumptions C79_shift_refuted.

(** ... which the width computed without rounding would accept. *)
Theorem C79_shift_exact : forall (E : Env) (W : Wf E) a b x s,
  carry_bits_f64 (2 ^ 64 + 1) 64 = carry_bits_exact (2 ^ 64 + 1) 64 -> 2 ^ 67 <= modulus ->
  good s -> bignat_at s a [2 ^ 64 - 1; x] -> bignat_at s b [1; x + 1] ->
  limb_width (bparams a) = 64%nat -> limb_width (bparams b) = 64%nat ->
  max_word (bparams a) = 2 ^ 64 - 1 -> max_word (bparams b) = 2 ^ 64 - 1 ->
  exists c s', shift a 2 = Ok c /\ run true (equal_when_carried c b) s = (Ok tt, s') /\ good s'.
Proof. exact @top_exact_shift. Qed.
Print Assumptions C79_shift_exact.

Example C79_case : let E := pallas_f64 log2_down true in f64_carries E /\ Wf E /\ 2 ^ 67 <= modulus /\ CAPACITY = 254%nat /\
  carry_bits_exact (2 ^ 64 + 1) 64 = 2%nat /\ carry_bits_f64 (2 ^ 64 + 1) 64 = 1%nat /\
  carry_bits_f64 (2 ^ 64 - 1) 64 = 1%nat /\ carry_bits_f64 (2 ^ 64) 64 = 1%nat /\
  carry_bits_f64 (3 * (2 ^ 64 - 1) * (2 ^ 64 - 1)) 64 = 67%nat.
Proof. exact f64_case. Qed.

(** The run of the refuted case: the comparison returns, and its honest witness is rejected. *)
Example C79_run : let E := pallas_f64 log2_down true in
  let '(r, s) := run true (
     let! a := alloc_from_nat (Ok (2 ^ 64 - 1)) 64 2 in
     let! b := alloc_from_nat (Ok (2 ^ 64 + 1)) 64 2 in
     let! c := lift (shift a 2) in Ret (a, b, c)) st_init in
  match r with
  | Ok (a, b, c) =>
      let '(r, s) := run true (equal_when_carried c b) s in
      r = Ok tt /\ satb (asg s) s = false /\ int_of (asg s) a + 2 = int_of (asg s) b
  | _ => False
  end.
Proof. exact f64_run. Qed.
