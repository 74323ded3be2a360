(** C95: the recomputed target in closed form. *)
From Coq Require Import ZArith Bool List.
From Verif.Model Require Import Base CS Bellpepper Util Poly Bignat Ints Median Difficulty HeaderStep Fields F64.
From Verif.Spec Require Import Spec SpecChain SpecF64 SpecTarget.
From Verif.Proofs Require Import F64P TargetP TargetTop.
Import ListNotations.
Local Open Scope Z_scope.

(** The closure: for an exponent byte from 3 to 18, and for every byte in the release profile, where the shift wraps
    at 128, the value is [recomputed]; otherwise, and below 2^128, a panic. *)
Theorem C95_closure : forall (E : Env) b0 q, 0 <= b0 < 256 -> 2 ^ 128 <= q -> (overflow_checks = true -> 3 <= b0 < 19) ->
  calculated_closure b0 (digits (2 ^ 64) q) = Ok (recomputed modulus (8 * (b0 - 3) mod 128) q).
Proof. exact @top_recomputed. Qed.
Print Assumptions C95_closure.
Theorem C95_closure_panics : forall (E : Env) b0 q, 0 <= b0 < 256 -> q < 2 ^ 128 \/ overflow_checks = true /\ (b0 < 3 \/ 19 <= b0) ->
  calculated_closure b0 (digits (2 ^ 64) q) = Panic.
Proof. exact @top_recomputed_panics. Qed.
Print Assumptions C95_closure_panics.

(** A quotient below 2^192 survives a shift of at most 64 exactly if its low 64 bits are 0. *)
Theorem C95_exact : forall p e q, 2 ^ 192 <= p -> 0 <= e <= 64 -> 0 <= q < 2 ^ 192 ->
  (recomputed p e q = q <-> word64 q 0 = 0).
Proof. exact top_recomputed_exact. Qed.
Print Assumptions C95_exact.

(** A larger shift leaves less than 2^128 of any quotient. *)
Theorem C95_large_shift : forall p e q, 64 < e < 128 -> 2 ^ 128 <= p -> recomputed p e q < 2 ^ 128 /\
  recomputed p e q = (word64 q 0 + word64 q 1) mod 2 ^ 64 * 2 ^ 64 / 2 ^ e * 2 ^ e.
Proof. exact high_shift. Qed.
Print Assumptions C95_large_shift.

(** The stage over the Pallas scalar field, for every span in range. *)
Theorem C95_update : forall log2f ck, faithful_log2 log2f -> forall b target z s z12 z13 z14 T T12 t c, let E := pallas_f64 log2f ck in
  good s -> nth_error z 12 = Some z12 -> nth_error z 13 = Some z13 -> nth_error z 14 = Some z14 ->
  an_at s target T -> an_at s z12 T12 -> an_at s z13 t -> an_at s z14 c -> 302400 < t < 4838400 -> 0 <= qb0 b < 256 ->
  let q := T12 * t / (2016 * 10 * 60) in 2 ^ 128 <= q -> (ck = true -> 3 <= qb0 b < 19) ->
  exists tc ct s', run true (stage_target_update b target z) s = (Ok (tc, ct, z13), s') /\
    (good s' <-> if c =? 0 then T = recomputed pallas_scalar_modulus (8 * (qb0 b - 3) mod 128) q else T = T12).
Proof. exact top_target. Qed.
Print Assumptions C95_update.
Theorem C95_update_panics : forall log2f ck, faithful_log2 log2f -> forall b target z s z12 z13 T12 t, let E := pallas_f64 log2f ck in
  good s -> nth_error z 12 = Some z12 -> nth_error z 13 = Some z13 ->
  an_at s z12 T12 -> an_at s z13 t -> 302400 < t < 4838400 -> 0 <= qb0 b < 256 ->
  T12 * t / (2016 * 10 * 60) < 2 ^ 128 \/ ck = true /\ (qb0 b < 3 \/ 19 <= qb0 b) ->
  fst (run true (stage_target_update b target z) s) = Panic.
Proof. exact top_target_panics. Qed.
Print Assumptions C95_update_panics.

(** At the end of an epoch (counter 0) the right new target, the quotient cut to its three leading bytes with its size in
    the exponent byte, is never accepted by the debug profile, and never from 25 bytes on by the release profile. *)
Theorem C95_retarget_refuted : forall log2f ck, faithful_log2 log2f -> forall b target z s z12 z13 z14 T T12 t c, let E := pallas_f64 log2f ck in
  good s -> nth_error z 12 = Some z12 -> nth_error z 13 = Some z13 -> nth_error z 14 = Some z14 ->
  an_at s target T -> an_at s z12 T12 -> an_at s z13 t -> an_at s z14 c -> 302400 < t < 4838400 -> 0 <= qb0 b < 256 ->
  let q := T12 * t / (2016 * 10 * 60) in forall r s',
  c = 0 -> has_bytes q (qb0 b) -> 0 < qb0 b -> T = three_bytes q (qb0 b) -> (ck = true \/ 25 <= qb0 b <= 32) ->
  run true (stage_target_update b target z) s = (Ok r, s') -> ~ good s'.
Proof. exact top_retarget. Qed.
Print Assumptions C95_retarget_refuted.

(** The quotient 2^140 + 1 has 18 bytes: the right target 2^140 is refused; so is the quotient itself with a small exponent
    byte, with which 2^140 + 2^64 is accepted. *)
Example C95_case : let E := pallas_f64 log2_down true in let q := 2 ^ 140 + 1 in
  has_bytes q 18 /\ three_bytes q 18 = 2 ^ 140 /\ recomputed pallas_scalar_modulus 0 q = 2 ^ 140 + 2 ^ 64 /\
  (exists r s', run true (stage_target_update (mkQB 18 0 0 0) (vnum (re_vals (2 ^ 140) q) 0) (re_z (2 ^ 140) q)) (vals_st (re_vals (2 ^ 140) q)) = (Ok r, s') /\ ~ good s') /\
  (exists r s', run true (stage_target_update (mkQB 3 0 0 0) (vnum (re_vals q q) 0) (re_z q q)) (vals_st (re_vals q q)) = (Ok r, s') /\ ~ good s') /\
  (exists r s', run true (stage_target_update (mkQB 3 0 0 0) (vnum (re_vals (2 ^ 140 + 2 ^ 64) q) 0) (re_z (2 ^ 140 + 2 ^ 64) q)) (vals_st (re_vals (2 ^ 140 + 2 ^ 64) q)) = (Ok r, s') /\ good s').
Proof. exact C95_witness. Qed.
