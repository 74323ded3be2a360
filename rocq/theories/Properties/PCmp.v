(** C96: the comparisons on every pair of operands. *)
From Coq Require Import ZArith Znumtheory Bool List.
From Verif.Model Require Import Base CS Bellpepper Util Poly Bignat Ints Median Fields.
From Verif.Spec Require Import Spec.
From Verif.Proofs Require Import CmpP.
Import ListNotations.
Local Open Scope Z_scope.

(** The answer of [less_than] on all operands, at every width up to 253. *)
Theorem C96_less_than_total : forall (E : Env) (W : Wf E) a b x y n s,
  good s -> an_at s a x -> an_at s b y -> (n < NUM_BITS)%nat -> (n <= 253)%nat ->
  exists r s', run true (less_than a b n) s = (Ok r, s') /\ good s' /\
    boolean_at s' r ((x - y + (if (n <=? 126)%nat then 2 ^ (Z.of_nat n + 1) else if (n <=? 252)%nat then 2 ^ (Z.of_nat n + 2) else 0))
                     mod modulus <? 2 ^ (Z.of_nat n + 1)).
Proof. exact @top_less_than_any. Qed.
Print Assumptions C96_less_than_total.

Theorem C96_leq_total : forall (E : Env) (W : Wf E) a b x y n s,
  good s -> an_at s a x -> an_at s b y -> (n < NUM_BITS)%nat -> (n <= 253)%nat ->
  exists r s', run true (leq a b n) s = (Ok r, s') /\ good s' /\
    boolean_at s' r ((x - y - 1 + (if (n <=? 126)%nat then 2 ^ (Z.of_nat n + 1) else if (n <=? 252)%nat then 2 ^ (Z.of_nat n + 2) else 0))
                     mod modulus <? 2 ^ (Z.of_nat n + 1)).
Proof. exact @top_leq_any. Qed.
Print Assumptions C96_leq_total.

(** Up to 126 bits: yes exactly if [y] is above [x] by at most 2^(n+1), or [x] is above [y] by nearly the modulus. *)
Theorem C96_less_than_when : forall (E : Env) (W : Wf E) a b x y n s,
  good s -> an_at s a x -> an_at s b y -> (n <= 126)%nat -> 2 ^ (Z.of_nat n + 1) <= modulus ->
  exists r s' v, run true (less_than a b n) s = (Ok r, s') /\ good s' /\ boolean_at s' r v /\
    (v = true <-> x < y <= x + 2 ^ (Z.of_nat n + 1) \/ modulus - 2 ^ (Z.of_nat n + 1) <= x - y).
Proof. exact @top_less_than_when. Qed.
Print Assumptions C96_less_than_when.

Theorem C96_leq_when : forall (E : Env) (W : Wf E) a b x y n s,
  good s -> an_at s a x -> an_at s b y -> (n <= 126)%nat -> 2 ^ (Z.of_nat n + 1) <= modulus ->
  exists r s' v, run true (leq a b n) s = (Ok r, s') /\ good s' /\ boolean_at s' r v /\
    (v = true <-> x <= y < x + 2 ^ (Z.of_nat n + 1) \/ modulus - 2 ^ (Z.of_nat n + 1) < x - y).
Proof. exact @top_leq_when. Qed.
Print Assumptions C96_leq_when.

(** From 127 bits on the window is shifted by 2^(n+1). *)
Theorem C96_less_than_when_wide : forall (E : Env) (W : Wf E) a b x y n s,
  good s -> an_at s a x -> an_at s b y -> (127 <= n <= 252)%nat -> 2 ^ (Z.of_nat n + 2) <= modulus ->
  exists r s' v, run true (less_than a b n) s = (Ok r, s') /\ good s' /\ boolean_at s' r v /\
    (v = true <-> x + 2 ^ (Z.of_nat n + 1) < y <= x + 2 ^ (Z.of_nat n + 2) \/
                  modulus - 2 ^ (Z.of_nat n + 2) <= x - y < modulus - 2 ^ (Z.of_nat n + 1)).
Proof. exact @top_less_than_when_wide. Qed.
Print Assumptions C96_less_than_when_wide.

Theorem C96_leq_when_wide : forall (E : Env) (W : Wf E) a b x y n s,
  good s -> an_at s a x -> an_at s b y -> (127 <= n <= 252)%nat -> 2 ^ (Z.of_nat n + 2) <= modulus ->
  exists r s' v, run true (leq a b n) s = (Ok r, s') /\ good s' /\ boolean_at s' r v /\
    (v = true <-> x + 2 ^ (Z.of_nat n + 1) <= y < x + 2 ^ (Z.of_nat n + 2) \/
                  modulus - 2 ^ (Z.of_nat n + 2) < x - y <= modulus - 2 ^ (Z.of_nat n + 1)).
Proof. exact @top_leq_when_wide. Qed.
Print Assumptions C96_leq_when_wide.

(** One bit below the bit length of the field both say yes to every pair ... *)
Theorem C96_last_width : forall (E : Env) (W : Wf E) a b x y n s,
  good s -> an_at s a x -> an_at s b y -> S n = NUM_BITS -> (n <= 253)%nat \/ overflow_checks = false ->
  (exists r s', run true (less_than a b n) s = (Ok r, s') /\ good s' /\ boolean_at s' r true) /\
  (exists r s', run true (leq a b n) s = (Ok r, s') /\ good s' /\ boolean_at s' r true).
Proof. exact @top_cmp_last. Qed.
Print Assumptions C96_last_width.

(** ... and from 254 bits on both panic in a build with overflow checks, in any field. *)
Theorem C96_254_panics : forall (E : Env) a b x y n s,
  good s -> an_at s a x -> an_at s b y -> (254 <= n)%nat -> overflow_checks = true ->
  fst (run true (less_than a b n) s) = Panic /\ fst (run true (leq a b n) s) = Panic.
Proof. exact @top_cmp_254. Qed.
Print Assumptions C96_254_panics.

(** In the field of 251: 250 < 0 at 5 bits is answered with yes, 0 < 65 with no, and 5 < 3 at 7 bits with yes. *)
Example C96_case : let E := small_env 251 in
  let go (x y : Z) n := let '(r, s) := run true (
     let! a := an_alloc (Ok x) in
     let! b := an_alloc (Ok y) in
     less_than a b n) st_init in
     match r with Ok b => (bool_val b, satb (asg s) s) | _ => (None, false) end in
  go 250 0 5%nat = (Some true, true) /\ go 0 64 5%nat = (Some true, true) /\ go 0 65 5%nat = (Some false, true) /\
  NUM_BITS = 8%nat /\ go 5 3 7%nat = (Some true, true).
Proof. vm_compute. auto 6. Qed.

(** In the Pallas scalar field at 224 bits: 0 < 2^225 + 1 is answered with yes. *)
Example C96_wide_case : let E := pallas_env true in
  let '(r, _) := run true (
     let! a := an_alloc (Ok 0) in
     let! b := an_alloc (Ok (2 ^ 225 + 1)) in
     less_than a b 224) st_init in
  exists b, r = Ok b /\ bool_val b = Some true.
Proof. exact C96_witness. Qed.
