(** C86: the recomputed target, with exact conditions. *)
From Coq Require Import ZArith Bool List.
From Verif.Model Require Import Base Sha256 CS Bellpepper Util Poly Bignat Ints Median Difficulty HeaderStep Fields F64.
From Verif.Spec Require Import Spec SpecHeader SpecF64.
From Verif.Proofs Require Import F64P DiffExact HeaderExact.
Import ListNotations.
Local Open Scope Z_scope.

(** Every honest run with a span in range returns the floor quotient; its constraints hold exactly if the quotient is below 2^256. *)
Theorem C86_calculate_decides : forall (E : Env) (W : Wf E) prev ts T t s,
  good s -> an_at s prev T -> an_at s ts t -> 302400 < t < 4838400 ->
  (194 <= CAPACITY <= 255)%nat -> exact_carries ((2 ^ 64 - 1) * 2 ^ 128) 64 ->
  exists b s' vs, run true (calculate_difficulty_update prev ts) s = (Ok b, s') /\ bignat_at s' b vs /\
    limb_width (bparams b) = 64%nat /\ List.length (limbs b) = 5%nat /\ value b = Some (T * t / (2016 * 10 * 60)) /\
    (good s' <-> T * t / (2016 * 10 * 60) < 2 ^ 256).
Proof. exact @top_calculate_decides. Qed.
Print Assumptions C86_calculate_decides.

(** The set of results the constraints accept: the quotients of any representative of the previous target by any 128-bit divisor
    with a 64-bit remainder, and, when the product itself fits the remainder, every number of five limbs. *)
Theorem C86_calculate_prover : forall (E : Env) (W : Wf E) wit prev ts T t q s b s' rho0,
  good_for rho0 s -> carries_for rho0 s (lc_var (an_var prev)) T -> carries_for rho0 s (lc_var (an_var ts)) t ->
  run wit (calculate_difficulty_update prev ts) s = (Ok b, s') ->
  (194 <= CAPACITY <= 255)%nat -> exact_carries ((2 ^ 64 - 1) * 2 ^ 128) 64 ->
  ((exists rho, same_on s rho rho0 /\ sat rho s' /\ int_of rho b = q) <->
   t < 2 ^ 64 /\ 0 <= q /\ exists T' d r, T' mod modulus = T /\ 0 <= T' < 2 ^ 256 /\ 0 <= d < 2 ^ 128 /\ 0 <= r < 2 ^ 64 /\
     T' * t = q * d + r /\ (q < 2 ^ 256 \/ d = 0 /\ q < 2 ^ 320)).
Proof. exact @top_calculate_prover. Qed.
Print Assumptions C86_calculate_prover.

(** The target update stage, for every previous target. *)
Theorem C86_update_decides : forall (E : Env) (W : Wf E) b target z s z12 z13 z14 T T12 t c v,
  good s -> nth_error z 12 = Some z12 -> nth_error z 13 = Some z13 -> nth_error z 14 = Some z14 ->
  an_at s target T -> an_at s z12 T12 -> an_at s z13 t -> an_at s z14 c ->
  302400 < t < 4838400 -> (194 <= CAPACITY <= 255)%nat -> exact_carries ((2 ^ 64 - 1) * 2 ^ 128) 64 ->
  calculated_closure (qb0 b) (digits (2 ^ 64) (T12 * t / (2016 * 10 * 60))) = Ok v ->
  exists tc ct s', run true (stage_target_update b target z) s = (Ok (tc, ct, z13), s') /\ an_at s' ct v /\
    (good s' <-> T12 * t / (2016 * 10 * 60) < 2 ^ 256 /\ if c =? 0 then T = v else T = T12).
Proof. exact @top_update_decides. Qed.
Print Assumptions C86_update_decides.

(** Over the Pallas scalar field with the floating point carry widths of the code, no condition but the span is left. *)
Theorem C86_calculate_pallas : forall log2f ck, faithful_log2 log2f -> forall prev ts T t s, let E := pallas_f64 log2f ck in
  good s -> an_at s prev T -> an_at s ts t -> 302400 < t < 4838400 ->
  exists b s' vs, run true (calculate_difficulty_update prev ts) s = (Ok b, s') /\ good s' /\ bignat_at s' b vs /\
    limb_width (bparams b) = 64%nat /\ List.length (limbs b) = 5%nat /\ value b = Some (T * t / (2016 * 10 * 60)).
Proof. exact top_calculate_pallas. Qed.
Print Assumptions C86_calculate_pallas.
Theorem C86_verify_pallas : forall log2f ck, faithful_log2 log2f -> forall cu cl pu pl t s, let E := pallas_f64 log2f ck in
  good s -> 0 <= cu < 2 ^ 128 -> 0 <= cl < 2 ^ 128 -> 0 <= pu < 2 ^ 128 -> 0 <= pl < 2 ^ 128 -> 302400 < t < 4838400 ->
  exists s', run true (verify_difficulty_update cu cl pu pl t) s = (Ok tt, s') /\
    (sat (asg s') s' <-> cu * 2 ^ 128 + cl = (pu * 2 ^ 128 + pl) * t / (2016 * 10 * 60)).
Proof. exact top_verify_pallas. Qed.
Print Assumptions C86_verify_pallas.
Theorem C86_update_pallas : forall log2f ck, faithful_log2 log2f -> forall b target z s z12 z13 z14 T T12 t c v, let E := pallas_f64 log2f ck in
  good s -> nth_error z 12 = Some z12 -> nth_error z 13 = Some z13 -> nth_error z 14 = Some z14 ->
  an_at s target T -> an_at s z12 T12 -> an_at s z13 t -> an_at s z14 c -> 302400 < t < 4838400 ->
  calculated_closure (qb0 b) (digits (2 ^ 64) (T12 * t / (2016 * 10 * 60))) = Ok v ->
  exists tc ct s', run true (stage_target_update b target z) s = (Ok (tc, ct, z13), s') /\ an_at s' ct v /\
    (good s' <-> if c =? 0 then T = v else T = T12).
Proof. exact top_update_pallas. Qed.
Print Assumptions C86_update_pallas.

(** Over the field of src/util/scalar.rs the quotient can reach 2^256, and the honest run is then refused. *)
Theorem C86_calculate_fr : forall log2f ck, faithful_log2 log2f -> forall prev ts T t s, let E := fr_f64 log2f ck in
  good s -> an_at s prev T -> an_at s ts t -> 302400 < t < 4838400 ->
  exists b s' vs, run true (calculate_difficulty_update prev ts) s = (Ok b, s') /\ bignat_at s' b vs /\
    limb_width (bparams b) = 64%nat /\ List.length (limbs b) = 5%nat /\ value b = Some (T * t / (2016 * 10 * 60)) /\
    (good s' <-> T * t / (2016 * 10 * 60) < 2 ^ 256).
Proof. exact top_calculate_fr. Qed.
Print Assumptions C86_calculate_fr.

(** The largest target and span: accepted over Pallas, refused over the field of src/util/scalar.rs. *)
Example C86_pallas_case : let E := pallas_f64 log2_down true in
  exists b s', run true (
     let! target := an_alloc (Ok (pallas_scalar_modulus - 1)) in
     let! span := an_alloc (Ok 4838399) in
     calculate_difficulty_update target span) st_init = (Ok b, s') /\ good s' /\ value b = Some ((pallas_scalar_modulus - 1) * 4838399 / 1209600).
Proof. exact C86_pallas_witness. Qed.
Example C86_fr_case : let E := fr_f64 log2_down true in
  exists b s', run true (
     let! target := an_alloc (Ok (fr_modulus - 1)) in
     let! span := an_alloc (Ok 4838399) in
     calculate_difficulty_update target span) st_init = (Ok b, s') /\ value b = Some ((fr_modulus - 1) * 4838399 / 1209600) /\ ~ good s'.
Proof. exact C86_fr_witness. Qed.
(** A divisor of zero makes 2^300 an accepted result for a target of 1000; a target of 2^200 cannot be brought down to 0. *)
Example C86_prover_case : let E := pallas_f64 log2_down true in
  (exists b s' rho, run true (
     let! target := an_alloc (Ok 1000) in
     let! span := an_alloc (Ok 1209600) in
     calculate_difficulty_update target span) st_init = (Ok b, s') /\ value b = Some 1000 /\ sat rho s' /\ int_of rho b = 2 ^ 300) /\
  (exists a b c s s', run true (
     let! target := an_alloc (Ok (2 ^ 200)) in
     let! span := an_alloc (Ok 1209600) in Ret (target, span)) st_init = (Ok (a, b), s) /\
     run true (calculate_difficulty_update a b) s = (Ok c, s') /\ forall rho, same_on s rho (asg s) -> sat rho s' -> int_of rho c <> 0).
Proof. exact C86_prover_witness. Qed.
