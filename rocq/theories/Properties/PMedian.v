(** C46-C51, C69-C71: medians and comparisons. *)
From Coq Require Import ZArith Znumtheory Bool List Permutation Sorted.
From Verif.Model Require Import Base CS Bellpepper Util Poly Bignat Ints Median Fields.
From Verif.Spec Require Import Spec.
From Verif.Proofs Require Import Prime PrimeFields TopMedian MedianEx.
Import ListNotations.
Local Open Scope Z_scope.

(** The value returned is the element at index len/2 of the sorted vector. *)
Theorem C46_median_value : forall ts,
  ts <> [] -> exists m l, compute_median_timestamp ts = Ok (m, l) /\
  Permutation ts l /\ StronglySorted Z.le l /\ nth_error l (List.length ts / 2) = Some m /\ In m ts /\
  (List.length (filter (fun t => (t <? m)%Z) ts) <= List.length ts / 2)%nat /\
  (List.length (filter (fun t => (m <? t)%Z) ts) < (List.length ts + 1) / 2)%nat.
Proof. exact @top_median_ok. Qed.
Print Assumptions C46_median_value.

(** It is the only value, occurring or not, with those two counts. *)
Theorem C46_median_unique : forall ts m l m',
  compute_median_timestamp ts = Ok (m, l) ->
  (List.length (filter (fun t => (t <? m')%Z) ts) <= List.length ts / 2)%nat ->
  (List.length (filter (fun t => (m' <? t)%Z) ts) < (List.length ts + 1) / 2)%nat -> m' = m.
Proof. exact @top_median_unique. Qed.
Print Assumptions C46_median_unique.

Theorem C46_median_empty : compute_median_timestamp [] = Panic.
Proof. exact @top_median_empty. Qed.
Print Assumptions C46_median_empty.

Example C46_case : compute_median_timestamp [9; 3; 7; 3] = Ok (7, [3; 3; 7; 9]).
Proof. reflexivity. Qed.

(** Up to 126 bits the honest run of [less_than] compares exactly. *)
Theorem C47_less_than_exact : forall (E : Env) (W : Wf E) a b x y n s,
  good s -> an_at s a x -> an_at s b y ->
  (n <= 126)%nat -> 2 ^ (Z.of_nat n + 2) < modulus -> x < 2 ^ (Z.of_nat n + 1) -> y < 2 ^ (Z.of_nat n + 1) ->
  exists r s', run true (less_than a b n) s = (Ok r, s') /\ good s' /\ boolean_at s' r (x <? y).
Proof. exact @top_less_than_low. Qed.
Print Assumptions C47_less_than_exact.

Example C47_case : let E := small_env 251 in
  let go (x y : Z) := let '(r, s) := run true (
     let! a := an_alloc (Ok x) in
     let! b := an_alloc (Ok y) in
     less_than a b 5) st_init in
     match r with Ok b => (bool_val b, satb (asg s) s) | _ => (None, false) end in
  go 62 63 = (Some true, true) /\ go 63 63 = (Some false, true) /\ go 63 0 = (Some false, true).
Proof. vm_compute. auto. Qed.

(** From 127 bits on, [less_than] says no to every pair in range, and so does [leq]. *)
Theorem C48_less_than_wide : forall (E : Env) (W : Wf E) a b x y n s,
  good s -> an_at s a x -> an_at s b y ->
  (127 <= n <= 252)%nat -> 2 ^ (Z.of_nat n + 3) < modulus -> x < 2 ^ (Z.of_nat n + 1) -> y < 2 ^ (Z.of_nat n + 1) ->
  exists r s', run true (less_than a b n) s = (Ok r, s') /\ good s' /\ boolean_at s' r false.
Proof. exact @top_less_than_high. Qed.
Print Assumptions C48_less_than_wide.

Theorem C48_leq_wide : forall (E : Env) (W : Wf E) a b x y n s,
  good s -> an_at s a x -> an_at s b y ->
  (127 <= n <= 252)%nat -> 2 ^ (Z.of_nat n + 3) < modulus -> x < 2 ^ (Z.of_nat n + 1) -> y < 2 ^ (Z.of_nat n + 1) ->
  exists r s', run true (leq a b n) s = (Ok r, s') /\ good s' /\ boolean_at s' r false.
Proof. exact @top_leq_high. Qed.
Print Assumptions C48_leq_wide.

(** At 224 bits in the Pallas scalar field: 1 < 2 is answered with no. *)
Example C48_case : let E := pallas_env true in
  exists r s', run true (
     let! a := an_alloc (Ok 1) in
     let! b := an_alloc (Ok 2) in
     less_than a b 224) st_init = (Ok r, s') /\ bool_val r = Some false.
Proof. exact C48_witness. Qed.

(** Up to 126 bits the honest run of [leq] compares exactly. *)
Theorem C49_leq_exact : forall (E : Env) (W : Wf E) a b x y n s,
  good s -> an_at s a x -> an_at s b y ->
  (n <= 126)%nat -> 2 ^ (Z.of_nat n + 2) < modulus -> x < 2 ^ (Z.of_nat n + 1) -> y < 2 ^ (Z.of_nat n + 1) ->
  exists r s', run true (leq a b n) s = (Ok r, s') /\ good s' /\ boolean_at s' r (x <=? y).
Proof. exact @top_leq_low. Qed.
Print Assumptions C49_leq_exact.

Example C49_case : let E := small_env 251 in
  let go (x y : Z) := let '(r, s) := run true (
     let! a := an_alloc (Ok x) in
     let! b := an_alloc (Ok y) in
     leq a b 5) st_init in
     match r with Ok b => (bool_val b, satb (asg s) s) | _ => (None, false) end in
  go 62 63 = (Some true, true) /\ go 63 63 = (Some true, true) /\ go 63 62 = (Some false, true).
Proof. vm_compute. auto. Qed.

(** Whatever the operands, both results satisfy every constraint. *)
Theorem C50_less_than_free : forall (E : Env) (W : Wf E) wit a b n s r s' rho0 x,
  good_for rho0 s -> run wit (less_than a b n) s = (Ok r, s') ->
  exists rho, same_on s rho rho0 /\ sat rho s' /\ feval rho (bool_lc r 1) = Z.b2z x.
Proof. exact @top_less_than_free. Qed.
Print Assumptions C50_less_than_free.

Theorem C50_leq_free : forall (E : Env) (W : Wf E) wit a b n s r s' rho0 x,
  good_for rho0 s -> run wit (leq a b n) s = (Ok r, s') ->
  exists rho, same_on s rho rho0 /\ sat rho s' /\ feval rho (bool_lc r 1) = Z.b2z x.
Proof. exact @top_leq_free. Qed.
Print Assumptions C50_leq_free.

(** For instance 1 < 2 with the answer no: the third to eighth values are the prover's choice. *)
Example C50_case : let E := small_env 251 in
  let '(r, s) := run true (
     let! a := an_alloc (Ok 1) in
     let! b := an_alloc (Ok 2) in
     less_than a b 5) st_init in
  let cheat v := match v with VAux n => nth n [1; 2; 0; 1; 0; 250; 250; 1] 0 | VIn _ => 1 end in
  match r with Ok b => bool_val b = Some true /\ satb cheat s = true /\ feval cheat (bool_lc b 1) = 0 | _ => False end.
Proof. vm_compute. auto. Qed.

(** The honest result of the median check for every length below 2^32. *)
Theorem C51_median_formula : forall (E : Env) (W : Wf E) ts m s,
  good s -> 2 ^ 34 < modulus -> 0 <= m < 2 ^ 32 -> Forall (fun t => 0 <= t < 2 ^ 32) ts ->
  Z.of_nat (List.length ts) < 2 ^ 32 ->
  let L := Z.of_nat (List.length (filter (fun t => (t <? m)%Z) ts)) in
  let G := Z.of_nat (List.length (filter (fun t => (m <? t)%Z) ts)) in
  let Q := Z.of_nat (List.length (filter (fun t => (t =? m)%Z) ts)) in
  exists r s', run true (verify_median_timestamp ts m) s = (Ok r, s') /\ good s' /\
    boolean_at s' r ((if L - G <? 12 then G - L else L - G) + 1 <=? Q).
Proof. exact @top_median_formula. Qed.
Print Assumptions C51_median_formula.

(** For up to eleven timestamps: accepted exactly when fewer than half are greater. *)
Theorem C51_median_short : forall (E : Env) (W : Wf E) ts m s,
  good s -> 2 ^ 34 < modulus -> 0 <= m < 2 ^ 32 -> Forall (fun t => 0 <= t < 2 ^ 32) ts ->
  (List.length ts <= 11)%nat ->
  exists r s', run true (verify_median_timestamp ts m) s = (Ok r, s') /\ good s' /\
    boolean_at s' r (2 * List.length (filter (fun t => (m <? t)%Z)%Z ts) <? List.length ts)%nat.
Proof. exact @top_median_short. Qed.
Print Assumptions C51_median_short.

(** The computed median is accepted for up to 23 timestamps ... *)
Theorem C51_median_accepts : forall (E : Env) (W : Wf E) ts m l s,
  good s -> 2 ^ 34 < modulus -> Forall (fun t => 0 <= t < 2 ^ 32) ts ->
  (List.length ts <= 23)%nat -> compute_median_timestamp ts = Ok (m, l) ->
  exists r s', run true (verify_median_timestamp ts m) s = (Ok r, s') /\ good s' /\ boolean_at s' r true.
Proof. exact @top_median_accepts. Qed.
Print Assumptions C51_median_accepts.

(** ... but not for all vectors of 24. *)
Theorem C51_median_24_refuted : forall (E : Env) (W : Wf E) s,
  good s -> 2 ^ 34 < modulus ->
  exists ts m l r s', List.length ts = 24%nat /\ Forall (fun t => 0 <= t < 2 ^ 32) ts /\
    compute_median_timestamp ts = Ok (m, l) /\
    run true (verify_median_timestamp ts m) s = (Ok r, s') /\ good s' /\ boolean_at s' r false.
Proof. exact @top_median_24_refuted. Qed.
Print Assumptions C51_median_24_refuted.

(** Values above the true median are accepted as well. *)
Theorem C51_median_larger : forall (E : Env) (W : Wf E) ts m s,
  good s -> 2 ^ 34 < modulus -> m < 2 ^ 32 -> Forall (fun t => 0 <= t <= m) ts ->
  (1 <= List.length ts <= 11)%nat ->
  exists r s', run true (verify_median_timestamp ts m) s = (Ok r, s') /\ good s' /\ boolean_at s' r true.
Proof. exact @top_median_larger. Qed.
Print Assumptions C51_median_larger.

(** The hypotheses are met in the Pallas scalar field. *)
Example C51_case : let E := pallas_env true in
  exists r s', run true (verify_median_timestamp [30; 10; 20] 4294967295) st_init = (Ok r, s') /\ good s' /\ boolean_at s' r true.
Proof. exact C51_witness. Qed.

(** The circuit does not enforce the median: keeping every wire but the last six auxiliary ones, either
    result satisfies all constraints. *)
Theorem C69_median_free : forall (E : Env) (W : Wf E) ts m s x,
  good s -> 2 ^ 34 < modulus -> 0 <= m < 2 ^ 32 -> Forall (fun t => 0 <= t < 2 ^ 32) ts ->
  Z.of_nat (List.length ts) < 2 ^ 32 ->
  exists r s' rho, run true (verify_median_timestamp ts m) s = (Ok r, s') /\ sat rho s' /\
    feval rho (bool_lc r 1) = Z.b2z x /\
    (forall k, (k < List.length (st_in s'))%nat -> rho (VIn k) = asg s' (VIn k)) /\
    (forall k, (k < List.length (st_aux s') - 6)%nat -> rho (VAux k) = asg s' (VAux k)).
Proof. exact @top_median_free. Qed.
Print Assumptions C69_median_free.

Example C69_case : let E := pallas_env true in
  exists r s' rho, run true (verify_median_timestamp [30; 10; 20] 10) st_init = (Ok r, s') /\ boolean_at s' r false /\ sat rho s' /\
    feval rho (bool_lc r 1) = 1.
Proof. exact C69_witness. Qed.

(** Without witnesses the check panics for every non-empty vector. *)
Theorem C70_median_shape : forall (E : Env) ts m s,
  (fst (run false (verify_median_timestamp ts m) s) = Panic) <-> ts <> [].
Proof. exact @top_median_shape. Qed.
Print Assumptions C70_median_shape.

Example C70_case : let E := small_env 251 in fst (run false (verify_median_timestamp [5] 5) st_init) = Panic.
Proof. vm_compute. reflexivity. Qed.

(** A width at or above the bit length of the field panics. *)
Theorem C71_wide_panics : forall (E : Env) (W : Wf E) a b x y n s,
  good s -> an_at s a x -> an_at s b y -> (NUM_BITS <= n)%nat ->
  fst (run true (less_than a b n) s) = Panic /\ fst (run true (leq a b n) s) = Panic.
Proof. exact @top_less_than_panics. Qed.
Print Assumptions C71_wide_panics.

Example C71_case : let E := small_env 251 in
  let go n := fst (run true (
     let! a := an_alloc (Ok 1) in
     let! b := an_alloc (Ok 2) in
     less_than a b n) st_init) in
  NUM_BITS = 8%nat /\ go 8%nat = Panic /\ exists r, go 7%nat = Ok r.
Proof. vm_compute. eauto. Qed.
