(** C01-C05: conversions between integers, scalars, bits and limbs. *)
From Coq Require Import ZArith Bool List.
From Verif.Model Require Import Base CS Bellpepper Util Poly Bignat Fields.
From Verif.Spec Require Import Spec.
From Verif.Proofs Require Import Field Convert Limbs Prime TopConvert.
Import ListNotations.
Local Open Scope Z_scope.

(** Converting an integer below the modulus to a scalar and back. *)
Theorem C01_nat_f_nat : forall (E : Env), Wf E -> forall n, 0 <= n < modulus ->
  exists f, nat_to_f n = Some f /\ canon f /\ f_to_nat f = n.
Proof. exact @nat_f_nat. Qed.
Print Assumptions C01_nat_f_nat.

(** Converting a scalar to an integer and back. *)
Theorem C01_f_nat_f : forall (E : Env), Wf E -> forall f, canon f ->
  0 <= f_to_nat f < modulus /\ nat_to_f (f_to_nat f) = Some f.
Proof. exact @top_f_nat_f. Qed.
Print Assumptions C01_f_nat_f.

Example C01_case : let E := small_env 251 in
  0 <= 207 < modulus /\ nat_to_f 207 = Some 207 /\ f_to_nat 207 = 207.
Proof. vm_compute. intuition discriminate. Qed.

(** The result of [nat_to_f] for every integer: reduction, and [None] only for negatives. *)
Theorem C02_nat_to_f_reduces : forall (E : Env) n,
  (0 <= n -> nat_to_f n = Some (n mod modulus)) /\ (n < 0 -> nat_to_f n = None).
Proof. exact @top_nat_to_f. Qed.
Print Assumptions C02_nat_to_f_reduces.

(** The documented behaviour fails: for every too-big number [Some] is returned and the number is
    not recovered. *)
Theorem C02_too_big_refuted : forall (E : Env), Wf E -> forall n, modulus <= n ->
  exists f, nat_to_f n = Some f /\ f_to_nat f <> n.
Proof. exact @top_nat_to_f_big. Qed.
Print Assumptions C02_too_big_refuted.

Example C02_case : let E := small_env 251 in
  nat_to_f 1000 = Some 247 /\ nat_to_f (-5) = None.
Proof. vm_compute. auto. Qed.

(** [f_to_usize] on every scalar, and after [usize_to_f]. *)
Theorem C03_f_to_usize : forall (E : Env), Wf E -> forall f, canon f ->
  (f < 256 -> f_to_usize f = Ok f) /\ (256 <= f -> f_to_usize f = Panic).
Proof. exact @top_f_to_usize. Qed.
Print Assumptions C03_f_to_usize.

Theorem C03_usize_roundtrip : forall (E : Env), Wf E -> forall n, 0 <= n < modulus ->
  (f_to_usize (usize_to_f n) = Ok n <-> n < 256).
Proof. exact @top_usize_roundtrip. Qed.
Print Assumptions C03_usize_roundtrip.

Example C03_case : let E := fr_env true in
  f_to_usize 255 = Ok 255 /\ f_to_usize 256 = Panic /\ f_to_usize (2 ^ 200) = Panic.
Proof. vm_compute. auto. Qed.

(** [get_bit] reads the binary expansion, below the bit length and nowhere else. *)
Theorem C04_get_bit : forall (E : Env), Wf E -> forall x i, canon x -> Z.of_nat i < 2 ^ 32 ->
  ((i < NUM_BITS)%nat -> get_bit x i = Ok (Some (Z.testbit x (Z.of_nat i)))) /\
  ((NUM_BITS <= i)%nat -> get_bit x i = Ok None).
Proof. exact @top_get_bit. Qed.
Print Assumptions C04_get_bit.

(** Indices from 2^32 on are cut to 32 bits for the bound test only: some panic. *)
Theorem C04_get_bit_wrap : forall (E : Env) x i, 8 * Z.of_nat repr_len <= 2 ^ 32 -> 2 ^ 32 <= Z.of_nat i ->
  (Z.of_nat i mod 2 ^ 32 < Z.of_nat NUM_BITS -> get_bit x i = Panic) /\
  (Z.of_nat NUM_BITS <= Z.of_nat i mod 2 ^ 32 -> get_bit x i = Ok None).
Proof. exact @top_get_bit_wrap. Qed.
Print Assumptions C04_get_bit_wrap.
Example C04_wrap_case : let E := fr_env true in
  8 * Z.of_nat repr_len <= 2 ^ 32 /\
  exists i, Z.of_nat i = 2 ^ 32 + 5 /\ Z.of_nat i mod 2 ^ 32 < Z.of_nat NUM_BITS.
Proof.
  split; [vm_compute; discriminate|]. exists (Z.to_nat (2 ^ 32 + 5)). rewrite Z2Nat.id by (vm_compute; discriminate).
  split; [reflexivity|vm_compute; reflexivity].
Qed.

(** Reading all the bits gives the scalar back. *)
Theorem C04_recompose : forall (E : Env), Wf E -> forall x, canon x -> exists bs,
  map (get_bit x) (seq 0 NUM_BITS) = map (fun b => Ok (Some b)) bs /\ bits_value bs = x.
Proof. exact @top_get_bits. Qed.
Print Assumptions C04_recompose.

Example C04_case : let E := small_env 251 in
  NUM_BITS = 8%nat /\
  map (get_bit 202) (seq 0 9) =
  map (fun b => Ok (Some b)) [false; true; false; true; false; false; true; true] ++ [Ok None].
Proof. vm_compute. auto. Qed.

(** Splitting a natural into limbs. *)
Theorem C05_split : forall (E : Env), Wf E -> forall v w n, 0 <= v -> (w < NUM_BITS)%nat ->
  (v < 2 ^ Z.of_nat (w * n) -> exists ls,
     nat_to_limbs v w n = Ok ls /\ length ls = n /\
     Forall (fun d => 0 <= d < 2 ^ Z.of_nat w) ls /\
     limbs_to_nat ls w = v /\ value_of (2 ^ Z.of_nat w) ls = v) /\
  (2 ^ Z.of_nat (w * n) <= v -> nat_to_limbs v w n = Err Unsatisfiable).
Proof. exact @split_spec. Qed.
Print Assumptions C05_split.

(** Joining limbs and splitting again. *)
Theorem C05_join_split : forall (E : Env), Wf E -> forall ls w, (w < NUM_BITS)%nat ->
  Forall (fun d => 0 <= d < 2 ^ Z.of_nat w) ls ->
  nat_to_limbs (limbs_to_nat ls w) w (length ls) = Ok ls.
Proof. exact @join_split. Qed.
Print Assumptions C05_join_split.

(** The error condition does not depend on the width being below the field width. *)
Theorem C05_error_iff : forall (E : Env) v w n, 0 <= v ->
  ((exists ls, nat_to_limbs v w n = Ok ls) <-> v < 2 ^ Z.of_nat (w * n)).
Proof. exact @top_split_error. Qed.
Print Assumptions C05_error_iff.

Example C05_case : let E := small_env 251 in
  nat_to_limbs 2748 4 3 = Ok [12; 11; 10] /\ limbs_to_nat [12; 11; 10] 4 = 2748 /\
  nat_to_limbs 4096 4 3 = Err Unsatisfiable.
Proof. vm_compute. auto. Qed.
