(** src/mp/bignat.rs:27-69: integers and limbs. *)
From Coq Require Import ZArith Bool List Lia ZifyBool ZifyNat.
From Verif.Model Require Import Base CS Util Bignat.
From Verif.Spec Require Import Spec.
From Verif.Proofs Require Import Field Arith Convert.
Import ListNotations.
Local Open Scope Z_scope.

Section Limbs.
Context {E : Env} {W : Wf E}.

Lemma limbs_to_nat_value ls w :
  limbs_to_nat ls w = value_of (2 ^ Z.of_nat w) (map f_to_nat ls).
Proof.
  unfold limbs_to_nat. induction ls as [|l ls IH]; auto.
  cbn [rev map value_of]. rewrite fold_left_app, IH. cbn [fold_left].
  rewrite Z.shiftl_mul_pow2 by lia. ring.
Qed.

Lemma map_f_to_nat ls : Forall canon ls -> map f_to_nat ls = ls.
Proof. induction 1; simpl; f_equal; auto using f_to_nat_canon. Qed.

Lemma limbs_to_nat_canon ls w : Forall canon ls ->
  limbs_to_nat ls w = value_of (2 ^ Z.of_nat w) ls.
Proof. intros H. now rewrite limbs_to_nat_value, map_f_to_nat. Qed.

Lemma int_with_n_ones_spec w : int_with_n_ones w = 2 ^ Z.of_nat w - 1.
Proof. unfold int_with_n_ones. rewrite Z.shiftl_mul_pow2 by lia. lia. Qed.

Lemma land_ones_mod v w : Z.land v (int_with_n_ones w) = v mod 2 ^ Z.of_nat w.
Proof.
  rewrite int_with_n_ones_spec. replace (2 ^ Z.of_nat w - 1) with (Z.ones (Z.of_nat w)).
  - apply Z.land_ones; lia.
  - rewrite Z.ones_equiv. lia.
Qed.

(** Digit [i] of [v] in base 2^w. *)
Definition digit (w : nat) (v : Z) (i : nat) : Z :=
  (v / 2 ^ Z.of_nat (w * i)) mod 2 ^ Z.of_nat w.

Lemma digit_range w v i : 0 <= digit w v i < 2 ^ Z.of_nat w.
Proof. apply Z.mod_pos_bound, pow2_pos. Qed.

Lemma digits_value w v n :
  value_of (2 ^ Z.of_nat w) (map (digit w v) (seq 0 n)) = v mod 2 ^ Z.of_nat (w * n).
Proof.
  revert v. induction n; intros v.
  - rewrite Nat.mul_0_r. change (2 ^ Z.of_nat 0) with 1. now rewrite Z.mod_1_r.
  - cbn [seq map value_of]. rewrite <- seq_shift, map_map.
    rewrite (value_of_ext _ _ (digit w (v / 2 ^ Z.of_nat w))).
    + rewrite IHn. unfold digit. rewrite Nat.mul_0_r. change (2 ^ Z.of_nat 0) with 1.
      rewrite Z.div_1_r, Nat.mul_succ_r, Nat.add_comm, pow2_add.
      pose proof (pow2_pos w). pose proof (pow2_pos (w * n)).
      rewrite Z.rem_mul_r by lia. reflexivity.
    + intros i _. unfold digit. rewrite Nat.mul_succ_r, Nat.add_comm, pow2_add.
      pose proof (pow2_pos w). pose proof (pow2_pos (w * i)).
      rewrite Z.div_div by lia. reflexivity.
Qed.

Lemma split_limbs_spec w : forall n v,
  split_limbs n w v = Ok (map (fun i => fmk (digit w v i)) (seq 0 n)).
Proof.
  induction n; intros v; auto.
  cbn [split_limbs]. rewrite land_ones_mod.
  rewrite nat_to_f_nonneg by (apply Z.mod_pos_bound, pow2_pos).
  cbn [unwrap rbind]. rewrite IHn. cbn [rbind seq map]. do 2 f_equal.
  - unfold digit. rewrite Nat.mul_0_r. change (2 ^ Z.of_nat 0) with 1. now rewrite Z.div_1_r.
  - rewrite <- seq_shift, map_map. apply map_ext. intros i. f_equal. unfold digit.
    rewrite Z.shiftr_div_pow2 by lia. rewrite Nat.mul_succ_r, Nat.add_comm, pow2_add.
    pose proof (pow2_pos w). pose proof (pow2_pos (w * i)).
    rewrite Z.div_div by lia. reflexivity.
Qed.

Lemma bigint_bits_le v n : (bigint_bits v <= n)%nat <-> Z.abs v < 2 ^ Z.of_nat n.
Proof.
  unfold bigint_bits. destruct (Z.eqb_spec v 0) as [->|N].
  - simpl Z.abs. pose proof (pow2_pos n). lia.
  - pose proof (Z.log2_spec (Z.abs v) ltac:(lia)) as [L1 L2].
    pose proof (Z.log2_nonneg (Z.abs v)).
    split; intros Hn.
    + eapply Z.lt_le_trans; [exact L2|]. apply Z.pow_le_mono_r; lia.
    + assert (L3 : 2 ^ Z.log2 (Z.abs v) < 2 ^ Z.of_nat n) by lia.
      apply Z.pow_lt_mono_r_iff in L3; lia.
Qed.

Lemma nat_to_limbs_ok v w n : Z.abs v < 2 ^ Z.of_nat (w * n) ->
  nat_to_limbs v w n = Ok (map (fun i => fmk (digit w v i)) (seq 0 n)).
Proof.
  intros H. unfold nat_to_limbs. rewrite Nat.mul_comm in H. apply bigint_bits_le in H.
  destruct (Nat.leb_spec (bigint_bits v) (n * w)); [|lia]. apply split_limbs_spec.
Qed.
Lemma nat_to_limbs_err v w n : 2 ^ Z.of_nat (w * n) <= Z.abs v ->
  nat_to_limbs v w n = Err Unsatisfiable.
Proof.
  intros H. unfold nat_to_limbs. destruct (Nat.leb_spec (bigint_bits v) (n * w)) as [L|L]; auto.
  apply bigint_bits_le in L. rewrite Nat.mul_comm in L. lia.
Qed.

Lemma width_lt_modulus w : (w < NUM_BITS)%nat -> 2 ^ Z.of_nat w <= modulus.
Proof.
  intros H. pose proof modulus_bits as [M _]. rewrite num_bits_S in H.
  eapply Z.le_trans; [|exact M]. apply pow2_le. lia.
Qed.

Lemma digit_fmk w v i : (w < NUM_BITS)%nat -> fmk (digit w v i) = digit w v i.
Proof.
  intros H. apply fmk_small. pose proof (digit_range w v i). pose proof (width_lt_modulus w H). lia.
Qed.

Lemma nat_to_limbs_digits v w n : (w < NUM_BITS)%nat -> 0 <= v < 2 ^ Z.of_nat (w * n) ->
  nat_to_limbs v w n = Ok (map (digit w v) (seq 0 n)).
Proof.
  intros Hw Hv. rewrite nat_to_limbs_ok by lia. f_equal. apply map_ext. intros. now apply digit_fmk.
Qed.

Lemma digits_range w v n : Forall (fun d => 0 <= d < 2 ^ Z.of_nat w) (map (digit w v) (seq 0 n)).
Proof. apply Forall_map, Forall_forall. intros; apply digit_range. Qed.

Lemma range_canon w ls : (w < NUM_BITS)%nat -> Forall (fun d => 0 <= d < 2 ^ Z.of_nat w) ls ->
  Forall canon ls.
Proof.
  intros Hw. apply Forall_impl. intros d Hd. pose proof (width_lt_modulus w Hw).
  red. lia.
Qed.

(** Splitting succeeds exactly when the number fits (C05). *)
Lemma split_spec v w n : 0 <= v -> (w < NUM_BITS)%nat ->
  (v < 2 ^ Z.of_nat (w * n) -> exists ls,
     nat_to_limbs v w n = Ok ls /\ length ls = n /\
     Forall (fun d => 0 <= d < 2 ^ Z.of_nat w) ls /\
     limbs_to_nat ls w = v /\ value_of (2 ^ Z.of_nat w) ls = v) /\
  (2 ^ Z.of_nat (w * n) <= v -> nat_to_limbs v w n = Err Unsatisfiable).
Proof.
  intros Hv Hw. split; intros H.
  - exists (map (digit w v) (seq 0 n)). pose proof (digits_range w v n) as R.
    rewrite nat_to_limbs_digits by lia. rewrite map_length, seq_length.
    rewrite limbs_to_nat_canon by (eapply range_canon; eauto).
    rewrite digits_value, Z.mod_small by lia. auto.
  - apply nat_to_limbs_err. lia.
Qed.

Lemma join_split ls w : (w < NUM_BITS)%nat -> Forall (fun d => 0 <= d < 2 ^ Z.of_nat w) ls ->
  nat_to_limbs (limbs_to_nat ls w) w (length ls) = Ok ls.
Proof.
  intros Hw R. rewrite limbs_to_nat_canon by (eapply range_canon; eauto).
  pose proof (value_of_bound _ ls (pow2_pos w) R) as B. rewrite <- pow2_mul in B.
  rewrite nat_to_limbs_digits by auto. f_equal.
  apply (value_of_inj (2 ^ Z.of_nat w)); auto using pow2_pos, digits_range.
  - now rewrite map_length, seq_length.
  - rewrite digits_value. now apply Z.mod_small.
Qed.

End Limbs.
