(** Final forms of the conversion lemmas. *)
From Coq Require Import ZArith Bool List Lia ZifyBool ZifyNat.
From Verif.Model Require Import Base CS Bellpepper Util Poly Bignat Fields.
From Verif.Spec Require Import Spec.
From Verif.Proofs Require Import Field Arith Convert Limbs.
Import ListNotations.
Local Open Scope Z_scope.

Section Top.
Context {E : Env} {W : Wf E}.

Lemma top_f_nat_f f : canon f -> 0 <= f_to_nat f < modulus /\ nat_to_f (f_to_nat f) = Some f.
Proof. intros H. split; [rewrite f_to_nat_canon by auto; exact H|now apply f_nat_f]. Qed.

Lemma top_nat_to_f n :
  (0 <= n -> nat_to_f n = Some (n mod modulus)) /\ (n < 0 -> nat_to_f n = None).
Proof. split; [apply nat_to_f_nonneg|apply nat_to_f_neg]. Qed.

Lemma top_nat_to_f_big n : modulus <= n -> exists f, nat_to_f n = Some f /\ f_to_nat f <> n.
Proof.
  intros H. pose proof mod_pos. exists (fmk n). split; [apply nat_to_f_nonneg; lia|].
  rewrite f_to_nat_canon by apply fmk_canon. pose proof (fmk_range n). lia.
Qed.

Lemma top_f_to_usize f : canon f ->
  (f < 256 -> f_to_usize f = Ok f) /\ (256 <= f -> f_to_usize f = Panic).
Proof.
  intros H. rewrite f_to_usize_spec by auto. destruct (Z.ltb_spec f 256); split; intros; auto; lia.
Qed.

Lemma top_usize_roundtrip n : 0 <= n < modulus ->
  (f_to_usize (usize_to_f n) = Ok n <-> n < 256).
Proof.
  intros H. unfold usize_to_f, from_u64. rewrite fmk_small by lia.
  rewrite f_to_usize_spec by exact H. destruct (Z.ltb_spec n 256); split; intros; auto; try lia.
  discriminate.
Qed.

Lemma top_get_bit x i : canon x -> Z.of_nat i < 2 ^ 32 ->
  ((i < NUM_BITS)%nat -> get_bit x i = Ok (Some (Z.testbit x (Z.of_nat i)))) /\
  ((NUM_BITS <= i)%nat -> get_bit x i = Ok None).
Proof. intros H Hi. split; intros; [now apply get_bit_in|now apply get_bit_out]. Qed.

Lemma top_get_bit_wrap x i : 8 * Z.of_nat repr_len <= 2 ^ 32 -> 2 ^ 32 <= Z.of_nat i ->
  (Z.of_nat i mod 2 ^ 32 < Z.of_nat NUM_BITS -> get_bit x i = Panic) /\
  (Z.of_nat NUM_BITS <= Z.of_nat i mod 2 ^ 32 -> get_bit x i = Ok None).
Proof.
  change (2 ^ 32) with 4294967296. intros Hr Hi. unfold get_bit. split; intros H.
  - rewrite (proj2 (Z.leb_gt _ _)) by exact H. unfold idx. rewrite (proj2 (nth_error_None _ _)); [reflexivity|].
    unfold to_repr. rewrite le_bytes_length.
    assert (G : Z.of_nat (i / 8) = Z.of_nat i / 8) by (rewrite Nat2Z.inj_div; reflexivity).
    pose proof (Z.div_le_lower_bound (Z.of_nat i) 8 (Z.of_nat repr_len)). lia.
  - rewrite (proj2 (Z.leb_le _ _)) by exact H. reflexivity.
Qed.

Lemma top_get_bits x : canon x -> exists bs,
  map (get_bit x) (seq 0 NUM_BITS) = map (fun b => Ok (Some b)) bs /\ bits_value bs = x.
Proof.
  intros H. exists (map (fun i => Z.testbit x (Z.of_nat i)) (seq 0 NUM_BITS)).
  split; [|now apply get_bits_value]. rewrite map_map. apply map_ext_in. intros i Hi.
  apply in_seq in Hi. apply get_bit_in; auto; [|lia]. pose proof wf_bits. lia.
Qed.

Lemma top_split_error v w n : 0 <= v ->
  ((exists ls, nat_to_limbs v w n = Ok ls) <-> v < 2 ^ Z.of_nat (w * n)).
Proof.
  intros H. split.
  - intros [ls Hl]. destruct (Z_lt_le_dec v (2 ^ Z.of_nat (w * n))) as [L|L]; auto.
    rewrite nat_to_limbs_err in Hl by lia. discriminate.
  - intros L. eexists. apply nat_to_limbs_ok. lia.
Qed.

End Top.
