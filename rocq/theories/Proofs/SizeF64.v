(** Sizes over the Pallas scalar field with the carry widths of the code. *)
From Coq Require Import ZArith Bool List Lia.
From Verif.Model Require Import Base CS Bellpepper Util Poly Bignat Median Difficulty Fields F64.
From Verif.Spec Require Import Spec SpecF64 SpecSize.
From Verif.Proofs Require Import PrimeFields F64P TopF64 SizeP.
Import ListNotations.
Local Open Scope nat_scope.

Section Pallas.
Variables (l : f64 -> f64) (ck : bool).
Hypothesis HL : faithful_log2 l.
Let E : Env := pallas_f64 l ck.
Local Existing Instance E.

Lemma pallas_header : exact_carries ((2 ^ 64 - 1) * 2 ^ 128)%Z 64 /\ exact_carries ((2 ^ 64 - 1) * (2 ^ 65 - 1))%Z 64.
Proof. apply top_f64_header; [apply f64_carries_pallas, HL|..]; unfold E; rewrite cap_pallas_f64; lia. Qed.

Lemma size_calculate_word : Z.max (product_word 4 (full_word 64) 1 (full_word 64)) (right_word 5 1 (full_word 128) (full_word 64) 64) = ((2 ^ 64 - 1) * 2 ^ 128)%Z.
Proof. reflexivity. Qed.
Lemma size_update_word : Z.max (product_word 4 (full_word 64) 2 (full_word 64)) (right_word 6 2 (full_word 64) (full_word 64) 64) = ((2 ^ 64 - 1) * (2 ^ 65 - 1))%Z.
Proof. reflexivity. Qed.

Lemma size_calculate pt st : has_size (calculate_difficulty_update pt st) 0 1250 1255.
Proof.
  pose proof (z_calculate pt st) as Z. cbv zeta in Z. rewrite size_calculate_word in Z. apply sz_has in Z.
  destruct pallas_header as [[X1 X2] _].
  assert (G : group_size ((2 ^ 64 - 1) * 2 ^ 128)%Z 64 = 1) by (unfold group_size; rewrite X1; unfold E; rewrite cap_pallas_f64; reflexivity).
  unfold grouped_aux, grouped_cons, carried_aux, carried_cons, carry_width in Z. rewrite X2, G in Z. unfold group_word in Z. rewrite G in Z. exact Z.
Qed.
Lemma size_update a b c d t : has_size (verify_difficulty_update a b c d t) 0 1458 1465.
Proof.
  pose proof (z_update a b c d t) as Z. cbv zeta in Z. rewrite size_update_word in Z. apply sz_has in Z.
  destruct pallas_header as [_ [X1 X2]].
  assert (G : group_size ((2 ^ 64 - 1) * (2 ^ 65 - 1))%Z 64 = 2) by (unfold group_size; rewrite X1; unfold E; rewrite cap_pallas_f64; reflexivity).
  unfold grouped_aux, grouped_cons, carried_aux, carried_cons, carry_width in Z. rewrite X2, G in Z. unfold group_word in Z. rewrite G in Z. exact Z.
Qed.
End Pallas.
