(** Primality of concrete moduli. *)
From Coq Require Import ZArith Znumtheory Bool List Lia ZifyBool ZifyNat.
From Verif.Model Require Import Base Fields.
From Verif.Spec Require Import Spec.
Import ListNotations.
Local Open Scope Z_scope.

(** Trial division. *)
Definition no_divisor (p : Z) : bool :=
  (1 <? p) && forallb (fun d => negb (p mod Z.of_nat d =? 0)) (seq 2 (Z.to_nat p - 2)).

Lemma no_divisor_prime p : no_divisor p = true -> prime p.
Proof.
  unfold no_divisor. rewrite andb_true_iff, forallb_forall. intros [H1 H2].
  apply prime_intro; [lia|]. intros n Hn. apply Zgcd_1_rel_prime.
  pose proof (Z.gcd_nonneg n p) as G0.
  destruct (Z.gcd_divide_l n p) as [a Ha]. destruct (Z.gcd_divide_r n p) as [b Hb].
  apply Z.ltb_lt in H1. remember (Z.gcd n p) as g eqn:Eqg. clear Eqg.
  assert (g <> 0) by (intros ->; lia).
  destruct (Z.eq_dec g 1) as [|N]; auto. exfalso.
  assert (1 <= a) by nia. assert (Hg : 2 <= g <= n) by nia.
  specialize (H2 (Z.to_nat g)). rewrite in_seq, Z2Nat.id in H2 by lia.
  assert (Hm : p mod g = 0) by (rewrite Hb; apply Z_mod_mult).
  rewrite Hm in H2. simpl in H2. discriminate H2. lia.
Qed.

Lemma wf_small p : no_divisor p = true -> 2 < p -> p <= 256 -> Wf (small_env p).
Proof.
  intros H1 H2 H3. constructor; unfold modulus, repr_len, small_env; auto.
  - now apply no_divisor_prime.
  - unfold NUM_BITS, modulus. rewrite Nat2Z.inj_succ, Z2Nat.id by apply Z.log2_nonneg.
    assert (Z.log2 p <= Z.log2 256) by (apply Z.log2_le_mono; lia).
    change (Z.log2 256) with 8 in H. lia.
Qed.

Global Instance wf_13 : Wf (small_env 13).
Proof. apply wf_small; [reflexivity|lia|lia]. Qed.
Global Instance wf_251 : Wf (small_env 251).
Proof. apply wf_small; [vm_compute; reflexivity|lia|lia]. Qed.
