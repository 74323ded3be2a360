(** Fields of three bytes, for examples that need more room than one byte. *)
From Coq Require Import ZArith Znumtheory Bool List Lia ZifyBool ZifyNat.
From Verif.Model Require Import Base Fields.
From Verif.Spec Require Import Spec.
From Verif.Proofs Require Import Pocklington.
Import ListNotations.
Local Open Scope Z_scope.

Definition mid_env (p : Z) : Env := mkEnv p 3 true carry_bits_exact.

(** Trial division by the numbers up to 256. *)
Definition no_small_divisor (p : Z) : bool :=
  forallb (fun d => negb (p mod Z.of_nat d =? 0)) (seq 2 255).
Lemma no_small_divisor_prime p : 1 < p < 66049 -> no_small_divisor p = true -> prime p.
Proof.
  intros Hp H. destruct (prime_dec p) as [|N]; auto. exfalso.
  destruct (small_prime_divisor p ltac:(lia) N) as (r & R1 & R2 & R3). pose proof (prime_ge_2 _ R1) as R4.
  unfold no_small_divisor in H. rewrite forallb_forall in H. specialize (H (Z.to_nat r)).
  rewrite in_seq, Z2Nat.id in H by lia. rewrite (proj2 (Z.mod_divide p r ltac:(lia)) R2) in H.
  assert (r < 257) by nia. specialize (H ltac:(lia)). discriminate H.
Qed.
Lemma wf_mid p : no_small_divisor p = true -> 2 < p < 66049 -> Wf (mid_env p).
Proof.
  intros H1 H2. constructor; unfold modulus, repr_len, mid_env.
  - apply no_small_divisor_prime; auto. lia.
  - lia.
  - change (256 ^ Z.of_nat 3) with 16777216. lia.
  - unfold NUM_BITS, modulus. rewrite Nat2Z.inj_succ, Z2Nat.id by apply Z.log2_nonneg.
    assert (H : Z.log2 p <= Z.log2 66049) by (apply Z.log2_le_mono; lia). change (Z.log2 66049) with 16 in H. lia.
Qed.
Global Instance wf_65521 : Wf (mid_env 65521).
Proof. apply wf_mid; [vm_compute; reflexivity|lia]. Qed.
Global Instance wf_65537 : Wf (mid_env 65537).
Proof. apply wf_mid; [vm_compute; reflexivity|lia]. Qed.
