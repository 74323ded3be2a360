(** The modulus of the field used by examples/validate_header.rs is prime. *)
From Coq Require Import ZArith Znumtheory List.
From Verif.Model Require Import Base Fields.
From Verif.Spec Require Import Spec.
From Verif.Proofs Require Import Prime Pocklington.
Import ListNotations.
Local Open Scope Z_scope.

Ltac by_trial := apply no_divisor_prime; vm_compute; reflexivity.
Ltac by_pock a q e l := apply (pock_prime _ a q e l); [vm_compute; reflexivity|cbn [map fst]; repeat (apply Forall_cons; [auto|]); apply Forall_nil].

Lemma prime_2 : prime 2. Proof. by_trial. Qed.
Lemma prime_23 : prime 23. Proof. by_trial. Qed.
Lemma prime_241 : prime 241. Proof. by_trial. Qed.
Local Hint Resolve prime_2 prime_23 prime_241 : core.
Lemma prime_1381 : prime 1381. Proof. by_pock 2 2 2 [(23, 1)]. Qed.
Local Hint Resolve prime_1381 : core.
Lemma prime_24859 : prime 24859. Proof. by_pock 2 1381 1 (@nil (Z * Z)). Qed.
Local Hint Resolve prime_24859 : core.
Lemma prime_125803 : prime 125803. Proof. by_pock 2 2 1 [(241, 1)]. Qed.
Local Hint Resolve prime_125803 : core.
Lemma prime_2012849 : prime 2012849. Proof. by_pock 2 125803 1 (@nil (Z * Z)). Qed.
Local Hint Resolve prime_2012849 : core.
Lemma prime_4025699 : prime 4025699. Proof. by_pock 2 2012849 1 (@nil (Z * Z)). Qed.
Local Hint Resolve prime_4025699 : core.
Lemma prime_80513981 : prime 80513981. Proof. by_pock 2 4025699 1 (@nil (Z * Z)). Qed.
Local Hint Resolve prime_80513981 : core.
Lemma prime_5247740253619 : prime 5247740253619. Proof. by_pock 2 80513981 1 (@nil (Z * Z)). Qed.
Local Hint Resolve prime_5247740253619 : core.
Lemma prime_1690502597179744445941507 : prime 1690502597179744445941507. Proof. by_pock 2 5247740253619 1 (@nil (Z * Z)). Qed.
Local Hint Resolve prime_1690502597179744445941507 : core.
Lemma prime_pallas_scalar_modulus : prime pallas_scalar_modulus. Proof. by_pock 5 2 32 [(24859, 1); (1690502597179744445941507, 1)]. Qed.
Local Hint Resolve prime_pallas_scalar_modulus : core.

Global Instance wf_pallas checks : Wf (pallas_env checks).
Proof. constructor; [apply prime_pallas_scalar_modulus| | |]; vm_compute; intuition discriminate. Qed.

(** ** The field of src/util/scalar.rs *)
Lemma prime_179 : prime 179. Proof. by_trial. Qed.
Local Hint Resolve prime_179 : core.
Lemma prime_359 : prime 359. Proof. by_pock 2 179 1 (@nil (Z * Z)). Qed.
Local Hint Resolve prime_359 : core.
Lemma prime_11 : prime 11. Proof. by_trial. Qed.
Local Hint Resolve prime_11 : core.
Lemma prime_110573 : prime 110573. Proof. by_pock 2 359 1 [(11, 1)]. Qed.
Local Hint Resolve prime_110573 : core.
Lemma prime_2653753 : prime 2653753. Proof. by_pock 2 110573 1 (@nil (Z * Z)). Qed.
Local Hint Resolve prime_2653753 : core.
Lemma prime_63690073 : prime 63690073. Proof. by_pock 2 2653753 1 (@nil (Z * Z)). Qed.
Local Hint Resolve prime_63690073 : core.
Lemma prime_254760293 : prime 254760293. Proof. by_pock 2 63690073 1 (@nil (Z * Z)). Qed.
Local Hint Resolve prime_254760293 : core.
Lemma prime_73 : prime 73. Proof. by_trial. Qed.
Local Hint Resolve prime_73 : core.
Lemma prime_1607 : prime 1607. Proof. by_pock 2 73 1 [(11, 1)]. Qed.
Local Hint Resolve prime_1607 : core.
Lemma prime_47 : prime 47. Proof. by_trial. Qed.
Local Hint Resolve prime_47 : core.
Lemma prime_906349 : prime 906349. Proof. by_pock 2 1607 1 [(47, 1)]. Qed.
Local Hint Resolve prime_906349 : core.
Lemma prime_449 : prime 449. Proof. by_pock 3 2 6 (@nil (Z * Z)). Qed.
Local Hint Resolve prime_449 : core.
Lemma prime_97 : prime 97. Proof. by_trial. Qed.
Local Hint Resolve prime_97 : core.
Lemma prime_609743 : prime 609743. Proof. by_pock 2 449 1 [(97, 1)]. Qed.
Local Hint Resolve prime_609743 : core.
Lemma prime_52437899 : prime 52437899. Proof. by_pock 2 609743 1 (@nil (Z * Z)). Qed.
Local Hint Resolve prime_52437899 : core.
Lemma prime_fr_modulus : prime fr_modulus. Proof. by_pock 5 254760293 2 [(906349, 2); (2, 32); (52437899, 1)]. Qed.
Local Hint Resolve prime_fr_modulus : core.

Global Instance wf_fr checks : Wf (fr_env checks).
Proof. constructor; [apply prime_fr_modulus| | |]; vm_compute; intuition discriminate. Qed.

(** ** A prime of 227 bits, for an example in which the proof-of-work stage succeeds *)
Definition proth : Z := 279 * 2 ^ 218 + 1.
Lemma prime_proth : prime proth. Proof. by_pock 5 2 218 (@nil (Z * Z)). Qed.
Local Hint Resolve prime_proth : core.
Definition proth_env (checks : bool) : Env := mkEnv proth 32 checks carry_bits_exact.
Global Instance wf_proth checks : Wf (proth_env checks).
Proof. constructor; [apply prime_proth| | |]; vm_compute; intuition discriminate. Qed.
