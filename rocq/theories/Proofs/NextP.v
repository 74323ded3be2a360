(** C114: how headers are built, and the example's block. *)
From Coq Require Import ZArith Bool List Lia.
From Verif.Model Require Import Base Sha256 CS Bellpepper HeaderStep Driver Fields.
From Verif.Spec Require Import Spec SpecHeader SpecNext.
From Verif.Proofs Require Import Prime PrimeFields HeaderPanics HeaderP HeaderEx MiscP.
Import ListNotations.
Local Open Scope Z_scope.

Lemma blocks_kept bs : length (new_blocks bs) = length bs /\ forall i, nth_error (new_blocks bs) i = nth_error bs i.
Proof. unfold new_blocks. rewrite map_id. auto. Qed.

Lemma default_zero : header_ok default_header /\ header_bytes default_header = repeat 0 80.
Proof. split; [split; [reflexivity|unfold default_header; repeat constructor; lia]|reflexivity]. Qed.

Lemma example_valid {E : Env} : 2 ^ 207 <= modulus -> exists z h, initial_z_i_scalars = Ok z /\ new_blocks input = [h] /\ valid_next z h.
Proof.
  intros HM. eexists _, block_123456. split; [exact (top_initial_state HM)|]. split; [reflexivity|].
  split; [exact block_ok_123456|]. split; [reflexivity|]. destruct C60_witness as (_ & HT & _). destruct C74_witness as (_ & _ & HP & _).
  split; [rewrite HT; vm_compute; lia|]. split; [reflexivity|]. cbn [app nth]. lia.
Qed.

Lemma example_refused {E : Env} : 2 ^ 207 <= modulus -> exists z h, initial_z_i_scalars = Ok z /\ new_blocks input = [h] /\ valid_next z h /\
  forall wit zs s, fst (run wit (synthesize h zs) s) = Panic.
Proof. intros HM. destruct (example_valid HM) as (z & h & H1 & H2 & H3). exists z, h. repeat (split; [assumption|]). intros. apply top_synthesize_panics. Qed.
