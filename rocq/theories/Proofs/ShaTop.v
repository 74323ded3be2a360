(** The hash gadget against the macro constraint, and an instance. *)
From Coq Require Import ZArith Bool List Lia.
From Verif.Model Require Import Base Fields Sha256 CS Bellpepper Util Poly Bignat ShaGadget.
From Verif.Spec Require Import Spec SpecSha.
From Verif.Proofs Require Import Field Wp Lc BoolP PrimeFields HashP ShaP ShaInst.
Import ListNotations.
Local Open Scope Z_scope.

Section Top.
Context {E : Env} {W : Wf E}.
Lemma top_sha_macro wit ins s outs s' rho : run wit (sha256_r1cs ins) s = (Ok outs, s') -> sat rho s' ->
  Forall (fun b => feval rho (bool_lc b 1) = 0 \/ feval rho (bool_lc b 1) = 1) ins ->
  csat rho (ShaC (map (fun b => bool_lc b 1) ins) (map (fun b => bool_lc b 1) outs)).
Proof.
  intros Hr Hs Hb.
  assert (Hi : exists vs, Forall2 (fun b v => feval rho (bool_lc b 1) = Z.b2z v) ins vs).
  { clear -Hb. induction Hb as [|b ins [Hb|Hb] H (vs & IH)]; [exists []; constructor|exists (false :: vs)|exists (true :: vs)]; constructor; auto. }
  destruct Hi as [vs Hi]. pose proof (top_sha_sound wit ins vs s outs s' rho Hr Hs Hi) as Ho. cbn [csat].
  rewrite (bits_ins rho ins vs) by (eapply F2_iff; [intros; symmetry; apply wire_feval|exact Hi]).
  clear -Ho. induction Ho as [|b v outs ws Hb H IH]; auto. cbn [map]. now rewrite Hb, IH.
Qed.
End Top.

Lemma C89_witness : exists ins s outs s', @good (pallas_env true) s /\ (64 <= @NUM_BITS (pallas_env true))%nat /\ length ins = 24%nat /\
  Forall2 (@boolean_at (pallas_env true) s) ins (bytes_bits [97; 98; 99]) /\ @run _ true (@sha256_r1cs (pallas_env true) ins) s = (Ok outs, s') /\
  Forall2 (@boolean_at (pallas_env true) s') outs
    (digest_words [0xba7816bf; 0x8f01cfea; 0x414140de; 0x5dae2223; 0xb00361a3; 0x96177a9c; 0xb410ff61; 0xf20015ad]).
Proof.
  set (E := pallas_env true). pose proof (wf_pallas true : Wf E) as W.
  destruct (alloc_bits_run (bytes_bits [97; 98; 99]) st_init good_init) as (ins & s & _ & Hg & Hb).
  assert (HN : (64 <= NUM_BITS)%nat) by (apply Nat.leb_le; vm_compute; reflexivity).
  assert (HL : length ins = 24%nat) by (rewrite (Arith.Forall2_length _ _ _ Hb); reflexivity).
  destruct (top_sha_complete ins (bytes_bits [97; 98; 99]) s Hg HN) as (outs & s' & Hr & _ & Ho); auto; [rewrite HL; reflexivity|].
  exists ins, s, outs, s'. split; [exact Hg|]. split; [exact HN|]. split; [exact HL|]. split; [exact Hb|]. split; [exact Hr|].
  replace (digest_words _) with (sha256 (bytes_bits [97; 98; 99])) by (vm_compute; reflexivity). exact Ho.
Qed.
